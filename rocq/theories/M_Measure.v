(** Model of /repo/src/rkopenmdao/error_measurer.py and of
    runge_kutta_integrator.py:639-648. *)
From Coq Require Import List QArith.
From Verif Require Import Base M_State M_ODE.
Import ListNotations.

Section Measure.
Context {T : Type} {N : Num T}.

(** error_measurer.py:41-82: the two shipped measurers (eta and eps of the
    improved one, both 1e-6 by default). *)
Inductive measurer : Type :=
| SimpleErrorMeasurer
| ImprovedErrorMeasurer (eta eps : T).

(** error_measurer.py:46-52 and 71-82, [get_measure]. *)
Definition get_measure (m : measurer) (state_error_estimate state : ode_out T) (o : ode T) : T :=
  match m with
  | SimpleErrorMeasurer => compute_state_norm o state_error_estimate
  | ImprovedErrorMeasurer eta eps =>
      ndiv (compute_state_norm o state_error_estimate)
           (nadd (compute_state_norm o state) (ndiv eta eps))
  end.

(** runge_kutta_integrator.py:639-648, [_get_error_measure]; AttributeError
    when the state has no [error_estimate] (non-embedded tableau). *)
Definition state_measure (m : measurer) (o : ode T) (s : rkstate T) : res T :=
  match embedded s with
  | None => Err AttributeError
  | Some (_, err) =>
      Ok (get_measure m
            {| stage_update := []; stage_state := err; independent_output := [] |}
            {| stage_update := []; stage_state := final_state s; independent_output := [] |} o)
  end.
End Measure.
Arguments measurer T : clear implicits.

(** error_measurer.py:68-69, default parameters. *)
Definition default_improved {T} {N : Num T} : measurer T :=
  ImprovedErrorMeasurer (nlit (1 # 1000000)) (nlit (1 # 1000000)).
