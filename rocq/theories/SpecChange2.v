(** Changes of variables and derivatives. *)
From Coq Require Import List.
From Verif Require Import Base M_Tableau M_State M_ODE M_Integrator SpecRK SpecChange.
Import ListNotations.

Section Change.
Context {T : Type} {N : Num T}.

(** Perturbations are changed like slopes; [dq] is what happens to
    perturbations of parameters, those of time stay as they are. *)
Definition change_perturbation (ch : change T) (dq : list T -> list T) (d : ode_in T) : ode_in T := {|
  step_input := ch_slope ch (step_input d); stage_input := ch_slope ch (stage_input d);
  independent_input := dq (independent_input d); time := time d |}.

(** The derivatives at two linearization points are the same in the two sets of
    variables. *)
Definition same_tangents (ch : change T) dq (o o' : ode T) (h a : T) (lp lp' : list T) : Prop :=
  forall d, length (step_input d) = state_size o -> length (stage_input d) = state_size o ->
  length (independent_input d) = independent_input_size o ->
  match compute_update_derivative o lp d h a with
  | Ok r => exists r', compute_update_derivative o' lp' (change_perturbation ch dq d) h a = Ok r' /\
              stage_update r' = ch_slope ch (stage_update r)
  | Err e => compute_update_derivative o' lp' (change_perturbation ch dq d) h a = Err e
  end.
(** So are the derivatives wherever both ODEs have been evaluated. *)
Definition changed_derivatives (ch : change T) dq (o o' : ode T) : Prop :=
  forall i h a r lp r' lp', length (step_input i) = state_size o -> length (stage_input i) = state_size o ->
  length (independent_input i) = independent_input_size o ->
  compute_update o i h a = Ok (r, lp) -> compute_update o' (change_in ch i) h a = Ok (r', lp') ->
  same_tangents ch dq o o' h a lp lp'.

Definition change_dinputs (ch : change T) (dq : list T -> list T) (d : inputs T) : inputs T :=
  {| time_initial := time_initial d; initial := ch_slope ch (initial d); independent := dq (independent d) |}.
Definition change_doutputs (ch : change T) (r : outputs T) : outputs T :=
  {| time_final := time_final r; final := ch_slope ch (final r) |}.
End Change.
