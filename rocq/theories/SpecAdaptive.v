(** Notions for statements about runs with error control. *)
From Coq Require Import List Reals.
From Verif Require Import Base Ext M_Tableau M_State M_ODE M_Step M_Controller M_Measure M_Integrator
  SpecControl.
Import ListNotations.

Section Generic.
Context {T : Type} {N : Num T} {C : Type}.
Variable op : options T C.

(** The question put to the controller after trying a step of size
    [suggestion st] from [st], which led to [tmp] with error measure [em]. *)
Definition question (st : tistate T) (tmp : rkstate T) (em : T) : call_args T := {|
  error_measure := em; delta_t := suggestion st;
  remaining_time := remaining_time_func (o_inf op) (o_crit op) (final_time tmp);
  error_history := err_hist st; step_size_history := step_hist st |}.

(** A trial from [st] leads to [tmp] with error measure [em]. *)
Definition trial (st : tistate T) (tmp : rkstate T) (em : T) : Prop :=
  compute_step (o_bt op) (o_ode op) (disc st) (suggestion st) = Ok tmp /\
  state_measure (o_meas op) (o_ode op) tmp = Ok em.

(** The trial from [st] fails with [e] before the controller is asked. *)
Definition trial_fails (st : tistate T) (e : exn) : Prop :=
  compute_step (o_bt op) (o_ode op) (disc st) (suggestion st) = Err e \/
  exists tmp, compute_step (o_bt op) (o_ode op) (disc st) (suggestion st) = Ok tmp /\
              state_measure (o_meas op) (o_ode op) tmp = Err e.

(** [st1] is [st] with another step size to try. *)
Definition with_suggestion (h : T) (st : tistate T) : tistate T :=
  {| disc := disc st; suggestion := h; step_hist := step_hist st; err_hist := err_hist st |}.

(** One rejected trial of a step. *)
Inductive retry (c : C) (st : tistate T) : C -> tistate T -> Prop :=
| retry_intro tmp em c1 stat :
    trial st tmp em -> o_ctl op c (question st tmp em) = (c1, Ok stat) ->
    acceptance stat = false ->
    retry c st c1 (with_suggestion (step_size_suggestion stat) st).

(** [l]: the step sizes of consecutive rejected trials of one step. *)
Inductive retries (c : C) (st : tistate T) : list T -> C -> tistate T -> Prop :=
| retries_none : retries c st [] c st
| retries_more c1 st1 l c2 st2 :
    retry c st c1 st1 -> retries c1 st1 l c2 st2 -> retries c st (suggestion st :: l) c2 st2.

(** The same options with another bound on the number of trials. *)
Definition with_retry_limit (n : nat) : options T C := {|
  o_bt := o_bt op; o_ode := o_ode op; o_ckpt := o_ckpt op; o_adaptive := o_adaptive op;
  o_step := o_step op; o_crit := o_crit op; o_inf := o_inf op; o_meas := o_meas op;
  o_tol := o_tol op; o_ctl := o_ctl op; o_callbacks := o_callbacks op;
  retry_limit := n; loop_limit := loop_limit op |}.

End Generic.

Open Scope R_scope.

(** Error control by the controllers of M_Controller.v with configuration
    [cfg], towards the final time [tf]. *)
Record controlled (op : options (ext R) (controller (ext R))) (cfg : config (ext R))
    (tf lb : R) : Prop := {
  cd_ctl : o_ctl op = ctl_call cfg;
  cd_adaptive : o_adaptive op = true;
  cd_crit : o_crit op = PredefinedFinalTime (Fin tf);
  cd_lower : lower_bound cfg = Fin lb;
  cd_bounds : xle (lower_bound cfg) (upper_bound cfg)
}.

(** At time [t] the step to be tried has size [h]. *)
Definition about_to (st : tistate (ext R)) (t h : R) : Prop :=
  final_time (disc st) = Fin t /\ suggestion st = Fin h.

(** Time is left for a step of size [lb] from time [t]. *)
Definition time_left (crit : criterion (ext R)) (t lb : R) : Prop :=
  match crit with
  | PredefinedNumberOfSteps _ => True
  | PredefinedFinalTime (Fin tf) => t + lb <= tf
  | PredefinedFinalTime _ => False
  end.

(** Error control by a single integral controller of order [p] with tolerance
    [eps], safety factor [kappa] and lower bound [lb]. *)
Record integral_control (op : options (ext R) (controller (ext R))) (cfg : config (ext R))
    (p eps kappa lb : R) : Prop := {
  ic_ctl : o_ctl op = ctl_call cfg;
  ic_adaptive : o_adaptive op = true;
  ic_inf : o_inf op = PInf;
  ic_order : 0 < p;
  ic_tol : tol cfg = Fin eps; ic_eps : 0 < eps;
  ic_safety : safety_factor cfg = Fin kappa; ic_kappa : 0 < kappa < 1;
  ic_lower : lower_bound cfg = Fin lb; ic_lb : 0 <= lb;
  ic_bounds : xle (lower_bound cfg) (upper_bound cfg)
}.

(** No trial from [st], of whatever size, has error measure nan. *)
Definition errors_are_numbers (op : options (ext R) (controller (ext R))) (st : tistate (ext R)) : Prop :=
  forall h tmp em, trial op (with_suggestion h st) tmp em -> em <> NaN.

(** Each step size in the list is smaller than the one before. *)
Fixpoint decreasing (l : list (ext R)) : Prop :=
  match l with
  | x :: ((y :: _) as l') => xlt y x /\ decreasing l'
  | _ => True
  end.

(** The exponents used by the members of a chain of controllers. *)
Fixpoint members {T} (c : controller T) : list (exponents T) :=
  match c with
  | Plain x _ => [x]
  | Decorated x _ _ _ c' => x :: members c'
  end.

(** A member that reacts to the error measure. *)
Definition reacts (x : exponents (ext R)) : Prop := exists al, x_alpha x = Fin al /\ al <> 0.
