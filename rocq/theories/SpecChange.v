(** Changes of variables: other units or another order of the states, another
    origin of states and time, other parameters. *)
From Coq Require Import List Reals.
From Verif Require Import Base Ext M_Tableau M_State M_ODE M_Controller M_Measure M_Integrator SpecRK.
Import ListNotations.

Section Change.
Context {T : Type} {N : Num T}.

(** What happens to states, to changes of states (slopes, errors), to
    parameters and to times. *)
Record change : Type := {
  ch_state : list T -> list T;
  ch_slope : list T -> list T;
  ch_parameters : list T -> list T;
  ch_time : T -> T }.

(** Slopes are changed linearly, states by the same map and perhaps another
    origin, times by another origin; [n], [n'] are the numbers of states before
    and after. *)
Record is_change (n n' : nat) (ch : change) : Prop := {
  cg_zero : ch_slope ch (vzeros n) = vzeros n';
  cg_add : forall x y, length x = n -> length y = n -> ch_slope ch (vadd x y) = vadd (ch_slope ch x) (ch_slope ch y);
  cg_scale : forall x a, length x = n -> ch_slope ch (map (fun z => nmul z a) x) = map (fun z => nmul z a) (ch_slope ch x);
  cg_length : forall x, length x = n -> length (ch_slope ch x) = n';
  cg_move : forall x u, length x = n -> length u = n -> ch_state ch (vadd x u) = vadd (ch_state ch x) (ch_slope ch u);
  cg_diff : forall x y, length x = n -> length y = n -> ch_slope ch (vsub x y) = vsub (ch_state ch x) (ch_state ch y);
  cg_states : forall x, length x = n -> length (ch_state ch x) = n';
  cg_time : forall t h, ch_time ch (nadd t h) = nadd (ch_time ch t) h;
  cg_left : forall t s, nsub (ch_time ch t) (ch_time ch s) = nsub t s }.

Definition change_in (ch : change) (i : ode_in T) : ode_in T := {|
  step_input := ch_state ch (step_input i); stage_input := ch_slope ch (stage_input i);
  independent_input := ch_parameters ch (independent_input i); time := ch_time ch (time i) |}.

(** [o'] is [o] in the new variables. *)
Definition changed_ode (ch : change) (o o' : ode T) : Prop :=
  forall i h a, length (step_input i) = state_size o -> length (stage_input i) = state_size o ->
  length (independent_input i) = independent_input_size o ->
  match compute_update o i h a with
  | Ok (r, _) => exists r' lp', compute_update o' (change_in ch i) h a = Ok (r', lp') /\
                   stage_update r' = ch_slope ch (stage_update r)
  | Err e => compute_update o' (change_in ch i) h a = Err e
  end.

(** Norms of states and of their changes are the same in the new variables. *)
Definition same_norms (ch : change) (o o' : ode T) : Prop :=
  forall x, length x = state_size o ->
  compute_state_norm o' {| stage_update := []; stage_state := ch_state ch x; independent_output := [] |} =
  compute_state_norm o {| stage_update := []; stage_state := x; independent_output := [] |} /\
  compute_state_norm o' {| stage_update := []; stage_state := ch_slope ch x; independent_output := [] |} =
  compute_state_norm o {| stage_update := []; stage_state := x; independent_output := [] |}.

Definition change_crit (ch : change) (c : criterion T) : criterion T :=
  match c with PredefinedNumberOfSteps n => PredefinedNumberOfSteps n | PredefinedFinalTime t => PredefinedFinalTime (ch_time ch t) end.

(** The same options in the new variables. *)
Definition change_options {C} (ch : change) (o' : ode T) (op : options T C) : options T C := {|
  o_bt := o_bt op; o_ode := o'; o_ckpt := o_ckpt op; o_adaptive := o_adaptive op; o_step := o_step op;
  o_crit := change_crit ch (o_crit op); o_inf := o_inf op; o_meas := o_meas op; o_tol := o_tol op; o_ctl := o_ctl op;
  o_callbacks := o_callbacks op; retry_limit := retry_limit op; loop_limit := loop_limit op |}.
Definition change_inputs (ch : change) (i : inputs T) : inputs T :=
  {| time_initial := ch_time ch (time_initial i); initial := ch_state ch (initial i);
     independent := ch_parameters ch (independent i) |}.
Definition change_outputs (ch : change) (r : outputs T) : outputs T :=
  {| time_final := ch_time ch (time_final r); final := ch_state ch (final r) |}.
End Change.
Arguments change T : clear implicits.

(** States picked in the order [p], for every scalar type; states multiplied by
    a matrix, moved, and time moved, over the reals.  Parameters as they are. *)
Definition picked {T} {N : Num T} (p : list nat) : change T :=
  let f := fun x => map (fun k => nth k x n0) p in
  {| ch_state := f; ch_slope := f; ch_parameters := fun q => q; ch_time := fun t => t |}.
Definition affine (M : list (list R)) (v : list R) (tau : R) : change R := {|
  ch_state := fun x => vadd (map (fun r => dot r x) M) v; ch_slope := fun x => map (fun r => dot r x) M;
  ch_parameters := fun q => q; ch_time := fun t => (t + tau)%R |}.
