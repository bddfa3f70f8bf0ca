(** C93 for forward products. *)
From Coq Require Import List Lia Bool Arith ZArith QArith.
From Verif Require Import Base Ext M_Tableau M_State M_ODE M_Step M_Controller M_Measure M_Integrator
  SpecRK SpecShape SpecDeriv SpecRun SpecChange SpecChange2 L_Change3 L_Change5 WitnessRun.
Import ListNotations.
Local Open Scope nat_scope.

(** ** C93 *)
(** If also the derivatives of the two ODEs correspond, forward products in the
    new variables are the changed forward products; perturbations are changed
    linearly. *)
Theorem C93_forward : forall (T : Type) (N : Num T) (C : Type) (op : options T C) (o' : ode T) (ch : change T) dq,
  is_change (state_size (o_ode op)) (state_size o') ch ->
  (forall p, length p = independent_input_size (o_ode op) -> length (ch_parameters ch p) = independent_input_size o') ->
  (forall p, length p = independent_input_size (o_ode op) -> length (dq p) = independent_input_size o') ->
  sized_ode (o_ode op) -> sized_ode o' -> changed_ode ch (o_ode op) o' -> changed_derivatives ch dq (o_ode op) o' ->
  (o_adaptive op = true -> same_norms ch (o_ode op) o') -> quiet op ->
  forall c w c' v i d, inputs_sized (o_ode op) i -> inputs_sized (o_ode op) d ->
  reachable op c w -> reachable (change_options ch o' op) c' v -> ctl w = ctl v ->
  forall out', (exists v', compute_jacvec_product_fwd (change_options ch o' op) (change_inputs ch i) (change_dinputs ch dq d) v = (v', Ok out')) <->
  (exists w' out, compute_jacvec_product_fwd op i d w = (w', Ok out) /\ out' = change_doutputs ch out).
Proof. exact (@c93_forward). Qed.
Print Assumptions C93_forward.

(** Two states exchanged, three steps. *)
Section Examples.
Local Open Scope Q_scope.
Let op := gop heun lxy AllCheckpointer false (1 # 2) (PredefinedNumberOfSteps 3).
Let i : inputs Q := {| time_initial := 0; initial := [1; 2]; independent := [3] |}.
Let d : inputs Q := {| time_initial := 1; initial := [1; 0]; independent := [2] |}.
Example C93_forward_premises : (forall k, In k [1%nat; 0%nat] -> (k < state_size (o_ode op))%nat) /\
  sized_ode (o_ode op) /\ sized_ode (lyx (T := Q)) /\ changed_ode (picked [1%nat; 0%nat]) (o_ode op) lyx /\
  changed_derivatives (picked [1%nat; 0%nat]) (fun q => q) (o_ode op) lyx /\ quiet op /\ inputs_sized (o_ode op) i /\ inputs_sized (o_ode op) d.
Proof.
  split; [intros k [<-|[<-|[]]]; cbn; lia|]. split; [apply linear_sized; reflexivity|]. split; [apply linear_sized; reflexivity|].
  split; [apply lxy_lyx|]. split; [apply lxy_lyx|]. split; [apply gop_quiet|]. split; split; reflexivity.
Qed.
Example C93_forward_run : match snd (compute_jacvec_product_fwd op i d (setup op tt)) with
  | Ok out => forallb (fun p => Qeq_bool (fst p) (snd p)) (combine (final out) [11 # 2; 39 # 8]) | Err _ => false end = true.
Proof. vm_compute. reflexivity. Qed.
End Examples.
