(** C93 for reverse products. *)
From Coq Require Import List Lia Bool Arith ZArith QArith.
From Verif Require Import Base Ext M_Tableau M_State M_ODE M_Step M_Controller M_Measure M_Integrator
  SpecRK SpecShape SpecDeriv SpecRun SpecChange SpecChange3 L_Change6 L_Change7 WitnessRun.
Import ListNotations.
Local Open Scope nat_scope.

(** ** C93 *)
(** If also the adjoint derivatives of the two ODEs correspond, the gradient for
    weights of the new outputs, taken back to the old inputs, is the gradient
    for these weights taken back to the old outputs.  All checkpoints stored. *)
Theorem C93_reverse : forall (T : Type) (N : Num T) (C : Type) (op : options T C) (o' : ode T) (ch : change T) K Kq,
  is_change (state_size (o_ode op)) (state_size o') ch ->
  (forall p, length p = independent_input_size (o_ode op) -> length (ch_parameters ch p) = independent_input_size o') ->
  pulls_back (state_size (o_ode op)) (state_size o') K ->
  pulls_back_parameters (independent_input_size (o_ode op)) (independent_input_size o') Kq ->
  sized_ode (o_ode op) -> sized_ode o' -> ignores_stage_state_weights (o_ode op) -> ignores_stage_state_weights o' ->
  changed_ode ch (o_ode op) o' -> changed_adjoints ch K Kq (o_ode op) o' ->
  (o_adaptive op = true -> same_norms ch (o_ode op) o') -> o_ckpt op = AllCheckpointer -> quiet op ->
  forall c i d, inputs_sized (o_ode op) i -> outputs_sized o' d ->
  forall g, (exists w', compute_jacvec_product_rev op i (pull_outputs K d) (setup op c) = (w', Ok g)) <->
  (exists v' g', compute_jacvec_product_rev (change_options ch o' op) (change_inputs ch i) d (setup (change_options ch o' op) c) = (v', Ok g') /\
     g = pull_inputs K Kq g').
Proof. exact (@c93_reverse). Qed.
Print Assumptions C93_reverse.

(** Two states exchanged, three steps. *)
Section Examples.
Local Open Scope Q_scope.
Let op := gop heun bxy AllCheckpointer false (1 # 2) (PredefinedNumberOfSteps 3).
Let K := ch_slope (picked (T := Q) [1%nat; 0%nat]).
Let i : inputs Q := {| time_initial := 0; initial := [1; 2]; independent := [3] |}.
Let d : outputs Q := {| time_final := 0; final := [1; 0] |}.
Example C93_reverse_premises : pulls_back (state_size (o_ode op)) (state_size (byx (T := Q))) K /\
  pulls_back_parameters (independent_input_size (o_ode op)) (independent_input_size (byx (T := Q))) (fun q => q) /\
  sized_ode (o_ode op) /\ sized_ode (byx (T := Q)) /\ ignores_stage_state_weights (o_ode op) /\ ignores_stage_state_weights (byx (T := Q)) /\
  changed_ode (picked [1%nat; 0%nat]) (o_ode op) byx /\ changed_adjoints (picked [1%nat; 0%nat]) K (fun q => q) (o_ode op) byx /\
  quiet op /\ inputs_sized (o_ode op) i /\ outputs_sized byx d.
Proof.
  split; [apply (pulls_back_picked 2 [1%nat; 0%nat]); intros k [<-|[<-|[]]]; lia|]. split; [apply pulls_back_same|].
  split; [apply backward_sized; reflexivity|]. split; [apply backward_sized; reflexivity|].
  split; [apply backward_ignores|]. split; [apply backward_ignores|].
  split; [apply bxy_byx|]. split; [apply bxy_byx|]. split; [apply gop_quiet|]. split; [split; reflexivity|reflexivity].
Qed.
Example C93_reverse_run : match snd (compute_jacvec_product_rev op i (pull_outputs K d) (setup op tt)) with
  | Ok g => forallb (fun p => Qeq_bool (fst p) (snd p)) (combine (time_initial g :: initial g ++ independent g) [9 # 8; 3 # 2; 1; 9 # 8]) | Err _ => false end = true.
Proof. vm_compute. reflexivity. Qed.
End Examples.
