(** C92: a run of n + m steps is a run of n steps followed by a run of m steps
    started from its outputs, and so are its derivative products. *)
From Coq Require Import List Lia Bool Arith Reals Lra QArith.
From Verif Require Import Base Ext M_Tableau M_State M_ODE M_Step M_Controller M_Measure M_Integrator
  SpecRK SpecShape SpecDeriv SpecRun SpecRestart L_Vec L_Generic L_Run L_Iter L_Whole L_WholeR L_Restart L_Restart2 L_Restart3 L_Restart4 WitnessRun.
Import ListNotations.
Local Open Scope nat_scope.

(** ** C92 *)
Theorem C92_compute : forall (T : Type) (N : Num T) (C : Type) (op : options T C) (n m : nat),
  sized_ode (o_ode op) -> o_adaptive op = false -> loops op -> quiet op -> n + m < loop_limit op ->
  forall c w c1 w1 c2 w2 i out,
  reachable (steps op (n + m)) c w -> reachable (steps op n) c1 w1 -> reachable (steps op m) c2 w2 ->
  inputs_sized (o_ode op) i ->
  ((exists w', compute (steps op (n + m)) i w = (w', Ok out)) <->
   exists o1 w1' w2', compute (steps op n) i w1 = (w1', Ok o1) /\
     compute (steps op m) (restart i o1) w2 = (w2', Ok out)).
Proof. exact (@c92_compute). Qed.
Print Assumptions C92_compute.

(** Forward products chain: the first run's tangent is the second one's seed. *)
Theorem C92_forward : forall (T : Type) (N : Num T) (C : Type) (op : options T C) (n m : nat),
  sized_ode (o_ode op) -> o_adaptive op = false -> loops op -> quiet op -> n + m < loop_limit op ->
  forall c w c1 w1 c1' v1 c2 w2 i d dout,
  reachable (steps op (n + m)) c w -> reachable (steps op n) c1 w1 -> reachable (steps op n) c1' v1 ->
  reachable (steps op m) c2 w2 -> inputs_sized (o_ode op) i -> inputs_sized (o_ode op) d ->
  ((exists w', compute_jacvec_product_fwd (steps op (n + m)) i d w = (w', Ok dout)) <->
   exists o1 w1' d1 v1' w2', compute (steps op n) i w1 = (w1', Ok o1) /\
     compute_jacvec_product_fwd (steps op n) i d v1 = (v1', Ok d1) /\
     compute_jacvec_product_fwd (steps op m) (restart i o1) (restart d d1) w2 = (w2', Ok dout)).
Proof. exact (@c92_forward). Qed.
Print Assumptions C92_forward.

(** Reverse products chain backwards: the second run's adjoint is the first
    one's seed.  For every scalar type the adjoints of initial time and values
    are exactly those of the first run. *)
Theorem C92_reverse : forall (T : Type) (N : Num T) (C : Type) (op : options T C) (n m : nat),
  sized_ode (o_ode op) -> ignores_stage_state_weights (o_ode op) -> o_adaptive op = false ->
  o_ckpt op = AllCheckpointer -> quiet op -> n + m < loop_limit op ->
  forall c c1 c2 i d o1 w1', inputs_sized (o_ode op) i -> outputs_sized (o_ode op) d ->
  compute (steps op n) i (setup (steps op n) c1) = (w1', Ok o1) ->
  (forall w' g, compute_jacvec_product_rev (steps op (n + m)) i d (setup (steps op (n + m)) c) = (w', Ok g) ->
     exists w2' gB v1' gA,
     compute_jacvec_product_rev (steps op m) (restart i o1) d (setup (steps op m) c2) = (w2', Ok gB) /\
     compute_jacvec_product_rev (steps op n) i (weights gB) (setup (steps op n) c1) = (v1', Ok gA) /\
     time_initial g = time_initial gA /\ initial g = initial gA) /\
  (forall w2' gB v1' gA,
     compute_jacvec_product_rev (steps op m) (restart i o1) d (setup (steps op m) c2) = (w2', Ok gB) ->
     compute_jacvec_product_rev (steps op n) i (weights gB) (setup (steps op n) c1) = (v1', Ok gA) ->
     exists w' g, compute_jacvec_product_rev (steps op (n + m)) i d (setup (steps op (n + m)) c) = (w', Ok g) /\
       time_initial g = time_initial gA /\ initial g = initial gA).
Proof. exact (@c92_reverse). Qed.
Print Assumptions C92_reverse.

(** Over the reals the adjoints of the parameters are added. *)
Theorem C92_parameters : forall (C : Type) (op : options R C) (n m : nat),
  sized_ode (o_ode op) -> ignores_stage_state_weights (o_ode op) -> o_adaptive op = false ->
  o_ckpt op = AllCheckpointer -> quiet op -> n + m < loop_limit op ->
  forall c c1 c2 i d o1 w1' w' w2' v1' g gA gB, inputs_sized (o_ode op) i -> outputs_sized (o_ode op) d ->
  compute (steps op n) i (setup (steps op n) c1) = (w1', Ok o1) ->
  compute_jacvec_product_rev (steps op (n + m)) i d (setup (steps op (n + m)) c) = (w', Ok g) ->
  compute_jacvec_product_rev (steps op m) (restart i o1) d (setup (steps op m) c2) = (w2', Ok gB) ->
  compute_jacvec_product_rev (steps op n) i (weights gB) (setup (steps op n) c1) = (v1', Ok gA) ->
  length (independent g) = independent_input_size (o_ode op) /\
  forall k, nth k (independent g) 0%R = (nth k (independent gB) 0 + nth k (independent gA) 0)%R.
Proof. exact c92_parameters. Qed.
Print Assumptions C92_parameters.

(** Runs up to a final time may be interrupted at any earlier one. *)
Theorem C92_final_time : forall (C : Type) (op : options R C),
  sized_ode (o_ode op) -> o_adaptive op = false -> loops op -> quiet op ->
  forall t1 t2, (t1 <= t2)%R -> forall c w c1 w1 c2 w2 i w' out,
  reachable (until op t2) c w -> reachable (until op t1) c1 w1 -> reachable (until op t2) c2 w2 ->
  inputs_sized (o_ode op) i -> compute (until op t2) i w = (w', Ok out) ->
  exists o1 w1' w2', compute (until op t1) i w1 = (w1', Ok o1) /\
    compute (until op t2) (restart i o1) w2 = (w2', Ok out).
Proof. exact c92_until. Qed.
Print Assumptions C92_final_time.

(** *** Examples: five steps are two steps and three *)
Section Examples.
Local Open Scope Q_scope.
Let op := gop heun (gode never never) AllCheckpointer false (1 # 2) (PredefinedNumberOfSteps 0).
Let i := gin 0 1 2.
Let vnth_q (l : list Q) : Q := nth 0 l 0.
Example C92_example_premises : sized_ode (o_ode op) /\ ignores_stage_state_weights (o_ode op) /\ o_adaptive op = false /\
  loops op /\ quiet op /\ (2 + 3 < loop_limit op)%nat /\ inputs_sized (o_ode op) i /\ outputs_sized (o_ode op) (gout 1 1).
Proof.
  split; [apply gode_sized|]. split; [apply gode_ignores|]. split; [reflexivity|]. split; [exact I|].
  split; [apply gop_quiet|]. split; [apply Nat.ltb_lt; reflexivity|]. split; [split|]; reflexivity.
Qed.
Example C92_example_compute : exists w' out, compute (steps op 5) i (setup (steps op 5) tt) = (w', Ok out) /\
  negb (neqb (vnth_q (final out)) 1) = true.
Proof. apply (pick _ (fun out => negb (neqb (vnth_q (final out)) 1))). vm_compute. reflexivity. Qed.
Example C92_example_forward : exists w' d, compute_jacvec_product_fwd (steps op 5) i (gin 1 1 1) (setup (steps op 5) tt) = (w', Ok d) /\
  negb (neqb (vnth_q (final d)) 0) = true.
Proof. apply (pick _ (fun d => negb (neqb (vnth_q (final d)) 0))). vm_compute. reflexivity. Qed.
Example C92_example_reverse : exists w' g, compute_jacvec_product_rev (steps op 5) i (gout 1 1) (setup (steps op 5) tt) = (w', Ok g) /\
  negb (neqb (vnth_q (independent g)) 0) = true.
Proof. apply (pick _ (fun g => negb (neqb (vnth_q (independent g)) 0))). vm_compute. reflexivity. Qed.
End Examples.

(** *** Adaptive runs *)
(** The second run starts with the initial step size and empty histories. *)
Theorem C92_adaptive_refuted : ~ (
  forall (op : options (ext Q) (controller (ext Q))) cfg ctl,
  sized_ode (o_ode op) -> o_ctl op = ctl_call cfg -> (exists ps, build_chain ps = Some ctl) -> loops op -> quiet op -> 1 + 1 < loop_limit op ->
  forall i w' out o1 w1' w2' out2, inputs_sized (o_ode op) i ->
  compute (steps op 2) i (setup (steps op 2) ctl) = (w', Ok out) ->
  compute (steps op 1) i (setup (steps op 1) ctl) = (w1', Ok o1) ->
  compute (steps op 1) (restart i o1) (setup (steps op 1) ctl) = (w2', Ok out2) -> out2 = out).
Proof. exact c92_adaptive_refuted. Qed.
Print Assumptions C92_adaptive_refuted.
