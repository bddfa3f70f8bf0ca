(** Property theorems about the recomputing checkpointer: C09, C10 and the
    parts of C03, C06, C11, C33 and C46 that concern it.

    [n] is the number of steps handed to the library; the run has [S n].  The
    schedules are all those allowed by SpecRevolve.v, with any number of saved
    states. *)
From Coq Require Import List Reals Lia Lra Bool QArith.
From Verif Require Import Base Ext M_Tableau M_State M_ODE M_Step M_Controller M_Measure M_Integrator
  SpecRK SpecShape SpecDeriv SpecRun SpecRevolve L_Iter L_Whole L_WholeR L_Log L_RunProps L_Revolve
  L_RevolveLog Witness WitnessRun.
Import ListNotations.
Open Scope R_scope.

Ltac evaluated := vm_compute; reflexivity.

(** Three steps, of which the library gets two, with one saved state. *)
Definition fs3 : list action := [Save 0; Advance 0 2].
Definition rs3 : list action := [Reverse 1 2; Restore 0; Advance 0 1; Reverse 0 1].
Definition pop (k : checkpointing) : options R unit :=
  gop heun (gode never never) k false (1/2) (PredefinedNumberOfSteps 3).
Definition pq (k : checkpointing) : options Q unit :=
  gop heun (gode never never) k true (1 # 2) (PredefinedNumberOfSteps 3).

Lemma schedule3 : valid_schedule 2 fs3 rs3.
Proof. eexists; eexists; split; [reflexivity|]; repeat split; reflexivity. Qed.

(** ** C09 *)
(** compute returns the same with every checkpointing variant, *)
Theorem C09_compute_same_for_all_variants :
  forall (T : Type) (N : Num T) (C : Type) (op : options T C), sized_ode (o_ode op) ->
  forall n c, o_crit op = PredefinedNumberOfSteps (S n) -> (S n < loop_limit op)%nat ->
  quiet op -> stateless op c ->
  forall k1 k2 w1 w2 i out, fit n k1 -> fit n k2 ->
  reachable (with_ckpt op k1) c w1 -> reachable (with_ckpt op k2) c w2 -> inputs_sized (o_ode op) i ->
  ((exists w', compute (with_ckpt op k1) i w1 = (w', Ok out)) <->
   (exists w', compute (with_ckpt op k2) i w2 = (w', Ok out))).
Proof. exact (@compute_variants). Qed.
Print Assumptions C09_compute_same_for_all_variants.

(** and so does the reverse product, with the recomputing and the store-all
    checkpointer, on a fresh component and right after compute with anything
    before it. *)
Theorem C09_reverse_same_for_all_variants :
  forall (T : Type) (N : Num T) (C : Type) (op : options T C), sized_ode (o_ode op) ->
  forall n c, o_crit op = PredefinedNumberOfSteps (S n) -> (S n < loop_limit op)%nat ->
  quiet op -> stateless op c -> ignores_stage_state_weights (o_ode op) ->
  forall k1 k2 w1 w2 i d g, fit n k1 -> fit n k2 -> reversing k1 -> reversing k2 ->
  inputs_sized (o_ode op) i -> outputs_sized (o_ode op) d ->
  w1 = setup (with_ckpt op k1) c \/
    (exists v out, reachable (with_ckpt op k1) c v /\ compute (with_ckpt op k1) i v = (w1, Ok out)) ->
  w2 = setup (with_ckpt op k2) c \/
    (exists v out, reachable (with_ckpt op k2) c v /\ compute (with_ckpt op k2) i v = (w2, Ok out)) ->
  ((exists w', compute_jacvec_product_rev (with_ckpt op k1) i d w1 = (w', Ok g)) <->
   (exists w', compute_jacvec_product_rev (with_ckpt op k2) i d w2 = (w', Ok g))).
Proof. exact (@reverse_variants). Qed.
Print Assumptions C09_reverse_same_for_all_variants.

(** Adaptive steps over the rationals; the two variants do return the same. *)
Example C09_hypotheses_met :
  fit 2 (PyrevolveCheckpointer fs3 rs3) /\ reversing (PyrevolveCheckpointer fs3 rs3) /\ fit 2 AllCheckpointer /\
  reversing AllCheckpointer /\ quiet (pq AllCheckpointer) /\ stateless (pq AllCheckpointer) tt /\
  o_crit (pq AllCheckpointer) = PredefinedNumberOfSteps 3 /\ (3 < loop_limit (pq AllCheckpointer))%nat /\
  sized_ode (o_ode (pq AllCheckpointer)) /\ ignores_stage_state_weights (o_ode (pq AllCheckpointer)) /\
  inputs_sized (o_ode (pq AllCheckpointer)) (gin 0 1 2)%Q /\ outputs_sized (o_ode (pq AllCheckpointer)) (gout 0 1)%Q /\
  exists w1 w2 out g w1' w2',
    compute (pq AllCheckpointer) (gin 0 1 2)%Q (setup (pq AllCheckpointer) tt) = (w1, Ok out) /\
    compute (pq (PyrevolveCheckpointer fs3 rs3)) (gin 0 1 2)%Q (setup (pq (PyrevolveCheckpointer fs3 rs3)) tt)
      = (w2, Ok out) /\
    compute_jacvec_product_rev (pq AllCheckpointer) (gin 0 1 2)%Q (gout 0 1)%Q w1 = (w1', Ok g) /\
    compute_jacvec_product_rev (pq (PyrevolveCheckpointer fs3 rs3)) (gin 0 1 2)%Q (gout 0 1)%Q w2 = (w2', Ok g).
Proof.
  split; [apply schedule3|]; split; [discriminate|]; split; [exact I|]; split; [discriminate|].
  split; [apply gop_quiet|]; split; [apply gop_stateless|]; split; [reflexivity|]; split; [cbn; lia|].
  split; [apply gode_sized|]; split; [apply gode_ignores|]; split; [apply gin_sized|]; split; [apply gout_sized|].
  eexists; eexists; eexists; eexists; eexists; eexists.
  split; [evaluated|]; split; [evaluated|]; split; [evaluated|evaluated].
Qed.

(** ** C10 *)
(** The step numbers callbacks get do depend on the variant: 1, 2, 3 with the
    store-all checkpointer, 0, 1, 2 with the recomputing one; and a reverse
    product of the latter also calls callbacks of compute. *)
Theorem C10_same_run_for_all_variants_refuted :
  exists (op : options Q unit) n c k1 k2 i d w1 w2 out g w1' w2',
  o_crit op = PredefinedNumberOfSteps (S n) /\ quiet op /\ stateless op c /\ sized_ode (o_ode op) /\
  fit n k1 /\ fit n k2 /\ inputs_sized (o_ode op) i /\ outputs_sized (o_ode op) d /\
  compute (with_ckpt op k1) i (setup (with_ckpt op k1) c) = (w1, Ok out) /\
  compute (with_ckpt op k2) i (setup (with_ckpt op k2) c) = (w2, Ok out) /\
  compute_jacvec_product_rev (with_ckpt op k1) i d w1 = (w1', Ok g) /\
  compute_jacvec_product_rev (with_ckpt op k2) i d w2 = (w2', Ok g) /\
  map number_of (log w1) = [1; 1; 1; 1; 2; 2; 2; 2; 3; 3; 3; 3]%nat /\
  map number_of (log w2) = [0; 0; 0; 0; 1; 1; 1; 1; 2; 2; 2; 2]%nat /\
  map mode_of (skipn 12 (log w1')) = repeat Rev 12 /\
  map mode_of (skipn 12 (log w2')) = repeat Rev 4 ++ repeat Compute 4 ++ repeat Rev 8.
Proof.
  exists (pq AllCheckpointer), 2%nat, tt, AllCheckpointer, (PyrevolveCheckpointer fs3 rs3).
  exists (gin 0 1 2)%Q, (gout 0 1)%Q; eexists; eexists; eexists; eexists; eexists; eexists.
  split; [reflexivity|]; split; [apply gop_quiet|]; split; [apply gop_stateless|]; split; [apply gode_sized|].
  split; [exact I|]; split; [apply schedule3|]; split; [apply gin_sized|]; split; [apply gout_sized|].
  split; [evaluated|]; split; [evaluated|]; split; [evaluated|]; split; [evaluated|].
  split; [evaluated|]; split; [evaluated|]; split; [evaluated|evaluated].
Qed.
Print Assumptions C10_same_run_for_all_variants_refuted.

(** What does hold: with the recomputing variant the callbacks of compute
    bracket the [S n] steps of the run, numbered from 0; *)
Theorem C10_recomputing_callbacks :
  forall (T : Type) (N : Num T) (C : Type) (op : options T C) c n fs rs i w w' out,
  stateless op c -> o_ckpt op = PyrevolveCheckpointer fs rs -> valid_schedule n fs rs ->
  Forall forward_action fs -> ctl w = c -> compute op i w = (w', Ok out) ->
  exists a l, starts_at op i a /\ trajectory op a l /\ length l = S n /\
    log w' = log w ++ bracketed Compute (length (o_callbacks op Compute)) 0 a l /\
    live w' = last l a /\
    time_final out = final_time (disc (last l a)) /\ final out = final_state (disc (last l a)).
Proof. exact (@revolve_callbacks). Qed.
Print Assumptions C10_recomputing_callbacks.

(** and the reverse callbacks of a reverse product are numbered [S n], ..., 1,
    each step once, for every schedule. *)
Theorem C10_recomputing_reverse_callbacks :
  forall (T : Type) (N : Num T) (C : Type) (op : options T C) n fs rs i d w w1 out w2 g,
  o_ckpt op = PyrevolveCheckpointer fs rs -> valid_schedule n fs rs ->
  (forall x, In x (initial i ++ independent i) -> neqb x x = true) ->
  compute op i w = (w1, Ok out) -> compute_jacvec_product_rev op i d w1 = (w2, Ok g) ->
  rev_numbers (log w2) = rev_numbers (log w1) ++ countdown (length (o_callbacks op Rev)) (S n).
Proof. exact (@reverse_call_numbers). Qed.
Print Assumptions C10_recomputing_reverse_callbacks.

(** The variants without recomputation do the same in compute (C08) and use the
    numbers 1, ..., N (C33, C08). *)

Example C10_hypotheses_met :
  stateless (pq (PyrevolveCheckpointer fs3 rs3)) tt /\ valid_schedule 2 fs3 rs3 /\ Forall forward_action fs3 /\
  (forall x, In x (initial (gin 0 1 2)%Q ++ independent (gin 0 1 2)%Q) -> neqb x x = true) /\
  exists w out w2 g,
    compute (pq (PyrevolveCheckpointer fs3 rs3)) (gin 0 1 2)%Q (setup (pq (PyrevolveCheckpointer fs3 rs3)) tt)
      = (w, Ok out) /\ length (log w) = 12%nat /\
    compute_jacvec_product_rev (pq (PyrevolveCheckpointer fs3 rs3)) (gin 0 1 2)%Q (gout 0 1)%Q w = (w2, Ok g) /\
    rev_numbers (log w2) = [3; 3; 3; 3; 2; 2; 2; 2; 1; 1; 1; 1]%nat.
Proof.
  split; [apply gop_stateless|]; split; [apply schedule3|]; split; [repeat constructor|].
  split; [intros x [<-|[<-|[]]]; reflexivity|].
  eexists; eexists; eexists; eexists; split; [evaluated|]; split; [evaluated|]; split; [evaluated|evaluated].
Qed.

(** ** C03 for the recomputing variant *)
Theorem C03_fixed_step_times_recomputing :
  forall (C : Type) (op : options R C) n fs rs c w i w' out,
  sized_ode (o_ode op) -> o_adaptive op = false ->
  o_ckpt op = PyrevolveCheckpointer fs rs -> valid_schedule n fs rs -> Forall forward_action fs ->
  o_crit op = PredefinedNumberOfSteps (S n) ->
  reachable op c w -> inputs_sized (o_ode op) i -> compute op i w = (w', Ok out) ->
  exists a l, starts_at op i a /\ trajectory op a l /\ length l = S n /\
    log w' = (log w ++ bracketed Compute (length (o_callbacks op Compute)) 0 a l)%list /\
    live w' = last l a /\
    (forall k, (k < length l)%nat ->
       let s := disc (nth k l a) in
       let t := time_initial i + INR k * o_step op in
       start_time s = t /\ final_time s = time_initial i + INR (S k) * o_step op /\
       step_size s = o_step op /\
       start_state s = final_state (disc (nth k (a :: l) a)) /\
       independent_inputs s = independent i /\
       forall j, (j < t_stages (o_bt op))%nat ->
         vnth j (stage_times s) = t + vnth j (t_c (o_bt op)) * o_step op) /\
    time_final out = time_initial i + INR (S n) * o_step op /\
    final out = final_state (disc (last l a)).
Proof. exact (@revolve_fixed_times). Qed.
Print Assumptions C03_fixed_step_times_recomputing.

(** ** C06 for every variant *)
Theorem C06_products_transposed_recomputing :
  forall (C : Type) (op : options R C) n c i din d w w' dout v v' g,
  tableau_wf (o_bt op) -> sized_ode (o_ode op) -> ode_transposed (o_ode op) ->
  ignores_stage_state_weights (o_ode op) ->
  o_crit op = PredefinedNumberOfSteps (S n) -> (S n < loop_limit op)%nat ->
  quiet op -> stateless op c -> fit n (o_ckpt op) -> reversing (o_ckpt op) ->
  inputs_sized (o_ode op) i -> inputs_sized (o_ode op) din -> outputs_sized (o_ode op) d ->
  reachable op c w ->
  v = setup op c \/ (exists v0 out, reachable op c v0 /\ compute op i v0 = (v, Ok out)) ->
  compute_jacvec_product_fwd op i din w = (w', Ok dout) ->
  compute_jacvec_product_rev op i d v = (v', Ok g) ->
  dot_outputs d dout = dot_inputs g din.
Proof. exact (@all_transposed). Qed.
Print Assumptions C06_products_transposed_recomputing.

(** ** C46 for every variant *)
Theorem C46_compute_repeatable_recomputing :
  forall (T : Type) (N : Num T) (C : Type) (op : options T C) n c w1 w2 i w1' out,
  sized_ode (o_ode op) -> o_crit op = PredefinedNumberOfSteps (S n) -> (S n < loop_limit op)%nat ->
  fit n (o_ckpt op) -> quiet op -> stateless op c ->
  reachable op c w1 -> reachable op c w2 -> inputs_sized (o_ode op) i ->
  compute op i w1 = (w1', Ok out) -> exists w2', compute op i w2 = (w2', Ok out).
Proof. exact (@all_repeatable). Qed.
Print Assumptions C46_compute_repeatable_recomputing.

Example recomputing_hypotheses_met : exists w w' out wf dout wr g,
  let op := pop (PyrevolveCheckpointer fs3 rs3) in
  tableau_wf (o_bt op) /\ sized_ode (o_ode op) /\ ode_transposed (o_ode op) /\
  ignores_stage_state_weights (o_ode op) /\ o_adaptive op = false /\
  o_crit op = PredefinedNumberOfSteps 3 /\ (3 < loop_limit op)%nat /\ quiet op /\ stateless op tt /\
  fit 2 (o_ckpt op) /\ reversing (o_ckpt op) /\ Forall forward_action fs3 /\
  reachable op tt w /\ compute op (gin 0 1 2) w = (w', Ok out) /\
  compute_jacvec_product_fwd op (gin 0 1 2) (gin 1 2 3) w' = (wf, Ok dout) /\
  compute_jacvec_product_rev op (gin 0 1 2) (gout 1 2) (setup op tt) = (wr, Ok g).
Proof.
  set (op := pop (PyrevolveCheckpointer fs3 rs3)).
  pose (w := run_calls op [CallFwd (gin 1 2 3) (gin 0 1 0)] (setup op tt)).
  destruct (returns (compute op (gin 0 1 2) w) ltac:(evaluated)) as (w' & out & E).
  assert (F : match snd (compute_jacvec_product_fwd op (gin 0 1 2) (gin 1 2 3) (fst (compute op (gin 0 1 2) w)))
              with Ok _ => true | Err _ => false end = true) by evaluated.
  rewrite E in F; cbn [fst] in F; destruct (returns _ F) as (wf & dout & E2).
  destruct (returns (compute_jacvec_product_rev op (gin 0 1 2) (gout 1 2) (setup op tt)) ltac:(evaluated))
    as (wr & g & E3).
  exists w, w', out, wf, dout, wr, g; cbv zeta.
  split; [apply heun_wf|]; split; [apply gode_sized|]; split; [apply gode_transposed|].
  split; [apply gode_ignores|]; split; [reflexivity|]; split; [reflexivity|]; split; [cbn; lia|].
  split; [apply gop_quiet|]; split; [apply gop_stateless|]; split; [apply schedule3|]; split; [discriminate|].
  split; [repeat constructor|].
  split; [exists [CallFwd (gin 1 2 3) (gin 0 1 0)]; split; [repeat constructor|reflexivity]|]; auto.
Qed.

(** ** C11 for the recomputing variant *)
(** A forward product with other inputs between compute and the reverse product
    (all returning, same initial time) makes the reverse product wrong: it
    starts from the state the forward product left. *)
Theorem C11_forward_product_between_refuted :
  exists (op : options Q unit) n fs rs c i j dj d w1 w2 g g',
  o_ckpt op = PyrevolveCheckpointer fs rs /\ valid_schedule n fs rs /\
  o_crit op = PredefinedNumberOfSteps (S n) /\ quiet op /\ stateless op c /\ sized_ode (o_ode op) /\
  inputs_sized (o_ode op) i /\ inputs_sized (o_ode op) j /\ inputs_sized (o_ode op) dj /\
  outputs_sized (o_ode op) d /\ time_initial i = time_initial j /\
  all_return op [CallCompute i; CallFwd j dj] (setup op c) /\
  compute_jacvec_product_rev op i d (run_calls op [CallCompute i; CallFwd j dj] (setup op c)) = (w1, Ok g) /\
  compute_jacvec_product_rev op i d (setup op c) = (w2, Ok g') /\
  time_initial g = 6%Q /\ time_initial g' = 3%Q.
Proof.
  exists (gop euler (gode never never) (PyrevolveCheckpointer [Save 0; Advance 0 1] [Reverse 0 1]) false 1%Q
            (PredefinedNumberOfSteps 2)).
  exists 1%nat, [Save 0; Advance 0 1], [Reverse 0 1], tt.
  exists (gin 0 1 0)%Q, (gin 0 4 0)%Q, (gin 0 1 0)%Q, (gout 0 1)%Q; eexists; eexists; eexists; eexists.
  split; [reflexivity|].
  split; [eexists; eexists; split; [reflexivity|]; repeat split; reflexivity|].
  split; [reflexivity|]; split; [apply gop_quiet|]; split; [apply gop_stateless|]; split; [apply gode_sized|].
  split; [apply gin_sized|]; split; [apply gin_sized|]; split; [apply gin_sized|]; split; [apply gout_sized|].
  split; [reflexivity|].
  split; [split; [eexists; evaluated|split; [eexists; evaluated|exact I]]|].
  split; [evaluated|]; split; [evaluated|]; split; evaluated.
Qed.
Print Assumptions C11_forward_product_between_refuted.

(** Without forward products it is as for the store-all checkpointer. *)
Theorem C11_recomputing_history_independent :
  forall (T : Type) (N : Num T) (C : Type) (op : options T C), sized_ode (o_ode op) ->
  forall n fs rs c, o_ckpt op = PyrevolveCheckpointer fs rs -> valid_schedule n fs rs -> stateless op c ->
  (forall x y : T, neqb x y = true -> x = y) -> quiet op -> ignores_stage_state_weights (o_ode op) ->
  forall t hist i d g,
  Forall (call_sized (o_ode op)) hist -> Forall no_forward hist ->
  Forall (fun k => call_time k = t) hist -> all_return op hist (setup op c) ->
  inputs_sized (o_ode op) i -> outputs_sized (o_ode op) d -> time_initial i = t ->
  ((exists w', compute_jacvec_product_rev op i d (run_calls op hist (setup op c)) = (w', Ok g))
   <-> exists w', compute_jacvec_product_rev op i d (setup op c) = (w', Ok g)).
Proof. exact (@revolve_history). Qed.
Print Assumptions C11_recomputing_history_independent.

Example C11_recomputing_hypotheses_met :
  let op := gop heun (gode never never) (PyrevolveCheckpointer fs3 rs3) false 1%Z (PredefinedNumberOfSteps 3) in
  let hist := [CallCompute (gin 0 2 1); CallRev (gin 0 1 2) (gout 1 1); CallCompute (gin 0 1 2)]%Z in
  Forall (call_sized (o_ode op)) hist /\ Forall no_forward hist /\ Forall (fun k => call_time k = 0%Z) hist /\
  all_return op hist (setup op tt) /\
  exists w g, compute_jacvec_product_rev op (gin 0 1 2)%Z (gout 1 2)%Z (run_calls op hist (setup op tt)) = (w, Ok g).
Proof.
  cbv zeta; split; [repeat constructor|]; split; [repeat constructor|]; split; [repeat constructor|].
  split; [split; [eexists; evaluated|split; [eexists; evaluated|split; [eexists; evaluated|exact I]]]|].
  eexists; eexists; evaluated.
Qed.
