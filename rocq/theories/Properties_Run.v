(** Property theorems about whole runs of the component: C03, C06, C07, C08,
    C11, C12, C20, C33, C46, C47, C48.

    [reachable op c w] is a component set up with controller [c] and used in
    any way before.  [a] and [l] are the state a run starts in and the states
    after its steps; callbacks see exactly these. *)
From Coq Require Import List Reals Lia Lra Bool QArith.
From Verif Require Import Base Ext M_Tableau M_State M_ODE M_Step M_Controller M_Measure M_Integrator
  SpecRK SpecShape SpecDeriv SpecRun L_Iter L_Whole L_WholeR L_Log L_RunProps Witness WitnessRun.
Import ListNotations.
Open Scope R_scope.

Ltac evaluated := vm_compute; reflexivity.

(** The component of the Examples over the reals: Heun's method, step 1/2, two
    steps, two callbacks. *)
Definition rop : options R unit :=
  gop heun (gode never never) AllCheckpointer false (1/2) (PredefinedNumberOfSteps 2).

(** ** C03 *)
Theorem C03_fixed_step_times :
  forall (C : Type) (op : options R C) c w i w' out,
  sized_ode (o_ode op) -> o_adaptive op = false -> loops op ->
  reachable op c w -> inputs_sized (o_ode op) i -> compute op i w = (w', Ok out) ->
  exists a l, starts_at op i a /\ trajectory op a l /\ stops op a l /\
    log w' = (log w ++ bracketed Compute (length (o_callbacks op Compute)) 1 a l)%list /\
    live w' = last l a /\
    (forall k, (k < length l)%nat ->
       let s := disc (nth k l a) in
       let t := time_initial i + INR k * o_step op in
       start_time s = t /\ final_time s = time_initial i + INR (S k) * o_step op /\
       step_size s = o_step op /\
       start_state s = final_state (disc (nth k (a :: l) a)) /\
       independent_inputs s = independent i /\
       forall j, (j < t_stages (o_bt op))%nat ->
         vnth j (stage_times s) = t + vnth j (t_c (o_bt op)) * o_step op) /\
    time_final out = time_initial i + INR (length l) * o_step op /\
    final out = final_state (disc (last l a)).
Proof. exact (@fixed_times). Qed.
Print Assumptions C03_fixed_step_times.

Example C03_hypotheses_met : exists w' out,
  sized_ode (o_ode rop) /\ o_adaptive rop = false /\ loops rop /\
  reachable rop tt (run_calls rop [CallFwd (gin 1 2 3) (gin 0 1 0)] (setup rop tt)) /\
  inputs_sized (o_ode rop) (gin 0 1 2) /\
  compute rop (gin 0 1 2) (run_calls rop [CallFwd (gin 1 2 3) (gin 0 1 0)] (setup rop tt)) = (w', Ok out).
Proof.
  destruct (returns (compute rop (gin 0 1 2)
    (run_calls rop [CallFwd (gin 1 2 3) (gin 0 1 0)] (setup rop tt))) ltac:(evaluated)) as (w' & out & E).
  exists w', out; split; [apply gode_sized|]; split; [reflexivity|]; split; [exact I|].
  split; [exists [CallFwd (gin 1 2 3) (gin 0 1 0)]; split; [repeat constructor|reflexivity]|].
  split; [apply gin_sized|exact E].
Qed.

(** ** C47 *)
Theorem C47_number_of_steps :
  forall (C : Type) (op : options R C) n c w i w' out,
  sized_ode (o_ode op) -> o_adaptive op = false -> loops op ->
  o_crit op = PredefinedNumberOfSteps n ->
  reachable op c w -> inputs_sized (o_ode op) i -> compute op i w = (w', Ok out) ->
  time_final out = time_initial i + INR n * o_step op /\
  exists a l, length l = n /\ trajectory op a l /\
    log w' = (log w ++ bracketed Compute (length (o_callbacks op Compute)) 1 a l)%list.
Proof. exact (@fixed_count). Qed.
Print Assumptions C47_number_of_steps.

Theorem C47_final_time :
  forall (C : Type) (op : options R C) T c w i w' out,
  sized_ode (o_ode op) -> o_adaptive op = false -> loops op ->
  o_crit op = PredefinedFinalTime T -> 0 < o_step op ->
  reachable op c w -> inputs_sized (o_ode op) i -> compute op i w = (w', Ok out) ->
  exists n a l, length l = n /\ trajectory op a l /\
    log w' = (log w ++ bracketed Compute (length (o_callbacks op Compute)) 1 a l)%list /\
    time_final out = time_initial i + INR n * o_step op /\
    (forall k, (k < n)%nat -> time_initial i + INR k * o_step op < T) /\
    T <= time_final out /\
    (time_initial i <= T -> time_final out < T + o_step op).
Proof. exact (@fixed_final_time). Qed.
Print Assumptions C47_final_time.

(** Such runs do return, given enough fuel, whenever every single step does. *)
Theorem C47_returns :
  forall (C : Type) (op : options R C) c w i,
  sized_ode (o_ode op) -> o_adaptive op = false -> loops op -> quiet op -> (0 < retry_limit op)%nat ->
  (forall s, shaped (t_stages (o_bt op)) (state_size (o_ode op)) (independent_input_size (o_ode op))
               (independent_output_size (o_ode op)) (linearization_point_size (o_ode op)) s ->
     exists s', compute_step (o_bt op) (o_ode op) s (o_step op) = Ok s') ->
  match o_crit op with
  | PredefinedNumberOfSteps n => (n < loop_limit op)%nat
  | PredefinedFinalTime T =>
      T <= time_initial i + INR (loop_limit op - 1) * o_step op /\ (0 < loop_limit op)%nat
  end ->
  reachable op c w -> inputs_sized (o_ode op) i -> exists w' out, compute op i w = (w', Ok out).
Proof. exact (@fixed_returns). Qed.
Print Assumptions C47_returns.

(** The run to the final time 4/5 makes two steps. *)
Definition rop_t : options R unit :=
  gop heun (gode never never) AllCheckpointer false (1/2) (PredefinedFinalTime (4/5)).

Lemma rop_t_step s : shaped 2 1 1 0 2 s ->
  exists s', compute_step (o_bt rop_t) (o_ode rop_t) s (o_step rop_t) = Ok s'.
Proof.
  intros H; apply (L_Tableau.compute_step_total heun (gode never never) s (1/2) 1 1 0 2);
    [apply heun_wf|reflexivity|reflexivity|reflexivity|apply gode_sized|exact H|cbn; auto with arith|].
  intros i inp Hi; eexists; reflexivity.
Qed.

Example C47_hypotheses_met :
  sized_ode (o_ode rop_t) /\ o_adaptive rop_t = false /\ loops rop_t /\ quiet rop_t /\
  (0 < retry_limit rop_t)%nat /\
  (forall s, shaped 2 1 1 0 2 s ->
     exists s', compute_step (o_bt rop_t) (o_ode rop_t) s (o_step rop_t) = Ok s') /\
  4/5 <= time_initial (gin 0 1 2) + INR (loop_limit rop_t - 1) * o_step rop_t /\
  0 < o_step rop_t /\ reachable rop_t tt (setup rop_t tt) /\
  exists w' out, compute rop_t (gin 0 1 2) (setup rop_t tt) = (w', Ok out) /\ time_final out = 1.
Proof.
  assert (B : 4/5 <= time_initial (gin 0 1 2) + INR (loop_limit rop_t - 1) * o_step rop_t)
    by (simpl; lra).
  split; [apply gode_sized|]; split; [reflexivity|]; split; [exact I|]; split; [apply gop_quiet|].
  split; [cbn; lia|]; split; [exact rop_t_step|]; split; [exact B|]; split; [simpl; lra|].
  split; [apply reachable_setup|].
  destruct (C47_returns unit rop_t tt (setup rop_t tt) (gin 0 1 2)) as (w' & out & H);
    [apply gode_sized|reflexivity|exact I|apply gop_quiet|cbn; lia|exact rop_t_step
    |split; [exact B|cbn; lia]|apply reachable_setup|apply gin_sized|].
  exists w', out; split; [exact H|].
  destruct (C47_final_time unit rop_t (4/5) tt _ _ _ _ (gode_sized _ _) eq_refl I eq_refl
     ltac:(simpl; lra) (reachable_setup _ _) (gin_sized _ _ _ _ _) H)
    as (n & a & l & _ & _ & _ & E & P1 & P2 & P3).
  assert (G : time_final out < 4/5 + 1/2) by (apply P3; simpl; lra).
  rewrite E in *; change (time_initial (gin 0 1 2)) with 0 in *; change (o_step rop_t) with (1/2) in *.
  destruct n as [|[|[|n]]]; [simpl in P2; lra|simpl in P2; lra|simpl; lra|].
  exfalso; rewrite !S_INR in G; pose proof (pos_INR n); lra.
Qed.

(** ** C06 *)
(** The reverse product of a component that had done nothing before (any
    transposed ODE). *)
Theorem C06_products_transposed_fresh :
  forall (C : Type) (op : options R C),
  tableau_wf (o_bt op) -> result_sizes (o_ode op) -> derivative_sizes (o_ode op) -> adjoint_sizes (o_ode op) ->
  forall c c1 h1 i din d w1 dout w2 g,
  ode_transposed (o_ode op) -> o_ckpt op = AllCheckpointer ->
  Forall (call_sized (o_ode op)) h1 ->
  inputs_sized (o_ode op) i -> inputs_sized (o_ode op) din -> outputs_sized (o_ode op) d ->
  ctl (run_calls op h1 (setup op c1)) = c ->
  compute_jacvec_product_fwd op i din (run_calls op h1 (setup op c1)) = (w1, Ok dout) ->
  compute_jacvec_product_rev op i d (setup op c) = (w2, Ok g) ->
  dot_outputs d dout = dot_inputs g din.
Proof. exact (@transposed_fresh). Qed.
Print Assumptions C06_products_transposed_fresh.

(** The reverse product after a compute call on the same inputs, with any
    calls before that (for ODEs that, as OpenMDAO's, give no weight to stage
    states). *)
Theorem C06_products_transposed :
  forall (C : Type) (op : options R C),
  tableau_wf (o_bt op) -> result_sizes (o_ode op) -> derivative_sizes (o_ode op) -> adjoint_sizes (o_ode op) ->
  forall c1 c2 h1 h2 i din d w1 dout w2 out w3 g,
  ode_transposed (o_ode op) -> ignores_stage_state_weights (o_ode op) -> o_ckpt op = AllCheckpointer ->
  Forall (call_sized (o_ode op)) h1 -> Forall (call_sized (o_ode op)) h2 ->
  inputs_sized (o_ode op) i -> inputs_sized (o_ode op) din -> outputs_sized (o_ode op) d ->
  ctl (run_calls op h1 (setup op c1)) = ctl (run_calls op h2 (setup op c2)) ->
  compute_jacvec_product_fwd op i din (run_calls op h1 (setup op c1)) = (w1, Ok dout) ->
  compute op i (run_calls op h2 (setup op c2)) = (w2, Ok out) ->
  compute_jacvec_product_rev op i d w2 = (w3, Ok g) ->
  dot_outputs d dout = dot_inputs g din.
Proof. exact (@transposed_after_compute). Qed.
Print Assumptions C06_products_transposed.

(** The forward product is linear (hence so is the reverse one). *)
Theorem C06_forward_product_linear :
  forall (C : Type) (op : options R C) al be i dx dy dz wx wy wz x' y' z' ox oy oz,
  tableau_wf (o_bt op) -> sized_ode (o_ode op) -> ode_linear (o_ode op) ->
  wf op wx -> wf op wy -> wf op wz -> ctl wx = ctl wz -> ctl wy = ctl wz ->
  inputs_sized (o_ode op) i -> inputs_sized (o_ode op) dx -> inputs_sized (o_ode op) dy ->
  inputs_sized (o_ode op) dz ->
  time_initial dz = al * time_initial dx + be * time_initial dy ->
  initial dz = vlin al (initial dx) be (initial dy) ->
  independent dz = vlin al (independent dx) be (independent dy) ->
  compute_jacvec_product_fwd op i dx wx = (x', Ok ox) ->
  compute_jacvec_product_fwd op i dy wy = (y', Ok oy) ->
  compute_jacvec_product_fwd op i dz wz = (z', Ok oz) ->
  time_final oz = al * time_final ox + be * time_final oy /\
  final oz = vlin al (final ox) be (final oy).
Proof. exact (@forward_linear). Qed.
Print Assumptions C06_forward_product_linear.

Example C06_hypotheses_met : exists w1 dout w2 out w3 g w4 g',
  tableau_wf (o_bt rop) /\ sized_ode (o_ode rop) /\ ode_transposed (o_ode rop) /\
  ode_linear (o_ode rop) /\
  ignores_stage_state_weights (o_ode rop) /\ o_ckpt rop = AllCheckpointer /\
  compute_jacvec_product_fwd rop (gin 0 1 2) (gin 1 2 3)
    (run_calls rop [CallCompute (gin 4 5 6)] (setup rop tt)) = (w1, Ok dout) /\
  compute rop (gin 0 1 2) (run_calls rop [CallFwd (gin 1 1 1) (gin 1 2 3)] (setup rop tt)) = (w2, Ok out) /\
  compute_jacvec_product_rev rop (gin 0 1 2) (gout 1 2) w2 = (w3, Ok g) /\
  compute_jacvec_product_rev rop (gin 0 1 2) (gout 1 2) (setup rop tt) = (w4, Ok g').
Proof.
  destruct (gode_sized (T := R) never never) as (S1 & S2 & S3).
  destruct (returns (compute_jacvec_product_fwd rop (gin 0 1 2) (gin 1 2 3)
    (run_calls rop [CallCompute (gin 4 5 6)] (setup rop tt))) ltac:(evaluated)) as (w1 & dout & E1).
  destruct (returns (compute rop (gin 0 1 2)
    (run_calls rop [CallFwd (gin 1 1 1) (gin 1 2 3)] (setup rop tt))) ltac:(evaluated)) as (w2 & out & E2).
  destruct (returns (compute_jacvec_product_rev rop (gin 0 1 2) (gout 1 2) (setup rop tt)) ltac:(evaluated))
    as (w4 & g & E4).
  assert (Fk : Forall (call_sized (o_ode rop)) [CallFwd (gin 1 1 1) (gin 1 2 3)])
    by (repeat constructor; apply gin_sized).
  destruct (proj2 (rev_after_compute rop S1 S2 S3 (gode_ignores _ _) Reqb_eq tt _ _ _ g _ _
    eq_refl (gop_quiet _ _ _ _ _ _) (gop_stateless _ _ _ _ _ _) Fk (gin_sized _ _ _ _ _)
    (gout_sized _ _ _ _) E2) (ex_intro _ w4 E4)) as (w3 & E3).
  exists w1, dout, w2, out, w3, g, w4, g.
  split; [apply heun_wf|]; split; [apply gode_sized|]; split; [apply gode_transposed|].
  split; [apply gode_linear|]; split; [apply gode_ignores|]; split; [reflexivity|]; auto.
Qed.

(** ** C07 *)
Theorem C07_forward_product_is_derivative :
  forall (C : Type) (op : options R C) n del (I : R -> inputs R) (d : inputs R) (c : C)
         w w' out w0 w0' dout,
  tableau_wf (o_bt op) -> sized_ode (o_ode op) -> ode_differentiable (o_ode op) ->
  o_adaptive op = false -> o_crit op = PredefinedNumberOfSteps n -> loops op -> 0 < del ->
  (forall e, Rabs e < del -> reachable op c (w e) /\ inputs_sized (o_ode op) (I e) /\
     compute op (I e) (w e) = (w' e, Ok (out e))) ->
  reachable op c w0 -> inputs_sized (o_ode op) d ->
  curve (fun e => initial (I e)) (initial d) ->
  curve (fun e => independent (I e)) (independent d) ->
  derivable_pt_lim (fun e => time_initial (I e)) 0 (time_initial d) ->
  compute_jacvec_product_fwd op (I 0) d w0 = (w0', Ok dout) ->
  curve (fun e => final (out e)) (final dout) /\
  derivable_pt_lim (fun e => time_final (out e)) 0 (time_final dout).
Proof. exact (@whole_derivative). Qed.
Print Assumptions C07_forward_product_is_derivative.

(** The product follows the very steps compute makes, also adaptive ones, for
    every scalar type. *)
Theorem C07_same_trajectory :
  forall (T : Type) (N : Num T) (C : Type) (op : options T C) i d w w' out w0 w0' dout,
  sized_ode (o_ode op) -> loops op -> wf op w -> wf op w0 -> ctl w = ctl w0 ->
  inputs_sized (o_ode op) i -> inputs_sized (o_ode op) d ->
  compute op i w = (w', Ok out) -> compute_jacvec_product_fwd op i d w0 = (w0', Ok dout) ->
  exists a a0 l, starts_at op i a /\ starts_at op i a0 /\ trajectory op a l /\ trajectory op a0 l /\
    stops op a l /\
    log w' = log w ++ bracketed Compute (length (o_callbacks op Compute)) 1 a l /\
    log w0' = log w0 ++ bracketed Fwd (length (o_callbacks op Fwd)) 1 a0 l /\
    live w' = last l a /\ live w0' = last l a0 /\
    time_final out = final_time (disc (live w0')) /\ final out = final_state (disc (live w0')).
Proof. exact (@same_trajectory). Qed.
Print Assumptions C07_same_trajectory.

(** What [wf] stands for: every component in use satisfies it. *)
Theorem components_in_use_are_wf :
  forall (T : Type) (N : Num T) (C : Type) (op : options T C) c w,
  sized_ode (o_ode op) -> reachable op c w -> wf op w.
Proof. exact (@reachable_wf). Qed.
Print Assumptions components_in_use_are_wf.

Definition r_in (e : R) : inputs R := gin (1 + e) (2 + 3 * e) (5 * e).

Example C07_hypotheses_met : exists w' out w0' dout,
  tableau_wf (o_bt rop) /\ sized_ode (o_ode rop) /\ ode_differentiable (o_ode rop) /\ 0 < 1 /\
  (forall e, Rabs e < 1 -> reachable rop tt (setup rop tt) /\ inputs_sized (o_ode rop) (r_in e) /\
     compute rop (r_in e) (setup rop tt) = (w' e, Ok (out e))) /\
  curve (fun e => initial (r_in e)) (initial (gin 1 3 5)) /\
  curve (fun e => independent (r_in e)) (independent (gin 1 3 5)) /\
  derivable_pt_lim (fun e => time_initial (r_in e)) 0 (time_initial (gin 1 3 5)) /\
  compute_jacvec_product_fwd rop (r_in 0) (gin 1 3 5) (setup rop tt) = (w0', Ok dout).
Proof.
  destruct (returns (compute_jacvec_product_fwd rop (r_in 0) (gin 1 3 5) (setup rop tt)) ltac:(evaluated))
    as (w0' & dout & E0).
  exists (fun e => fst (compute rop (r_in e) (setup rop tt))).
  exists (fun e => match snd (compute rop (r_in e) (setup rop tt)) with Ok x => x | Err _ => gout 0 0 end).
  exists w0', dout.
  split; [apply heun_wf|]; split; [apply gode_sized|]; split; [apply gode_differentiable|].
  split; [lra|].
  split.
  { intros e _; split; [apply reachable_setup|]; split; [apply gin_sized|].
    destruct (returns (compute rop (r_in e) (setup rop tt)) ltac:(evaluated)) as (w & x & E).
    rewrite E; reflexivity. }
  assert (L : forall f b, (forall e, f e = f 0 + b * e) -> derivable_pt_lim f 0 b).
  { intros f b Hf eps He; exists (mkposreal 1 Rlt_0_1); intros h Hh _.
    rewrite Rplus_0_l, (Hf h). replace ((f 0 + b * h - f 0) / h - b) with 0 by (field; exact Hh).
    rewrite Rabs_R0; exact He. }
  split; [apply curve1, L; intros; ring|].
  split; [apply curve1, L; intros; ring|].
  split; [apply L; intros; unfold r_in; cbn [time_initial gin]; ring|exact E0].
Qed.

(** ** C08 *)
(** Storing everything changes nothing about compute. *)
Theorem C08_storing_is_transparent :
  forall (T : Type) (N : Num T) (C : Type) (op : options T C) i w wa ra wn rn,
  compute (with_ckpt op AllCheckpointer) i w = (wa, ra) ->
  compute (with_ckpt op NoCheckpointer) i w = (wn, rn) ->
  ra = rn /\ wa = w_storage (storage wa) wn.
Proof. exact (@store_all_transparent). Qed.
Print Assumptions C08_storing_is_transparent.

(** The reverse product goes through the steps of the compute call, last one
    first, each linearized at its own state with its own step size, and leaves
    no stored state behind. *)
Theorem C08_reverse_uses_every_step :
  forall (T : Type) (N : Num T) (C : Type) (op : options T C), result_sizes (o_ode op) ->
  forall i d w w1 out w2 g,
  (forall x : T, In x (initial i ++ independent i) -> neqb x x = true) ->
  o_ckpt op = AllCheckpointer -> wf op w -> inputs_sized (o_ode op) i ->
  compute op i w = (w1, Ok out) -> compute_jacvec_product_rev op i d w1 = (w2, Ok g) ->
  exists a l p p', starts_at op i a /\ trajectory op a l /\ stops op a l /\
    log w1 = log w ++ bracketed Compute (length (o_callbacks op Compute)) 1 a l /\
    log w2 = log w1 ++ bracketed_back (length (o_callbacks op Rev)) (rev l) /\
    final_time p = time_final d /\ final_state p = final d /\
    independent_inputs p = vzeros (length (independent_inputs p)) /\
    adjoint_through (o_bt op) (o_ode op) (rev l) p = Ok p' /\
    g = {| time_initial := final_time p'; initial := final_state p'; independent := independent_inputs p' |} /\
    storage w2 = [] /\ live w2 = live w1.
Proof. exact (@store_all_reverse). Qed.
Print Assumptions C08_reverse_uses_every_step.

(** Without checkpointing a reverse product is refused. *)
Theorem C08_no_checkpoints_no_reverse :
  forall (T : Type) (N : Num T) (C : Type) (op : options T C) i d w w1 out,
  (forall x, In x (initial i ++ independent i) -> neqb x x = true) ->
  o_ckpt op = NoCheckpointer -> compute op i w = (w1, Ok out) ->
  exists w2, compute_jacvec_product_rev op i d w1 = (w2, Err NotImplementedError).
Proof. exact (@no_reverse_hit). Qed.
Print Assumptions C08_no_checkpoints_no_reverse.

(** Heun's method with steps 1/2, adaptive, over the rationals: both steps are
    made with size 1/4. *)
Definition qop (k : checkpointing) : options Q unit :=
  gop heun (gode never never) k true (1 # 2) (PredefinedNumberOfSteps 2).

Example C08_hypotheses_met :
  (forall x : Q, In x (initial (gin 0 1 2)%Q ++ independent (gin 0 1 2)%Q) -> neqb x x = true) /\
  result_sizes (o_ode (qop AllCheckpointer)) /\ wf (qop AllCheckpointer) (setup (qop AllCheckpointer) tt) /\
  exists w1 out w2 g,
    compute (qop AllCheckpointer) (gin 0 1 2)%Q (setup (qop AllCheckpointer) tt) = (w1, Ok out) /\
    compute_jacvec_product_rev (qop AllCheckpointer) (gin 0 1 2)%Q (gout 0 1)%Q w1 = (w2, Ok g) /\
    length (log w2) = 16%nat /\ length (storage w1) = 2%nat /\
    exists w1' w2', compute (qop NoCheckpointer) (gin 0 1 2)%Q (setup (qop NoCheckpointer) tt) = (w1', Ok out) /\
      compute_jacvec_product_rev (qop NoCheckpointer) (gin 0 1 2)%Q (gout 0 1)%Q w1' = (w2', Err NotImplementedError).
Proof.
  split; [intros x [<-|[<-|[]]]; reflexivity|]; split; [apply gode_sized|].
  split; [apply (components_in_use_are_wf _ _ _ _ tt); [apply gode_sized|apply reachable_setup]|].
  eexists; eexists; eexists; eexists.
  split; [evaluated|]; split; [evaluated|].
  split; [evaluated|]; split; [evaluated|].
  eexists; eexists; split; [evaluated|evaluated].
Qed.

(** ** C11 *)
(** The reverse product is not a function of the inputs: a compute call with
    another initial time makes it return the product of that other run. *)
Definition op11 : options Q unit :=
  gop euler (gode never never) AllCheckpointer false 1%Q (PredefinedNumberOfSteps 1).

Theorem C11_reverse_product_history_independent_refuted :
  exists (op : options Q unit) c i j d w1 w2 g g',
  o_ckpt op = AllCheckpointer /\ quiet op /\ stateless op c /\ sized_ode (o_ode op) /\
  inputs_sized (o_ode op) i /\ inputs_sized (o_ode op) j /\ outputs_sized (o_ode op) d /\
  all_return op [CallCompute j] (setup op c) /\
  compute_jacvec_product_rev op i d (run_calls op [CallCompute j] (setup op c)) = (w1, Ok g) /\
  compute_jacvec_product_rev op i d (setup op c) = (w2, Ok g') /\
  initial g = [1%Q] /\ initial g' = [2%Q].
Proof.
  exists op11, tt, (gin 1 1 0)%Q, (gin 0 1 0)%Q, (gout 0 1)%Q; eexists; eexists; eexists; eexists.
  split; [reflexivity|]; split; [apply gop_quiet|]; split; [apply gop_stateless|].
  split; [apply gode_sized|]; split; [apply gin_sized|]; split; [apply gin_sized|].
  split; [apply gout_sized|].
  split; [split; [eexists; evaluated|exact I]|].
  split; [evaluated|]; split; [evaluated|]; split; evaluated.
Qed.
Print Assumptions C11_reverse_product_history_independent_refuted.

(** It is one if the calls before have returned and had the same initial time. *)
Theorem C11_reverse_product_history_independent :
  forall (T : Type) (N : Num T) (C : Type) (op : options T C),
  result_sizes (o_ode op) -> derivative_sizes (o_ode op) -> adjoint_sizes (o_ode op) ->
  ignores_stage_state_weights (o_ode op) -> (forall x y : T, neqb x y = true -> x = y) ->
  forall c t hist i d g,
  o_ckpt op = AllCheckpointer -> quiet op -> stateless op c ->
  Forall (call_sized (o_ode op)) hist -> Forall (fun k => call_time k = t) hist ->
  all_return op hist (setup op c) ->
  inputs_sized (o_ode op) i -> outputs_sized (o_ode op) d -> time_initial i = t ->
  ((exists w', compute_jacvec_product_rev op i d (run_calls op hist (setup op c)) = (w', Ok g))
   <-> exists w', compute_jacvec_product_rev op i d (setup op c) = (w', Ok g)).
Proof. exact (@rev_history_independent). Qed.
Print Assumptions C11_reverse_product_history_independent.

(** And whatever was called before, also calls that raised, if compute has just
    returned for the same inputs, *)
Theorem C11_reverse_product_after_compute :
  forall (T : Type) (N : Num T) (C : Type) (op : options T C),
  result_sizes (o_ode op) -> derivative_sizes (o_ode op) -> adjoint_sizes (o_ode op) ->
  ignores_stage_state_weights (o_ode op) -> (forall x y : T, neqb x y = true -> x = y) ->
  forall c hist i d g w1 out,
  o_ckpt op = AllCheckpointer -> quiet op -> stateless op c ->
  Forall (call_sized (o_ode op)) hist -> inputs_sized (o_ode op) i -> outputs_sized (o_ode op) d ->
  compute op i (run_calls op hist (setup op c)) = (w1, Ok out) ->
  ((exists w', compute_jacvec_product_rev op i d w1 = (w', Ok g))
   <-> exists w', compute_jacvec_product_rev op i d (setup op c) = (w', Ok g)).
Proof. exact (@rev_after_compute). Qed.
Print Assumptions C11_reverse_product_after_compute.

(** or was last called (returning or raising) with another initial state or
    other independent inputs. *)
Theorem C11_reverse_product_after_other_inputs :
  forall (T : Type) (N : Num T) (C : Type) (op : options T C),
  result_sizes (o_ode op) -> derivative_sizes (o_ode op) -> adjoint_sizes (o_ode op) ->
  ignores_stage_state_weights (o_ode op) -> (forall x y : T, neqb x y = true -> x = y) ->
  forall c hist i j d g,
  o_ckpt op = AllCheckpointer -> quiet op -> stateless op c ->
  Forall (call_sized (o_ode op)) hist -> inputs_sized (o_ode op) i -> inputs_sized (o_ode op) j ->
  outputs_sized (o_ode op) d ->
  initial i <> initial j \/ independent i <> independent j ->
  ((exists w', compute_jacvec_product_rev op i d (run_calls op (hist ++ [CallCompute j]) (setup op c)) = (w', Ok g))
   <-> exists w', compute_jacvec_product_rev op i d (setup op c) = (w', Ok g)).
Proof. exact (@rev_after_other). Qed.
Print Assumptions C11_reverse_product_after_other_inputs.

Definition r_hist : list (call R) :=
  [CallCompute (gin 0 4 5); CallRev (gin 0 3 3) (gout 1 1); CallFwd (gin 0 1 1) (gin 1 2 3)].

Example C11_hypotheses_met : exists w out,
  sized_ode (o_ode rop) /\ ignores_stage_state_weights (o_ode rop) /\
  (forall x y : R, neqb x y = true -> x = y) /\
  o_ckpt rop = AllCheckpointer /\ quiet rop /\ stateless rop tt /\
  Forall (call_sized (o_ode rop)) r_hist /\ Forall (fun k => call_time k = 0) r_hist /\
  inputs_sized (o_ode rop) (gin 0 1 2) /\ outputs_sized (o_ode rop) (gout 1 2) /\
  all_return rop [CallFwd (gin 0 1 1) (gin 1 2 3); CallCompute (gin 0 4 5)] (setup rop tt) /\
  compute rop (gin 0 1 2) (setup rop tt) = (w, Ok out) /\
  independent (gin 0 1 2) <> independent (gin 0 1 3).
Proof.
  destruct (returns (compute rop (gin 0 1 2) (setup rop tt)) ltac:(evaluated)) as (w & out & E).
  exists w, out; split; [apply gode_sized|]; split; [apply gode_ignores|]; split; [exact Reqb_eq|].
  split; [reflexivity|]; split; [apply gop_quiet|]; split; [apply gop_stateless|].
  split; [repeat constructor|]; split; [repeat constructor|]; split; [apply gin_sized|].
  split; [apply gout_sized|].
  split.
  { destruct (returns (compute_jacvec_product_fwd rop (gin 0 1 1) (gin 1 2 3) (setup rop tt))
      ltac:(evaluated)) as (w1 & x1 & E1).
    destruct (returns (compute rop (gin 0 4 5) (run_call rop (CallFwd (gin 0 1 1) (gin 1 2 3)) (setup rop tt)))
      ltac:(evaluated)) as (w2 & x2 & E2).
    cbn [all_return]; rewrite E1, E2; cbn [snd]; eauto. }
  split; [exact E|]; intros [=]; lra.
Qed.

(** ** C12 *)
(** A run that raised is mistaken for a completed one: the next reverse product
    for the same inputs returns, through the steps made before the exception. *)
Definition op12 : options Q unit :=
  gop euler (gode (fun i => Qle_bool 1 (time i)) never) AllCheckpointer false 1%Q (PredefinedNumberOfSteps 2).

Theorem C12_failed_run_not_reused_refuted :
  exists (op : options Q unit) c i d w1 w2 w3 g,
  o_ckpt op = AllCheckpointer /\ quiet op /\ stateless op c /\ sized_ode (o_ode op) /\
  inputs_sized (o_ode op) i /\ outputs_sized (o_ode op) d /\
  compute op i (setup op c) = (w1, Err SolverError) /\
  compute_jacvec_product_rev op i d w1 = (w2, Ok g) /\
  compute_jacvec_product_rev op i d (setup op c) = (w3, Err SolverError).
Proof.
  exists op12, tt, (gin 0 1 0)%Q, (gout 0 1)%Q; eexists; eexists; eexists; eexists.
  split; [reflexivity|]; split; [apply gop_quiet|]; split; [apply gop_stateless|].
  split; [apply gode_sized|]; split; [apply gin_sized|]; split; [apply gout_sized|].
  split; [evaluated|]; split; [evaluated|evaluated].
Qed.
Print Assumptions C12_failed_run_not_reused_refuted.

(** So is a reverse product that raised: the next one goes through the rest of
    the steps only. *)
Definition op12b : options Q unit :=
  gop euler (gode never (fun u => Qeq_bool u 4)) AllCheckpointer false 1%Q (PredefinedNumberOfSteps 2).

Theorem C12_failed_reverse_not_reused_refuted :
  exists (op : options Q unit) c i d d' w1 w2 w3 g g',
  o_ckpt op = AllCheckpointer /\ quiet op /\ stateless op c /\ sized_ode (o_ode op) /\
  inputs_sized (o_ode op) i /\ outputs_sized (o_ode op) d /\ outputs_sized (o_ode op) d' /\
  compute_jacvec_product_rev op i d (setup op c) = (w1, Err SolverError) /\
  compute_jacvec_product_rev op i d' w1 = (w2, Ok g) /\
  compute_jacvec_product_rev op i d' (setup op c) = (w3, Ok g') /\
  initial g = [1%Q] /\ initial g' = [2%Q].
Proof.
  exists op12b, tt, (gin 0 1 0)%Q, (gout 0 2)%Q, (gout 0 1)%Q; eexists; eexists; eexists; eexists; eexists.
  split; [reflexivity|]; split; [apply gop_quiet|]; split; [apply gop_stateless|].
  split; [apply gode_sized|]; split; [apply gin_sized|]; split; [apply gout_sized|]; split; [apply gout_sized|].
  split; [evaluated|]; split; [evaluated|]; split; [evaluated|]; split; evaluated.
Qed.
Print Assumptions C12_failed_reverse_not_reused_refuted.

(** What holds: reverse products for another initial state or other independent
    inputs are not affected by a run that raised. *)
Theorem C12_other_inputs_unaffected :
  forall (T : Type) (N : Num T) (C : Type) (op : options T C),
  result_sizes (o_ode op) -> derivative_sizes (o_ode op) -> adjoint_sizes (o_ode op) ->
  ignores_stage_state_weights (o_ode op) -> (forall x y : T, neqb x y = true -> x = y) ->
  forall c hist i j d g w1 e,
  o_ckpt op = AllCheckpointer -> quiet op -> stateless op c ->
  Forall (call_sized (o_ode op)) hist -> inputs_sized (o_ode op) i -> inputs_sized (o_ode op) j ->
  outputs_sized (o_ode op) d ->
  compute op j (run_calls op hist (setup op c)) = (w1, Err e) ->
  initial i <> initial j \/ independent i <> independent j ->
  ((exists w', compute_jacvec_product_rev op i d w1 = (w', Ok g))
   <-> exists w', compute_jacvec_product_rev op i d (setup op c) = (w', Ok g)).
Proof. exact (@rev_after_failed). Qed.
Print Assumptions C12_other_inputs_unaffected.

(** A component over the integers that cannot solve its equations at time 1 if
    the independent input is 7. *)
Definition zop : options Z unit :=
  gop euler (gode (fun i => Z.eqb (time i) 1 && Z.eqb (nth 0 (independent_input i) 0%Z) 7) never)
    AllCheckpointer false 1%Z (PredefinedNumberOfSteps 2).

Example C12_hypotheses_met : exists w1 w2 g,
  sized_ode (o_ode zop) /\ ignores_stage_state_weights (o_ode zop) /\
  (forall x y : Z, neqb x y = true -> x = y) /\ o_ckpt zop = AllCheckpointer /\
  quiet zop /\ stateless zop tt /\
  compute zop (gin 0 1 7)%Z (run_calls zop [CallCompute (gin 1 2 3)%Z] (setup zop tt)) = (w1, Err SolverError) /\
  independent (gin 0 1 2)%Z <> independent (gin 0 1 7)%Z /\
  compute_jacvec_product_rev zop (gin 0 1 2)%Z (gout 1 1)%Z (setup zop tt) = (w2, Ok g).
Proof.
  eexists; eexists; eexists.
  split; [apply gode_sized|]; split; [apply gode_ignores|]; split; [exact Zeqb_eq|].
  split; [reflexivity|]; split; [apply gop_quiet|]; split; [apply gop_stateless|]; split; [evaluated|].
  split; [discriminate|evaluated].
Qed.

(** ** C20 *)
(** With adaptive stepping, every state of the run is one step of the size and
    error recorded for it away from the state before it: trials that were
    rejected leave no trace.  The histories are those of the accepted steps,
    newest first, preceded by 0 and the tolerance. *)
Theorem C20_histories_of_accepted_steps :
  forall (T : Type) (N : Num T) (C : Type) (op : options T C) c w i w' out,
  sized_ode (o_ode op) -> o_adaptive op = true -> loops op ->
  reachable op c w -> inputs_sized (o_ode op) i -> compute op i w = (w', Ok out) ->
  exists a l hs es, starts_at op i a /\ trajectory op a l /\ stops op a l /\
    log w' = log w ++ bracketed Compute (length (o_callbacks op Compute)) 1 a l /\ live w' = last l a /\
    length hs = length l /\ length es = length l /\
    forall k, (k < length l)%nat ->
      (exists tmp, compute_step (o_bt op) (o_ode op) (disc (nth k (a :: l) a)) (nth k hs n0) = Ok tmp /\
         state_measure (o_meas op) (o_ode op) tmp = Ok (nth k es n0) /\
         agree_but_embedded (disc (nth k l a)) tmp) /\
      step_hist (nth k l a) = [nth k hs n0; nth k (n0 :: hs) n0] /\
      err_hist (nth k l a) = [nth k es n0; nth k (o_tol op :: es) n0].
Proof. exact (@run_histories). Qed.
Print Assumptions C20_histories_of_accepted_steps.

(** A step that raises leaves the state and the histories as they were. *)
Theorem C20_failed_step_leaves_no_trace :
  forall (T : Type) (N : Num T) (C : Type) (op : options T C) fuel c st c' st' e,
  iterate_on_step op fuel c st = (c', st', Err e) ->
  disc st' = disc st /\ step_hist st' = step_hist st /\ err_hist st' = err_hist st.
Proof. exact (@iterate_raises). Qed.
Print Assumptions C20_failed_step_leaves_no_trace.

(** The controller of the Example rejects 1/2 and proposes 1/4, so the first step
    is tried twice. *)
Example C20_hypotheses_met : exists w' out,
  sized_ode (o_ode (qop NoCheckpointer)) /\ loops (qop NoCheckpointer) /\
  reachable (qop NoCheckpointer) tt
    (run_calls (qop NoCheckpointer) [CallFwd (gin 1 1 1)%Q (gin 0 1 0)%Q] (setup (qop NoCheckpointer) tt)) /\
  compute (qop NoCheckpointer) (gin 1 1 1)%Q
    (run_calls (qop NoCheckpointer) [CallFwd (gin 1 1 1)%Q (gin 0 1 0)%Q] (setup (qop NoCheckpointer) tt))
    = (w', Ok out) /\
  step_hist (live w') = [(1#4)%Q; (1#4)%Q] /\ err_hist (live w') = [(3137#16384)%Q; (7#64)%Q] /\
  exists c st, iterate_on_step (qop NoCheckpointer) 1 tt (live w') = (c, st, Err OutOfFuel) \/
    iterate_on_step (gop heun (gode (fun i => true) never) NoCheckpointer true (1 # 2)%Q
       (PredefinedNumberOfSteps 2)) 5 tt (live w') = (c, st, Err SolverError).
Proof.
  eexists; eexists; split; [apply gode_sized|]; split; [exact I|].
  split; [exists [CallFwd (gin 1 1 1)%Q (gin 0 1 0)%Q]; split; [repeat constructor|reflexivity]|].
  split; [evaluated|]; split; [evaluated|]; split; [evaluated|].
  eexists; eexists; right; evaluated.
Qed.

(** ** C33 *)
(** A call that returns has called all before hooks in order with the state
    before the step and all after hooks in order with the state after it, steps
    being numbered from 1. *)
Theorem C33_compute_callbacks :
  forall (T : Type) (N : Num T) (C : Type) (op : options T C) i w w' out,
  loops op -> compute op i w = (w', Ok out) ->
  exists a l, starts_at op i a /\ trajectory op a l /\ stops op a l /\
    log w' = log w ++ bracketed Compute (length (o_callbacks op Compute)) 1 a l /\
    time_final out = final_time (disc (last l a)) /\ final out = final_state (disc (last l a)) /\
    live w' = last l a.
Proof. exact (@compute_log). Qed.
Print Assumptions C33_compute_callbacks.

Theorem C33_forward_callbacks :
  forall (T : Type) (N : Num T) (C : Type) (op : options T C) i d w w' out,
  compute_jacvec_product_fwd op i d w = (w', Ok out) ->
  exists a l, starts_at op i a /\ trajectory op a l /\ stops op a l /\
    log w' = log w ++ bracketed Fwd (length (o_callbacks op Fwd)) 1 a l /\ live w' = last l a.
Proof. exact (@fwd_log). Qed.
Print Assumptions C33_forward_callbacks.

(** A call that raises breaks off this sequence, in one step. *)
Theorem C33_compute_callbacks_when_raising :
  forall (T : Type) (N : Num T) (C : Type) (op : options T C) i w w' r,
  loops op -> compute op i w = (w', r) ->
  exists a l ev, starts_at op i a /\ trajectory op a l /\
    log w' = log w ++ bracketed Compute (length (o_callbacks op Compute)) 1 a l ++ ev /\
    (ev = [] \/ broken_off op Compute (length (o_callbacks op Compute)) (S (length l)) (last l a) ev).
Proof. exact (@compute_log_any). Qed.
Print Assumptions C33_compute_callbacks_when_raising.

Theorem C33_forward_callbacks_when_raising :
  forall (T : Type) (N : Num T) (C : Type) (op : options T C) i d w w' r,
  compute_jacvec_product_fwd op i d w = (w', r) ->
  exists a l ev, starts_at op i a /\ trajectory op a l /\
    log w' = log w ++ bracketed Fwd (length (o_callbacks op Fwd)) 1 a l ++ ev /\
    (ev = [] \/ broken_off op Fwd (length (o_callbacks op Fwd)) (S (length l)) (last l a) ev).
Proof. exact (@fwd_log_any). Qed.
Print Assumptions C33_forward_callbacks_when_raising.

(** The reverse sweep of a returning call is part of
    [C08_reverse_uses_every_step]; one that raises breaks it off. *)
Theorem C33_reverse_callbacks_when_raising :
  forall (T : Type) (N : Num T) (C : Type) (op : options T C) i d w w' r,
  o_ckpt op = AllCheckpointer -> cache_hit i (cached w) = true ->
  compute_jacvec_product_rev op i d w = (w', r) ->
  exists k, log w' = log w ++ firstn k (bracketed_back (length (o_callbacks op Rev)) (storage w)).
Proof. exact (@rev_log_any). Qed.
Print Assumptions C33_reverse_callbacks_when_raising.

(** Two callbacks and two steps; and a run failing in its second step. *)
Example C33_hypotheses_met : exists w1 out w2 dout w3 e w4 w5 e',
  loops zop /\ compute zop (gin 0 1 2)%Z (setup zop tt) = (w1, Ok out) /\ length (log w1) = 8%nat /\
  compute_jacvec_product_fwd zop (gin 0 1 2)%Z (gin 1 1 1)%Z (setup zop tt) = (w2, Ok dout) /\
  compute zop (gin 0 1 7)%Z (setup zop tt) = (w3, Err e) /\ length (log w3) = 6%nat /\
  cache_hit (gin 0 1 0)%Q (cached w4) = true /\
  compute_jacvec_product_rev op12b (gin 0 1 0)%Q (gout 0 2)%Q w4 = (w5, Err e').
Proof.
  eexists; eexists; eexists; eexists; eexists; eexists.
  exists (fst (compute op12b (gin 0 1 0)%Q (setup op12b tt))).
  eexists; eexists; split; [exact I|].
  split; [evaluated|]; split; [evaluated|]; split; [evaluated|]; split; [evaluated|]; split; [evaluated|].
  split; evaluated.
Qed.

(** ** C46 *)
(** Compute is not repeatable with nested controllers: the counter of the outer
    one is left over from the first run. *)
Theorem C46_compute_repeatable_refuted :
  exists (C : Type) (op : options (ext Q) C) c i w1 out w2 out',
  quiet op /\ sized_ode (o_ode op) /\ inputs_sized (o_ode op) i /\ loops op /\
  compute op i (setup op c) = (w1, Ok out) /\ compute op i w1 = (w2, Ok out') /\
  time_final out = Fin (65 # 8) /\ time_final out' = Fin (3 # 4).
Proof.
  exists (controller (ext Q)), nop, nctl, nin; eexists; eexists; eexists; eexists.
  split; [intros m cb []|]; split; [apply quadrature_sized|]; split; [split; reflexivity|].
  split; [exact I|]; split; [evaluated|]; split; [evaluated|]; split; reflexivity.
Qed.
Print Assumptions C46_compute_repeatable_refuted.

(** It is with a controller no call changes, as those without a nested one, and
    with a fixed step size; whatever was called before. *)
Theorem C46_compute_repeatable :
  forall (T : Type) (N : Num T) (C : Type) (op : options T C) c w1 w2 i w1' out,
  sized_ode (o_ode op) -> loops op -> quiet op -> stateless op c ->
  reachable op c w1 -> reachable op c w2 -> inputs_sized (o_ode op) i ->
  compute op i w1 = (w1', Ok out) -> exists w2', compute op i w2 = (w2', Ok out).
Proof. exact (@repeatable). Qed.
Print Assumptions C46_compute_repeatable.

(** Controllers without a nested one are of that kind. *)
Theorem C46_plain_controllers_stateless :
  forall (T : Type) (N : Num T) (I : NumInf T) (op : options T (controller T)) cfg x b,
  o_ctl op = ctl_call cfg -> stateless op (Plain x b).
Proof. intros T N I op cfg x b E _ q; rewrite E; cbn [ctl_call]; destruct (_ && _); reflexivity. Qed.
Print Assumptions C46_plain_controllers_stateless.

Example C46_hypotheses_met : exists w1' out,
  sized_ode (o_ode (qop AllCheckpointer)) /\ loops (qop AllCheckpointer) /\ quiet (qop AllCheckpointer) /\
  stateless (qop AllCheckpointer) tt /\
  reachable (qop AllCheckpointer) tt
    (run_calls (qop AllCheckpointer) [CallRev (gin 1 1 1)%Q (gout 0 1)%Q] (setup (qop AllCheckpointer) tt)) /\
  compute (qop AllCheckpointer) (gin 1 1 1)%Q (setup (qop AllCheckpointer) tt) = (w1', Ok out).
Proof.
  eexists; eexists; split; [apply gode_sized|]; split; [exact I|]; split; [apply gop_quiet|].
  split; [apply gop_stateless|].
  split; [exists [CallRev (gin 1 1 1)%Q (gout 0 1)%Q]; split; [repeat constructor|reflexivity]|evaluated].
Qed.

(** ** C48 *)
(** After an adaptive step the embedded solution and error estimate of the state
    do not belong to that step, *)
Theorem C48_embedded_fields_of_the_step_refuted :
  exists (op : options Q unit) c i w1 out,
  o_adaptive op = true /\ sized_ode (o_ode op) /\ inputs_sized (o_ode op) i /\
  compute op i (setup op c) = (w1, Ok out) /\
  nth 0 (err_hist (live w1)) 0%Q = (3137 # 16384)%Q /\
  embedded (disc (live w1)) = Some ([0%Q], [0%Q]).
Proof.
  exists (qop AllCheckpointer), tt, (gin 1 1 1)%Q; eexists; eexists.
  split; [reflexivity|]; split; [apply gode_sized|]; split; [apply gin_sized|].
  split; [evaluated|]; split; evaluated.
Qed.
Print Assumptions C48_embedded_fields_of_the_step_refuted.

(** they are zero in every state a component is ever in. *)
Theorem C48_embedded_fields_always_zero :
  forall (T : Type) (N : Num T) (C : Type) (op : options T C) c w e1 e2,
  sized_ode (o_ode op) -> reachable op c w ->
  embedded (disc (live w)) = Some (e1, e2) ->
  e1 = vzeros (state_size (o_ode op)) /\ e2 = vzeros (state_size (o_ode op)).
Proof. exact (@embedded_zero). Qed.
Print Assumptions C48_embedded_fields_always_zero.
