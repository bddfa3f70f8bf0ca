(** Facts about whole runs over the reals: transposition, derivatives, times. *)
From Coq Require Import List Lia Bool Reals Lra.
From Verif Require Import Base Ext M_Tableau M_State M_ODE M_Step M_Controller M_Measure M_Integrator
  SpecRK SpecShape SpecDeriv SpecRun L_Vec L_Step L_Adjoint L_Deriv L_Generic L_Run L_Iter L_Whole L_Control.
Import ListNotations.
Open Scope R_scope.

(** *** Transposition *)
Section Transpose.
Context {C : Type}.
Variable op : options R C.
Notation bt := (o_bt op).
Notation o := (o_ode op).
Notation Sg := (t_stages bt).
Notation shape := (shaped Sg (state_size o) (independent_input_size o)
                          (independent_output_size o) (linearization_point_size o)).
Hypothesis Hbt : tableau_wf bt.
Hypothesis Hres : result_sizes o.
Hypothesis Hdsz : derivative_sizes o.
Hypothesis Hasz : adjoint_sizes o.
Hypothesis Htr : ode_transposed o.

Definition pairing (w v : tistate R) : R :=
  final_time (disc w) * final_time (disc v) + dot (final_state (disc w)) (final_state (disc v))
  + dot (independent_inputs (disc w)) (independent_inputs (disc v)).

Definition zero_weights (w : tistate R) : Prop :=
  forall i x, dot (nth i (stage_states (disc w)) []) x = 0.

Lemma dot_zeros n x : dot (vzeros n) x = 0.
Proof.
  revert x; induction n as [|n IH]; intros [|a x]; unfold vzeros in *; simpl; auto.
  rewrite IH; lra.
Qed.

Lemma rsum_zero n f : (forall i, f i = 0) -> rsum n f = 0.
Proof. intros H; induction n; simpl; rewrite ?IHn, ?H; lra. Qed.

Lemma step_pairing st v w v' w' : shape (disc st) -> shape (disc v) -> shape (disc w) -> zero_weights w ->
  derivative_step op st v = Ok v' -> adjoint_step op st w = Ok w' ->
  pairing w v' = pairing w' v /\ shape (disc v') /\ shape (disc w') /\ zero_weights w'.
Proof.
  intros Hs Hv Hw Hz D A; unfold derivative_step in D; unfold adjoint_step in A.
  destruct (compute_step_derivative _ _ _ _ _) as [dv|] eqn:E1; [|discriminate].
  destruct (compute_step_adjoint_derivative _ _ _ _ _) as [dw|] eqn:E2; [|discriminate].
  injection D as <-; injection A as <-.
  destruct (step_transpose bt o _ _ _ _ Hbt eq_refl eq_refl eq_refl Hdsz Hasz Htr _ _ _ _ _ _ Hs Hv Hw E1 E2)
    as (F1 & F2 & F3 & F4 & F5).
  rewrite (rsum_zero _ (fun i => dot (nth i (stage_states (disc w)) []) _)) in F5 by (intros; apply Hz).
  split; [unfold pairing; cbn; lra|].
  split; [apply shape_rk_set; exact F2|]; split; [apply shape_rk_set; exact F3|].
  intros i x; cbn; rewrite F4; apply Hz.
Qed.

Lemma adjoint_sweep_app a b p p' : adjoint_sweep op (a ++ b) p = Ok p' ->
  exists q, adjoint_sweep op a p = Ok q /\ adjoint_sweep op b q = Ok p'.
Proof.
  revert p; induction a as [|x a IH]; intros p H; simpl in *; [eauto|].
  destruct (adjoint_step op x p) as [p1|e]; cbn [bind] in *; [|discriminate]; auto.
Qed.

Lemma adjoint_sweep_keeps l p p' : Forall (fun st => shape (disc st)) l -> shape (disc p) -> zero_weights p ->
  adjoint_sweep op l p = Ok p' ->
  shape (disc p') /\ zero_weights p'.
Proof.
  intros F; revert p; induction F as [|st l Hst _ IH]; intros p Hp Hz H; simpl in H.
  - injection H as <-; auto.
  - destruct (adjoint_step op st p) as [p1|e] eqn:E; cbn [bind] in H; [|discriminate].
    unfold adjoint_step in E; destruct (compute_step_adjoint_derivative _ _ _ _ _) as [dw|] eqn:E2; [|discriminate].
    injection E as <-.
    pose proof (compute_step_adjoint_shape _ _ _ _ _ _ Hasz Hst Hp E2) as S2.
    revert H; apply IH; cbn; [apply shape_rk_set; exact S2|].
    intros i x; cbn.
    assert (Es : stage_states dw = stage_states (disc p)).
    { clear - E2; unfold compute_step_adjoint_derivative in E2.
      destruct (for_stages _ _ _) as [w1|e] eqn:E; cbn [bind] in E2; [|discriminate].
      injection E2 as <-; cbn.
      apply (for_stages_pres (fun x => stage_states x = stage_states (disc p))) in E; [exact E| |].
      - intros a b i Ha Hb; unfold compute_stage_adjoint_derivative in Hb.
        destruct (compute_update_adjoint_derivative _ _ _ _ _) as [x|]; cbn [bind] in Hb; [|discriminate].
        injection Hb as <-; cbn; exact Ha.
      - cbn; reflexivity. }
    rewrite Es; apply Hz.
Qed.

Lemma sweep_pairing l : Forall (fun st => shape (disc st)) l ->
  forall v w v' w', shape (disc v) -> shape (disc w) -> zero_weights w ->
  derivative_sweep op l v = Ok v' -> adjoint_sweep op (rev l) w = Ok w' ->
  pairing w v' = pairing w' v.
Proof.
  induction 1 as [|st l Hst Hl IH]; intros v w v' w' Hv Hw Hz D A; cbn [derivative_sweep rev] in *.
  - injection D as <-; injection A as <-; reflexivity.
  - destruct (derivative_step op st v) as [v1|e] eqn:E1; cbn [bind] in D; [|discriminate].
    apply adjoint_sweep_app in A as (q & A1 & A2); cbn [adjoint_sweep] in A2.
    destruct (adjoint_step op st q) as [w1|e] eqn:E2; cbn [bind] in A2; [|discriminate].
    injection A2 as <-.
    destruct (adjoint_sweep_keeps (rev l) w q (Forall_rev' _ _ Hl) Hw Hz A1) as [Hq Zq].
    destruct (step_pairing st v q v1 w1 Hst Hv Hq Zq E1 E2) as (P & V1 & W1 & Z1).
    rewrite <- P; apply (IH v1 w v' q); auto.
Qed.

Lemma zero_weights_setup c d : zero_weights (pert (prepare_rev d (setup op c))).
Proof.
  intros i x; cbn.
  destruct (Nat.lt_ge_cases i Sg) as [H|H].
  - rewrite (nth_indep _ [] (vzeros (state_size o))) by (rewrite repeat_length; exact H).
    rewrite nth_repeat; apply dot_zeros.
  - rewrite nth_overflow; [reflexivity|]; rewrite repeat_length; exact H.
Qed.

Lemma products_transposed c i din d w dout g w' :
  wf op w -> ctl w = c -> inputs_sized o i -> inputs_sized o din -> outputs_sized o d ->
  compute_jacvec_product_fwd op i din w = (w', Ok dout) ->
  rev_value op c i d g ->
  dot_outputs d dout = dot_inputs g din.
Proof.
  intros Hw Hc Hi Hdin Hd HF (l & c' & st' & p' & Hch & _ & Hp & ->).
  destruct (fwd_value op Hres i din w w' dout c Hw Hi Hdin HF) as (l2 & c2 & st2 & v' & Hch2 & _ & Hv & ->).
  rewrite Hc in Hch2; destruct (chain_fun op _ _ _ _ _ _ Hch _ _ _ Hch2) as (<- & _).
  assert (Fl : Forall (fun st => shape (disc st)) l).
  { assert (F : Forall (wf_ti op) l)
      by (apply (chain_wf op Hres _ _ _ _ _ _ Hch), wf_live, wf_prepare; auto using wf_setup).
    eapply Forall_impl; [|exact F]; intros a Ha; apply Ha. }
  pose proof (sweep_pairing l Fl _ _ _ _
    (wf_pert _ _ (wf_prepare_fwd op i din w Hi Hdin Hw))
    (wf_pert _ _ (wf_prepare_rev op d _ Hd (wf_setup op c)))
    (zero_weights_setup c d) Hv Hp) as P.
  unfold pairing in P.
  assert (Z : forall x, dot (independent_inputs (disc (pert (prepare_rev d (setup op c))))) x = 0)
    by (intros x; apply dot_zeros).
  rewrite Z in P; cbn [disc pert prepare_rev prepare_fwd put_inputs w_pert w_disc final_time w_final_time
    final_state w_final_state independent_inputs w_independent_inputs] in P.
  unfold dot_outputs, dot_inputs, result_of, gradient_of;
    cbn [time_final final time_initial initial independent]; lra.
Qed.

End Transpose.

(** *** Histories over R *)
Lemma Reqb_eq (x y : R) : neqb x y = true -> x = y.
Proof. apply Reqb_true. Qed.

Lemma Reqb_self (x : R) : neqb x x = true.
Proof. unfold neqb; cbn; unfold Reqb; destruct (Req_EM_T x x); congruence. Qed.

Lemma array_equal_self (a : list R) : array_equal a a = true.
Proof. induction a as [|x a IH]; simpl; [reflexivity|]; rewrite Reqb_self, IH; reflexivity. Qed.

Section Histories.
Context {C : Type}.
Variable op : options R C.
Notation bt := (o_bt op).
Notation o := (o_ode op).
Hypothesis Hbt : tableau_wf bt.
Hypothesis Hres : result_sizes o.
Hypothesis Hdsz : derivative_sizes o.
Hypothesis Hasz : adjoint_sizes o.

Lemma compute_hit i w w' out : loops op -> compute op i w = (w', Ok out) ->
  cache_hit i (cached w') = true.
Proof.
  intros HL H; pose proof (cached_compute op i w HL) as E; rewrite H in E; cbn in E.
  rewrite E; cbn; rewrite !array_equal_self; reflexivity.
Qed.

Lemma valid_after_compute i w w' out : o_ckpt op = AllCheckpointer -> wf op w -> inputs_sized o i ->
  compute op i w = (w', Ok out) -> valid_for op (ctl w) i w'.
Proof.
  intros HA Hw Hi H; right.
  assert (HL : loops op) by (unfold loops; rewrite HA; exact I).
  assert (HK : keeps op = true) by (unfold keeps; rewrite HA; reflexivity).
  split; [exact (compute_hit i w w' out HL H)|].
  destruct (compute_value op Hres i w w' out (ctl w) HL Hw Hi H) as (l & c' & st' & A & B & _ & D & _).
  exists l, c', st'; auto.
Qed.

Lemma rev_value_fresh c i d w' g : o_ckpt op = AllCheckpointer -> inputs_sized o i ->
  compute_jacvec_product_rev op i d (setup op c) = (w', Ok g) -> rev_value op c i d g.
Proof.
  intros HA Hi H.
  assert (HL : loops op) by (unfold loops; rewrite HA; exact I).
  assert (HK : keeps op = true) by (unfold keeps; rewrite HA; reflexivity).
  destruct (rev_ok op i d _ w' g HA H) as (wb & p' & Hb & Hp & -> & _).
  change (cache_hit i (cached (setup op c))) with false in Hb; cbn iota in Hb; destruct Hb as [out Hb].
  destruct (compute_ok op i _ _ _ HL Hb) as (l & c' & st' & Hc & Hl & -> & ->).
  exists l, c', st', p'; split; [exact Hc|]; split; [exact Hl|]; split; [|reflexivity].
  unfold after_run in Hp; rewrite HK in Hp; cbn [storage w_ctl w_live w_storage] in Hp.
  rewrite app_nil_r in Hp; exact Hp.
Qed.

Lemma transposed_fresh c c1 h1 i din d w1 dout w2 g :
  ode_transposed o -> o_ckpt op = AllCheckpointer ->
  Forall (call_sized o) h1 -> inputs_sized o i -> inputs_sized o din -> outputs_sized o d ->
  ctl (run_calls op h1 (setup op c1)) = c ->
  compute_jacvec_product_fwd op i din (run_calls op h1 (setup op c1)) = (w1, Ok dout) ->
  compute_jacvec_product_rev op i d (setup op c) = (w2, Ok g) ->
  dot_outputs d dout = dot_inputs g din.
Proof.
  intros Htr HA F1 Hi Hdin Hd Hc Hf Hr.
  pose proof (wf_run_calls op Hres Hdsz Hasz h1 (setup op c1) F1 (wf_setup op c1)) as W1.
  eapply (products_transposed op Hbt Hres Hdsz Hasz Htr c i din d); eauto.
  eapply rev_value_fresh; eauto.
Qed.

Lemma transposed_after_compute c1 c2 h1 h2 i din d w1 dout w2 out w3 g :
  ode_transposed o -> ignores_stage_state_weights o -> o_ckpt op = AllCheckpointer ->
  Forall (call_sized o) h1 -> Forall (call_sized o) h2 ->
  inputs_sized o i -> inputs_sized o din -> outputs_sized o d ->
  ctl (run_calls op h1 (setup op c1)) = ctl (run_calls op h2 (setup op c2)) ->
  compute_jacvec_product_fwd op i din (run_calls op h1 (setup op c1)) = (w1, Ok dout) ->
  compute op i (run_calls op h2 (setup op c2)) = (w2, Ok out) ->
  compute_jacvec_product_rev op i d w2 = (w3, Ok g) ->
  dot_outputs d dout = dot_inputs g din.
Proof.
  intros Htr Hign HA F1 F2 Hi Hdin Hd Hc Hf Hcomp Hr.
  pose proof (wf_run_calls op Hres Hdsz Hasz h1 (setup op c1) F1 (wf_setup op c1)) as W1.
  pose proof (wf_run_calls op Hres Hdsz Hasz h2 (setup op c2) F2 (wf_setup op c2)) as W2.
  pose proof (pres_compute op Hres Hasz i Hi _ W2) as P; rewrite Hcomp in P; cbn in P.
  refine (products_transposed op Hbt Hres Hdsz Hasz Htr (ctl (run_calls op h2 (setup op c2)))
    i din d _ dout g w1 W1 Hc Hi Hdin Hd Hf _).
  eapply rev_value_sound; [exact Hres|exact Hasz|exact Hign|exact HA|exact P|exact Hi|exact Hd| |exact Hr].
  eapply valid_after_compute; eauto.
Qed.

End Histories.

(** *** Fixed-step runs *)
Section FixedStep.
Context {C : Type}.
Variable op : options R C.
Notation bt := (o_bt op).
Notation o := (o_ode op).
Notation Sg := (t_stages bt).
Notation shape := (shaped Sg (state_size o) (independent_input_size o)
                          (independent_output_size o) (linearization_point_size o)).
Hypothesis Hres : result_sizes o.
Hypothesis Hfix : o_adaptive op = false.

Lemma fixed_step st c c' st' : wf_ti op st -> iterate_on_step op (retry_limit op) c st = (c', st', Ok tt) ->
  exists s', compute_step bt o (disc st) (suggestion st) = Ok s' /\
    step_frame bt o (disc st) (suggestion st) s' /\ disc st' = rk_set (disc st) s' /\
    suggestion st' = suggestion st /\ nth 0 (step_hist st') 0 = suggestion st /\ c' = c /\ wf_ti op st'.
Proof.
  intros Hw H; pose proof (iterate_wf op Hres _ _ _ _ _ _ Hw H) as Hw'.
  destruct (iterate_fixed op _ _ _ _ _ Hfix H) as (s' & E & -> & ->).
  exists s'; split; [exact E|]; split; [exact (compute_step_frame bt o _ _ _ Hres (wt_shape _ _ Hw) E)|].
  split; [reflexivity|]; split; [reflexivity|].
  split; [apply nth_upd_same; rewrite (wt_sh _ _ Hw); lia|]; auto.
Qed.

Lemma fixed_chain it c st l c' st' : chain op it c st l c' st' -> wf_ti op st ->
  forall k, (k < length l)%nat ->
  let s := disc (nth k l st) in
  let t0 := final_time (disc st) in let h := suggestion st in
  final_time s = t0 + INR (S k) * h /\ start_time s = t0 + INR k * h /\
  (forall i, (i < Sg)%nat -> nth i (stage_times s) 0 = t0 + INR k * h + h * nth i (t_c bt) 0) /\
  start_state s = final_state (disc (nth k (st :: l) st)) /\
  independent_inputs s = independent_inputs (disc st) /\ step_size s = h.
Proof.
  induction 1 as [|it c st c1 st1 l c' st' F I _ IH]; intros Hw k Hk; [simpl in Hk; lia|].
  destruct (fixed_step st c c1 st1 Hw I) as (s' & E & [F1 F2 F3 F4 F5 F6 F7] & D & Su & _ & _ & Hw1).
  cbn in F6, F7.
  destruct k as [|k].
  - cbn [nth]; rewrite D; cbn -[INR].
    rewrite F6, F3, F2, F4, F5; simpl INR.
    split; [lra|]; split; [lra|]; split; [|auto].
    intros i Hi; rewrite F7 by exact Hi; lra.
  - specialize (IH Hw1 k ltac:(simpl in Hk; lia)).
    assert (E0 : final_time (disc st1) = final_time (disc st) + suggestion st) by (rewrite D; exact F6).
    assert (E1 : independent_inputs (disc st1) = independent_inputs (disc st)) by (rewrite D; exact F4).
    rewrite Su, E0, E1 in IH.
    cbn [nth]. rewrite (nth_indep l st st1) by (simpl in Hk; lia).
    destruct IH as (A1 & A2 & A3 & A4 & A5 & A6); rewrite !S_INR in *.
    split; [rewrite A1; lra|]; split; [rewrite A2; lra|].
    split; [intros i Hi; rewrite A3 by exact Hi; lra|]; split; [|auto].
    rewrite A4; destruct k as [|k]; [reflexivity|].
    cbn [nth]; rewrite (nth_indep l st st1) by (simpl in Hk; lia); reflexivity.
Qed.

Lemma fixed_chain_end it c st l c' st' : chain op it c st l c' st' -> wf_ti op st ->
  final_time (disc st') = final_time (disc st) + INR (length l) * suggestion st.
Proof.
  induction 1 as [|it c st c1 st1 l c' st' F I _ IH]; intros Hw; [simpl; lra|].
  destruct (fixed_step st c c1 st1 Hw I) as (s' & E & [F1 F2 F3 F4 F5 F6 F7] & D & Su & _ & _ & Hw1).
  cbn in F6.
  rewrite (IH Hw1), Su, D; cbn [length]; rewrite S_INR; cbn; rewrite F6; lra.
Qed.

Lemma chain_count it c st l c' st' n : o_crit op = PredefinedNumberOfSteps n ->
  chain op it c st l c' st' -> length l = (n - it)%nat.
Proof.
  intros Hn; induction 1 as [it c st F|it c st c1 st1 l c' st' F I _ IH];
    unfold is_iteration_finished in F; rewrite Hn in F.
  - apply Nat.leb_le in F; simpl; lia.
  - apply Nat.leb_gt in F; simpl; lia.
Qed.

Lemma chain_final_time it c st l c' st' T : o_crit op = PredefinedFinalTime T ->
  chain op it c st l c' st' -> wf_ti op st ->
  (forall k, (k < length l)%nat -> final_time (disc st) + INR k * suggestion st < T) /\
  T <= final_time (disc st) + INR (length l) * suggestion st.
Proof.
  intros Hn Hc; induction Hc as [it c st F|it c st c1 st1 l c' st' F I _ IH]; intros Hw;
    unfold is_iteration_finished in F; rewrite Hn in F; cbn in F.
  - split; [simpl; intros; lia|]; simpl; apply Rleb_iff in F; lra.
  - assert (F' : final_time (disc st) < T).
    { apply Rnot_le_lt; intros K; assert (Rleb (T - final_time (disc st)) 0 = true) by (apply Rleb_iff; lra).
      congruence. }
    destruct (fixed_step st c c1 st1 Hw I) as (s' & E & [F1 F2 F3 F4 F5 F6 F7] & D & Su & _ & _ & Hw1).
    cbn in F6.
    assert (E0 : final_time (disc st1) = final_time (disc st) + suggestion st) by (rewrite D; exact F6).
    destruct (IH Hw1) as [G1 G2]; rewrite Su, E0 in *.
    split.
    + intros [|k] Hk; [simpl; lra|]; specialize (G1 k ltac:(simpl in Hk; lia)); rewrite S_INR; lra.
    + cbn [length]; rewrite S_INR; lra.
Qed.

(** With steps that always succeed the run ends. *)
Hypothesis Htot : forall s, shape s -> exists s', compute_step bt o s (o_step op) = Ok s'.
Hypothesis Hretry : (0 < retry_limit op)%nat.

Lemma fixed_step_total st c : wf_ti op st -> suggestion st = o_step op ->
  exists st', iterate_on_step op (retry_limit op) c st = (c, st', Ok tt).
Proof.
  intros Hw Hs; destruct (retry_limit op) as [|f]; [lia|]; cbn [iterate_on_step]; rewrite Hfix, Hs.
  destruct (Htot _ (wt_shape _ _ Hw)) as [s' ->]; eexists; reflexivity.
Qed.

Lemma chain_exists_count n c : o_crit op = PredefinedNumberOfSteps n ->
  forall k it st, (n - it <= k)%nat -> wf_ti op st -> suggestion st = o_step op ->
  exists l st', chain op it c st l c st'.
Proof.
  intros Hn; induction k as [|k IH]; intros it st Hk Hw Hs.
  - exists [], st; constructor; unfold is_iteration_finished; rewrite Hn; apply Nat.leb_le; lia.
  - destruct (Nat.leb n it) eqn:F.
    + exists [], st; constructor; unfold is_iteration_finished; rewrite Hn; exact F.
    + destruct (fixed_step_total st c Hw Hs) as [st1 I].
      destruct (fixed_step st c c st1 Hw I) as (s' & _ & _ & _ & Su & _ & _ & Hw1).
      destruct (IH (S it) st1) as (l & st' & Hc); [apply Nat.leb_gt in F; lia|exact Hw1|congruence|].
      exists (st1 :: l), st'; econstructor; eauto.
      unfold is_iteration_finished; rewrite Hn; exact F.
Qed.

Lemma chain_exists_time T c : o_crit op = PredefinedFinalTime T ->
  forall k it st, T <= final_time (disc st) + INR k * o_step op ->
  wf_ti op st -> suggestion st = o_step op ->
  exists l st', chain op it c st l c st' /\ (length l <= k)%nat.
Proof.
  intros Hn; induction k as [|k IH]; intros it st Hk Hw Hs.
  - exists [], st; split; [|simpl; lia]; constructor; unfold is_iteration_finished; rewrite Hn; cbn.
    apply Rleb_iff; simpl in Hk; lra.
  - destruct (Rleb (T - final_time (disc st)) 0) eqn:F.
    + exists [], st; split; [|simpl; lia]; constructor; unfold is_iteration_finished; rewrite Hn; exact F.
    + destruct (fixed_step_total st c Hw Hs) as [st1 I].
      destruct (fixed_step st c c st1 Hw I) as (s' & _ & [F1 F2 F3 F4 F5 F6 F7] & D & Su & _ & _ & Hw1).
      cbn in F6.
      destruct (IH (S it) st1) as (l & st' & Hc & Hl); [|exact Hw1|congruence|].
      * rewrite D; cbn; rewrite F6, Hs; rewrite S_INR in Hk; lra.
      * exists (st1 :: l), st'; split; [|simpl; lia]; econstructor; eauto.
        unfold is_iteration_finished; rewrite Hn; exact F.
Qed.

End FixedStep.

(** *** The derivative of a run *)
Section RunDerivative.
Context {C : Type}.
Variable op : options R C.
Notation bt := (o_bt op).
Notation o := (o_ode op).
Notation Sg := (t_stages bt).
Notation shape := (shaped Sg (state_size o) (independent_input_size o)
                          (independent_output_size o) (linearization_point_size o)).
Hypothesis Hbt : tableau_wf bt.
Hypothesis Hres : result_sizes o.
Hypothesis Hdsz : derivative_sizes o.
Hypothesis Hdiff : ode_differentiable o.
Hypothesis Hfix : o_adaptive op = false.
Variable n : nat.
Hypothesis Hn : o_crit op = PredefinedNumberOfSteps n.

Record moves (s : R -> rkstate R) (v : rkstate R) : Prop := {
  mv_state : curve (fun e => final_state (s e)) (final_state v);
  mv_ind : curve (fun e => independent_inputs (s e)) (independent_inputs v);
  mv_time : derivable_pt_lim (fun e => final_time (s e)) 0 (final_time v)
}.

Lemma moves_near s1 s2 v del : 0 < del -> (forall e, Rabs e < del -> same_start (s1 e) (s2 e)) ->
  moves s1 v -> moves s2 v.
Proof.
  intros Hd H [M1 M2 M3]; constructor.
  - intros m; eapply (dlim_ext_near (fun e => vnth m (final_state (s1 e)))); eauto.
    intros e He; cbn; rewrite (ss_state _ _ (H e He)); reflexivity.
  - intros m; eapply (dlim_ext_near (fun e => vnth m (independent_inputs (s1 e)))); eauto.
    intros e He; cbn; rewrite (ss_ind _ _ (H e He)); reflexivity.
  - eapply (dlim_ext_near (fun e => final_time (s1 e))); eauto.
    intros e He; cbn; rewrite (ss_time _ _ (H e He)); reflexivity.
Qed.

Lemma family_chain del h : 0 < del -> forall k it (st : R -> tistate R) c l c' st' v v',
  (n - it <= k)%nat ->
  (forall e, Rabs e < del -> wf_ti op (st e) /\ suggestion (st e) = h /\
     chain op it (c e) (st e) (l e) (c' e) (st' e)) ->
  shape (disc v) -> moves (fun e => disc (st e)) (disc v) ->
  derivative_sweep op (l 0) v = Ok v' ->
  moves (fun e => disc (st' e)) (disc v').
Proof.
  intros Hdel; induction k as [|k IH]; intros it st c l c' st' v v' Hk H Hv Hm D.
  - assert (E : forall e, Rabs e < del -> l e = [] /\ st' e = st e).
    { intros e He; destruct (H e He) as (_ & _ & Hc).
      destruct Hc as [|? ? ? ? ? ? ? ? F]; [auto|].
      unfold is_iteration_finished in F; rewrite Hn in F; apply Nat.leb_gt in F; lia. }
    assert (H0 : Rabs 0 < del) by (rewrite Rabs_R0; exact Hdel).
    destruct (E 0 H0) as [E0 _]; rewrite E0 in D; injection D as <-.
    eapply moves_near; [exact Hdel| |exact Hm].
    intros e He; destruct (E e He) as [_ ->]; constructor; reflexivity.
  - destruct (Nat.leb n it) eqn:F.
    + apply (IH it st c l c' st' v v'); auto; apply Nat.leb_le in F; lia.
    + assert (G : forall e, Rabs e < del -> exists c1 st1 l1, l e = st1 :: l1 /\
         iterate_on_step op (retry_limit op) (c e) (st e) = (c1, st1, Ok tt) /\
         chain op (S it) (c e) st1 l1 (c' e) (st' e)).
      { intros e He; destruct (H e He) as (Hw & Hs & Hc).
        destruct Hc as [? ? ? F'|it' c0 s0 c1 st1 l1 c2 s2 F' I Hc].
        - unfold is_iteration_finished in F'; rewrite Hn in F'; congruence.
        - exists c1, st1, l1; split; [reflexivity|]; split; [exact I|].
          destruct (fixed_step op Hres Hfix _ _ _ _ Hw I) as (_ & _ & _ & _ & _ & _ & -> & _); exact Hc. }
      set (st1 := fun e => hd (st e) (l e)); set (l1 := fun e => tl (l e)).
      set (s' := fun e => match compute_step bt o (disc (st e)) h with Ok x => x | Err _ => disc (st e) end).
      assert (H0 : Rabs 0 < del) by (rewrite Rabs_R0; exact Hdel).
      assert (K : forall e, Rabs e < del -> l e = st1 e :: l1 e /\
         compute_step bt o (disc (st e)) h = Ok (s' e) /\ disc (st1 e) = rk_set (disc (st e)) (s' e) /\
         wf_ti op (st1 e) /\ suggestion (st1 e) = h /\ nth 0 (step_hist (st1 e)) 0 = h /\
         chain op (S it) (c e) (st1 e) (l1 e) (c' e) (st' e)).
      { intros e He; destruct (G e He) as (c1 & s1 & m1 & E1 & I & Hc); destruct (H e He) as (Hw & Hs & _).
        destruct (fixed_step op Hres Hfix _ _ _ _ Hw I) as (t & Q1 & Q2 & Q3 & Q4 & Q5 & Q6 & Q7).
        unfold st1, l1, s'; rewrite E1; cbn [hd tl]; rewrite Hs in *; rewrite Q1; auto 10. }
      destruct (K 0 H0) as (E0 & _ & D0 & _ & _ & N0 & _).
      rewrite E0 in D; cbn [derivative_sweep] in D.
      destruct (derivative_step op (st1 0) v) as [v1|e] eqn:E1; cbn [bind] in D; [|discriminate].
      unfold derivative_step in E1; change (@n0 R RNum) with 0 in E1; rewrite N0, D0 in E1.
      change (compute_step_derivative bt o (rk_set (disc (st 0)) (s' 0)) (disc v) h)
        with (compute_step_derivative bt o (s' 0) (disc v) h) in E1.
      destruct (compute_step_derivative bt o (s' 0) (disc v) h) as [dv|] eqn:E2; [|discriminate].
      injection E1 as <-.
      assert (Hv1 : shape dv).
      { refine (proj1 (compute_step_derivative_shape bt o _ _ _ _ Hdsz _ Hv E2)).
        destruct (H 0 H0) as (Hw & _); destruct (K 0 H0) as (_ & Q & _).
        exact (fr_shape _ _ _ _ _ (compute_step_frame bt o _ _ _ Hres (wt_shape _ _ Hw) Q)). }
      destruct Hm as [M1 M2 M3].
      destruct (step_derivative_correct bt o _ _ _ _ Hbt eq_refl eq_refl eq_refl eq_refl Hres Hdsz Hdiff
        del (fun e => disc (st e)) s' (disc v) h dv) as (P1 & P2 & P3 & _); auto.
      * intros e He; apply (H e He).
      * intros e He; apply (K e He).
      * refine (IH (S it) st1 c l1 c' st' _ v' _ _ _ _ D).
        -- apply Nat.leb_gt in F; lia.
        -- intros e He; destruct (K e He) as (_ & _ & _ & Q1 & Q2 & _ & Q3); auto.
        -- cbn; apply shape_rk_set; exact Hv1.
        -- apply (moves_near s' _ _ del Hdel).
           ++ intros e He; destruct (K e He) as (_ & _ & -> & _); constructor; reflexivity.
           ++ constructor; cbn; auto.
Qed.

Lemma run_derivative del (I : R -> inputs R) (d : inputs R) (w : R -> component R C) (w' : R -> component R C)
    out w0 w0' dout :
  loops op -> 0 < del ->
  (forall e, Rabs e < del -> wf op (w e) /\ inputs_sized o (I e) /\ compute op (I e) (w e) = (w' e, Ok (out e))) ->
  wf op w0 -> ctl w0 = ctl (w 0) -> inputs_sized o d ->
  curve (fun e => initial (I e)) (initial d) ->
  curve (fun e => independent (I e)) (independent d) ->
  derivable_pt_lim (fun e => time_initial (I e)) 0 (time_initial d) ->
  compute_jacvec_product_fwd op (I 0) d w0 = (w0', Ok dout) ->
  curve (fun e => final (out e)) (final dout) /\
  derivable_pt_lim (fun e => time_final (out e)) 0 (time_final dout).
Proof.
  intros HL Hdel H Hw0 Hctl Hd C1 C2 C3 HF.
  assert (H0 : Rabs 0 < del) by (rewrite Rabs_R0; exact Hdel).
  destruct (H 0 H0) as (Hw00 & Hi0 & _).
  destruct (fwd_value op Hres (I 0) d w0 w0' dout (ctl (w 0)) Hw0 Hi0 Hd HF) as (l0 & c0 & st0 & p' & Hch0 & _ & Hp & ->).
  (* the trajectories *)
  pose (fst_ := fun e => live (prepare op (I e) (setup op (ctl (w e))))).
  assert (G : forall e, Rabs e < del -> exists l c' st',
     chain op 0 (ctl (w e)) (fst_ e) l c' st' /\ out e = result_of st').
  { intros e He; destruct (H e He) as (We & Ie & Ce).
    destruct (compute_value op Hres (I e) (w e) (w' e) (out e) (ctl (w e)) HL We Ie Ce) as (l & c' & st' & A & _ & B & _).
    exists l, c', st'; auto. }
  (* the successive states as functions of e, without choice *)
  pose (upto := fix upto k (c : C) (st : tistate R) : list (tistate R) :=
     match k with
     | O => []
     | S k' => match iterate_on_step op (retry_limit op) c st with
               | (c1, st1, Ok _) => st1 :: upto k' c1 st1
               | _ => []
               end
     end).
  pose (ctls := fix ctls k (c : C) (st : tistate R) : C :=
     match k with
     | O => c
     | S k' => match iterate_on_step op (retry_limit op) c st with
               | (c1, st1, Ok _) => ctls k' c1 st1
               | _ => c
               end
     end).
  assert (U : forall it c st l c' st', chain op it c st l c' st' ->
     l = upto (n - it)%nat c st /\ c' = ctls (n - it)%nat c st /\ st' = last (upto (n - it)%nat c st) st).
  { induction 1 as [it c st F|it c st c1 st1 l c' st' F It _ IH];
      unfold is_iteration_finished in F; rewrite Hn in F.
    - apply Nat.leb_le in F; replace (n - it)%nat with 0%nat by lia; auto.
    - apply Nat.leb_gt in F; replace (n - it)%nat with (S (n - S it)) by lia; cbn [upto ctls]; rewrite It.
      destruct IH as (-> & -> & ->); split; [reflexivity|]; split; [reflexivity|].
      destruct (upto (n - S it)%nat c1 st1) as [|x y]; [reflexivity|].
      assert (Lx : forall (z : list (tistate R)) a b1 b2, last (a :: z) b1 = last (a :: z) b2).
      { induction z as [|z0 z IHz]; intros; [reflexivity|]; apply (IHz z0 b1 b2). }
      change (last (st1 :: x :: y) st) with (last (x :: y) st); apply Lx. }
  set (l := fun e => upto (n - 0)%nat (ctl (w e)) (fst_ e)).
  set (st' := fun e => last (l e) (fst_ e)).
  assert (G2 : forall e, Rabs e < del ->
     chain op 0 (ctl (w e)) (fst_ e) (l e) (ctls (n - 0)%nat (ctl (w e)) (fst_ e)) (st' e) /\ out e = result_of (st' e)).
  { intros e He; destruct (G e He) as (le & ce & se & A & B).
    destruct (U _ _ _ _ _ _ A) as (E1 & E2 & E3); subst le ce se; split; assumption. }
  rewrite Hctl in Hch0; destruct (U _ _ _ _ _ _ Hch0) as (E1 & _ & _); subst l0.
  assert (M : moves (fun e => disc (st' e)) (disc p')).
  { apply (family_chain del (o_step op) Hdel n 0 fst_ (fun e => ctl (w e)) l
      (fun e => ctls (n - 0)%nat (ctl (w e)) (fst_ e)) st' (pert (prepare_fwd op (I 0) d w0)) p'); auto.
    - lia.
    - intros e He; split; [|split; [reflexivity|apply G2, He]].
      destruct (H e He) as (_ & Ie & _); apply wf_live, wf_prepare; auto using wf_setup.
    - apply (wf_pert op), wf_prepare_fwd; auto.
    - constructor; cbn; auto. }
  destruct M as [M1 M2 M3]; split.
  - intros m; eapply (dlim_ext_near (fun e => vnth m (final_state (disc (st' e))))); [exact Hdel| |apply M1].
    intros e He; destruct (G2 e He) as [_ ->]; reflexivity.
  - eapply (dlim_ext_near (fun e => final_time (disc (st' e)))); [exact Hdel| |apply M3].
    intros e He; destruct (G2 e He) as [_ ->]; reflexivity.
Qed.

End RunDerivative.
