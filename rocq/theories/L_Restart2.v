(** Runs and products that are stopped and continued. *)
From Coq Require Import List Lia Bool Arith.
From Verif Require Import Base Ext M_Tableau M_State M_ODE M_Step M_Controller M_Measure M_Integrator
  SpecRK SpecShape SpecDeriv SpecRun SpecRestart L_Vec L_Step L_Deriv L_Generic L_Run L_Iter L_Whole L_RunProps L_Restart.
Import ListNotations.
Local Open Scope nat_scope.

Section Restart.
Context {T : Type} {N : Num T} {C : Type}.
Variable op : options T C.
Notation bt := (o_bt op).
Notation o := (o_ode op).
Notation wft := (wf_ti op).
Notation wfe cr := (wf (ending op cr)).
Notation shape := (shaped (t_stages bt) (state_size o) (independent_input_size o)
                          (independent_output_size o) (linearization_point_size o)).
Notation fsim := (fsim op).
Hypothesis Ha : o_adaptive op = false.
Hypothesis Hres : result_sizes o.
Hypothesis Hdsz : derivative_sizes o.
Hypothesis Hasz : adjoint_sizes o.

Lemma wft_conv cr1 cr2 st : wf_ti (ending op cr1) st -> wf_ti (ending op cr2) st.
Proof. intros []; constructor; auto. Qed.

Lemma prep_fsim cr1 cr2 i w1 w2 : inputs_sized o i -> wfe cr1 w1 -> wfe cr2 w2 ->
  fsim (live (prepare (ending op cr1) i w1)) (live (prepare (ending op cr2) i w2)).
Proof.
  intros Hi H1 H2. constructor.
  - apply (ending_wft op cr1), wf_live, wf_prepare; auto.
  - apply (ending_wft op cr2), wf_live, wf_prepare; auto.
  - constructor; reflexivity.
  - reflexivity.
Qed.
Lemma prep_fwd_fsim cr1 cr2 i d w1 w2 : inputs_sized o i -> inputs_sized o d -> wfe cr1 w1 -> wfe cr2 w2 ->
  fsim (live (prepare_fwd (ending op cr1) i d w1)) (live (prepare (ending op cr2) i w2)).
Proof.
  intros Hi Hd H1 H2. constructor.
  - apply (ending_wft op cr1), wf_live, wf_prepare_fwd; auto.
  - apply (ending_wft op cr2), wf_live, wf_prepare; auto.
  - constructor; reflexivity.
  - reflexivity.
Qed.

Lemma chain_kept cr it c a l c' a' : chain (ending op cr) it c a l c' a' -> wft a ->
  independent_inputs (disc a') = independent_inputs (disc a) /\ suggestion a' = suggestion a /\ wft a' /\ Forall wft l.
Proof.
  induction 1 as [it c a F|it c a c1 a1 l c' a' F I _ IH]; intros W; [auto|].
  pose proof (ending_wft op cr _ (iterate_wf (ending op cr) Hres _ _ _ _ _ _ (wft_ending op cr _ W) I)) as W1.
  destruct (IH W1) as (A & B & D & E). destruct (iterate_fixed (ending op cr) _ _ _ _ _ Ha I) as (tmp & K & _ & ->).
  pose proof (compute_step_frame bt o _ _ _ Hres (wt_shape _ _ W) K) as Fr.
  rewrite A, B. split; [exact (fr_ind _ _ _ _ _ Fr)|]. split; [reflexivity|]. split; [exact D|]. constructor; assumption.
Qed.

Lemma restart_sized i st : wft st -> inputs_sized o i -> inputs_sized o (restart i (result_of st)) .
Proof. intros [[] _ _ _] [A B]. split; cbn; assumption. Qed.

(** The state a run was stopped in and the one it is continued from. *)
Lemma restart_fsim crA crB it c i w l c' st' w2 : inputs_sized o i -> wfe crA w -> wfe crB w2 ->
  chain (ending op crA) it c (live (prepare (ending op crA) i w)) l c' st' ->
  fsim st' (live (prepare (ending op crB) (restart i (result_of st')) w2)).
Proof.
  intros Hi H1 H2 Hc.
  assert (W : wft (live (prepare (ending op crA) i w))) by (apply (ending_wft op crA), wf_live, wf_prepare; auto).
  destruct (chain_kept _ _ _ _ _ _ _ Hc W) as (A & B & D & _). constructor.
  - exact D.
  - apply (ending_wft op crB), wf_live, wf_prepare; auto. exact (restart_sized i st' D Hi).
  - constructor; [reflexivity|reflexivity|exact A].
  - exact B.
Qed.

Lemma alike_length l1 l2 : Forall2 alike l1 l2 -> length l1 = length l2.
Proof. induction 1; cbn; auto. Qed.

(** *** Derivative steps *)
Lemma dsweep_alike l l2 : Forall2 alike l l2 -> forall p, derivative_sweep op l p = derivative_sweep op l2 p.
Proof.
  induction 1 as [|a b l l2 (E1 & E2) _ IH]; intros p; [reflexivity|]. cbn [derivative_sweep].
  replace (derivative_step op b p) with (derivative_step op a p) by (unfold derivative_step; rewrite E1, E2; reflexivity).
  destruct (derivative_step op a p); cbn [bind]; auto.
Qed.
Lemma asweep_alike l l2 : Forall2 alike l l2 -> forall p, adjoint_sweep op l p = adjoint_sweep op l2 p.
Proof.
  induction 1 as [|a b l l2 (E1 & E2) _ IH]; intros p; [reflexivity|]. cbn [adjoint_sweep].
  replace (adjoint_step op b p) with (adjoint_step op a p) by (unfold adjoint_step; rewrite E1, E2; reflexivity).
  destruct (adjoint_step op a p); cbn [bind]; auto.
Qed.
Lemma dsweep_app l1 l2 p : derivative_sweep op (l1 ++ l2) p = (let* q := derivative_sweep op l1 p in derivative_sweep op l2 q).
Proof.
  revert p. induction l1 as [|a l1 IH]; intros p; [reflexivity|]. cbn. destruct (derivative_step op a p); cbn; auto.
Qed.
Lemma asweep_app l1 l2 p : adjoint_sweep op (l1 ++ l2) p = (let* q := adjoint_sweep op l1 p in adjoint_sweep op l2 q).
Proof.
  revert p. induction l1 as [|a l1 IH]; intros p; [reflexivity|]. cbn. destruct (adjoint_step op a p); cbn; auto.
Qed.

Record dagree (n k : nat) (a b : rkstate T) : Prop := {
  da_ss : start_state a = start_state b;
  da_t : start_time a = start_time b;
  da_p : independent_inputs a = independent_inputs b;
  da_su : rows_agree k (stage_updates a) (stage_updates b);
  da_row : length (nth 0 (stage_updates a) []) = length (nth 0 (stage_updates b) []);
  da_la : length (stage_times a) = n; da_lb : length (stage_times b) = n;
  da_lu : length (stage_updates a) = n }.
Lemma dstage_agree lin n h i a b : (i < n)%nat -> dagree n i a b ->
  match compute_stage_derivative bt o lin a h i, compute_stage_derivative bt o lin b h i with
  | Ok a', Ok b' => dagree n (S i) a' b'
  | Err e, Err e' => e = e'
  | _, _ => False
  end.
Proof.
  intros Hi A; unfold compute_stage_derivative; cbn [stage_times start_state stage_updates independent_inputs w_stage_times start_time].
  rewrite (da_t _ _ _ _ A).
  rewrite !nth_upd_same by (first [rewrite (da_la _ _ _ _ A); exact Hi|rewrite (da_lb _ _ _ _ A); exact Hi]).
  rewrite (da_ss _ _ _ _ A), (da_p _ _ _ _ A), (accumulate_agree bt i _ _ (da_su _ _ _ _ A) (da_row _ _ _ _ A)).
  destruct (compute_update_derivative _ _ _ _ _) as [r|e]; cbn [bind]; [|reflexivity].
  destruct A as [A1 A2 A3 A4 A5 A6 A7 A8]. constructor; cbn; rewrite ?length_upd; auto; try (apply rows_agree_upd; auto; fail).
  apply nth0_upd; [apply A4|exact A5].
Qed.
Lemma dstages_agree lin n h : forall k j a b, (j + k <= n)%nat -> dagree n j a b ->
  match for_stages (fun s i => compute_stage_derivative bt o lin s h i) (seq j k) a,
        for_stages (fun s i => compute_stage_derivative bt o lin s h i) (seq j k) b with
  | Ok a', Ok b' => dagree n (j + k) a' b'
  | Err e, Err e' => e = e'
  | _, _ => False
  end.
Proof.
  induction k as [|k IH]; intros j a b Hj A; simpl.
  - rewrite Nat.add_0_r; exact A.
  - pose proof (dstage_agree lin n h j a b ltac:(lia) A) as Hst.
    destruct (compute_stage_derivative bt o lin a h j) as [a1|e]; destruct (compute_stage_derivative bt o lin b h j) as [b1|e'];
      cbn [bind]; try contradiction; [|exact Hst].
    specialize (IH (S j) a1 b1 ltac:(lia) Hst). replace (j + S k) with (S j + k) by lia; exact IH.
Qed.
Lemma dstep_io st p1 p2 : wft st -> shape (disc p1) -> shape (disc p2) -> same_start (disc p1) (disc p2) ->
  match derivative_step op st p1, derivative_step op st p2 with
  | Ok a, Ok b => same_start (disc a) (disc b) /\ shape (disc a) /\ shape (disc b)
  | Err e, Err e' => e = e'
  | _, _ => False
  end.
Proof.
  intros Hst H1 H2 [S1 S2 S3]; unfold derivative_step. set (h := nth 0 (step_hist st) n0).
  assert (K : match compute_step_derivative bt o (disc st) (disc p1) h, compute_step_derivative bt o (disc st) (disc p2) h with
    | Ok a, Ok b => same_start a b | Err e, Err e' => e = e' | _, _ => False end).
  { unfold compute_step_derivative, number_of_stages.
    assert (A : dagree (t_stages bt) 0 (shift_state (disc p1)) (shift_state (disc p2))).
    { destruct H1, H2; constructor; cbn; auto; try (split; [congruence|reflexivity]).
      destruct (stage_updates (disc p1)) as [|ra la], (stage_updates (disc p2)) as [|rb lb]; simpl in *; try congruence.
      inversion sh_sur; inversion sh_sur0; congruence. }
    pose proof (dstages_agree (linearization_points (disc st)) (t_stages bt) h (t_stages bt) 0 _ _ ltac:(lia) A) as L.
    destruct (for_stages _ _ (shift_state (disc p1))) as [a|e]; destruct (for_stages _ _ (shift_state (disc p2))) as [b|e']; cbn [bind]; try contradiction; [|exact L].
    destruct (compute_final_independent_outputs _) as [f|e]; cbn [bind]; [|reflexivity].
    cbn [Nat.add] in L. destruct L as [L1 L2 L3 L4 L5 L6 L7 L8]. apply rows_agree_all in L4; [|exact L8].
    constructor; cbn; [exact L2|rewrite L1, L4; reflexivity|exact L3]. }
  destruct (compute_step_derivative bt o (disc st) (disc p1) h) as [a|e] eqn:E1;
  destruct (compute_step_derivative bt o (disc st) (disc p2) h) as [b|e'] eqn:E2; cbn [bind]; auto.
  destruct (compute_step_derivative_shape bt o _ _ _ _ Hdsz (wt_shape _ _ Hst) H1 E1) as (Q1 & _).
  destruct (compute_step_derivative_shape bt o _ _ _ _ Hdsz (wt_shape _ _ Hst) H2 E2) as (Q2 & _).
  split; [|split; apply (shape_rk_set op); assumption]. destruct K; constructor; cbn; auto.
Qed.
Lemma dsweep_io l : Forall wft l -> forall p1 p2, shape (disc p1) -> shape (disc p2) -> same_start (disc p1) (disc p2) ->
  match derivative_sweep op l p1, derivative_sweep op l p2 with
  | Ok a, Ok b => same_start (disc a) (disc b)
  | Err e, Err e' => e = e'
  | _, _ => False
  end.
Proof.
  induction 1 as [|st l Hst _ IH]; intros p1 p2 H1 H2 HS; cbn [derivative_sweep]; [exact HS|].
  pose proof (dstep_io st p1 p2 Hst H1 H2 HS) as A.
  destruct (derivative_step op st p1) as [a|e], (derivative_step op st p2) as [b|e']; cbn [bind]; try tauto.
  destruct A as (A1 & A2 & A3); apply IH; auto.
Qed.
Lemma dsweep_kept l : Forall wft l -> forall p p', shape (disc p) -> derivative_sweep op l p = Ok p' ->
  shape (disc p') /\ independent_inputs (disc p') = independent_inputs (disc p).
Proof.
  induction 1 as [|st l Hst _ IH]; intros p p' H1 E; cbn [derivative_sweep] in E; [injection E as <-; auto|].
  unfold derivative_step in E. destruct (compute_step_derivative _ _ _ _ _) as [a|e] eqn:E1; cbn [bind] in E; [|discriminate].
  destruct (compute_step_derivative_shape bt o _ _ _ _ Hdsz (wt_shape _ _ Hst) H1 E1) as (Q1 & Q2).
  destruct (IH (w_disc (rk_set (disc p) a) p) p' (shape_rk_set op _ _ Q1) E) as (R1 & R2). split; [exact R1|]. rewrite R2. exact Q2.
Qed.

(** *** Reverse steps: the weights on the parameters are only added to. *)
Hypothesis Hign : ignores_stage_state_weights o.
Section Additive.
Variable Q : list T -> list T -> Prop.
Hypothesis Qadd : forall x y z, Q x y -> Q (vadd x z) (vadd y z).
Record agree_w (a b : rkstate T) : Prop := {
  aw_ss : start_state a = start_state b;
  aw_t : start_time a = start_time b;
  aw_p : Q (independent_inputs a) (independent_inputs b);
  aw_st : stage_times a = stage_times b;
  aw_su : stage_updates a = stage_updates b;
  aw_io : stage_independent_outputs a = stage_independent_outputs b }.
Record same_w (a b : rkstate T) : Prop := {
  sw_time : final_time a = final_time b; sw_state : final_state a = final_state b; sw_ind : Q (independent_inputs a) (independent_inputs b) }.
Lemma astage_w lin h i a b : agree_w a b ->
  match compute_stage_adjoint_derivative bt o lin a h i, compute_stage_adjoint_derivative bt o lin b h i with
  | Ok a', Ok b' => agree_w a' b'
  | Err e, Err e' => e = e'
  | _, _ => False
  end.
Proof.
  intros H; unfold compute_stage_adjoint_derivative.
  rewrite (Hign (nth i lin []) _
    {| stage_update := nth i (stage_updates b) []; stage_state := nth i (stage_states b) [];
       independent_output := nth i (stage_independent_outputs b) [] |})
    by (cbn; first [rewrite (aw_su _ _ H); reflexivity | rewrite (aw_io _ _ H); reflexivity]).
  destruct (compute_update_adjoint_derivative _ _ _ _ _) as [x|e]; cbn [bind]; [|reflexivity].
  destruct H; constructor; cbn; auto; congruence.
Qed.
Lemma aloop_w lin h l a b : agree_w a b ->
  match for_stages (fun p i => compute_stage_adjoint_derivative bt o lin p h i) l a,
        for_stages (fun p i => compute_stage_adjoint_derivative bt o lin p h i) l b with
  | Ok a', Ok b' => agree_w a' b'
  | Err e, Err e' => e = e'
  | _, _ => False
  end.
Proof.
  revert a b; induction l as [|i l IH]; intros a b H; simpl; [exact H|].
  pose proof (astage_w lin h i a b H) as Hs.
  destruct (compute_stage_adjoint_derivative bt o lin a h i) as [a1|e];
    destruct (compute_stage_adjoint_derivative bt o lin b h i) as [b1|e'];
    cbn [bind]; try contradiction; [apply IH; exact Hs | exact Hs].
Qed.
Lemma astep_w st p1 p2 : wft st -> shape (disc p1) -> shape (disc p2) -> same_w (disc p1) (disc p2) ->
  match adjoint_step op st p1, adjoint_step op st p2 with
  | Ok a, Ok b => same_w (disc a) (disc b) /\ shape (disc a) /\ shape (disc b)
  | Err e, Err e' => e = e'
  | _, _ => False
  end.
Proof.
  intros Hst H1 H2 [W1 W2 W3]; unfold adjoint_step. set (h := nth 0 (step_hist st) n0).
  assert (K : match compute_step_adjoint_derivative bt o (disc st) (disc p1) h, compute_step_adjoint_derivative bt o (disc st) (disc p2) h with
    | Ok a, Ok b => same_w a b | Err e, Err e' => e = e' | _, _ => False end).
  { unfold compute_step_adjoint_derivative, number_of_stages.
    match goal with |- match bind (for_stages ?f ?l ?a) _ with _ => _ end => set (A := a) end.
    match goal with |- context [bind (for_stages ?f ?l (w_start_time ?x ?y)) _] => set (B := w_start_time x y) end.
    assert (HAB : agree_w A B).
    { constructor; subst A B; cbn; try congruence.
      rewrite W2; apply fold_upd_overwrite; [apply H1|apply H2]. }
    pose proof (aloop_w (linearization_points (disc st)) h (rev (seq 0 (t_stages bt))) A B HAB) as HL.
    destruct (for_stages _ _ A) as [a|e]; destruct (for_stages _ _ B) as [b|e']; cbn [bind] in *; auto.
    constructor; cbn; destruct HL; auto. }
  destruct (compute_step_adjoint_derivative bt o (disc st) (disc p1) h) as [a|e] eqn:E1;
  destruct (compute_step_adjoint_derivative bt o (disc st) (disc p2) h) as [b|e'] eqn:E2; cbn [bind]; auto.
  pose proof (compute_step_adjoint_shape _ _ _ _ _ _ Hasz (wt_shape _ _ Hst) H1 E1) as S1.
  pose proof (compute_step_adjoint_shape _ _ _ _ _ _ Hasz (wt_shape _ _ Hst) H2 E2) as S2.
  split; [|split; apply (shape_rk_set op); assumption]. destruct K; constructor; cbn; auto.
Qed.
Lemma asweep_w l : Forall wft l -> forall p1 p2, shape (disc p1) -> shape (disc p2) -> same_w (disc p1) (disc p2) ->
  match adjoint_sweep op l p1, adjoint_sweep op l p2 with
  | Ok a, Ok b => same_w (disc a) (disc b)
  | Err e, Err e' => e = e'
  | _, _ => False
  end.
Proof.
  induction 1 as [|st l Hst _ IH]; intros p1 p2 H1 H2 HS; cbn [adjoint_sweep]; [exact HS|].
  pose proof (astep_w st p1 p2 Hst H1 H2 HS) as A.
  destruct (adjoint_step op st p1) as [a|e], (adjoint_step op st p2) as [b|e']; cbn [bind]; try tauto.
  destruct A as (A1 & A2 & A3); apply IH; auto.
Qed.
End Additive.
End Restart.
