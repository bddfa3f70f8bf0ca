(** Forward products in changed variables. *)
From Coq Require Import List Lia Bool Arith.
From Verif Require Import Base M_Tableau M_State M_ODE M_Step M_Controller M_Measure M_Integrator
  SpecRK SpecShape SpecDeriv SpecRun SpecChange SpecChange2 L_Vec L_Step L_Generic L_Run L_Iter L_Whole L_RunProps L_Scheme L_Change L_Change2.
Import ListNotations.
Local Open Scope nat_scope.

Lemma same_count {A B} (P : A -> B -> Prop) l l' : Forall2 P l l' -> length l = length l'.
Proof. induction 1; cbn; auto. Qed.

Section Change.
Context {T : Type} {N : Num T} {C : Type}.
Variables (op : options T C) (o' : ode T) (ch : change T) (dq : list T -> list T).
Notation bt := (o_bt op).
Notation o := (o_ode op).
Notation op' := (change_options ch o' op).
Notation n := (state_size o).
Notation n' := (state_size o').
Notation L := (ch_slope ch).
Notation shape := (shaped (t_stages bt) (state_size o) (independent_input_size o)
                          (independent_output_size o) (linearization_point_size o)).
Notation shape' := (shaped (t_stages bt) (state_size o') (independent_input_size o')
                          (independent_output_size o') (linearization_point_size o')).
Hypothesis Hch : is_change n n' ch.
Hypothesis Hpar : forall p, length p = independent_input_size o -> length (ch_parameters ch p) = independent_input_size o'.
Hypothesis Hdq : forall p, length p = independent_input_size o -> length (dq p) = independent_input_size o'.
Hypothesis Hode : changed_ode ch o o'.
Hypothesis Hder : changed_derivatives ch dq o o'.
Hypothesis Hres : result_sizes o.
Hypothesis Hres' : result_sizes o'.
Hypothesis Hds : derivative_sizes o.
Hypothesis Hds' : derivative_sizes o'.
Hypothesis Hnorm : o_adaptive op = true -> same_norms ch o o'.

(** Linearization points of the first [k] stages. *)
Definition lins (h : T) (k : nat) (s s' : rkstate T) : Prop := forall j, j < k ->
  same_tangents ch dq o o' h (entry (t_A bt) j j) (nth j (linearization_points s) []) (nth j (linearization_points s') []).

Lemma lins_stage k s s' h s1 s1' : k < t_stages bt -> srel op o' ch k s s' -> lins h k s s' ->
  compute_stage bt o s h k = Ok s1 -> compute_stage bt o' s' h k = Ok s1' -> lins h (S k) s1 s1'.
Proof.
  intros Hk H HL. pose proof (sr_shape _ _ _ _ _ _ H) as Sh. pose proof (sr_shape' _ _ _ _ _ _ H) as Sh'. unfold compute_stage.
  cbn [start_state w_stage_times stage_updates independent_inputs stage_times].
  rewrite (nth_upd_same k) with (l := stage_times s) by (rewrite (sh_st _ _ _ _ _ _ Sh); exact Hk).
  rewrite (nth_upd_same k) with (l := stage_times s') by (rewrite (sh_st _ _ _ _ _ _ Sh'); exact Hk).
  rewrite (change_accumulate op o' ch Hch k s s' Hk H), (sr_start _ _ _ _ _ _ H), (sr_time _ _ _ _ _ _ H), (sr_par _ _ _ _ _ _ H), <- (cg_time _ _ _ Hch).
  destruct (compute_update o _ h _) as [[r lp]|e] eqn:E1; cbn [bind]; [|discriminate].
  destruct (compute_update o' _ h _) as [[r' lp']|e'] eqn:E2; cbn [bind]; [|discriminate].
  pose proof (Hder {| step_input := start_state s; stage_input := accumulate_stages bt k (stage_updates s);
    independent_input := independent_inputs s; time := nadd (start_time s) (nmul h (nth k (t_c bt) n0)) |} _ _ _ _ _ _ (sh_start _ _ _ _ _ _ Sh) (accumulate_len op k s Hk Sh) (sh_ind _ _ _ _ _ _ Sh) E1 E2) as K.
  intros [= <-] [= <-] j Hj. cbn [linearization_points w_linearization_points w_stage_independent_outputs w_stage_states w_stage_updates w_stage_times].
  destruct (Nat.eq_dec j k) as [->|Ne].
  - rewrite !nth_upd_same; [exact K|rewrite (sh_lp _ _ _ _ _ _ Sh'); exact Hk|rewrite (sh_lp _ _ _ _ _ _ Sh); exact Hk].
  - rewrite !nth_upd_other by congruence. apply HL. lia.
Qed.

Lemma lins_stages h : forall len k s s' s1 s1', k + len = t_stages bt -> srel op o' ch k s s' -> lins h k s s' ->
  for_stages (fun s i => compute_stage bt o s h i) (seq k len) s = Ok s1 ->
  for_stages (fun s i => compute_stage bt o' s h i) (seq k len) s' = Ok s1' -> lins h (k + len) s1 s1'.
Proof.
  induction len as [|len IH]; intros k s s' s1 s1' Hk H HL; cbn [seq for_stages].
  - intros [= <-] [= <-]. rewrite Nat.add_0_r. exact HL.
  - pose proof (change_stage op o' ch Hch Hode Hres Hres' k s s' h ltac:(lia) H) as E.
    destruct (compute_stage bt o s h k) as [u|e] eqn:E1; cbn [bind]; [|discriminate].
    destruct E as (u' & E2 & R). rewrite E2. cbn [bind]. rewrite <- Nat.add_succ_comm. apply IH; [lia|exact R|].
    exact (lins_stage k s s' h u u' ltac:(lia) H HL E1 E2).
Qed.

Lemma lins_step s s' h s1 s1' : trel op o' ch s s' -> compute_step bt o s h = Ok s1 -> compute_step bt o' s' h = Ok s1' ->
  lins h (t_stages bt) s1 s1'.
Proof.
  intros H. unfold compute_step, compute_step_base.
  assert (R0 : srel op o' ch 0 (w_step_size h (shift_state s)) (w_step_size h (shift_state s'))).
  { destruct H as [S1 S2 H1 H2 H3 H4]. constructor; cbn; auto; [destruct S1|destruct S2]; constructor; cbn; auto. }
  pose proof (lins_stages h (number_of_stages bt) 0 (w_step_size h (shift_state s)) (w_step_size h (shift_state s'))) as E. cbn [plus] in E.
  destruct (for_stages (fun s i => compute_stage bt o s h i) _ (w_step_size h (shift_state s))) as [u|e]; cbn [bind]; [|discriminate].
  destruct (for_stages (fun s i => compute_stage bt o' s h i) _ (w_step_size h (shift_state s'))) as [u'|e]; cbn [bind]; [|discriminate].
  specialize (E u u' eq_refl R0 ltac:(intros j Hj; lia) eq_refl eq_refl).
  destruct (compute_final_independent_outputs _) as [f|e]; cbn [bind]; [|discriminate].
  destruct (compute_final_independent_outputs _) as [f'|e]; cbn [bind]; [|discriminate].
  destruct (t_hat bt) as [[bh ph]|]; intros [= <-] [= <-]; exact E.
Qed.

(** Perturbations during and between steps. *)
Record dstage (k : nat) (s s' : rkstate T) : Prop := {
  ds_shape : shape s; ds_shape' : shape' s';
  ds_start : start_state s' = L (start_state s); ds_time : start_time s' = start_time s;
  ds_par : independent_inputs s' = dq (independent_inputs s);
  ds_rows : firstn k (stage_updates s') = map L (firstn k (stage_updates s)) }.
Record dbetween (s s' : rkstate T) : Prop := {
  db_shape : shape s; db_shape' : shape' s';
  db_final : final_state s' = L (final_state s); db_time : final_time s' = final_time s;
  db_par : independent_inputs s' = dq (independent_inputs s) }.

Lemma dstage_accumulate k s s' : k < t_stages bt -> dstage k s s' ->
  accumulate_stages bt k (stage_updates s') = L (accumulate_stages bt k (stage_updates s)).
Proof.
  intros Hk H. unfold accumulate_stages.
  rewrite (first_row (t_stages bt) n (stage_updates s)) by (try apply H; lia).
  rewrite (first_row (t_stages bt) n' (stage_updates s')) by (try apply H; lia).
  destruct k as [|k]; [symmetry; apply (cg_zero _ _ _ Hch)|].
  rewrite (ds_rows _ _ _ H). apply (change_einsum_ij op o' ch Hch). apply L_Step.Forall_firstn. apply H.
Qed.

Lemma change_dstage x x' k s s' h : k < t_stages bt -> lins h (t_stages bt) x x' -> dstage k s s' ->
  match compute_stage_derivative bt o (linearization_points x) s h k with
  | Ok s1 => exists s1', compute_stage_derivative bt o' (linearization_points x') s' h k = Ok s1' /\ dstage (S k) s1 s1'
  | Err e => compute_stage_derivative bt o' (linearization_points x') s' h k = Err e
  end.
Proof.
  intros Hk HL H. pose proof (ds_shape _ _ _ H) as Sh. pose proof (ds_shape' _ _ _ H) as Sh'. unfold compute_stage_derivative.
  cbn [start_state w_stage_times stage_updates independent_inputs stage_times].
  rewrite (nth_upd_same k) with (l := stage_times s) by (rewrite (sh_st _ _ _ _ _ _ Sh); exact Hk).
  rewrite (nth_upd_same k) with (l := stage_times s') by (rewrite (sh_st _ _ _ _ _ _ Sh'); exact Hk).
  pose proof (HL k Hk {| step_input := start_state s; stage_input := accumulate_stages bt k (stage_updates s);
    independent_input := independent_inputs s; time := start_time s |}
    (sh_start _ _ _ _ _ _ Sh) (accumulate_len op k s Hk Sh) (sh_ind _ _ _ _ _ _ Sh)) as E.
  unfold change_perturbation in E. cbn [step_input stage_input independent_input time] in E.
  rewrite <- (ds_start _ _ _ H), <- (ds_par _ _ _ H), <- (dstage_accumulate k s s' Hk H) in E. rewrite (ds_time _ _ _ H).
  destruct (compute_update_derivative o _ _ h _) as [r|e] eqn:E1; cbn [bind].
  - destruct E as (r' & E2 & Er). rewrite E2. cbn [bind]. eexists. split; [reflexivity|].
    destruct (Hds _ _ _ _ _ E1) as (R1 & R2 & R3). destruct (Hds' _ _ _ _ _ E2) as (R1' & R2' & R3').
    constructor; cbn.
    + destruct Sh; constructor; cbn; rewrite ?length_upd; auto using Forall_upd.
    + destruct Sh'; constructor; cbn; rewrite ?length_upd; auto using Forall_upd.
    + apply H.
    + apply H.
    + apply H.
    + change (firstn (S k) (upd k (stage_update r') (stage_updates s')) = map L (firstn (S k) (upd k (stage_update r) (stage_updates s)))).
      rewrite (firstn_set (stage_update r') k (stage_updates s')) by (rewrite (sh_su _ _ _ _ _ _ Sh'); exact Hk).
      rewrite (firstn_set (stage_update r) k (stage_updates s)) by (rewrite (sh_su _ _ _ _ _ _ Sh); exact Hk).
      rewrite map_app, (ds_rows _ _ _ H), Er. reflexivity.
  - rewrite E. reflexivity.
Qed.

Lemma change_dstages x x' h : lins h (t_stages bt) x x' -> forall len k s s', k + len = t_stages bt -> dstage k s s' ->
  match for_stages (fun p i => compute_stage_derivative bt o (linearization_points x) p h i) (seq k len) s with
  | Ok s1 => exists s1', for_stages (fun p i => compute_stage_derivative bt o' (linearization_points x') p h i) (seq k len) s' = Ok s1' /\ dstage (k + len) s1 s1'
  | Err e => for_stages (fun p i => compute_stage_derivative bt o' (linearization_points x') p h i) (seq k len) s' = Err e
  end.
Proof.
  intros HL. induction len as [|len IH]; intros k s s' Hk H; cbn [seq for_stages].
  - rewrite Nat.add_0_r. eauto.
  - pose proof (change_dstage x x' k s s' h ltac:(lia) HL H) as E. destruct (compute_stage_derivative bt o _ s h k) as [s1|e]; cbn [bind].
    + destruct E as (s1' & -> & R). cbn [bind]. specialize (IH (S k) s1 s1' ltac:(lia) R). rewrite <- Nat.add_succ_comm. exact IH.
    + rewrite E. reflexivity.
Qed.

Lemma change_dstep x x' h s s' : shape x -> shape' x' -> lins h (t_stages bt) x x' -> dbetween s s' ->
  match compute_step_derivative bt o x s h with
  | Ok s1 => exists s1', compute_step_derivative bt o' x' s' h = Ok s1' /\ dbetween s1 s1'
  | Err e => compute_step_derivative bt o' x' s' h = Err e
  end.
Proof.
  intros Sx Sx' HL H. unfold compute_step_derivative.
  assert (R0 : dstage 0 (shift_state s) (shift_state s')).
  { destruct H as [S1 S2 H1 H2 H3]. constructor; cbn; auto; [destruct S1|destruct S2]; constructor; cbn; auto. }
  pose proof (change_dstages x x' h HL (number_of_stages bt) 0 _ _ eq_refl R0) as E. cbn [plus] in E.
  destruct (for_stages _ _ (shift_state s)) as [u|e]; cbn [bind]; [|rewrite E; reflexivity].
  destruct E as (u' & -> & R). cbn [bind].
  pose proof (ds_shape _ _ _ R) as Sh. pose proof (ds_shape' _ _ _ R) as Sh'.
  assert (Rows : stage_updates u' = map L (stage_updates u)).
  { pose proof (ds_rows _ _ _ R) as E. rewrite !firstn_all2 in E; [exact E|rewrite (sh_su _ _ _ _ _ _ Sh); apply le_n|rewrite (sh_su _ _ _ _ _ _ Sh'); apply le_n]. }
  assert (Acc : forall w, vadd (start_state u') (einsum_ij_i (length (start_state u')) (stage_updates u') w) =
                          L (vadd (start_state u) (einsum_ij_i (length (start_state u)) (stage_updates u) w))).
  { intros w. rewrite (sh_start _ _ _ _ _ _ Sh), (sh_start _ _ _ _ _ _ Sh'), Rows, (change_einsum_ij op o' ch Hch) by apply Sh.
    rewrite (cg_add _ _ _ Hch); [rewrite (ds_start _ _ _ R); reflexivity|apply Sh|apply glen_einsum, Sh]. }
  assert (Len : forall w, length (vadd (start_state u) (einsum_ij_i (length (start_state u)) (stage_updates u) w)) = n).
  { intros w. apply glen_vadd; [apply Sh|]. rewrite (sh_start _ _ _ _ _ _ Sh). apply glen_einsum, Sh. }
  assert (Len' : forall w, length (vadd (start_state u') (einsum_ij_i (length (start_state u')) (stage_updates u') w)) = n').
  { intros w. apply glen_vadd; [apply Sh'|]. rewrite (sh_start _ _ _ _ _ _ Sh'). apply glen_einsum, Sh'. }
  assert (F : match compute_final_independent_outputs (stage_independent_outputs x) with
    | Ok f => exists f', compute_final_independent_outputs (stage_independent_outputs x') = Ok f' /\
                length f = independent_output_size o /\ length f' = independent_output_size o'
    | Err e => compute_final_independent_outputs (stage_independent_outputs x') = Err e end).
  { unfold compute_final_independent_outputs. pose proof (sh_sio _ _ _ _ _ _ Sx) as L1. pose proof (sh_sio _ _ _ _ _ _ Sx') as L2.
    pose proof (sh_sior _ _ _ _ _ _ Sx) as F1. pose proof (sh_sior _ _ _ _ _ _ Sx') as F2.
    destruct F1 as [|a l Ha _], F2 as [|a' l' Ha' _]; cbn in L1, L2; try lia; [reflexivity|].
    eexists. split; [reflexivity|]. rewrite !glen_vzeros. auto. }
  destruct (compute_final_independent_outputs (stage_independent_outputs x)) as [f|e]; cbn [bind]; [|rewrite F; reflexivity].
  destruct F as (f' & -> & Lf & Lf'). cbn [bind].
  eexists. split; [reflexivity|].
  destruct Sh, Sh'. constructor; cbn.
  - constructor; cbn; auto. apply Len.
  - constructor; cbn; auto. apply Len'.
  - apply Acc.
  - apply R.
  - apply R.
Qed.

(** Steps made, and sweeps over them. *)
Record lsim (a b : tistate T) : Prop := {
  ls_a : shape (disc a); ls_b : shape' (disc b); ls_h : step_hist a = step_hist b;
  ls_lins : lins (nth 0 (step_hist a) n0) (t_stages bt) (disc a) (disc b) }.

Lemma lsim_iterate c a b c1 a1 b1 c2 : tsim op o' ch a b -> iterate_on_step op (retry_limit op) c a = (c1, a1, Ok tt) ->
  iterate_on_step op' (retry_limit op) c b = (c2, b1, Ok tt) -> tsim op o' ch a1 b1 -> lsim a1 b1.
Proof.
  intros H Ia Ib H1.
  destruct (iterate_step op _ _ _ _ _ (wt_sh _ _ (ts_a _ _ _ _ _ H)) Ia) as (h & x & E & D & Hh & _).
  destruct (iterate_step op' _ _ _ _ _ (wt_sh _ _ (ts_b _ _ _ _ _ H)) Ib) as (h' & x' & E' & D' & Hh' & _).
  rewrite <- (ts_sh _ _ _ _ _ H1), Hh in Hh'. subst h'.
  constructor; [apply H1|apply H1|apply H1|]. rewrite Hh, D, D'.
  exact (lins_step _ _ _ _ _ (ts_state _ _ _ _ _ H) E E').
Qed.

Lemma lsim_chain it c a l c1 a1 : chain op it c a l c1 a1 -> forall b, tsim op o' ch a b ->
  exists l' b1, chain op' it c b l' c1 b1 /\ Forall2 lsim l l' /\ tsim op o' ch a1 b1.
Proof.
  induction 1 as [it c a F|it c a c1 a1 l c' a' F I _ IH]; intros b H.
  - exists [], b. split; [constructor; cbn [o_crit change_options]; rewrite (change_finished op o' ch Hch it a b H); exact F|]. auto.
  - pose proof (change_iterate op o' ch Hch Hode Hres Hres' Hnorm (retry_limit op) c a b H) as E. rewrite I in E. destruct E as (b1 & Ib & H1).
    destruct (IH b1 H1) as (l' & b' & Hc & Hl & H2). exists (b1 :: l'), b'. split; [|split; [constructor; [|exact Hl]|exact H2]].
    + econstructor; [cbn [o_crit change_options]; rewrite (change_finished op o' ch Hch it a b H); exact F|exact Ib|exact Hc].
    + exact (lsim_iterate _ _ _ _ _ _ _ H I Ib H1).
Qed.
Lemma unlsim_chain it c b l c1 b1 : chain op' it c b l c1 b1 -> forall a, tsim op o' ch a b ->
  exists l' a1, chain op it c a l' c1 a1 /\ Forall2 lsim l' l /\ tsim op o' ch a1 b1.
Proof.
  induction 1 as [it c b F|it c b c1 b1 l c' b' F I _ IH]; intros a H; cbn [o_crit change_options] in F; rewrite (change_finished op o' ch Hch it a b H) in F.
  - exists [], a. split; [constructor; exact F|]. auto.
  - pose proof (change_iterate op o' ch Hch Hode Hres Hres' Hnorm (retry_limit op) c a b H) as E. cbn [retry_limit change_options] in I.
    destruct (iterate_on_step op (retry_limit op) c a) as [[c2 a2] [u|e]] eqn:I2; [|destruct E as (b2 & Ib); rewrite I in Ib; discriminate].
    destruct E as (b2 & Ib & H1). rewrite I in Ib. destruct u.
    injection Ib as <- <-.
    destruct (IH a2 H1) as (l' & a' & Hc & Hl & H2). exists (a2 :: l'), a'. split; [|split; [constructor; [|exact Hl]|exact H2]].
    + econstructor; [exact F|exact I2|exact Hc].
    + exact (lsim_iterate _ _ _ _ _ _ _ H I2 I H1).
Qed.

Lemma change_sweep l l' : Forall2 lsim l l' -> forall p p', dbetween (disc p) (disc p') ->
  match derivative_sweep op l p with
  | Ok q => exists q', derivative_sweep op' l' p' = Ok q' /\ dbetween (disc q) (disc q')
  | Err e => derivative_sweep op' l' p' = Err e
  end.
Proof.
  induction 1 as [|a b l l' Hab _ IH]; intros p p' H; cbn [derivative_sweep]; [eauto|].
  unfold derivative_step. cbn [o_bt o_ode change_options]. rewrite <- (ls_h _ _ Hab).
  pose proof (change_dstep (disc a) (disc b) (nth 0 (step_hist a) n0) _ _ (ls_a _ _ Hab) (ls_b _ _ Hab) (ls_lins _ _ Hab) H) as E.
  destruct (compute_step_derivative bt o _ _ _) as [d|e]; cbn [bind].
  - destruct E as (d' & -> & R). cbn [bind]. apply IH. destruct R as [S1 S2 R1 R2 R3].
    constructor; cbn; auto; [apply (shape_rk_set op)|apply (shape_rk_set op')]; assumption.
  - rewrite E. reflexivity.
Qed.

Lemma prepared_sim i d w v : inputs_sized o i -> inputs_sized o d -> wf op w -> wf op' v ->
  tsim op o' ch (live (prepare_fwd op i d w)) (live (prepare_fwd op' (change_inputs ch i) (change_dinputs ch dq d) v)) /\
  dbetween (disc (pert (prepare_fwd op i d w))) (disc (pert (prepare_fwd op' (change_inputs ch i) (change_dinputs ch dq d) v))).
Proof.
  intros Hi Hd W V. assert (Hi' : inputs_sized o' (change_inputs ch i)).
  { destruct Hi as [H1 H2]. split; cbn; [apply (cg_states _ _ _ Hch); exact H1|apply Hpar; exact H2]. }
  assert (Hd' : inputs_sized o' (change_dinputs ch dq d)).
  { destruct Hd as [H1 H2]. split; cbn; [apply (cg_length _ _ _ Hch); exact H1|apply Hdq; exact H2]. }
  pose proof (wf_prepare_fwd op i d w Hi Hd W) as P. pose proof (wf_prepare_fwd op' _ _ v Hi' Hd' V) as P'.
  pose proof (wf_live _ _ P) as Wa. pose proof (wf_live _ _ P') as Wb.
  split.
  - constructor; [exact Wa|exact Wb| |reflexivity| |].
    + constructor; [apply Wa|apply Wb|reflexivity|reflexivity|reflexivity|apply (wf_embedded op o' ch); assumption].
    + pose proof (wt_sh _ _ Wa) as L1. pose proof (wt_sh _ _ Wb) as L2. cbn in L1, L2 |- *. rewrite map_length in L1, L2.
      destruct (step_hist (live w)) as [|? [|? [|]]], (step_hist (live v)) as [|? [|? [|]]]; cbn in L1, L2; try lia; reflexivity.
    + pose proof (wt_eh _ _ Wa) as L1. pose proof (wt_eh _ _ Wb) as L2. cbn in L1, L2 |- *. rewrite map_length in L1, L2.
      destruct (err_hist (live w)) as [|? [|? [|]]], (err_hist (live v)) as [|? [|? [|]]]; cbn in L1, L2; try lia; reflexivity.
  - constructor; [exact (wf_pert _ _ P)|exact (wf_pert _ _ P')|reflexivity|reflexivity|reflexivity].
Qed.

Lemma change_dresult p p' : dbetween (disc p) (disc p') -> result_of p' = change_doutputs ch (result_of p).
Proof. intros [_ _ R1 R2 _]. unfold result_of, change_doutputs. cbn. rewrite R1, R2. reflexivity. Qed.

Lemma change_fwd i d w v : quiet op -> inputs_sized o i -> inputs_sized o d -> wf op w -> wf op' v -> ctl w = ctl v ->
  forall out', (exists v', compute_jacvec_product_fwd op' (change_inputs ch i) (change_dinputs ch dq d) v = (v', Ok out')) <->
  (exists w' out, compute_jacvec_product_fwd op i d w = (w', Ok out) /\ out' = change_doutputs ch out).
Proof.
  intros Hq Hi Hd W V Hc out'. destruct (prepared_sim i d w v Hi Hd W V) as (P & D). split.
  - intros (v' & H). destruct (fwd_ok op' _ _ v v' out' H) as (l & c & b & q' & Hb & Hl & Hs & -> & _).
    rewrite <- Hc in Hb. destruct (unlsim_chain _ _ _ _ _ _ Hb _ P) as (l' & a & Ha & Ll & R).
    pose proof (change_sweep _ _ Ll _ _ D) as E. destruct (derivative_sweep op l' _) as [q|e] eqn:Eq; [|rewrite Hs in E; discriminate].
    destruct E as (q2 & E & B). rewrite Hs in E. injection E as <-.
    pose proof (fwd_quiet op i d w _ _ _ _ Hq Ha ltac:(rewrite (same_count _ _ _ Ll); exact Hl) Eq) as K.
    eexists. exists (result_of q). split; [exact K|]. exact (change_dresult q q' B).
  - intros (w' & out & H & ->). destruct (fwd_ok op i d w w' out H) as (l & c & a & q & Ha & Hl & Hs & -> & _).
    rewrite Hc in Ha. destruct (lsim_chain _ _ _ _ _ _ Ha _ P) as (l' & b & Hb & Ll & R).
    pose proof (change_sweep _ _ Ll _ _ D) as E. rewrite Hs in E. destruct E as (q' & E & B).
    pose proof (fwd_quiet op' (change_inputs ch i) (change_dinputs ch dq d) v _ _ _ _ Hq Hb ltac:(rewrite <- (same_count _ _ _ Ll); exact Hl) E) as K.
    rewrite <- (change_dresult q q' B). eexists. exact K.
Qed.
End Change.
