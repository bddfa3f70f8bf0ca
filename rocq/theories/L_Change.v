(** Lemmas about runs in changed variables. *)
From Coq Require Import List Lia Bool Arith.
From Verif Require Import Base M_Tableau M_State M_ODE M_Step M_Controller M_Measure M_Integrator
  SpecRK SpecShape SpecDeriv SpecRun SpecChange L_Vec L_Step L_Generic L_Run L_Iter L_Whole L_RunProps.
Import ListNotations.
Local Open Scope nat_scope.

Lemma firstn_set {A} (v : A) : forall k l, k < length l -> firstn (S k) (upd k v l) = firstn k l ++ [v].
Proof.
  induction k as [|k IH]; intros [|x l] H; cbn in H; try lia; [reflexivity|].
  change (x :: firstn (S k) (upd k v l) = x :: (firstn k l ++ [v])). rewrite IH by lia. reflexivity.
Qed.

Section Change.
Context {T : Type} {N : Num T} {C : Type}.
Variables (op : options T C) (o' : ode T) (ch : change T).
Notation bt := (o_bt op).
Notation o := (o_ode op).
Notation op' := (change_options ch o' op).
Notation n := (state_size o).
Notation n' := (state_size o').
Notation A := (ch_state ch).
Notation L := (ch_slope ch).
Notation shape := (shaped (t_stages bt) (state_size o) (independent_input_size o)
                          (independent_output_size o) (linearization_point_size o)).
Notation shape' := (shaped (t_stages bt) (state_size o') (independent_input_size o')
                          (independent_output_size o') (linearization_point_size o')).
Hypothesis Hch : is_change n n' ch.
Hypothesis Hpar : forall p, length p = independent_input_size o -> length (ch_parameters ch p) = independent_input_size o'.
Hypothesis Hode : changed_ode ch o o'.
Hypothesis Hres : result_sizes o.
Hypothesis Hres' : result_sizes o'.

Lemma change_einsum w : forall f acc, length acc = n -> Forall (fun r => length r = n) f ->
  fold_left (fun acc rw => vadd acc (map (fun x => nmul x (snd rw)) (fst rw))) (combine (map L f) w) (L acc) =
  L (fold_left (fun acc rw => vadd acc (map (fun x => nmul x (snd rw)) (fst rw))) (combine f w) acc).
Proof.
  induction w as [|a w IH]; intros f acc Ha Hf; destruct Hf as [|r f Hr Hf]; cbn [map combine fold_left]; auto.
  cbn [fst snd]. rewrite <- (cg_scale _ _ _ Hch) by exact Hr.
  rewrite <- (cg_add _ _ _ Hch); [|exact Ha|rewrite map_length; exact Hr].
  apply IH; [|exact Hf]. apply glen_vadd; [exact Ha|rewrite map_length; exact Hr].
Qed.
Lemma change_einsum_ij f w : Forall (fun r => length r = n) f -> einsum_ij_i n' (map L f) w = L (einsum_ij_i n f w).
Proof. intros Hf. unfold einsum_ij_i. rewrite <- (cg_zero _ _ _ Hch). apply change_einsum; [apply glen_vzeros|exact Hf]. Qed.

Record srel (k : nat) (s s' : rkstate T) : Prop := {
  sr_shape : shape s; sr_shape' : shape' s';
  sr_start : start_state s' = A (start_state s); sr_time : start_time s' = ch_time ch (start_time s);
  sr_par : independent_inputs s' = ch_parameters ch (independent_inputs s);
  sr_rows : firstn k (stage_updates s') = map L (firstn k (stage_updates s));
  sr_emb : embedded s = None <-> embedded s' = None }.

Lemma first_row (S : nat) m (rows : list (list T)) : length rows = S -> 0 < S -> Forall (fun r => length r = m) rows -> length (nth 0 rows []) = m.
Proof. intros H K F. destruct F as [|r rows Hr _]; [cbn in H; lia|exact Hr]. Qed.

Lemma change_accumulate k s s' : k < t_stages bt -> srel k s s' ->
  accumulate_stages bt k (stage_updates s') = L (accumulate_stages bt k (stage_updates s)).
Proof.
  intros Hk H. unfold accumulate_stages.
  rewrite (first_row (t_stages bt) n (stage_updates s)) by (try apply H; lia).
  rewrite (first_row (t_stages bt) n' (stage_updates s')) by (try apply H; lia).
  destruct k as [|k]; [symmetry; apply (cg_zero _ _ _ Hch)|].
  rewrite (sr_rows _ _ _ H). apply change_einsum_ij. apply L_Step.Forall_firstn. apply H.
Qed.
Lemma accumulate_len k s : k < t_stages bt -> shape s -> length (accumulate_stages bt k (stage_updates s)) = n.
Proof.
  intros Hk H. unfold accumulate_stages. rewrite (first_row (t_stages bt) n (stage_updates s)) by (try apply H; lia).
  destruct k; [apply glen_vzeros|]. apply glen_einsum. apply L_Step.Forall_firstn. apply H.
Qed.

Lemma change_stage k s s' h : k < t_stages bt -> srel k s s' ->
  match compute_stage bt o s h k with
  | Ok s1 => exists s1', compute_stage bt o' s' h k = Ok s1' /\ srel (S k) s1 s1'
  | Err e => compute_stage bt o' s' h k = Err e
  end.
Proof.
  intros Hk H. pose proof (sr_shape _ _ _ H) as Sh. pose proof (sr_shape' _ _ _ H) as Sh'. unfold compute_stage.
  cbn [start_state w_stage_times stage_updates independent_inputs stage_times].
  rewrite (nth_upd_same k) with (l := stage_times s) by (rewrite (sh_st _ _ _ _ _ _ Sh); exact Hk).
  rewrite (nth_upd_same k) with (l := stage_times s') by (rewrite (sh_st _ _ _ _ _ _ Sh'); exact Hk).
  pose proof (Hode {| step_input := start_state s; stage_input := accumulate_stages bt k (stage_updates s);
    independent_input := independent_inputs s; time := nadd (start_time s) (nmul h (nth k (t_c bt) n0)) |} h (entry (t_A bt) k k)
    (sh_start _ _ _ _ _ _ Sh) (accumulate_len k s Hk Sh) (sh_ind _ _ _ _ _ _ Sh)) as E.
  unfold change_in in E. cbn [step_input stage_input independent_input time] in E.
  rewrite (cg_time _ _ _ Hch), <- (sr_start _ _ _ H), <- (sr_time _ _ _ H), <- (sr_par _ _ _ H), <- (change_accumulate k s s' Hk H) in E.
  destruct (compute_update o _ h _) as [[r lp]|e] eqn:E1; cbn [bind].
  - destruct E as (r' & lp' & E2 & Er). rewrite E2. cbn [bind]. eexists. split; [reflexivity|].
    destruct (Hres _ _ _ _ _ E1) as (R1 & R2 & R3 & R4). destruct (Hres' _ _ _ _ _ E2) as (R1' & R2' & R3' & R4').
    constructor; cbn.
    + destruct Sh; constructor; cbn; rewrite ?length_upd; auto using Forall_upd.
    + destruct Sh'; constructor; cbn; rewrite ?length_upd; auto using Forall_upd.
    + apply H.
    + apply H.
    + apply H.
    + change (firstn (S k) (upd k (stage_update r') (stage_updates s')) = map L (firstn (S k) (upd k (stage_update r) (stage_updates s)))).
      rewrite (firstn_set (stage_update r') k (stage_updates s')) by (rewrite (sh_su _ _ _ _ _ _ Sh'); exact Hk).
      rewrite (firstn_set (stage_update r) k (stage_updates s)) by (rewrite (sh_su _ _ _ _ _ _ Sh); exact Hk).
      rewrite map_app, (sr_rows _ _ _ H), Er. reflexivity.
    + apply H.
  - rewrite E. reflexivity.
Qed.

Lemma change_stages h : forall len k s s', k + len = t_stages bt -> srel k s s' ->
  match for_stages (fun s i => compute_stage bt o s h i) (seq k len) s with
  | Ok s1 => exists s1', for_stages (fun s i => compute_stage bt o' s h i) (seq k len) s' = Ok s1' /\ srel (k + len) s1 s1'
  | Err e => for_stages (fun s i => compute_stage bt o' s h i) (seq k len) s' = Err e
  end.
Proof.
  induction len as [|len IH]; intros k s s' Hk H; cbn [seq for_stages].
  - rewrite Nat.add_0_r. eauto.
  - pose proof (change_stage k s s' h ltac:(lia) H) as E. destruct (compute_stage bt o s h k) as [s1|e]; cbn [bind].
    + destruct E as (s1' & -> & R). cbn [bind]. specialize (IH (S k) s1 s1' ltac:(lia) R). rewrite <- Nat.add_succ_comm. exact IH.
    + rewrite E. reflexivity.
Qed.

(** States between steps. *)
Record trel (s s' : rkstate T) : Prop := {
  tr_shape : shape s; tr_shape' : shape' s';
  tr_final : final_state s' = A (final_state s); tr_time : final_time s' = ch_time ch (final_time s);
  tr_par : independent_inputs s' = ch_parameters ch (independent_inputs s);
  tr_emb : embedded s = None <-> embedded s' = None }.
Definition errors_changed (s s' : rkstate T) : Prop :=
  match embedded s, embedded s' with
  | Some (_, e), Some (_, e') => length e = n /\ e' = L e
  | None, None => True
  | _, _ => t_hat bt = None
  end.

Lemma change_step s s' h : trel s s' ->
  match compute_step bt o s h with
  | Ok s1 => exists s1', compute_step bt o' s' h = Ok s1' /\ trel s1 s1' /\ (t_hat bt <> None -> errors_changed s1 s1')
  | Err e => compute_step bt o' s' h = Err e
  end.
Proof.
  intros H. unfold compute_step, compute_step_base.
  assert (R0 : srel 0 (w_step_size h (shift_state s)) (w_step_size h (shift_state s'))).
  { destruct H as [S1 S2 H1 H2 H3 H4]. constructor; cbn; auto; [destruct S1|destruct S2]; constructor; cbn; auto. }
  pose proof (change_stages h (number_of_stages bt) 0 _ _ eq_refl R0) as E. cbn [plus] in E.
  destruct (for_stages _ _ (w_step_size h (shift_state s))) as [u|e]; cbn [bind]; [|rewrite E; reflexivity].
  destruct E as (u' & -> & R). cbn [bind].
  pose proof (sr_shape _ _ _ R) as Sh. pose proof (sr_shape' _ _ _ R) as Sh'.
  assert (Rows : stage_updates u' = map L (stage_updates u)).
  { pose proof (sr_rows _ _ _ R) as E. rewrite !firstn_all2 in E; [exact E|rewrite (sh_su _ _ _ _ _ _ Sh); apply le_n|rewrite (sh_su _ _ _ _ _ _ Sh'); apply le_n]. }
  assert (Acc : forall w, vadd (start_state u') (einsum_ij_i (length (start_state u')) (stage_updates u') w) =
                          A (vadd (start_state u) (einsum_ij_i (length (start_state u)) (stage_updates u) w))).
  { intros w. rewrite (sh_start _ _ _ _ _ _ Sh), (sh_start _ _ _ _ _ _ Sh'), Rows, change_einsum_ij by apply Sh.
    rewrite (cg_move _ _ _ Hch); [rewrite (sr_start _ _ _ R); reflexivity|apply Sh|apply glen_einsum, Sh]. }
  assert (Len : forall w, length (vadd (start_state u) (einsum_ij_i (length (start_state u)) (stage_updates u) w)) = n).
  { intros w. apply glen_vadd; [apply Sh|]. rewrite (sh_start _ _ _ _ _ _ Sh). apply glen_einsum, Sh. }
  assert (Len' : forall w, length (vadd (start_state u') (einsum_ij_i (length (start_state u')) (stage_updates u') w)) = n').
  { intros w. apply glen_vadd; [apply Sh'|]. rewrite (sh_start _ _ _ _ _ _ Sh'). apply glen_einsum, Sh'. }
  assert (F : match compute_final_independent_outputs (stage_independent_outputs u) with
    | Ok f => exists f', compute_final_independent_outputs (stage_independent_outputs u') = Ok f' /\
                length f = independent_output_size o /\ length f' = independent_output_size o'
    | Err e => compute_final_independent_outputs (stage_independent_outputs u') = Err e end).
  { unfold compute_final_independent_outputs. pose proof (sh_sio _ _ _ _ _ _ Sh) as L1. pose proof (sh_sio _ _ _ _ _ _ Sh') as L2.
    pose proof (sh_sior _ _ _ _ _ _ Sh) as F1. pose proof (sh_sior _ _ _ _ _ _ Sh') as F2.
    destruct F1 as [|a l Ha _], F2 as [|a' l' Ha' _]; cbn in L1, L2; try lia; [reflexivity|].
    eexists. split; [reflexivity|]. rewrite !glen_vzeros. auto. }
  cbn [stage_independent_outputs w_final_state w_final_time start_time start_state stage_updates].
  destruct (compute_final_independent_outputs (stage_independent_outputs u)) as [f|e]; cbn [bind]; [|rewrite F; reflexivity].
  destruct F as (f' & -> & Lf & Lf'). cbn [bind].
  destruct (t_hat bt) as [[bhat ph]|].
  - eexists. split; [reflexivity|]. split.
    + destruct Sh, Sh'. constructor; cbn.
      * constructor; cbn; auto. apply Len.
      * constructor; cbn; auto. apply Len'.
      * apply Acc.
      * rewrite (cg_time _ _ _ Hch), (sr_time _ _ _ R). reflexivity.
      * apply R.
      * split; discriminate.
    + intros _. unfold errors_changed, compute_error_estimate. cbn [embedded w_embedded final_state w_final_independent_outputs w_final_state w_final_time start_state stage_updates].
      unfold accumulate_embedded_step, accumulate_step. split; [apply glen_vsub; apply Len|].
      rewrite !Acc. symmetry. apply (cg_diff _ _ _ Hch); apply Len.
  - eexists. split; [reflexivity|]. split; [|intros K; contradiction K; reflexivity].
    destruct Sh, Sh'. constructor; cbn.
    * constructor; cbn; auto. apply Len.
    * constructor; cbn; auto. apply Len'.
    * apply Acc.
    * rewrite (cg_time _ _ _ Hch), (sr_time _ _ _ R). reflexivity.
    * apply R.
    * apply R.
Qed.
End Change.
