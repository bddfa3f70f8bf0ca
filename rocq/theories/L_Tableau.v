(** Facts about tableau construction and classification. *)
From Coq Require Import String.
From Coq Require Import List Reals Lia Lra Bool QArith Qreals.
From Verif Require Import Base Ext M_Tableau M_State M_ODE M_Step SpecRK SpecShape L_Vec L_Step L_Deriv.
Import ListNotations.
Open Scope R_scope.

Section Gen.
Context {T : Type} {N : Num T}.

Lemma tableau_init_ok (A : mat T) b c p name :
  (exists tw, tableau_init A b c p name = Ok tw) <->
  mrows A = mcols A /\ mrows A = length b /\
  (match c with None => length (mdata A) = length b | Some cs => length cs = length b end).
Proof.
  unfold tableau_init; split.
  - intros [tw H].
    destruct (Nat.eqb_spec (mrows A) (mcols A)) as [E1|]; cbn [negb] in H; [|discriminate].
    split; [exact E1|].
    destruct c as [cs|]; cbn [bind] in H.
    + destruct (broadcastable (mrows A) (length cs)); cbn [negb bind] in H; [|discriminate].
      destruct (Nat.eqb_spec (mrows A) (length b)); cbn [negb andb orb] in H; [|discriminate].
      destruct (Nat.eqb_spec (mcols A) (length b)); cbn [negb andb orb] in H; [|discriminate].
      destruct (Nat.eqb_spec (length b) (length cs)); cbn [negb andb orb] in H; [|discriminate].
      auto.
    + rewrite map_length in H.
      destruct (Nat.eqb_spec (mrows A) (length b)); cbn [negb andb orb] in H; [|discriminate].
      destruct (Nat.eqb_spec (mcols A) (length b)); cbn [negb andb orb] in H; [|discriminate].
      destruct (Nat.eqb_spec (length b) (length (mdata A))); cbn [negb andb orb] in H; [|discriminate].
      auto.
  - intros (E1 & E2 & E3).
    rewrite <- E1, Nat.eqb_refl; cbn [negb].
    destruct c as [cs|].
    + unfold broadcastable; rewrite E3, <- E2, Nat.eqb_refl; cbn [orb negb bind].
      rewrite ?Nat.eqb_refl; cbn [andb negb orb]; rewrite E3, E2, Nat.eqb_refl; eexists; reflexivity.
    + cbn [bind]; rewrite map_length, E3, <- E2, Nat.eqb_refl; cbn [andb negb orb]; eauto.
Qed.

Lemma tableau_init_fields (A : mat T) b c p name t ws :
  tableau_init A b c p name = Ok (t, ws) ->
  t_A t = mdata A /\ t_b t = b /\ t_p t = p /\ t_name t = name /\ t_hat t = None /\
  t_stages t = length b /\
  t_c t = match c with None => map vsum (mdata A) | Some cs => cs end /\
  (In WeightsDoNotSum ws <-> warn_weights b = true) /\
  (In RowSumsDiffer ws <-> exists cs, c = Some cs /\ warn_rows (mdata A) cs = true).
Proof.
  unfold tableau_init; intros H.
  destruct (negb (Nat.eqb (mrows A) (mcols A))); [discriminate|].
  destruct c as [cs|]; cbn [bind] in H.
  - destruct (negb (broadcastable (mrows A) (length cs))); cbn [bind] in H; [discriminate|].
    match type of H with (if ?b then _ else _) = _ => destruct b; [discriminate|] end.
    injection H as <- <-; cbn; repeat split; auto.
    + destruct (warn_weights b); [reflexivity|].
      destruct (warn_rows (mdata A) cs); simpl; intuition discriminate.
    + intros ->; left; reflexivity.
    + intros HI; exists cs; split; [reflexivity|].
      destruct (warn_weights b), (warn_rows (mdata A) cs); simpl in HI; intuition discriminate.
    + intros (cs' & E & W); injection E as <-; rewrite W.
      apply in_or_app; right; left; reflexivity.
  - match type of H with (if ?b then _ else _) = _ => destruct b; [discriminate|] end.
    injection H as <- <-; cbn; repeat split; auto.
    + destruct (warn_weights b); [reflexivity|]; simpl; intuition.
    + intros ->; left; reflexivity.
    + destruct (warn_weights b); simpl; intuition discriminate.
    + intros (cs' & E & W); discriminate.
Qed.

Lemma tableau_init_wf (A : mat T) b c p name t ws :
  mat_wf A -> tableau_init A b c p name = Ok (t, ws) -> tableau_wf t.
Proof.
  intros [W1 W2] H.
  destruct (tableau_init_fields _ _ _ _ _ _ _ H) as (E1 & E2 & _ & _ & E5 & E6 & E7 & _).
  destruct (proj1 (tableau_init_ok A b c p name) (ex_intro _ _ H)) as (F1 & F2 & F3).
  constructor; rewrite ?E1, ?E2, ?E5, ?E6, ?E7; auto; try congruence.
  - eapply Forall_impl; [|exact W2]; intros r Hr; simpl in Hr; congruence.
  - destruct c; rewrite ?map_length; auto.
Qed.

Lemma embedded_init_inv (A : mat T) b bh c p q name t ws :
  embedded_init A b bh c p q name = Ok (t, ws) ->
  exists t0, tableau_init A b c p name = Ok (t0, ws) /\ length bh = length b /\
    t = {| t_A := t_A t0; t_b := t_b t0; t_c := t_c t0; t_stages := t_stages t0;
           t_p := t_p t0; t_name := t_name t0; t_hat := Some (bh, q) |}.
Proof.
  unfold embedded_init; intros H.
  destruct (tableau_init A b c p name) as [[t0 w0]|e] eqn:E; cbn [bind] in H; [|discriminate].
  destruct (Nat.eqb_spec (length bh) (length (t_b t0))) as [L|]; cbn [negb] in H; [|discriminate].
  injection H as <- <-; exists t0; split; [reflexivity|]; split; [|reflexivity].
  destruct (tableau_init_fields _ _ _ _ _ _ _ E) as (_ & E2 & _); congruence.
Qed.

Lemma embedded_init_wf (A : mat T) b bh c p q name t ws :
  mat_wf A -> embedded_init A b bh c p q name = Ok (t, ws) -> tableau_wf t.
Proof.
  intros W H; destruct (embedded_init_inv _ _ _ _ _ _ _ _ _ H) as (t0 & H0 & L & ->).
  pose proof (tableau_init_wf _ _ _ _ _ _ _ W H0) as [V1 V2 V3 V4 _].
  destruct (tableau_init_fields _ _ _ _ _ _ _ H0) as (_ & E2 & _ & _ & _ & E6 & _).
  constructor; cbn; auto; congruence.
Qed.

(** embedded steps *)
Lemma compute_step_tableau_ext bt bt' o s h :
  t_A bt = t_A bt' -> t_b bt = t_b bt' -> t_c bt = t_c bt' -> t_stages bt = t_stages bt' ->
  compute_step_base bt o s h = compute_step_base bt' o s h.
Proof.
  intros EA Eb Ec Es; unfold compute_step_base, number_of_stages, accumulate_step.
  rewrite <- Eb, <- Es.
  rewrite (for_stages_ext (fun s i => compute_stage bt' o s h i)
             (fun s i => compute_stage bt o s h i)); [reflexivity|].
  intros s0 i Hi; unfold compute_stage, accumulate_stages; rewrite <- EA, <- Ec; reflexivity.
Qed.

(** The stage loop does not look at the weights. *)
Lemma compute_step_weights_ext bt bt' o s h s' :
  t_A bt = t_A bt' -> t_c bt = t_c bt' -> t_stages bt = t_stages bt' ->
  compute_step_base bt o s h = Ok s' ->
  compute_step_base bt' o s h =
    Ok (w_final_state (accumulate_step bt' (start_state s') (stage_updates s') h) s').
Proof.
  intros EA Ec Es; unfold compute_step_base, number_of_stages.
  rewrite <- Es.
  rewrite (for_stages_ext (fun s i => compute_stage bt' o s h i)
             (fun s i => compute_stage bt o s h i)).
  2:{ intros s0 i Hi; unfold compute_stage, accumulate_stages; rewrite <- EA, <- Ec; reflexivity. }
  destruct (for_stages _ _ _) as [s1|e]; cbn [bind]; [|discriminate].
  cbn; destruct (compute_final_independent_outputs (stage_independent_outputs s1)) as [fio|e];
    cbn [bind]; [|discriminate].
  intros H; injection H as <-; reflexivity.
Qed.

Lemma w_final_state_same (s : rkstate T) : w_final_state (final_state s) s = s.
Proof. destruct s; reflexivity. Qed.

Lemma compute_step_base_final bt o s h s' :
  compute_step_base bt o s h = Ok s' ->
  final_state s' = accumulate_step bt (start_state s') (stage_updates s') h.
Proof.
  unfold compute_step_base; intros H.
  destruct (for_stages _ _ _) as [s1|e]; cbn [bind] in H; [|discriminate].
  cbn in H; destruct (compute_final_independent_outputs (stage_independent_outputs s1)) as [fio|e];
    cbn [bind] in H; [|discriminate].
  injection H as <-; reflexivity.
Qed.

Lemma embedded_step bt o s h s' m wm em we :
  tableau_wf bt ->
  main_method bt = Ok (m, wm) -> embedded_method bt = Ok (em, we) ->
  compute_step bt o s h = Ok s' ->
  exists sm se,
    compute_step m o s h = Ok sm /\ compute_step em o s h = Ok se /\
    embedded s' = Some (final_state se, vsub (final_state sm) (final_state se)) /\
    s' = w_embedded (embedded s') sm.
Proof.
  unfold main_method, embedded_method, compute_step; intros W Hm He H.
  destruct (t_hat bt) as [[bh q]|] eqn:Eh; [|discriminate].
  destruct (tableau_init_fields _ _ _ _ _ _ _ Hm) as (M1 & M2 & _ & _ & M5 & M6 & M7 & _).
  destruct (tableau_init_fields _ _ _ _ _ _ _ He) as (E1 & E2 & _ & _ & E5 & E6 & E7 & _).
  cbn [t_mat mdata mrows] in *.
  destruct (compute_step_base bt o s h) as [s1|e] eqn:B; cbn [bind] in H; [|discriminate].
  injection H as <-.
  rewrite M5, E5.
  pose proof (tw_b _ W) as Wb; pose proof (tw_hat _ W) as Wh; rewrite Eh in Wh.
  rewrite (compute_step_tableau_ext m bt) by congruence.
  rewrite (compute_step_weights_ext bt em o s h s1) by congruence.
  rewrite B; cbn [bind].
  eexists; eexists; split; [reflexivity|]; split; [reflexivity|].
  unfold compute_error_estimate, accumulate_embedded_step, accumulate_step; cbn.
  rewrite E2; split; reflexivity.
Qed.

Lemma main_method_ok bt bh q :
  tableau_wf bt -> t_hat bt = Some (bh, q) ->
  (exists m, main_method bt = Ok m) /\ (exists m, embedded_method bt = Ok m).
Proof.
  intros W H; unfold main_method, embedded_method; rewrite H.
  pose proof (tw_hat _ W) as Wh; rewrite H in Wh.
  pose proof (tw_A _ W); pose proof (tw_b _ W); pose proof (tw_c _ W).
  split; apply tableau_init_ok; cbn; repeat split; congruence.
Qed.
End Gen.

Lemma Qred_R1 : Q2R (1 # 100000) = 1 / 100000.
Proof. unfold Q2R; simpl; lra. Qed.

(** ** Over the reals *)
Lemma nabs_R (x : R) : nabs x = Rabs x.
Proof.
  unfold nabs; cbn [nltb RNum n0 nopp]; unfold Rltb.
  destruct (Rlt_dec x 0); [rewrite Rabs_left|rewrite Rabs_right]; lra.
Qed.

Lemma vsum_rsum (x : list R) : vsum x = rsum (length x) (fun i => vnth i x).
Proof.
  unfold vsum; cbn [n0 RNum nadd].
  assert (G : forall a, fold_left Rplus x a = a + rsum (length x) (fun i => vnth i x)).
  { induction x as [|b x IH]; intros a; [simpl; lra|].
    simpl fold_left; rewrite IH; simpl length; rewrite rsum_S_first; unfold vnth; simpl; lra. }
  rewrite G; lra.
Qed.

Lemma warn_weights_spec (b : list R) :
  warn_weights b = true <-> Rabs (rsum (length b) (fun i => vnth i b) - 1) > 1 / 100000.
Proof.
  unfold warn_weights; rewrite nabs_R, vsum_rsum; cbn [nltb RNum nlit nsub n1]; rewrite Qred_R1.
  unfold Rltb; destruct (Rlt_dec _ _); split; intros; try lra; try reflexivity; discriminate.
Qed.

Lemma forallb_seq_spec f a k : forallb f (seq a k) = true <-> forall i, (a <= i < a + k)%nat -> f i = true.
Proof.
  rewrite forallb_forall; split; intros H i Hi; apply H; [apply in_seq|apply in_seq in Hi]; lia.
Qed.

Lemma is_explicit_spec (bt : tableau R) :
  is_explicit bt = true <-> forall i j, (i <= j < t_stages bt)%nat -> entry (t_A bt) i j = 0.
Proof.
  unfold is_explicit; rewrite forallb_seq_spec; split.
  - intros H i j Hij; specialize (H i ltac:(lia)); rewrite forallb_seq_spec in H.
    apply Reqb_true, H; lia.
  - intros H i Hi; apply forallb_seq_spec; intros j Hj; apply Reqb_true, H; lia.
Qed.

Lemma upper_loop_spec (bt : tableau R) :
  forallb (fun i => forallb (fun j => neqb (entry (t_A bt) i j) n0)
            (seq (i + 1) (t_stages bt - (i + 1)))) (seq 0 (t_stages bt)) = true <-> no_upper bt.
Proof.
  rewrite forallb_seq_spec; split.
  - intros H i j Hij; specialize (H i ltac:(lia)); rewrite forallb_seq_spec in H.
    apply Reqb_true, H; lia.
  - intros H i Hi; apply forallb_seq_spec; intros j Hj; apply Reqb_true, H; lia.
Qed.

Lemma is_dirk_spec (bt : tableau R) :
  is_diagonally_implicit bt = true <->
  no_upper bt /\ exists i, (i < t_stages bt)%nat /\ entry (t_A bt) i i <> 0.
Proof.
  unfold is_diagonally_implicit.
  destruct (is_explicit bt) eqn:E.
  - rewrite is_explicit_spec in E; split; [discriminate|].
    intros [_ (i & Hi & Hne)]; exfalso; apply Hne, E; lia.
  - rewrite upper_loop_spec; split; [|tauto].
    intros U; split; [exact U|].
    destruct (forallb (fun i => Reqb (entry (t_A bt) i i) 0) (seq 0 (t_stages bt))) eqn:D.
    + exfalso; assert (is_explicit bt = true); [|congruence].
      apply is_explicit_spec; intros i j Hij.
      rewrite forallb_seq_spec in D.
      destruct (Nat.eq_dec i j) as [<-|]; [apply Reqb_true, D; lia|apply U; lia].
    + assert (G : forall k, (k <= t_stages bt)%nat ->
         forallb (fun i => Reqb (entry (t_A bt) i i) 0) (seq 0 k) = false ->
         exists i, (i < t_stages bt)%nat /\ entry (t_A bt) i i <> 0).
      { induction k as [|k IH]; intros Hk Hf; [discriminate|].
        rewrite seq_S, forallb_app in Hf; simpl in Hf; rewrite andb_true_r in Hf.
        destruct (Reqb (entry (t_A bt) k k) 0) eqn:R0.
        - rewrite andb_true_r in Hf; apply IH; auto; lia.
        - exists k; split; [lia|]; intros Hz; apply Reqb_true in Hz; congruence. }
      apply (G (t_stages bt)); auto.
Qed.

Lemma is_implicit_spec (bt : tableau R) :
  is_implicit bt = true <-> ~ no_upper bt.
Proof.
  unfold is_implicit; split.
  - intros H U.
    assert (D : is_diagonally_implicit bt = (if is_explicit bt then false else true)).
    { unfold is_diagonally_implicit; destruct (is_explicit bt); [reflexivity|]; apply upper_loop_spec, U. }
    rewrite D in H; destruct (is_explicit bt); discriminate.
  - intros U; destruct (is_explicit bt) eqn:E.
    + exfalso; apply U; intros i j Hij; apply is_explicit_spec; [exact E|lia].
    + unfold is_diagonally_implicit; rewrite E; cbn [orb].
      match goal with |- (if ?b then _ else _) = _ => destruct b eqn:F; [|reflexivity] end.
      exfalso; apply U, upper_loop_spec, F.
Qed.

Lemma classification (bt : tableau R) :
  match is_explicit bt, is_diagonally_implicit bt, is_implicit bt with
  | true, false, false | false, true, false | false, false, true => True
  | _, _, _ => False
  end.
Proof.
  unfold is_implicit; destruct (is_explicit bt) eqn:E; destruct (is_diagonally_implicit bt) eqn:D;
    cbn; auto.
  unfold is_diagonally_implicit in D; rewrite E in D; discriminate.
Qed.

(** ** Error estimate as a formula *)
Lemma error_estimate_formula bt o n ni no nl s h s' bh q :
  tableau_wf bt -> state_size o = n -> independent_output_size o = no ->
  linearization_point_size o = nl -> result_sizes o ->
  t_hat bt = Some (bh, q) ->
  shaped (t_stages bt) n ni no nl s ->
  compute_step bt o s h = Ok s' ->
  exists e err, embedded s' = Some (e, err) /\ length e = n /\ length err = n /\
  (forall m, vnth m e = vnth m (final_state s)
     + h * rsum (t_stages bt) (fun i => vnth i bh * vnth m (nth i (stage_updates s') []))) /\
  (forall m, vnth m err
     = h * rsum (t_stages bt) (fun i => (vnth i (t_b bt) - vnth i bh) * vnth m (nth i (stage_updates s') []))).
Proof.
  intros Hbt Hn Hno Hnl Hsz Hh Hs H.
  pose proof (compute_step_facts bt o n ni no nl Hbt Hn Hno Hnl Hsz s h s' Hs H) as F.
  destruct F as [[Hshape Hy Hp Ht Hstep Htimes Hstage] Ffin Ftime _ _].
  unfold compute_step in H.
  destruct (compute_step_base bt o s h) as [s1|e] eqn:B; cbn [bind] in H; [|discriminate].
  rewrite Hh in H; injection H as H; subst s'.
  cbn in Hshape, Hy, Ffin; cbn [embedded compute_error_estimate w_embedded stage_updates].
  pose proof (tw_hat _ Hbt) as Wh; rewrite Hh in Wh.
  assert (Hsu : length (stage_updates s1) = t_stages bt) by apply Hshape.
  assert (Hsur : Forall (fun r => length r = n) (stage_updates s1)) by apply Hshape.
  assert (Hfs : length (final_state s) = n) by apply Hs.
  destruct (weighted_step_spec (t_stages bt) n bh h (start_state s1) (stage_updates s1)) as [E1 E2];
    auto; [congruence|].
  destruct (weighted_step_spec (t_stages bt) n (t_b bt) h (final_state s) (stage_updates s1)) as [B1 B2];
    auto; [apply (tw_b _ Hbt)|].
  unfold accumulate_embedded_step; unfold accumulate_step in Ffin.
  assert (Lf : length (final_state s1) = n) by (rewrite Ffin; exact B1).
  eexists; eexists; split; [reflexivity|].
  split; [exact E1|]; split; [apply length_vsub_eq; [exact Lf|exact E1]|].
  split.
  - intros m; rewrite E2, Hy; reflexivity.
  - intros m; rewrite vnth_vsub by congruence.
    rewrite Ffin, B2, E2, Hy.
    rewrite (rsum_ext (t_stages bt) (fun i => (vnth i (t_b bt) - vnth i bh) * vnth m (nth i (stage_updates s1) []))
      (fun i => vnth i (t_b bt) * vnth m (nth i (stage_updates s1) [])
                + (-1) * (vnth i bh * vnth m (nth i (stage_updates s1) []))))
      by (intros; ring).
    rewrite rsum_plus, rsum_scal; lra.
Qed.

(** ** A step succeeds when the ODE does *)
Lemma for_stages_total {T} (body : rkstate T -> nat -> res (rkstate T)) (P : rkstate T -> Prop) l s :
  P s -> (forall i s, In i l -> P s -> exists s', body s i = Ok s' /\ P s') ->
  exists s', for_stages body l s = Ok s' /\ P s'.
Proof.
  revert s; induction l as [|i l IH]; intros s Hs H; simpl; [eauto|].
  destruct (H i s (or_introl eq_refl) Hs) as (s1 & E & H1); rewrite E; cbn [bind].
  apply IH; auto; intros; apply H; auto; right; assumption.
Qed.

Lemma compute_step_total bt o s h n ni no nl :
  tableau_wf bt -> state_size o = n -> independent_output_size o = no ->
  linearization_point_size o = nl -> result_sizes o ->
  shaped (t_stages bt) n ni no nl s -> (0 < t_stages bt)%nat ->
  (forall i inp, (i < t_stages bt)%nat ->
     exists r, compute_update o inp h (entry (t_A bt) i i) = Ok r) ->
  exists s', compute_step bt o s h = Ok s'.
Proof.
  intros Hbt Hn Hno Hnl Hsz Hs Hpos Hok; unfold compute_step, compute_step_base, number_of_stages.
  destruct (for_stages_total (fun s i => compute_stage bt o s h i) (shaped (t_stages bt) n ni no nl)
              (seq 0 (t_stages bt)) (w_step_size h (shift_state s))) as (s1 & E & Sh).
  - destruct Hs; constructor; cbn; auto.
  - intros i s0 Hi Hs0; apply in_seq in Hi.
    assert (G : exists s', compute_stage bt o s0 h i = Ok s').
    { unfold compute_stage.
      match goal with |- context [compute_update o ?a h ?c] =>
        destruct (Hok i a) as [[r lp] E]; [lia|rewrite E] end.
      cbn [bind]; eauto. }
    destruct G as [s' G]; exists s'; split; [exact G|].
    apply (compute_stage_shaped bt o n ni no nl) with (s := s0) (h := h) (i := i); auto; lia.
  - rewrite E; cbn [bind].
    cbn; destruct (stage_independent_outputs s1) as [|r rs] eqn:Er.
    + pose proof (sh_sio _ _ _ _ _ _ Sh) as L; rewrite Er in L; simpl in L; lia.
    + cbn; destruct (t_hat bt) as [[bh q]|]; eauto.
Qed.

(** ** Row sums *)
Lemma bsub_same_length (x y : list R) : length x = length y -> bsub x y = vsub x y.
Proof.
  destruct x as [|a [|a' x]], y as [|b [|b' y]]; simpl; intros H; try discriminate; reflexivity.
Qed.

Lemma forallb_nth_iff {A} (f : A -> bool) d l :
  forallb f l = true <-> forall i, (i < length l)%nat -> f (nth i l d) = true.
Proof.
  rewrite forallb_forall; split.
  - intros H i Hi; apply H, nth_In, Hi.
  - intros H x Hx; destruct (In_nth _ _ d Hx) as (i & Hi & <-); auto.
Qed.

Lemma vnth_map_vsum (A : list (list R)) i :
  (i < length A)%nat ->
  vnth i (map vsum A) = rsum (length (nth i A [])) (fun j => entry A i j).
Proof.
  intros Hi; unfold vnth; change (0:R) with (vsum (@nil R)).
  rewrite map_nth, vsum_rsum; reflexivity.
Qed.

Lemma warn_rows_spec (A : list (list R)) (c : list R) :
  length A = length c ->
  warn_rows A c = true <->
  forall i, (i < length A)%nat -> vnth i c <> rsum (length (nth i A [])) (fun j => entry A i j).
Proof.
  intros L; unfold warn_rows.
  rewrite bsub_same_length by (rewrite map_length; exact L).
  rewrite (forallb_nth_iff _ 0).
  assert (L2 : length (vsub (map vsum A) c) = length A).
  { apply length_vsub_eq; [apply map_length|congruence]. }
  rewrite L2; split; intros H i Hi; specialize (H i Hi).
  - fold (vnth i (vsub (map vsum A) c)) in H; rewrite vnth_vsub in H by (rewrite map_length; exact L).
    rewrite vnth_map_vsum in H by exact Hi.
    intros E; rewrite E in H.
    apply negb_true_iff in H; cbn [neqb RNum n0] in H.
    assert (Reqb (rsum (length (nth i A [])) (fun j => entry A i j)
      - rsum (length (nth i A [])) (fun j => entry A i j)) 0 = true) by (apply Reqb_true; lra).
    congruence.
  - fold (vnth i (vsub (map vsum A) c)); rewrite vnth_vsub by (rewrite map_length; exact L).
    rewrite vnth_map_vsum by exact Hi.
    apply negb_true_iff; cbn [neqb RNum n0].
    destruct (Reqb _ 0) eqn:E; [|reflexivity].
    apply Reqb_true in E; exfalso; apply H; lra.
Qed.

Lemma row_warning_refuted : exists (A : mat R) b cs p name t ws i,
  mat_wf A /\ tableau_init A b (Some cs) p name = Ok (t, ws) /\ (i < t_stages t)%nat /\
  Rabs (vnth i (t_c t) - rsum (t_stages t) (fun j => entry (t_A t) i j)) >= 1 /\
  ~ In RowSumsDiffer ws.
Proof.
  set (A := {| mrows := 2; mcols := 2; mdata := [[0; 0]; [1; 0]] |} : mat R).
  assert (Hb : exists tw, tableau_init A [1/2; 1/2] (Some [0; 7]) None "x"%string = Ok tw).
  { apply tableau_init_ok; cbn; auto. }
  destruct Hb as [[t ws] Hb].
  exists A, [1/2; 1/2], [0; 7], None, "x"%string, t, ws, 1%nat.
  split; [split; [reflexivity|repeat constructor]|]; split; [exact Hb|].
  destruct (tableau_init_fields _ _ _ _ _ _ _ Hb) as (E1 & E2 & _ & _ & _ & E6 & E7 & _ & E9).
  rewrite E6, E7, E1; cbn; split; [lia|]; split.
  - unfold vnth, entry; cbn; rewrite Rabs_right; lra.
  - rewrite E9; intros (cs' & Ec & Hw); injection Ec as <-.
    apply (proj1 (warn_rows_spec (mdata A) [0; 7] eq_refl)) with (i := 0%nat) in Hw; [|cbn; lia].
    apply Hw; cbn; unfold vnth, entry; cbn; lra.
Qed.
