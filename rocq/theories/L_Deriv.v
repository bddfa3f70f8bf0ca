(** The forward derivative of one step is its derivative; linearity. *)
From Coq Require Import List Reals Lia Lra Bool.
From Verif Require Import Base Ext M_Tableau M_State M_ODE M_Step SpecRK SpecShape SpecDeriv
  L_Vec L_Step L_Adjoint.
Import ListNotations.
Open Scope R_scope.

(** ** Calculus of curves *)
Lemma dlim_ext_near f g l del :
  0 < del -> (forall e, Rabs e < del -> f e = g e) ->
  derivable_pt_lim f 0 l -> derivable_pt_lim g 0 l.
Proof.
  intros Hd H Hf eps Heps; destruct (Hf eps Heps) as [d Hdd].
  assert (Hm : 0 < Rmin d del) by (apply Rmin_pos; [apply cond_pos|exact Hd]).
  exists (mkposreal _ Hm); intros x Hx Hxd; simpl in Hxd.
  rewrite <- !H.
  - apply Hdd; auto; eapply Rlt_le_trans; [exact Hxd|apply Rmin_l].
  - rewrite Rabs_R0; exact Hd.
  - rewrite Rplus_0_l; eapply Rlt_le_trans; [exact Hxd|apply Rmin_r].
Qed.

Lemma dlim_rsum k (f : nat -> R -> R) (d : nat -> R) :
  (forall j, (j < k)%nat -> derivable_pt_lim (f j) 0 (d j)) ->
  derivable_pt_lim (fun e => rsum k (fun j => f j e)) 0 (rsum k d).
Proof.
  induction k as [|k IH]; intros H; simpl.
  - apply derivable_pt_lim_const.
  - apply (derivable_pt_lim_plus (fun e => rsum k (fun j => f j e)) (f k)).
    + apply IH; intros j Hj; apply H; lia.
    + apply H; lia.
Qed.

Lemma dlim_scal a f l : derivable_pt_lim f 0 l -> derivable_pt_lim (fun e => a * f e) 0 (a * l).
Proof. intros H; apply (derivable_pt_lim_scal f a 0 l H). Qed.

Lemma dlim_plus f g l m : derivable_pt_lim f 0 l -> derivable_pt_lim g 0 m ->
  derivable_pt_lim (fun e => f e + g e) 0 (l + m).
Proof. intros H1 H2; apply (derivable_pt_lim_plus f g 0 l m H1 H2). Qed.

Section StepDerivative.
Variables (bt : tableau R) (o : ode R) (n ni no nl : nat).
Let Sg := t_stages bt.
Hypothesis Hbt : tableau_wf bt.
Hypothesis Hn : state_size o = n.
Hypothesis Hni : independent_input_size o = ni.
Hypothesis Hno : independent_output_size o = no.
Hypothesis Hnl : linearization_point_size o = nl.
Hypothesis Hsz : result_sizes o.
Hypothesis Hdsz : derivative_sizes o.
Hypothesis Hdiff : ode_differentiable o.

Lemma step_derivative_correct del (s s' : R -> rkstate R) v h v' :
  0 < del ->
  (forall e, Rabs e < del -> shaped Sg n ni no nl (s e)) ->
  (forall e, Rabs e < del -> compute_step bt o (s e) h = Ok (s' e)) ->
  shaped Sg n ni no nl v ->
  curve (fun e => final_state (s e)) (final_state v) ->
  curve (fun e => independent_inputs (s e)) (independent_inputs v) ->
  derivable_pt_lim (fun e => final_time (s e)) 0 (final_time v) ->
  compute_step_derivative bt o (s' 0) v h = Ok v' ->
  curve (fun e => final_state (s' e)) (final_state v') /\
  curve (fun e => independent_inputs (s' e)) (independent_inputs v') /\
  derivable_pt_lim (fun e => final_time (s' e)) 0 (final_time v') /\
  (forall i, (i < Sg)%nat ->
     curve (fun e => nth i (stage_updates (s' e)) []) (nth i (stage_updates v') []) /\
     curve (fun e => nth i (stage_states (s' e)) []) (nth i (stage_states v') []) /\
     curve (fun e => nth i (stage_independent_outputs (s' e)) [])
           (nth i (stage_independent_outputs v') [])).
Proof.
  intros Hdel Hs Hstep Hv Cy Cp Ct Hd.
  assert (F : forall e, Rabs e < del -> step_facts bt o n ni no nl (s e) h (s' e)).
  { intros e He; apply compute_step_facts; auto. }
  assert (H0 : Rabs 0 < del) by (rewrite Rabs_R0; exact Hdel).
  pose proof (pi_shape _ _ _ _ _ _ _ _ _ _ _ _ (sf_inv _ _ _ _ _ _ _ _ _ (F 0 H0))) as Hsh0.
  pose proof (compute_step_derivative_facts bt o n ni no nl Hbt Hn Hno Hdsz (s' 0) v h v' Hv
                (sh_sio _ _ _ _ _ _ Hsh0) (sh_sior _ _ _ _ _ _ Hsh0) Hd) as D.
  pose proof (df_inv _ _ _ _ _ _ _ _ _ _ D) as [Dshape Dy Dp Dt Dstage].
  assert (Hstages : forall i, (i < Sg)%nat ->
     curve (fun e => nth i (stage_updates (s' e)) []) (nth i (stage_updates v') []) /\
     curve (fun e => nth i (stage_states (s' e)) []) (nth i (stage_states v') []) /\
     curve (fun e => nth i (stage_independent_outputs (s' e)) [])
           (nth i (stage_independent_outputs v') [])).
  { intros i; induction i as [i IH] using lt_wf_ind; intros Hi.
    assert (Cacc : curve (fun e => accumulate_stages bt i (stage_updates (s' e)))
                         (accumulate_stages bt i (stage_updates v'))).
    { intros m.
      destruct (accumulate_stages_spec bt n i (stage_updates v') Hbt Hi
                  (sh_su _ _ _ _ _ _ Dshape) (sh_sur _ _ _ _ _ _ Dshape)) as [_ Ha].
      rewrite Ha.
      apply (dlim_ext_near (fun e => rsum i (fun j => entry (t_A bt) i j
                                * vnth m (nth j (stage_updates (s' e)) []))) _ _ del Hdel).
      - intros e He.
        destruct (sf_inv _ _ _ _ _ _ _ _ _ (F e He)) as [Sh _ _ _ _ _ _].
        destruct (accumulate_stages_spec bt n i (stage_updates (s' e)) Hbt Hi
                  (sh_su _ _ _ _ _ _ Sh) (sh_sur _ _ _ _ _ _ Sh)) as [_ Ha'].
        symmetry; apply Ha'.
      - apply (dlim_rsum i (fun j e => entry (t_A bt) i j
                                * vnth m (nth j (stage_updates (s' e)) []))).
        intros j Hj; apply dlim_scal; apply (IH j Hj); lia. }
    assert (Hacc : forall ks : rkstate R, shaped Sg n ni no nl ks ->
              length (accumulate_stages bt i (stage_updates ks)) = n).
    { intros ks Sh; apply (accumulate_stages_spec bt n i (stage_updates ks) Hbt Hi); apply Sh. }
    eapply (Hdiff del h (entry (t_A bt) i i)
      (fun e => {| step_input := final_state (s e);
                   stage_input := accumulate_stages bt i (stage_updates (s' e));
                   independent_input := independent_inputs (s e);
                   time := final_time (s e) + h * vnth i (t_c bt) |})
      {| step_input := final_state v;
         stage_input := accumulate_stages bt i (stage_updates v');
         independent_input := independent_inputs v; time := final_time v |}
      (fun e => {| stage_update := nth i (stage_updates (s' e)) [];
             stage_state := nth i (stage_states (s' e)) [];
             independent_output := nth i (stage_independent_outputs (s' e)) [] |})
      (fun e => nth i (linearization_points (s' e)) [])
      {| stage_update := nth i (stage_updates v') [];
         stage_state := nth i (stage_states v') [];
         independent_output := nth i (stage_independent_outputs v') [] |}
      Hdel).
    - intros e He; destruct (sf_inv _ _ _ _ _ _ _ _ _ (F e He)) as [Sh _ _ _ _ _ _].
      repeat split; cbn; rewrite ?Hn, ?Hni; auto; apply (Hs e He).
    - repeat split; cbn; rewrite ?Hn, ?Hni; auto; apply Hv.
    - intros e He; destruct (sf_inv _ _ _ _ _ _ _ _ _ (F e He)) as [_ _ _ _ _ _ Hst].
      apply Hst; exact Hi.
    - exact Cy.
    - exact Cacc.
    - exact Cp.
    - cbn; rewrite <- (Rplus_0_r (final_time v)); apply dlim_plus; [exact Ct|].
      apply derivable_pt_lim_const.
    - apply Dstage; exact Hi. }
  split; [|split; [|split; [|exact Hstages]]].
  - intros m.
    rewrite (df_final _ _ _ _ _ _ _ _ _ _ D).
    destruct (accumulate_step_spec bt n h (final_state v) (stage_updates v') Hbt
      (sh_final _ _ _ _ _ _ Hv) (sh_su _ _ _ _ _ _ Dshape) (sh_sur _ _ _ _ _ _ Dshape)) as [_ Ha].
    rewrite Ha.
    apply (dlim_ext_near (fun e => vnth m (final_state (s e)) + h * rsum (t_stages bt)
        (fun i => vnth i (t_b bt) * vnth m (nth i (stage_updates (s' e)) []))) _ _ del Hdel).
    + intros e He; rewrite (sf_final _ _ _ _ _ _ _ _ _ (F e He)).
      destruct (sf_inv _ _ _ _ _ _ _ _ _ (F e He)) as [Sh _ _ _ _ _ _].
      destruct (accumulate_step_spec bt n h (final_state (s e)) (stage_updates (s' e)) Hbt
        (sh_final _ _ _ _ _ _ (Hs e He)) (sh_su _ _ _ _ _ _ Sh) (sh_sur _ _ _ _ _ _ Sh)) as [_ Ha'].
      symmetry; apply Ha'.
    + apply dlim_plus; [apply Cy|]; apply dlim_scal.
      apply (dlim_rsum _ (fun i e => vnth i (t_b bt) * vnth m (nth i (stage_updates (s' e)) []))).
      intros i Hi; apply dlim_scal; apply (Hstages i Hi).
  - rewrite Dp; intros m.
    apply (dlim_ext_near (fun e => vnth m (independent_inputs (s e))) _ _ del Hdel); [|apply Cp].
    intros e He; rewrite (pi_p _ _ _ _ _ _ _ _ _ _ _ _ (sf_inv _ _ _ _ _ _ _ _ _ (F e He)));
      reflexivity.
  - rewrite (df_time _ _ _ _ _ _ _ _ _ _ D).
    apply (dlim_ext_near (fun e => final_time (s e) + h) _ _ del Hdel).
    + intros e He; symmetry; apply (sf_time _ _ _ _ _ _ _ _ _ (F e He)).
    + rewrite <- (Rplus_0_r (final_time v)); apply dlim_plus; [exact Ct|].
      apply derivable_pt_lim_const.
Qed.

End StepDerivative.

(** ** Linearity *)
Lemma length_vlin n a x b y : length x = n -> length y = n -> length (vlin a x b y) = n.
Proof. intros; unfold vlin; apply length_vadd_eq; rewrite length_vscale; auto. Qed.

Lemma vnth_vlin a x b y m : length x = length y -> vnth m (vlin a x b y) = a * vnth m x + b * vnth m y.
Proof. intros; unfold vlin; rewrite vnth_vadd, !vnth_vscale; rewrite ?length_vscale; auto. Qed.

Section Linearity.
Variables (bt : tableau R) (o : ode R) (n ni no nl : nat).
Let Sg := t_stages bt.
Hypothesis Hbt : tableau_wf bt.
Hypothesis Hn : state_size o = n.
Hypothesis Hni : independent_input_size o = ni.
Hypothesis Hno : independent_output_size o = no.
Hypothesis Hdsz : derivative_sizes o.
Hypothesis Hlin : ode_linear o.

Lemma step_derivative_linear s v1 v2 v h v1' v2' v' al be :
  shaped Sg n ni no nl s -> shaped Sg n ni no nl v1 -> shaped Sg n ni no nl v2 ->
  shaped Sg n ni no nl v ->
  final_time v = al * final_time v1 + be * final_time v2 ->
  final_state v = vlin al (final_state v1) be (final_state v2) ->
  independent_inputs v = vlin al (independent_inputs v1) be (independent_inputs v2) ->
  compute_step_derivative bt o s v1 h = Ok v1' ->
  compute_step_derivative bt o s v2 h = Ok v2' ->
  compute_step_derivative bt o s v h = Ok v' ->
  final_time v' = al * final_time v1' + be * final_time v2' /\
  final_state v' = vlin al (final_state v1') be (final_state v2') /\
  independent_inputs v' = vlin al (independent_inputs v1') be (independent_inputs v2') /\
  forall i, (i < Sg)%nat ->
    nth i (stage_updates v') [] = vlin al (nth i (stage_updates v1') []) be (nth i (stage_updates v2') []) /\
    nth i (stage_states v') [] = vlin al (nth i (stage_states v1') []) be (nth i (stage_states v2') []) /\
    nth i (stage_independent_outputs v') []
      = vlin al (nth i (stage_independent_outputs v1') []) be (nth i (stage_independent_outputs v2') []).
Proof.
  intros Hs Hv1 Hv2 Hv Et Ey Ep H1 H2 H3.
  pose proof (compute_step_derivative_facts bt o n ni no nl Hbt Hn Hno Hdsz s v1 h v1' Hv1
                (sh_sio _ _ _ _ _ _ Hs) (sh_sior _ _ _ _ _ _ Hs) H1) as D1.
  pose proof (compute_step_derivative_facts bt o n ni no nl Hbt Hn Hno Hdsz s v2 h v2' Hv2
                (sh_sio _ _ _ _ _ _ Hs) (sh_sior _ _ _ _ _ _ Hs) H2) as D2.
  pose proof (compute_step_derivative_facts bt o n ni no nl Hbt Hn Hno Hdsz s v h v' Hv
                (sh_sio _ _ _ _ _ _ Hs) (sh_sior _ _ _ _ _ _ Hs) H3) as D3.
  destruct D1 as [[Sh1 _ P1 _ St1] Fi1 Ti1], D2 as [[Sh2 _ P2 _ St2] Fi2 Ti2],
    D3 as [[Sh3 _ P3 _ St3] Fi3 Ti3].
  assert (Hst : forall i, (i < Sg)%nat ->
    nth i (stage_updates v') [] = vlin al (nth i (stage_updates v1') []) be (nth i (stage_updates v2') []) /\
    nth i (stage_states v') [] = vlin al (nth i (stage_states v1') []) be (nth i (stage_states v2') []) /\
    nth i (stage_independent_outputs v') []
      = vlin al (nth i (stage_independent_outputs v1') []) be (nth i (stage_independent_outputs v2') [])).
  { intros i; induction i as [i IH] using lt_wf_ind; intros Hi.
    assert (Ea : accumulate_stages bt i (stage_updates v')
                 = vlin al (accumulate_stages bt i (stage_updates v1'))
                        be (accumulate_stages bt i (stage_updates v2'))).
    { destruct (accumulate_stages_spec bt n i (stage_updates v1') Hbt Hi
                  (sh_su _ _ _ _ _ _ Sh1) (sh_sur _ _ _ _ _ _ Sh1)) as [A1 B1].
      destruct (accumulate_stages_spec bt n i (stage_updates v2') Hbt Hi
                  (sh_su _ _ _ _ _ _ Sh2) (sh_sur _ _ _ _ _ _ Sh2)) as [A2 B2].
      destruct (accumulate_stages_spec bt n i (stage_updates v') Hbt Hi
                  (sh_su _ _ _ _ _ _ Sh3) (sh_sur _ _ _ _ _ _ Sh3)) as [A3 B3].
      apply (vec_eq n); [exact A3|apply length_vlin; auto|].
      intros m Hm; rewrite vnth_vlin, B1, B2, B3 by congruence.
      rewrite <- !rsum_scal, <- rsum_plus; apply rsum_ext; intros j Hj.
      destruct (IH j Hj ltac:(lia)) as [-> _].
      rewrite vnth_vlin; [lra|].
      rewrite (Forall_nth_lt (fun r => length r = n)) by
        (try apply Sh1; rewrite (sh_su _ _ _ _ _ _ Sh1); lia).
      rewrite (Forall_nth_lt (fun r => length r = n)) by
        (try apply Sh2; rewrite (sh_su _ _ _ _ _ _ Sh2); lia).
      reflexivity. }
    assert (HI : forall v (k : rkstate R), shaped Sg n ni no nl v -> shaped Sg n ni no nl k ->
       input_sizes o {| step_input := final_state v;
         stage_input := accumulate_stages bt i (stage_updates k);
         independent_input := independent_inputs v; time := final_time v |}).
    { intros u k Hu Hk; repeat split; cbn; rewrite ?Hn, ?Hni; try apply Hu.
      apply (accumulate_stages_spec bt n i (stage_updates k) Hbt Hi); apply Hk. }
    pose proof (Hlin (nth i (linearization_points s) []) h (entry (t_A bt) i i) al _ be _ _ _
                  (HI v1 v1' Hv1 Sh1) (HI v2 v2' Hv2 Sh2) (St1 i Hi) (St2 i Hi)) as E.
    unfold lin_in in E; cbn [step_input stage_input independent_input time] in E.
    rewrite <- Et, <- Ey, <- Ep, <- Ea, (St3 i Hi) in E.
    unfold lin_out in E; cbn [stage_update stage_state independent_output] in E.
    injection E as E1 E2 E3; auto. }
  split; [rewrite Ti1, Ti2, Ti3; exact Et|].
  split; [|split; [congruence|exact Hst]].
  rewrite Fi1, Fi2, Fi3.
  destruct (accumulate_step_spec bt n h (final_state v1) (stage_updates v1') Hbt
    (sh_final _ _ _ _ _ _ Hv1) (sh_su _ _ _ _ _ _ Sh1) (sh_sur _ _ _ _ _ _ Sh1)) as [A1 B1].
  destruct (accumulate_step_spec bt n h (final_state v2) (stage_updates v2') Hbt
    (sh_final _ _ _ _ _ _ Hv2) (sh_su _ _ _ _ _ _ Sh2) (sh_sur _ _ _ _ _ _ Sh2)) as [A2 B2].
  destruct (accumulate_step_spec bt n h (final_state v) (stage_updates v') Hbt
    (sh_final _ _ _ _ _ _ Hv) (sh_su _ _ _ _ _ _ Sh3) (sh_sur _ _ _ _ _ _ Sh3)) as [A3 B3].
  apply (vec_eq n); [exact A3|apply length_vlin; auto|].
  intros m Hm; rewrite vnth_vlin, B1, B2, B3 by congruence.
  rewrite Ey, vnth_vlin by
    (rewrite (sh_final _ _ _ _ _ _ Hv1), (sh_final _ _ _ _ _ _ Hv2); reflexivity).
  rewrite (rsum_ext (t_stages bt) (fun i => vnth i (t_b bt) * vnth m (nth i (stage_updates v') []))
    (fun i => al * (vnth i (t_b bt) * vnth m (nth i (stage_updates v1') []))
              + be * (vnth i (t_b bt) * vnth m (nth i (stage_updates v2') [])))).
  - rewrite rsum_plus, !rsum_scal; lra.
  - intros j Hj; destruct (Hst j Hj) as [-> _].
    rewrite vnth_vlin; [lra|].
    rewrite (Forall_nth_lt (fun r => length r = n)) by
        (try apply Sh1; rewrite (sh_su _ _ _ _ _ _ Sh1); lia).
    rewrite (Forall_nth_lt (fun r => length r = n)) by
        (try apply Sh2; rewrite (sh_su _ _ _ _ _ _ Sh2); lia).
    reflexivity.
Qed.

End Linearity.

(** ** The adjoint result does not depend on the working fields of the weights *)
Section Independence.
Context {T : Type} {N : Num T}.
Variables (bt : tableau T) (o : ode T).

Record agree (a b : rkstate T) : Prop := {
  ag_ss : start_state a = start_state b;
  ag_t : start_time a = start_time b;
  ag_p : independent_inputs a = independent_inputs b;
  ag_st : stage_times a = stage_times b;
  ag_su : stage_updates a = stage_updates b;
  ag_sg : stage_states a = stage_states b;
  ag_io : stage_independent_outputs a = stage_independent_outputs b
}.

Lemma adjoint_stage_agree lin h i a b :
  agree a b ->
  match compute_stage_adjoint_derivative bt o lin a h i,
        compute_stage_adjoint_derivative bt o lin b h i with
  | Ok a', Ok b' => agree a' b'
  | Err e, Err e' => e = e'
  | _, _ => False
  end.
Proof.
  intros H; unfold compute_stage_adjoint_derivative.
  rewrite (ag_su _ _ H), (ag_sg _ _ H), (ag_io _ _ H).
  destruct (compute_update_adjoint_derivative _ _ _ _ _) as [x|e]; cbn [bind]; [|reflexivity].
  destruct H; constructor; cbn; congruence.
Qed.

Lemma adjoint_loop_agree lin h l a b :
  agree a b ->
  match for_stages (fun p i => compute_stage_adjoint_derivative bt o lin p h i) l a,
        for_stages (fun p i => compute_stage_adjoint_derivative bt o lin p h i) l b with
  | Ok a', Ok b' => agree a' b'
  | Err e, Err e' => e = e'
  | _, _ => False
  end.
Proof.
  revert a b; induction l as [|i l IH]; intros a b H; simpl; [exact H|].
  pose proof (adjoint_stage_agree lin h i a b H) as Hs.
  destruct (compute_stage_adjoint_derivative bt o lin a h i) as [a1|e];
    destruct (compute_stage_adjoint_derivative bt o lin b h i) as [b1|e'];
    cbn [bind]; try contradiction; [apply IH; exact Hs | exact Hs].
Qed.

Lemma fold_upd_overwrite {A} (g : nat -> A) k (l1 l2 : list A) :
  length l1 = k -> length l2 = k ->
  fold_left (fun l i => upd i (g i) l) (seq 0 k) l1
  = fold_left (fun l i => upd i (g i) l) (seq 0 k) l2.
Proof.
  intros H1 H2; destruct l1 as [|d l1'] eqn:E.
  - simpl in H1; subst k; destruct l2; [reflexivity|discriminate].
  - rewrite <- E in *; clear E.
    destruct (fold_upd_spec (fun i _ => g i) d k l1 ltac:(lia)) as [L1 N1].
    destruct (fold_upd_spec (fun i _ => g i) d k l2 ltac:(lia)) as [L2 N2].
    apply (list_eq_nth d); [congruence|].
    intros j Hj; rewrite N1, N2; destruct (Nat.ltb_spec j k); [reflexivity|lia].
Qed.

Lemma adjoint_independent s w1 w2 h :
  final_time w1 = final_time w2 -> final_state w1 = final_state w2 ->
  independent_inputs w1 = independent_inputs w2 -> stage_states w1 = stage_states w2 ->
  length (stage_updates w1) = t_stages bt -> length (stage_updates w2) = t_stages bt ->
  match compute_step_adjoint_derivative bt o s w1 h, compute_step_adjoint_derivative bt o s w2 h with
  | Ok a, Ok b => final_time a = final_time b /\ final_state a = final_state b /\
                  independent_inputs a = independent_inputs b
  | Err e, Err e' => e = e'
  | _, _ => False
  end.
Proof.
  intros Et Ey Ep Es L1 L2; unfold compute_step_adjoint_derivative, number_of_stages.
  match goal with |- match bind (for_stages ?f ?l ?a) _ with _ => _ end =>
    set (A := a) end.
  match goal with |- context [bind (for_stages ?f ?l (w_start_time ?x ?y)) _] =>
    set (B := w_start_time x y) end.
  assert (HAB : agree A B).
  { constructor; subst A B; cbn; try congruence.
    rewrite Ey; apply fold_upd_overwrite; auto. }
  pose proof (adjoint_loop_agree (linearization_points s) h (rev (seq 0 (t_stages bt))) A B HAB) as HL.
  destruct (for_stages _ _ A) as [a|e]; destruct (for_stages _ _ B) as [b|e']; cbn [bind] in *; auto.
  cbn; destruct HL; auto.
Qed.

End Independence.

(** ** C02: entries above the diagonal are never read *)
Section Truncate.
Context {T : Type} {N : Num T}.

Lemma row_firstn_eq (bt bt' : tableau T) i :
  tableau_wf bt -> tableau_wf bt' -> same_lower_part bt bt' -> (i < t_stages bt)%nat ->
  firstn i (nth i (t_A bt) []) = firstn i (nth i (t_A bt') []).
Proof.
  intros W W' E Hi.
  assert (L : length (nth i (t_A bt) []) = t_stages bt).
  { apply (Forall_nth_lt (fun r => length r = t_stages bt)); [apply W|rewrite (tw_A _ W); exact Hi]. }
  assert (L' : length (nth i (t_A bt') []) = t_stages bt).
  { rewrite (sl_stages _ _ E) in *.
    apply (Forall_nth_lt (fun r => length r = t_stages bt')); [apply W'|rewrite (tw_A _ W'); exact Hi]. }
  apply (list_eq_nth n0); rewrite !length_firstn_le by lia; [reflexivity|].
  intros j Hj; rewrite !nth_firstn_lt by exact Hj; apply (sl_A _ _ E i j); lia.
Qed.

Lemma for_stages_ext (b1 b2 : rkstate T -> nat -> res (rkstate T)) l s :
  (forall s i, In i l -> b1 s i = b2 s i) -> for_stages b1 l s = for_stages b2 l s.
Proof.
  revert s; induction l as [|i l IH]; intros s H; simpl; [reflexivity|].
  rewrite (H s i) by (left; reflexivity); destruct (b2 s i); simpl; auto.
  apply IH; intros; apply H; right; assumption.
Qed.

Lemma compute_step_lower bt bt' o s h :
  tableau_wf bt -> tableau_wf bt' -> same_lower_part bt bt' ->
  compute_step bt o s h = compute_step bt' o s h.
Proof.
  intros W W' E; unfold compute_step, compute_step_base, number_of_stages, accumulate_step.
  rewrite <- (sl_hat _ _ E), <- (sl_stages _ _ E), <- (sl_b _ _ E).
  rewrite (for_stages_ext (fun s i => compute_stage bt' o s h i)
             (fun s i => compute_stage bt o s h i)); [reflexivity|].
  intros s0 i Hi; apply in_seq in Hi; unfold compute_stage, accumulate_stages.
  rewrite <- (sl_c _ _ E), <- (row_firstn_eq bt bt' i) by (auto; lia).
  rewrite <- (sl_A _ _ E i i) by lia; reflexivity.
Qed.
End Truncate.
