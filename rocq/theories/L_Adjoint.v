(** The derivative and adjoint derivative of one step. *)
From Coq Require Import List Reals Lia Lra Bool.
From Verif Require Import Base Ext M_Tableau M_State M_ODE M_Step SpecRK SpecShape SpecDeriv
  L_Vec L_Step.
Import ListNotations.
Open Scope R_scope.

(** ** One stage of the derivative *)
Lemma compute_stage_derivative_inv bt (o : ode R) lin s h i s' :
  compute_stage_derivative bt o lin s h i = Ok s' ->
  exists r,
    compute_update_derivative o (nth i lin []) {| step_input := start_state s;
        stage_input := accumulate_stages bt i (stage_updates s);
        independent_input := independent_inputs s;
        time := nth i (upd i (start_time s) (stage_times s)) 0 |}
      h (entry (t_A bt) i i) = Ok r /\
    s' = w_stage_independent_outputs (upd i (independent_output r) (stage_independent_outputs s))
          (w_stage_states (upd i (stage_state r) (stage_states s))
          (w_stage_updates (upd i (stage_update r) (stage_updates s))
          (w_stage_times (upd i (start_time s) (stage_times s)) s))).
Proof.
  unfold compute_stage_derivative; cbn [start_state stage_updates independent_inputs stage_times
    w_stage_times start_time]; intros H.
  match type of H with context [compute_update_derivative ?a ?b ?c ?d ?e] =>
    destruct (compute_update_derivative a b c d e) as [r|x] eqn:E end;
    cbn [bind] in H; [|discriminate].
  exists r; split; [exact E|]; injection H as <-; reflexivity.
Qed.

Section Derivative.
Variables (bt : tableau R) (o : ode R) (n ni no nl : nat).
Let Sg := t_stages bt.
Hypothesis Hbt : tableau_wf bt.
Hypothesis Hn : state_size o = n.
Hypothesis Hno : independent_output_size o = no.
Hypothesis Hsz : derivative_sizes o.

Record deriv_inv (lin : list (list R)) (y p : list R) (t h : R) (i : nat) (s : rkstate R) : Prop := {
  di_shape : shaped Sg n ni no nl s;
  di_y : start_state s = y;
  di_p : independent_inputs s = p;
  di_t : start_time s = t;
  di_stage : forall j, (j < i)%nat ->
    compute_update_derivative o (nth j lin []) {| step_input := y;
        stage_input := accumulate_stages bt j (stage_updates s);
        independent_input := p; time := t |}
      h (entry (t_A bt) j j)
    = Ok {| stage_update := nth j (stage_updates s) [];
            stage_state := nth j (stage_states s) [];
            independent_output := nth j (stage_independent_outputs s) [] |}
}.

Lemma deriv_inv_step lin y p t h i s s' :
  (i < Sg)%nat -> deriv_inv lin y p t h i s -> compute_stage_derivative bt o lin s h i = Ok s' ->
  deriv_inv lin y p t h (S i) s'.
Proof.
  intros Hi Hs H.
  destruct (compute_stage_derivative_inv _ _ _ _ _ _ _ H) as (r & E & ->).
  destruct (Hsz _ _ _ _ _ E) as (L1 & L2 & L3).
  destruct Hs as [Hshape Hy Hp Ht Hstage].
  assert (Hti : nth i (upd i (start_time s) (stage_times s)) 0 = t).
  { rewrite nth_upd_same by (rewrite (sh_st _ _ _ _ _ _ Hshape); exact Hi); exact Ht. }
  rewrite Hti, Hy, Hp in E.
  constructor; cbn; auto.
  - destruct Hshape; constructor; cbn; rewrite ?length_upd; auto; apply Forall_upd; congruence.
  - intros j Hj.
    rewrite (accumulate_stages_upd_ge bt n) by (try apply Hshape; try lia; rewrite L1; exact Hn).
    destruct (Nat.eq_dec i j) as [<-|Hne].
    + rewrite !nth_upd_same by
        (rewrite ?(sh_su _ _ _ _ _ _ Hshape), ?(sh_ss _ _ _ _ _ _ Hshape),
           ?(sh_sio _ _ _ _ _ _ Hshape); exact Hi).
      rewrite E; destruct r; reflexivity.
    + rewrite !nth_upd_other by exact Hne; apply Hstage; lia.
Qed.

Record deriv_facts (lin : list (list R)) (v : rkstate R) (h : R) (v' : rkstate R) : Prop := {
  df_inv : deriv_inv lin (final_state v) (independent_inputs v) (final_time v) h Sg v';
  df_final : final_state v' = accumulate_step bt (final_state v) (stage_updates v') h;
  df_time : final_time v' = final_time v
}.

Lemma compute_step_derivative_facts s v h v' :
  shaped Sg n ni no nl v ->
  length (stage_independent_outputs s) = Sg ->
  Forall (fun r => length r = no) (stage_independent_outputs s) ->
  compute_step_derivative bt o s v h = Ok v' ->
  deriv_facts (linearization_points s) v h v'.
Proof.
  intros Hv Hs1 Hs2 H; unfold compute_step_derivative, number_of_stages in H.
  destruct (for_stages _ _ _) as [v1|e] eqn:E; cbn [bind] in H; [|discriminate].
  apply (for_stages_inv _ (deriv_inv (linearization_points s) (final_state v)
           (independent_inputs v) (final_time v) h)) in E.
  2:{ constructor; cbn; auto; [|intros; lia].
      destruct Hv; constructor; cbn; auto. }
  2:{ intros i a b Hi Ha Hb; apply (deriv_inv_step _ _ _ _ _ i a b); auto; lia. }
  cbn [Nat.add] in E.
  destruct (stage_independent_outputs s) as [|row rows]; cbn in H; [discriminate|].
  injection H as <-.
  inversion Hs2 as [|? ? Hrow _]; subst.
  destruct E as [Hshape Hy Hp Ht Hstage].
  constructor; cbn; [constructor; cbn; auto| rewrite Hy; reflexivity | exact Ht].
  destruct Hshape; constructor; cbn; auto.
  + apply accumulate_step_spec; auto.
  + rewrite Hrow; apply length_vzeros.
Qed.

End Derivative.

(** ** Loops that update rows in place *)
Lemma fold_upd_spec {A} (g : nat -> A -> A) (d : A) k (l : list A) :
  (k <= length l)%nat ->
  let r := fold_left (fun l i => upd i (g i (nth i l d)) l) (seq 0 k) l in
  length r = length l /\
  forall j, nth j r d = if (j <? k)%nat then g j (nth j l d) else nth j l d.
Proof.
  induction k as [|k IH]; intros Hk; cbn zeta.
  - simpl; split; auto.
  - rewrite seq_S, fold_left_app; simpl.
    destruct (IH ltac:(lia)) as [H1 H2]; clear IH.
    rewrite length_upd; split; [exact H1|]; intros j.
    destruct (Nat.eq_dec k j) as [<-|Hne].
    + rewrite nth_upd_same by (rewrite H1; lia); rewrite H2, Nat.ltb_irrefl.
      destruct (Nat.ltb_spec k (S k)); [reflexivity|lia].
    + rewrite nth_upd_other, H2 by exact Hne.
      destruct (Nat.ltb_spec j k), (Nat.ltb_spec j (S k)); try reflexivity; lia.
Qed.

Lemma Forall_nth_iff {A} (P : A -> Prop) d l :
  Forall P l <-> forall j, (j < length l)%nat -> P (nth j l d).
Proof.
  split; [intros H j Hj; apply Forall_nth_lt; auto|].
  intros H; apply Forall_forall; intros x Hx.
  destruct (In_nth _ _ d Hx) as (j & Hj & <-); auto.
Qed.

Lemma add_to_updates_spec bt n i x (ups : list (list R)) :
  (i <= length ups)%nat -> Forall (fun r => length r = n) ups -> length x = n ->
  length (add_to_updates bt i x ups) = length ups /\
  Forall (fun r => length r = n) (add_to_updates bt i x ups) /\
  forall j, nth j (add_to_updates bt i x ups) []
    = if (j <? i)%nat then vadd (nth j ups []) (vscale (entry (t_A bt) i j) x) else nth j ups [].
Proof.
  intros Hi Hf Hx; unfold add_to_updates.
  destruct (fold_upd_spec (fun j v => vadd v (vscale (entry (t_A bt) i j) x)) [] i ups Hi)
    as [H1 H2].
  split; [exact H1|]; split; [|exact H2].
  apply (Forall_nth_iff _ []); rewrite H1; intros j Hj; rewrite H2.
  assert (length (nth j ups []) = n) by (apply (Forall_nth_lt (fun r => length r = n)); auto).
  destruct (Nat.ltb_spec j i); auto.
  apply length_vadd_eq; auto; rewrite length_vscale; auto.
Qed.

(** ** One stage of the adjoint *)
Lemma compute_stage_adjoint_inv bt (o : ode R) lin s h i s' :
  compute_stage_adjoint_derivative bt o lin s h i = Ok s' ->
  exists x,
    compute_update_adjoint_derivative o (nth i lin [])
      {| stage_update := nth i (stage_updates s) [];
         stage_state := nth i (stage_states s) [];
         independent_output := nth i (stage_independent_outputs s) [] |}
      h (entry (t_A bt) i i) = Ok x /\
    let st := upd i (nth i (stage_times s) 0 + time x) (stage_times s) in
    s' = w_start_time (start_time s + nth i st 0)
          (w_stage_updates (add_to_updates bt i (stage_input x) (stage_updates s))
          (w_start_state (vadd (start_state s) (step_input x))
          (w_stage_times st
          (w_independent_inputs (vadd (independent_inputs s) (independent_input x)) s)))).
Proof.
  unfold compute_stage_adjoint_derivative; intros H.
  match type of H with context [compute_update_adjoint_derivative ?a ?b ?c ?d ?e] =>
    destruct (compute_update_adjoint_derivative a b c d e) as [x|er] eqn:E end;
    cbn [bind] in H; [|discriminate].
  exists x; split; [reflexivity|]; injection H as <-; reflexivity.
Qed.

Section Adjoint.
Variables (bt : tableau R) (o : ode R) (n ni no nl : nat).
Let Sg := t_stages bt.
Hypothesis Hbt : tableau_wf bt.
Hypothesis Hn : state_size o = n.
Hypothesis Hni : independent_input_size o = ni.
Hypothesis Hno : independent_output_size o = no.
Hypothesis Hsz : derivative_sizes o.
Hypothesis Hasz : adjoint_sizes o.
Hypothesis Htr : ode_transposed o.

(** [v'] is the forward result; [L] the value of the pairing before the loop;
    [om] the weights on the stage states. *)
Record adj_inv (v' : rkstate R) (L : R) (om : list (list R)) (i : nat) (s : rkstate R) : Prop := {
  ai_shape : shaped Sg n ni no nl s;
  ai_om : stage_states s = om;
  ai_times : forall j, (j < i)%nat -> nth j (stage_times s) 0 = 0;
  ai_io : forall j, dot (nth j (stage_independent_outputs s) [])
                        (nth j (stage_independent_outputs v') []) = 0;
  ai_eq : L = start_time s * start_time v'
              + dot (start_state s) (start_state v')
              + dot (independent_inputs s) (independent_inputs v')
              + rsum i (fun j => dot (nth j (stage_updates s) []) (nth j (stage_updates v') [])
                                 + dot (nth j om []) (nth j (stage_states v') []))
}.

Lemma dot_accumulate_stages x i field :
  (i < Sg)%nat -> length x = n ->
  length field = Sg -> Forall (fun r => length r = n) field ->
  dot x (accumulate_stages bt i field)
  = rsum i (fun j => entry (t_A bt) i j * dot x (nth j field [])).
Proof.
  intros Hi Hx Hl Hf.
  destruct (accumulate_stages_spec bt n i field Hbt Hi Hl Hf) as [H1 H2].
  rewrite (dot_rsum n) by auto.
  rewrite (rsum_ext n _ (fun m => rsum i (fun j => vnth m x * (entry (t_A bt) i j * vnth m (nth j field []))))).
  2:{ intros m Hm; rewrite H2, <- rsum_scal; reflexivity. }
  rewrite rsum_swap; apply rsum_ext; intros j Hj.
  rewrite (dot_rsum n) by
    (auto; apply (Forall_nth_lt (fun r => length r = n)); auto; lia).
  rewrite <- rsum_scal; apply rsum_ext; intros m Hm; lra.
Qed.

Lemma adj_inv_step lin v h v' L om i s s' :
  (i < Sg)%nat ->
  deriv_facts bt o n ni no nl lin v h v' ->
  length (final_state v) = n -> length (independent_inputs v) = ni ->
  adj_inv v' L om (S i) s ->
  compute_stage_adjoint_derivative bt o lin s h i = Ok s' ->
  adj_inv v' L om i s'.
Proof.
  intros Hi Hd Hvy Hvp Hs H.
  destruct (compute_stage_adjoint_inv _ _ _ _ _ _ _ H) as (x & E & Hst).
  cbv zeta in Hst.
  destruct (Hasz _ _ _ _ _ E) as (L1 & L2 & L3).
  destruct Hs as [Hshape Hom Htimes Hio Heq].
  destruct Hd as [[Dshape Dy Dp Dt Dstage] _ _].
  assert (Hti : nth i (upd i (nth i (stage_times s) 0 + time x) (stage_times s)) 0 = time x).
  { rewrite nth_upd_same by (rewrite (sh_st _ _ _ _ _ _ Hshape); exact Hi).
    rewrite Htimes by lia; lra. }
  rewrite Hti in Hst.
  destruct (add_to_updates_spec bt n i (stage_input x) (stage_updates s)) as (U1 & U2 & U3).
  { rewrite (sh_su _ _ _ _ _ _ Hshape); lia. }
  { apply Hshape. }
  { congruence. }
  pose proof (Dstage i Hi) as Di.
  destruct (accumulate_stages_spec bt n i (stage_updates v') Hbt Hi
              (sh_su _ _ _ _ _ _ Dshape) (sh_sur _ _ _ _ _ _ Dshape)) as [Hacc1 Hacc2].
  assert (Tr : dot (nth i (stage_updates s) []) (nth i (stage_updates v') [])
             + dot (nth i om []) (nth i (stage_states v') [])
             = dot (step_input x) (final_state v)
               + dot (stage_input x) (accumulate_stages bt i (stage_updates v'))
               + dot (independent_input x) (independent_inputs v)
               + time x * final_time v).
  { assert (Hrow : forall (l : list (list R)) k, Forall (fun r => length r = k) l ->
                     length l = Sg -> length (nth i l []) = k).
    { intros l k Hl1 Hl2; apply (Forall_nth_lt (fun r => length r = k)); auto; lia. }
    assert (Hsi : input_sizes o {| step_input := final_state v;
        stage_input := accumulate_stages bt i (stage_updates v');
        independent_input := independent_inputs v; time := final_time v |}).
    { repeat split; cbn; congruence. }
    assert (Hso : output_sizes o {| stage_update := nth i (stage_updates s) [];
         stage_state := nth i (stage_states s) [];
         independent_output := nth i (stage_independent_outputs s) [] |}).
    { repeat split; cbn; [rewrite Hn|rewrite Hn|rewrite Hno]; apply Hrow; apply Hshape. }
    pose proof (Htr _ _ _ _ _ _ _ Hsi Hso Di E) as Tr.
    unfold dot_out, dot_in in Tr; cbn [stage_update stage_state independent_output step_input
      stage_input independent_input time] in Tr.
    rewrite Hio, Hom in Tr; lra. }
  subst s'; constructor; cbn; auto.
  - destruct Hshape; constructor; cbn; rewrite ?length_upd; auto;
      try congruence; apply length_vadd_eq; congruence.
  - intros j Hj; rewrite nth_upd_other by lia; apply Htimes; lia.
  - rewrite Heq; simpl.
    rewrite !dot_vadd_l by (destruct Hshape; congruence).
    rewrite (rsum_ext i (fun j => dot (nth j (add_to_updates bt i (stage_input x) (stage_updates s)) [])
        (nth j (stage_updates v') []) + dot (nth j om []) (nth j (stage_states v') []))
      (fun j => (dot (nth j (stage_updates s) []) (nth j (stage_updates v') [])
                 + dot (nth j om []) (nth j (stage_states v') []))
                + entry (t_A bt) i j * dot (stage_input x) (nth j (stage_updates v') []))).
    2:{ intros j Hj; rewrite U3; destruct (Nat.ltb_spec j i); [|lia].
        rewrite dot_vadd_l, dot_vscale_l; [lra|].
        rewrite length_vscale, L2, Hn.
        apply (Forall_nth_lt (fun r => length r = n)); [apply Hshape|].
        rewrite (sh_su _ _ _ _ _ _ Hshape); lia. }
    rewrite (rsum_plus i (fun j => dot (nth j (stage_updates s) []) (nth j (stage_updates v') [])
                 + dot (nth j om []) (nth j (stage_states v') []))
      (fun j => entry (t_A bt) i j * dot (stage_input x) (nth j (stage_updates v') []))).
    rewrite <- (dot_accumulate_stages (stage_input x) i (stage_updates v'))
      by (try apply Dshape; auto; congruence).
    rewrite Dy, Dp, Dt; lra.
Qed.

Lemma step_transpose s v w h v' w' :
  shaped Sg n ni no nl s -> shaped Sg n ni no nl v -> shaped Sg n ni no nl w ->
  compute_step_derivative bt o s v h = Ok v' ->
  compute_step_adjoint_derivative bt o s w h = Ok w' ->
  independent_inputs v' = independent_inputs v /\
  shaped Sg n ni no nl v' /\ shaped Sg n ni no nl w' /\
  stage_states w' = stage_states w /\
  final_time w * final_time v' + dot (final_state w) (final_state v')
  + dot (independent_inputs w) (independent_inputs v')
  + rsum Sg (fun i => dot (nth i (stage_states w) []) (nth i (stage_states v') []))
  = final_time w' * final_time v + dot (final_state w') (final_state v)
    + dot (independent_inputs w') (independent_inputs v).
Proof.
  intros Hs Hv Hw Hf Ha.
  pose proof (compute_step_derivative_facts bt o n ni no nl Hbt Hn Hno Hsz s v h v' Hv
                (sh_sio _ _ _ _ _ _ Hs) (sh_sior _ _ _ _ _ _ Hs) Hf) as D.
  unfold compute_step_adjoint_derivative, number_of_stages in Ha.
  cbn [nadd RNum n0] in Ha.
  destruct (for_stages _ _ _) as [w1|e] eqn:E; cbn [bind] in Ha; [|discriminate].
  injection Ha as <-.
  pose proof (sh_final _ _ _ _ _ _ Hv) as Hvy; pose proof (sh_ind _ _ _ _ _ _ Hv) as Hvp.
  pose proof (df_inv _ _ _ _ _ _ _ _ _ _ D) as [Dshape Dy Dp Dt Dstage].
  pose proof (df_final _ _ _ _ _ _ _ _ _ _ D) as Dfin.
  pose proof (df_time _ _ _ _ _ _ _ _ _ _ D) as Dtime.
  set (L := final_time w * final_time v' + dot (final_state w) (final_state v')
            + dot (independent_inputs w) (independent_inputs v')
            + rsum Sg (fun i => dot (nth i (stage_states w) []) (nth i (stage_states v') []))).
  apply (for_stages_rev_inv _ (adj_inv v' L (stage_states w))) in E.
  - destruct E as [Wshape Wom _ _ Weq]; cbn.
    split; [exact Dp|]; split; [exact Dshape|]; split; [|split; [exact Wom|]].
    + destruct Wshape; constructor; cbn; auto.
    + rewrite Weq; simpl; rewrite Dy, Dp, Dt; lra.
  - (* before the loop *)
    destruct (fold_upd_spec (fun i _ => vscale (h * vnth i (t_b bt)) (final_state w)) []
                Sg (stage_updates w)) as [F1 F2].
    { rewrite (sh_su _ _ _ _ _ _ Hw); lia. }
    match goal with |- context [fold_left ?f (seq 0 (t_stages bt)) ?l] =>
      set (K := fold_left f (seq 0 (t_stages bt)) l) end.
    assert (KL : length K = length (stage_updates w)) by exact F1.
    assert (F3 : forall j, (j < Sg)%nat -> nth j K [] = vscale (h * vnth j (t_b bt)) (final_state w)).
    { intros j Hj; specialize (F2 j); destruct (Nat.ltb_spec j Sg); [exact F2|lia]. }
    clearbody K; clear F1 F2.
    constructor; cbn.
    + destruct Hw, Hs; constructor; cbn; auto; rewrite ?map_length, ?length_vzeros; auto.
      * rewrite KL; assumption.
      * apply (Forall_nth_iff _ []); rewrite KL; intros j Hj.
        rewrite F3 by congruence; rewrite length_vscale; assumption.
      * apply Forall_forall; intros r Hr; apply in_map_iff in Hr.
        destruct Hr as (r0 & <- & Hr0); rewrite length_vzeros.
        eapply Forall_forall in Hr0; [|eassumption]; exact Hr0.
    + reflexivity.
    + intros j Hj; apply (vnth_vzeros (length (stage_times s)) j).
    + intros j; destruct (Nat.lt_ge_cases j (length (stage_independent_outputs s))) as [Hj|Hj].
      * change (@nil R) with ((fun r : list R => vzeros (length r)) []) at 1.
        rewrite map_nth; apply dot_vzeros_l.
      * rewrite nth_overflow by (rewrite map_length; exact Hj); reflexivity.
    + unfold L; rewrite rsum_plus; fold Sg.
      rewrite (rsum_ext Sg (fun j => dot (nth j K []) (nth j (stage_updates v') []))
        (fun j => (h * vnth j (t_b bt)) * dot (final_state w) (nth j (stage_updates v') []))).
      2:{ intros j Hj; rewrite F3 by exact Hj; apply dot_vscale_l. }
      rewrite Dy, Dp, Dt, Dtime, Dfin; unfold accumulate_step.
      destruct (einsum_spec n (stage_updates v') (vscale h (t_b bt))) as [Z1 _].
      { apply Dshape. }
      { rewrite length_vscale, (tw_b _ Hbt); apply Dshape. }
      rewrite Hvy, dot_vadd_r by congruence.
      rewrite (dot_einsum n).
      2:{ apply Dshape. }
      2:{ rewrite length_vscale, (tw_b _ Hbt); apply Dshape. }
      2:{ apply Hw. }
      rewrite (sh_su _ _ _ _ _ _ Dshape).
      rewrite (rsum_ext Sg (fun i => vnth i (vscale h (t_b bt)) * _)
        (fun j => h * vnth j (t_b bt) * dot (final_state w) (nth j (stage_updates v') []))).
      2:{ intros j Hj; rewrite vnth_vscale; reflexivity. }
      lra.
  - intros i a b Hi Ha Hb.
    apply (adj_inv_step (linearization_points s) v h v' L (stage_states w) i a b); auto.
Qed.

End Adjoint.
