(** Hand-driven runs over the reals: the steps made, and the derivative,
    linearity and transposition of the two products. *)
From Coq Require Import List Lia Bool Reals Lra.
From Verif Require Import Base Ext M_Tableau M_State M_ODE M_Step M_Controller M_Measure M_Integrator
  SpecRK SpecShape SpecDeriv SpecRun SpecConvergence SpecScheme L_Vec L_Step L_Adjoint L_Deriv L_Generic L_Run L_Iter
  L_Whole L_StepProps L_WholeR L_Scheme.
Import ListNotations.
Open Scope R_scope.

Section Scheme.
Variable bt : tableau R.
Variable o : ode R.
Notation Sg := (t_stages bt).
Notation shape := (shaped Sg (state_size o) (independent_input_size o)
                          (independent_output_size o) (linearization_point_size o)).
Hypothesis Hbt : tableau_wf bt.
Hypothesis Hres : result_sizes o.
Hypothesis Hdsz : derivative_sizes o.
Hypothesis Hasz : adjoint_sizes o.

Lemma scheme_rk f : is_implicit bt = false -> solves_stage_equation o (state_size o) f ->
  forall hs s l, shape s -> steps bt o s hs l ->
  rk_steps Sg (state_size o) (entry (t_A bt)) (fun k => vnth k (t_b bt)) (fun k => vnth k (t_c bt))
    (fun t y => f t (independent_inputs s) y) (final_time s) (final_state s) hs (final_state (last l s)) /\
  final_time (last l s) = final_time s + covered hs /\
  independent_inputs (last l s) = independent_inputs s.
Proof.
  intros Hi Hf; induction hs as [|h hs IH]; intros s [|s' l] Hs H; cbn [steps] in H; try tauto.
  - cbn; split; [reflexivity|]; split; [lra|reflexivity].
  - destruct H as [H1 H2]; rewrite last_cons.
    destruct (c01 bt o f _ s h s' Hbt Hres Hi Hf Hs H1) as (E & _ & _ & Ei & _ & Et & _ & Hs').
    destruct (IH s' l Hs' H2) as (R1 & R2 & R3).
    rewrite Ei in *; rewrite Et in *.
    split; [exists (fun i => nth i (stage_updates s') []), (final_state s'); auto|].
    split; [rewrite R2; cbn; lra|exact R3].
Qed.

(** *** Derivative *)
Lemma scheme_moves del : 0 < del -> ode_differentiable o ->
  forall hs (s : R -> rkstate R) l v v',
  (forall e, Rabs e < del -> shape (s e) /\ steps bt o (s e) hs (l e)) ->
  shape v -> moves s v -> steps_derivative bt o hs (l 0) v v' ->
  moves (fun e => last (l e) (s e)) v'.
Proof.
  intros Hdel Hdiff; assert (H0 : Rabs 0 < del) by (rewrite Rabs_R0; exact Hdel).
  induction hs as [|h hs IH]; intros s l v v' H Hv M D.
  - assert (E : forall e, Rabs e < del -> l e = []).
    { intros e He; destruct (H e He) as [_ K]; destruct (l e); [reflexivity|destruct K]. }
    rewrite (E 0 H0) in D; cbn in D; subst v'.
    apply (moves_near s _ _ del Hdel); [|exact M].
    intros e He; rewrite (E e He); constructor; reflexivity.
  - set (s1 := fun e => hd (s e) (l e)); set (l1 := fun e => tl (l e)).
    assert (E : forall e, Rabs e < del -> l e = s1 e :: l1 e /\ compute_step bt o (s e) h = Ok (s1 e) /\
       steps bt o (s1 e) hs (l1 e) /\ shape (s1 e)).
    { intros e He; destruct (H e He) as [Hs K]; unfold s1, l1; destruct (l e) as [|x r]; [destruct K|].
      cbn; destruct K as [K1 K2]; split; [reflexivity|]; split; [exact K1|]; split; [exact K2|].
      exact (fr_shape _ _ _ _ _ (compute_step_frame bt o _ _ _ Hres Hs K1)). }
    destruct (E 0 H0) as (E0 & _ & _ & Hs0); rewrite E0 in D; cbn [steps_derivative] in D.
    destruct D as (v1 & D1 & D2); destruct M as [M1 M2 M3].
    destruct (step_derivative_correct bt o _ _ _ _ Hbt eq_refl eq_refl eq_refl eq_refl Hres Hdsz Hdiff
        del s s1 v h v1) as (P1 & P2 & P3 & _); auto.
    { intros e He; apply (H e He). }
    { intros e He; apply (E e He). }
    assert (Hv1 : shape v1) by exact (proj1 (compute_step_derivative_shape bt o _ _ _ _ Hdsz Hs0 Hv D1)).
    assert (X : moves (fun e => last (l1 e) (s1 e)) v').
    { apply (IH s1 l1 v1 v'); auto; [|constructor; auto].
      intros e He; destruct (E e He) as (_ & _ & ? & ?); auto. }
    apply (moves_near (fun e => last (l1 e) (s1 e)) _ _ del Hdel); [|exact X].
    intros e He; destruct (E e He) as (-> & _); rewrite last_cons; constructor; reflexivity.
Qed.

(** *** Linearity *)
Record lin_state (al : R) (v1 : rkstate R) (be : R) (v2 v : rkstate R) : Prop := {
  ls_time : final_time v = al * final_time v1 + be * final_time v2;
  ls_state : final_state v = vlin al (final_state v1) be (final_state v2);
  ls_ind : independent_inputs v = vlin al (independent_inputs v1) be (independent_inputs v2)
}.

Lemma scheme_linear al be : ode_linear o ->
  forall hs l v1 v2 v v1' v2' v', Forall shape l -> shape v1 -> shape v2 -> shape v ->
  lin_state al v1 be v2 v ->
  steps_derivative bt o hs l v1 v1' -> steps_derivative bt o hs l v2 v2' -> steps_derivative bt o hs l v v' ->
  lin_state al v1' be v2' v'.
Proof.
  intros Hlin; induction hs as [|h hs IH]; intros [|s l] v1 v2 v v1' v2' v' F S1 S2 S3 L D1 D2 D3;
    cbn in D1, D2, D3; try tauto; [subst; exact L|].
  destruct D1 as (w1 & A1 & B1), D2 as (w2 & A2 & B2), D3 as (w & A3 & B3); inversion F; subst.
  destruct L as [L1 L2 L3].
  assert (K : lin_state al w1 be w2 w).
  { destruct (step_derivative_linear bt o _ _ _ (linearization_point_size o) Hbt eq_refl eq_refl eq_refl Hdsz Hlin
      s v1 v2 v h w1 w2 w al be) as (Q1 & Q2 & Q3 & _); auto; constructor; auto. }
  apply (IH l w1 w2 w); auto.
  - exact (proj1 (compute_step_derivative_shape bt o _ _ _ _ Hdsz H1 S1 A1)).
  - exact (proj1 (compute_step_derivative_shape bt o _ _ _ _ Hdsz H1 S2 A2)).
  - exact (proj1 (compute_step_derivative_shape bt o _ _ _ _ Hdsz H1 S3 A3)).
Qed.

(** *** Transposition *)
Definition spair (w v : rkstate R) : R :=
  final_time w * final_time v + dot (final_state w) (final_state v)
  + dot (independent_inputs w) (independent_inputs v).

Lemma scheme_transposed : ode_transposed o ->
  forall hs l v v' w w', Forall shape l -> shape v -> shape w ->
  (forall i x, dot (nth i (stage_states w) []) x = 0) ->
  steps_derivative bt o hs l v v' -> steps_adjoint bt o hs l w w' ->
  spair w v' = spair w' v /\ shape w' /\ (forall i x, dot (nth i (stage_states w') []) x = 0).
Proof.
  intros Htr; induction hs as [|h hs IH]; intros [|s l] v v' w w' F Sv Sw Z D A; cbn in D, A; try tauto.
  - subst; auto.
  - destruct D as (v1 & D1 & D2), A as (w1 & A1 & A2); inversion F; subst.
    destruct (compute_step_derivative_shape bt o _ _ _ _ Hdsz H1 Sv D1) as [Sv1 _].
    destruct (IH l v1 v' w w1 H2 Sv1 Sw Z D2 A1) as (P & Sw1 & Z1).
    destruct (step_transpose bt o _ _ _ _ Hbt eq_refl eq_refl eq_refl Hdsz Hasz Htr _ _ _ _ _ _ H1 Sv Sw1 D1 A2)
      as (F1 & F2 & F3 & F4 & F5).
    rewrite (rsum_zero _ (fun i => dot (nth i (stage_states w1) []) _)) in F5 by (intros; apply Z1).
    split; [rewrite P; unfold spair; lra|]; split; [exact F3|].
    intros i x; rewrite F4; apply Z1.
Qed.

(** *** As stated in the properties *)
Lemma hand_steps f t y p h0 hs l : is_implicit bt = false -> solves_stage_equation o (state_size o) f ->
  length y = state_size o -> length p = independent_input_size o ->
  steps bt o (starting_scheme bt o t y p h0) hs l ->
  exists z, finalization_scheme (last l (starting_scheme bt o t y p h0))
            = (t + covered hs, z, vzeros (independent_output_size o)) /\
    rk_steps Sg (state_size o) (entry (t_A bt)) (fun k => vnth k (t_b bt)) (fun k => vnth k (t_c bt))
      (fun t y => f t p y) t y hs z.
Proof.
  intros Hi Hf Hy Hp H; pose proof (start_shaped bt o t y p h0 Hy Hp) as Hs.
  destruct (scheme_rk f Hi Hf hs _ l Hs H) as (R1 & R2 & _).
  exists (final_state (last l (starting_scheme bt o t y p h0))); split; [|exact R1].
  unfold finalization_scheme; rewrite R2, (steps_final_outputs bt o Hres (starting_scheme bt o t y p h0) _ _ Hs eq_refl H); reflexivity.
Qed.

Lemma hand_derivative del t y p (h0 : R -> R) dt dy dp hs l v' : 0 < del -> ode_differentiable o ->
  (forall e, Rabs e < del -> length (y e) = state_size o /\ length (p e) = independent_input_size o /\
     steps bt o (starting_scheme bt o (t e) (y e) (p e) (h0 e)) hs (l e)) ->
  length dy = state_size o -> length dp = independent_input_size o ->
  derivable_pt_lim t 0 dt -> curve y dy -> curve p dp ->
  steps_derivative bt o hs (l 0) (starting_scheme_derivative bt o dt dy dp) v' ->
  let fin e := finalization_scheme (last (l e) (starting_scheme bt o (t e) (y e) (p e) (h0 e))) in
  let '(ft, fv, fq) := finalization_scheme v' in
  derivable_pt_lim (fun e => fst (fst (fin e))) 0 ft /\ curve (fun e => snd (fst (fin e))) fv /\
  (forall e, Rabs e < del -> snd (fin e) = vzeros (independent_output_size o)) /\
  fq = vzeros (independent_output_size o).
Proof.
  intros Hdel Hdiff H Hy Hp Ct Cy Cp D; cbn.
  assert (H0 : Rabs 0 < del) by (rewrite Rabs_R0; exact Hdel).
  pose proof (start_derivative_shaped bt o dt dy dp Hy Hp) as Sv.
  assert (Hs : forall e, Rabs e < del -> shape (starting_scheme bt o (t e) (y e) (p e) (h0 e))).
  { intros e He; destruct (H e He) as (A & B & _); apply start_shaped; auto. }
  destruct (scheme_moves del Hdel Hdiff hs (fun e => starting_scheme bt o (t e) (y e) (p e) (h0 e)) l
    (starting_scheme_derivative bt o dt dy dp) v') as [M1 M2 M3]; auto.
  { intros e He; split; [apply Hs, He|apply H, He]. }
  { constructor; cbn; auto. }
  split; [exact M3|]; split; [exact M1|]; split.
  - intros e He; apply (steps_final_outputs bt o Hres (starting_scheme bt o (t e) (y e) (p e) (h0 e)) hs _ (Hs e He) eq_refl); apply H, He.
  - apply (steps_derivative_final_outputs bt o hs (l 0) (starting_scheme_derivative bt o dt dy dp) v'
      (steps_shaped bt o Hres _ _ _ (Hs 0 H0) (proj2 (proj2 (H 0 H0)))) eq_refl D).
Qed.

Lemma hand_linear s0 hs l t1 y1 p1 t2 y2 p2 al be v1 v2 v : ode_linear o -> shape s0 -> steps bt o s0 hs l ->
  length y1 = state_size o -> length p1 = independent_input_size o ->
  length y2 = state_size o -> length p2 = independent_input_size o ->
  steps_derivative bt o hs l (starting_scheme_derivative bt o t1 y1 p1) v1 ->
  steps_derivative bt o hs l (starting_scheme_derivative bt o t2 y2 p2) v2 ->
  steps_derivative bt o hs l
    (starting_scheme_derivative bt o (al * t1 + be * t2) (vlin al y1 be y2) (vlin al p1 be p2)) v ->
  fst (finalization_scheme v)
  = (al * fst (fst (finalization_scheme v1)) + be * fst (fst (finalization_scheme v2)),
     vlin al (snd (fst (finalization_scheme v1))) be (snd (fst (finalization_scheme v2)))).
Proof.
  intros Hlin Hs H A1 A2 A3 A4 D1 D2 D3.
  destruct (scheme_linear al be Hlin hs l _ _ _ v1 v2 v (steps_shaped bt o Hres _ _ _ Hs H)
    (start_derivative_shaped bt o t1 y1 p1 A1 A2) (start_derivative_shaped bt o t2 y2 p2 A3 A4)
    (start_derivative_shaped bt o (al * t1 + be * t2) _ _ (length_vlin _ al y1 be y2 A1 A3) (length_vlin _ al p1 be p2 A2 A4)))
    as [L1 L2 L3]; auto; [constructor; reflexivity|].
  cbn; rewrite L1, L2; reflexivity.
Qed.

Lemma hand_transposed s0 hs l dt dy dp v' wt wy wq w' : ode_transposed o -> shape s0 -> steps bt o s0 hs l ->
  length dy = state_size o -> length dp = independent_input_size o ->
  length wy = state_size o -> length wq = independent_output_size o ->
  steps_derivative bt o hs l (starting_scheme_derivative bt o dt dy dp) v' ->
  steps_adjoint bt o hs l (finalization_scheme_adjoint bt o (wt, wy, wq)) w' ->
  let '(ft, fv, fq) := finalization_scheme v' in
  let '(gt, gy, gp) := starting_scheme_adjoint w' in
  wt * ft + dot wy fv + dot wq fq = gt * dt + dot gy dy + dot gp dp.
Proof.
  intros Htr Hs H A1 A2 A3 A4 D W; cbn.
  pose proof (steps_shaped bt o Hres _ _ _ Hs H) as F.
  destruct (scheme_transposed Htr hs l _ v' _ w' F (start_derivative_shaped bt o dt dy dp A1 A2)
    (finish_adjoint_shaped bt o wt wy wq A3 A4)) as (P & _ & _); auto.
  { intros i x; cbn.
    destruct (Nat.lt_ge_cases i Sg) as [K|K].
    - rewrite (nth_indep _ [] (vzeros (state_size o))) by (rewrite repeat_length; exact K).
      rewrite nth_repeat; apply dot_zeros.
    - rewrite nth_overflow; [reflexivity|]; rewrite repeat_length; exact K. }
  unfold spair in P; cbn in P.
  rewrite dot_zeros in P.
  rewrite (steps_derivative_final_outputs bt o hs l (starting_scheme_derivative bt o dt dy dp) v' F eq_refl D).
  assert (Z : forall x, dot x (vzeros (independent_output_size o)) = 0).
  { intros x; generalize (independent_output_size o); induction x as [|a x IH]; intros [|n]; try reflexivity.
    unfold vzeros in *; simpl; rewrite IH; lra. }
  rewrite Z; lra.
Qed.
End Scheme.
