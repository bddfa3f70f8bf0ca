(** Forward products are runs of the paired system. *)
From Coq Require Import List Reals Lia Lra Bool Arith QArith Qreals.
From Verif Require Import Base Ext M_Tableau M_State M_ODE M_Step M_Controller M_Measure M_Integrator M_Tableaux M_TableauxInit
  SpecRK SpecDeriv SpecShape SpecRun SpecRevolve SpecTree SpecOrder SpecNodes SpecConvergence SpecSmooth SpecLocal SpecSensitivity
  L_Vec L_Step L_Tableau L_StepProps L_Iter L_Run L_Log L_RunProps L_Whole L_WholeR L_Adjoint L_Generic L_Convergence L_RunConvergence L_Order L_Rows L_Series L_OrderConv L_RunOrder
  L_Local L_Local2 L_Local3.
Import ListNotations.
Open Scope nat_scope.
Open Scope R_scope.
Local Open Scope list_scope.

Lemma vnth_left m (y d : list R) : (m < length y)%nat -> vnth m (y ++ d) = vnth m y.
Proof. intros H. unfold vnth. now apply app_nth1. Qed.
Lemma vnth_right m (y d : list R) : vnth (length y + m) (y ++ d) = vnth m d.
Proof. unfold vnth. rewrite app_nth2 by lia. f_equal. lia. Qed.
Lemma join_eq n (y d : list R) g : length y = n -> length d = n ->
  (forall m, (m < n)%nat -> g m = vnth m y) -> (forall m, (m < n)%nat -> g (n + m)%nat = vnth m d) -> vmake (n + n) g = y ++ d.
Proof.
  intros Ly Ld H1 H2. apply (vec_eq (n + n)); [apply length_vmake|rewrite app_length; lia|].
  intros m Hm. rewrite vnth_vmake by exact Hm. destruct (Nat.lt_ge_cases m n) as [Hl|Hg].
  - rewrite vnth_left by lia. auto.
  - replace m with (n + (m - n))%nat by lia. transitivity (vnth (m - n) d); [apply H2; lia|]. now rewrite <- (vnth_right (m - n) y d), Ly.
Qed.

Section Step.
Variables (bt : tableau R) (o : ode R) (n ni no nl : nat).
Variables (f : R -> list R -> list R) (g : R -> list R -> list R -> list R) (xi : list R) (dt : R) (dxi : list R) (X : box) (rho H tol : R).
Hypothesis Hbt : tableau_wf bt.
Hypothesis Himp : is_implicit bt = false.
Hypothesis Hn : state_size o = n.
Hypothesis Hno : independent_output_size o = no.
Hypothesis Hnl : linearization_point_size o = nl.
Hypothesis Hrs : result_sizes o.
Hypothesis Hds : derivative_sizes o.
Hypothesis Hf : forall i, (i < t_stages bt)%nat -> nearly_differentiates o n f g xi dt dxi X rho H tol (entry (t_A bt) i i).

Notation pair s v i := (nth i (stage_updates s) [] ++ nth i (stage_updates v) []).

Lemma pair_step s s' s1 v v' h :
  shaped (t_stages bt) n ni no nl s -> independent_inputs s = xi -> compute_step bt o s h = Ok s' ->
  linearization_points s1 = linearization_points s' -> stage_independent_outputs s1 = stage_independent_outputs s' ->
  shaped (t_stages bt) n ni no nl v -> independent_inputs v = dxi -> final_time v = dt -> 0 < h <= H ->
  compute_step_derivative bt o s1 v h = Ok v' ->
  near_stages (t_stages bt) (n + n) (entry (t_A bt)) (nodes bt) (paired n f g) X rho tol (final_time s) h (final_state s ++ final_state v)
    (fun i => pair s' v' i) /\
  final_state s' ++ final_state v' = vmake (n + n) (fun m => vnth m (final_state s ++ final_state v) +
    h * rsum (t_stages bt) (fun i => vnth i (t_b bt) * vnth m (pair s' v' i))).
Proof.
  intros Hs Hxi E El Eo Hv Hdxi Hdt Hh Ed.
  pose proof (compute_step_facts bt o n ni no nl Hbt Hn Hno Hnl Hrs s h s' Hs E) as F.
  destruct F as [[Hshape Hy Hp Ht Hh' Htimes Hstage] Ffin Ftime _ _].
  pose proof (compute_step_derivative_facts bt o n ni no nl Hbt Hn Hno Hds s1 v h v' Hv
    ltac:(rewrite Eo; apply Hshape) ltac:(rewrite Eo; apply Hshape) Ed) as [[Dshape Dy Dp Dt Dstage] Dfin Dtime].
  rewrite El in Dstage.
  pose proof (sh_su _ _ _ _ _ _ Hshape) as Hsu; pose proof (sh_sur _ _ _ _ _ _ Hshape) as Hsur.
  pose proof (sh_su _ _ _ _ _ _ Dshape) as Dsu; pose proof (sh_sur _ _ _ _ _ _ Dshape) as Dsur.
  pose proof (sh_final _ _ _ _ _ _ Hs) as Hfs. pose proof (sh_final _ _ _ _ _ _ Hv) as Hfv.
  pose proof (is_implicit_false_no_upper bt Himp) as Hup.
  assert (Lk : forall i, (i < t_stages bt)%nat -> length (nth i (stage_updates s') []) = n).
  { intros i Hi. rewrite Forall_forall in Hsur. apply Hsur, nth_In. now rewrite Hsu. }
  assert (Ld : forall i, (i < t_stages bt)%nat -> length (nth i (stage_updates v') []) = n).
  { intros i Hi. rewrite Forall_forall in Dsur. apply Dsur, nth_In. now rewrite Dsu. }
  assert (Sl : forall u a k m, (k <= t_stages bt)%nat -> (m < n)%nat ->
    rsum k (fun j => a j * vnth m (pair s' v' j)) = rsum k (fun j => a j * vnth m (nth j (stage_updates s') [])) /\
    rsum k (fun j => a j * vnth (n + m) (pair s' v' j)) = rsum k (fun j => a j * vnth m (nth j (stage_updates v') [])) /\ u = u :> R).
  { intros u a k m Hk Hm. split; [|split; [|reflexivity]]; apply L_Vec.rsum_ext; intros j Hj; f_equal.
    - apply vnth_left. rewrite Lk by lia. exact Hm.
    - now rewrite <- (vnth_right m (nth j (stage_updates s') [])), Lk by lia. }
  assert (Fl : forall m, (m < n)%nat -> vnth m (final_state s ++ final_state v) = vnth m (final_state s)) by (intros; apply vnth_left; lia).
  assert (Fr : forall m, vnth (n + m) (final_state s ++ final_state v) = vnth m (final_state v)) by (intros; now rewrite <- (vnth_right m (final_state s)), Hfs).
  split.
  - intros i Hi Hin; pose proof (Hstage i Hi) as Ei; pose proof (Dstage i Hi) as Di.
    destruct (accumulate_stages_spec bt n i (stage_updates s') Hbt Hi Hsu Hsur) as [Hacc1 Hacc2].
    destruct (accumulate_stages_spec bt n i (stage_updates v') Hbt Hi Dsu Dsur) as [Dacc1 Dacc2].
    epose proof (fun A1 A2 A3 A4 A5 A6 A7 K => Hf i Hi _ _ _ _ _ _ A1 A2 A3 A4 A5 A6 A7 Hh K Ei Di) as G.
    unfold known_part, stage_value in G; cbn [time independent_input M_ODE.step_input stage_input stage_update] in G.
    assert (Q : rk_stage_value (t_stages bt) (n + n) (entry (t_A bt)) h (final_state s ++ final_state v) (fun i => pair s' v' i) i
      = vmake n (fun m => vnth m (final_state s) + h * (vnth m (accumulate_stages bt i (stage_updates s'))
               + entry (t_A bt) i i * vnth m (nth i (stage_updates s') []))) ++
        vmake n (fun m => vnth m (final_state v) + h * (vnth m (accumulate_stages bt i (stage_updates v'))
               + entry (t_A bt) i i * vnth m (nth i (stage_updates v') [])))).
    { unfold rk_stage_value. apply join_eq; try apply length_vmake; intros m Hm; rewrite vnth_vmake by exact Hm.
      - rewrite Fl by exact Hm. f_equal. f_equal. rewrite (proj1 (Sl 0 _ _ m (le_n _) Hm)), Hacc2.
        rewrite (rsum_trunc (t_stages bt) (S i)) by (try lia; intros j Hj; rewrite Hup by lia; lra); reflexivity.
      - rewrite Fr. f_equal. f_equal. rewrite (proj1 (proj2 (Sl 0 _ _ m (le_n _) Hm))), Dacc2.
        rewrite (rsum_trunc (t_stages bt) (S i)) by (try lia; intros j Hj; rewrite Hup by lia; lra); reflexivity. }
    replace (final_time s + h * vnth i (t_c bt)) with (final_time s + vnth i (t_c bt) * h) in G by ring.
    rewrite Q.
    destruct G as (G1 & G2 & G3); [exact Hfs|exact Hacc1|exact Hxi|exact Hfv|exact Dacc1|exact Hdxi|exact Hdt| |].
    + match goal with |- inside _ _ _ _ ?l => match type of Hin with inside _ _ _ _ ?l' => replace l with l' end end; [exact Hin|].
      apply join_eq; try apply length_vmake; intros m Hm; rewrite vnth_vmake by exact Hm.
      * rewrite Fl, (proj1 (Sl 0 _ i m ltac:(lia) Hm)), Hacc2 by exact Hm. reflexivity.
      * rewrite Fr, (proj1 (proj2 (Sl 0 _ i m ltac:(lia) Hm))), Dacc2. reflexivity.
    + split; [exact G1|]. intros m Hm. unfold paired. rewrite firstn_app, skipn_app, length_vmake, Nat.sub_diag, firstn_O, skipn_O, app_nil_r.
      rewrite firstn_all2, skipn_all2 by (rewrite length_vmake; lia). cbn [app].
      destruct (Nat.lt_ge_cases m n) as [Hl|Hg].
      * rewrite (vnth_left m (nth i (stage_updates s') [])) by (rewrite Lk; auto). rewrite (vnth_left m (vmake n _)) by (rewrite length_vmake; exact Hl).
        rewrite vnth_vmake by exact Hl. apply G2, Hl.
      * replace m with (n + (m - n))%nat by lia.
        replace (n + (m - n))%nat with (length (nth i (stage_updates s') []) + (m - n))%nat at 1 by (rewrite Lk; auto). rewrite vnth_right.
        match goal with |- context [vnth (n + (m - n)) (vmake n ?a ++ ?b)] =>
          replace (vnth (n + (m - n)) (vmake n a ++ b)) with (vnth (m - n) b) by
            (symmetry; rewrite <- (length_vmake n a) at 1; apply vnth_right) end.
        rewrite vnth_vmake by lia. apply G3. lia.
  - destruct (accumulate_step_spec bt n h (final_state s) (stage_updates s') Hbt Hfs Hsu Hsur) as [Hl Hvv].
    destruct (accumulate_step_spec bt n h (final_state v) (stage_updates v') Hbt Hfv Dsu Dsur) as [Hl' Hvv'].
    symmetry. rewrite Ffin, Dfin. apply join_eq; auto; intros m Hm.
    + rewrite Fl, (proj1 (Sl 0 _ _ m (le_n _) Hm)), Hvv by exact Hm. reflexivity.
    + rewrite Fr, (proj1 (proj2 (Sl 0 _ _ m (le_n _) Hm))), Hvv'. reflexivity.
Qed.
End Step.
