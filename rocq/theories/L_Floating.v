(** The error of a step whose times, sums and stage solves are slightly wrong. *)
From Coq Require Import List Reals Lia Lra Bool Arith.
From Verif Require Import Base Ext M_ODE SpecRK SpecTree SpecOrder SpecConvergence SpecSmooth SpecLocal
  L_Convergence L_Series L_Series2 L_OrderConv L_Local L_Local2.
Import ListNotations.
Open Scope R_scope.

Lemma within_trans n r r' x y z : within n r x y -> within n r' y z -> within n (r + r') x z.
Proof.
  intros H H' m Hm; pose proof (H m Hm); pose proof (H' m Hm).
  replace (vnth m x - vnth m z) with ((vnth m x - vnth m y) + (vnth m y - vnth m z)) by ring.
  pose proof (Rabs_triang (vnth m x - vnth m y) (vnth m y - vnth m z)); lra.
Qed.
Lemma within_weaken n r r' x y : r <= r' -> within n r x y -> within n r' x y.
Proof. intros H W m Hm; pose proof (W m Hm); lra. Qed.
Lemma within_sym n r x y : within n r x y -> within n r y x.
Proof. intros W m Hm; rewrite Rabs_minus_sym; auto. Qed.

Section Perturbed.
Variables (n p : nat) (f : R -> list R -> list R) (X : box) (L rho : R).
Hypothesis Hp : (0 < p)%nat.
Hypothesis HL0 : 0 <= L.
Hypothesis HL : lipschitz_in n X L f.
Hypothesis Hrho : 0 < rho <= 1.
Variables (t0 t1 : R) (Y : R -> list R).
Hypothesis Ht : t0 <= t1.
Hypothesis HY : solution n f t0 t1 Y.
Hypothesis HT : forall t, t0 <= t <= t1 -> inside n X (3 * rho) t (Y t).
Hypothesis Hsm : smooth_close rho n p f t0 t1 Y.
Variables (s : nat) (a : nat -> nat -> R) (b c : nat -> R) (eps nu : R).
Hypothesis Hord : order_conditions s a b p eps.
Hypothesis Hrow : row_conditions s a c nu.
Hypothesis Hnu : 0 <= nu.
Hypothesis Hup : forall i j, (i < j < s)%nat -> a i j = 0.

(** The stage value from rounded sums [acc]. *)
Definition found_value (h : R) (y acc k : list R) (d : R) : list R :=
  vmake n (fun m => vnth m y + h * (vnth m acc + d * vnth m k)).

Lemma perturbed_step : exists C H M, 0 <= C /\ 0 < H <= 1 /\ 1 <= M /\
  forall t h y e tol D dl (k acc : nat -> list R) (ti d : nat -> R) (good : nat -> Prop),
  t0 <= t -> 0 < h <= H -> t + h <= t1 -> length y = n -> 0 <= e <= rho -> within n e y (Y t) ->
  0 <= tol <= 1 -> 0 <= D <= rho / 2 -> 0 <= dl <= 1 -> (forall i, (i < s)%nat -> Rabs (d i - a i i) * M <= dl) ->
  (forall i, (i < s)%nat -> (forall j, (j < i)%nat -> good j /\ forall m, (m < n)%nat -> Rabs (vnth m (k j)) <= M) ->
     Rabs (ti i - (t + c i * h)) <= D /\
     within n dl (acc i) (vmake n (fun m => rsum i (fun j => a i j * vnth m (k j)))) /\
     (inside n X rho (ti i) y -> inside n X rho (ti i) (vmake n (fun m => vnth m y + h * vnth m (acc i))) ->
        good i /\ inside n X 0 (ti i) (found_value h y (acc i) (k i) (d i)) /\
        within n tol (k i) (f (ti i) (found_value h y (acc i) (k i) (d i))))) ->
  (forall i, (i < s)%nat -> good i /\ forall m, (m < n)%nat -> Rabs (vnth m (k i)) <= M) /\
  forall y1, within n dl y1 (vmake n (fun m => vnth m y + h * rsum s (fun i => b i * vnth m (k i)))) ->
  within n (e + h * (C * (h ^ p + e + nu + eps + tol + D + dl)) + dl) y1 (Y (t + h)).
Proof.
  destruct Hsm as (Df & B & HB & HD).
  set (g := continued n X f).
  pose proof (box_time n X rho Hrho t0 t1 Y Ht HT) as BT.
  pose proof (box_state n X rho Hrho t0 t1 Y Ht HT) as BS.
  pose proof (continued_lipschitz n X BT BS f L HL0 HL) as HLg; fold g in HLg.
  assert (HYg : solution n g t0 t1 Y).
  { split; [apply HY|]; intros t m H Hm; unfold g; rewrite (continued_inside n X f).
    - apply HY; assumption.
    - apply HY.
    - apply (inside_less n X (3 * rho)); [lra|apply HT, H]. }
  set (B' := (B + 2 * L + INR p * B) / rho ^ p + B).
  assert (HB' : 0 <= B').
  { unfold B'; apply Rplus_le_le_0_compat; [|exact HB]; apply Rmult_le_pos; [|left; apply Rinv_0_lt_compat, pow_lt; lra].
    assert (0 <= INR p * B) by (apply Rmult_le_pos; [apply pos_INR|exact HB]); lra. }
  assert (HDg : forall t, t0 <= t <= t1 -> smooth_at n p g t (Y t) (Df t) B').
  { intros t H; apply (continued_smooth n X BT BS f L rho p t (Y t) (Df t) B); auto; [apply HY|].
    apply (inside_less n X (3 * rho)); [lra|apply HT, H]. }
  destruct (inexact_step n p g L Hp HL0 HLg t0 t1 Y HYg Df B' HB' HDg s a b c eps nu Hord Hrow Hnu) as (C & H1 & C0 & HH1 & HC).
  destruct (box_bound n p f X L rho Hp HL0 HL Hrho t0 t1 Y Ht HY HT) as (M & M0 & HM).
  destruct (row_bound p Hp s a) as (al & A0 & A1).
  destruct (family_max 1 s (fun _ i => Rabs (c i))) as (ga & G0 & G1 & _).
  assert (P1 : 0 <= al * (M + 1)) by (apply Rmult_le_pos; lra).
  set (q := al * (M + 1) + ga + 1).
  assert (Pq : 0 < q) by (unfold q; lra).
  assert (PHH : 0 < rho / 2 / q) by (apply Rdiv_lt_0_compat; lra).
  assert (Pe : 0 <= eps).
  { eapply Rle_trans; [apply Rabs_pos|apply (Hord (Node [])); cbn; lia]. }
  exists (C * (1 + 2 * L)), (Rmin H1 (rho / 2 / q)), (M + 1).
  split; [apply Rmult_le_pos; lra|]; split; [split; [apply Rmin_pos; lra|eapply Rle_trans; [apply Rmin_l|lra]]|].
  split; [lra|].
  intros t h y e tol D dl k acc ti d good Q0 Hh Q1 Hy He W Htol HDD Hdl Hdg Hst.
  pose proof (Rmin_l H1 (rho / 2 / q)) as Hm1; pose proof (Rmin_r H1 (rho / 2 / q)) as Hm2.
  assert (Q : h * q <= rho / 2).
  { apply Rle_trans with (rho / 2 / q * q); [apply Rmult_le_compat_r; lra|right; field; lra]. }
  assert (Qa : 0 <= h * (al * (M + 1))) by (apply Rmult_le_pos; lra).
  assert (Qb : 0 <= h * ga) by (apply Rmult_le_pos; lra).
  assert (Qc : h * q = h * (al * (M + 1)) + h * ga + h) by (unfold q; ring).
  assert (Hin : inside n X (2 * rho) t y).
  { replace (2 * rho) with (3 * rho - rho) by ring.
    apply (inside_near n X _ e rho t _ (Y t)); [apply HT; lra| |exact W|lra].
    rewrite Rminus_eq_0, Rabs_R0; lra. }
  assert (G : forall i, (i <= s)%nat -> forall j, (j < i)%nat ->
    good j /\ (forall m, (m < n)%nat -> Rabs (vnth m (k j)) <= M + 1) /\
    within n (tol + L * (D + 2 * dl)) (k j) (g (t + c j * h) (rk_stage_value s n a h y k j))).
  { induction i as [|i IH]; intros Hs j Hj; [lia|].
    destruct (Nat.eq_dec j i) as [->|Hne]; [|apply IH; lia].
    destruct (Hst i ltac:(lia)) as (S1 & S2 & S3).
    { intros l Hl; destruct (IH ltac:(lia) l Hl) as (J1 & J2 & _); auto. }
    assert (Hacc : forall m, (m < n)%nat -> Rabs (vnth m (acc i) - rsum i (fun l => a i l * vnth m (k l))) <= dl).
    { intros m Hm; pose proof (S2 m Hm) as V; rewrite vnth_vmake in V by exact Hm; exact V. }
    assert (Hti : Rabs (ti i - t) <= rho).
    { replace (ti i - t) with ((ti i - (t + c i * h)) + h * c i) by ring.
      eapply Rle_trans; [apply Rabs_triang|]; rewrite Rabs_mult, (Rabs_right h) by lra.
      pose proof (G1 0%nat i ltac:(lia) ltac:(lia)) as V; cbv beta in V; rewrite Rabs_Rabsolu in V.
      assert (h * Rabs (c i) <= h * ga) by (apply Rmult_le_compat_l; lra); lra. }
    destruct S3 as (S3 & S4 & S5).
    { replace rho with (2 * rho - rho) at 1 by ring.
      apply (inside_near n X _ 0 rho t _ y _ Hin); [exact Hti| |lra].
      intros m Hm; rewrite Rminus_eq_0, Rabs_R0; lra. }
    { replace rho with (2 * rho - rho) at 1 by ring.
      apply (inside_near n X _ (h * (al * (M + 1)) + h) rho t _ y _ Hin); [exact Hti| |lra].
      { intros m Hm; rewrite vnth_vmake by exact Hm.
        match goal with |- Rabs ?u <= _ => replace u with (h * rsum i (fun l => a i l * vnth m (k l)) + h * (vnth m (acc i) - rsum i (fun l => a i l * vnth m (k l)))) by ring end.
        eapply Rle_trans; [apply Rabs_triang|]; rewrite !Rabs_mult, (Rabs_right h) by lra.
        apply Rplus_le_compat.
        + apply Rmult_le_compat_l; [lra|].
          apply rsum_weighted; [| |lra].
          * intros l Hl; destruct (IH ltac:(lia) l Hl) as (J1 & J2 & _); apply J2, Hm.
          * eapply Rle_trans; [apply (rsum_part i s); [lia|intros; apply Rabs_pos]|apply A1; lia].
        + rewrite <- (Rmult_1_r h) at 2; apply Rmult_le_compat_l; [lra|]; pose proof (Hacc m Hm); lra. } }
    assert (Kb : forall m, (m < n)%nat -> Rabs (vnth m (k i)) <= M + 1).
    { intros m Hm; pose proof (HM _ _ m (vmake_length _ _) S4 Hm) as V; pose proof (S5 m Hm) as V2.
      fold (found_value h y (acc i) (k i) (d i)) in V.
      revert V V2; generalize (vnth m (f (ti i) (found_value h y (acc i) (k i) (d i)))), (vnth m (k i)); intros u v V V2.
      pose proof (Rabs_triang (v - u) u) as T; replace (v - u + u) with v in T by ring; lra. }
    split; [exact S3|]; split; [exact Kb|].
    { eapply within_trans; [exact S5|].
      rewrite <- (continued_inside n X f (ti i)) by (try apply vmake_length; exact S4); fold g.
      eapply within_weaken; [|apply (HLg (ti i) (t + c i * h) (found_value h y (acc i) (k i) (d i)) (rk_stage_value s n a h y k i) (h * (2 * dl))); try apply vmake_length].
      + apply Rmult_le_compat_l; [exact HL0|].
        assert (h * (2 * dl) <= 1 * (2 * dl)) by (apply Rmult_le_compat_r; lra); lra.
      + intros m Hm; unfold found_value, rk_stage_value; rewrite !vnth_vmake by exact Hm.
        rewrite (L_Vec.rsum_trunc s (S i) (fun j => a i j * vnth m (k j))) by (try lia; intros j Hj'; rewrite Hup by lia; ring).
        cbn [rsum].
        match goal with |- Rabs ?u <= _ => replace u with (h * ((vnth m (acc i) - rsum i (fun l => a i l * vnth m (k l))) + (d i - a i i) * vnth m (k i))) by ring end.
        rewrite Rabs_mult, (Rabs_right h) by lra; apply Rmult_le_compat_l; [lra|].
        eapply Rle_trans; [apply Rabs_triang|]; replace (2 * dl) with (dl + dl) by ring; apply Rplus_le_compat; [apply Hacc, Hm|].
        eapply Rle_trans; [|apply (Hdg i); lia]; rewrite Rabs_mult; apply Rmult_le_compat_l; [apply Rabs_pos|apply Kb, Hm]. } }
  assert (G' := fun i Hi => G s (le_n _) i Hi).
  split; [intros i Hi; destruct (G' i Hi) as (J1 & J2 & _); auto|].
  intros y1 Hy1.
  assert (PD : 0 <= L * (D + 2 * dl)) by (apply Rmult_le_pos; lra).
  pose proof (HC t h y k _ e (tol + L * (D + 2 * dl)) Q0 ltac:(lra) ltac:(lra) Hy ltac:(lra)
    (fun i Hi => proj2 (proj2 (G' i Hi))) eq_refl ltac:(lra) W) as S.
  pose proof (within_trans _ _ _ _ _ _ Hy1 S) as S'.
  eapply within_weaken; [|exact S'].
  pose proof (pow_le h p ltac:(lra)) as Php.
  assert (E : C * (h ^ p + e + nu + eps + (tol + L * (D + 2 * dl))) <= C * (1 + 2 * L) * (h ^ p + e + nu + eps + tol + D + dl)).
  { rewrite Rmult_assoc; apply Rmult_le_compat_l; [exact C0|].
    replace ((1 + 2 * L) * (h ^ p + e + nu + eps + tol + D + dl)) with
      (h ^ p + e + nu + eps + tol + D + dl + L * (2 * (h ^ p + e + nu + eps + tol) + D) + L * (D + 2 * dl)) by ring.
    assert (0 <= L * (2 * (h ^ p + e + nu + eps + tol) + D)) by (apply Rmult_le_pos; lra); lra. }
  pose proof (Rmult_le_compat_l h _ _ ltac:(lra) E); lra.
Qed.
End Perturbed.
