(** Steps with nearly solved stage equations stay in the box, and their error. *)
From Coq Require Import List Reals Lia Lra Bool Arith.
From Verif Require Import Base Ext M_ODE SpecRK SpecTree SpecOrder SpecConvergence SpecSmooth SpecLocal
  L_Convergence L_Series L_Series2 L_OrderConv L_Local.
Import ListNotations.
Open Scope R_scope.

(** The stages of a step, found one after the other. *)
Definition near_stages (s n : nat) (a : nat -> nat -> R) (c : nat -> R) (f : R -> list R -> list R) (X : box)
    (rho tol t h : R) (y : list R) (k : nat -> list R) : Prop :=
  forall i, (i < s)%nat ->
    inside n X rho (t + c i * h) (vmake n (fun m => vnth m y + h * rsum i (fun j => a i j * vnth m (k j)))) ->
    inside n X 0 (t + c i * h) (rk_stage_value s n a h y k i) /\
    within n tol (k i) (f (t + c i * h) (rk_stage_value s n a h y k i)).
Fixpoint near_steps (s n : nat) (a : nat -> nat -> R) (b c : nat -> R) (f : R -> list R -> list R) (X : box)
    (rho tol t : R) (y : list R) (hs : list R) (z : list R) : Prop :=
  match hs with
  | [] => z = y
  | h :: hs' => exists k y1, near_stages s n a c f X rho tol t h y k /\
      y1 = vmake n (fun m => vnth m y + h * rsum s (fun i => b i * vnth m (k i))) /\
      near_steps s n a b c f X rho tol (t + h) y1 hs' z
  end.

Lemma rsum_part i s u : (i <= s)%nat -> (forall j, 0 <= u j) -> rsum i u <= rsum s u.
Proof.
  intros H Hu; induction H as [|s H IH]; [lra|]; cbn [rsum]; pose proof (Hu s); lra.
Qed.
Lemma inside_near n X r d d' t t' y z : inside n X r t y -> Rabs (t' - t) <= d' -> within n d z y -> d <= d' ->
  inside n X (r - d') t' z.
Proof.
  intros [H1 H2] Ht W Hd; apply Rabs_le_inv in Ht; split; [lra|]; intros m Hm; pose proof (H2 m Hm).
  pose proof (Rabs_le_inv _ _ (W m Hm)); lra.
Qed.

Section Tube.
Variables (n p : nat) (f : R -> list R -> list R) (X : box) (L rho : R).
Hypothesis Hp : (0 < p)%nat.
Hypothesis HL0 : 0 <= L.
Hypothesis HL : lipschitz_in n X L f.
Hypothesis Hrho : 0 < rho <= 1.
Variables (t0 t1 : R) (Y : R -> list R).
Hypothesis Ht : t0 <= t1.
Hypothesis HY : solution n f t0 t1 Y.
Hypothesis HT : forall t, t0 <= t <= t1 -> inside n X (3 * rho) t (Y t).
Hypothesis Hsm : smooth_close rho n p f t0 t1 Y.
Variables (s : nat) (a : nat -> nat -> R) (b c : nat -> R) (eps nu : R).
Hypothesis Hord : order_conditions s a b p eps.
Hypothesis Hrow : row_conditions s a c nu.
Hypothesis Hnu : 0 <= nu.

Lemma box_time : early X <= late X.
Proof. destruct (HT t0 ltac:(lra)) as [H _]; lra. Qed.
Lemma box_state m : (m < n)%nat -> low X m <= high X m.
Proof. intros Hm; destruct (HT t0 ltac:(lra)) as [_ H]; pose proof (H m Hm); lra. Qed.

(** The right hand side is bounded in the box. *)
Lemma box_bound : exists M, 0 <= M /\ forall t y m, length y = n -> inside n X 0 t y -> (m < n)%nat -> Rabs (vnth m (f t y)) <= M.
Proof.
  destruct (family_max 1 n (fun _ m => Rabs (vnth m (f t0 (Y t0))))) as (F & F0 & F1 & _).
  destruct (family_max 1 n (fun _ m => high X m - low X m)) as (W & W0 & W1 & _).
  assert (PT : 0 <= late X - early X) by (pose proof box_time; lra).
  exists (F + L * (late X - early X + W)); split.
  { apply Rplus_le_le_0_compat; [exact F0|]; apply Rmult_le_pos; lra. }
  intros t y m Hy Hi Hm.
  destruct (HT t0 ltac:(lra)) as [I1 I2].
  assert (Hw : within n W y (Y t0)).
  { intros j Hj; pose proof (proj2 Hi j Hj); pose proof (I2 j Hj); pose proof (W1 0%nat j ltac:(lia) Hj) as V; cbv beta in V.
    apply Rabs_le_inv in V; unfold Rabs; destruct (Rcase_abs _); lra. }
  assert (I0 : inside n X 0 t0 (Y t0)) by (apply (inside_less n X (3 * rho)); [lra|apply HT; lra]).
  pose proof (HL t t0 y (Y t0) W Hy (proj1 HY t0) Hi I0 Hw m Hm) as V.
  pose proof (F1 0%nat m ltac:(lia) Hm) as V1; cbv beta in V1; rewrite Rabs_Rabsolu in V1.
  assert (V2 : L * (Rabs (t - t0) + W) <= L * (late X - early X + W)).
  { apply Rmult_le_compat_l; [exact HL0|]; apply Rplus_le_compat_r; destruct Hi as [J1 _].
    unfold Rabs; destruct (Rcase_abs _); lra. }
  pose proof (Rabs_triang (vnth m (f t y) - vnth m (f t0 (Y t0))) (vnth m (f t0 (Y t0)))) as T.
  replace (vnth m (f t y) - vnth m (f t0 (Y t0)) + vnth m (f t0 (Y t0))) with (vnth m (f t y)) in T by ring; lra.
Qed.

(** All stages of a step from next to the solution are found in the box. *)
Lemma stages_found : exists H, 0 < H /\ forall t h y k tol, 0 < h <= H -> length y = n -> inside n X (2 * rho) t y -> 0 <= tol <= 1 ->
  near_stages s n a c f X rho tol t h y k -> forall i, (i < s)%nat ->
  inside n X 0 (t + c i * h) (rk_stage_value s n a h y k i) /\
  within n tol (k i) (f (t + c i * h) (rk_stage_value s n a h y k i)).
Proof.
  destruct box_bound as (M & M0 & HM).
  destruct (row_bound p Hp s a) as (al & A0 & A1).
  destruct (family_max 1 s (fun _ i => Rabs (c i))) as (ga & G0 & G1 & _).
  assert (P1 : 0 <= al * (M + 1)) by (apply Rmult_le_pos; lra).
  set (q := al * (M + 1) + ga + 1).
  assert (Pq : 0 < q) by (unfold q; lra).
  exists (rho / q); split; [apply Rdiv_lt_0_compat; lra|].
  intros t h y k tol Hh Hy Hi Htol Hk.
  assert (Q : h * q <= rho).
  { apply Rle_trans with (rho / q * q); [apply Rmult_le_compat_r; lra|right; field; lra]. }
  assert (Q1 : 0 <= h * (al * (M + 1))) by (apply Rmult_le_pos; lra).
  assert (Q2 : 0 <= h * ga) by (apply Rmult_le_pos; lra).
  assert (Q3 : h * q = h * (al * (M + 1)) + h * ga + h) by (unfold q; ring).
  assert (G : forall i, (i <= s)%nat -> forall j, (j < i)%nat ->
    inside n X 0 (t + c j * h) (rk_stage_value s n a h y k j) /\
    within n tol (k j) (f (t + c j * h) (rk_stage_value s n a h y k j))).
  { induction i as [|i IH]; intros Hs j Hj; [lia|].
    destruct (Nat.eq_dec j i) as [->|Hne]; [|apply IH; lia].
    apply (Hk i ltac:(lia)).
    replace rho with (2 * rho - rho) by ring.
    apply (inside_near n X _ (h * (al * (M + 1))) rho t _ y _ Hi); [| |lra].
    - replace (t + c i * h - t) with (h * c i) by ring; rewrite Rabs_mult, (Rabs_right h) by lra.
      pose proof (G1 0%nat i ltac:(lia) ltac:(lia)) as V; cbv beta in V; rewrite Rabs_Rabsolu in V.
      assert (h * Rabs (c i) <= h * ga) by (apply Rmult_le_compat_l; lra); lra.
    - intros m Hm; rewrite vnth_vmake by exact Hm.
      match goal with |- Rabs ?u <= _ => replace u with (h * rsum i (fun l => a i l * vnth m (k l))) by ring end.
      rewrite Rabs_mult, (Rabs_right h) by lra; apply Rmult_le_compat_l; [lra|].
      apply rsum_weighted; [| |lra].
      + intros l Hl; destruct (IH ltac:(lia) l Hl) as [J1 J2].
        pose proof (HM _ _ m (vmake_length _ _) J1 Hm) as V; pose proof (J2 m Hm) as V2; fold (rk_stage_value s n a h y k l) in V.
        revert V V2; generalize (vnth m (f (t + c l * h) (rk_stage_value s n a h y k l))), (vnth m (k l)); intros u v V V2.
        pose proof (Rabs_triang (v - u) u) as T; replace (v - u + u) with v in T by ring; lra.
      + eapply Rle_trans; [apply (rsum_part i s); [lia|intros; apply Rabs_pos]|apply A1; lia]. }
  intros i Hi'; apply (G s (le_n _) i Hi').
Qed.

Lemma local_steps : exists K H, 1 <= K /\ 0 < H /\
  forall hs hm t y z e tol, t0 <= t -> t + covered hs <= t1 -> Forall (fun h => 0 < h <= hm) hs -> 0 <= hm <= H ->
  length y = n -> 0 <= e -> within n e y (Y t) -> 0 <= tol -> K * (e + hm ^ p + nu + eps + tol) <= rho ->
  near_steps s n a b c f X rho tol t y hs z ->
  within n (K * (e + hm ^ p + nu + eps + tol)) z (Y (t + covered hs)).
Proof.
  destruct Hsm as (D & B & HB & HD).
  set (g := continued n X f).
  pose proof (continued_lipschitz n X box_time box_state f L HL0 HL) as HLg; fold g in HLg.
  assert (HYg : solution n g t0 t1 Y).
  { split; [apply HY|]; intros t m H Hm; unfold g; rewrite (continued_inside n X f).
    - apply HY; assumption.
    - apply HY.
    - apply (inside_less n X (3 * rho)); [lra|apply HT, H]. }
  set (B' := (B + 2 * L + INR p * B) / rho ^ p + B).
  assert (HB' : 0 <= B').
  { unfold B'; apply Rplus_le_le_0_compat; [|exact HB]; apply Rmult_le_pos; [|left; apply Rinv_0_lt_compat, pow_lt; lra].
    assert (0 <= INR p * B) by (apply Rmult_le_pos; [apply pos_INR|exact HB]); lra. }
  assert (HDg : forall t, t0 <= t <= t1 -> smooth_at n p g t (Y t) (D t) B').
  { intros t H; apply (continued_smooth n X box_time box_state f L rho p t (Y t) (D t) B); auto; [apply HY|].
    apply (inside_less n X (3 * rho)); [lra|apply HT, H]. }
  destruct (inexact_step n p g L Hp HL0 HLg t0 t1 Y HYg D B' HB' HDg s a b c eps nu Hord Hrow Hnu) as (C & H1 & C0 & HH1 & HC).
  destruct stages_found as (H2 & HH2 & HF2).
  assert (Pe : 0 <= eps).
  { eapply Rle_trans; [apply Rabs_pos|apply (Hord (Node [])); cbn; lia]. }
  assert (G : forall hs hm t y z e tol, t0 <= t -> t + covered hs <= t1 -> Forall (fun h => 0 < h <= hm) hs -> 0 <= hm <= Rmin H1 H2 ->
    length y = n -> 0 <= e -> within n e y (Y t) -> 0 <= tol <= 1 ->
    (e + covered hs * (C * (hm ^ p + nu + eps + tol))) * exp (C * covered hs) <= rho ->
    near_steps s n a b c f X rho tol t y hs z -> 0 <= covered hs /\
    within n ((e + covered hs * (C * (hm ^ p + nu + eps + tol))) * exp (C * covered hs)) z (Y (t + covered hs))).
  { induction hs as [|h hs IH]; intros hm t y z e tol Q0 Q1 HF Hm Hy He W Htol Hsm' Hr.
    - cbn in *; subst z; split; [lra|]; rewrite Rmult_0_l, Rmult_0_r, exp_0, !Rplus_0_r, Rmult_1_r; exact W.
    - cbn [near_steps covered] in *; destruct Hr as (k & y1 & Hk & Ey & Hr).
      pose proof (Forall_inv HF) as Hh; cbv beta in Hh; apply Forall_inv_tail in HF.
      pose proof (Rmin_l H1 H2); pose proof (Rmin_r H1 H2).
      assert (Hc : 0 <= covered hs).
      { clear -HF; induction HF as [|x l Hx HF IHF]; cbn; lra. }
      pose proof (pow_le hm p (proj1 Hm)) as Php; pose proof (pow_le h p ltac:(lra)) as Php'.
      set (G := C * (hm ^ p + nu + eps + tol)) in *.
      assert (PG : 0 <= G) by (apply Rmult_le_pos; lra).
      assert (PC : 0 <= C * h) by (apply Rmult_le_pos; lra).
      assert (PhG : 0 <= h * G) by (apply Rmult_le_pos; lra).
      assert (He' : 0 <= (1 + C * h) * e + h * G) by (apply Rplus_le_le_0_compat; [apply Rmult_le_pos|]; lra).
      set (S0 := covered hs) in *.
      assert (HS : 0 <= S0 * G) by (apply Rmult_le_pos; lra).
      assert (E1 : 1 + C * h <= exp (C * h)).
      { destruct (Req_dec (C * h) 0) as [E|Hne]; [rewrite E, exp_0; lra|]; left; apply exp_ineq1; lra. }
      assert (E2 : 1 <= exp (C * h)) by lra.
      assert (E3 : 1 <= exp (C * S0)).
      { assert (0 <= C * S0) by (apply Rmult_le_pos; lra).
        destruct (Req_dec (C * S0) 0) as [E|Hne]; [rewrite E, exp_0; lra|]; pose proof (exp_ineq1 (C * S0)); lra. }
      assert (Grow : ((1 + C * h) * e + h * G + S0 * G) * exp (C * S0) <= (e + (h + S0) * G) * exp (C * (h + S0))).
      { replace (C * (h + S0)) with (C * h + C * S0) by ring; rewrite exp_plus.
        rewrite <- (Rmult_assoc _ (exp (C * h))).
        apply Rmult_le_compat_r; [left; apply exp_pos|].
        replace ((e + (h + S0) * G) * exp (C * h)) with (exp (C * h) * e + exp (C * h) * (h * G) + exp (C * h) * (S0 * G)) by ring.
        assert ((1 + C * h) * e <= exp (C * h) * e) by (apply Rmult_le_compat_r; assumption).
        assert (1 * (h * G) <= exp (C * h) * (h * G)) by (apply Rmult_le_compat_r; assumption).
        assert (1 * (S0 * G) <= exp (C * h) * (S0 * G)) by (apply Rmult_le_compat_r; assumption).
        lra. }
      assert (Ee : e <= rho).
      { eapply Rle_trans; [|exact Hsm']; eapply Rle_trans; [|exact Grow].
        assert (0 <= C * h * e) by (apply Rmult_le_pos; assumption).
        rewrite <- (Rmult_1_r e) at 1; apply Rmult_le_compat; lra. }
      assert (Hin : inside n X (2 * rho) t y).
      { replace (2 * rho) with (3 * rho - rho) by ring.
        apply (inside_near n X _ e rho t _ (Y t)); [apply HT; lra| |exact W|exact Ee].
        rewrite Rminus_eq_0, Rabs_R0; lra. }
      pose proof (HF2 t h y k tol ltac:(lra) Hy Hin Htol Hk) as Hall.
      assert (Hk' : forall i, (i < s)%nat -> within n tol (k i) (g (t + c i * h) (rk_stage_value s n a h y k i))).
      { intros i Hi; destruct (Hall i Hi) as [J1 J2]; unfold g; rewrite (continued_inside n X f); [exact J2|apply vmake_length|exact J1]. }
      pose proof (HC t h y k y1 e tol Q0 ltac:(lra) ltac:(lra) Hy (proj1 Htol) Hk' Ey He W) as S.
      assert (S' : within n ((1 + C * h) * e + h * G) y1 (Y (t + h))).
      { intros m Hm'; eapply Rle_trans; [apply S, Hm'|].
        replace ((1 + C * h) * e + h * G) with (e + h * (C * (hm ^ p + e + nu + eps + tol))) by (unfold G; ring).
        apply Rplus_le_compat_l, Rmult_le_compat_l; [lra|]; apply Rmult_le_compat_l; [exact C0|].
        assert (h ^ p <= hm ^ p) by (apply pow_incr; lra); lra. }
      assert (Hy1 : length y1 = n) by (rewrite Ey; apply vmake_length).
      destruct (IH hm (t + h) y1 z _ tol ltac:(lra) ltac:(unfold S0 in *; lra) HF Hm Hy1 He' S' Htol) as [_ R]; [|exact Hr|].
      { fold G; eapply Rle_trans; [exact Grow|exact Hsm']. }
      fold G in R; split; [lra|].
      replace (t + (h + S0)) with (t + h + S0) by ring.
      intros m Hm'; eapply Rle_trans; [apply R, Hm'|exact Grow]. }
  set (TT := t1 - t0).
  assert (PT : 0 <= TT) by (unfold TT; lra).
  assert (PTC : 0 <= TT * C) by (apply Rmult_le_pos; assumption).
  assert (E1 : 1 <= exp (C * TT)).
  { assert (0 <= C * TT) by (apply Rmult_le_pos; assumption).
    destruct (Req_dec (C * TT) 0) as [E|Hne]; [rewrite E, exp_0; lra|]; pose proof (exp_ineq1 (C * TT)); lra. }
  exists ((1 + TT * C) * exp (C * TT)), (Rmin H1 H2).
  assert (K1 : 1 <= (1 + TT * C) * exp (C * TT)).
  { replace 1 with (1 * 1) at 1 by ring; apply Rmult_le_compat; lra. }
  split; [exact K1|]; split; [apply Rmin_pos; lra|].
  intros hs hm t y z e tol Q0 Q1 HF Hm Hy He W Htol Hsmall Hr.
  pose proof (pow_le hm p (proj1 Hm)) as Php.
  assert (Hc : 0 <= covered hs).
  { clear -HF; induction HF as [|x l Hx HF IHF]; cbn; lra. }
  assert (Q : covered hs <= TT) by (unfold TT; lra).
  assert (P1 : 0 <= C * (hm ^ p + nu + eps + tol)) by (apply Rmult_le_pos; lra).
  assert (P2 : covered hs * (C * (hm ^ p + nu + eps + tol)) <= TT * (C * (hm ^ p + nu + eps + tol))) by (apply Rmult_le_compat_r; assumption).
  assert (P3 : exp (C * covered hs) <= exp (C * TT)).
  { destruct (Req_dec (C * covered hs) (C * TT)) as [->|Hne]; [lra|]; left; apply exp_increasing.
    assert (C * covered hs <= C * TT) by (apply Rmult_le_compat_l; assumption); lra. }
  assert (P5 : 0 <= covered hs * (C * (hm ^ p + nu + eps + tol))) by (apply Rmult_le_pos; assumption).
  assert (Fin : (e + covered hs * (C * (hm ^ p + nu + eps + tol))) * exp (C * covered hs)
    <= (1 + TT * C) * exp (C * TT) * (e + hm ^ p + nu + eps + tol)).
  { replace ((1 + TT * C) * exp (C * TT) * (e + hm ^ p + nu + eps + tol)) with ((1 + TT * C) * (e + hm ^ p + nu + eps + tol) * exp (C * TT)) by ring.
    apply Rmult_le_compat; [lra|left; apply exp_pos| |exact P3].
    replace ((1 + TT * C) * (e + hm ^ p + nu + eps + tol)) with (e + (hm ^ p + nu + eps + tol) + TT * (C * (hm ^ p + nu + eps + tol)) + TT * C * e) by ring.
    assert (0 <= TT * C * e) by (apply Rmult_le_pos; assumption); lra. }
  assert (Ht1 : tol <= 1).
  { assert (1 * (e + hm ^ p + nu + eps + tol) <= (1 + TT * C) * exp (C * TT) * (e + hm ^ p + nu + eps + tol)) by (apply Rmult_le_compat_r; lra); lra. }
  destruct (G hs hm t y z e tol Q0 Q1 HF Hm Hy He W (conj Htol Ht1) ltac:(lra) Hr) as [_ R].
  intros m Hm'; eapply Rle_trans; [apply R, Hm'|exact Fin].
Qed.
End Tube.
