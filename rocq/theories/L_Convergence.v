(** Error estimate for Runge-Kutta steps. *)
From Coq Require Import List Reals Lia Lra.
From Verif Require Import SpecRK SpecConvergence.
Import ListNotations.
Open Scope R_scope.

(** *** Sums *)
Lemma rsum_ext n f g : (forall i, (i < n)%nat -> f i = g i) -> rsum n f = rsum n g.
Proof. induction n as [|n IH]; intros H; simpl; [reflexivity|]; rewrite IH, H by auto with arith; reflexivity. Qed.
Lemma rsum_le n f g : (forall i, (i < n)%nat -> f i <= g i) -> rsum n f <= rsum n g.
Proof. induction n as [|n IH]; intros H; simpl; [lra|]; apply Rplus_le_compat; auto with arith. Qed.
Lemma rsum_abs n f : Rabs (rsum n f) <= rsum n (fun i => Rabs (f i)).
Proof.
  induction n as [|n IH]; simpl; [rewrite Rabs_R0; lra|].
  eapply Rle_trans; [apply Rabs_triang|lra].
Qed.
Lemma rsum_scale n c f : rsum n (fun i => f i * c) = rsum n f * c.
Proof. induction n as [|n IH]; simpl; [ring|]; rewrite IH; ring. Qed.
Lemma rsum_sub n f g : rsum n (fun i => f i - g i) = rsum n f - rsum n g.
Proof. induction n as [|n IH]; simpl; [ring|]; rewrite IH; ring. Qed.
Lemma rsum_nonneg n f : (forall i, (i < n)%nat -> 0 <= f i) -> 0 <= rsum n f.
Proof. induction n as [|n IH]; intros H; simpl; [lra|]; apply Rplus_le_le_0_compat; auto with arith. Qed.

(** A weighted sum of numbers bounded by [r]. *)
Lemma rsum_weighted n w x r W : (forall i, (i < n)%nat -> Rabs (x i) <= r) ->
  rsum n (fun i => Rabs (w i)) <= W -> 0 <= r -> Rabs (rsum n (fun i => w i * x i)) <= W * r.
Proof.
  intros Hx HW Hr; eapply Rle_trans; [apply rsum_abs|].
  apply Rle_trans with (rsum n (fun i => Rabs (w i) * r)).
  - apply rsum_le; intros i Hi; rewrite Rabs_mult; apply Rmult_le_compat_l; [apply Rabs_pos|auto].
  - rewrite rsum_scale; apply Rmult_le_compat_r; assumption.
Qed.

(** A family of numbers indexed by stage and entry has a largest one. *)
Lemma family_max (s n : nat) (g : nat -> nat -> R) :
  exists M, 0 <= M /\ (forall i m, (i < s)%nat -> (m < n)%nat -> Rabs (g i m) <= M) /\
    (M = 0 \/ exists i m, (i < s)%nat /\ (m < n)%nat /\ M = Rabs (g i m)).
Proof.
  assert (row : forall i, exists M, 0 <= M /\ (forall m, (m < n)%nat -> Rabs (g i m) <= M) /\
    (M = 0 \/ exists m, (m < n)%nat /\ M = Rabs (g i m))).
  { intros i; induction n as [|k IH].
    - exists 0; split; [lra|]; split; [intros; lia|auto].
    - destruct IH as (M & M0 & M1 & M2).
      destruct (Rle_dec (Rabs (g i k)) M) as [Hle|Hgt].
      + exists M; split; [exact M0|]; split.
        * intros m Hm; destruct (Nat.eq_dec m k) as [->|]; [exact Hle|apply M1; lia].
        * destruct M2 as [->|(m & Hm & E)]; [auto|]; right; exists m; split; [lia|exact E].
      + apply Rnot_le_lt in Hgt; exists (Rabs (g i k)); split; [apply Rabs_pos|]; split.
        * intros m Hm; destruct (Nat.eq_dec m k) as [->|]; [lra|].
          eapply Rle_trans; [apply M1; lia|lra].
        * right; exists k; split; [lia|reflexivity]. }
  induction s as [|k IH].
  - exists 0; split; [lra|]; split; [intros; lia|auto].
  - destruct IH as (M & M0 & M1 & M2), (row k) as (M' & N0 & N1 & N2).
    destruct (Rle_dec M' M) as [Hle|Hgt].
    + exists M; split; [exact M0|]; split.
      * intros i m Hi Hm; destruct (Nat.eq_dec i k) as [->|]; [eapply Rle_trans; [apply N1, Hm|exact Hle]|apply M1; lia].
      * destruct M2 as [->|(i & m & Hi & Hm & E)]; [auto|]; right; exists i, m; repeat split; auto with arith.
    + apply Rnot_le_lt in Hgt; exists M'; split; [exact N0|]; split.
      * intros i m Hi Hm; destruct (Nat.eq_dec i k) as [->|]; [auto|].
        eapply Rle_trans; [apply M1; lia|lra].
      * destruct N2 as [->|(m & Hm & E)]; [auto|]; right; exists k, m; repeat split; auto with arith.
Qed.

Lemma vnth_vmake n f m : (m < n)%nat -> vnth m (vmake n f) = f m.
Proof.
  intros H; unfold vnth, vmake; rewrite nth_indep with (d' := f 0%nat) by (rewrite map_length, seq_length; exact H).
  rewrite map_nth, seq_nth by exact H; reflexivity.
Qed.
Lemma vmake_length n f : length (vmake n f) = n.
Proof. unfold vmake; rewrite map_length, seq_length; reflexivity. Qed.

Section Method.
Variables (s n : nat) (a : nat -> nat -> R) (b c : nat -> R) (al be ga : R).
Hypothesis Hb : method_bounds s a b c al be ga.
Variables (f : R -> list R -> list R) (L : R).
Hypothesis HL0 : 0 <= L.
Hypothesis HL : lipschitz n L f.

Lemma be_pos : 0 <= be.
Proof. eapply Rle_trans; [|apply (mb_weights _ _ _ _ _ _ _ Hb)]; apply rsum_nonneg; intros; apply Rabs_pos. Qed.

(** *** One step *)
Section Step.
Variables (t h H : R) (y : list R) (k : nat -> list R) (y1 : list R) (F : R).
Hypothesis Hh : 0 < h <= H.
Hypothesis Hsmall : 2 * (H * L * al) <= 1.
Hypothesis Hy : length y = n.
Hypothesis Hk : rk_equations s n a b c f t h y k y1.
Hypothesis HF : forall m, (m < n)%nat -> Rabs (vnth m (f t y)) <= F.
Hypothesis HF0 : 0 <= F.
Hypothesis Hal : 0 <= al.
Hypothesis Hga : 0 <= ga.

Lemma within_stage K : 0 <= K -> (forall j m, (j < s)%nat -> (m < n)%nat -> Rabs (vnth m (k j)) <= K) ->
  forall i, (i < s)%nat -> within n (h * (al * K)) (rk_stage_value s n a h y k i) y.
Proof.
  intros HK0 HK i Hi m Hm; unfold rk_stage_value; rewrite vnth_vmake by exact Hm.
  replace (vnth m y + h * _ - vnth m y) with (h * rsum s (fun j => a i j * vnth m (k j))) by ring.
  rewrite Rabs_mult, (Rabs_right h) by lra; apply Rmult_le_compat_l; [lra|].
  apply rsum_weighted; [intros j Hj; apply HK; assumption|apply (mb_rows _ _ _ _ _ _ _ Hb), Hi|exact HK0].
Qed.

Lemma stage_close K : 0 <= K -> (forall j m, (j < s)%nat -> (m < n)%nat -> Rabs (vnth m (k j)) <= K) ->
  forall i m, (i < s)%nat -> (m < n)%nat -> Rabs (vnth m (k i) - vnth m (f t y)) <= L * (ga * h + h * (al * K)).
Proof.
  intros HK0 HK i m Hi Hm; destruct Hk as [Hst _]; rewrite (Hst i Hi).
  eapply Rle_trans.
  - apply (HL (t + c i * h) t _ y (h * (al * K))); [apply vmake_length|exact Hy| |exact Hm].
    apply within_stage; assumption.
  - apply Rmult_le_compat_l; [exact HL0|]; apply Rplus_le_compat_r.
    replace (t + c i * h - t) with (c i * h) by ring.
    rewrite Rabs_mult, (Rabs_right h) by lra; apply Rmult_le_compat_r; [lra|].
    apply (mb_nodes _ _ _ _ _ _ _ Hb), Hi.
Qed.

(** The stage derivatives are bounded, implicit stages or not. *)
Lemma stages_bounded j m : (j < s)%nat -> (m < n)%nat -> Rabs (vnth m (k j)) <= 2 * (F + L * ga * H).
Proof.
  destruct (family_max s n (fun i m => vnth m (k i))) as (K & K0 & K1 & K2).
  assert (HK : K <= 2 * (F + L * ga * H)).
  { assert (P : 0 <= L * ga * H) by (apply Rmult_le_pos; [apply Rmult_le_pos; assumption|lra]).
    destruct K2 as [->|(i & m' & Hi & Hm & E)]; [lra|].
    pose proof (stage_close K K0 K1 i m' Hi Hm) as C; pose proof (HF m' Hm) as C'.
    assert (T : Rabs (vnth m' (k i)) <= Rabs (vnth m' (k i) - vnth m' (f t y)) + Rabs (vnth m' (f t y))).
    { eapply Rle_trans; [|apply Rabs_triang]; right; f_equal; ring. }
    rewrite <- E in T.
    assert (Q : L * (h * (al * K)) <= K / 2).
    { replace (L * (h * (al * K))) with (h * (L * al) * K) by ring.
      assert (h * (L * al) <= H * (L * al)) by (apply Rmult_le_compat_r; [apply Rmult_le_pos; assumption|lra]).
      replace (K / 2) with (/ 2 * K) by field; apply Rmult_le_compat_r; lra. }
    assert (Q2 : L * (ga * h) <= L * ga * H).
    { rewrite <- Rmult_assoc; apply Rmult_le_compat_l; [apply Rmult_le_pos; assumption|lra]. }
    rewrite Rmult_plus_distr_l in C; lra. }
  intros Hj Hm; eapply Rle_trans; [apply K1; assumption|exact HK].
Qed.

(** The step differs from an Euler step by a term of second order. *)
Lemma step_close m : (m < n)%nat ->
  Rabs (vnth m y1 - (vnth m y + h * vnth m (f t y))) <= h * H * (be * L * (ga + 2 * al * (F + L * ga * H))).
Proof.
  intros Hm; pose proof (proj2 Hk) as E; rewrite E, vnth_vmake by exact Hm.
  set (K := 2 * (F + L * ga * H)).
  assert (P : 0 <= L * ga * H) by (apply Rmult_le_pos; [apply Rmult_le_pos; assumption|lra]).
  assert (K0 : 0 <= K) by (unfold K; lra).
  replace (vnth m y + h * rsum s (fun i => b i * vnth m (k i)) - (vnth m y + h * vnth m (f t y)))
    with (h * (rsum s (fun i => b i * (vnth m (k i) - vnth m (f t y))))).
  2:{ rewrite (rsum_ext s (fun i => b i * (vnth m (k i) - vnth m (f t y)))
        (fun i => b i * vnth m (k i) - b i * vnth m (f t y))) by (intros; ring).
      rewrite rsum_sub, rsum_scale, (mb_consistent _ _ _ _ _ _ _ Hb); ring. }
  rewrite Rabs_mult, (Rabs_right h) by lra; rewrite Rmult_assoc; apply Rmult_le_compat_l; [lra|].
  eapply Rle_trans.
  - apply rsum_weighted with (r := L * (ga * H + H * (al * K))); [|apply (mb_weights _ _ _ _ _ _ _ Hb)|].
    + intros i Hi; eapply Rle_trans; [apply (stage_close K K0); auto using stages_bounded|].
      apply Rmult_le_compat_l; [exact HL0|].
      assert (0 <= al * K) by (apply Rmult_le_pos; assumption).
      apply Rplus_le_compat; [apply Rmult_le_compat_l|apply Rmult_le_compat_r]; lra.
    + apply Rmult_le_pos; [exact HL0|].
      assert (0 <= al * K) by (apply Rmult_le_pos; assumption).
      apply Rplus_le_le_0_compat; apply Rmult_le_pos; lra.
  - right; unfold K; ring.
Qed.
End Step.

(** *** The exact solution *)
Section Exact.
Variables (t0 t1 B : R) (Y : R -> list R).
Hypothesis HY : solution n f t0 t1 Y.
Hypothesis HB0 : 0 <= B.
Hypothesis HB : forall t m, t0 <= t <= t1 -> (m < n)%nat -> Rabs (vnth m (f t (Y t))) <= B.

Lemma solution_lipschitz u v : t0 <= u -> u <= v -> v <= t1 -> within n (B * (v - u)) (Y v) (Y u).
Proof.
  intros H0 H1 H2 m Hm; destruct (Req_dec u v) as [->|Hne].
  { replace (vnth m (Y v) - vnth m (Y v)) with 0 by ring; rewrite Rabs_R0; lra. }
  destruct (MVT_cor2 (fun x => vnth m (Y x)) (fun x => vnth m (f x (Y x))) u v) as (x & E & Hx); [lra| |].
  { intros x Hx; apply HY; [lra|exact Hm]. }
  rewrite E, Rabs_mult, (Rabs_right (v - u)) by lra.
  apply Rmult_le_compat_r; [lra|]; apply HB; [lra|exact Hm].
Qed.

Lemma exact_step t h m : t0 <= t -> 0 < h -> t + h <= t1 -> (m < n)%nat ->
  Rabs (vnth m (Y (t + h)) - (vnth m (Y t) + h * vnth m (f t (Y t)))) <= h * h * (L * (1 + B)).
Proof.
  intros H0 Hh H1 Hm.
  destruct (MVT_cor2 (fun x => vnth m (Y x)) (fun x => vnth m (f x (Y x))) t (t + h)) as (x & E & Hx); [lra| |].
  { intros x Hx; apply HY; [lra|exact Hm]. }
  replace (vnth m (Y (t + h)) - (vnth m (Y t) + h * vnth m (f t (Y t))))
    with (h * (vnth m (f x (Y x)) - vnth m (f t (Y t)))) by (cbv beta in E; nra).
  rewrite Rabs_mult, (Rabs_right h) by lra; rewrite Rmult_assoc; apply Rmult_le_compat_l; [lra|].
  assert (W : within n (B * (x - t)) (Y x) (Y t)) by (apply solution_lipschitz; lra).
  eapply Rle_trans.
  - apply (HL x t (Y x) (Y t) (B * (x - t)));
      [apply HY|apply HY|exact W|exact Hm].
  - rewrite Rabs_right by lra.
    replace (h * (L * (1 + B))) with (L * (h + B * h)) by ring.
    apply Rmult_le_compat_l; [exact HL0|]; apply Rplus_le_compat; [lra|apply Rmult_le_compat_l; lra].
Qed.

Variable H : R.
Hypothesis Hsmall : 2 * (H * L * al) <= 1.
Hypothesis Hal : 0 <= al.
Hypothesis Hga : 0 <= ga.
Notation CC := (error_constant al be ga L B H).

(** How one step changes the error. *)
Lemma error_step t h y k y1 e : t0 <= t -> 0 < h <= H -> t + h <= t1 -> length y = n ->
  rk_equations s n a b c f t h y k y1 -> 0 <= e -> within n e y (Y t) ->
  within n ((1 + h * (L * (1 + be))) * e + h * H * CC) y1 (Y (t + h)).
Proof.
  intros H0 Hh H1 Hy Hk He W m Hm.
  pose proof be_pos as Hbe.
  assert (Wf : within n (L * e) (f t y) (f t (Y t))).
  { intros j Hj; eapply Rle_trans; [apply (HL t t y (Y t) e); [exact Hy|apply HY|exact W|exact Hj]|].
    rewrite Rminus_eq_0, Rabs_R0, Rplus_0_l; lra. }
  assert (HF : forall j, (j < n)%nat -> Rabs (vnth j (f t y)) <= B + L * e).
  { intros j Hj; replace (vnth j (f t y)) with (vnth j (f t (Y t)) + (vnth j (f t y) - vnth j (f t (Y t)))) by ring.
    eapply Rle_trans; [apply Rabs_triang|]; apply Rplus_le_compat; [apply HB; [lra|exact Hj]|apply Wf, Hj]. }
  assert (HLe : 0 <= L * e) by (apply Rmult_le_pos; assumption).
  pose proof (step_close t h H y k y1 (B + L * e) Hh Hsmall Hy Hk HF ltac:(lra) Hal Hga m Hm) as S1.
  pose proof (exact_step t h m H0 ltac:(lra) H1 Hm) as S2.
  pose proof (W m Hm) as S3; pose proof (Wf m Hm) as S4.
  set (x1 := vnth m y1) in *; set (z1 := vnth m (Y (t + h))) in *; set (x := vnth m y) in *; set (z := vnth m (Y t)) in *.
  set (g := vnth m (f t y)) in *; set (gz := vnth m (f t (Y t))) in *.
  replace (x1 - z1) with ((x1 - (x + h * g)) + ((x - z) + h * (g - gz)) - (z1 - (z + h * gz))) by ring.
  eapply Rle_trans; [apply Rabs_triang|]; rewrite Rabs_Ropp.
  assert (S5 : Rabs (h * (g - gz)) <= h * (L * e))
    by (rewrite Rabs_mult, (Rabs_right h) by lra; apply Rmult_le_compat_l; lra).
  pose proof (Rabs_triang (x1 - (x + h * g)) ((x - z) + h * (g - gz))) as T1.
  pose proof (Rabs_triang (x - z) (h * (g - gz))) as T2.
  assert (S6 : h * h * (L * (1 + B)) <= h * H * (L * (1 + B))).
  { apply Rmult_le_compat_r; [apply Rmult_le_pos; lra|]; apply Rmult_le_compat_l; lra. }
  assert (S7 : h * H * (be * L * (ga + 2 * al * (B + L * e + L * ga * H)))
               <= h * H * (be * L * (ga + 2 * al * (B + L * ga * H))) + h * (L * be) * e).
  { replace (h * H * (be * L * (ga + 2 * al * (B + L * e + L * ga * H))))
      with (h * H * (be * L * (ga + 2 * al * (B + L * ga * H))) + h * (L * be) * e * (2 * (H * L * al))) by ring.
    apply Rplus_le_compat_l; rewrite <- (Rmult_1_r (h * (L * be) * e)) at 2.
    apply Rmult_le_compat_l; [|exact Hsmall].
    apply Rmult_le_pos; [apply Rmult_le_pos; [lra|apply Rmult_le_pos; assumption]|exact He]. }
  unfold error_constant.
  replace ((1 + h * (L * (1 + be))) * e + h * H * (be * L * (ga + 2 * al * (B + L * ga * H)) + L * (1 + B)))
    with (e + h * (L * e) + (h * H * (be * L * (ga + 2 * al * (B + L * ga * H))) + h * (L * be) * e)
          + h * H * (L * (1 + B))) by ring.
  lra.
Qed.

Lemma constant_pos : 0 <= H -> 0 <= CC.
Proof.
  intros HH; pose proof be_pos; unfold error_constant; apply Rplus_le_le_0_compat; [|apply Rmult_le_pos; lra].
  apply Rmult_le_pos; [apply Rmult_le_pos; assumption|].
  assert (0 <= L * ga * H) by (apply Rmult_le_pos; [apply Rmult_le_pos; assumption|assumption]).
  assert (0 <= al * (B + L * ga * H)) by (apply Rmult_le_pos; [assumption|lra]); lra.
Qed.

Lemma rk_steps_close : forall hs t y z e, t0 <= t -> t + covered hs <= t1 -> Forall (fun h => 0 < h <= H) hs ->
  length y = n -> 0 <= e -> 0 <= H ->
  within n e y (Y t) -> rk_steps s n a b c f t y hs z ->
  within n (error_bound al be ga L B H e (covered hs)) z (Y (t + covered hs)).
Proof.
  induction hs as [|h hs IH]; intros t y z e H0 H1 HF Hy He HH W Hr.
  - cbn in *; subst z; unfold error_bound.
    rewrite Rmult_0_l, Rmult_0_l, Rmult_0_r, exp_0, !Rplus_0_r, Rmult_1_r; exact W.
  - cbn [rk_steps covered] in *; destruct Hr as (k & y1 & Hk & Hr).
    pose proof (Forall_inv HF) as Hh; apply Forall_inv_tail in HF.
    assert (Hc : 0 <= covered hs).
    { clear -HF; induction HF; cbn; [lra|]; destruct H0; lra. }
    pose proof be_pos as Hbe; pose proof (constant_pos HH) as HC.
    pose proof (error_step t h y k y1 e H0 Hh ltac:(lra) Hy Hk He W) as S.
    assert (HM : 0 <= L * (1 + be)) by (apply Rmult_le_pos; lra).
    assert (HhC : 0 <= h * H * CC) by (apply Rmult_le_pos; [apply Rmult_le_pos; lra|exact HC]).
    assert (He' : 0 <= (1 + h * (L * (1 + be))) * e + h * H * CC).
    { apply Rplus_le_le_0_compat; [apply Rmult_le_pos; [|exact He]|exact HhC].
      assert (0 <= h * (L * (1 + be))) by (apply Rmult_le_pos; lra); lra. }
    assert (Hy1 : length y1 = n) by (rewrite (proj2 Hk); apply vmake_length).
    pose proof (IH (t + h) y1 z _ ltac:(lra) ltac:(lra) HF Hy1 He' HH S Hr) as R.
    replace (t + (h + covered hs)) with (t + h + covered hs) by ring.
    intros m Hm; eapply Rle_trans; [apply R, Hm|].
    unfold error_bound; set (M := L * (1 + be)) in *; set (S0 := covered hs) in *.
    replace (M * (h + S0)) with (M * h + M * S0) by ring; rewrite exp_plus.
    rewrite <- (Rmult_assoc _ (exp (M * h))).
    apply Rmult_le_compat_r; [left; apply exp_pos|].
    assert (E1 : 1 + h * M <= exp (M * h)).
    { destruct (Req_dec (M * h) 0) as [E|Hne]; [rewrite E, exp_0; lra|].
      left; replace (1 + h * M) with (1 + M * h) by ring; apply exp_ineq1.
      assert (0 <= M * h) by (apply Rmult_le_pos; lra); lra. }
    assert (E2 : 1 <= exp (M * h)).
    { assert (0 <= h * M) by (apply Rmult_le_pos; lra); lra. }
    assert (HS : 0 <= S0 * H * CC) by (apply Rmult_le_pos; [apply Rmult_le_pos; assumption|exact HC]).
    replace ((e + (h + S0) * H * CC) * exp (M * h))
      with (exp (M * h) * e + exp (M * h) * (h * H * CC) + exp (M * h) * (S0 * H * CC)) by ring.
    assert (Q1 : (1 + h * M) * e <= exp (M * h) * e) by (apply Rmult_le_compat_r; assumption).
    assert (Q2 : 1 * (h * H * CC) <= exp (M * h) * (h * H * CC)) by (apply Rmult_le_compat_r; assumption).
    assert (Q3 : 1 * (S0 * H * CC) <= exp (M * h) * (S0 * H * CC)) by (apply Rmult_le_compat_r; assumption).
    lra.
Qed.
End Exact.

(** The velocity of a solution is bounded. *)
Section Velocity.
Variables (t0 t1 : R) (Y : R -> list R).
Hypothesis Ht : t0 <= t1.
Hypothesis HY : solution n f t0 t1 Y.

Lemma solution_continuous t : t0 <= t <= t1 -> forall eps, 0 < eps ->
  exists dl, 0 < dl /\ forall u, Rabs (u - t) < dl -> within n eps (Y u) (Y t).
Proof.
  intros Htt eps He.
  assert (G : forall k, (k <= n)%nat -> exists dl, 0 < dl /\ forall u, Rabs (u - t) < dl ->
    forall m, (m < k)%nat -> Rabs (vnth m (Y u) - vnth m (Y t)) <= eps).
  { induction k as [|k IH]; intros Hk; [exists 1; split; [lra|intros; lia]|].
    destruct (IH ltac:(lia)) as (d1 & D1 & E1).
    assert (Hc : continuity_pt (fun u => vnth k (Y u)) t).
    { apply derivable_continuous_pt; exists (vnth k (f t (Y t))); apply HY; [exact Htt|lia]. }
    destruct (Hc eps He) as (d2 & D2 & E2).
    exists (Rmin d1 d2); split; [apply Rmin_pos; assumption|].
    intros u Hu m Hm; destruct (Nat.eq_dec m k) as [->|].
    - destruct (Req_dec u t) as [->|Hne]; [rewrite Rminus_eq_0, Rabs_R0; lra|].
      left; apply (E2 u); split; [split; [exact I|auto]|].
      eapply Rlt_le_trans; [exact Hu|apply Rmin_r].
    - apply E1; [eapply Rlt_le_trans; [exact Hu|apply Rmin_l]|lia]. }
  destruct (G n (le_n n)) as (dl & D & E); exists dl; split; [exact D|]; intros u Hu m Hm; apply E; assumption.
Qed.

Lemma velocity_bounded : exists B, 0 <= B /\ forall t m, t0 <= t <= t1 -> (m < n)%nat -> Rabs (vnth m (f t (Y t))) <= B.
Proof.
  assert (Hc : forall m, (m < n)%nat -> forall t, t0 <= t <= t1 -> continuity_pt (fun u => Rabs (vnth m (f u (Y u)))) t).
  { intros m Hm t Htt; apply (continuity_pt_comp (fun u => vnth m (f u (Y u))) Rabs); [|apply Rcontinuity_abs].
    intros eps He.
    set (e' := eps / (2 * (L + 1))).
    assert (He' : 0 < e') by (apply Rdiv_lt_0_compat; lra).
    destruct (solution_continuous t Htt (e' / 2) ltac:(lra)) as (dl & D & E).
    exists (Rmin dl (e' / 2)); split; [apply Rmin_pos; lra|].
    intros u [_ Hu]; cbn in Hu |- *; unfold R_dist in *.
    assert (U1 : Rabs (u - t) < dl) by (eapply Rlt_le_trans; [exact Hu|apply Rmin_l]).
    assert (U2 : Rabs (u - t) < e' / 2) by (eapply Rlt_le_trans; [exact Hu|apply Rmin_r]).
    eapply Rle_lt_trans; [apply (HL u t (Y u) (Y t) (e' / 2)); [apply HY|apply HY|apply E, U1|exact Hm]|].
    apply Rle_lt_trans with (L * e'); [apply Rmult_le_compat_l; lra|].
    assert (X : 2 * (L + 1) * e' = eps) by (unfold e'; field; lra).
    nra. }
  assert (G : forall k, (k <= n)%nat -> exists B, 0 <= B /\
    forall t m, t0 <= t <= t1 -> (m < k)%nat -> Rabs (vnth m (f t (Y t))) <= B).
  { induction k as [|k IH]; intros Hk; [exists 0; split; [lra|intros; lia]|].
    destruct (IH ltac:(lia)) as (B & B0 & B1).
    destruct (continuity_ab_maj (fun u => Rabs (vnth k (f u (Y u)))) t0 t1 Ht) as (x & X1 & X2).
    { intros x Hx; apply Hc; [lia|exact Hx]. }
    exists (Rmax B (Rabs (vnth k (f x (Y x))))); split; [eapply Rle_trans; [exact B0|apply Rmax_l]|].
    intros t m Htt Hm; destruct (Nat.eq_dec m k) as [->|].
    - eapply Rle_trans; [apply (X1 t Htt)|apply Rmax_r].
    - eapply Rle_trans; [apply B1; [exact Htt|lia]|apply Rmax_l]. }
  destruct (G n (le_n n)) as (B & B0 & B1); exists B; split; [exact B0|]; intros; apply B1; assumption.
Qed.
End Velocity.
End Method.

(** Every consistent method has bounds. *)
Lemma bounds_exist s a b c : rsum s b = 1 ->
  exists al be ga, 0 <= al /\ 0 <= ga /\ method_bounds s a b c al be ga.
Proof.
  intros Hb.
  destruct (family_max s 1 (fun i _ => rsum s (fun j => Rabs (a i j)))) as (al & A0 & A1 & _).
  destruct (family_max s 1 (fun i _ => c i)) as (ga & G0 & G1 & _).
  exists al, (rsum s (fun i => Rabs (b i))), ga; split; [exact A0|]; split; [exact G0|].
  constructor; [| lra| |exact Hb].
  - intros i Hi; eapply Rle_trans; [apply Rle_abs|apply (A1 i 0%nat Hi); lia].
  - intros i Hi; apply (G1 i 0%nat Hi); lia.
Qed.
