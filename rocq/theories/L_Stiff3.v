(** The error of Runge-Kutta steps for x' = lam (x - phi) + phi', with constants
    that do not depend on lam. *)
From Coq Require Import List Bool Arith Reals Lia Lra.
From Verif Require Import Base Ext M_Components SpecRK SpecOrder SpecConvergence SpecStage SpecStiff L_Vec L_Order L_Stage2 L_Stage3 L_Stiff WitnessOrder.
Import ListNotations.
Local Open Scope R_scope.
Local Open Scope list_scope.

Lemma rsum_minus n f g : rsum n (fun i => f i - g i) = rsum n f - rsum n g.
Proof.
  rewrite (rsum_ext n (fun i => f i - g i) (fun i => f i + (-1) * g i)) by (intros; ring). rewrite rsum_plus, rsum_scal. ring.
Qed.
Lemma rsum_nonneg n f : (forall i, (i < n)%nat -> 0 <= f i) -> 0 <= rsum n f.
Proof. induction n as [|n IH]; intros H; cbn [rsum]; [lra|]. pose proof (H n ltac:(lia)). assert (0 <= rsum n f) by (apply IH; auto). lra. Qed.
Lemma rsum_const n k : rsum n (fun _ => k) = INR n * k.
Proof. induction n as [|n IH]; [cbn; ring|]. rewrite S_INR. cbn [rsum]. rewrite IH. ring. Qed.

(** The derivatives of phi. *)
Definition theta (k : nat) (t : R) : R := sine_phi k (t + PI / 4).
Lemma theta_bound k t : Rabs (theta k t) <= 1.
Proof. apply sine_phi_bound. Qed.
Lemma theta_0 t : theta 0 t = phi t.
Proof. unfold theta, sine_phi, phi. cbn [INR]. f_equal. ring. Qed.
Lemma theta_1 t : theta 1 t = d_phi t.
Proof. unfold theta, sine_phi, d_phi. cbn [INR]. rewrite Rmult_1_l, (cos_sin (t + PI / 4)). f_equal. ring. Qed.
Lemma theta_taylor k j t v : Rabs (theta j (t + v) - rsum (S k) (fun i => / INR (fact i) * (theta (j + i) t * v ^ i))) <= Rabs v ^ S k.
Proof.
  unfold theta. replace (t + v + PI / 4) with (t + PI / 4 + v) by ring.
  eapply Rle_trans; [apply (scalar_taylor sine_phi 1 sine_phi_derive sine_phi_bound k j)|]. lra.
Qed.

(** What a stage with row [v] and node [d] misses of the increment of phi. *)
Definition missed_increment (s : nat) (v c : nat -> R) (d t h : R) : R :=
  h * rsum s (fun j => v j * d_phi (t + c j * h)) - (phi (t + d * h) - phi t).
Definition moment (s : nat) (v c : nat -> R) (d : R) (m : nat) : R := rsum s (fun j => v j * c j ^ m) - d ^ S m / INR (S m).
Definition leading (s : nat) (v c : nat -> R) (d t h : R) (q : nat) : R :=
  rsum q (fun m => theta (S m) t * (h ^ S m / INR (fact m)) * moment s v c d m).
Definition spread (s : nat) (v c : nat -> R) (d : R) (q : nat) : R := rsum s (fun j => Rabs (v j) * Rabs (c j) ^ q) + Rabs d ^ S q.
Lemma spread_nonneg s v c d q : 0 <= spread s v c d q.
Proof.
  unfold spread. assert (0 <= rsum s (fun j => Rabs (v j) * Rabs (c j) ^ q)).
  { apply rsum_nonneg. intros. apply Rmult_le_pos; [apply Rabs_pos|apply pow_le, Rabs_pos]. }
  pose proof (pow_le (Rabs d) (S q) (Rabs_pos d)). lra.
Qed.
Lemma fact_pos m : INR (fact m) <> 0.
Proof. apply INR_fact_neq_0. Qed.
Lemma increment_expansion s v c d t h q : 0 <= h -> (0 < q)%nat ->
  Rabs (missed_increment s v c d t h - leading s v c d t h q) <= h ^ S q * spread s v c d q.
Proof.
  intros Hh Hq. unfold missed_increment, leading, spread, moment.
  set (P := fun j => rsum q (fun m => / INR (fact m) * (theta (S m) t * (c j * h) ^ m))).
  set (Q := rsum q (fun m => / INR (fact (S m)) * (theta (S m) t * (d * h) ^ S m))).
  assert (E : rsum q (fun m => theta (S m) t * (h ^ S m / INR (fact m)) * (rsum s (fun j => v j * c j ^ m) - d ^ S m / INR (S m)))
    = h * rsum s (fun j => v j * P j) - Q).
  { unfold P, Q.
    rewrite (rsum_ext s (fun j => v j * rsum q (fun m => / INR (fact m) * (theta (S m) t * (c j * h) ^ m)))
      (fun j => rsum q (fun m => v j * (/ INR (fact m) * (theta (S m) t * (c j * h) ^ m))))) by (intros; now rewrite rsum_scal).
    rewrite rsum_swap, <- rsum_scal, <- rsum_minus. apply rsum_ext. intros m Hm.
    rewrite (rsum_ext s (fun j => v j * (/ INR (fact m) * (theta (S m) t * (c j * h) ^ m)))
      (fun j => (/ INR (fact m) * theta (S m) t * h ^ m) * (v j * c j ^ m))) by (intros; rewrite Rpow_mult_distr; ring).
    rewrite rsum_scal, Rpow_mult_distr, fact_simpl, mult_INR. cbn [pow]. field. split; [apply fact_pos|apply not_0_INR; lia]. }
  rewrite E.
  replace (h * rsum s (fun j => v j * d_phi (t + c j * h)) - (phi (t + d * h) - phi t) - (h * rsum s (fun j => v j * P j) - Q))
    with (h * rsum s (fun j => v j * (d_phi (t + c j * h) - P j)) + - (phi (t + d * h) - (phi t + Q))).
  2:{ rewrite (rsum_ext s (fun j => v j * (d_phi (t + c j * h) - P j)) (fun j => v j * d_phi (t + c j * h) - v j * P j)) by (intros; ring).
      rewrite rsum_minus. ring. }
  eapply Rle_trans; [apply Rabs_triang|]. rewrite Rabs_Ropp, Rmult_plus_distr_l. apply Rplus_le_compat.
  - rewrite Rabs_mult, (Rabs_right h) by lra. cbn [pow]. rewrite Rmult_assoc. apply Rmult_le_compat_l; [exact Hh|].
    rewrite <- rsum_scal. apply rsum_abs_le. intros j Hj. rewrite Rabs_mult.
    destruct q as [|k]; [lia|]. pose proof (theta_taylor k 1 t (c j * h)) as T. rewrite theta_1 in T. cbn [Nat.add] in T. fold (P j) in T.
    rewrite Rabs_mult, (Rabs_right h), Rpow_mult_distr in T by lra.
    replace (h ^ S k * (Rabs (v j) * Rabs (c j) ^ S k)) with (Rabs (v j) * (Rabs (c j) ^ S k * h ^ S k)) by ring.
    apply Rmult_le_compat_l; [apply Rabs_pos|exact T].
  - pose proof (theta_taylor q 0 t (d * h)) as T. rewrite theta_0, rsum_S_first in T. cbn [Nat.add] in T. fold Q in T. cbn [fact pow INR] in T.
    rewrite theta_0 in T.
    replace (/ 1 * (phi t * 1)) with (phi t) in T by field.
    rewrite Rabs_mult, (Rabs_right h) in T by lra. change (Rabs d * h * (Rabs d * h) ^ q) with ((Rabs d * h) ^ S q) in T.
    rewrite Rpow_mult_distr in T. lra.
Qed.
Lemma moment_residual s a c k i : moment s (a i) c (c i) k = stage_residual s a c k i.
Proof. reflexivity. Qed.

Lemma power_sum h q m : 0 <= h -> (m <= q)%nat -> h ^ m <= 1 + h ^ q.
Proof.
  intros H L. pose proof (pow_le h q H). destruct (Rle_dec h 1).
  - assert (h ^ m <= 1 ^ m) by (apply pow_incr; lra). rewrite pow1 in H1. lra.
  - assert (h ^ m <= h ^ q) by (apply Rle_pow; [lra|exact L]). lra.
Qed.
(** Moments that are small up to degree [q] give a small leading part. *)
Lemma leading_bound q h e (f : nat -> R) t : 0 <= h -> 0 <= e <= 1 -> (0 < q)%nat -> (forall m, (m < q)%nat -> Rabs (f m) <= e) ->
  Rabs (rsum q (fun m => theta (S m) t * (h ^ S m / INR (fact m)) * f m)) <= INR q * (h * e + h ^ S q).
Proof.
  intros Hh He Hq Hf. rewrite <- rsum_const. apply rsum_abs_le. intros m Hm. rewrite !Rabs_mult.
  pose proof (theta_bound (S m) t) as T. pose proof (Hf m Hm) as F.
  assert (L : Rabs (h ^ S m / INR (fact m)) <= h * (1 + h ^ q)).
  { rewrite Rabs_right.
    - unfold Rdiv. cbn [pow]. rewrite Rmult_assoc. apply Rmult_le_compat_l; [exact Hh|].
      pose proof (power_sum h q m Hh ltac:(lia)). pose proof (pow_le h m Hh).
      assert (1 <= INR (fact m)) by (change 1 with (INR 1); apply le_INR; pose proof (lt_O_fact m); lia).
      assert (/ INR (fact m) <= 1) by (rewrite <- Rinv_1; apply Rinv_le_contravar; lra).
      assert (h ^ m * / INR (fact m) <= h ^ m * 1) by (apply Rmult_le_compat_l; lra). lra.
    - apply Rle_ge. unfold Rdiv. apply Rmult_le_pos; [apply pow_le, Hh|]. left. apply Rinv_0_lt_compat, lt_0_INR, lt_O_fact. }
  pose proof (pow_le h q Hh) as Pq.
  apply Rle_trans with (1 * (h * (1 + h ^ q)) * e).
  - apply Rmult_le_compat; [apply Rmult_le_pos; apply Rabs_pos|apply Rabs_pos| |exact F].
    apply Rmult_le_compat; auto using Rabs_pos.
  - cbn [pow]. assert (0 <= h * h ^ q) by (apply Rmult_le_pos; assumption).
    assert (h * h ^ q * e <= h * h ^ q * 1) by (apply Rmult_le_compat_l; lra). lra.
Qed.

Section Steps.
Variables (s : nat) (a : nat -> nat -> R) (b c : nat -> R).
Notation moments := (stage_residual s a c).
Notation D i := (missed_increment s (a i) c (c i)).
Notation D0 := (missed_increment s b c 1).
Notation rhs lam := (fun t y => prothero_rhs lam t [] y).

(** The error of one step, in terms of the dual of the stage system. *)
Lemma prothero_step_error lam t h y k y1 w rho : dual s a b (h * lam) w -> amplification s a b (h * lam) rho ->
  rk_equations s 1 a b c (rhs lam) t h [y] k [y1] ->
  y1 - phi (t + h) = rho * (y - phi t) + h * lam * rsum s (fun i => w i * D i t h) + D0 t h.
Proof.
  intros Hw Hr (Hk & Ey). unfold rk_stage_value, vmake in *. cbn [seq map] in *. injection Ey as ->. cbn [vnth nth] in *.
  set (u := fun i => vnth 0 (k i) - d_phi (t + c i * h)).
  assert (Hu : forall i, (i < s)%nat -> u i = h * lam * rsum s (fun j => a i j * u j) + lam * ((y - phi t) + D i t h)).
  { intros i Hi. unfold u at 1. rewrite (Hk i Hi) at 1. unfold prothero_rhs. cbn [map vnth nth].
    unfold u, missed_increment.
    rewrite (rsum_ext s (fun j => a i j * (vnth 0 (k j) - d_phi (t + c j * h))) (fun j => a i j * vnth 0 (k j) - a i j * d_phi (t + c j * h))) by (intros; ring).
    rewrite rsum_minus. unfold vnth. ring. }
  pose proof (dual_pairing s a b (h * lam) w u _ Hw Hu) as P.
  rewrite (dual_factor s a b (h * lam) w rho Hw Hr).
  assert (E : rsum s (fun i => b i * vnth 0 (k i)) = rsum s (fun i => b i * u i) + rsum s (fun i => b i * d_phi (t + c i * h))).
  { rewrite <- rsum_plus. apply rsum_ext. intros. unfold u. ring. }
  change (fun i => b i * nth 0 (k i) 0) with (fun i => b i * vnth 0 (k i)). rewrite E, P.
  rewrite (rsum_ext s (fun i => w i * (lam * (y - phi t + D i t h))) (fun i => (lam * (y - phi t)) * w i + lam * (w i * D i t h))) by (intros; ring).
  rewrite rsum_plus, !rsum_scal.
  assert (E0 : D0 t h = h * rsum s (fun i => b i * d_phi (t + c i * h)) - (phi (t + h) - phi t)) by (unfold missed_increment; now rewrite Rmult_1_l).
  rewrite E0. ring.
Qed.

Variables (q p : nat) (e nu : R).
Hypothesis Hq : (0 < q)%nat.
Hypothesis Hp : (0 < p)%nat.
Hypothesis He : 0 <= e <= 1.
Hypothesis Hnu : 0 <= nu <= 1.
Hypothesis Hquad : quadrature_conditions s b c p nu.

Definition k_stage : R := INR q + 5 * rsum s (fun i => spread s (a i) c (c i) q).
Definition k_step : R := INR p + spread s b c 1 p.
Lemma k_stage_nonneg : 0 <= k_stage.
Proof.
  unfold k_stage. assert (0 <= rsum s (fun i => spread s (a i) c (c i) q)) by (apply rsum_nonneg; intros; apply spread_nonneg).
  pose proof (pos_INR q). lra.
Qed.
Lemma k_step_nonneg : 0 <= k_step.
Proof. unfold k_step. pose proof (spread_nonneg s b c 1 p). pose proof (pos_INR p). lra. Qed.

Lemma step_part t h : 0 <= h -> Rabs (D0 t h) <= k_step * (h * (h ^ p + nu)).
Proof.
  intros Hh. pose proof (increment_expansion s b c 1 t h p Hh Hp) as X.
  assert (L : Rabs (leading s b c 1 t h p) <= INR p * (h * nu + h ^ S p)).
  { apply leading_bound; auto. intros m Hm. unfold moment. rewrite pow1. unfold Rdiv. rewrite Rmult_1_l. apply Hquad, Hm. }
  replace (D0 t h) with (D0 t h - leading s b c 1 t h p + leading s b c 1 t h p) by ring.
  eapply Rle_trans; [apply Rabs_triang|]. unfold k_step. cbn [pow] in *.
  pose proof (spread_nonneg s b c 1 p) as S0. assert (0 <= spread s b c 1 p * (h * nu)) by (apply Rmult_le_pos; [exact S0|apply Rmult_le_pos; lra]). lra.
Qed.
Lemma still_leading i t h : (forall j, (j < s)%nat -> a i j = 0) -> c i = 0 -> D i t h = 0 /\ leading s (a i) c (c i) t h q = 0.
Proof.
  intros Ha Hc. split.
  - unfold missed_increment. rewrite (rsum_ext s _ (fun _ => 0)), rsum_zero; [rewrite Hc; replace (t + 0 * h) with t by ring; ring|].
    intros j Hj. rewrite Ha by exact Hj. ring.
  - unfold leading, moment. rewrite (rsum_ext q _ (fun _ => 0)), rsum_zero; [reflexivity|]. intros m Hm.
    rewrite (rsum_ext s _ (fun _ => 0)), rsum_zero; [rewrite Hc, pow_ne_zero by lia; unfold Rdiv; ring|].
    intros j Hj. rewrite Ha by exact Hj. ring.
Qed.
Lemma stage_part t h x w d : 0 <= h -> 0 <= d ->
  (forall i, (i < s)%nat -> ((forall j, (j < s)%nat -> a i j = 0) /\ c i = 0) \/ Rabs (x * w i) <= 5 * d) ->
  (forall k, (k < q)%nat -> Rabs (x * rsum s (fun i => w i * moments k i)) <= e * d) ->
  Rabs (x * rsum s (fun i => w i * D i t h)) <= d * (k_stage * (h ^ S q + h * e)).
Proof.
  intros Hh Hd Hw Hm.
  assert (E : x * rsum s (fun i => w i * D i t h) = rsum s (fun i => x * w i * (D i t h - leading s (a i) c (c i) t h q))
    + rsum q (fun m => theta (S m) t * (h ^ S m / INR (fact m)) * (x * rsum s (fun i => w i * moments m i)))).
  { assert (F : rsum q (fun m => theta (S m) t * (h ^ S m / INR (fact m)) * (x * rsum s (fun i => w i * moments m i)))
      = rsum s (fun i => x * w i * leading s (a i) c (c i) t h q)).
    { unfold leading.
      rewrite (rsum_ext s (fun i => x * w i * rsum q (fun m => theta (S m) t * (h ^ S m / INR (fact m)) * moment s (a i) c (c i) m))
        (fun i => rsum q (fun m => x * w i * (theta (S m) t * (h ^ S m / INR (fact m)) * moment s (a i) c (c i) m)))) by (intros; now rewrite rsum_scal).
      rewrite rsum_swap. apply rsum_ext. intros m Hm'. rewrite <- !rsum_scal. apply rsum_ext. intros i Hi. rewrite moment_residual. ring. }
    rewrite F, <- rsum_plus, <- rsum_scal. apply rsum_ext. intros. ring. }
  rewrite E. eapply Rle_trans; [apply Rabs_triang|].
  assert (P1 : Rabs (rsum s (fun i => x * w i * (D i t h - leading s (a i) c (c i) t h q)))
    <= d * (h ^ S q * (5 * rsum s (fun i => spread s (a i) c (c i) q)))).
  { replace (d * (h ^ S q * (5 * rsum s (fun i => spread s (a i) c (c i) q)))) with (d * h ^ S q * 5 * rsum s (fun i => spread s (a i) c (c i) q)) by ring.
    rewrite <- rsum_scal.
    apply rsum_abs_le. intros i Hi. pose proof (spread_nonneg s (a i) c (c i) q) as S0. pose proof (pow_le h (S q) Hh) as P0.
    assert (N0 : 0 <= d * h ^ S q * 5 * spread s (a i) c (c i) q) by (apply Rmult_le_pos; [apply Rmult_le_pos; [apply Rmult_le_pos|]|]; lra).
    destruct (Hw i Hi) as [(A0 & C0)|B0].
    - destruct (still_leading i t h A0 C0) as (-> & ->). rewrite Rminus_0_r, Rmult_0_r, Rabs_R0. lra.
    - rewrite Rabs_mult. pose proof (increment_expansion s (a i) c (c i) t h q Hh Hq) as X.
      replace (d * h ^ S q * 5 * spread s (a i) c (c i) q) with (5 * d * (h ^ S q * spread s (a i) c (c i) q)) by ring.
      apply Rmult_le_compat; auto using Rabs_pos. }
  assert (P2 : Rabs (rsum q (fun m => theta (S m) t * (h ^ S m / INR (fact m)) * (x * rsum s (fun i => w i * moments m i)))) <= d * (INR q * (h * e + h ^ S q))).
  { destruct (Req_dec d 0) as [->|Nd].
    - rewrite (rsum_ext q _ (fun _ => 0)), rsum_zero, Rabs_R0; [lra|]. intros m Hm'. specialize (Hm m Hm'). rewrite Rmult_0_r in Hm.
      replace (x * rsum s (fun i => w i * moments m i)) with 0; [ring|]. pose proof (Rabs_pos (x * rsum s (fun i => w i * moments m i))).
      destruct (Req_dec (x * rsum s (fun i => w i * moments m i)) 0) as [Z|Z]; [now rewrite Z|]. apply Rabs_no_R0 in Z. lra.
    - rewrite (rsum_ext q _ (fun m => d * (theta (S m) t * (h ^ S m / INR (fact m)) * (x * rsum s (fun i => w i * moments m i) / d)))).
      2:{ intros. field. split; [exact Nd|apply fact_pos]. }
      rewrite rsum_scal, Rabs_mult, (Rabs_right d) by lra. apply Rmult_le_compat_l; [exact Hd|]. apply leading_bound; auto.
      intros m Hm'. unfold Rdiv. rewrite Rabs_mult, Rabs_inv, (Rabs_right d) by lra.
      apply Rmult_le_reg_r with d; [lra|]. rewrite Rmult_assoc, Rinv_l by exact Nd. rewrite Rmult_1_r. apply Hm, Hm'. }
  unfold k_stage.
  assert (0 <= d * (h * e * (5 * rsum s (fun i => spread s (a i) c (c i) q)))).
  { assert (0 <= rsum s (fun i => spread s (a i) c (c i) q)) by (apply rsum_nonneg; intros; apply spread_nonneg).
    apply Rmult_le_pos; [exact Hd|]. apply Rmult_le_pos; [apply Rmult_le_pos; lra|lra]. }
  lra.
Qed.

(** Many steps. *)
Lemma prothero_steps_error lam h w rho : 0 <= h -> dual s a b (h * lam) w -> amplification s a b (h * lam) rho ->
  0 <= 1 - Rabs rho ->
  (forall i, (i < s)%nat -> ((forall j, (j < s)%nat -> a i j = 0) /\ c i = 0) \/ Rabs (- (h * lam) * w i) <= 5 * (1 - Rabs rho)) ->
  (forall k, (k < q)%nat -> Rabs (- (h * lam) * rsum s (fun i => w i * moments k i)) <= e * (1 - Rabs rho)) ->
  forall n t y z, rk_steps s 1 a b c (rhs lam) t [y] (repeat h n) [z] ->
  Rabs (z - phi (t + INR n * h) - rho ^ n * (y - phi t))
  <= INR n * (k_step * (h * (h ^ p + nu))) + (1 - Rabs rho ^ n) * (k_stage * (h ^ S q + h * e)).
Proof.
  intros Hh Hw Hr Hd Hb Hm. induction n as [|n IH]; intros t y z St; cbn [repeat rk_steps] in St.
  - injection St as ->. cbn [INR pow]. rewrite Rmult_0_l, Rplus_0_r. replace (y - phi t - 1 * (y - phi t)) with 0 by ring. rewrite Rabs_R0. lra.
  - destruct St as (k & y1 & E & St).
    assert (L : exists v, y1 = [v]) by (destruct E as (_ & ->); unfold vmake; cbn; eauto). destruct L as (v & ->).
    specialize (IH _ _ _ St). pose proof (prothero_step_error lam t h y k v w rho Hw Hr E) as X.
    pose proof (stage_part t h (- (h * lam)) w (1 - Rabs rho) Hh Hd Hb Hm) as P1. pose proof (step_part t h Hh) as P2.
    set (A := k_step * (h * (h ^ p + nu))) in *. set (B := k_stage * (h ^ S q + h * e)) in *.
    assert (A0 : 0 <= A) by (unfold A; apply Rmult_le_pos; [apply k_step_nonneg|]; pose proof (pow_le h p Hh); apply Rmult_le_pos; lra).
    assert (R1 : Rabs rho ^ n <= 1).
    { rewrite <- (pow1 n). apply pow_incr. split; [apply Rabs_pos|lra]. }
    assert (R0 : 0 <= Rabs rho ^ n) by (apply pow_le, Rabs_pos).
    set (d := h * lam * rsum s (fun i => w i * D i t h)) in *.
    assert (Ed : Rabs d = Rabs (- (h * lam) * rsum s (fun i => w i * D i t h))) by (unfold d; rewrite <- (Rabs_Ropp (h * lam * _)); f_equal; ring).
    rewrite <- Ed in P1.
    replace (t + INR (S n) * h) with (t + h + INR n * h) by (rewrite S_INR; ring). cbn [pow]. rewrite S_INR.
    replace (z - phi (t + h + INR n * h) - rho * rho ^ n * (y - phi t))
      with ((z - phi (t + h + INR n * h) - rho ^ n * (v - phi (t + h))) + rho ^ n * (d + D0 t h)) by (rewrite X; ring).
    eapply Rle_trans; [apply Rabs_triang|]. rewrite Rabs_mult, <- RPow_abs.
    assert (Rabs (d + D0 t h) <= (1 - Rabs rho) * B + A) by (eapply Rle_trans; [apply Rabs_triang|]; lra).
    assert (Rabs rho ^ n * Rabs (d + D0 t h) <= Rabs rho ^ n * ((1 - Rabs rho) * B + A)) by (apply Rmult_le_compat_l; lra).
    assert (Rabs rho ^ n * A <= 1 * A) by (apply Rmult_le_compat_r; lra). lra.
Qed.
End Steps.
