(** The weak stage orders are all that holds uniformly in lam. *)
From Coq Require Import String.
From Coq Require Import List Bool Arith Reals Lia Lra QArith Qreals.
From Verif Require Import Base Ext M_Tableau M_Tableaux M_TableauxInit M_State M_ODE M_Step M_Integrator M_Metadata M_Components SpecMetadata SpecRK SpecDeriv
  SpecRun SpecShape SpecTree SpecOrder SpecComponents SpecConvergence M_Packing SpecPacking M_Component SpecComponent SpecTotal M_Stage SpecStage SpecStiff
  L_Vec L_Order L_Total L_Stage L_Stage2 L_Stage3 L_Stage4 L_Stage5 L_Stage6 L_Stage7 L_Stage8 L_Tableau L_StiffCheck L_Stiff L_Stiff2 L_Stiff3 L_Stiff4 WitnessOrder WitnessStage.
Import ListNotations.
Local Open Scope string_scope.
Open Scope nat_scope.
Open Scope R_scope.
Local Open Scope list_scope.

(** A polynomial with a nonzero coefficient is not bounded by a higher power. *)
Lemma small_enough u v : 0 < u -> 0 <= v -> exists h, 0 < h <= 1 /\ h * v < u.
Proof.
  intros Hu Hv. assert (D : 0 < u + v) by lra. exists (u / (u + v)).
  assert (E : u / (u + v) * (u + v) = u) by (field; lra).
  assert (0 < u / (u + v)) by (apply Rdiv_lt_0_compat; assumption).
  split; [split; [assumption|]|].
  - apply Rmult_le_reg_r with (u + v); [exact D|]. lra.
  - rewrite Rmult_plus_distr_l in E. assert (0 < u / (u + v) * u) by (apply Rmult_lt_0_compat; assumption). lra.
Qed.
Lemma not_dominated : forall n (f : nat -> R) C, 0 <= C -> f n <> 0 ->
  exists h, 0 < h <= 1 /\ C * h ^ S n < Rabs (rsum (S n) (fun m => f m * h ^ m)).
Proof.
  induction n as [|n IH]; intros f C HC Hf.
  - destruct (small_enough (Rabs (f 0%nat)) C (Rabs_pos_lt _ Hf) HC) as (h & Hh & B). exists h. split; [exact Hh|].
    cbn [rsum pow]. replace (0 + f 0%nat * 1) with (f 0%nat) by ring. lra.
  - destruct (Req_dec (f 0%nat) 0) as [Z|Z].
    + destruct (IH (fun m => f (S m)) C HC Hf) as (h & Hh & B). exists h. split; [exact Hh|].
      rewrite rsum_S_first, Z. replace (0 * h ^ 0) with 0 by ring.
      rewrite (rsum_ext (S n) (fun m => f (S m) * h ^ S m) (fun m => h * (f (S m) * h ^ m))) by (intros; cbn [pow]; ring).
      rewrite rsum_scal, Rplus_0_l, Rabs_mult, (Rabs_right h) by lra. cbn [pow] in *.
      replace (C * (h * (h * h ^ n))) with (h * (C * (h * h ^ n))) by ring. apply Rmult_lt_compat_l; lra.
    + set (S1 := rsum (S n) (fun m => Rabs (f (S m)))).
      assert (S0 : 0 <= S1) by (apply rsum_nonneg; intros; apply Rabs_pos).
      destruct (small_enough (Rabs (f 0%nat)) (S1 + C) (Rabs_pos_lt _ Z) ltac:(lra)) as (h & Hh & B). exists h. split; [exact Hh|].
      rewrite rsum_S_first. cbn [pow]. rewrite Rmult_1_r.
      assert (T : Rabs (rsum (S n) (fun m => f (S m) * (h * h ^ m))) <= h * S1).
      { unfold S1. rewrite <- rsum_scal. apply rsum_abs_le. intros m Hm. rewrite !Rabs_mult, (Rabs_right h) by lra.
        assert (P : Rabs (h ^ m) <= 1).
        { rewrite <- RPow_abs, Rabs_right by lra. rewrite <- (pow1 m). apply pow_incr. lra. }
        pose proof (Rabs_pos (f (S m))).
        assert (Rabs (f (S m)) * h * Rabs (h ^ m) <= Rabs (f (S m)) * h * 1) by (apply Rmult_le_compat_l; [apply Rmult_le_pos; lra|exact P]). lra. }
      assert (P : h * (h * h ^ n) <= h * 1).
      { apply Rmult_le_compat_l; [lra|]. change (h * h ^ n) with (h ^ S n). rewrite <- (pow1 (S n)). apply pow_incr. lra. }
      assert (C * (h * (h * h ^ n)) <= C * (h * 1)) by (apply Rmult_le_compat_l; assumption).
      pose proof (Rabs_triang_inv (f 0%nat) (- rsum (S n) (fun m => f (S m) * (h * h ^ m)))) as V.
      rewrite Rabs_Ropp in V. unfold Rminus in V at 2. rewrite Ropp_involutive in V. lra.
Qed.

(** ** The dual solution near zero *)
Section Dual.
Variables (s : nat) (a : nat -> nat -> R) (b : nat -> R).
Hypothesis Hup : forall i j, (i < j < s)%nat -> a i j = 0.
Hypothesis Hd : forall i, (i < s)%nat -> 0 <= a i i.

Lemma dual_bounded : exists M, 0 <= M /\ forall z w, -1 <= z <= 0 -> dual s a b z w -> forall j, (j < s)%nat -> Rabs (w j) <= M.
Proof.
  assert (G : forall m, (m <= s)%nat -> exists M, 0 <= M /\ forall z w, -1 <= z <= 0 -> dual s a b z w -> forall j, (s - m <= j < s)%nat -> Rabs (w j) <= M).
  { induction m as [|m IH]; intros Hm; [exists 0; split; [lra|intros; lia]|].
    destruct (IH ltac:(lia)) as (M & M0 & HM). set (l := (s - S m)%nat).
    set (S1 := rsum (s - S l) (fun i => M * Rabs (a (S l + i)%nat l))).
    assert (S0 : 0 <= S1) by (apply rsum_nonneg; intros; apply Rmult_le_pos; [exact M0|apply Rabs_pos]).
    exists (M + Rabs (b l) + S1). pose proof (Rabs_pos (b l)) as B0. split; [lra|].
    intros z w Hz Hw j Hj. destruct (Nat.eq_dec j l) as [->|Ne].
    - pose proof (Hw l ltac:(lia)) as E. rewrite (column_sum s a Hup l w) in E by lia.
      set (r := rsum (s - S l) (fun i => w (S l + i)%nat * a (S l + i)%nat l)) in E.
      assert (R1 : Rabs r <= S1).
      { apply rsum_abs_le. intros i Hi. rewrite Rabs_mult. apply Rmult_le_compat_r; [apply Rabs_pos|]. apply (HM z w Hz Hw). lia. }
      assert (F : w l * (1 + - z * a l l) = b l + z * r) by (rewrite Rmult_plus_distr_l, Rmult_1_r, E at 1; ring).
      pose proof (Hd l ltac:(lia)) as D. assert (0 <= - z * a l l) by (apply Rmult_le_pos; lra).
      assert (Rabs (w l) <= Rabs (w l * (1 + - z * a l l))).
      { rewrite Rabs_mult, (Rabs_right (1 + _)) by lra. pose proof (Rabs_pos (w l)).
        assert (Rabs (w l) * 1 <= Rabs (w l) * (1 + - z * a l l)) by (apply Rmult_le_compat_l; lra). lra. }
      rewrite F in H0. assert (Rabs (z * r) <= 1 * S1).
      { rewrite Rabs_mult. apply Rmult_le_compat; auto using Rabs_pos. apply Rabs_le. lra. }
      pose proof (Rabs_triang (b l) (z * r)). lra.
    - pose proof (HM z w Hz Hw j ltac:(lia)). lra. }
  destruct (G s ltac:(lia)) as (M & M0 & HM). exists M. split; [exact M0|]. intros z w Hz Hw j Hj. apply (HM z w Hz Hw). lia.
Qed.
Lemma dual_recursion z w v : dual s a b z w ->
  rsum s (fun i => w i * v i) = rsum s (fun i => b i * v i) + z * rsum s (fun i => w i * rsum s (fun j => a i j * v j)).
Proof.
  intros Hw.
  rewrite (rsum_ext s (fun i => w i * v i) (fun i => b i * v i + z * rsum s (fun k => w k * (a k i * v i)))).
  2:{ intros i Hi. rewrite (Hw i Hi) at 1.
      rewrite (rsum_ext s (fun k => w k * (a k i * v i)) (fun k => v i * (w k * a k i))) by (intros; ring). rewrite rsum_scal. ring. }
  rewrite rsum_plus, rsum_scal, rsum_swap. f_equal. f_equal. apply rsum_ext. intros i Hi. now rewrite rsum_scal.
Qed.
Lemma propagated_step v m i : propagated s a (S m) v i = propagated s a m (fun i => rsum s (fun j => a i j * v j)) i.
Proof.
  revert i. induction m as [|m IH]; intros i; [reflexivity|]. cbn [propagated] in *. apply rsum_ext. intros j Hj. now rewrite <- IH.
Qed.
(** z W(z) = z^(m+1) (beta + z theta) with theta bounded. *)
Lemma dual_expansion m : forall v, rsum s (fun i => b i * propagated s a m v i) <> 0 ->
  exists k beta u, (k <= m)%nat /\ beta <> 0 /\ forall z w, dual s a b z w ->
    rsum s (fun i => w i * v i) = z ^ k * (beta + z * rsum s (fun i => w i * u i)).
Proof.
  induction m as [|m IH]; intros v Hv.
  - exists 0%nat, (rsum s (fun i => b i * v i)), (fun i => rsum s (fun j => a i j * v j)). split; [lia|]. split; [exact Hv|].
    intros z w Hw. rewrite (dual_recursion z w v Hw). cbn [pow]. ring.
  - destruct (Req_dec (rsum s (fun i => b i * v i)) 0) as [Z|Z].
    + destruct (IH (fun i => rsum s (fun j => a i j * v j))) as (k & beta & u & Hk & Hb & G).
      { intros E. apply Hv. rewrite <- E. apply rsum_ext. intros i Hi. f_equal. apply propagated_step. }
      exists (S k), beta, u. split; [lia|]. split; [exact Hb|]. intros z w Hw. rewrite (dual_recursion z w v Hw), Z, (G z w Hw). cbn [pow]. ring.
    + exists 0%nat, (rsum s (fun i => b i * v i)), (fun i => rsum s (fun j => a i j * v j)). split; [lia|]. split; [exact Z|].
      intros z w Hw. rewrite (dual_recursion z w v Hw). cbn [pow]. ring.
Qed.
Lemma dual_nonzero v m kappa : rsum s (fun i => b i * propagated s a m v i) <> 0 ->
  exists z, -1 <= z < 0 /\ forall w, dual s a b z w -> z * rsum s (fun i => w i * v i) + kappa <> 0.
Proof.
  intros Hv. destruct (dual_expansion m v Hv) as (k & beta & u & _ & Hb & G). destruct dual_bounded as (M & M0 & HM).
  set (U := rsum s (fun i => M * Rabs (u i))).
  assert (U0 : 0 <= U) by (apply rsum_nonneg; intros; apply Rmult_le_pos; [exact M0|apply Rabs_pos]).
  assert (B : forall z w, -1 <= z <= 0 -> dual s a b z w -> Rabs (rsum s (fun i => w i * u i)) <= U).
  { intros z w Hz Hw. apply rsum_abs_le. intros i Hi. rewrite Rabs_mult. apply Rmult_le_compat_r; [apply Rabs_pos|]. now apply (HM z w). }
  destruct (Req_dec kappa 0) as [->|Hk].
  - destruct (small_enough (Rabs beta) U (Rabs_pos_lt _ Hb) U0) as (h & Hh & L). exists (- h). split; [lra|]. intros w Hw.
    rewrite (G _ w Hw), Rplus_0_r. pose proof (B (- h) w ltac:(lra) Hw) as T.
    assert (N : beta + - h * rsum s (fun i => w i * u i) <> 0).
    { intros E. assert (E' : beta = h * rsum s (fun i => w i * u i)) by lra. rewrite E', Rabs_mult, (Rabs_right h) in L by lra.
      assert (h * Rabs (rsum s (fun i => w i * u i)) <= h * U) by (apply Rmult_le_compat_l; lra). lra. }
    apply Rmult_integral_contrapositive_currified; [lra|]. apply Rmult_integral_contrapositive_currified; [apply pow_nonzero; lra|exact N].
  - pose proof (Rabs_pos beta) as B0. destruct (small_enough (Rabs kappa) (Rabs beta + U) (Rabs_pos_lt _ Hk) ltac:(lra)) as (h & Hh & L).
    exists (- h). split; [lra|]. intros w Hw E.
    rewrite (G _ w Hw) in E. pose proof (B (- h) w ltac:(lra) Hw) as T.
    assert (E' : kappa = h * ((- h) ^ k * (beta + - h * rsum s (fun i => w i * u i)))) by lra.
    rewrite E', !Rabs_mult, (Rabs_right h) in L by lra.
    assert (P : Rabs ((- h) ^ k) <= 1).
    { rewrite <- RPow_abs, Rabs_Ropp, Rabs_right by lra. rewrite <- (pow1 k). apply pow_incr. lra. }
    assert (Q : Rabs (beta + - h * rsum s (fun i => w i * u i)) <= Rabs beta + U).
    { eapply Rle_trans; [apply Rabs_triang|]. rewrite Rabs_mult, Rabs_Ropp, (Rabs_right h) by lra.
      assert (h * Rabs (rsum s (fun i => w i * u i)) <= 1 * U) by (apply Rmult_le_compat; auto using Rabs_pos; lra). lra. }
    assert (Rabs ((- h) ^ k) * Rabs (beta + - h * rsum s (fun i => w i * u i)) <= 1 * (Rabs beta + U)) by (apply Rmult_le_compat; auto using Rabs_pos).
    assert (h * (Rabs ((- h) ^ k) * Rabs (beta + - h * rsum s (fun i => w i * u i))) <= h * (1 * (Rabs beta + U))) by (apply Rmult_le_compat_l; lra). lra.
Qed.
End Dual.

(** ** One step *)
Lemma theta_nonzero k : theta k 0 <> 0.
Proof.
  assert (C : cos (PI / 4) <> 0) by (rewrite cos_PI4; pose proof (sqrt_lt_R0 2 ltac:(lra)); apply Rgt_not_eq; unfold Rdiv; rewrite Rmult_1_l; apply Rinv_0_lt_compat; assumption).
  assert (S : sin (PI / 4) <> 0) by (rewrite sin_PI4; pose proof (sqrt_lt_R0 2 ltac:(lra)); apply Rgt_not_eq; unfold Rdiv; rewrite Rmult_1_l; apply Rinv_0_lt_compat; assumption).
  assert (G : forall x, sin x <> 0 /\ cos x <> 0 -> forall k, sin (x + INR k * (PI / 2)) <> 0 /\ cos (x + INR k * (PI / 2)) <> 0).
  { intros x H. induction k0 as [|k0 IH]; [cbn [INR]; rewrite Rmult_0_l, Rplus_0_r; exact H|].
    rewrite S_INR. replace (x + (INR k0 + 1) * (PI / 2)) with (PI / 2 + (x + INR k0 * (PI / 2))) by ring.
    rewrite <- cos_sin. split; [apply IH|]. rewrite Rplus_comm, cos_plus, cos_PI2, sin_PI2. intros E. apply (proj1 IH). lra. }
  unfold theta, sine_phi. rewrite Rplus_0_l. apply G. split; assumption.
Qed.

Lemma step_lower s a b c q z w : (0 < q)%nat ->
  z * rsum s (fun i => w i * stage_residual s a c q i) + moment s b c 1 q <> 0 ->
  forall K, 0 <= K -> exists h, 0 < h <= 1 /\
    K * h ^ S (S q) < Rabs (z * rsum s (fun i => w i * missed_increment s (a i) c (c i) 0 h) + missed_increment s b c 1 0 h).
Proof.
  intros Hq Hn K HK.
  set (f := fun m => theta (S m) 0 / INR (fact m) * (z * rsum s (fun i => w i * stage_residual s a c m i) + moment s b c 1 m)).
  assert (Hf : f q <> 0).
  { unfold f. apply Rmult_integral_contrapositive_currified; [|exact Hn]. unfold Rdiv. apply Rmult_integral_contrapositive_currified; [apply theta_nonzero|apply Rinv_neq_0_compat, fact_pos]. }
  set (C := rsum s (fun i => Rabs (z * w i) * spread s (a i) c (c i) (S q)) + spread s b c 1 (S q)).
  assert (C0 : 0 <= C).
  { unfold C. pose proof (spread_nonneg s b c 1 (S q)).
    assert (0 <= rsum s (fun i => Rabs (z * w i) * spread s (a i) c (c i) (S q))) by (apply rsum_nonneg; intros; apply Rmult_le_pos; [apply Rabs_pos|apply spread_nonneg]). lra. }
  destruct (not_dominated q f (K + C) ltac:(lra) Hf) as (h & Hh & B). exists h. split; [exact Hh|].
  set (L := rsum (S q) (fun m => f m * h ^ m)) in *.
  set (X := z * rsum s (fun i => w i * missed_increment s (a i) c (c i) 0 h) + missed_increment s b c 1 0 h).
  assert (D : X - h * L = rsum s (fun i => z * w i * (missed_increment s (a i) c (c i) 0 h - leading s (a i) c (c i) 0 h (S q)))
     + (missed_increment s b c 1 0 h - leading s b c 1 0 h (S q))).
  { assert (E : h * L = rsum s (fun i => z * w i * leading s (a i) c (c i) 0 h (S q)) + leading s b c 1 0 h (S q)).
    { unfold leading, L, f. rewrite <- rsum_scal.
      rewrite (rsum_ext s (fun i => z * w i * rsum (S q) (fun m => theta (S m) 0 * (h ^ S m / INR (fact m)) * moment s (a i) c (c i) m))
        (fun i => rsum (S q) (fun m => z * w i * (theta (S m) 0 * (h ^ S m / INR (fact m)) * moment s (a i) c (c i) m)))) by (intros; now rewrite rsum_scal).
      rewrite rsum_swap, <- rsum_plus. apply rsum_ext. intros m Hm.
      rewrite (rsum_ext s (fun i => z * w i * (theta (S m) 0 * (h ^ S m / INR (fact m)) * moment s (a i) c (c i) m))
        (fun i => (z * theta (S m) 0 * (h ^ S m / INR (fact m))) * (w i * stage_residual s a c m i))) by (intros; rewrite <- moment_residual; ring).
      rewrite rsum_scal. cbn [pow]. field. apply fact_pos. }
    rewrite E. unfold X. rewrite <- rsum_scal.
    rewrite (rsum_ext s (fun i => z * w i * (missed_increment s (a i) c (c i) 0 h - leading s (a i) c (c i) 0 h (S q)))
      (fun i => z * (w i * missed_increment s (a i) c (c i) 0 h) - z * w i * leading s (a i) c (c i) 0 h (S q))) by (intros; ring).
    rewrite rsum_minus. ring. }
  assert (R1 : Rabs (X - h * L) <= h ^ S (S q) * C).
  { rewrite D. eapply Rle_trans; [apply Rabs_triang|]. unfold C. rewrite Rmult_plus_distr_l. apply Rplus_le_compat.
    - rewrite <- rsum_scal. apply rsum_abs_le. intros i Hi. rewrite (Rabs_mult (z * w i)).
      pose proof (increment_expansion s (a i) c (c i) 0 h (S q) ltac:(lra) ltac:(lia)) as I.
      replace (h ^ S (S q) * (Rabs (z * w i) * spread s (a i) c (c i) (S q))) with (Rabs (z * w i) * (h ^ S (S q) * spread s (a i) c (c i) (S q))) by ring.
      apply Rmult_le_compat_l; [apply Rabs_pos|exact I].
    - apply increment_expansion; [lra|lia]. }
  assert (H1 : h * ((K + C) * h ^ S q) < h * Rabs L) by (apply Rmult_lt_compat_l; lra).
  assert (H2 : h * Rabs L <= Rabs X + Rabs (X - h * L)).
  { rewrite <- (Rabs_right h) at 1 by lra. rewrite <- Rabs_mult. replace (h * L) with (X - (X - h * L)) at 1 by ring.
    eapply Rle_trans; [apply Rabs_triang|]. rewrite Rabs_Ropp. lra. }
  cbn [pow] in *. lra.
Qed.

Lemma c88_sharp x q e (bt : tableau R) md K :
  In (x, (q, e)) stiff_orders -> shipped_init x = Ok (bt, []) -> metadata_of 1 prothero_variables ["x"] [] = Ok [md] ->
  exists lam h, lam < 0 /\ 0 < h <= 1 /\
  forall C (op : options R C) v norm c w outp,
  fixed_steps op bt (openmdao_ode (stage_problem (prothero_component lam)) md (stage_vectors (prothero_component lam) v) norm) h 1 ->
  in_use op md (scalar_io "x") c w -> layout outp = snd (scalar_io "x") ->
  exists w' x1, component_compute op md (vec_in "x" 0 (sin (0 + PI / 4))) outp w = (w', Ok (vec_out "x" (0 + INR 1 * h) x1)) /\
    K * h ^ S (S q) < Rabs (x1 - prothero_exact lam 0 (sin (0 + PI / 4)) (0 + INR 1 * h)).
Proof.
  intros Hx Hbt Hmd. apply prothero_md_unique in Hmd as ->.
  destruct (stiff_facts x q e bt Hx Hbt) as (W & I & P). destruct (stiff_sizes x q e Hx) as (Hq & _ & _).
  destruct (c88_weak x q e bt [] Hx Hbt) as (_ & m & _ & Hm).
  set (s := t_stages bt) in *. set (a := entry (t_A bt)) in *. set (b := fun i => vnth i (t_b bt)) in *. set (cc := fun i => vnth i (t_c bt)) in *.
  pose proof (upper_zero bt I : forall i j, (i < j < s)%nat -> a i j = 0) as Hup.
  pose proof (stiff_diagonal x q e bt [] Hx Hbt : forall i, (i < s)%nat -> 0 <= a i i) as Hd.
  assert (N : rsum s (fun i => b i * propagated s a m (stage_residual s a cc q) i) <> 0).
  { intros E. unfold weak_residual in Hm. rewrite E, Rabs_R0 in Hm. lra. }
  destruct (dual_nonzero s a b Hup Hd (stage_residual s a cc q) m (moment s b cc 1 q) N) as (z & Hz & G).
  assert (Hr0 : forall i, (i < s)%nat -> 1 - z * a i i <> 0).
  { intros i Hi. pose proof (Hd i Hi). assert (0 <= - z * a i i) by (apply Rmult_le_pos; lra). lra. }
  destruct (dual_exists s a b z Hup Hr0) as (wd & Hw). destruct (amplification_exists s a b Hup z Hr0) as (rho & A).
  destruct (step_lower s a b cc q z wd Hq (G wd Hw) (Rabs K) (Rabs_pos K)) as (h & Hh & B).
  exists (z / h), h. split; [unfold Rdiv; rewrite <- (Rmult_0_l (/ h)); apply Rmult_lt_compat_r; [apply Rinv_0_lt_compat|]; lra|]. split; [exact Hh|].
  intros C op v norm c w outp Hop Hu L.
  assert (Ez : h * (z / h) = z) by (field; lra).
  assert (Hr : forall i, (i < t_stages bt)%nat -> 1 - z / h * h * entry (t_A bt) i i <> 0).
  { intros i Hi. replace (z / h * h) with z by (field; lra). now apply Hr0. }
  destruct (prothero_compute_run op bt (z / h) v h norm 1 Hop P W I Hr c w 0 (sin (0 + PI / 4)) outp Hu L) as (w' & x1 & E & St & _).
  exists w', x1. split; [exact E|]. cbn [repeat rk_steps] in St. destruct St as (k & y1 & St & Ey). subst y1.
  rewrite <- Ez in Hw, A.
  pose proof (prothero_step_error s a b cc (z / h) 0 h (sin (0 + PI / 4)) k x1 wd rho Hw A St) as X.
  unfold prothero_exact. replace (sin (0 + PI / 4) - sin (0 + PI / 4)) with 0 by ring. rewrite Rmult_0_l, Rplus_0_r. cbn [INR]. rewrite Rmult_1_l.
  unfold phi in X at 1 2. replace (sin (0 + PI / 4) - sin (0 + PI / 4)) with 0 in X by ring. rewrite Rmult_0_r, Rplus_0_l, Ez in X.
  rewrite (Rplus_0_l h), X, Rplus_0_l. eapply Rle_lt_trans; [|exact B]. apply Rmult_le_compat_r; [apply pow_le; lra|apply Rle_abs].
Qed.

Lemma c87_covers x : In x all_tableaux -> forall (bt : tableau R) ws, shipped_init x = Ok (bt, ws) ->
  is_explicit bt = false -> exists q e, In (x, (q, e)) stiff_orders.
Proof.
  intros Hx bt ws Hb He.
  assert (P : exists nu eh, In (x, (nu, eh)) precision).
  { rewrite <- shipped_complete in Hx. apply in_map_iff in Hx as ((y & nu & eh) & <- & H). eauto. }
  destruct P as (nu & eh & P). destruct (shipped_constructed x nu eh P) as (bt' & E & W & _ & _ & _ & _ & EA & _).
  rewrite Hb in E. injection E as <- _.
  assert (Ls : t_stages bt = length (s_A x)) by (rewrite <- (tw_A _ W), EA, map_length; reflexivity).
  assert (G : (exists q e, In (x, (q, e)) stiff_orders) \/
    forallb (fun i => forallb (fun j => zero_literal (nth j (nth i (s_A x) []) (Lit 0))) (seq i (length (s_A x) - i))) (seq 0 (length (s_A x))) = true).
  { clear - Hx. repeat (destruct Hx as [<-|Hx]; [first [right; reflexivity|left; do 2 eexists; unfold stiff_orders; cbn [In]; tauto]|]). contradiction. }
  destruct G as [G|G]; [exact G|]. exfalso.
  assert (T : is_explicit bt = true); [|congruence]. apply is_explicit_spec. intros i j Hij. rewrite EA.
  rewrite forallb_forall in G. specialize (G i ltac:(apply in_seq; lia)). rewrite forallb_forall in G. specialize (G j ltac:(apply in_seq; lia)).
  change (mat_of (s_A x) i j = 0). rewrite mat_of_row. unfold vec_of, vnth.
  replace 0 with (evalR (Lit 0)) by (cbn; unfold Q2R; cbn; lra). rewrite (map_nth evalR). replace (evalR (Lit 0)) with 0 by (cbn; unfold Q2R; cbn; lra).
  apply zero_literal_sound, G.
Qed.

Lemma c87_explicit_refuted :
  ~ (forall x, In x all_tableaux -> forall (bt : tableau R) C (op : options R C) md v h norm n c w t y outp w' y1,
     shipped_init x = Ok (bt, []) -> metadata_of 1 simple_variables ["y"] [] = Ok [md] ->
     fixed_steps op bt (openmdao_ode (stage_problem simple_component) md (stage_vectors simple_component v) norm) h n ->
     0 < h -> in_use op md (scalar_io "y") c w -> layout outp = snd (scalar_io "y") ->
     component_compute op md (vec_in "y" t y) outp w = (w', Ok (vec_out "y" (t + INR n * h) y1)) -> Rabs y1 <= Rabs y).
Proof.
  intros Hall. destruct rk4_amplification as (bt & E & W & P & I & D & A).
  set (op := study_op bt (openmdao_ode (stage_problem simple_component) simple_md (stage_vectors simple_component 1) (fun _ => 0)) 4 1).
  assert (Hr : forall i, (i < t_stages bt)%nat -> 1 + 4 * entry (t_A bt) i i <> 0) by (intros i Hi; rewrite (D i Hi); lra).
  destruct (c66_compute Datatypes.unit op bt simple_md 1 4 (fun _ => 0) 1 _ tt (setup op tt) 0 1 (vec_out "y" 0 0) simple_metadata
    (study_fixed _ _ _ _) W I P Hr (A (- (4))) (study_in_use _ _ _ _ _ _) eq_refl) as (w' & R1).
  assert (Ix : In runge_kutta_four all_tableaux) by (unfold all_tableaux; cbn [In]; tauto).
  specialize (Hall runge_kutta_four Ix bt _ op simple_md 1 4 (fun _ => 0) 1%nat tt (setup op tt) 0 1 (vec_out "y" 0 0) w' _ E simple_metadata
    (study_fixed _ _ _ _) ltac:(lra) (study_in_use _ _ _ _ _ _) eq_refl R1).
  rewrite Rabs_R1 in Hall. rewrite Rabs_right in Hall by (cbn [pow]; lra). cbn [pow] in Hall. lra.
Qed.
