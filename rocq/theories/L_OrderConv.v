(** The global error of Runge-Kutta steps of a method of order [p]. *)
From Coq Require Import List Reals Lia Lra Bool Arith.
From Verif Require Import SpecRK SpecTree SpecOrder SpecConvergence SpecSmooth L_Convergence L_Series L_Series2.
Import ListNotations.
Open Scope R_scope.

Section Time.
Variables (n p : nat) (f : R -> list R -> list R) (L : R).
Hypothesis Hp : (0 < p)%nat.
Hypothesis HL0 : 0 <= L.
Hypothesis HL : lipschitz n L f.
Variables (t0 t1 : R) (Y : R -> list R).
Hypothesis HY : solution n f t0 t1 Y.
Variables (D : R -> list (list R) -> list R) (B : R).
Hypothesis HB : 0 <= B.
Hypothesis HD : forall t, t0 <= t <= t1 -> smooth_at n p f t (Y t) (D t) B.

(** Time as an additional state. *)
Definition aug (z : list R) : list R := 1 :: f (vnth 0 z) (tl z).
Definition augD (t : R) (vs : list (list R)) : list R := (match vs with [] => 1 | _ => 0 end) :: D t vs.
Definition augY (t : R) : list R := t :: Y t.

Lemma vnth_S m (x : R) l : vnth (S m) (x :: l) = vnth m l.
Proof. reflexivity. Qed.
Lemma vnth_0 (x : R) l : vnth 0 (x :: l) = x.
Proof. reflexivity. Qed.

Lemma aug_lipschitz y z r : length y = S n -> length z = S n -> within (S n) r y z ->
  within (S n) (2 * L * r) (aug y) (aug z).
Proof.
  intros Hy Hz W; destruct y as [|t y]; [discriminate|]; destruct z as [|u z]; [discriminate|].
  pose proof (W 0%nat ltac:(lia)) as W0; rewrite !vnth_0 in W0.
  pose proof (Rabs_pos (t - u)) as P0.
  assert (P : 0 <= L * r) by (apply Rmult_le_pos; lra).
  intros m Hm; destruct m as [|m]; unfold aug; rewrite ?vnth_0, ?vnth_S; cbn [tl].
  - rewrite Rminus_eq_0, Rabs_R0; lra.
  - eapply Rle_trans; [apply (HL t u y z r)|].
    + injection Hy; auto.
    + injection Hz; auto.
    + intros j Hj; apply (W (S j)); lia.
    + lia.
    + replace (2 * L * r) with (L * (r + r)) by ring; apply Rmult_le_compat_l; lra.
Qed.

Lemma augY_length t : length (augY t) = S n.
Proof. cbn; f_equal; apply HY. Qed.

Lemma fold_lprod rs : fold_right Rmult 1 rs = lprod (fun r => r) rs.
Proof. reflexivity. Qed.

Lemma aug_expands t : t0 <= t <= t1 -> expands (S n) p aug (augY t) (augD t) (B + 1).
Proof.
  intros Ht; pose proof (HD t Ht) as E; constructor.
  - intros us ws u v al be m Hm; destruct m as [|m]; unfold augD.
    + destruct us; cbn [app]; rewrite !vnth_0; ring.
    + rewrite !vnth_S; apply (sm_multilinear _ _ _ _ _ _ _ E); lia.
  - intros vs rs m Hm Hl F.
    assert (P : 0 <= lprod (fun r => r) rs).
    { apply lprod_nonneg; intros r Hr; clear -F Hr; induction F as [|v r' vs rs [H _] F IH]; [destruct Hr|]; destruct Hr as [->|Hr]; auto. }
    destruct m as [|m]; unfold augD; rewrite ?vnth_0, ?vnth_S.
    + destruct F; [rewrite lprod_nil, Rabs_R1; lra|rewrite Rabs_R0; apply Rmult_le_pos; lra].
    + eapply Rle_trans; [apply (sm_bounded _ _ _ _ _ _ _ E vs rs); [lia|exact Hl|]|].
      * clear -F; induction F as [|v r vs rs [H H'] F IH]; constructor; auto.
        split; [exact H|]; intros j Hj; apply H'; lia.
      * rewrite fold_lprod; apply Rmult_le_compat_r; lra.
  - intros q v r m Hm Hq Hv Hr Hb.
    pose proof (pow_le r (S q) (proj1 Hr)) as P.
    destruct m as [|m].
    + unfold aug at 1; rewrite vnth_0.
      replace (rsum (S q) (fun k => / INR (fact k) * vnth 0 (augD t (repeat v k)))) with 1.
      * rewrite Rminus_eq_0, Rabs_R0; apply Rmult_le_pos; lra.
      * clear; induction q as [|q IH]; [cbn; rewrite Rinv_1; ring|].
        change (1 = rsum (S q) (fun k => / INR (fact k) * vnth 0 (augD t (repeat v k))) + / INR (fact (S q)) * vnth 0 (augD t (repeat v (S q)))).
        rewrite <- IH; change (vnth 0 (augD t (repeat v (S q)))) with 0; ring.
    + pose proof (sm_taylor _ _ _ _ _ _ _ E q v r m ltac:(lia) Hq Hv Hr) as X.
      unfold aug; rewrite vnth_S.
      replace (vnth 0 (vadd (S n) (augY t) v)) with (t + vnth 0 v) by (rewrite vnth_vadd by lia; reflexivity).
      replace (tl (vadd (S n) (augY t) v)) with (vmake n (fun j => vnth j (Y t) + vnth (S j) v)).
      2:{ unfold vadd, vmake; cbn [seq map tl]; rewrite <- seq_shift, map_map; reflexivity. }
      eapply Rle_trans; [apply X; intros j Hj; apply Hb; lia|]; apply Rmult_le_compat_r; lra.
Qed.

Lemma aug_solution t m : t0 <= t <= t1 -> (m < S n)%nat ->
  derivable_pt_lim (fun u => vnth m (augY u)) t (vnth m (aug (augY t))).
Proof.
  intros Ht Hm; destruct m as [|m]; unfold aug, augY.
  - apply derivable_pt_lim_id.
  - apply HY; [exact Ht|lia].
Qed.

Variables (s : nat) (a : nat -> nat -> R) (b c : nat -> R) (eps nu : R).
Hypothesis Hord : order_conditions s a b p eps.
Hypothesis Hrow : row_conditions s a c nu.
Hypothesis Hnu : 0 <= nu.

Lemma row_bound : exists al, 0 <= al /\ forall i, (i < s)%nat -> rsum s (fun j => Rabs (a i j)) <= al.
Proof.
  destruct (family_max s 1 (fun i _ => rsum s (fun j => Rabs (a i j)))) as (al & A0 & A1 & _).
  exists al; split; [exact A0|]; intros i Hi; eapply Rle_trans; [apply Rle_abs|apply (A1 i 0%nat Hi); lia].
Qed.

(** A step as stage equations with time as a state. *)
Lemma step_stages al : 0 <= al -> exists H, 0 < H <= 1 /\
  forall t h y k y1 e, t0 <= t <= t1 -> 0 < h <= H -> length y = n ->
  rk_equations s n a b c f t h y k y1 -> 0 <= e -> within n e y (Y t) ->
  stages (S n) aug (2 * L) t0 t1 augY s a al t h (t :: y) (fun i => 1 :: k i)
    (fun i => (t + c i * h) :: rk_stage_value s n a h y k i) e nu.
Proof.
  intros A0; assert (P : 0 <= L * al) by (apply Rmult_le_pos; assumption).
  assert (P4 : 0 < 4 * (L * al) + 1) by lra.
  exists (/ (4 * (L * al) + 1)).
  assert (HH : 0 < / (4 * (L * al) + 1) <= 1).
  { split; [apply Rinv_0_lt_compat, P4|]; rewrite <- Rinv_1; apply Rinv_le_contravar; lra. }
  split; [exact HH|].
  intros t h y k y1 e H0 Hh Hy [Hk Hy1] He W.
  constructor; [exact H0|lra| | |exact He|exact Hnu| | | ].
  - assert (Q : h * (4 * (L * al) + 1) <= 1).
    { apply Rle_trans with (/ (4 * (L * al) + 1) * (4 * (L * al) + 1)); [apply Rmult_le_compat_r; lra|].
      rewrite Rinv_l; lra. }
    lra.
  - intros j Hj; destruct j as [|j]; unfold augY; rewrite ?vnth_0, ?vnth_S.
    + rewrite Rminus_eq_0, Rabs_R0; exact He.
    + apply W; lia.
  - intros i Hi; cbn; f_equal; apply vmake_length.
  - intros i j Hi Hj; destruct j as [|j]; rewrite ?vnth_0, ?vnth_S.
    + replace (t + c i * h - (t + h * rsum s (fun l => a i l * vnth 0 (1 :: k l)))) with ((c i - rsum s (a i)) * h).
      * rewrite Rabs_mult, (Rabs_right h) by lra; apply Rmult_le_compat_r; [lra|apply Hrow, Hi].
      * rewrite (rsum_ext s (fun l => a i l * vnth 0 (1 :: k l)) (a i)) by (intros; rewrite vnth_0; ring); ring.
    + unfold rk_stage_value; rewrite vnth_vmake by lia.
      match goal with |- Rabs ?x <= _ => replace x with 0 end.
      * rewrite Rabs_R0; apply Rmult_le_pos; lra.
      * rewrite (rsum_ext s (fun l => a i l * vnth (S j) (1 :: k l)) (fun l => a i l * vnth j (k l))) by (intros; reflexivity); ring.
  - intros i Hi; unfold aug; cbn [tl]; rewrite vnth_0; f_equal; apply Hk, Hi.
Qed.

(** How one step changes the error. *)
Lemma order_step : exists C H, 0 <= C /\ 0 < H <= 1 /\
  forall t h y k y1 e, t0 <= t -> 0 < h <= H -> t + h <= t1 -> length y = n ->
  rk_equations s n a b c f t h y k y1 -> 0 <= e -> within n e y (Y t) ->
  within n (e + h * (C * (h ^ p + e + nu + eps))) y1 (Y (t + h)).
Proof.
  destruct row_bound as (al & A0 & A1); destruct (step_stages al A0) as (H & HH & HS).
  destruct (local_error (S n) p aug (2 * L) (B + 1) Hp ltac:(lra) ltac:(lra) aug_lipschitz t0 t1 augY augD
    augY_length aug_expands aug_solution s a al A0 A1 b eps Hord) as (C & C0 & HC).
  exists C, H; split; [exact C0|]; split; [exact HH|].
  intros t h y k y1 e H0 Hh H1 Hy Hk He W m Hm.
  pose proof (HC _ _ _ _ _ _ _ (HS t h y k y1 e ltac:(lra) Hh Hy Hk He W) H1 (S m) ltac:(lia)) as E; cbv beta in E.
  rewrite (proj2 Hk), vnth_vmake by exact Hm.
  unfold augY in E; rewrite !vnth_S in E.
  rewrite (rsum_ext s (fun i => b i * vnth (S m) (1 :: k i)) (fun i => b i * vnth m (k i))) in E by (intros; reflexivity).
  eapply Rle_trans; [exact E|]; apply Rplus_le_compat_r, W, Hm.
Qed.

(** The difference of the results with two weights. *)
Lemma estimate_step b' eps' : order_conditions s a b' p eps' -> exists C H, 0 <= C /\ 0 < H <= 1 /\
  forall t h y k y1 e, t0 <= t <= t1 -> 0 < h <= H -> length y = n ->
  rk_equations s n a b c f t h y k y1 -> 0 <= e -> within n e y (Y t) -> forall m, (m < n)%nat ->
  Rabs (h * rsum s (fun i => (b i - b' i) * vnth m (k i))) <= h * (C * (h ^ p + e + nu + (eps + eps'))).
Proof.
  intros Hord'; destruct row_bound as (al & A0 & A1); destruct (step_stages al A0) as (H & HH & HS).
  destruct (estimate_error (S n) p aug (2 * L) (B + 1) Hp ltac:(lra) ltac:(lra) aug_lipschitz t0 t1 augY augD
    augY_length aug_expands s a al A0 A1 b eps Hord b' eps' Hord') as (C & C0 & HC).
  exists C, H; split; [exact C0|]; split; [exact HH|].
  intros t h y k y1 e H0 Hh Hy Hk He W m Hm.
  pose proof (HC _ _ _ _ _ _ _ (HS t h y k y1 e H0 Hh Hy Hk He W) (S m) ltac:(lia)) as E; cbv beta in E.
  rewrite (rsum_ext s (fun i => (b i - b' i) * vnth (S m) (1 :: k i)) (fun i => (b i - b' i) * vnth m (k i))) in E by (intros; reflexivity).
  exact E.
Qed.

Lemma order_steps : exists C H, 0 <= C /\ 0 < H /\
  forall hs hm t y z e, t0 <= t -> t + covered hs <= t1 -> Forall (fun h => 0 < h <= hm) hs -> 0 <= hm <= H ->
  length y = n -> 0 <= e -> within n e y (Y t) -> rk_steps s n a b c f t y hs z ->
  within n (C * (e + hm ^ p + nu + eps)) z (Y (t + covered hs)).
Proof.
  destruct order_step as (C & H & C0 & HH & HC).
  assert (Pe : 0 <= eps).
  { eapply Rle_trans; [apply Rabs_pos|apply (Hord (Node [])); cbn; lia]. }
  assert (G : forall hs hm t y z e, t0 <= t -> t + covered hs <= t1 -> Forall (fun h => 0 < h <= hm) hs -> 0 <= hm <= H ->
    length y = n -> 0 <= e -> within n e y (Y t) -> rk_steps s n a b c f t y hs z -> 0 <= covered hs /\
    within n ((e + covered hs * (C * (hm ^ p + nu + eps))) * exp (C * covered hs)) z (Y (t + covered hs))).
  { induction hs as [|h hs IH]; intros hm t y z e H0 H1 HF Hm Hy He W Hr.
    - cbn in *; subst z; split; [lra|]; rewrite Rmult_0_l, Rmult_0_r, exp_0, !Rplus_0_r, Rmult_1_r; exact W.
    - cbn [rk_steps covered] in *; destruct Hr as (k & y1 & Hk & Hr).
      pose proof (Forall_inv HF) as Hh; cbv beta in Hh; apply Forall_inv_tail in HF.
      assert (Hc : 0 <= covered hs).
      { clear -HF; induction HF as [|x l Hx HF IHF]; cbn; lra. }
      pose proof (HC t h y k y1 e H0 ltac:(lra) ltac:(lra) Hy Hk He W) as S.
      pose proof (pow_le hm p (proj1 Hm)) as Php; pose proof (pow_le h p ltac:(lra)) as Php'.
      set (G := C * (hm ^ p + nu + eps)).
      assert (PG : 0 <= G) by (apply Rmult_le_pos; lra).
      assert (S' : within n ((1 + C * h) * e + h * G) y1 (Y (t + h))).
      { intros m Hm'; eapply Rle_trans; [apply S, Hm'|].
        replace ((1 + C * h) * e + h * G) with (e + h * (C * (hm ^ p + e + nu + eps))) by (unfold G; ring).
        apply Rplus_le_compat_l, Rmult_le_compat_l; [lra|]; apply Rmult_le_compat_l; [exact C0|].
        assert (h ^ p <= hm ^ p) by (apply pow_incr; lra); lra. }
      assert (PC : 0 <= C * h) by (apply Rmult_le_pos; lra).
      assert (PhG : 0 <= h * G) by (apply Rmult_le_pos; lra).
      assert (He' : 0 <= (1 + C * h) * e + h * G) by (apply Rplus_le_le_0_compat; [apply Rmult_le_pos|]; lra).
      assert (Hy1 : length y1 = n) by (rewrite (proj2 Hk); apply vmake_length).
      destruct (IH hm (t + h) y1 z _ ltac:(lra) ltac:(lra) HF Hm Hy1 He' S' Hr) as [_ R]; fold G in R.
      split; [lra|].
      replace (t + (h + covered hs)) with (t + h + covered hs) by ring.
      intros m Hm'; eapply Rle_trans; [apply R, Hm'|].
      set (S0 := covered hs) in *.
      replace (C * (h + S0)) with (C * h + C * S0) by ring; rewrite exp_plus.
      rewrite <- (Rmult_assoc _ (exp (C * h))).
      apply Rmult_le_compat_r; [left; apply exp_pos|].
      assert (E1 : 1 + C * h <= exp (C * h)).
      { destruct (Req_dec (C * h) 0) as [E|Hne]; [rewrite E, exp_0; lra|]; left; apply exp_ineq1; lra. }
      assert (E2 : 1 <= exp (C * h)) by lra.
      assert (HS : 0 <= S0 * G) by (apply Rmult_le_pos; lra).
      replace ((e + (h + S0) * G) * exp (C * h)) with (exp (C * h) * e + exp (C * h) * (h * G) + exp (C * h) * (S0 * G)) by ring.
      assert (Q1 : (1 + C * h) * e <= exp (C * h) * e) by (apply Rmult_le_compat_r; assumption).
      assert (Q2 : 1 * (h * G) <= exp (C * h) * (h * G)) by (apply Rmult_le_compat_r; assumption).
      assert (Q3 : 1 * (S0 * G) <= exp (C * h) * (S0 * G)) by (apply Rmult_le_compat_r; assumption).
      lra. }
  set (TT := Rmax 0 (t1 - t0)).
  assert (PT : 0 <= TT) by apply Rmax_l.
  assert (PTC : 0 <= TT * C) by (apply Rmult_le_pos; assumption).
  exists ((1 + TT * C) * exp (C * TT)), H.
  split; [apply Rmult_le_pos; [lra|left; apply exp_pos]|]; split; [lra|].
  intros hs hm t y z e H0 H1 HF Hm Hy He W Hr m Hm'.
  destruct (G hs hm t y z e H0 H1 HF Hm Hy He W Hr) as [Hc R].
  pose proof (pow_le hm p (proj1 Hm)) as Php.
  assert (Q : covered hs <= TT) by (eapply Rle_trans; [|apply Rmax_r]; lra).
  eapply Rle_trans; [apply R, Hm'|].
  assert (P1 : 0 <= C * (hm ^ p + nu + eps)) by (apply Rmult_le_pos; lra).
  assert (P2 : covered hs * (C * (hm ^ p + nu + eps)) <= TT * (C * (hm ^ p + nu + eps))) by (apply Rmult_le_compat_r; assumption).
  assert (P3 : exp (C * covered hs) <= exp (C * TT)).
  { destruct (Req_dec (C * covered hs) (C * TT)) as [->|Hne]; [lra|]; left; apply exp_increasing.
    assert (C * covered hs <= C * TT) by (apply Rmult_le_compat_l; assumption); lra. }
  replace ((1 + TT * C) * exp (C * TT) * (e + hm ^ p + nu + eps)) with ((1 + TT * C) * (e + hm ^ p + nu + eps) * exp (C * TT)) by ring.
  assert (P5 : 0 <= covered hs * (C * (hm ^ p + nu + eps))) by (apply Rmult_le_pos; assumption).
  apply Rmult_le_compat; [lra|left; apply exp_pos| |exact P3].
  replace ((1 + TT * C) * (e + hm ^ p + nu + eps)) with (e + (hm ^ p + nu + eps) + TT * (C * (hm ^ p + nu + eps)) + TT * C * e) by ring.
  assert (0 <= TT * C * e) by (apply Rmult_le_pos; assumption); lra.
Qed.
End Time.
