(** The error of Runge-Kutta steps with stage equations solved up to a tolerance
    and a right hand side that is smooth only in a box. *)
From Coq Require Import List Reals Lia Lra Bool Arith.
From Verif Require Import Base Ext M_ODE SpecRK SpecTree SpecOrder SpecConvergence SpecSmooth SpecLocal L_Convergence L_Series L_Series2 L_OrderConv.
Import ListNotations.
Open Scope R_scope.

(** *** One inexact step with a globally Lipschitz right hand side *)
Lemma Rabs_le_inv x r : Rabs x <= r -> - r <= x <= r.
Proof. unfold Rabs; destruct (Rcase_abs x); lra. Qed.

Section Inexact.
Variables (n p : nat) (f : R -> list R -> list R) (L : R).
Hypothesis Hp : (0 < p)%nat.
Hypothesis HL0 : 0 <= L.
Hypothesis HL : lipschitz n L f.
Variables (t0 t1 : R) (Y : R -> list R).
Hypothesis HY : solution n f t0 t1 Y.
Variables (D : R -> list (list R) -> list R) (B : R).
Hypothesis HB : 0 <= B.
Hypothesis HD : forall t, t0 <= t <= t1 -> smooth_at n p f t (Y t) (D t) B.
Variables (s : nat) (a : nat -> nat -> R) (b c : nat -> R) (eps nu : R).
Hypothesis Hord : order_conditions s a b p eps.
Hypothesis Hrow : row_conditions s a c nu.
Hypothesis Hnu : 0 <= nu.

Lemma inexact_step : exists C H, 0 <= C /\ 0 < H <= 1 /\
  forall t h y k y1 e tol, t0 <= t -> 0 < h <= H -> t + h <= t1 -> length y = n -> 0 <= tol ->
  (forall i, (i < s)%nat -> within n tol (k i) (f (t + c i * h) (rk_stage_value s n a h y k i))) ->
  y1 = vmake n (fun m => vnth m y + h * rsum s (fun i => b i * vnth m (k i))) ->
  0 <= e -> within n e y (Y t) ->
  within n (e + h * (C * (h ^ p + e + nu + eps + tol))) y1 (Y (t + h)).
Proof.
  destruct (row_bound p Hp s a) as (al & A0 & A1).
  assert (P : 0 <= L * al) by (apply Rmult_le_pos; assumption).
  assert (P4 : 0 < 4 * (L * al) + 1) by lra.
  set (H := / (4 * (L * al) + 1)).
  assert (HH : 0 < H <= 1).
  { unfold H; split; [apply Rinv_0_lt_compat, P4|]; rewrite <- Rinv_1; apply Rinv_le_contravar; lra. }
  destruct (local_error (S n) p (aug f) (2 * L) (B + 1) Hp ltac:(lra) ltac:(lra) (aug_lipschitz n p f L Hp HL0 HL) t0 t1 (augY Y) (augD D)
    (augY_length n f t0 t1 Y HY) (aug_expands n p f Hp t0 t1 Y D B HB HD) (aug_solution n p f Hp t0 t1 Y HY) s a al A0 A1 b eps Hord) as (C & C0 & HC).
  set (be := rsum s (fun i => Rabs (b i))).
  assert (Pbe : 0 <= be) by (apply rsum_nonneg; intros; apply Rabs_pos).
  assert (Pe : 0 <= eps).
  { eapply Rle_trans; [apply Rabs_pos|apply (Hord (Node [])); cbn; lia]. }
  assert (Pca : 0 <= C * al) by (apply Rmult_le_pos; assumption).
  exists (C + C * al + be), H; split; [lra|]; split; [exact HH|].
  intros t h y k y1 e tol H0 Hh H1 Hy Ht Hk Ey He W m Hm.
  set (x := rk_stage_value s n a h y k) in *.
  set (k' := fun i => 1 :: f (t + c i * h) (x i)).
  assert (X : stages (S n) (aug f) (2 * L) t0 t1 (augY Y) s a al t h (t :: y) k' (fun i => (t + c i * h) :: x i) e (nu + al * tol)).
  { assert (Pat : 0 <= al * tol) by (apply Rmult_le_pos; assumption).
    constructor; [lra|lra| | |exact He|lra| | | ].
    - assert (Q : h * (4 * (L * al) + 1) <= 1).
      { apply Rle_trans with (H * (4 * (L * al) + 1)); [apply Rmult_le_compat_r; lra|].
        unfold H; rewrite Rinv_l; lra. }
      lra.
    - intros j Hj; destruct j as [|j]; unfold augY; rewrite ?vnth_0, ?vnth_S.
      + rewrite Rminus_eq_0, Rabs_R0; exact He.
      + apply W; lia.
    - intros i Hi; cbn; f_equal; apply vmake_length.
    - intros i j Hi Hj; destruct j as [|j]; unfold k'; rewrite ?vnth_0, ?vnth_S.
      + replace (t + c i * h - (t + h * rsum s (fun l => a i l * vnth 0 (1 :: f (t + c l * h) (x l))))) with ((c i - rsum s (a i)) * h).
        * rewrite Rabs_mult, (Rabs_right h) by lra; apply Rmult_le_compat_r; [lra|].
          pose proof (Hrow i Hi); lra.
        * rewrite (rsum_ext s (fun l => a i l * vnth 0 (1 :: f (t + c l * h) (x l))) (a i)) by (intros; rewrite vnth_0; ring); ring.
      + unfold x at 1; unfold rk_stage_value; rewrite vnth_vmake by lia.
        rewrite (rsum_ext s (fun l => a i l * vnth (S j) (1 :: f (t + c l * h) (x l))) (fun l => a i l * vnth j (f (t + c l * h) (x l)))) by (intros; reflexivity).
        match goal with |- Rabs ?u <= _ => replace u with (h * rsum s (fun l => a i l * (vnth j (k l) - vnth j (f (t + c l * h) (x l))))) end.
        * rewrite Rabs_mult, (Rabs_right h) by lra.
          apply Rle_trans with (h * (al * tol)).
          { apply Rmult_le_compat_l; [lra|]; apply rsum_weighted; [|apply A1, Hi|exact Ht].
            intros l Hl; apply (Hk l Hl); lia. }
          assert (0 <= h * nu) by (apply Rmult_le_pos; lra); lra.
        * rewrite (rsum_ext s (fun l => a i l * (vnth j (k l) - vnth j (f (t + c l * h) (x l))))
            (fun l => a i l * vnth j (k l) - a i l * vnth j (f (t + c l * h) (x l)))) by (intros; ring).
          rewrite rsum_sub; ring.
    - intros i Hi; unfold k', aug; cbn [tl]; rewrite vnth_0; reflexivity. }
  pose proof (HC _ _ _ _ _ _ _ X H1 (S m) ltac:(lia)) as E; cbv beta in E.
  unfold augY in E; rewrite !vnth_S in E; unfold k' in E.
  rewrite (rsum_ext s (fun i => b i * vnth (S m) (1 :: f (t + c i * h) (x i))) (fun i => b i * vnth m (f (t + c i * h) (x i)))) in E by (intros; reflexivity).
  rewrite Ey, vnth_vmake by exact Hm.
  assert (V : Rabs (h * rsum s (fun l => b l * (vnth m (k l) - vnth m (f (t + c l * h) (x l))))) <= h * (be * tol)).
  { rewrite Rabs_mult, (Rabs_right h) by lra; apply Rmult_le_compat_l; [lra|].
    apply rsum_weighted; [|unfold be; lra|exact Ht]; intros l Hl; apply (Hk l Hl m Hm). }
  rewrite (rsum_ext s (fun l => b l * (vnth m (k l) - vnth m (f (t + c l * h) (x l))))
    (fun l => b l * vnth m (k l) - b l * vnth m (f (t + c l * h) (x l)))) in V by (intros; ring).
  rewrite rsum_sub in V.
  pose proof (W m Hm) as W'.
  pose proof (pow_le h p ltac:(lra)) as Php.
  assert (Q : h * (C * (h ^ p + e + (nu + al * tol) + eps)) + h * (be * tol) <= h * ((C + C * al + be) * (h ^ p + e + nu + eps + tol))).
  { rewrite <- Rmult_plus_distr_l; apply Rmult_le_compat_l; [lra|].
    assert (0 <= C * al * (h ^ p + e + nu + eps)) by (apply Rmult_le_pos; lra).
    assert (0 <= be * (h ^ p + e + nu + eps)) by (apply Rmult_le_pos; lra).
    assert (0 <= C * tol) by (apply Rmult_le_pos; lra). lra. }
  revert E V W' Q.
  generalize (rsum s (fun i => b i * vnth m (k i))), (rsum s (fun i => b i * vnth m (f (t + c i * h) (x i)))).
  intros u v E V W' Q.
  replace (vnth m y + h * u - vnth m (Y (t + h))) with ((vnth m y + h * v - vnth m (Y (t + h))) + h * (u - v)) by ring.
  pose proof (Rabs_triang (vnth m y + h * v - vnth m (Y (t + h))) (h * (u - v))); lra.
Qed.
End Inexact.

(** *** The right hand side continued from a box to everywhere *)
Definition clamp (lo hi x : R) : R := Rmax lo (Rmin hi x).
Lemma clamp_id lo hi x : lo <= x <= hi -> clamp lo hi x = x.
Proof. intros H; unfold clamp; rewrite Rmin_right by lra; apply Rmax_right; lra. Qed.
Lemma clamp_range lo hi x : lo <= hi -> lo <= clamp lo hi x <= hi.
Proof.
  intros H; unfold clamp, Rmax, Rmin; destruct (Rle_dec hi x), (Rle_dec lo _); lra.
Qed.
Lemma clamp_lip lo hi x y : Rabs (clamp lo hi x - clamp lo hi y) <= Rabs (x - y).
Proof.
  unfold clamp, Rmax, Rmin; destruct (Rle_dec hi x), (Rle_dec hi y);
  repeat match goal with |- context [Rle_dec ?u ?v] => destruct (Rle_dec u v) end; unfold Rabs;
  repeat match goal with |- context [Rcase_abs ?u] => destruct (Rcase_abs u) end; lra.
Qed.

Section Box.
Variables (n : nat) (X : box).
Hypothesis Ht : early X <= late X.
Hypothesis Hx : forall m, (m < n)%nat -> low X m <= high X m.
Definition clampt (t : R) : R := clamp (early X) (late X) t.
Definition clampy (y : list R) : list R := vmake n (fun m => clamp (low X m) (high X m) (vnth m y)).
Variable f : R -> list R -> list R.
Definition continued (t : R) (y : list R) : list R := f (clampt t) (clampy y).

Lemma clamp_inside t y : inside n X 0 (clampt t) (clampy y).
Proof.
  split; [pose proof (clamp_range _ _ t Ht); unfold clampt; lra|].
  intros m Hm; unfold clampy; rewrite vnth_vmake by exact Hm; pose proof (clamp_range _ _ (vnth m y) (Hx m Hm)); lra.
Qed.
Lemma inside_clamp t y : length y = n -> inside n X 0 t y -> clampt t = t /\ clampy y = y.
Proof.
  intros Hy [H1 H2]; split; [apply clamp_id; lra|].
  apply (vnth_ext n); [apply vmake_length|exact Hy|]; intros m Hm; unfold clampy; rewrite vnth_vmake by exact Hm.
  apply clamp_id; pose proof (H2 m Hm); lra.
Qed.
Lemma continued_inside t y : length y = n -> inside n X 0 t y -> continued t y = f t y.
Proof. intros Hy H; unfold continued; destruct (inside_clamp t y Hy H) as [-> ->]; reflexivity. Qed.
Lemma continued_lipschitz L : 0 <= L -> lipschitz_in n X L f -> lipschitz n L continued.
Proof.
  intros L0 HL t t' y z r Hy Hz W.
  assert (W' : within n r (clampy y) (clampy z)).
  { intros m Hm; unfold clampy; rewrite !vnth_vmake by exact Hm; eapply Rle_trans; [apply clamp_lip|apply W, Hm]. }
  pose proof (HL (clampt t) (clampt t') (clampy y) (clampy z) r (vmake_length _ _) (vmake_length _ _) (clamp_inside t y) (clamp_inside t' z) W') as V.
  intros m Hm; eapply Rle_trans; [apply (V m Hm)|]; apply Rmult_le_compat_l; [exact L0|].
  apply Rplus_le_compat_r, clamp_lip.
Qed.
Lemma inside_less r r' t y : r' <= r -> inside n X r t y -> inside n X r' t y.
Proof. intros H [H1 H2]; split; [lra|]; intros m Hm; pose proof (H2 m Hm); lra. Qed.

Lemma continued_smooth L rho p t y D B : (0 < p)%nat -> 0 <= L -> lipschitz_in n X L f -> 0 < rho <= 1 -> 0 <= B ->
  length y = n -> inside n X rho t y -> smooth_near rho n p f t y D B ->
  smooth_at n p continued t y D ((B + 2 * L + INR p * B) / rho ^ p + B).
Proof.
  intros Hp L0 HL Hr HB Hy Hi E.
  assert (Pr : 0 < rho ^ p) by (apply pow_lt; lra).
  assert (PP : 0 <= INR p * B) by (apply Rmult_le_pos; [apply pos_INR|exact HB]).
  assert (PQ : 0 <= (B + 2 * L + INR p * B) / rho ^ p).
  { apply Rmult_le_pos; [lra|left; apply Rinv_0_lt_compat, Pr]. }
  constructor.
  - exact (sn_multilinear _ _ _ _ _ _ _ _ E).
  - intros vs rs m Hm Hl F; eapply Rle_trans; [apply (sn_bounded _ _ _ _ _ _ _ _ E vs rs m Hm Hl F)|].
    apply Rmult_le_compat_r; [|lra].
    clear -F; induction F as [|v r vs rs [H _] F IH]; cbn [fold_right]; [lra|apply Rmult_le_pos; assumption].
  - intros k v r m Hm Hk Hv Hr1 Hb.
    pose proof (pow_le r (S k) (proj1 Hr1)) as Pk.
    destruct (Rle_dec r rho) as [Hle|Hgt].
    + assert (Hin : inside n X 0 (t + vnth 0 v) (vmake n (fun j => vnth j y + vnth (S j) v))).
      { destruct Hi as [I1 I2]; split.
        - pose proof (Hb 0%nat ltac:(lia)) as U; apply Rabs_le_inv in U; lra.
        - intros j Hj; rewrite vnth_vmake by exact Hj; pose proof (Hb (S j) ltac:(lia)) as U; apply Rabs_le_inv in U.
          pose proof (I2 j Hj); lra. }
      rewrite (continued_inside _ _ (vmake_length _ _) Hin).
      eapply Rle_trans; [apply (sn_taylor _ _ _ _ _ _ _ _ E k v r m Hm Hk Hv); [lra|exact Hb]|].
      apply Rmult_le_compat_r; lra.
    + apply Rnot_le_lt in Hgt.
      assert (E0 : Rabs (vnth m (continued t y)) <= B).
      { rewrite (continued_inside t y Hy) by (apply (inside_less rho); [lra|exact Hi]).
        pose proof (sn_taylor _ _ _ _ _ _ _ _ E 0%nat (vmake (S n) (fun _ => 0)) 0 m Hm Hp (vmake_length _ _) ltac:(lra)) as V.
        assert (V' : forall j, (j <= n)%nat -> Rabs (vnth j (vmake (S n) (fun _ => 0))) <= 0).
        { intros j Hj; rewrite vnth_vmake by lia; rewrite Rabs_R0; lra. }
        specialize (V V'); rewrite vnth_vmake, Rplus_0_r in V by lia.
        replace (vmake n (fun j => vnth j y + vnth (S j) (vmake (S n) (fun _ => 0)))) with y in V.
        2:{ apply (vnth_ext n); [exact Hy|apply vmake_length|]; intros j Hj; rewrite !vnth_vmake by lia; ring. }
        cbn [rsum repeat fact INR] in V; rewrite Rinv_1 in V.
        pose proof (sn_bounded _ _ _ _ _ _ _ _ E [] [] m Hm ltac:(cbn; lia) (Forall2_nil _)) as V2; cbn [fold_right] in V2.
        replace (B * 0 ^ 1) with 0 in V by ring.
        set (u := vnth m (f t y)) in *; set (d := vnth m (D [])) in *.
        replace u with ((u - (0 + 1 * d)) + d) by ring.
        pose proof (Rabs_triang (u - (0 + 1 * d)) d); lra. }
      assert (E1 : Rabs (vnth m (continued (t + vnth 0 v) (vmake n (fun j => vnth j y + vnth (S j) v))) - vnth m (continued t y)) <= 2 * L).
      { eapply Rle_trans; [apply (continued_lipschitz L L0 HL _ _ _ _ r (vmake_length _ _) Hy)|].
        - intros j Hj; rewrite vnth_vmake by exact Hj; replace (vnth j y + vnth (S j) v - vnth j y) with (vnth (S j) v) by ring; apply Hb; lia.
        - exact Hm.
        - replace (t + vnth 0 v - t) with (vnth 0 v) by ring; pose proof (Hb 0%nat ltac:(lia)).
          replace (2 * L) with (L * 2) by ring; apply Rmult_le_compat_l; lra. }
      assert (E2 : forall q, (q <= S k)%nat -> Rabs (rsum q (fun i => / INR (fact i) * vnth m (D (repeat v i)))) <= INR q * B).
      { induction q as [|q IH]; intros Hq; [cbn; rewrite Rabs_R0; lra|].
        rewrite S_INR; cbn [rsum]; eapply Rle_trans; [apply Rabs_triang|].
        rewrite Rmult_plus_distr_r; apply Rplus_le_compat; [apply IH; lia|].
        rewrite Rabs_mult, (Rabs_right (/ _)) by (left; apply fact_inv).
        replace (1 * B) with (1 * (B * 1)) by ring.
        apply Rmult_le_compat; [left; apply fact_inv|apply Rabs_pos|apply fact_inv|].
        eapply Rle_trans; [apply (sn_bounded _ _ _ _ _ _ _ _ E (repeat v q) (repeat 1 q) m Hm)|].
        - rewrite repeat_length; lia.
        - clear -Hb Hr1; induction q; cbn; constructor; [|assumption].
          split; [lra|]; intros j Hj; pose proof (Hb j Hj); lra.
        - right; f_equal; clear; induction q as [|q IH]; cbn; [reflexivity|rewrite IH; ring]. }
      specialize (E2 (S k) (le_n _)).
      assert (E3 : INR (S k) * B <= INR p * B) by (apply Rmult_le_compat_r; [exact HB|apply le_INR; lia]).
      assert (E4 : rho ^ p <= r ^ S k).
      { apply Rle_trans with (rho ^ S k); [apply pow_decr; [lra|lia]|apply pow_incr; lra]. }
      assert (E5 : B + 2 * L + INR p * B <= ((B + 2 * L + INR p * B) / rho ^ p + B) * r ^ S k).
      { rewrite Rmult_plus_distr_r; assert (0 <= B * r ^ S k) by (apply Rmult_le_pos; assumption).
        assert ((B + 2 * L + INR p * B) / rho ^ p * rho ^ p <= (B + 2 * L + INR p * B) / rho ^ p * r ^ S k) by (apply Rmult_le_compat_l; assumption).
        replace ((B + 2 * L + INR p * B) / rho ^ p * rho ^ p) with (B + 2 * L + INR p * B) in * by (field; lra); lra. }
      revert E0 E1 E2.
      generalize (vnth m (continued (t + vnth 0 v) (vmake n (fun j => vnth j y + vnth (S j) v)))), (vnth m (continued t y)),
        (rsum (S k) (fun i => / INR (fact i) * vnth m (D (repeat v i)))); intros u w z E0 E1 E2.
      replace (u - z) with ((u - w) + (w + - z)) by ring.
      pose proof (Rabs_triang (u - w) (w + - z)); pose proof (Rabs_triang w (- z)) as T2; rewrite Rabs_Ropp in T2; lra.
Qed.
End Box.
