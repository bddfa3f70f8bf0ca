(** Kaps' problem: the right hand side is smooth next to the solution, and the
    stage solves come close to it. *)
From Coq Require Import String.
From Coq Require Import List Bool Arith Reals Lia Lra.
From Verif Require Import Base Ext M_ODE M_Metadata M_Components SpecRK SpecConvergence SpecLocal M_Packing M_Stage M_Kaps SpecKaps
  L_Vec L_Deriv L_Convergence L_Stage2 L_Local L_Kaps.
Import ListNotations.
Local Open Scope R_scope.
Local Open Scope list_scope.

Definition kaps_box (t1 : R) : box := {| early := - (1); late := t1 + 1; low := fun _ => - (1); high := fun _ => 2 |}.

Lemma two m : (m < 2)%nat -> m = 0%nat \/ m = 1%nat.
Proof. lia. Qed.
Lemma Rabs_bound x b : - b <= x <= b -> Rabs x <= b.
Proof. intros H. apply Rabs_le. lra. Qed.
Lemma Rabs_mult_le x y a b : Rabs x <= a -> Rabs y <= b -> Rabs (x * y) <= a * b.
Proof. intros Hx Hy. rewrite Rabs_mult. apply Rmult_le_compat; auto using Rabs_pos. Qed.
Lemma mult_bound x y a b : Rabs x <= a -> Rabs y <= b -> - (a * b) <= x * y <= a * b.
Proof. intros Hx Hy. now apply Rabs_le_inv, Rabs_mult_le. Qed.
Lemma div_bound x a eps : 0 < eps -> Rabs x <= a -> Rabs (x / eps) <= a / eps.
Proof.
  intros He Hx. unfold Rdiv. rewrite Rabs_mult, (Rabs_pos_eq (/ eps)) by (left; now apply Rinv_0_lt_compat).
  apply Rmult_le_compat_r; [left; now apply Rinv_0_lt_compat|exact Hx].
Qed.

Section Kaps.
Variable eps : R.
Hypothesis He : 0 < eps.
Notation f := (kaps_rhs eps).
Notation L := ((5 + 2 * eps) / eps + 6).

Lemma ieps : 0 < / eps.
Proof. now apply Rinv_0_lt_compat. Qed.
Lemma L_first : 0 <= (5 + 2 * eps) / eps.
Proof. unfold Rdiv. apply Rmult_le_pos; [lra|left; apply ieps]. Qed.
Lemma L_pos : 0 <= L.
Proof. pose proof L_first. lra. Qed.

Lemma kaps_lipschitz t1 : lipschitz_in 2 (kaps_box t1) L f.
Proof.
  intros t t' y z r Ly Lz [_ Iy] [_ Iz] W m Hm.
  pose proof (W 0%nat ltac:(lia)) as W0. pose proof (W 1%nat ltac:(lia)) as W1.
  pose proof (Iy 1%nat ltac:(lia)) as Y1. pose proof (Iz 1%nat ltac:(lia)) as Z1. cbn [kaps_box low high] in Y1, Z1.
  set (y0 := vnth 0 y) in *. set (y1 := vnth 1 y) in *. set (z0 := vnth 0 z) in *. set (z1 := vnth 1 z) in *.
  assert (R0 : 0 <= r) by (pose proof (Rabs_pos (y0 - z0)); lra).
  assert (S : - (r * 4) <= (y1 - z1) * (y1 + z1) <= r * 4) by (apply mult_bound; [exact W1|apply Rabs_bound; lra]).
  apply Rabs_le_inv in W0, W1. pose proof L_first as LF.
  pose proof (Rmult_le_pos _ _ L_pos (Rabs_pos (t - t'))) as P.
  apply two in Hm as [-> | ->]; cbn [kaps_rhs vnth nth]; fold y0 y1 z0 z1.
  - apply Rle_trans with ((5 + 2 * eps) / eps * r); [|nra].
    replace (_ - _) with ((- (1 + 2 * eps) * (y0 - z0) + (y1 - z1) * (y1 + z1)) / eps) by (unfold Rdiv; ring).
    replace ((5 + 2 * eps) / eps * r) with ((5 + 2 * eps) * r / eps) by (field; lra).
    apply div_bound; [exact He|]. apply Rabs_bound. nra.
  - apply Rle_trans with (6 * r); [|nra].
    replace (_ - _) with ((y0 - z0) - (y1 - z1) - (y1 - z1) * (y1 + z1)) by ring. apply Rabs_bound. lra.
Qed.

Lemma exp_range t : 0 <= t -> 0 <= exp (- t) <= 1.
Proof.
  intros Ht. split; [left; apply exp_pos|]. rewrite <- exp_0. destruct Ht as [Ht| <-]; [left; apply exp_increasing; lra|].
  rewrite Ropp_0. lra.
Qed.
Lemma kaps_inside t1 t : 0 <= t <= t1 -> inside 2 (kaps_box t1) (3 * (1 / 3)) t (kaps_exact t).
Proof.
  intros Ht. split; [cbn; lra|]. intros m Hm.
  pose proof (exp_range t ltac:(lra)). pose proof (exp_range (2 * t) ltac:(lra)).
  apply two in Hm as [-> | ->]; cbn [kaps_box low high kaps_exact vnth nth]; [|lra].
  replace (- 2 * t) with (- (2 * t)) by ring. lra.
Qed.
Lemma kaps_solution_exact t0 t1 : solution 2 f t0 t1 kaps_exact.
Proof.
  split; [reflexivity|]. intros t m _ Hm.
  assert (E : exp (- t) ^ 2 = exp (- 2 * t)) by (cbn [pow]; rewrite Rmult_1_r, <- exp_plus; f_equal; ring).
  apply two in Hm as [-> | ->]; cbn [kaps_exact kaps_rhs vnth nth]; rewrite E.
  - apply (derivable_pt_lim_value _ _ (exp (- 2 * t) * - 2)); [|field; lra].
    apply (derivable_pt_lim_comp (fun u => - 2 * u) exp); [|apply derivable_pt_lim_exp].
    apply (derivable_pt_lim_value _ _ (- 2 * 1)); [|ring]. apply (derivable_pt_lim_scal (fun u => u)), derivable_pt_lim_id.
  - apply (derivable_pt_lim_value _ _ (exp (- t) * - (1))); [|ring].
    apply (derivable_pt_lim_comp Ropp exp); [|apply derivable_pt_lim_exp]. apply derivable_pt_lim_opp, derivable_pt_lim_id.
Qed.

(** The derivatives. *)
Definition kaps_D (t : R) (vs : list (list R)) : list R :=
  let y2 := vnth 1 (kaps_exact t) in
  match vs with
  | [] => f t (kaps_exact t)
  | [v] => [(- (1 + 2 * eps) * vnth 1 v + 2 * y2 * vnth 2 v) / eps; vnth 1 v - vnth 2 v - 2 * y2 * vnth 2 v]
  | [v; w] => [2 * vnth 2 v * vnth 2 w / eps; - 2 * vnth 2 v * vnth 2 w]
  | _ => [0; 0]
  end.
Lemma kaps_smooth p t1 : smooth_close (1 / 3) 2 p f 0 t1 kaps_exact.
Proof.
  exists kaps_D, L. split; [apply L_pos|]. intros t Ht. pose proof L_first as LF. pose proof ieps as IE.
  assert (Y1 : 0 <= vnth 0 (kaps_exact t) <= 1).
  { cbn [kaps_exact vnth nth]. replace (- 2 * t) with (- (2 * t)) by ring. apply exp_range; lra. }
  assert (Y2 : 0 <= vnth 1 (kaps_exact t) <= 1) by (apply exp_range; lra).
  split.
  - intros us ws u v al be m Hm.
    assert (N : forall j, (j < 3)%nat -> vnth j (vmake 3 (fun j => al * vnth j u + be * vnth j v)) = al * vnth j u + be * vnth j v)
      by (intros; now rewrite vnth_vmake by lia).
    apply two in Hm as [-> | ->];
      (destruct us as [|u1 [|u2 [|u3 us]]]; cbn [app]; [destruct ws as [|w1 [|w2 ws]]|destruct ws as [|w1 ws]| |];
       cbn [kaps_D vnth nth]; rewrite ?N by lia; unfold Rdiv; try ring; destruct us; cbn [app vnth nth]; ring).
  - intros vs rs m Hm _ F. set (y2 := vnth 1 (kaps_exact t)) in *. set (y1 := vnth 0 (kaps_exact t)) in *.
    destruct F as [|v r vs rs [R0 V] F].
    + cbn [fold_right kaps_D]. rewrite Rmult_1_r. apply two in Hm as [-> | ->]; cbn [kaps_rhs vnth nth]; fold y1 y2.
      * apply Rle_trans with ((5 + 2 * eps) / eps); [|lra]. apply div_bound; [exact He|]. apply Rabs_bound. nra.
      * apply Rabs_bound. nra.
    + pose proof (V 1%nat ltac:(lia)) as V1. pose proof (V 2%nat ltac:(lia)) as V2.
      destruct F as [|w s vs rs [S0 W] F].
      * cbn [fold_right kaps_D]. fold y2. rewrite Rmult_1_r.
        assert (M : - (2 * r) <= (2 * y2) * vnth 2 v <= 2 * r) by (apply mult_bound; [apply Rabs_bound; lra|exact V2]).
        apply Rabs_le_inv in V1, V2.
        apply two in Hm as [-> | ->]; cbn [vnth nth].
        -- apply Rle_trans with ((5 + 2 * eps) / eps * r); [|nra].
           replace ((5 + 2 * eps) / eps * r) with ((5 + 2 * eps) * r / eps) by (field; lra).
           apply div_bound; [exact He|]. apply Rabs_bound. unfold vnth in *. nra.
        -- apply Rle_trans with (6 * r); [|nra]. apply Rabs_bound. unfold vnth in *. lra.
      * pose proof (W 2%nat ltac:(lia)) as W2.
        destruct F as [|x s' vs rs [S'0 X] F].
        -- cbn [fold_right kaps_D]. rewrite Rmult_1_r.
           pose proof (mult_bound _ _ _ _ V2 W2) as M. pose proof (Rmult_le_pos _ _ R0 S0) as RS.
           apply two in Hm as [-> | ->]; cbn [vnth nth].
           ++ apply Rle_trans with ((5 + 2 * eps) / eps * (r * s)); [|nra].
              replace ((5 + 2 * eps) / eps * (r * s)) with ((5 + 2 * eps) * (r * s) / eps) by (field; lra).
              apply div_bound; [exact He|]. apply Rabs_bound. unfold vnth in *. nra.
           ++ apply Rle_trans with (6 * (r * s)); [|nra]. apply Rabs_bound. unfold vnth in *. nra.
        -- replace (vnth m (kaps_D t (v :: w :: x :: vs))) with 0.
           2: { apply two in Hm as [-> | ->]; reflexivity. }
           rewrite Rabs_R0. apply Rmult_le_pos; [apply L_pos|].
           cbn [fold_right]. assert (P : 0 <= fold_right Rmult 1 rs).
           { clear -F. induction F as [|a b la lb [H _] F IH]; cbn; [lra|]. now apply Rmult_le_pos. }
           repeat (apply Rmult_le_pos; auto).
  - intros k v r m Hm _ Lv Hr V. set (y2 := vnth 1 (kaps_exact t)) in *. set (y1 := vnth 0 (kaps_exact t)) in *.
    pose proof (V 1%nat ltac:(lia)) as V1. pose proof (V 2%nat ltac:(lia)) as V2.
    set (v1 := vnth 1 v) in *. set (v2 := vnth 2 v) in *.
    assert (N0 : vnth 0 (vmake 2 (fun j => vnth j (kaps_exact t) + vnth (S j) v)) = y1 + v1) by (now rewrite vnth_vmake by lia).
    assert (N1 : vnth 1 (vmake 2 (fun j => vnth j (kaps_exact t) + vnth (S j) v)) = y2 + v2) by (now rewrite vnth_vmake by lia).
    assert (Sq : - (r * r) <= v2 * v2 <= r * r) by (now apply mult_bound).
    assert (M : - (2 * r) <= (2 * y2) * v2 <= 2 * r) by (apply mult_bound; [apply Rabs_bound; lra|exact V2]).
    apply Rabs_le_inv in V1, V2.
    assert (G0 : vnth 0 (f (t + vnth 0 v) (vmake 2 (fun j => vnth j (kaps_exact t) + vnth (S j) v)))
                 = (- (1 + 2 * eps) * (y1 + v1) + (y2 + v2) ^ 2) / eps) by (unfold kaps_rhs; rewrite N0, N1; reflexivity).
    assert (G1 : vnth 1 (f (t + vnth 0 v) (vmake 2 (fun j => vnth j (kaps_exact t) + vnth (S j) v)))
                 = (y1 + v1) - (y2 + v2) - (y2 + v2) ^ 2) by (unfold kaps_rhs; rewrite N0, N1; reflexivity).
    assert (T0 : forall k, rsum (S (S (S k))) (fun i => / INR (fact i) * vnth m (kaps_D t (repeat v i)))
                 = rsum 3 (fun i => / INR (fact i) * vnth m (kaps_D t (repeat v i)))).
    { clear -Hm. intros k. induction k as [|k IH]; [reflexivity|].
      change (rsum (S (S (S (S k)))) ?g) with (rsum (S (S (S k))) g + g (S (S (S k)))). rewrite IH.
      replace (vnth m (kaps_D t (repeat v (S (S (S k)))))) with 0; [ring|].
      apply two in Hm as [-> | ->]; reflexivity. }
    destruct k as [|[|k]]; [| |rewrite T0]; cbn [rsum repeat kaps_D fact Nat.mul Nat.add INR]; fold y2.
    + cbn [pow]. rewrite Rmult_1_r. apply two in Hm as [-> | ->]; [rewrite G0|rewrite G1]; cbn [kaps_rhs vnth nth]; fold y1 y2.
      * apply Rle_trans with ((5 + 2 * eps) / eps * r); [|nra].
        replace ((5 + 2 * eps) / eps * r) with ((5 + 2 * eps) * r / eps) by (field; lra).
        replace (_ - _) with ((- (1 + 2 * eps) * v1 + (2 * y2) * v2 + v2 * v2) / eps) by (change (vnth 0 (kaps_exact t)) with y1; change (vnth 1 (kaps_exact t)) with y2; field; lra).
        apply div_bound; [exact He|]. apply Rabs_bound. nra.
      * apply Rle_trans with (6 * r); [|nra].
        replace (_ - _) with (v1 - v2 - (2 * y2) * v2 - v2 * v2) by (change (vnth 0 (kaps_exact t)) with y1; change (vnth 1 (kaps_exact t)) with y2; field).
        apply Rabs_bound. nra.
    + cbn [pow]. rewrite Rmult_1_r. apply two in Hm as [-> | ->]; [rewrite G0|rewrite G1]; cbn [kaps_rhs vnth nth]; fold y1 y2.
      * apply Rle_trans with ((5 + 2 * eps) / eps * (r * r)); [|nra].
        replace ((5 + 2 * eps) / eps * (r * r)) with ((5 + 2 * eps) * (r * r) / eps) by (field; lra).
        replace (_ - _) with (v2 * v2 / eps).
        2: { change (nth 1 v 0) with v1; change (nth 2 v 0) with v2; change (vnth 0 (kaps_exact t)) with y1; change (vnth 1 (kaps_exact t)) with y2.
             fold v1 v2. field; lra. }
        apply div_bound; [exact He|]. apply Rabs_bound. nra.
      * replace (_ - _) with (- (v2 * v2)).
        2: { change (vnth 0 (kaps_exact t)) with y1; change (vnth 1 (kaps_exact t)) with y2. fold v1 v2. field; lra. }
        apply Rabs_bound. nra.
    + replace (_ - _) with 0.
      2: { apply two in Hm as [-> | ->]; [rewrite G0|rewrite G1]; cbn [kaps_rhs vnth nth];
           change (vnth 0 (kaps_exact t)) with y1; change (vnth 1 (kaps_exact t)) with y2; fold v1 v2; field; lra. }
      rewrite Rabs_R0. apply Rmult_le_pos; [apply L_pos|]. apply pow_le. lra.
Qed.

(** Stage solves. *)
Definition kaps_C : R := (7 + 2 * eps) / eps + 8.
Lemma kaps_C_pos : 8 <= kaps_C.
Proof. unfold kaps_C. assert (0 <= (7 + 2 * eps) / eps) by (unfold Rdiv; apply Rmult_le_pos; [lra|left; apply ieps]). lra. Qed.

Lemma kaps_nearly newton kf kr x norm t1 H tol a M : converged eps tol newton -> moderate H a M newton ->
  0 <= tol <= 1 -> H * (Rabs a * M) <= 1 / 3 ->
  nearly_solves (openmdao_ode (kaps_problem eps newton kf kr) kaps_md (kaps_vectors x) norm) 2 f [] (kaps_box t1) (1 / 3) H (kaps_C * tol) a.
Proof.
  intros Hc Hm Ht Ha inp h r lp _ _ _ Hh [It Iy] E.
  destruct (kaps_update _ _ _ _ _ _ _ _ _ _ _ E) as (y1 & y2 & s1 & s2 & z0 & z1 & z2 & z3 & Ey & Es & _ & En & Er).
  pose proof (Iy 0%nat ltac:(lia)) as I0. pose proof (Iy 1%nat ltac:(lia)) as I1.
  unfold known_part in I0, I1. rewrite vnth_vmake in I0 by lia. rewrite vnth_vmake in I1 by lia. rewrite Ey, Es in I0, I1. cbn [kaps_box low high vnth nth] in I0, I1.
  destruct (Hm h [y1; s1; y2; s2] _ _ Hh eq_refl ltac:(cbn; lra) ltac:(cbn; lra) En) as (M1 & M3). cbn [vnth nth] in M1, M3.
  destruct (Hc _ [y1; s1; y2; s2] _ _ eq_refl En) as (rr & Er' & F). rewrite residuals_eq in Er'. injection Er' as <-.
  set (r0 := y1 + h * s1 + h * a * z1 - z0) in *. set (r1 := - (1 + 2 * eps) * z0 + z2 ^ 2 - eps * z1) in *.
  set (r2 := y2 + h * s2 + h * a * z3 - z2) in *. set (r3 := z0 - z2 - z2 ^ 2 - z3) in *.
  inversion F as [|? ? B0 F1]; subst. inversion F1 as [|? ? B1 F2]; subst. inversion F2 as [|? ? B2 F3]; subst. inversion F3 as [|? ? B3 _]; subst.
  clear F F1 F2 F3.
  assert (S : forall z, Rabs z <= M -> - (1 / 3) <= h * a * z <= 1 / 3).
  { intros z Hz. assert (M0 : 0 <= M) by (pose proof (Rabs_pos z); lra).
    apply Rabs_le_inv. rewrite !Rabs_mult. rewrite (Rabs_pos_eq h) by lra. rewrite Rmult_assoc.
    apply Rle_trans with (H * (Rabs a * M)); [|exact Ha].
    apply Rmult_le_compat; [lra| |lra|apply Rmult_le_compat_l; [apply Rabs_pos|exact Hz]].
    apply Rmult_le_pos; apply Rabs_pos. }
  pose proof (S _ M1) as S1. pose proof (S _ M3) as S3.
  assert (V0 : vnth 0 (stage_value 2 inp h a (stage_update r)) = y1 + h * s1 + h * a * z1).
  { unfold stage_value. rewrite vnth_vmake by lia. rewrite Ey, Es, Er. cbn [vnth nth]. ring. }
  assert (V1 : vnth 1 (stage_value 2 inp h a (stage_update r)) = y2 + h * s2 + h * a * z3).
  { unfold stage_value. rewrite vnth_vmake by lia. rewrite Ey, Es, Er. cbn [vnth nth]. ring. }
  split.
  - split; [cbn [kaps_box early late] in *; lra|]. intros m Hm'. apply two in Hm' as [-> | ->]; [rewrite V0|rewrite V1]; cbn [kaps_box low high]; lra.
  - rewrite Er in V0, V1. intros m Hm'. rewrite Er. set (w := y2 + h * s2 + h * a * z3) in *. set (u := y1 + h * s1 + h * a * z1) in *.
    assert (Wb : - (2 * tol) <= w * r2 <= 2 * tol) by (apply mult_bound; [apply Rabs_bound; unfold w; lra|exact B2]).
    assert (Rb : - (1 * tol) <= r2 * r2 <= 1 * tol) by (apply mult_bound; [apply Rle_trans with tol; [exact B2|lra]|exact B2]).
    apply Rabs_le_inv in B0, B1, B2, B3.
    change (- tol <= r1 <= tol) in B1. change (- tol <= r3 <= tol) in B3.
    assert (Eu : z0 = u - r0) by (unfold r0, u; ring). assert (Ew : z2 = w - r2) by (unfold r2, w; ring).
    assert (C8 : (7 + 2 * eps) / eps * tol <= kaps_C * tol /\ 8 * tol <= kaps_C * tol).
    { pose proof kaps_C_pos. unfold kaps_C in *. assert (0 <= (7 + 2 * eps) / eps) by (unfold Rdiv; apply Rmult_le_pos; [lra|left; apply ieps]). nra. }
    destruct C8 as [C7 C8].
    apply two in Hm' as [-> | ->].
    + change (vnth 0 (f ?t ?V)) with ((- (1 + 2 * eps) * vnth 0 V + vnth 1 V ^ 2) / eps). rewrite V0, V1. cbn [vnth nth].
      eapply Rle_trans; [|exact C7].
      replace (_ - _) with ((- r1 + (1 + 2 * eps) * r0 - 2 * (w * r2) + r2 * r2) / eps).
      2: { unfold r1. rewrite Eu, Ew. field. lra. }
      replace ((7 + 2 * eps) / eps * tol) with ((7 + 2 * eps) * tol / eps) by (field; lra).
      apply div_bound; [exact He|]. assert (Q : - (eps * tol) <= eps * r0 <= eps * tol) by (split; nra). apply Rabs_bound. clear -Q Wb Rb B0 B1 Ht. split; lra.
    + change (vnth 1 (f ?t ?V)) with (vnth 0 V - vnth 1 V - vnth 1 V ^ 2). rewrite V0, V1. cbn [vnth nth].
      eapply Rle_trans; [|exact C8].
      replace (_ - _) with (- r3 - r0 + r2 + 2 * (w * r2) - r2 * r2).
      2: { unfold r3. rewrite Eu, Ew. ring. }
      apply Rabs_bound. nra.
Qed.
End Kaps.
