(** Kaps' problem: derivative products of whole runs. *)
From Coq Require Import String.
From Coq Require Import List Bool Arith Reals Lia Lra.
From Verif Require Import Base Ext M_Tableau M_State M_ODE M_Step M_Integrator M_Metadata M_Components SpecMetadata SpecRK SpecDeriv SpecShape SpecRun
  SpecComponents M_Packing SpecPacking M_Component SpecComponent SpecTotal SpecStage
  M_Stage M_Kaps SpecKaps L_Vec L_Metadata L_Components L_Packing L_Packing3 L_Packing6 L_Deriv L_Component3 L_Total L_Stage L_Stage2
  L_Kaps L_Kaps3 L_Kaps5 L_Kaps6.
Import ListNotations.
Local Open Scope string_scope.
Local Open Scope R_scope.
Local Open Scope list_scope.

Section Problem.
Variable eps : R.
Hypothesis He : 0 < eps.
Variable newton : exchange -> list R -> list R -> res (list R).
Variables kf kr : exchange -> list R -> list R -> list R -> list R -> res (list R).
Notation pb := (kaps_problem eps newton kf kr).

Lemma regular_determinant h a xs z s g dz : solves_group eps kf kr -> solves_regular eps kf ->
  length xs = 4%nat -> length z = 4%nat -> length s = 4%nat -> length dz = 4%nat -> kf (exch h a) xs z s g = Ok dz ->
  determinant eps (h * a) (2 * vnth 2 z) <> 0.
Proof.
  intros [Sf _] Rg L1 L2 L3 L4 K. apply determinant_nonzero; [exact He|]. intros d0 d1 d2 d3 A0 A1 A2 A3.
  pose proof (Sf _ _ _ _ _ _ L1 L2 L3 K) as G.
  destruct (len4 _ L4) as (e0 & e1 & e2 & e3 & ->). destruct (len4 _ L1) as (x0 & x1 & x2 & x3 & ->). destruct (len4 _ L2) as (z0 & z1 & z2 & z3 & ->).
  cbn [vnth nth] in A1, A3.
  assert (X : [e0 + d0; e1 + d1; e2 + d2; e3 + d3] = [e0; e1; e2; e3]).
  { eapply Rg; [exact L1|exact L2|exact L3|exact L4|reflexivity|exact K|]. rewrite <- G, !group_fwd_eq. f_equal.
    f_equal; [lra|]. f_equal; [lra|]. f_equal; [lra|]. f_equal. lra. }
  injection X as X0 X1 X2 X3. repeat split; lra.
Qed.

Lemma exact_residuals h a x0 x1 x2 x3 z0 z1 z2 z3 r :
  group_residuals eps (exch h a) [x0; x1; x2; x3] [z0; z1; z2; z3] = Ok r -> Forall (fun x => Rabs x <= 0) r ->
  (x0 + h * x1) + h * a * z1 - z0 = 0 /\ - (1 + 2 * eps) * z0 + z2 ^ 2 - eps * z1 = 0 /\
  (x2 + h * x3) + h * a * z3 - z2 = 0 /\ z0 - z2 - z2 ^ 2 - z3 = 0.
Proof.
  rewrite residuals_eq. intros E F. injection E as <-.
  assert (Z : forall x, Rabs x <= 0 -> x = 0).
  { intros x B. destruct (Req_dec x 0) as [|N]; [assumption|]. pose proof (Rabs_pos_lt x N). lra. }
  inversion F as [|? ? B0 F1]. inversion F1 as [|? ? B1 F2]. inversion F2 as [|? ? B2 F3]. inversion F3 as [|? ? B3 _].
  repeat split; now apply Z.
Qed.

Lemma kaps_differentiable : converged eps 0 newton -> follows_branch newton -> solves_group eps kf kr -> solves_regular eps kf ->
  problem_differentiable (source_names pb kaps_md) pb.
Proof.
  intros Cv Fb Sg Rg del h a i V r i1 o1 g x r' D0 LV Lg VC RS EN EL.
  cbn [kaps_problem p_nonlinear p_linear_fwd] in EN, EL.
  apply linear_fwd_inv in EL as (xs & z & gx & g0 & d & s & u & dz & L1 & L2 & L3 & L4 & L5 & L6 & L7 & L8 & Eo & -> & -> & U & K & -> & ->).
  assert (LK : forall m, look (nth m kaps_out "") 0 (vec_of kaps_out (d ++ s)) = nth m (d ++ s) 0 /\
                         look (nth m kaps_out "") 0 (map (fun p => (fst p, map Ropp (snd p))) (vec_of kaps_out (d ++ s))) = - nth m (d ++ s) 0).
  { destruct (len4 _ L5) as (d0 & d1 & d2 & d3 & ->). destruct (len4 _ L6) as (s0 & s1 & s2 & s3 & ->).
    intros m. do 8 (destruct m as [|m]; [split; reflexivity|]). destruct m; cbn; split; lra. }
  assert (Zs : s = [0; 0; 0; 0]).
  { assert (Z : forall m, (m < 4)%nat -> nth m s 0 = 0).
    { intros m Hm. destruct (LK (4 + m)%nat) as [Q _]. rewrite app_nth2 in Q by lia. rewrite L5 in Q. replace (4 + m - 4)%nat with m in Q by lia.
      rewrite <- Q. apply RS. do 4 (destruct m as [|m]; [vm_compute; intuition discriminate|]). lia. }
    destruct (len4 _ L6) as (s0 & s1 & s2 & s3 & ->).
    pose proof (Z 0%nat ltac:(lia)) as Q0. pose proof (Z 1%nat ltac:(lia)) as Q1. pose proof (Z 2%nat ltac:(lia)) as Q2. pose proof (Z 3%nat ltac:(lia)) as Q3.
    cbn in Q0, Q1, Q2, Q3. now subst. }
  subst s.
  set (lv := fun m e => look (nth m kaps_out "") 0 (V e)). set (lo := fun m e => look (nth m kaps_out "") 0 (o1 e)).
  set (X := fun e => [lv 0%nat e; lv 1%nat e; lv 2%nat e; lv 3%nat e]). set (G := fun e => [lv 4%nat e; lv 5%nat e; lv 6%nat e; lv 7%nat e]).
  set (Z := fun e => [lo 4%nat e; lo 5%nat e; lo 6%nat e; lo 7%nat e]).
  assert (N : forall e, Rabs e < del -> newton (exch h a) (X e) (G e) = Ok (Z e) /\ o1 e = vec_of kaps_out (X e ++ Z e)).
  { intros e B. specialize (EN e B).
    apply kaps_nonlinear_inv in EN as (v & xs' & g' & z' & M1 & M2 & M3 & M4 & _ & EV & En & _ & EO).
    apply len4 in M2 as (a0 & a1 & a2 & a3 & ->), M3 as (c0 & c1 & c2 & c3 & ->), M4 as (e0 & e1 & e2 & e3 & ->).
    unfold X, G, Z, lv, lo. rewrite EV, EO. split; [exact En|reflexivity]. }
  assert (DV : forall m, derivable_pt_lim (lv m) 0 (- nth m (d ++ [0; 0; 0; 0]) 0)).
  { intros m. unfold lv. rewrite <- (proj2 (LK m)). apply VC. }
  assert (CV : forall m, continuity_pt (lv m) 0) by (intros m; eapply dlim_cont, DV).
  assert (C0 : continuity_pt (fun _ : R => 0) 0) by (apply continuity_pt_const; now intros ? ?).
  assert (CZ : continuity_pt (lo 6%nat) 0).
  { apply (Fb (exch h a) del X G Z D0).
    - intros k. do 4 (destruct k as [|k]; [apply CV|]). destruct k; exact C0.
    - intros k. do 4 (destruct k as [|k]; [apply CV|]). destruct k; exact C0.
    - intros e B. split; [reflexivity|]. apply N, B. }
  assert (ER : forall e, Rabs e < del ->
    (lv 0%nat e + h * lv 1%nat e) + h * a * lo 5%nat e - lo 4%nat e = 0 /\
    - (1 + 2 * eps) * lo 4%nat e + lo 6%nat e ^ 2 - eps * lo 5%nat e = 0 /\
    (lv 2%nat e + h * lv 3%nat e) + h * a * lo 7%nat e - lo 6%nat e = 0 /\ lo 4%nat e - lo 6%nat e - lo 6%nat e ^ 2 - lo 7%nat e = 0).
  { intros e B. destruct (N e B) as [En _]. destruct (Cv (exch h a) (X e) (G e) (Z e) eq_refl En) as (rr & Er & F). exact (exact_residuals _ _ _ _ _ _ _ _ _ _ _ Er F). }
  assert (EZ : xs = X 0 /\ z = Z 0).
  { destruct (N 0) as [_ Q]; [rewrite Rabs_R0; exact D0|]. rewrite Q in Eo.
    destruct (len4 _ L1) as (x0 & x1 & x2 & x3 & ->). destruct (len4 _ L2) as (z0 & z1 & z2 & z3 & ->).
    unfold X, Z in *. cbn [kaps_out vec_of map2 app] in Eo. injection Eo as <- <- <- <- <- <- <- <-. auto. }
  destruct EZ as [-> ->].
  assert (Dt : determinant eps (h * a) (2 * lo 6%nat 0) <> 0).
  { apply (regular_determinant h a (X 0) (Z 0) (vsub [0; 0; 0; 0] u) g0 dz Sg Rg eq_refl eq_refl); auto.
    destruct (len4 _ L7) as (? & ? & ? & ? & ->). reflexivity. }
  apply (proj1 Sg) in K; auto. 2: { destruct (len4 _ L7) as (? & ? & ? & ? & ->). reflexivity. }
  destruct (len4 _ L5) as (d0 & d1 & d2 & d3 & ->). destruct (len4 _ L8) as (e0 & e1 & e2 & e3 & ->).
  cbn [map] in U |- *. unfold X, Z in U, K. rewrite group_fwd_eq in U, K. injection U as <-. cbn [vsub map2] in K. injection K as K0 K1 K2 K3.
  change (@nsub R RNum) with Rminus in *.
  assert (T : e0 = (eps * (- d0 + h * - d1) * (1 + h * a + h * a * (2 * lo 6%nat 0)) + h * a * (2 * lo 6%nat 0) * (- d2 + h * - d3)) / determinant eps (h * a) (2 * lo 6%nat 0) /\
    e1 = (2 * lo 6%nat 0 * e2 - (1 + 2 * eps) * e0) / eps /\
    e2 = (pivot eps (h * a) * (- d2 + h * - d3) + h * a * eps * (- d0 + h * - d1)) / determinant eps (h * a) (2 * lo 6%nat 0) /\
    e3 = e0 - (1 + 2 * lo 6%nat 0) * e2).
  { apply solve_linear; [exact He|exact Dt|lra|lra|lra|lra]. }
  destruct T as (T0 & T1 & T2 & T3).
  pose proof (DV 0%nat) as V0. pose proof (DV 1%nat) as V1. pose proof (DV 2%nat) as V2. pose proof (DV 3%nat) as V3. cbn [app nth] in V0, V1, V2, V3.
  assert (B1 : derivable_pt_lim (fun e => lv 0%nat e + h * lv 1%nat e) 0 (- d0 + h * - d1)).
  { apply (derivable_pt_lim_plus (lv 0%nat) (fun e => h * lv 1%nat e)); [exact V0|]. now apply derivable_pt_lim_scal. }
  assert (B2 : derivable_pt_lim (fun e => lv 2%nat e + h * lv 3%nat e) 0 (- d2 + h * - d3)).
  { apply (derivable_pt_lim_plus (lv 2%nat) (fun e => h * lv 3%nat e)); [exact V2|]. now apply derivable_pt_lim_scal. }
  assert (M0 : derivable_pt_lim (lo 4%nat) 0 e0).
  { rewrite T0. eapply (moves_0 eps (h * a) del D0) with (z1 := lo 5%nat) (z3 := lo 7%nat); try exact B1; try exact B2; try exact CZ; try exact Dt; intros e B; apply ER, B. }
  assert (M2 : derivable_pt_lim (lo 6%nat) 0 e2).
  { rewrite T2. eapply (moves_2 eps (h * a) del D0) with (z0 := lo 4%nat) (z1 := lo 5%nat) (z3 := lo 7%nat); try exact B1; try exact B2; try exact CZ; try exact Dt; intros e B; apply ER, B. }
  assert (M1 : derivable_pt_lim (lo 5%nat) 0 e1).
  { rewrite T1. eapply (moves_1 eps del He D0) with (z0 := lo 4%nat); try exact M0; try exact M2. intros e B. apply ER, B. }
  assert (M3 : derivable_pt_lim (lo 7%nat) 0 e3).
  { rewrite T3. eapply (moves_3 del D0) with (z0 := lo 4%nat) (z2 := lo 6%nat); try exact M0; try exact M2. intros e B. apply ER, B. }
  intros n k.
  apply (dlim_ext_near (fun e => look n k (vec_of kaps_out (map (fun f => f e) [lv 0%nat; lv 1%nat; lv 2%nat; lv 3%nat; lo 4%nat; lo 5%nat; lo 6%nat; lo 7%nat]))) _ _ del D0).
  { intros e B. destruct (N e B) as [_ Q]. rewrite Q. reflexivity. }
  apply vec_moves. repeat (constructor; [assumption|]). constructor.
Qed.
End Problem.
