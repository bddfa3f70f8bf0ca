(** Kaps' problem: stage solves and their derivatives up to tolerances. *)
From Coq Require Import String.
From Coq Require Import List Bool Arith Reals Lia Lra.
From Verif Require Import Base Ext M_ODE M_Metadata M_Components SpecMetadata SpecRK SpecConvergence SpecLocal SpecSensitivity M_Packing M_Stage M_Kaps SpecKaps SpecKapsChange
  L_Vec L_Metadata L_Components L_Packing L_Packing3 L_Deriv L_Convergence L_Stage L_Stage2 L_Local L_Kaps L_Kaps2 L_Kaps5 L_Quadratic.
Import ListNotations.
Local Open Scope string_scope.
Local Open Scope R_scope.
Local Open Scope list_scope.

Lemma forall2_4 (P : R -> R -> Prop) a b c d a' b' c' d' : Forall2 P [a; b; c; d] [a'; b'; c'; d'] -> P a a' /\ P b b' /\ P c c' /\ P d d'.
Proof.
  intros F. inversion F as [|? ? ? ? A0 F1]; subst. inversion F1 as [|? ? ? ? A1 F2]; subst. inversion F2 as [|? ? ? ? A2 F3]; subst. inversion F3; subst. auto.
Qed.

Section Problem.
Variable eps : R.
Variable newton : exchange -> list R -> list R -> res (list R).
Variables kf kr : exchange -> list R -> list R -> list R -> list R -> res (list R).
Notation pb := (kaps_problem eps newton kf kr).

Lemma kaps_update_change x norm inp d h a r lp dr :
  compute_update (openmdao_ode pb kaps_md (kaps_vectors x) norm) inp h a = Ok (r, lp) ->
  compute_update_derivative (openmdao_ode pb kaps_md (kaps_vectors x) norm) lp d h a = Ok dr ->
  exists y1 y2 s1 s2 z0 z1 z2 z3 c1 c2 e1 e2 w0 w1 w2 w3 g, M_ODE.step_input inp = [y1; y2] /\ stage_input inp = [s1; s2] /\
    M_ODE.step_input d = [c1; c2] /\ stage_input d = [e1; e2] /\
    newton (exch h a) [y1; s1; y2; s2] [x; x; x; x] = Ok [z0; z1; z2; z3] /\
    kf (exch h a) [y1; s1; y2; s2] [z0; z1; z2; z3] [- (c1 + h * e1); 0; - (c2 + h * e2); 0] g = Ok [w0; w1; w2; w3] /\
    stage_update r = [z1; z3] /\ stage_update dr = [w1; w3].
Proof.
  destruct inp as [y s p t]. destruct d as [c e dp dt]. cbn [compute_update compute_update_derivative openmdao_ode M_ODE.step_input stage_input independent_input]. intros H H'.
  destruct (_ && _)%bool eqn:Q in H; [|discriminate]. destruct (_ && _)%bool eqn:Q' in H'; [|discriminate].
  apply andb_prop in Q as (Q & Q3). apply andb_prop in Q as (Q1 & Q2). apply Nat.eqb_eq in Q1, Q2, Q3.
  apply andb_prop in Q' as (Q' & P3). apply andb_prop in Q' as (P1 & P2). apply Nat.eqb_eq in P1, P2, P3.
  cbn in Q1, Q2, Q3, P1, P2, P3. apply len2 in Q1 as (y1 & y2 & ->), Q2 as (s1 & s2 & ->), P1 as (c1 & c2 & ->), P2 as (e1 & e2 & ->).
  destruct p; [|discriminate]. destruct dp; [|discriminate].
  apply bind_pair_ok in H as (st' & r' & E & Er). injection Er as ->.
  unfold om_compute_update in E. apply bind_ok in E as (v & Ev & E).
  apply bind_pair_ok in E as (i' & o' & En & E). apply bind_ok in E as (upd & Eu & [= <- <- <-]). cbn [stage_update].
  cbv -[Rplus Rmult Ropp Rdiv Rinv IZR vec_of kaps_out] in Ev. rewrite !Rmult_1_l in Ev. injection Ev as <-.
  cbn [p_nonlinear kaps_problem] in En. apply kaps_nonlinear_inv in En as (w & xs & g & z & L1 & L2 & L3 & L4 & _ & Eo & En & Ei & ->).
  apply len4 in L2 as (a0 & a1 & a2 & a3 & ->), L3 as (b0 & b1 & b2 & b3 & ->), L4 as (z0 & z1 & z2 & z3 & ->).
  cbv in Eo. injection Eo as <- <- <- <- <- <- <- <-. cbv in Eu. injection Eu as <-. subst i'.
  apply bind_pair_ok in H' as (st2 & r2 & E' & Er'). injection Er' as <-.
  unfold om_derivative in E'. apply bind_ok in E' as (st3 & Es & E').
  cbv in Es. injection Es as <-. cbn [om_in om_out om_dout om_dres] in E'.
  apply bind_ok in E' as (rv & Ev & E').
  cbv -[Rplus Rmult Ropp Rdiv Rinv IZR] in Ev. 
  injection Ev as <-. apply bind_pair_ok in E' as (x' & rr & EL & E').
  cbn [p_linear_fwd kaps_problem] in EL. clear L1 w.
  apply linear_fwd_inv in EL as (xs & z & gx & g & q & sv & u & dz & L1 & L2 & L3 & L4 & L5 & L6 & L7 & L8 & Eo & Ex & Eq & U & K & -> & ->).
  apply len4 in L1 as (a0 & a1 & a2 & a3 & ->), L2 as (b0 & b1 & b2 & b3 & ->), L5 as (q0 & q1 & q2 & q3 & ->), L6 as (v0 & v1 & v2 & v3 & ->), L8 as (w0 & w1 & w2 & w3 & ->).
  cbn [kaps_out vec_of map2 app] in Eo, Eq. injection Eo as <- <- <- <- <- <- <- <-. injection Eq as <- <- <- <- <- <- <- <-.
  apply bind_ok in E' as (up & Eu & [= <- <-]). cbv -[Rplus Rmult Ropp Rdiv Rinv IZR] in Eu. injection Eu as <-. cbn [stage_update].
  cbn [map] in U. rewrite group_fwd_eq in U. injection U as <-. cbn [vsub map2] in K. change (@nsub R RNum) with Rminus in K.
  exists y1, y2, s1, s2, z0, z1, z2, z3, c1, c2, e1, e2, w0, w1, w2, w3, g. repeat (split; [reflexivity|]). split; [exact En|]. split; [|auto].
  rewrite <- K. f_equal. f_equal; [ring|]. f_equal; [ring|]. f_equal; [ring|]. f_equal. ring.
Qed.

(** *** The paired system *)
Hypothesis He : 0 < eps.
Notation f := (kaps_rhs eps).
Notation g := (kaps_change eps).
Definition pair_box (t1 b : R) : box :=
  {| early := - (1); late := t1 + 1; low := fun m => if Nat.ltb m 2 then - (1) else - (b + 1); high := fun m => if Nat.ltb m 2 then 2 else b + 1 |}.
Definition pair_A (m j : nat) : R :=
  nth j (nth m [[- (1 + 2 * eps) / eps; 0; 0; 0]; [1; - (1); 0; 0]; [0; 0; - (1 + 2 * eps) / eps; 0]; [0; 0; 1; - (1)]] []) 0.
Definition pair_Q (m j l : nat) : R :=
  match m, j, l with
  | 0%nat, 1%nat, 1%nat => / eps | 1%nat, 1%nat, 1%nat => - (1)
  | 2%nat, 1%nat, 3%nat => 2 * / eps | 3%nat, 1%nat, 3%nat => - (2)
  | _, _, _ => 0
  end.
Lemma four_cases m : (m < 4)%nat -> m = 0%nat \/ m = 1%nat \/ m = 2%nat \/ m = 3%nat.
Proof. lia. Qed.
Lemma pair_rhs : quadratic_rhs 4 pair_A pair_Q (paired 2 f g).
Proof.
  intros t z m Hm. unfold paired.
  assert (V0 : vnth 0 (firstn 2 z) = vnth 0 z) by (destruct z as [|? [|? [|? [|? z]]]]; reflexivity).
  assert (V1 : vnth 1 (firstn 2 z) = vnth 1 z) by (destruct z as [|? [|? [|? [|? z]]]]; reflexivity).
  assert (V2 : vnth 0 (skipn 2 z) = vnth 2 z) by (destruct z as [|? [|? [|? [|? z]]]]; reflexivity).
  assert (V3 : vnth 1 (skipn 2 z) = vnth 3 z) by (destruct z as [|? [|? [|? [|? z]]]]; reflexivity).
  unfold kaps_rhs, kaps_change. rewrite V0, V1, V2, V3.
  apply four_cases in Hm as [-> | [-> | [-> | ->]]]; cbn -[Rplus Rmult Rinv Rdiv Rminus]; unfold linear_part, bilinear_part; cbn -[Rplus Rmult Rinv Rdiv Rminus vnth]; field; lra.
Qed.
Lemma pair_a m : (m < 4)%nat -> rsum 4 (fun j => Rabs (pair_A m j)) <= (1 + 2 * eps) / eps + 2.
Proof.
  assert (P : 0 < (1 + 2 * eps) / eps) by (apply Rdiv_lt_0_compat; lra).
  assert (R0 : Rabs (- (1 + 2 * eps) / eps) = (1 + 2 * eps) / eps) by (replace (- (1 + 2 * eps) / eps) with (- ((1 + 2 * eps) / eps)) by (field; lra); rewrite Rabs_Ropp; apply Rabs_pos_eq; lra).
  intros Hm. apply four_cases in Hm as [-> | [-> | [-> | ->]]]; cbn -[Rplus Rmult Rinv Rdiv Rminus Rabs]; rewrite ?R0, ?Rabs_R0, ?Rabs_Ropp, ?Rabs_R1; lra.
Qed.
Lemma pair_q m : (m < 4)%nat -> rsum 4 (fun j => rsum 4 (fun l => Rabs (pair_Q m j l))) <= 2 * / eps + 2.
Proof.
  pose proof (ieps eps He) as P.
  intros Hm. apply four_cases in Hm as [-> | [-> | [-> | ->]]]; cbn -[Rplus Rmult Rinv Rdiv Rminus Rabs]; rewrite ?Rabs_R0, ?Rabs_Ropp, ?(Rabs_pos_eq 1), ?(Rabs_pos_eq 2), ?(Rabs_pos_eq (/ eps)), ?(Rabs_pos_eq (2 * / eps)) by lra; lra.
Qed.

Section Change.
Variables (t1 b : R) (D : R -> list R).
Hypothesis Hb : 0 <= b.
Hypothesis LD : forall t, length (D t) = 2%nat.
Hypothesis HD : solution 2 (fun t => g t (kaps_exact t)) 0 t1 D.
Hypothesis BD : forall t m, 0 <= t <= t1 -> (m < 2)%nat -> Rabs (vnth m (D t)) <= b.
Definition pair_L : R := ((1 + 2 * eps) / eps + 2) + 2 * (2 * / eps + 2) * (b + 2).
Lemma pair_L_pos : 0 <= pair_L.
Proof.
  pose proof (ieps eps He) as P. assert (0 < (1 + 2 * eps) / eps) by (apply Rdiv_lt_0_compat; lra). unfold pair_L.
  assert (0 <= 2 * (2 * / eps + 2) * (b + 2)) by (apply Rmult_le_pos; lra). lra.
Qed.
Lemma pair_lipschitz : lipschitz_in 4 (pair_box t1 b) pair_L (paired 2 f g).
Proof.
  apply (quadratic_lipschitz 4 pair_A pair_Q _ pair_rhs _ _ pair_a pair_q).
  intros j Hj. apply four_cases in Hj as [-> | [-> | [-> | ->]]]; cbn; lra.
Qed.
Lemma exact_bounds t : 0 <= t <= t1 -> 0 <= vnth 0 (kaps_exact t) <= 1 /\ 0 <= vnth 1 (kaps_exact t) <= 1.
Proof.
  intros Ht. cbn [kaps_exact vnth nth]. replace (- 2 * t) with (- (2 * t)) by ring. split; apply exp_range; lra.
Qed.
Lemma pair_cases t m : (m < 4)%nat -> (exists k, (k < 2)%nat /\ m = k /\ vnth m (kaps_exact t ++ D t) = vnth k (kaps_exact t)) \/
  (exists k, (k < 2)%nat /\ m = (2 + k)%nat /\ vnth m (kaps_exact t ++ D t) = vnth k (D t)).
Proof.
  intros Hm. destruct (Nat.lt_ge_cases m 2) as [H|H].
  - left. exists m. split; [exact H|]. split; [reflexivity|]. apply two in H as [-> | ->]; reflexivity.
  - right. exists (m - 2)%nat. split; [lia|]. split; [lia|]. destruct m as [|[|m]]; [lia|lia|]. replace (S (S m) - 2)%nat with m by lia. reflexivity.
Qed.
Lemma pair_inside t : 0 <= t <= t1 -> inside 4 (pair_box t1 b) (3 * (1 / 3)) t (kaps_exact t ++ D t).
Proof.
  intros Ht. split; [cbn; lra|]. intros m Hm. destruct (exact_bounds t Ht) as (E0 & E1).
  destruct (pair_cases t m Hm) as [(k & Hk & -> & ->)|(k & Hk & -> & ->)].
  - cbn [pair_box low high]. rewrite (proj2 (Nat.ltb_lt k 2) Hk). apply two in Hk as [-> | ->]; lra.
  - cbn [pair_box low high]. specialize (BD t k Ht Hk). apply Rabs_le_inv in BD. change (Nat.ltb (2 + k) 2) with false. cbv iota. lra.
Qed.
Lemma pair_solution : solution 4 (paired 2 f g) 0 t1 (fun t => kaps_exact t ++ D t).
Proof.
  split; [intros t; rewrite app_length, LD; reflexivity|]. intros t m Ht Hm.
  assert (Lp : forall k, (k < 2)%nat -> vnth k (paired 2 f g t (kaps_exact t ++ D t)) = vnth k (f t (kaps_exact t)) /\
                         vnth (2 + k) (paired 2 f g t (kaps_exact t ++ D t)) = vnth k (g t (kaps_exact t) (D t))).
  { intros k Hk. apply two in Hk as [-> | ->]; split; reflexivity. }
  destruct (Nat.lt_ge_cases m 2) as [H|H].
  - rewrite (proj1 (Lp m H)). pose proof (proj2 (kaps_solution_exact eps He 0 t1) t m Ht H) as E.
    apply two in H as [-> | ->]; exact E.
  - destruct m as [|[|m]]; [lia|lia|]. assert (Hk : (m < 2)%nat) by lia. change (S (S m)) with (2 + m)%nat. rewrite (proj2 (Lp m Hk)).
    exact (proj2 HD t m Ht Hk).
Qed.
Lemma pair_smooth p : smooth_close (1 / 3) 4 p (paired 2 f g) 0 t1 (fun t => kaps_exact t ++ D t).
Proof.
  pose proof (ieps eps He) as P. assert (0 < (1 + 2 * eps) / eps) by (apply Rdiv_lt_0_compat; lra).
  apply (quadratic_smooth 4 pair_A pair_Q _ pair_rhs _ _ pair_a pair_q) with (c := b + 1); try lra.
  intros t j Ht Hj. destruct (exact_bounds t Ht) as (E0 & E1).
  destruct (pair_cases t j Hj) as [(k & Hk & _ & ->)|(k & Hk & _ & ->)].
  - apply two in Hk as [-> | ->]; apply Rabs_bound; lra.
  - specialize (BD t k Ht Hk). lra.
Qed.

(** Stage solves. *)
Definition pair_C : R := (10 + 2 * b + 2 * eps) / eps + (11 + 2 * b).
Lemma pair_C_big : 0 <= (10 + 2 * b + 2 * eps) / eps /\ kaps_C eps <= pair_C.
Proof.
  pose proof (ieps eps He) as P. assert (Z : 0 <= (10 + 2 * b + 2 * eps) / eps) by (unfold Rdiv; apply Rmult_le_pos; lra). split; [exact Z|].
  unfold kaps_C, pair_C. assert ((7 + 2 * eps) / eps <= (10 + 2 * b + 2 * eps) / eps); [|lra].
  unfold Rdiv. apply Rmult_le_compat_r; lra.
Qed.
Lemma kaps_nearly_differentiates x norm H tol a M dt : converged eps tol newton -> moderate H a M newton ->
  nearly_group eps tol kf -> moderate_change H a M kf -> 0 <= tol <= 1 -> 0 <= M -> H * (Rabs a * (M * (b + 1))) <= 1 / 3 ->
  nearly_differentiates (openmdao_ode pb kaps_md (kaps_vectors x) norm) 2 f g [] dt [] (pair_box t1 b) (1 / 3) H (pair_C * tol) a.
Proof.
  intros Hc Hm Hg Hmc Ht HM Ha inp d h r lp dr Lx1 Lx2 Lx3 _ _ _ _ Hh [It Iy] E Ed.
  assert (HH : 0 < H) by lra.
  assert (Ha' : H * (Rabs a * M) <= 1 / 3).
  { eapply Rle_trans; [|exact Ha]. apply Rmult_le_compat_l; [lra|]. apply Rmult_le_compat_l; [apply Rabs_pos|]. nra. }
  assert (Ik : inside 2 (kaps_box t1) (1 / 3) (time inp) (known_part 2 inp h)).
  { split; [exact It|]. intros m Hm2. pose proof (Iy m ltac:(lia)) as I. apply two in Hm2 as [-> | ->]; exact I. }
  destruct (kaps_nearly eps He newton kf kr x norm t1 H tol a M Hc Hm Ht Ha' inp h r lp Lx1 Lx2 Lx3 Hh Ik E) as ([It0 Is] & Wf).
  destruct (kaps_update_change _ _ _ _ _ _ _ _ _ E Ed) as (y1 & y2 & s1 & s2 & z0 & z1 & z2 & z3 & c1 & c2 & e1 & e2 & w0 & w1 & w2 & w3 & g0 & Ey & Es & Ec & Ee & En & Ek & Er & Edr).
  pose proof (Iy 2%nat ltac:(lia)) as J0. pose proof (Iy 3%nat ltac:(lia)) as J1.
  unfold known_part in J0, J1. cbn [vmake seq map app vnth nth] in J0, J1. rewrite Ec, Ee in J0, J1. cbn [pair_box low high vnth nth Nat.ltb Nat.leb] in J0, J1.
  set (k0 := c1 + h * e1) in *. set (k1 := c2 + h * e2) in *.
  set (V := stage_value 2 inp h a (stage_update r)) in *.
  pose proof (Is 0%nat ltac:(lia)) as I0. pose proof (Is 1%nat ltac:(lia)) as I1. cbn [kaps_box low high] in I0, I1.
  destruct (Hc _ [y1; s1; y2; s2] _ _ eq_refl En) as (rr & Er' & F). rewrite residuals_eq in Er'. injection Er' as <-.
  inversion F as [|? ? B0 F1]; subst. inversion F1 as [|? ? B1 F2]; subst. inversion F2 as [|? ? B2 F3]; subst. clear F F1 F2 F3 B0 B1.
  assert (V1 : vnth 1 V = y2 + h * s2 + h * a * z3).
  { unfold V, stage_value. rewrite vnth_vmake by lia. rewrite Ey, Es, Er. cbn [vnth nth]. ring. }
  rewrite <- V1 in B2. set (w := vnth 1 V) in *. set (r2 := w - z2) in *. assert (Ez : z2 = w - r2) by (unfold r2; ring).
  assert (Z2 : Rabs z2 <= 3) by (apply Rabs_le_inv in B2; apply Rabs_bound; rewrite Ez; lra).
  destruct (Hmc h [y1; s1; y2; s2] [z0; z1; z2; z3] [- k0; 0; - k1; 0] g0 [w0; w1; w2; w3] (b + 1) Hh eq_refl eq_refl eq_refl Z2) with (2 := Ek) as (M1 & M3).
  { intros j Hj. apply four_cases in Hj as [-> | [-> | [-> | ->]]]; cbn [vnth nth]; apply Rabs_bound; lra. }
  cbn [vnth nth] in M1, M3.
  destruct (Hg _ [y1; s1; y2; s2] [z0; z1; z2; z3] [- k0; 0; - k1; 0] g0 [w0; w1; w2; w3] eq_refl eq_refl eq_refl eq_refl Ek) as (rs & Ers & F).
  rewrite group_fwd_eq in Ers. injection Ers as <-.
  destruct (forall2_4 _ _ _ _ _ _ _ _ _ F) as (A0 & A1 & A2 & A3). clear F.
  assert (Sm : forall y, Rabs y <= M * (b + 1) -> - (1 / 3) <= h * a * y <= 1 / 3).
  { intros y Hy. apply Rabs_le_inv. rewrite !Rabs_mult. rewrite (Rabs_pos_eq h) by lra. rewrite Rmult_assoc.
    apply Rle_trans with (H * (Rabs a * (M * (b + 1)))); [|exact Ha].
    apply Rmult_le_compat; [lra| |lra|apply Rmult_le_compat_l; [apply Rabs_pos|exact Hy]].
    apply Rmult_le_pos; apply Rabs_pos. }
  pose proof (Sm _ M1) as S1. pose proof (Sm _ M3) as S3.
  set (V' := stage_value 2 d h a (stage_update dr)).
  assert (D0 : vnth 0 V' = k0 + h * a * w1).
  { unfold V', stage_value. rewrite vnth_vmake by lia. rewrite Ec, Ee, Edr. cbn [vnth nth]. unfold k0. ring. }
  assert (D1 : vnth 1 V' = k1 + h * a * w3).
  { unfold V', stage_value. rewrite vnth_vmake by lia. rewrite Ec, Ee, Edr. cbn [vnth nth]. unfold k1. ring. }
  destruct pair_C_big as (CZ & CC). pose proof (kaps_C_pos eps He) as C8.
  split; [|split].
  - split; [cbn [pair_box early late] in *; lra|]. intros m Hm4. unfold V, V' in *.
    apply four_cases in Hm4 as [-> | [-> | [-> | ->]]]; cbn [pair_box low high Nat.ltb Nat.leb].
    + change (vnth 0 (stage_value 2 inp h a (stage_update r) ++ stage_value 2 d h a (stage_update dr))) with (vnth 0 (stage_value 2 inp h a (stage_update r))). lra.
    + change (vnth 1 (stage_value 2 inp h a (stage_update r) ++ stage_value 2 d h a (stage_update dr))) with w. lra.
    + change (vnth 2 (stage_value 2 inp h a (stage_update r) ++ stage_value 2 d h a (stage_update dr))) with (vnth 0 (stage_value 2 d h a (stage_update dr))). rewrite D0. lra.
    + change (vnth 3 (stage_value 2 inp h a (stage_update r) ++ stage_value 2 d h a (stage_update dr))) with (vnth 1 (stage_value 2 d h a (stage_update dr))). rewrite D1. lra.
  - intros m Hm2. eapply Rle_trans; [apply Wf, Hm2|]. apply Rmult_le_compat_r; lra.
  - intros m Hm2. rewrite Edr. set (u0 := k0 + h * a * w1) in *. set (u1 := k1 + h * a * w3) in *.
    set (q0 := 0 + h * 0 + h * a * w1 - w0 - - k0) in *. set (q1 := 2 * z2 * w2 - eps * w1 - (1 + 2 * eps) * w0 - 0) in *.
    set (q2 := 0 + h * 0 + h * a * w3 - w2 - - k1) in *. set (q3 := w0 - (1 + 2 * z2) * w2 - w3 - 0) in *.
    assert (Eu : w0 = u0 - q0) by (unfold q0, u0; ring). assert (Ew : w2 = u1 - q2) by (unfold q2, u1; ring).
    assert (P1 : - (tol * (b + 1)) <= r2 * u1 <= tol * (b + 1)) by (apply mult_bound; [exact B2|apply Rabs_bound; unfold u1; lra]).
    assert (P2 : - (2 * tol) <= w * q2 <= 2 * tol) by (apply mult_bound; [apply Rabs_bound; lra|exact A2]).
    assert (P3 : - (1 * tol) <= r2 * q2 <= 1 * tol) by (apply mult_bound; [eapply Rle_trans; [exact B2|lra]|exact A2]).
    apply Rabs_le_inv in A0, A1, A2, A3.
    apply two in Hm2 as [-> | ->].
    + change (vnth 0 (g ?t ?y ?z)) with ((- (1 + 2 * eps) * vnth 0 z + 2 * vnth 1 y * vnth 1 z) / eps). fold w. rewrite D0, D1. cbn [vnth nth].
      apply Rle_trans with ((10 + 2 * b + 2 * eps) / eps * tol); [|apply Rmult_le_compat_r; unfold pair_C; lra].
      replace (_ - _) with ((- 2 * (r2 * u1) - 2 * (w * q2) + 2 * (r2 * q2) + (1 + 2 * eps) * q0 - q1) / eps).
      2: { unfold q1. rewrite Eu, Ew, Ez. field. lra. }
      replace ((10 + 2 * b + 2 * eps) / eps * tol) with ((10 + 2 * b + 2 * eps) * tol / eps) by (field; lra).
      apply div_bound; [exact He|]. assert (Q : - (eps * tol) <= eps * q0 <= eps * tol) by (split; nra).
      apply Rabs_bound. clear -Q P1 P2 P3 A0 A1 Ht. split; lra.
    + change (vnth 1 (g ?t ?y ?z)) with (vnth 0 z - vnth 1 z - 2 * vnth 1 y * vnth 1 z). fold w. rewrite D0, D1. cbn [vnth nth].
      apply Rle_trans with ((11 + 2 * b) * tol); [|apply Rmult_le_compat_r; unfold pair_C; lra].
      replace (_ - _) with (- q3 - q0 + q2 + 2 * (r2 * u1) + 2 * (w * q2) - 2 * (r2 * q2)).
      2: { unfold q3. rewrite Eu, Ew, Ez. ring. }
      apply Rabs_bound. clear -P1 P2 P3 A0 A2 A3 Ht. split; lra.
Qed.
End Change.
End Problem.

(** Solutions are bounded on an interval. *)
Lemma bounded_on (y : R -> R) t0 t1 : t0 <= t1 -> (forall t, t0 <= t <= t1 -> continuity_pt y t) -> exists b, 0 <= b /\ forall t, t0 <= t <= t1 -> Rabs (y t) <= b.
Proof.
  intros Ht C. destruct (continuity_ab_maj (fun t => Rabs (y t)) t0 t1 Ht) as (s & S & _).
  - intros t Bt. apply (continuity_pt_comp y Rabs); [now apply C|apply Rcontinuity_abs].
  - exists (Rabs (y s)). split; [apply Rabs_pos|exact S].
Qed.
Lemma solution_bounded F t1 D : 0 <= t1 -> solution 2 F 0 t1 D -> exists b, 0 <= b /\ forall t m, 0 <= t <= t1 -> (m < 2)%nat -> Rabs (vnth m (D t)) <= b.
Proof.
  intros Ht HD.
  assert (C : forall m, (m < 2)%nat -> forall t, 0 <= t <= t1 -> continuity_pt (fun t => vnth m (D t)) t).
  { intros m Hm t Bt. apply derivable_continuous_pt. eexists. exact (proj2 HD t m Bt Hm). }
  destruct (bounded_on _ 0 t1 Ht (C 0%nat ltac:(lia))) as (b0 & P0 & B0). destruct (bounded_on _ 0 t1 Ht (C 1%nat ltac:(lia))) as (b1 & P1 & B1).
  exists (b0 + b1). split; [lra|]. intros t m Bt Hm. specialize (B0 t Bt). specialize (B1 t Bt). apply two in Hm as [-> | ->]; lra.
Qed.
