(** The error of differences, quotients, square roots and decimal literals of
    binary floating point numbers, and their comparison. *)
From Coq Require Import ZArith QArith Qreals Reals SpecFloat Lia Lra Psatz Bool Zpower.
From Verif Require Import Base SpecFloating M_TableauxFloat L_Float.
Open Scope R_scope.

Section Format.
Variables prec emax : Z.
Hypothesis Hprec : (2 <= prec)%Z.
Hypothesis Hemax : (prec < emax)%Z.
Notation emin := (emin prec emax).
Notation fexp := (fexp prec emax).
Notation finite := (float_finite prec emax).
Let u : R := pw (- prec).
Let big : R := pw (emax - 1).

Lemma float_opp x : finite x -> finite (SFopp x) /\ float_value (SFopp x) = - float_value x.
Proof.
  destruct x as [s|s| |s m e]; cbn [SFopp float_finite float_value]; intros F; try contradiction.
  - split; [exact I|ring].
  - split; [exact F|]. destruct s; cbn [negb]; rewrite ?IZR_neg; ring.
Qed.

Lemma sub_opp x y : finite x -> finite y -> SFsub prec emax x y = SFadd prec emax x (SFopp y).
Proof.
  destruct x as [sx|sx| |sx mx ex], y as [sy|sy| |sy my ey]; cbn [SFsub SFadd SFopp float_finite]; intros Fx Fy; try contradiction; try reflexivity.
  f_equal. unfold cond_Zopp. destruct sy; cbn [negb]; lia.
Qed.
Theorem float_sub x y : finite x -> finite y -> Rabs (float_value x - float_value y) <= big ->
  finite (SFsub prec emax x y) /\
  Rabs (float_value (SFsub prec emax x y) - (float_value x - float_value y)) <= u * (1 + Rabs (float_value x - float_value y)).
Proof.
  intros Fx Fy B. rewrite sub_opp by assumption. destruct (float_opp y Fy) as [F V].
  unfold Rminus in *. rewrite <- V in *. apply float_add; assumption.
Qed.

(** *** Where a quotient lies *)
Lemma digits_Z m : (0 <= m)%Z -> (0 <= Zdigits2 m /\ m < 2 ^ Zdigits2 m /\ (0 < Zdigits2 m -> 2 ^ (Zdigits2 m - 1) <= m))%Z.
Proof. destruct m as [|q|q]; cbn [Zdigits2]; [cbn; lia| |lia]. pose proof (digits_pos q). lia. Qed.

(** Enough digits have been computed. *)
Lemma enough_digits q e l v D : shows (shr_record_of_loc q l) v -> (e <= fexp D)%Z -> pw (D - 1) <= v * pw e ->
  (e <= fexp (Zdigits2 q + e))%Z.
Proof.
  intros Sh He Hv.
  assert (Rm : shr_m (shr_record_of_loc q l) = q) by (destruct l as [|[]]; reflexivity).
  pose proof (shows_floor _ _ Sh) as Fl. rewrite Rm in Fl. assert (Hq : (0 <= q)%Z) by (rewrite <- Rm; apply Sh).
  destruct (digits_Z q Hq) as (D0 & Dhi & _).
  destruct (Z.le_gt_cases D e) as [L|L].
  { unfold SpecFloat.fexp in *. lia. }
  assert (pw (D - 1 - e) <= v).
  { apply Rmult_le_reg_r with (pw e); [apply pw_pos|]. rewrite <- pw_add. replace (D - 1 - e + e)%Z with (D - 1)%Z by lia. exact Hv. }
  rewrite pw_IZR in H by lia.
  assert (2 ^ (D - 1 - e) < q + 1)%Z by (apply lt_IZR; rewrite plus_IZR; lra).
  assert (D - 1 - e < Zdigits2 q)%Z.
  { destruct (Z.lt_ge_cases (D - 1 - e) (Zdigits2 q)) as [?|G]; [assumption|].
    assert (2 ^ Zdigits2 q <= 2 ^ (D - 1 - e))%Z by (apply Z.pow_le_mono_r; lia). lia. }
  unfold SpecFloat.fexp in *. lia.
Qed.

Lemma location_shows m2 q r : (0 < m2)%Z -> (0 <= q)%Z -> (0 <= r < m2)%Z ->
  shows (shr_record_of_loc q (new_location m2 r)) (IZR q + IZR r / IZR m2).
Proof.
  intros Hm Hq Hr. assert (M : 0 < IZR m2) by (apply IZR_lt; lia).
  assert (E : forall k, (0 <= k < m2)%Z -> 0 <= IZR k / IZR m2 < 1).
  { intros k Hk. split; [apply Rmult_le_pos; [apply IZR_le; lia|left; apply Rinv_0_lt_compat, M]|].
    apply Rmult_lt_reg_r with (IZR m2); [exact M|]. unfold Rdiv. rewrite Rmult_assoc, Rinv_l, Rmult_1_r, Rmult_1_l by lra. apply IZR_lt; lia. }
  assert (P : (0 < r)%Z -> 0 < IZR r / IZR m2).
  { intros H. apply Rmult_lt_0_compat; [apply IZR_lt; lia|apply Rinv_0_lt_compat, M]. }
  assert (Lh : (2 * r < m2)%Z -> IZR r / IZR m2 < 1 / 2).
  { intros H. apply Rmult_lt_reg_r with (IZR m2); [exact M|]. unfold Rdiv. rewrite Rmult_assoc, Rinv_l by lra.
    apply IZR_lt in H. rewrite mult_IZR in H. lra. }
  assert (Eh : (2 * r = m2)%Z -> IZR r / IZR m2 = 1 / 2).
  { intros H. rewrite <- H, mult_IZR. field. rewrite <- H, mult_IZR in M. lra. }
  assert (Gh : (2 * r > m2)%Z -> 1 / 2 < IZR r / IZR m2).
  { intros H. apply Rmult_lt_reg_r with (IZR m2); [exact M|]. unfold Rdiv. rewrite (Rmult_assoc (IZR r)), Rinv_l by lra.
    assert (H' : (m2 < 2 * r)%Z) by lia. apply IZR_lt in H'. rewrite mult_IZR in H'. lra. }
  specialize (E r Hr).
  unfold new_location, new_location_even, new_location_odd.
  destruct (Z.even m2) eqn:Ev.
  - destruct (Zeq_bool r 0) eqn:Z0.
    + apply Zeq_bool_eq in Z0. subst r. split; cbn; [lia|]. lra.
    + apply Zeq_bool_neq in Z0. specialize (P ltac:(lia)).
      destruct (Z.compare_spec (2 * r) m2) as [C|C|C]; split; cbn; try lia; [specialize (Eh C)|specialize (Lh C)|specialize (Gh ltac:(lia))]; lra.
  - destruct (Zeq_bool r 0) eqn:Z0.
    + apply Zeq_bool_eq in Z0. subst r. split; cbn; [lia|]. lra.
    + apply Zeq_bool_neq in Z0. specialize (P ltac:(lia)).
      destruct (Z.compare_spec (2 * r + 1) m2) as [C|C|C]; split; cbn; try lia.
      * specialize (Lh ltac:(lia)). lra.
      * specialize (Lh ltac:(lia)). lra.
      * assert (2 * r <> m2)%Z by (intros X; rewrite <- X, Z.even_mul in Ev; discriminate).
        specialize (Gh ltac:(lia)). lra.
Qed.

Lemma div_core m1 e1 m2 e2 : let '(q, e, l) := SFdiv_core_binary prec emax (Zpos m1) e1 (Zpos m2) e2 in
  exists v, shows (shr_record_of_loc q l) v /\ (e <= fexp (Zdigits2 q + e))%Z /\
    v * pw e = IZR (Zpos m1) * pw e1 / (IZR (Zpos m2) * pw e2).
Proof.
  unfold SFdiv_core_binary. cbn [Zdigits2]. cbv zeta.
  pose proof (digits_pos m1) as D1. pose proof (digits_pos m2) as D2.
  set (d1 := Zpos (digits2_pos m1)) in *. set (d2 := Zpos (digits2_pos m2)) in *.
  set (D := (d1 + e1 - (d2 + e2))%Z). set (e := Z.min (fexp D) (e1 - e2)).
  set (m' := match (e1 - e2 - e)%Z with Zpos _ => Z.shiftl (Zpos m1) (e1 - e2 - e) | 0%Z => Zpos m1 | Zneg _ => 0%Z end).
  assert (Hm' : m' = (Zpos m1 * 2 ^ (e1 - e2 - e))%Z).
  { unfold m'. assert (0 <= e1 - e2 - e)%Z by (unfold e; lia). destruct (e1 - e2 - e)%Z as [|p|p] eqn:Q; [cbn; lia| |lia].
    rewrite Z.shiftl_mul_pow2 by lia. reflexivity. }
  pose proof (Z_div_mod m' (Zpos m2) ltac:(lia)) as M. destruct (Z.div_eucl m' (Zpos m2)) as [q r]. destruct M as [M1 M2].
  assert (Pm : (0 <= m')%Z) by (rewrite Hm'; apply Z.mul_nonneg_nonneg; [lia|apply Z.pow_nonneg; lia]).
  assert (Hq : (0 <= q)%Z) by nia.
  assert (K2 : 0 < IZR (Zpos m2)) by (apply IZR_lt; lia). assert (K1 : 0 < IZR (Zpos m1)) by (apply IZR_lt; lia).
  pose proof (pw_pos e1). pose proof (pw_pos e2). pose proof (pw_pos e).
  pose proof (location_shows (Zpos m2) q r ltac:(lia) Hq M2) as Sh.
  set (v := IZR q + IZR r / IZR (Zpos m2)) in *.
  assert (Ev : v * pw e = IZR (Zpos m1) * pw e1 / (IZR (Zpos m2) * pw e2)).
  { assert (Em : IZR (Zpos m2) * v = IZR (Zpos m1) * pw (e1 - e2 - e)).
    { rewrite (pw_IZR (e1 - e2 - e)) by (unfold e; lia). rewrite <- mult_IZR, <- Hm', M1, plus_IZR, mult_IZR. unfold v. field. lra. }
    assert (Ep : pw (e1 - e2 - e) * (pw e2 * pw e) = pw e1) by (rewrite <- !pw_add; f_equal; lia).
    apply Rmult_eq_reg_r with (IZR (Zpos m2) * pw e2); [|nra].
    unfold Rdiv. rewrite Rmult_assoc, Rmult_assoc, Rinv_l, Rmult_1_r by nra.
    rewrite <- Ep. replace (v * (pw e * (IZR (Zpos m2) * pw e2))) with (IZR (Zpos m2) * v * (pw e2 * pw e)) by ring. rewrite Em. ring. }
  exists v. split; [exact Sh|]. split; [|exact Ev].
  apply enough_digits with (l := new_location (Zpos m2) r) (v := v) (D := D); [exact Sh|unfold e; lia|].
  rewrite Ev. apply Rmult_le_reg_r with (IZR (Zpos m2) * pw e2); [nra|].
  unfold Rdiv. rewrite (Rmult_assoc (IZR (Zpos m1) * pw e1)), Rinv_l, Rmult_1_r by nra.
  apply Rle_trans with (pw (D - 1) * (pw d2 * pw e2)).
  - apply Rmult_le_compat_l; [left; apply pw_pos|]. apply Rmult_le_compat_r; [lra|]. rewrite (pw_IZR d2) by (unfold d2; lia). apply IZR_le; lia.
  - rewrite <- !pw_add. replace (D - 1 + (d2 + e2))%Z with ((d1 - 1) + e1)%Z by (unfold D; lia). rewrite pw_add.
    apply Rmult_le_compat_r; [lra|]. rewrite (pw_IZR (d1 - 1)) by (unfold d1; lia). apply IZR_le; lia.
Qed.

Lemma sign_abs (s : bool) x : 0 <= x -> Rabs (if s then - x else x) = x.
Proof. intros H. destruct s; [rewrite Rabs_Ropp|]; now apply Rabs_pos_eq. Qed.

Lemma quotient_round s m1 e1 m2 e2 : let x := IZR (Zpos m1) * pw e1 / (IZR (Zpos m2) * pw e2) in
  x <= big ->
  let r := (let '(q, e, l) := SFdiv_core_binary prec emax (Zpos m1) e1 (Zpos m2) e2 in binary_round_aux prec emax s q e l) in
  finite r /\ Rabs (float_value r - (if s then - x else x)) <= u * (1 + x).
Proof.
  intros x B. cbv zeta. pose proof (div_core m1 e1 m2 e2) as C.
  destruct (SFdiv_core_binary prec emax (Zpos m1) e1 (Zpos m2) e2) as [[q e] l]. destruct C as (v & Sh & He & Ev).
  fold x in Ev. rewrite <- Ev in *. apply round_gen; assumption.
Qed.

Theorem float_div x y : finite x -> finite y -> float_value y <> 0 -> Rabs (float_value x / float_value y) <= big ->
  finite (SFdiv prec emax x y) /\
  Rabs (float_value (SFdiv prec emax x y) - float_value x / float_value y) <= u * (1 + Rabs (float_value x / float_value y)).
Proof.
  intros Fx Fy Y B.
  destruct x as [sx|sx| |sx mx ex], y as [sy|sy| |sy my ey]; try contradiction; cbn [float_value] in Y; try lra.
  - cbn [SFdiv]. split; [exact I|]. cbn [float_value] in *. unfold Rdiv. rewrite Rmult_0_l, Rminus_0_r, Rabs_R0.
    assert (0 < u) by apply pw_pos. lra.
  - cbn [SFdiv].
    assert (K1 : 0 < IZR (Zpos mx) * pw ex) by (apply Rmult_lt_0_compat; [apply IZR_lt; lia|apply pw_pos]).
    assert (K2 : 0 < IZR (Zpos my) * pw ey) by (apply Rmult_lt_0_compat; [apply IZR_lt; lia|apply pw_pos]).
    set (z := IZR (Zpos mx) * pw ex / (IZR (Zpos my) * pw ey)).
    assert (Kz : 0 <= z) by (apply Rmult_le_pos; [lra|left; apply Rinv_0_lt_compat, K2]).
    assert (E : float_value (S754_finite sx mx ex) / float_value (S754_finite sy my ey) = if xorb sx sy then - z else z).
    { cbn [float_value]. unfold z. pose proof (pw_pos ey). assert (0 < IZR (Zpos my)) by (apply IZR_lt; lia).
      destruct sx, sy; cbn [xorb]; rewrite ?IZR_neg; field; lra. }
    rewrite E in *. rewrite sign_abs in * by exact Kz. apply quotient_round, B.
Qed.

Theorem float_sqrt x : finite x -> 0 < float_value x -> sqrt (float_value x) <= big ->
  finite (SFsqrt prec emax x) /\
  Rabs (float_value (SFsqrt prec emax x) - sqrt (float_value x)) <= u * (1 + sqrt (float_value x)).
Proof.
  intros Fx P B. destruct x as [sx|sx| |sx m e]; cbn [float_value] in P; try lra.
  pose proof (pw_pos e) as Pe. assert (K : 0 < IZR (Zpos m)) by (apply IZR_lt; lia).
  destruct sx; [rewrite IZR_neg in P; nra|]. cbn [float_value SFsqrt] in *.
  unfold SFsqrt_core_binary. cbn [Zdigits2]. cbv zeta. pose proof (digits_pos m) as Dm. set (d := Zpos (digits2_pos m)) in *.
  set (D := Z.div2 (d + e + 1)). set (e' := Z.min (fexp D) (Z.div2 e)).
  set (m' := match (e - 2 * e')%Z with Zpos _ => Z.shiftl (Zpos m) (e - 2 * e') | 0%Z => Zpos m | Zneg _ => 0%Z end).
  assert (He : (0 <= e - 2 * e')%Z) by (pose proof (Z.div2_odd e); unfold e'; destruct (Z.odd e); cbn [Z.b2z] in *; lia).
  assert (Hm' : m' = (Zpos m * 2 ^ (e - 2 * e'))%Z).
  { unfold m'. destruct (e - 2 * e')%Z as [|p|p] eqn:Q; [cbn; lia| |lia]. rewrite Z.shiftl_mul_pow2 by lia. reflexivity. }
  assert (Pm : (0 <= m')%Z) by (rewrite Hm'; apply Z.mul_nonneg_nonneg; [lia|apply Z.pow_nonneg; lia]).
  pose proof (Z.sqrtrem_spec m' Pm) as S. destruct (Z.sqrtrem m') as [q r]. destruct S as [S1 S2].
  assert (Hq : (0 <= q)%Z) by lia.
  set (v := sqrt (IZR m')).
  assert (Vm : v * v = IZR m') by (apply sqrt_sqrt, IZR_le, Pm).
  assert (Pv : 0 <= v) by apply sqrt_pos.
  assert (Qr : IZR m' = IZR q * IZR q + IZR r) by (rewrite <- mult_IZR, <- plus_IZR; f_equal; lia).
  assert (Q0 : 0 <= IZR q) by (apply IZR_le; lia).
  set (l := if Zeq_bool r 0 then loc_Exact else loc_Inexact (if Zle_bool r q then Lt else Gt)).
  assert (Sh : shows (shr_record_of_loc q l) v).
  { unfold l. destruct (Zeq_bool r 0) eqn:Z0.
    - apply Zeq_bool_eq in Z0. subst r. split; cbn; [exact Hq|]. nra.
    - apply Zeq_bool_neq in Z0. assert (1 <= IZR r) by (apply IZR_le; lia). destruct (Zle_bool r q) eqn:C.
      + apply Zle_bool_imp_le in C. assert (IZR r <= IZR q) by (apply IZR_le; lia). split; cbn; [exact Hq|]. split; nra.
      + assert (q + 1 <= r)%Z by (destruct (Z.leb_spec r q); [congruence|lia]). apply IZR_le in H0. rewrite plus_IZR in H0.
        assert (IZR r <= 2 * IZR q) by (rewrite <- mult_IZR; apply IZR_le; lia). split; cbn; [exact Hq|]. split; nra. }
  pose proof (pw_pos e') as Pe'.
  assert (Ev : v * pw e' = sqrt (IZR (Zpos m) * pw e)).
  { symmetry. apply sqrt_lem_1; [nra|nra|..]. replace (v * pw e' * (v * pw e')) with (v * v * (pw e' * pw e')) by ring.
    rewrite Vm, Hm', mult_IZR, <- pw_IZR by exact He. rewrite Rmult_assoc. f_equal. rewrite <- !pw_add. f_equal. lia. }
  rewrite <- Ev in *. change (v * pw e') with (if false then - (v * pw e') else v * pw e') at 1.
  apply (round_gen prec emax Hprec Hemax false q e' l v); [|exact Sh|exact B].
  apply enough_digits with (l := l) (v := v) (D := D); [exact Sh|unfold e'; lia|].
  rewrite Ev. apply Rsqr_incr_0; [|left; apply pw_pos|apply sqrt_pos]. unfold Rsqr. rewrite sqrt_sqrt by nra.
  rewrite <- pw_add. apply Rle_trans with (pw (d - 1 + e)).
  - apply pw_le. pose proof (Z.div2_odd (d + e + 1)). fold D in H. destruct (Z.odd (d + e + 1)); cbn [Z.b2z] in *; lia.
  - rewrite pw_add. apply Rmult_le_compat_r; [lra|]. rewrite (pw_IZR (d - 1)) by (unfold d; lia). apply IZR_le; lia.
Qed.

Theorem float_literal q : Rabs (Q2R q) <= big ->
  finite (literal prec emax q) /\ Rabs (float_value (literal prec emax q) - Q2R q) <= u * (1 + Rabs (Q2R q)).
Proof.
  intros B. destruct q as [n d]. unfold literal, Q2R in *. cbn [Qnum Qden] in *.
  assert (Kd : 0 < IZR (Zpos d)) by (apply IZR_lt; lia).
  assert (Px : forall m, 0 <= IZR (Zpos m) * / IZR (Zpos d)).
  { intros m. apply Rmult_le_pos; [apply IZR_le; lia|left; apply Rinv_0_lt_compat, Kd]. }
  assert (E : forall m, IZR (Zpos m) * pw 0 / (IZR (Zpos d) * pw 0) = IZR (Zpos m) * / IZR (Zpos d)).
  { intros m. cbn [powerRZ]. field. lra. }
  destruct n as [|m|m].
  - split; [exact I|]. cbn [float_value]. rewrite Rmult_0_l, Rminus_0_r, Rabs_R0. assert (0 < u) by apply pw_pos. lra.
  - rewrite (Rabs_pos_eq (_ * _)) in * by apply Px. pose proof (quotient_round false m 0 d 0) as Q. rewrite E in Q. exact (Q B).
  - rewrite IZR_neg, Ropp_mult_distr_l_reverse, Rabs_Ropp in *. rewrite (Rabs_pos_eq (_ * _)) in * by apply Px.
    pose proof (quotient_round true m 0 d 0) as Q. rewrite E in Q. exact (Q B).
Qed.

(** *** Comparison *)
Lemma bounded_digits m e : bounded prec emax m e = true -> (Zpos m < 2 ^ prec)%Z /\ (emin <= e)%Z.
Proof.
  intros H. unfold bounded, canonical_mantissa in H. apply andb_prop in H. destruct H as [H _]. apply Zeq_bool_eq in H.
  pose proof (digits_pos m) as D. unfold SpecFloat.fexp in H. split; [|lia].
  assert (Zpos (digits2_pos m) <= prec)%Z by lia.
  assert (2 ^ Zpos (digits2_pos m) <= 2 ^ prec)%Z by (apply Z.pow_le_mono_r; lia). lia.
Qed.
Lemma exponent_lt m1 e1 m2 e2 : bounded prec emax m1 e1 = true -> bounded prec emax m2 e2 = true -> (e1 < e2)%Z ->
  IZR (Zpos m1) * pw e1 < IZR (Zpos m2) * pw e2.
Proof.
  intros B1 B2 L. destruct (bounded_digits _ _ B1) as [U1 G1]. destruct (bounded_cases _ _ _ _ B2) as [C|C]; [|lia].
  pose proof (digits_pos m2) as D. rewrite C in D.
  apply Rlt_le_trans with (pw prec * pw e1).
  - apply Rmult_lt_compat_r; [apply pw_pos|]. rewrite pw_IZR by lia. apply IZR_lt, U1.
  - rewrite <- pw_add. apply Rle_trans with (pw (prec - 1) * pw e2); [rewrite <- pw_add; apply pw_le; lia|].
    apply Rmult_le_compat_r; [left; apply pw_pos|]. rewrite pw_IZR by lia. apply IZR_le, D.
Qed.
Theorem float_ltb x y : finite x -> finite y -> SFltb x y = true -> float_value x < float_value y.
Proof.
  intros Fx Fy. unfold SFltb.
  destruct x as [sx|sx| |sx mx ex], y as [sy|sy| |sy my ey]; try contradiction; cbn [SFcompare]; try discriminate.
  - destruct sy; [discriminate|]. intros _. cbn [float_value]. apply Rmult_lt_0_compat; [apply IZR_lt; lia|apply pw_pos].
  - destruct sx; [|discriminate]. intros _. cbn [float_value]. rewrite IZR_neg. pose proof (pw_pos ex). assert (0 < IZR (Zpos mx)) by (apply IZR_lt; lia). nra.
  - cbn [float_finite valid_binary float_value] in *. pose proof (pw_pos ex). pose proof (pw_pos ey).
    assert (0 < IZR (Zpos mx)) by (apply IZR_lt; lia). assert (0 < IZR (Zpos my)) by (apply IZR_lt; lia).
    destruct sx, sy; rewrite ?IZR_neg; try discriminate; try (intros _; nra);
    destruct (Z.compare_spec ex ey) as [E|E|E]; try discriminate.
    + change (Pos.compare_cont Eq mx my) with (Pos.compare mx my). destruct (Pos.compare_spec mx my) as [C|C|C]; try discriminate. intros _. subst ey. assert (IZR (Zpos my) < IZR (Zpos mx)) by (apply IZR_lt; lia). nra.
    + intros _. pose proof (exponent_lt _ _ _ _ Fy Fx E). lra.
    + change (Pos.compare_cont Eq mx my) with (Pos.compare mx my). destruct (Pos.compare_spec mx my) as [C|C|C]; try discriminate. intros _. subst ey. assert (IZR (Zpos mx) < IZR (Zpos my)) by (apply IZR_lt; lia). nra.
    + intros _. pose proof (exponent_lt _ _ _ _ Fx Fy E). lra.
Qed.
(** Testing for zero. *)
Lemma float_eqb0 x s : finite x -> SFeqb x (S754_zero s) = true <-> float_value x = 0.
Proof.
  unfold SFeqb. destruct x as [sx|sx| |sx mx ex]; cbn [SFcompare float_value float_finite]; intros F; try contradiction.
  - split; reflexivity.
  - pose proof (pw_pos ex). assert (0 < IZR (Zpos mx)) by (apply IZR_lt; lia).
    destruct sx; rewrite ?IZR_neg; (split; [discriminate|intros E; exfalso; nra]).
Qed.
Lemma sub_same x : finite x -> SFeqb (SFsub prec emax x x) (S754_zero false) = true.
Proof.
  destruct x as [sx|sx| |sx mx ex]; cbn [float_finite]; intros F; try contradiction; cbn [SFsub].
  - destruct sx; reflexivity.
  - rewrite Z.sub_diag. reflexivity.
Qed.
End Format.
