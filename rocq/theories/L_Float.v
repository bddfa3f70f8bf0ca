(** The error of sums and products of binary floating point numbers. *)
From Coq Require Import ZArith Reals SpecFloat Lia Lra Psatz Bool Zpower.
From Verif Require Import Base SpecFloating.
Open Scope R_scope.

Notation pw := (powerRZ 2).
Lemma pw_pos e : 0 < pw e.
Proof. apply powerRZ_lt; lra. Qed.
Lemma pw_add a b : pw (a + b) = pw a * pw b.
Proof. apply powerRZ_add; lra. Qed.
Lemma pw_1 e : pw (e + 1) = 2 * pw e.
Proof. rewrite pw_add. change (pw 1) with (2 * 1). ring. Qed.
Lemma pw_half e : pw (e + - (1)) = 1 / 2 * pw e.
Proof. rewrite pw_add. change (pw (- (1))) with (/ (2 * 1)). field. Qed.
Lemma pw_nat n : pw (Z.of_nat n) = 2 ^ n.
Proof. symmetry. apply pow_powerRZ. Qed.
Lemma pw_IZR e : (0 <= e)%Z -> pw e = IZR (2 ^ e).
Proof. intros H. rewrite <- (Z2Nat.id e) by exact H. rewrite pw_nat, <- pow_IZR. reflexivity. Qed.
Lemma pw_le a b : (a <= b)%Z -> pw a <= pw b.
Proof.
  intros H. replace b with (a + (b - a))%Z by lia. rewrite pw_add, (pw_IZR (b - a)) by lia.
  pose proof (pw_pos a). assert (1 <= IZR (2 ^ (b - a))).
  { apply IZR_le. pose proof (Z.pow_pos_nonneg 2 (b - a) ltac:(lia) ltac:(lia)). lia. }
  nra.
Qed.
Lemma pw_lt a b : (a < b)%Z -> pw a < pw b.
Proof. intros H. apply Rlt_le_trans with (pw (a + 1)); [rewrite pw_1; pose proof (pw_pos a); lra|apply pw_le; lia]. Qed.
Lemma pw_opp e : pw (- e) * pw e = 1.
Proof. rewrite <- pw_add. replace (- e + e)%Z with 0%Z by lia. reflexivity. Qed.

(** *** Digits *)
Lemma digits_pos m : (2 ^ (Zpos (digits2_pos m) - 1) <= Zpos m < 2 ^ Zpos (digits2_pos m))%Z.
Proof.
  induction m as [m IH|m IH|]; cbn [digits2_pos]; [| |cbn; lia];
  rewrite Pos2Z.inj_succ; unfold Z.succ;
  replace (Zpos (digits2_pos m) + 1 - 1)%Z with (Zpos (digits2_pos m) - 1 + 1)%Z by lia;
  rewrite !Z.pow_add_r by lia; lia.
Qed.
Lemma digits_unique m d : (0 < d -> 2 ^ (d - 1) <= Zpos m < 2 ^ d -> Zpos (digits2_pos m) = d)%Z.
Proof.
  intros Hd H. pose proof (digits_pos m) as D. set (k := Zpos (digits2_pos m)) in *.
  assert (0 < k)%Z by (unfold k; lia).
  destruct (Z.lt_trichotomy k d) as [L|[E|L]]; [|exact E|].
  - assert (2 ^ k <= 2 ^ (d - 1))%Z by (apply Z.pow_le_mono_r; lia). lia.
  - assert (2 ^ d <= 2 ^ (k - 1))%Z by (apply Z.pow_le_mono_r; lia). lia.
Qed.
Lemma digits_le m d : (0 <= d -> Zpos m < 2 ^ d -> Zpos (digits2_pos m) <= d)%Z.
Proof.
  intros Hd H. pose proof (digits_pos m) as D. set (k := Zpos (digits2_pos m)) in *.
  destruct (Z.le_gt_cases k d) as [L|L]; [exact L|].
  assert (2 ^ d <= 2 ^ (k - 1))%Z by (apply Z.pow_le_mono_r; lia). lia.
Qed.

(** *** Shifting to the right *)
Definition shows (mrs : shr_record) (y : R) : Prop :=
  (0 <= shr_m mrs)%Z /\
  match shr_r mrs, shr_s mrs with
  | false, false => y = IZR (shr_m mrs)
  | false, true => IZR (shr_m mrs) < y < IZR (shr_m mrs) + 1 / 2
  | true, false => y = IZR (shr_m mrs) + 1 / 2
  | true, true => IZR (shr_m mrs) + 1 / 2 < y < IZR (shr_m mrs) + 1
  end.
Lemma shr_1_shows mrs y : shows mrs y -> shows (shr_1 mrs) (y / 2).
Proof.
  destruct mrs as [m r s]. unfold shows. cbn [shr_m shr_r shr_s].
  destruct m as [|[p|p|]|p]; cbn [shr_1 shr_m shr_r shr_s]; intros [H0 H]; try lia;
  (split; [lia|]);
  rewrite ?(Pos2Z.inj_xI p), ?(Pos2Z.inj_xO p), ?plus_IZR, ?mult_IZR in H;
  destruct r, s; cbn [orb] in *; try lra; rewrite ?H; lra.
Qed.
Lemma shr_iter p : forall mrs y, shows mrs y -> shows (iter_pos shr_1 p mrs) (y * pw (- Zpos p)).
Proof.
  induction p as [p IH|p IH|]; intros mrs y H; cbn [iter_pos].
  - replace (y * pw (- Zpos (xI p))) with (y / 2 * pw (- Zpos p) * pw (- Zpos p)).
    + apply IH, IH, shr_1_shows, H.
    + rewrite (Pos2Z.inj_xI p). replace (- (2 * Zpos p + 1))%Z with (- Zpos p + - Zpos p + - (1))%Z by lia.
      rewrite !pw_add. cbn [Z.opp]. change (pw (-1)) with (/ (2 * 1)). field.
  - replace (y * pw (- Zpos (xO p))) with (y * pw (- Zpos p) * pw (- Zpos p)).
    + apply IH, IH, H.
    + rewrite (Pos2Z.inj_xO p). replace (- (2 * Zpos p))%Z with (- Zpos p + - Zpos p)%Z by lia.
      rewrite !pw_add. ring.
  - apply shr_1_shows in H. replace (y * pw (- (1))) with (y / 2); [exact H|]. change (pw (- (1))) with (/ (2 * 1)). field.
Qed.
Lemma shows_round mrs y : shows mrs y ->
  let m := round_nearest_even (shr_m mrs) (loc_of_shr_record mrs) in
  (m = shr_m mrs \/ m = shr_m mrs + 1)%Z /\ Rabs (IZR m - y) <= 1 / 2.
Proof.
  destruct mrs as [m r s]. unfold shows. cbn [shr_m shr_r shr_s]. intros [H0 H].
  destruct r, s; cbn [loc_of_shr_record round_nearest_even shr_m].
  - split; [auto|]. rewrite plus_IZR. apply Rabs_le. lra.
  - destruct (Z.even m); (split; [auto|]); rewrite ?plus_IZR, H; apply Rabs_le; lra.
  - split; [auto|]. apply Rabs_le. lra.
  - split; [auto|]. rewrite H. apply Rabs_le. lra.
Qed.
Lemma shows_floor mrs y : shows mrs y -> IZR (shr_m mrs) <= y < IZR (shr_m mrs) + 1.
Proof. destruct mrs as [m [] []]; unfold shows; cbn; intros [_ H]; lra. Qed.

(** *** Rounding *)
Section Format.
Variables prec emax : Z.
Hypothesis Hprec : (2 <= prec)%Z.
Hypothesis Hemax : (prec < emax)%Z.
Notation emin := (emin prec emax).
Notation fexp := (fexp prec emax).
Notation finite := (float_finite prec emax).
Let u : R := pw (- prec).
Let big : R := pw (emax - 1).

Lemma emin_small : (emin < emax - prec)%Z.
Proof. unfold SpecFloat.emin. lia. Qed.

Lemma canonical m e : (Zpos m < 2 ^ prec)%Z -> (emin <= e <= emax - prec)%Z -> (e = emin \/ 2 ^ (prec - 1) <= Zpos m)%Z ->
  bounded prec emax m e = true.
Proof.
  intros H1 H2 H3. unfold bounded, canonical_mantissa. apply andb_true_intro. split; [|apply Z.leb_le; lia].
  apply Zeq_is_eq_bool. unfold SpecFloat.fexp. pose proof (digits_le m prec ltac:(lia) H1) as D.
  destruct H3 as [->|H3]; [lia|]. rewrite (digits_unique m prec) by lia. lia.
Qed.

(** Rounding [v * 2^e], given the integer part of [v] and where [v] lies behind it. *)
Lemma round_gen s m e l v : (e <= fexp (Zdigits2 m + e))%Z -> shows (shr_record_of_loc m l) v -> v * pw e <= big ->
  let r := binary_round_aux prec emax s m e l in
  finite r /\
  Rabs (float_value r - (if s then - (v * pw e) else v * pw e)) <= u * (1 + v * pw e).
Proof.
  intros He I0 Hbig. set (x := v * pw e) in *.
  assert (Rm0 : shr_m (shr_record_of_loc m l) = m) by (destruct l as [|[]]; reflexivity).
  assert (Hm : (0 <= m)%Z) by (rewrite <- Rm0; apply I0).
  assert (Hv : IZR m <= v < IZR m + 1) by (rewrite <- Rm0; apply shows_floor, I0).
  assert (Hd : (0 <= Zdigits2 m /\ m < 2 ^ Zdigits2 m /\ (0 < Zdigits2 m -> 2 ^ (Zdigits2 m - 1) <= m))%Z).
  { destruct m as [|q|q]; cbn [Zdigits2]; [cbn; lia| |lia]. pose proof (digits_pos q). lia. }
  set (d := Zdigits2 m) in *. destruct Hd as (D0 & Dhi & Dlo).
  set (e1 := fexp (d + e)) in *.
  assert (E1 : (emin <= e1)%Z /\ (d + e - prec <= e1)%Z) by (unfold e1, SpecFloat.fexp; lia).
  assert (E2 : (e1 = emin \/ e1 = d + e - prec)%Z) by (unfold e1, SpecFloat.fexp; lia).
  set (y := x * pw (- e1)).
  assert (Hx : x = y * pw e1) by (unfold y; rewrite Rmult_assoc, pw_opp; ring).
  assert (Px : 0 <= x) by (apply Rmult_le_pos; [apply IZR_le in Hm; lra|left; apply pw_pos]).
  (* the shifted mantissa *)
  assert (S1 : exists mrs, shr_fexp prec emax m e l = (mrs, e1) /\ shows mrs y).
  { unfold shr_fexp. fold d. fold e1. set (r0 := shr_record_of_loc m l) in *.
    destruct (e1 - e)%Z as [|q|q] eqn:Q; [| |lia].
    - exists r0. cbn [shr]. split; [f_equal; lia|].
      replace y with v; [exact I0|]. unfold y, x. rewrite Rmult_assoc, <- pw_add. replace (e + - e1)%Z with 0%Z by lia. cbn. ring.
    - exists (iter_pos shr_1 q r0). cbn [shr]. split; [f_equal; lia|].
      replace y with (v * pw (- Zpos q)); [apply shr_iter, I0|].
      unfold y, x. rewrite Rmult_assoc, <- pw_add. do 2 f_equal. lia. }
  destruct S1 as (mrs & Es & Sh).
  (* bounds of the shifted mantissa *)
  assert (Yhi : y < pw prec).
  { unfold y, x. rewrite Rmult_assoc, <- pw_add. apply Rlt_le_trans with (pw d * pw (e + - e1)).
    - apply Rmult_lt_compat_r; [apply pw_pos|]. rewrite (pw_IZR d) by lia.
      apply Rlt_le_trans with (IZR m + 1); [lra|]. rewrite <- plus_IZR. apply IZR_le. lia.
    - rewrite <- pw_add. apply pw_le. lia. }
  assert (Ylo : e1 = (d + e - prec)%Z -> pw (prec - 1) <= y).
  { intros E. unfold y, x. rewrite Rmult_assoc, <- pw_add. replace (prec - 1)%Z with (d - 1 + (e + - e1))%Z by lia.
    rewrite pw_add. apply Rmult_le_compat_r; [left; apply pw_pos|]. assert (0 < d)%Z by lia. rewrite (pw_IZR (d - 1)) by lia.
    apply Rle_trans with (IZR m); [apply IZR_le; auto|lra]. }
  pose proof (shows_floor _ _ Sh) as Fl. destruct (shows_round _ _ Sh) as [Rm Re].
  set (m1 := shr_m mrs) in *. set (m2 := round_nearest_even m1 (loc_of_shr_record mrs)) in *.
  assert (P1 : (0 <= m1)%Z) by apply Sh.
  assert (M1 : (m1 < 2 ^ prec)%Z) by (apply lt_IZR; rewrite <- pw_IZR by lia; lra).
  assert (M2 : (0 <= m2 <= 2 ^ prec)%Z) by lia.
  assert (M3 : e1 = (d + e - prec)%Z -> (2 ^ (prec - 1) <= m2)%Z).
  { intros E. specialize (Ylo E). rewrite pw_IZR in Ylo by lia.
    assert (2 ^ (prec - 1) < m1 + 1)%Z by (apply lt_IZR; rewrite plus_IZR; lra). lia. }
  (* the error *)
  assert (Err : Rabs (IZR m2 * pw e1 - x) <= u * (1 + x)).
  { rewrite Hx at 1. replace (IZR m2 * pw e1 - y * pw e1) with ((IZR m2 - y) * pw e1) by ring.
    rewrite Rabs_mult, (Rabs_pos_eq (pw e1)) by (left; apply pw_pos).
    apply Rle_trans with (1 / 2 * pw e1); [apply Rmult_le_compat_r; [left; apply pw_pos|exact Re]|].
    assert (Pu : 0 < u) by apply pw_pos.
    destruct E2 as [E|E].
    - assert (1 / 2 * pw e1 <= u).
      { rewrite <- pw_half. apply pw_le. unfold SpecFloat.emin in E. lia. }
      nra.
    - assert (1 / 2 * pw e1 <= u * x).
      { rewrite Hx, <- Rmult_assoc. apply Rmult_le_compat_r; [left; apply pw_pos|]. specialize (Ylo E).
        apply Rle_trans with (u * pw (prec - 1)); [|apply Rmult_le_compat_l; lra]. unfold u. rewrite <- pw_add.
        replace (- prec + (prec - 1))%Z with (- (1))%Z by lia. change (pw (- (1))) with (/ (2 * 1)). lra. }
      nra. }
  (* the second shift *)
  unfold binary_round_aux. rewrite Es. fold m1 m2.
  assert (Sg : forall z, Rabs (z - x) <= u * (1 + x) -> Rabs ((if s then - z else z) - (if s then - x else x)) <= u * (1 + x)).
  { intros z Hz. destruct s; [|exact Hz]. replace (- z - - x) with (- (z - x)) by ring. now rewrite Rabs_Ropp. }
  assert (Big : (emax - prec < e1)%Z -> False).
  { intros L. assert (E : e1 = (d + e - prec)%Z) by (destruct E2 as [E|E]; [pose proof emin_small; lia|exact E]).
    specialize (Ylo E). assert (pw (prec - 1) * pw e1 <= x) by (rewrite Hx; apply Rmult_le_compat_r; [left; apply pw_pos|exact Ylo]).
    rewrite <- pw_add in H. unfold big in Hbig. pose proof (pw_lt (emax - 1) (prec - 1 + e1) ltac:(lia)). lra. }
  destruct (Z.eq_dec m2 (2 ^ prec)) as [Em|Nm].
  - (* carry *)
    assert (Mp : m2 = Zpos (2 ^ Z.to_pos prec)) by (rewrite Em, Pos2Z.inj_pow; f_equal; lia).
    assert (Dg : Zdigits2 m2 = (prec + 1)%Z).
    { rewrite Mp. cbn [Zdigits2]. apply digits_unique; [lia|]. rewrite <- Mp, Em. replace (prec + 1 - 1)%Z with prec by lia.
      split; [lia|]. apply Z.pow_lt_mono_r; lia. }
    assert (H2 : shr_m (fst (shr_fexp prec emax m2 e1 loc_Exact)) = (2 ^ (prec - 1))%Z /\ snd (shr_fexp prec emax m2 e1 loc_Exact) = (e1 + 1)%Z).
    { unfold shr_fexp. rewrite Dg. replace (fexp (prec + 1 + e1) - e1)%Z with 1%Z by (unfold SpecFloat.fexp; lia).
      cbn [shr fst snd iter_pos shr_record_of_loc]. split; [|reflexivity].
      assert (E3 : m2 = (2 * 2 ^ (prec - 1))%Z) by (rewrite Em; replace prec with (1 + (prec - 1))%Z at 1 by lia; rewrite Z.pow_add_r by lia; reflexivity).
      pose proof (Z.pow_pos_nonneg 2 (prec - 1) ltac:(lia) ltac:(lia)) as PP.
      destruct (2 ^ (prec - 1))%Z as [|q|q]; [lia| |lia]. rewrite E3. reflexivity. }
    destruct (shr_fexp prec emax m2 e1 loc_Exact) as [mrs2 e2]. cbn [fst snd] in H2. destruct H2 as [-> ->].
    pose proof (Z.pow_pos_nonneg 2 (prec - 1) ltac:(lia) ltac:(lia)) as PP.
    destruct (2 ^ (prec - 1))%Z as [|q|q] eqn:Eq; [lia| |lia].
    assert (Lb : (e1 + 1 <= emax - prec)%Z).
    { destruct (Z.le_gt_cases (e1 + 1) (emax - prec)) as [L|L]; [exact L|exfalso].
      assert (e1 = emax - prec)%Z by (destruct (Z.le_gt_cases e1 (emax - prec)); [lia|exfalso; auto]).
      assert (IZR (2 ^ prec) - 1 / 2 <= y) by (rewrite <- Em; apply Rabs_le_between in Re || (unfold Rabs in Re; destruct (Rcase_abs _)); lra).
      rewrite <- pw_IZR in H0 by lia.
      assert ((pw prec - 1 / 2) * pw e1 <= x) by (rewrite Hx; apply Rmult_le_compat_r; [left; apply pw_pos|exact H0]).
      assert (pw prec = 2 * pw (prec - 1)) by (replace prec with (prec - 1 + 1)%Z at 1 by lia; apply pw_1).
      assert (2 <= pw (prec - 1)) by (rewrite pw_IZR by lia; apply IZR_le; replace 2%Z with (2 ^ 1)%Z by reflexivity; apply Z.pow_le_mono_r; lia).
      unfold big in Hbig. replace (emax - 1)%Z with (prec - 1 + e1)%Z in Hbig by lia. rewrite pw_add in Hbig.
      pose proof (pw_pos e1). nra. }
    rewrite (proj2 (Z.leb_le _ _) Lb). split.
    + cbn [float_finite valid_binary]. apply canonical; [|lia|right; rewrite Eq; lia]. rewrite <- Eq. apply Z.pow_lt_mono_r; lia.
    + cbn [float_value]. replace (IZR (if s then Zneg q else Zpos q) * pw (e1 + 1)) with (if s then - (IZR m2 * pw e1) else IZR m2 * pw e1); [apply Sg, Err|].
      rewrite Em. replace prec with (prec - 1 + 1)%Z by lia. rewrite Z.pow_add_r, Eq, mult_IZR, pw_1 by lia.
      change (2 ^ 1)%Z with 2%Z. destruct s; [rewrite <- Pos2Z.opp_pos, opp_IZR|]; ring.
  - assert (L2 : (m2 < 2 ^ prec)%Z) by lia.
    assert (H2 : shr_fexp prec emax m2 e1 loc_Exact = ({| shr_m := m2; shr_r := false; shr_s := false |}, e1)).
    { unfold shr_fexp. cbn [shr_record_of_loc].
      assert (Dm : (Zdigits2 m2 <= prec)%Z).
      { destruct m2 as [|q|q]; cbn [Zdigits2]; [lia| |lia]. apply digits_le; lia. }
      assert (Le : (fexp (Zdigits2 m2 + e1) - e1 <= 0)%Z) by (unfold SpecFloat.fexp; lia).
      destruct (fexp (Zdigits2 m2 + e1) - e1)%Z; [reflexivity|lia|reflexivity]. }
    rewrite H2. cbn [shr_m].
    destruct m2 as [|q|q] eqn:Eq; [| |lia].
    + split; [exact I|]. cbn [float_value]. rewrite Rmult_0_l in Err.
      replace 0 with (if s then - 0 else 0) at 1 by (destruct s; lra). apply Sg, Err.
    + assert (Lb : (e1 <= emax - prec)%Z) by (destruct (Z.le_gt_cases e1 (emax - prec)); [assumption|exfalso; auto]).
      rewrite (proj2 (Z.leb_le _ _) Lb). split.
      * cbn [float_finite valid_binary]. apply canonical; [exact L2|lia|]. destruct E2 as [E|E]; [now left|right; auto].
      * cbn [float_value]. replace (IZR (if s then Zneg q else Zpos q) * pw e1) with (if s then - (IZR (Zpos q) * pw e1) else IZR (Zpos q) * pw e1); [apply Sg, Err|].
        destruct s; [rewrite <- Pos2Z.opp_pos, opp_IZR|]; ring.
Qed.

(** The case of an integer. *)
Lemma round_aux s m e : (e <= fexp (Zpos (digits2_pos m) + e))%Z -> IZR (Zpos m) * pw e <= big ->
  let r := binary_round_aux prec emax s (Zpos m) e loc_Exact in
  finite r /\
  Rabs (float_value r - IZR (if s then Zneg m else Zpos m) * pw e) <= u * (1 + IZR (Zpos m) * pw e).
Proof.
  intros He Hbig. replace (IZR (if s then Zneg m else Zpos m) * pw e) with (if s then - (IZR (Zpos m) * pw e) else IZR (Zpos m) * pw e).
  - apply round_gen; [exact He| |exact Hbig]. split; cbn; [lia|reflexivity].
  - destruct s; [rewrite <- Pos2Z.opp_pos, opp_IZR; ring|reflexivity].
Qed.

(** *** Shifting to the left is exact *)
Lemma shift_pos_spec d m : Zpos (shift_pos d m) = (Zpos m * 2 ^ Zpos d)%Z.
Proof.
  rewrite shift_pos_correct. change (Z.pow_pos 2 d) with (2 ^ Zpos d)%Z. ring.
Qed.
Lemma shl_value m e e' : let (m', e'') := shl_align m e e' in
  IZR (Zpos m') * pw e'' = IZR (Zpos m) * pw e /\ (Zpos (digits2_pos m') + e'' = Zpos (digits2_pos m) + e)%Z /\ e'' = Z.min e e'.
Proof.
  unfold shl_align. destruct (e' - e)%Z as [|q|q] eqn:Q; try (repeat split; lia).
  rewrite shift_pos_spec, mult_IZR, <- pw_IZR by lia. split; [|split; [|lia]].
  - rewrite Rmult_assoc, <- pw_add. do 2 f_equal. lia.
  - pose proof (digits_pos m) as D.
    rewrite (digits_unique (shift_pos q m) (Zpos (digits2_pos m) + Zpos q)); [lia|lia|].
    rewrite shift_pos_spec. replace (Zpos (digits2_pos m) + Zpos q - 1)%Z with (Zpos (digits2_pos m) - 1 + Zpos q)%Z by lia.
    rewrite !Z.pow_add_r by lia. pose proof (Z.pow_pos_nonneg 2 (Zpos q) ltac:(lia) ltac:(lia)). nia.
Qed.
Lemma IZR_neg m : IZR (Zneg m) = - IZR (Zpos m).
Proof. now rewrite <- Pos2Z.opp_pos, opp_IZR. Qed.
Lemma round_spec s m e : IZR (Zpos m) * pw e <= big ->
  let r := binary_round prec emax s m e in
  finite r /\ Rabs (float_value r - IZR (if s then Zneg m else Zpos m) * pw e) <= u * (1 + IZR (Zpos m) * pw e).
Proof.
  intros H. unfold binary_round. pose proof (shl_value m e (fexp (Zpos (digits2_pos m) + e))) as S.
  destruct (shl_align m e (fexp (Zpos (digits2_pos m) + e))) as [m' e']. destruct S as (Sv & Sd & Se).
  rewrite <- Sv in H. destruct (round_aux s m' e') as [F V]; [rewrite Sd; lia|exact H|]. split; [exact F|].
  rewrite Sv in V. replace (IZR (if s then Zneg m else Zpos m) * pw e) with (IZR (if s then Zneg m' else Zpos m') * pw e'); [exact V|].
  destruct s; [rewrite !IZR_neg|]; lra.
Qed.
Lemma normalize_spec z e : Rabs (IZR z * pw e) <= big ->
  let r := binary_normalize prec emax z e false in
  finite r /\ Rabs (float_value r - IZR z * pw e) <= u * (1 + Rabs (IZR z * pw e)).
Proof.
  assert (Pu : 0 < u) by apply pw_pos.
  intros H. destruct z as [|m|m]; cbn [binary_normalize].
  - split; [exact I|]. cbn [float_value]. rewrite Rmult_0_l, Rminus_0_r, Rabs_R0. lra.
  - assert (E : Rabs (IZR (Zpos m) * pw e) = IZR (Zpos m) * pw e).
    { apply Rabs_pos_eq. apply Rmult_le_pos; [apply IZR_le; lia|left; apply pw_pos]. }
    rewrite E in *. exact (round_spec false m e H).
  - assert (E : Rabs (IZR (Zneg m) * pw e) = IZR (Zpos m) * pw e).
    { rewrite IZR_neg, Ropp_mult_distr_l_reverse, Rabs_Ropp. apply Rabs_pos_eq. apply Rmult_le_pos; [apply IZR_le; lia|left; apply pw_pos]. }
    rewrite E in *. exact (round_spec true m e H).
Qed.
Lemma cond_value s m : IZR (cond_Zopp s (Zpos m)) = IZR (if s then Zneg m else Zpos m).
Proof. destruct s; reflexivity. Qed.
Lemma exact_within x : 0 <= u * (1 + Rabs x).
Proof. assert (0 < u) by apply pw_pos. pose proof (Rabs_pos x). nra. Qed.

Theorem float_add x y : finite x -> finite y -> Rabs (float_value x + float_value y) <= big ->
  finite (SFadd prec emax x y) /\
  Rabs (float_value (SFadd prec emax x y) - (float_value x + float_value y)) <= u * (1 + Rabs (float_value x + float_value y)).
Proof.
  intros Fx Fy B.
  destruct x as [sx|sx| |sx mx ex], y as [sy|sy| |sy my ey]; try contradiction; cbn [SFadd] in *.
  - split; [destruct (Bool.eqb sx sy); exact I|].
    replace (float_value (if Bool.eqb sx sy then S754_zero sx else S754_zero false)) with 0 by (destruct (Bool.eqb sx sy); reflexivity).
    cbn [float_value]. replace (0 - (0 + 0)) with 0 by ring. rewrite Rabs_R0. apply exact_within.
  - split; [exact Fy|]. replace (_ - _) with 0 by (cbn [float_value]; ring). rewrite Rabs_R0. apply exact_within.
  - split; [exact Fx|]. replace (_ - _) with 0 by (cbn [float_value]; ring). rewrite Rabs_R0. apply exact_within.
  - set (ez := Z.min ex ey).
    pose proof (shl_value mx ex ez) as Sx. pose proof (shl_value my ey ez) as Sy.
    destruct (shl_align mx ex ez) as [mx' ex']. destruct (shl_align my ey ez) as [my' ey'].
    destruct Sx as (Vx & _ & Ex). destruct Sy as (Vy & _ & Ey). cbn [fst].
    assert (ex' = ez) by (unfold ez in *; lia). assert (ey' = ez) by (unfold ez in *; lia). clear Ex Ey. subst ex' ey'.
    assert (E : float_value (S754_finite sx mx ex) + float_value (S754_finite sy my ey)
      = IZR (cond_Zopp sx (Zpos mx') + cond_Zopp sy (Zpos my')) * pw ez).
    { cbn [float_value]. rewrite plus_IZR, !cond_value, Rmult_plus_distr_r.
      f_equal; [destruct sx|destruct sy]; rewrite ?IZR_neg; lra. }
    rewrite E in *. apply normalize_spec, B.
Qed.

Lemma bounded_cases m e : bounded prec emax m e = true ->
  (Zpos (digits2_pos m) = prec \/ e = emin)%Z.
Proof.
  unfold bounded, canonical_mantissa. intros H. apply andb_prop in H. destruct H as [H _].
  apply Zeq_bool_eq in H. unfold SpecFloat.fexp in H. destruct (Z.max_spec (Zpos (digits2_pos m) + e - prec) emin) as [[_ E]|[_ E]]; rewrite E in H; [right|left]; lia.
Qed.
Lemma mul_digits m m' : (Zpos (digits2_pos m) + Zpos (digits2_pos m') - 1 <= Zpos (digits2_pos (m * m')))%Z.
Proof.
  pose proof (digits_pos m) as D. pose proof (digits_pos m') as D'. pose proof (digits_pos (m * m')) as E.
  set (a := Zpos (digits2_pos m)) in *. set (b := Zpos (digits2_pos m')) in *. set (c := Zpos (digits2_pos (m * m'))) in *.
  assert (0 < a /\ 0 < b /\ 0 < c)%Z as (A & B & C) by (unfold a, b, c; lia).
  destruct (Z.le_gt_cases (a + b - 1) c) as [L|L]; [exact L|exfalso].
  assert (2 ^ c <= 2 ^ (a - 1 + (b - 1)))%Z by (apply Z.pow_le_mono_r; lia).
  rewrite Z.pow_add_r in H by lia. rewrite Pos2Z.inj_mul in E.
  assert (2 ^ (a - 1) * 2 ^ (b - 1) <= Zpos m * Zpos m')%Z by (apply Z.mul_le_mono_nonneg; lia). lia.
Qed.

Theorem float_mul x y : finite x -> finite y -> Rabs (float_value x * float_value y) <= big ->
  finite (SFmul prec emax x y) /\
  Rabs (float_value (SFmul prec emax x y) - float_value x * float_value y) <= u * (1 + Rabs (float_value x * float_value y)).
Proof.
  intros Fx Fy B.
  destruct x as [sx|sx| |sx mx ex], y as [sy|sy| |sy my ey]; try contradiction; cbn [SFmul] in *;
  try (split; [exact I|]; replace (_ - _) with 0 by (cbn [float_value]; ring); rewrite Rabs_R0; apply exact_within).
  cbn [float_finite valid_binary] in Fx, Fy. apply bounded_cases in Fx, Fy.
  assert (E : float_value (S754_finite sx mx ex) * float_value (S754_finite sy my ey)
    = IZR (if xorb sx sy then Zneg (mx * my) else Zpos (mx * my)) * pw (ex + ey)).
  { cbn [float_value]. rewrite pw_add. destruct sx, sy; cbn [xorb]; rewrite ?IZR_neg, Pos2Z.inj_mul, mult_IZR; ring. }
  assert (A : Rabs (IZR (if xorb sx sy then Zneg (mx * my) else Zpos (mx * my)) * pw (ex + ey)) = IZR (Zpos (mx * my)) * pw (ex + ey)).
  { assert (0 <= IZR (Zpos (mx * my)) * pw (ex + ey)) by (apply Rmult_le_pos; [apply IZR_le; lia|left; apply pw_pos]).
    destruct (xorb sx sy); [rewrite IZR_neg, Ropp_mult_distr_l_reverse, Rabs_Ropp|]; now apply Rabs_pos_eq. }
  rewrite E, A in *. apply round_aux; [|exact B].
  pose proof (mul_digits mx my) as D. unfold SpecFloat.fexp.
  assert (emin < 0)%Z by (unfold SpecFloat.emin; lia).
  destruct Fx as [Fx|Fx], Fy as [Fy|Fy]; lia.
Qed.
End Format.
