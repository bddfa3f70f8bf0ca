(** The format with one digit. *)
From Coq Require Import String Ascii DecimalString DecimalNat.
From Coq Require Import List Bool Arith ZArith QArith Qpower Qabs Lia Lqa.
From Verif Require Import Base M_Heap M_Writer M_Problems SpecProblems L_Problems.
Import ListNotations.
Local Open Scope list_scope.
Open Scope Q_scope.

Lemma ten_pos e : 0 < 10 ^ e.
Proof. apply Qpower_0_lt. reflexivity. Qed.
Lemma ten_next e : 10 ^ (e + 1) == 10 * 10 ^ e.
Proof. rewrite Qpower_plus by (intro H; discriminate H). change (10 ^ 1) with 10. ring. Qed.

Section Digit.
Variables (n : Z) (d : positive) (k1 k2 : Z).
Hypothesis K1 : (0 <= k1)%Z.
Hypothesis K2 : (0 <= k2)%Z.
Notation x := (n # d).
Notation n2 := (n * 10 ^ k1)%Z.
Notation d2 := (Zpos d * 10 ^ k2)%Z.
Notation p := (10 ^ (k2 - k1)).

Lemma p_ratio : p * inject_Z (10 ^ k1) == inject_Z (10 ^ k2).
Proof.
  rewrite !Zpower_Qpower by assumption. change (inject_Z 10) with 10.
  rewrite <- Qpower_plus by (intro H; discriminate H). now replace (k2 - k1 + k1)%Z with k2 by lia.
Qed.
Lemma x_ratio : x * inject_Z (Zpos d) == inject_Z n.
Proof. rewrite Qmake_Qdiv. field. intros H. discriminate H. Qed.
Lemma z_pos : 0 < inject_Z (Zpos d) * inject_Z (10 ^ k1).
Proof.
  assert (0 < 10 ^ k1)%Z by (apply Z.pow_pos_nonneg; lia).
  rewrite <- inject_Z_mult. change 0 with (inject_Z 0). rewrite <- Zlt_Qlt. lia.
Qed.
Lemma side_p a : inject_Z a * p * (inject_Z (Zpos d) * inject_Z (10 ^ k1)) == inject_Z (a * d2).
Proof.
  setoid_replace (inject_Z a * p * (inject_Z (Zpos d) * inject_Z (10 ^ k1)))
    with (inject_Z a * inject_Z (Zpos d) * (p * inject_Z (10 ^ k1))) by ring.
  rewrite p_ratio, <- !inject_Z_mult. apply inject_Z_injective. ring.
Qed.
Lemma side_x b : inject_Z b * x * (inject_Z (Zpos d) * inject_Z (10 ^ k1)) == inject_Z (b * n2).
Proof.
  setoid_replace (inject_Z b * x * (inject_Z (Zpos d) * inject_Z (10 ^ k1)))
    with (inject_Z b * (x * inject_Z (Zpos d)) * inject_Z (10 ^ k1)) by ring.
  rewrite x_ratio, <- !inject_Z_mult. apply inject_Z_injective. ring.
Qed.
Lemma le_px a b : (a * d2 <= b * n2)%Z <-> inject_Z a * p <= inject_Z b * x.
Proof. rewrite <- (Qmult_le_r _ _ _ z_pos), side_p, side_x, Zle_Qle. reflexivity. Qed.
Lemma le_xp a b : (b * n2 <= a * d2)%Z <-> inject_Z b * x <= inject_Z a * p.
Proof. rewrite <- (Qmult_le_r _ _ _ z_pos), side_p, side_x, Zle_Qle. reflexivity. Qed.
Lemma eq_px a b : inject_Z a * p == inject_Z b * x -> (a * d2 = b * n2)%Z.
Proof.
  intros E. apply Z.le_antisymm; [apply le_px|apply le_xp]; rewrite E; apply Qle_refl.
Qed.
End Digit.

Lemma one_digit_shows n d m e : (0 < n)%Z -> one_digit n (Zpos d) = (m, e) -> shows (n # d) m e.
Proof.
  intros Hn. unfold one_digit.
  destruct (scale_up (Z.to_nat (Z.log2_up (Zpos d))) n (Zpos d) 0) as ((n1, d1), e1) eqn:E1.
  apply scale_up_ok in E1 as (k1 & K1 & -> & -> & -> & B1 & _); [|lia|lia|].
  2:{ rewrite Z2Nat.id by apply Z.log2_up_nonneg.
      pose proof (Z.log2_log2_up_spec (Zpos d) ltac:(lia)) as (_ & L). nia. }
  destruct (scale_down (Z.to_nat (Z.log2 (n * 10 ^ k1))) (n * 10 ^ k1) (Zpos d) (0 - k1)) as ((n2, d2), e2) eqn:E2.
  apply scale_down_ok in E2 as (k2 & K2 & -> & -> & -> & B2 & B3); [|lia|exact B1|].
  2:{ rewrite Z2Nat.id by apply Z.log2_nonneg.
      pose proof (Z.log2_spec (n * 10 ^ k1) ltac:(lia)) as (_ & L).
      pose proof (Z.log2_nonneg (n * 10 ^ k1)) as G. rewrite Z.pow_succ_r in L by assumption.
      pose proof (Z.pow_le_mono_l 2 10 (Z.log2 (n * 10 ^ k1)) ltac:(lia)) as P. nia. }
  assert (D2 : (0 < Zpos d * 10 ^ k2)%Z) by (assert (0 < 10 ^ k2)%Z by (apply Z.pow_pos_nonneg; lia); lia).
  destruct (round_even_ok (n * 10 ^ k1) (Zpos d * 10 ^ k2) D2) as ((R1 & R2) & R3 & R4).
  set (q := round_even (n * 10 ^ k1) (Zpos d * 10 ^ k2)) in *.
  assert (Q1 : (1 <= q)%Z) by nia. assert (Q2 : (q <= 10)%Z) by nia.
  replace (0 - k1 + k2)%Z with (k2 - k1)%Z by lia.
  pose proof (proj1 (le_px n d k1 k2 K1 K2 (2 * q - 1) 2) R1) as L1.
  pose proof (proj1 (le_xp n d k1 k2 K1 K2 (2 * q + 1) 2) R2) as L2.
  pose proof (proj1 (le_px n d k1 k2 K1 K2 1 1) ltac:(lia)) as L3.
  assert (L4 : ~ inject_Z 10 * 10 ^ (k2 - k1) <= inject_Z 1 * (n # d)).
  { intros C. apply (le_px n d k1 k2 K1 K2) in C. lia. }
  pose proof (fun E => R3 (eq_sym (eq_px n d k1 k2 K1 K2 (2 * q - 1) 2 E))) as L5.
  pose proof (fun E => R4 (eq_sym (eq_px n d k1 k2 K1 K2 (2 * q + 1) 2 E))) as L6.
  change (inject_Z 2) with 2 in *. change (inject_Z 1) with 1 in *. change (inject_Z 10) with 10 in *.
  apply Qnot_le_lt in L4. pose proof (ten_pos (k2 - k1)) as P0.
  destruct (Z.eqb_spec q 10) as [T|T]; intros E; injection E as <- <-; unfold shows.
  - rewrite T in *. split; [lia|]. cbn [Z.eqb Pos.eqb]. change (inject_Z (2 * 10 - 1)) with 19 in *.
    change (inject_Z (2 * 1 + 1)) with 3. rewrite !ten_next. split; [lra|]. split; [lra|]. intros C. exfalso. lra.
  - split; [lia|]. split.
    + destruct (q =? 1)%Z; [lra|]. split; [exact L1|exact L5].
    + split; [exact L2|]. intros C. apply L6. now symmetry.
Qed.

Lemma shows_range x m e : shows x m e -> (95 # 100) * 10 ^ e <= x /\ x < (95 # 10) * 10 ^ e.
Proof.
  intros (M & L & U & T). pose proof (ten_pos e) as P0. split.
  - destruct (Z.eqb_spec m 1) as [->|N]; [exact L|]. destruct L as (L & _).
    assert (inject_Z 3 <= inject_Z (2 * m - 1)) by (rewrite <- Zle_Qle; lia).
    assert (inject_Z 3 * 10 ^ e <= inject_Z (2 * m - 1) * 10 ^ e) by (apply Qmult_le_compat_r; [assumption|lra]).
    change (inject_Z 3) with 3 in *. lra.
  - destruct (Z.eq_dec m 9) as [->|N].
    + change (inject_Z (2 * 9 + 1)) with 19 in *. destruct (Qeq_dec (2 * x) (19 * 10 ^ e)) as [E|E]; [specialize (T E); discriminate T|].
      destruct (Qlt_le_dec (2 * x) (19 * 10 ^ e)) as [G|G]; [lra|]. exfalso. apply E. apply Qle_antisym; assumption.
    + assert (inject_Z (2 * m + 1) <= inject_Z 17) by (rewrite <- Zle_Qle; lia).
      assert (inject_Z (2 * m + 1) * 10 ^ e <= inject_Z 17 * 10 ^ e) by (apply Qmult_le_compat_r; [assumption|lra]).
      change (inject_Z 17) with 17 in *. lra.
Qed.
Lemma exponent_order x e e' : (95 # 100) * 10 ^ e' <= x -> x < (95 # 10) * 10 ^ e -> (e' <= e)%Z.
Proof.
  intros L U. destruct (Z_lt_le_dec e e') as [C|C]; [exfalso|exact C].
  assert (10 ^ (e + 1) <= 10 ^ e') by (apply Qpower_le_compat_l; [lia|lra]). rewrite ten_next in *. lra.
Qed.
Lemma digit_order x m m' e : shows x m e -> shows x m' e -> (m' <= m)%Z.
Proof.
  intros (M & _ & U & T) (M' & L & _). destruct (Z_lt_le_dec m m') as [C|C]; [exfalso|exact C].
  destruct (Z.eqb_spec m' 1); [lia|]. destruct L as (L & S). pose proof (ten_pos e) as P0.
  assert (A : inject_Z (2 * m' - 1) * 10 ^ e <= inject_Z (2 * m + 1) * 10 ^ e) by lra.
  pose proof A as B. rewrite Qmult_le_r, <- Zle_Qle in B by assumption.
  assert (E : m' = (m + 1)%Z) by lia. subst m'. replace (2 * (m + 1) - 1)%Z with (2 * m + 1)%Z in * by lia.
  assert (E : inject_Z (2 * m + 1) * 10 ^ e == 2 * x) by (apply Qle_antisym; assumption).
  specialize (S E). symmetry in E. specialize (T E). rewrite Z.even_add, T in S. discriminate.
Qed.
Lemma shows_unique x m e m' e' : shows x m e -> shows x m' e' -> m = m' /\ e = e'.
Proof.
  intros A B. destruct (shows_range _ _ _ A), (shows_range _ _ _ B).
  assert (E : e = e') by (apply Z.le_antisymm; eapply exponent_order; eauto). subst e'.
  split; [apply Z.le_antisymm; eapply digit_order; eauto|reflexivity].
Qed.
Lemma near_shows x m e : (1 <= m <= 9)%Z -> 20 * Qabs (x - inject_Z m * 10 ^ e) < 10 ^ e -> shows x m e.
Proof.
  intros M N. pose proof (ten_pos e) as P0.
  assert (B : 20 * (x - inject_Z m * 10 ^ e) < 10 ^ e /\ - (10 ^ e) < 20 * (x - inject_Z m * 10 ^ e)).
  { pose proof (Qle_Qabs (x - inject_Z m * 10 ^ e)). pose proof (Qle_Qabs (- (x - inject_Z m * 10 ^ e))) as H0. rewrite Qabs_opp in H0. split; lra. }
  clear N. destruct B as (B1 & B2).
  assert (E1 : inject_Z (2 * m - 1) * 10 ^ e == 2 * (inject_Z m * 10 ^ e) - 10 ^ e).
  { unfold Z.sub. rewrite inject_Z_plus, inject_Z_mult, inject_Z_opp. change (inject_Z 2) with 2. change (inject_Z 1) with 1. ring. }
  assert (E2 : inject_Z (2 * m + 1) * 10 ^ e == 2 * (inject_Z m * 10 ^ e) + 10 ^ e).
  { rewrite inject_Z_plus, inject_Z_mult. change (inject_Z 2) with 2. change (inject_Z 1) with 1. ring. }
  unfold shows. split; [exact M|]. split; [|split; [lra|intros C; exfalso; lra]].
  destruct (Z.eqb_spec m 1) as [->|K]; [change (inject_Z 1) with 1 in *; lra|]. split; [lra|]. intros C. exfalso. lra.
Qed.
Lemma shows_factor x y m e : shows x m e -> shows y m e -> x < 2 * y.
Proof.
  intros (M & _ & U & _) (_ & L & _). pose proof (ten_pos e) as P0.
  destruct (Z.eqb_spec m 1) as [->|N]; [change (inject_Z (2 * 1 + 1)) with 3 in *; lra|]. destruct L as (L & _).
  assert (E1 : inject_Z (2 * m - 1) * 10 ^ e == 2 * (inject_Z m * 10 ^ e) - 10 ^ e).
  { unfold Z.sub. rewrite inject_Z_plus, inject_Z_mult, inject_Z_opp. change (inject_Z 2) with 2. change (inject_Z 1) with 1. ring. }
  assert (E2 : inject_Z (2 * m + 1) * 10 ^ e == 2 * (inject_Z m * 10 ^ e) + 10 ^ e).
  { rewrite inject_Z_plus, inject_Z_mult. change (inject_Z 2) with 2. change (inject_Z 1) with 1. ring. }
  rewrite E1 in L. rewrite E2 in U.
  assert (inject_Z 2 <= inject_Z m) by (rewrite <- Zle_Qle; lia). change (inject_Z 2) with 2 in *.
  assert (2 * 10 ^ e <= inject_Z m * 10 ^ e) by (apply Qmult_le_compat_r; [assumption|lra]). lra.
Qed.

(** ** The text *)
Lemma digit_char m : (1 <= m <= 9)%Z -> exists c, str (Z.to_nat m) = String c "" /\ normal (String c "") = String c "" /\ c <> "_"%char /\ c <> "-"%char /\
  forall m', (1 <= m' <= 9)%Z -> str (Z.to_nat m') = String c "" -> m' = m.
Proof.
  intros M. assert (C : m = 1%Z \/ m = 2%Z \/ m = 3%Z \/ m = 4%Z \/ m = 5%Z \/ m = 6%Z \/ m = 7%Z \/ m = 8%Z \/ m = 9%Z) by lia.
  assert (I : forall a b, (1 <= a <= 9)%Z -> (1 <= b <= 9)%Z -> str (Z.to_nat a) = str (Z.to_nat b) -> a = b).
  { intros a b Ha Hb E. unfold str in E. apply uint_inj, Unsigned.to_uint_inj in E. lia. }
  destruct C as [->|[->|[->|[->|[->|[->|[->|[->| ->]]]]]]]]; eexists; (split; [reflexivity|]);
    (split; [reflexivity|]); (split; [discriminate|]); (split; [discriminate|]); intros m' M' E; apply (I _ _ M' M); rewrite E; reflexivity.
Qed.
Lemma format_shape x : 0 < x -> exists m e, shows x m e /\ format_0E x = (str (Z.to_nat m) ++ "E" ++ exponent_text e)%string.
Proof.
  destruct x as [n d]. intros H. assert (Hn : (0 < n)%Z) by (unfold Qlt in H; cbn in H; lia). unfold format_0E. cbn [Qnum Qden].
  destruct (Z.eqb_spec n 0); [lia|]. destruct (Z.ltb_spec n 0); [lia|]. rewrite Z.abs_eq by lia.
  destruct (one_digit n (Zpos d)) as (m, e) eqn:E. exists m, e. split; [now apply one_digit_shows|reflexivity].
Qed.
Lemma format_same x y : 0 < x -> 0 < y -> (normal (format_0E x) = normal (format_0E y) <-> same_digit x y).
Proof.
  intros Hx Hy. destruct (format_shape x Hx) as (m & e & S & F), (format_shape y Hy) as (m' & e' & S' & F').
  rewrite F, F', !normal_app, !exponent_normal.
  destruct (digit_char m (proj1 S)) as (c & C1 & C2 & _ & _ & _), (digit_char m' (proj1 S')) as (c' & C1' & C2' & _ & _ & U').
  rewrite C1, C1', C2, C2'. cbn [append normal]. split.
  - intros E. injection E as Ec Ee. subst c'. apply exponent_inj in Ee. subst e'.
    rewrite (U' m (proj1 S) C1) in S. exists m', e. auto.
  - intros (m0 & e0 & A & B). destruct (shows_unique _ _ _ _ _ S A) as (-> & ->), (shows_unique _ _ _ _ _ S' B) as (-> & ->).
    rewrite C1 in C1'. injection C1' as ->. reflexivity.
Qed.
Lemma format_free x : 0 < x -> free "_" (normal (format_0E x)) = true.
Proof.
  intros H. destruct (format_shape x H) as (m & e & S & ->). rewrite !normal_app, exponent_normal, !free_app, exponent_free.
  destruct (digit_char m (proj1 S)) as (c & -> & -> & N & _). cbn. destruct (Ascii.eqb_spec c "_"); [contradiction|reflexivity].
Qed.
