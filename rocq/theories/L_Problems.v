(** File names: normal form and the format with one digit. *)
From Coq Require Import String Ascii DecimalString DecimalNat.
From Coq Require Import List Bool Arith ZArith QArith Qabs Lia Lqa.
From Verif Require Import Base M_Heap M_Writer M_Problems SpecProblems.
Import ListNotations.
Local Open Scope list_scope.

(** ** Normal form *)
Definition fold_char (c : ascii) : ascii := if Ascii.eqb c " " then "_"%char else lower_char c.
Definition chars : list ascii := map ascii_of_nat (seq 0 256).
Lemma in_chars c : In c chars.
Proof.
  unfold chars. rewrite <- (ascii_nat_embedding c). apply in_map, in_seq.
  pose proof (nat_ascii_bounded c). lia.
Qed.
Lemma every_char (P : ascii -> bool) : forallb P chars = true -> forall c, P c = true.
Proof. intros H c. rewrite forallb_forall in H. apply H, in_chars. Qed.

Definition plain (c : ascii) : bool :=
  negb (Ascii.eqb c " ") && negb (Ascii.eqb c ",") && negb ((65 <=? nat_of_ascii c) && (nat_of_ascii c <=? 90))%nat.
Lemma fold_plain c : c <> ","%char -> plain (fold_char c) = true.
Proof.
  intros H. assert (E : (Ascii.eqb c "," || plain (fold_char c)) = true).
  { revert c H. intros c _. apply (every_char (fun c => Ascii.eqb c "," || plain (fold_char c))). vm_compute. reflexivity. }
  apply orb_true_iff in E as [E|E]; [|exact E]. apply Ascii.eqb_eq in E. contradiction.
Qed.
Lemma normal_plain s : Forall (fun c => plain c = true) (list_ascii_of_string (normal s)).
Proof.
  induction s as [|c s IH]; cbn [normal]; [constructor|]. destruct (Ascii.eqb_spec c ","); [exact IH|].
  cbn. constructor; [apply fold_plain; assumption|exact IH].
Qed.

Definition capital (c : ascii) : bool := (65 <=? nat_of_ascii c)%nat && (nat_of_ascii c <=? 90)%nat.
Lemma lower_capital c : capital c = true -> lower_char c = ascii_of_nat (nat_of_ascii c + 32).
Proof. unfold capital, lower_char. intros ->. reflexivity. Qed.
Lemma lower_other c : capital c = false -> lower_char c = c.
Proof. unfold capital, lower_char. intros ->. reflexivity. Qed.
Lemma capital_lower c : capital c = true -> capital_of c (lower_char c).
Proof.
  intros H. rewrite (lower_capital c H). unfold capital in H. apply andb_true_iff in H as (H1 & H2).
  apply Nat.leb_le in H1, H2. exists (nat_of_ascii c - 65)%nat. split; [lia|].
  split; [rewrite <- (ascii_nat_embedding c) at 1; f_equal; lia|f_equal; lia].
Qed.
Lemma capital_of_spec c d : capital_of c d -> capital c = true /\ lower_char c = d.
Proof.
  intros (k & Hk & -> & ->). unfold capital, lower_char. rewrite !nat_ascii_embedding by lia.
  replace (65 <=? 65 + k)%nat with true by (symmetry; apply Nat.leb_le; lia).
  replace (65 + k <=? 90)%nat with true by (symmetry; apply Nat.leb_le; lia). split; [reflexivity|]. cbn [andb]. f_equal. lia.
Qed.
Lemma small_char c d : capital_of c d -> capital d = false /\ d <> " "%char /\ c <> " "%char /\ d <> "_"%char /\ c <> "_"%char.
Proof.
  intros (k & Hk & -> & ->).
  assert (A : forall n m, (n < 256 -> m < 256 -> n <> m -> ascii_of_nat n <> ascii_of_nat m)%nat).
  { intros n m Hn Hm D E. apply (f_equal nat_of_ascii) in E. rewrite !nat_ascii_embedding in E by lia. contradiction. }
  split; [unfold capital; rewrite nat_ascii_embedding by lia; apply andb_false_iff; right; apply Nat.leb_gt; lia|].
  change " "%char with (ascii_of_nat 32). change "_"%char with (ascii_of_nat 95). repeat split; apply A; lia.
Qed.
Lemma fold_alike c d : fold_char c = fold_char d <-> alike c d.
Proof.
  unfold alike. split.
  - unfold fold_char. destruct (Ascii.eqb_spec c " ") as [->|Hc], (Ascii.eqb_spec d " ") as [->|Hd]; intros E; auto.
    + right; right; right. split; [now left|]. right.
      destruct (capital d) eqn:K; [|rewrite (lower_other d K) in E; auto].
      destruct (small_char _ _ (capital_lower d K)) as (_ & _ & _ & N & _). congruence.
    + right; right; right. split; [|now left]. right.
      destruct (capital c) eqn:K; [|rewrite (lower_other c K) in E; auto].
      destruct (small_char _ _ (capital_lower c K)) as (_ & _ & _ & N & _). congruence.
    + destruct (capital c) eqn:K, (capital d) eqn:K'.
      * left. apply capital_lower in K as (k & Hk & E1 & E2), K' as (k' & Hk' & E1' & E2').
        rewrite E2, E2' in E. apply (f_equal nat_of_ascii) in E. rewrite !nat_ascii_embedding in E by lia. subst. f_equal. lia.
      * right; left. rewrite (lower_other d K') in E. rewrite <- E. now apply capital_lower.
      * right; right; left. rewrite (lower_other c K) in E. rewrite E. now apply capital_lower.
      * left. now rewrite (lower_other c K), (lower_other d K') in E.
  - intros [->|[H|[H|(H1 & H2)]]]; [reflexivity| | |].
    + destruct (small_char _ _ H) as (K & N1 & N2 & _). destruct (capital_of_spec _ _ H) as (_ & E). unfold fold_char.
      destruct (Ascii.eqb_spec c " "), (Ascii.eqb_spec d " "); try contradiction. rewrite E. symmetry. now apply lower_other.
    + destruct (small_char _ _ H) as (K & N1 & N2 & _). destruct (capital_of_spec _ _ H) as (_ & E). unfold fold_char.
      destruct (Ascii.eqb_spec c " "), (Ascii.eqb_spec d " "); try contradiction. rewrite E. now apply lower_other.
    + destruct H1 as [->| ->], H2 as [->| ->]; reflexivity.
Qed.

Lemma normal_comma s : normal (String "," s) = normal s.
Proof. reflexivity. Qed.
Lemma normal_char c s : c <> ","%char -> normal (String c s) = String (fold_char c) (normal s).
Proof. intros H. cbn [normal]. destruct (Ascii.eqb_spec c ","); [contradiction|reflexivity]. Qed.
Lemma same_normal a b : same_name a b -> normal a = normal b.
Proof.
  induction 1 as [|s t H IH|s t H IH|c d s t Hc Hd A H IH]; auto.
  rewrite !normal_char by assumption. apply fold_alike in A. congruence.
Qed.
Lemma empty_same b : normal b = EmptyString -> same_name EmptyString b.
Proof.
  induction b as [|d b IH]; [constructor|]. destruct (ascii_dec d ",") as [->|N]; [|now rewrite normal_char].
  rewrite normal_comma. intros E. constructor. auto.
Qed.
Lemma normal_same a : forall b, normal a = normal b -> same_name a b.
Proof.
  induction a as [|c a IH]; intros b E; [apply empty_same; auto|].
  destruct (ascii_dec c ",") as [->|N]; [constructor; apply IH; now rewrite <- E|].
  induction b as [|d b IHb]; [rewrite normal_char in E by assumption; discriminate|].
  destruct (ascii_dec d ",") as [->|N']; [constructor; apply IHb; exact E|].
  rewrite !normal_char in E by assumption. injection E as E1 E2. constructor; auto. now apply fold_alike.
Qed.
Lemma normal_iff a b : normal a = normal b <-> same_name a b.
Proof. split; [apply normal_same|apply same_normal]. Qed.
Lemma normal_app a b : normal (a ++ b) = (normal a ++ normal b)%string.
Proof.
  induction a as [|c a IH]; [reflexivity|]. cbn [append normal].
  destruct (Ascii.eqb c ","); [exact IH|]. cbn [append]. now rewrite IH.
Qed.

(** ** Strings *)
Lemma app_inj_left (a b c : string) : (a ++ b)%string = (a ++ c)%string -> b = c.
Proof. induction a as [|x a IH]; cbn; intros E; [exact E|]. injection E. auto. Qed.
Lemma app_length_str (a b : string) : String.length (a ++ b) = (String.length a + String.length b)%nat.
Proof. induction a as [|x a IH]; cbn; [reflexivity|]. now rewrite IH. Qed.
Lemma app_inj_right (a b c : string) : (a ++ c)%string = (b ++ c)%string -> a = b.
Proof.
  revert b. induction a as [|x a IH]; intros [|y b] E; cbn in E; auto.
  - apply (f_equal String.length) in E. cbn in E. rewrite app_length_str in E. lia.
  - apply (f_equal String.length) in E. cbn in E. rewrite app_length_str in E. lia.
  - injection E as -> E. f_equal. auto.
Qed.
Fixpoint free (c : ascii) (s : string) : bool :=
  match s with EmptyString => true | String d s' => negb (Ascii.eqb d c) && free c s' end.
Lemma split_at c a : forall b s t, free c a = true -> free c b = true ->
  (a ++ String c s)%string = (b ++ String c t)%string -> a = b /\ s = t.
Proof.
  induction a as [|x a IH]; intros [|y b] s t Fa Fb E; cbn in *.
  - injection E; auto.
  - injection E as E1 E2; subst. rewrite Ascii.eqb_refl in Fb. discriminate.
  - injection E as E1 E2; subst. rewrite Ascii.eqb_refl in Fa. discriminate.
  - injection E as E1 E2; subst. apply andb_true_iff in Fa as (_ & Fa), Fb as (_ & Fb). destruct (IH b s t Fa Fb E2) as (-> & ->). auto.
Qed.

Lemma uint_normal u : normal (NilEmpty.string_of_uint u) = NilEmpty.string_of_uint u.
Proof. induction u; cbn; try rewrite IHu; reflexivity. Qed.
Lemma uint_free u : free "_" (NilEmpty.string_of_uint u) = true.
Proof. induction u; cbn; auto. Qed.
Lemma uint_inj u v : NilEmpty.string_of_uint u = NilEmpty.string_of_uint v -> u = v.
Proof. intros E. apply (f_equal NilEmpty.uint_of_string) in E. rewrite !NilEmpty.usu in E. now injection E. Qed.
Lemma free_app c a b : free c (a ++ b) = free c a && free c b.
Proof. induction a as [|x a IH]; cbn; [reflexivity|]. now rewrite IH, andb_assoc. Qed.

(** ** The exponent *)
Lemma exponent_shape e : exists u, Nat.of_uint u = Z.to_nat (Z.abs e) /\
  exponent_text e = String (if (e <? 0)%Z then "-" else "+") (NilEmpty.string_of_uint u).
Proof.
  unfold exponent_text. destruct (Z.abs e <? 10)%Z.
  - exists (Decimal.D0 (Nat.to_uint (Z.to_nat (Z.abs e)))). split; [|destruct (e <? 0)%Z; reflexivity].
    rewrite <- (Unsigned.of_to (Z.to_nat (Z.abs e))) at 2. reflexivity.
  - exists (Nat.to_uint (Z.to_nat (Z.abs e))). split; [apply Unsigned.of_to|destruct (e <? 0)%Z; reflexivity].
Qed.
Lemma exponent_inj e e' : exponent_text e = exponent_text e' -> e = e'.
Proof.
  destruct (exponent_shape e) as (u & U & ->), (exponent_shape e') as (v & V & ->). intros E. injection E as E1 E2.
  apply uint_inj in E2. subst v. rewrite U in V.
  destruct (Z.ltb_spec e 0), (Z.ltb_spec e' 0); try discriminate; lia.
Qed.
Lemma exponent_free e : free "_" (exponent_text e) = true.
Proof. destruct (exponent_shape e) as (u & _ & ->). cbn. rewrite uint_free. destruct (e <? 0)%Z; reflexivity. Qed.
Lemma exponent_normal e : normal (exponent_text e) = exponent_text e.
Proof. destruct (exponent_shape e) as (u & _ & ->). destruct (e <? 0)%Z; cbn; now rewrite uint_normal. Qed.

(** ** One digit *)
Open Scope Z_scope.
Definition frac_ge1 n d := d <= n.
Lemma scale_up_ok fuel : forall n d e, 0 < n -> 0 < d -> d <= n * 2 ^ Z.of_nat fuel ->
  forall n1 d1 e1, scale_up fuel n d e = (n1, d1, e1) ->
  exists k, 0 <= k /\ e1 = e - k /\ d1 = d /\ n1 = n * 10 ^ k /\ d <= n1 /\ (k = 0 \/ n1 < 10 * d).
Proof.
  induction fuel as [|f IH]; intros n d e Hn Hd F n1 d1 e1 E; cbn [scale_up] in E.
  - injection E as <- <- <-. exists 0. cbn in F. rewrite Z.pow_0_r. repeat split; try lia.
  - destruct (Z.ltb_spec n d) as [L|L].
    + apply IH in E as (k & K0 & -> & -> & -> & B1 & B2); [|lia|lia|].
      * exists (k + 1). rewrite Z.pow_add_r by lia. rewrite Z.pow_1_r.
        replace (n * (10 ^ k * 10)) with (10 * n * 10 ^ k) by ring. repeat split; try lia.
        right. destruct B2 as [-> |B2]; [rewrite Z.pow_0_r; lia|exact B2].
      * rewrite Nat2Z.inj_succ, Z.pow_succ_r in F by lia.
        assert (0 < 2 ^ Z.of_nat f) by (apply Z.pow_pos_nonneg; lia). nia.
    + injection E as <- <- <-. exists 0. rewrite Z.pow_0_r. repeat split; lia.
Qed.
Lemma scale_down_ok fuel : forall n d e, 0 < d -> d <= n -> n < 10 * d * 10 ^ Z.of_nat fuel ->
  forall n1 d1 e1, scale_down fuel n d e = (n1, d1, e1) ->
  exists k, 0 <= k /\ e1 = e + k /\ n1 = n /\ d1 = d * 10 ^ k /\ d1 <= n < 10 * d1.
Proof.
  induction fuel as [|f IH]; intros n d e Hd Hn F n1 d1 e1 E; cbn [scale_down] in E.
  - injection E as <- <- <-. exists 0. change (Z.of_nat 0) with 0 in F. rewrite Z.pow_0_r in *. rewrite !Z.mul_1_r in *. repeat split; lia.
  - destruct (Z.leb_spec (10 * d) n) as [L|L].
    + apply IH in E as (k & K0 & -> & -> & -> & B); [|lia|lia|].
      * exists (k + 1). rewrite Z.pow_add_r by lia. rewrite Z.pow_1_r.
        replace (d * (10 ^ k * 10)) with (10 * d * 10 ^ k) by ring. repeat split; try lia.
      * rewrite Nat2Z.inj_succ, Z.pow_succ_r in F by lia. lia.
    + injection E as <- <- <-. exists 0. rewrite Z.pow_0_r, Z.mul_1_r. repeat split; lia.
Qed.
Lemma round_even_ok n d : 0 < d -> let q := round_even n d in
  (2 * q - 1) * d <= 2 * n <= (2 * q + 1) * d /\
  (2 * n = (2 * q - 1) * d -> Z.even q = true) /\ (2 * n = (2 * q + 1) * d -> Z.even q = true).
Proof.
  intros Hd. cbn zeta. unfold round_even. pose proof (Z.div_mod n d ltac:(lia)) as D. pose proof (Z.mod_pos_bound n d Hd) as B.
  set (q := n / d) in *. set (r := n mod d) in *. destruct (Z.compare_spec (2 * r) d) as [E|L|G].
  - destruct (Z.even q) eqn:P; [repeat split; nia||(intros; exact P)|].
    repeat split; try nia. intros _. rewrite Z.even_add, P. reflexivity.
  - repeat split; try nia.
  - repeat split; try nia.
Qed.
