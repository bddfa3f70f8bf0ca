(** Lemmas about positions in arrays and the portions that are written. *)
From Coq Require Import String.
From Coq Require Import List Bool Arith Lia.
From Verif Require Import Base M_State M_Metadata M_Writer SpecMetadata SpecWriter L_Metadata L_Heap.
Import ListNotations.
Local Open Scope nat_scope.
Local Open Scope list_scope.

Lemma prod_cons n sh : prod (n :: sh) = n * prod sh.
Proof. reflexivity. Qed.

Lemma place_lt sh idx k : place sh idx k -> k < prod sh.
Proof.
  induction 1 as [|n sh i idx k Hi P IH]; [cbn; lia|].
  rewrite prod_cons; nia.
Qed.
Lemma place_ravel sh idx k : place sh idx k -> ravel sh idx = k.
Proof. induction 1; cbn [ravel]; congruence. Qed.
Lemma place_unravel sh idx k : place sh idx k -> unravel k sh = idx.
Proof.
  induction 1 as [|n sh i idx k Hi P IH]; [reflexivity|]; cbn [unravel].
  pose proof (place_lt _ _ _ P) as L.
  rewrite Nat.div_add_l, Nat.div_small, Nat.add_0_r by lia.
  rewrite Nat.add_comm, Nat.mod_add, Nat.mod_small, IH by lia; reflexivity.
Qed.
Lemma unravel_place sh : forall k, k < prod sh -> place sh (unravel k sh) k.
Proof.
  induction sh as [|n sh IH]; intros k L.
  - cbn in L; replace k with 0 by lia; constructor.
  - rewrite prod_cons in L; cbn [unravel].
    assert (P : prod sh <> 0) by nia.
    rewrite (Nat.div_mod k (prod sh) P) at 3; rewrite (Nat.mul_comm (prod sh)); constructor.
    + apply Nat.div_lt_upper_bound; lia.
    + apply IH, Nat.mod_upper_bound, P.
Qed.

Lemma prod_pos sh : ~ In 0 sh -> 0 < prod sh.
Proof. induction sh as [|n sh IH]; [cbn; lia|]; intros H; cbn in H; rewrite prod_cons; assert (0 < prod sh) by tauto; nia. Qed.
Lemma prod_zero sh : In 0 sh -> prod sh = 0.
Proof. induction sh as [|n sh IH]; cbn; [tauto|]; intros [->|H]; [reflexivity|]; change (fold_right Nat.mul 1 sh) with (prod sh); rewrite (IH H); lia. Qed.

Lemma unravel_first sh : ~ In 0 sh -> unravel 0 sh = repeat 0 (length sh).
Proof.
  induction sh as [|n sh IH]; [reflexivity|]; intros H; cbn in H; cbn [unravel length repeat].
  pose proof (prod_pos sh ltac:(tauto)).
  rewrite Nat.div_small, Nat.mod_small by lia; f_equal; tauto.
Qed.
Lemma unravel_last sh : ~ In 0 sh -> unravel (prod sh - 1) sh = map pred sh.
Proof.
  induction sh as [|n sh IH]; [reflexivity|]; intros H; cbn in H; cbn [unravel map].
  pose proof (prod_pos sh ltac:(tauto)) as P; rewrite prod_cons.
  replace (n * prod sh - 1) with (pred n * prod sh + (prod sh - 1)) by nia.
  rewrite Nat.div_add_l, (Nat.div_small (prod sh - 1)), Nat.add_0_r by lia.
  rewrite Nat.add_comm, Nat.mod_add, Nat.mod_small by lia; f_equal; tauto.
Qed.

(** *** The selection of a portion of complete rows *)
Lemma sel_tail rest : ~ In 0 rest ->
  combine (repeat 0 (length rest)) (map S (map pred rest)) = map (fun d => (0, d)) rest.
Proof.
  induction rest as [|d rest IH]; [reflexivity|]; intros H; cbn in H; cbn [length repeat map combine].
  rewrite IH by tauto; destruct d; [tauto|reflexivity].
Qed.
Lemma tail_selected rest idx k : place rest idx k ->
  selected (map (fun d => (0, d)) rest) idx = true /\ inside (map (fun d => (0, d)) rest) idx = idx.
Proof.
  induction 1 as [|n sh i idx k Hi P IH]; [split; reflexivity|]; cbn [map selected inside].
  rewrite (proj1 IH), (proj2 IH), Nat.sub_0_r.
  replace (0 <=? i) with true by (symmetry; apply Nat.leb_le; lia).
  replace (i <? n) with true by (symmetry; apply Nat.ltb_lt; lia); split; reflexivity.
Qed.

Lemma rows_indices a : rows a -> ~ nothing a -> exists n rest s k,
  global_shape a = n :: rest /\ shape a = k :: rest /\ 0 < k /\ s + k <= n /\ ~ In 0 rest /\
  global_start_index a = s * prod rest /\ global_end_index a = (s + k) * prod rest /\
  get_write_indices a = Ok ((s, s + k) :: map (fun d => (0, d)) rest).
Proof.
  intros (n & rest & s & k & Eg & Es & L & E1 & E2) Hn; unfold nothing in Hn; rewrite Es in Hn; cbn in Hn.
  assert (Hk : 0 < k) by (destruct k; [tauto|lia]); assert (Hr : ~ In 0 rest) by tauto.
  exists n, rest, s, k; repeat (split; [assumption|]).
  pose proof (prod_pos rest Hr) as P.
  unfold get_write_indices, unravel_index; rewrite Eg, E1, E2, prod_cons.
  replace (s * prod rest <? n * prod rest) with true by (symmetry; apply Nat.ltb_lt; nia); cbn [bind].
  destruct ((s + k) * prod rest) as [|m] eqn:Em; [nia|].
  replace (m <? n * prod rest) with true by (symmetry; apply Nat.ltb_lt; nia); cbn [bind unravel].
  replace m with ((s + k - 1) * prod rest + (prod rest - 1)) by nia.
  rewrite Nat.div_mul, Nat.mod_mul by lia.
  rewrite Nat.div_add_l, (Nat.div_small (prod rest - 1)), Nat.add_0_r by lia.
  rewrite (Nat.add_comm (_ * _)), Nat.mod_add, Nat.mod_small, unravel_last, unravel_first by (auto; lia).
  cbn [map combine]; rewrite sel_tail by assumption; do 3 f_equal; lia.
Qed.

Lemma rows_select a : rows a -> ~ nothing a -> exists sel, get_write_indices a = Ok sel /\ sel_shape sel = shape a /\
  forall idx k, place (global_shape a) idx k ->
    (selected sel idx = true <-> global_start_index a <= k < global_end_index a) /\
    (selected sel idx = true -> place (shape a) (inside sel idx) (k - global_start_index a)).
Proof.
  intros R Hn; destruct (rows_indices a R Hn) as (n & rest & s & k & Eg & Es & Hk & L & Hr & E1 & E2 & E).
  eexists; split; [exact E|]; rewrite Eg, Es, E1, E2; split.
  - unfold sel_shape; cbn [map fst snd]; f_equal; [lia|]; rewrite map_map; cbn [fst snd].
    clear; induction rest; cbn; [reflexivity|]; rewrite Nat.sub_0_r; f_equal; assumption.
  - intros idx p P; inversion P as [|n' sh i idx' k' Hi P' En En' Ep]; subst.
    destruct (tail_selected _ _ _ P') as [T1 T2]; pose proof (place_lt _ _ _ P') as B.
    cbn [selected inside]; rewrite T1, T2, andb_true_r, andb_true_iff, Nat.leb_le, Nat.ltb_lt; split.
    + split; intros H; [split; nia|].
      split; [|nia].
      destruct (le_lt_dec s i) as [|G]; [assumption|].
      assert (i * prod rest + prod rest <= s * prod rest) by nia; lia.
    + intros H; replace (i * prod rest + k' - s * prod rest) with ((i - s) * prod rest + k')
        by (rewrite Nat.mul_sub_distr_r; assert (s * prod rest <= i * prod rest) by nia; lia).
      constructor; [lia|assumption].
Qed.

Section Put.
Context {T : Type} {N : Num T}.
Implicit Types (d : dataset T) (x : list T).

Lemma nth_error_nth' {A} (z : A) l : forall k, k < length l -> nth_error l k = Some (nth k l z).
Proof. induction l as [|a l IH]; intros [|k] L; cbn in *; try lia; [reflexivity|apply IH; lia]. Qed.
Lemma nth_error_seq k n : k < n -> nth_error (seq 0 n) k = Some k.
Proof. intros L; rewrite (nth_error_nth' 0) by (rewrite seq_length; exact L); rewrite seq_nth by exact L; reflexivity. Qed.

Lemma put_length sel sh x d d' : put sel sh x d = Ok d' -> d_shape d' = d_shape d /\ length (d_data d') = prod (d_shape d).
Proof.
  unfold put; destruct (shape_eqb _ _); [|discriminate]; intros [= <-]; cbn; rewrite map_length, seq_length; auto.
Qed.
Lemma put_nth sel sh x d d' k : put sel sh x d = Ok d' -> k < prod (d_shape d) ->
  nth k (d_data d') n0 = if selected sel (unravel k (d_shape d)) then nth (ravel sh (inside sel (unravel k (d_shape d)))) x n0
                         else nth k (d_data d) n0.
Proof.
  unfold put; destruct (shape_eqb _ _); [|discriminate]; intros [= <-] L; cbn [d_data].
  rewrite (nth_indep _ _ ((fun k => if selected sel (unravel k (d_shape d)) then
     nth (ravel sh (inside sel (unravel k (d_shape d)))) x n0 else nth k (d_data d) n0) k)) by (rewrite map_length, seq_length; exact L).
  rewrite map_nth with (d := k), seq_nth by exact L; reflexivity.
Qed.

(** Writing a portion of complete rows replaces its range of the flattened
    array. *)
Lemma put_rows a x d : rows a -> ~ nothing a -> d_shape d = global_shape a -> length (d_data d) = prod (global_shape a) ->
  length x = prod (shape a) ->
  exists sel, get_write_indices a = Ok sel /\
    put sel (shape a) x d = Ok {| d_shape := d_shape d;
      d_data := slice_set (global_start_index a) (global_end_index a) x (d_data d) |}.
Proof.
  intros R Hn Ed Ld Lx; destruct (rows_select a R Hn) as (sel & E & Esh & H); exists sel; split; [exact E|].
  destruct (rows_indices a R Hn) as (n & rest & s & k & Eg & Es & Hk & L & Hr & E1 & E2 & _).
  pose proof (prod_pos rest Hr) as P.
  assert (Lx' : length x = global_end_index a - global_start_index a).
  { rewrite Lx, Es, prod_cons, E1, E2, <- Nat.mul_sub_distr_r; f_equal; lia. }
  assert (G1 : global_start_index a <= global_end_index a) by (rewrite E1, E2; nia).
  assert (G2 : global_end_index a <= length (d_data d)) by (rewrite Ld, Eg, prod_cons, E2; nia).
  unfold put; rewrite Esh, (proj2 (shape_eqb_iff _ _) eq_refl); f_equal; f_equal.
  apply list_ext; intros i; rewrite nth_error_slice_set by assumption.
  destruct (lt_dec i (prod (d_shape d))) as [Li|Li].
  - rewrite (map_nth_error _ _ _ (nth_error_seq _ _ Li)); rewrite Ed in *.
    pose proof (unravel_place _ _ Li) as Pl; destruct (H _ _ Pl) as [S1 S2].
    destruct (selected sel (unravel i (global_shape a))) eqn:Q.
    + rewrite (proj2 (andb_true_iff _ _)) by (rewrite Nat.leb_le, Nat.ltb_lt; tauto).
      rewrite (place_ravel _ _ _ (S2 eq_refl)); symmetry; apply nth_error_nth'.
      pose proof (proj1 S1 eq_refl); lia.
    + replace ((global_start_index a <=? i) && (i <? global_end_index a)) with false.
      * symmetry; apply nth_error_nth'; rewrite Ld; exact Li.
      * symmetry; apply not_true_iff_false; rewrite andb_true_iff, Nat.leb_le, Nat.ltb_lt, <- S1; discriminate.
  - rewrite (proj2 (nth_error_None _ _)) by (rewrite map_length, seq_length; lia).
    rewrite Ed, <- Ld in Li.
    replace (i <? global_end_index a) with false by (symmetry; apply Nat.ltb_ge; lia).
    rewrite andb_false_r; symmetry; apply nth_error_None; lia.
Qed.
End Put.
