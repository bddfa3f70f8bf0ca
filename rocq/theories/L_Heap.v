(** Lemmas: arrays in memory, copying of state objects. *)
From Coq Require Import String.
From Coq Require Import List Bool Arith Lia.
From Verif Require Import Base M_State M_Heap SpecHeap.
Import ListNotations.
Local Open Scope nat_scope.
Local Open Scope list_scope.

Lemma nth_error_firstn {A} (l : list A) : forall n i, nth_error (firstn n l) i = if i <? n then nth_error l i else None.
Proof.
  induction l as [|a l IH]; intros n i.
  - rewrite firstn_nil; destruct i, (_ <? n); reflexivity.
  - destruct n as [|n]; [cbn; destruct i; reflexivity|]; destruct i as [|i]; [reflexivity|].
    cbn [firstn nth_error]; rewrite IH; change (S i <? S n) with (i <? n); reflexivity.
Qed.
Lemma nth_error_skipn {A} (l : list A) : forall n i, nth_error (skipn n l) i = nth_error l (n + i).
Proof.
  induction l as [|a l IH]; intros n i; [rewrite skipn_nil; destruct i, (n + _); reflexivity|].
  destruct n as [|n]; [reflexivity|]; cbn; apply IH.
Qed.
Lemma nth_error_slice {A} (l : list A) s e i :
  nth_error (slice s e l) i = if i <? e - s then nth_error l (s + i) else None.
Proof. unfold slice; rewrite nth_error_firstn, nth_error_skipn; reflexivity. Qed.
Lemma nth_error_slice_set {A} (v l : list A) s e k : s <= e -> e <= length l -> length v = e - s ->
  nth_error (slice_set s e v l) k = if (s <=? k) && (k <? e) then nth_error v (k - s) else nth_error l k.
Proof.
  intros H1 H2 H3; unfold slice_set.
  assert (Lf : length (firstn s l) = s) by (apply firstn_length_le; lia).
  destruct (Nat.leb_spec s k) as [A1|A1]; cbn [andb].
  - rewrite nth_error_app2 by lia; rewrite Lf.
    destruct (Nat.ltb_spec k e) as [A2|A2].
    + rewrite nth_error_app1 by lia; reflexivity.
    + rewrite nth_error_app2 by lia; rewrite nth_error_skipn; f_equal; lia.
  - rewrite nth_error_app1 by lia; rewrite nth_error_firstn.
    destruct (Nat.ltb_spec k s); [reflexivity|lia].
Qed.
Lemma slice_set_length {A} (v l : list A) s e : s <= e -> e <= length l -> length v = e - s ->
  length (slice_set s e v l) = length l.
Proof.
  intros H1 H2 H3; unfold slice_set; rewrite !app_length, firstn_length, skipn_length; lia.
Qed.
Lemma list_ext {A} (l : list A) : forall l', (forall i, nth_error l i = nth_error l' i) -> l = l'.
Proof.
  induction l as [|a l IH]; intros [|b l'] H.
  - reflexivity.
  - specialize (H 0); discriminate.
  - specialize (H 0); discriminate.
  - pose proof (H 0) as H0; cbn in H0; injection H0 as ->; f_equal; apply IH; intros i; exact (H (S i)).
Qed.
Lemma skipn_twice {A} (l : list A) : forall a b, skipn b (skipn a l) = skipn (a + b) l.
Proof. induction l as [|x l IH]; intros a b; [rewrite !skipn_nil; reflexivity|]; destruct a; [reflexivity|apply IH]. Qed.
Lemma nth_upd {A} (l : list A) (d v : A) : forall i j, nth j (upd i v l) d = if (i =? j) && (i <? length l) then v else nth j l d.
Proof.
  induction l as [|a l IH]; intros i j.
  - cbn; rewrite andb_false_r; destruct i, j; reflexivity.
  - destruct i as [|i], j as [|j]; cbn [upd nth Nat.eqb length andb]; try reflexivity.
    rewrite IH; reflexivity.
Qed.

Section Heap.
Context {T : Type} {N : Num T}.
Implicit Types (h : heap T) (v w : view) (x : list T).

Definition cell_at h (b k : nat) : option T := nth_error (nth b h []) k.

Lemma nth_read h v i : nth_error (read h v) i = if i <? size v then cell_at h (buf v) (off v + i) else None.
Proof. unfold read; rewrite nth_error_slice; replace (off v + size v - off v) with (size v) by lia; reflexivity. Qed.

Lemma exists_fits h v : exists_in h v -> size v <> 0 -> buf v < length h /\ off v + size v <= length (nth (buf v) h []).
Proof.
  intros E Nz; assert (C : cell v (buf v) (off v + size v - 1)) by (split; [reflexivity|lia]).
  specialize (E _ _ C); split; [|lia].
  destruct (Nat.lt_ge_cases (buf v) (length h)) as [|G]; [assumption|].
  rewrite (nth_overflow h) in E by exact G; cbn in E; lia.
Qed.

Lemma read_length h v : exists_in h v -> length (read h v) = size v.
Proof.
  intros E; destruct (Nat.eq_dec (size v) 0) as [Z|Z].
  - unfold read, slice; rewrite firstn_length; lia.
  - destruct (exists_fits _ _ E Z) as [_ L]; unfold read, slice; rewrite firstn_length, skipn_length; lia.
Qed.

Lemma store_empty h v x : size v = 0 -> length x = 0 -> store h v x = h.
Proof.
  intros Z L; destruct x; [|discriminate]; unfold store, slice_set; rewrite Z, Nat.add_0_r; cbn [app].
  rewrite firstn_skipn; generalize (buf v); clear; induction h as [|b h IH]; intros [|i]; cbn; try reflexivity; f_equal; apply IH.
Qed.

Lemma cell_store h v x b k : exists_in h v -> length x = size v ->
  cell_at (store h v x) b k =
    if (buf v =? b) && ((off v <=? k) && (k <? off v + size v)) then nth_error x (k - off v) else cell_at h b k.
Proof.
  intros E L; destruct (Nat.eq_dec (size v) 0) as [Z|Z].
  - rewrite store_empty by lia; rewrite Z, Nat.add_0_r.
    destruct (Nat.leb_spec (off v) k), (Nat.ltb_spec k (off v)); try lia; rewrite andb_false_r; reflexivity.
  - destruct (exists_fits _ _ E Z) as [F1 F2].
    unfold cell_at, store; rewrite nth_upd.
    destruct (Nat.ltb_spec (buf v) (length h)); [|lia]; rewrite andb_true_r.
    destruct (Nat.eqb_spec (buf v) b) as [<-|]; cbn [andb]; [|reflexivity].
    rewrite nth_error_slice_set by lia; reflexivity.
Qed.

Lemma store_lengths h v x b : exists_in h v -> length x = size v -> length (nth b (store h v x) []) = length (nth b h []).
Proof.
  intros E L; destruct (Nat.eq_dec (size v) 0) as [Z|Z]; [rewrite store_empty by lia; reflexivity|].
  destruct (exists_fits _ _ E Z) as [F1 F2]; unfold store; rewrite nth_upd.
  destruct (Nat.eqb_spec (buf v) b) as [<-|]; cbn [andb]; [|reflexivity].
  destruct (Nat.ltb_spec (buf v) (length h)); [|reflexivity]; apply slice_set_length; lia.
Qed.
Lemma store_exists h v x w : exists_in h v -> length x = size v -> exists_in h w -> exists_in (store h v x) w.
Proof. intros E L E' b k C; rewrite store_lengths by assumption; exact (E' _ _ C). Qed.

Lemma read_store_same h v x : exists_in h v -> length x = size v -> read (store h v x) v = x.
Proof.
  intros E L; apply list_ext; intros i; rewrite nth_read, cell_store, Nat.eqb_refl by assumption; cbn [andb].
  destruct (Nat.ltb_spec i (size v)) as [H|H].
  - destruct (Nat.leb_spec (off v) (off v + i)); [|lia]; destruct (Nat.ltb_spec (off v + i) (off v + size v)); [|lia].
    cbn [andb]; f_equal; lia.
  - symmetry; apply nth_error_None; lia.
Qed.

Lemma read_store_apart h v x w : exists_in h v -> length x = size v -> apart v w -> read (store h v x) w = read h w.
Proof.
  intros E L A; apply list_ext; intros i; rewrite !nth_read.
  destruct (Nat.ltb_spec i (size w)) as [H|H]; [|reflexivity].
  rewrite cell_store by assumption.
  destruct (Nat.eqb_spec (buf v) (buf w)) as [B|]; cbn [andb]; [|reflexivity].
  destruct (Nat.leb_spec (off v) (off w + i)), (Nat.ltb_spec (off w + i) (off v + size v)); cbn [andb]; try reflexivity.
  exfalso; apply (A (buf w) (off w + i)); split; auto; lia.
Qed.

Lemma read_cells h h' v : (forall b k, cell v b k -> cell_at h' b k = cell_at h b k) -> read h' v = read h v.
Proof.
  intros H; apply list_ext; intros i; rewrite !nth_read; destruct (Nat.ltb_spec i (size v)); [|reflexivity].
  apply H; split; [reflexivity|lia].
Qed.

Lemma store_read h v : store h v (read h v) = h.
Proof.
  unfold store, read, slice_set, slice; replace (off v + size v - off v) with (size v) by lia.
  assert (E : forall l : list T, firstn (off v) l ++ firstn (size v) (skipn (off v) l) ++ skipn (off v + size v) l = l).
  { intros l; rewrite <- skipn_twice, firstn_skipn, firstn_skipn; reflexivity. }
  rewrite E; generalize (buf v); clear; induction h as [|b h IH]; intros [|i]; cbn; try reflexivity; f_equal; apply IH.
Qed.

Lemma dims_eqb_iff a b : dims_eqb a b = true <-> a = b.
Proof.
  revert b; induction a as [|x a IH]; intros [|y b]; cbn; try (split; [discriminate|discriminate]); [split; reflexivity|].
  rewrite andb_true_iff, Nat.eqb_eq, IH; split; [intros [-> ->]; reflexivity|intros E; injection E; auto].
Qed.
Lemma same_size v w : dims v = dims w -> size v = size w.
Proof. unfold size; intros ->; reflexivity. Qed.

(** *** Memory that grows *)
Lemma cell_app h h1 b k (y : T) : cell_at h b k = Some y -> cell_at (h ++ h1) b k = Some y.
Proof.
  unfold cell_at; intros E; destruct (Nat.lt_ge_cases b (length h)) as [L|G]; [rewrite app_nth1 by exact L; exact E|].
  rewrite (nth_overflow h) in E by exact G; destruct k; discriminate.
Qed.
Lemma exists_app h h1 v : exists_in h v -> exists_in (h ++ h1) v.
Proof.
  intros E b k C; specialize (E _ _ C).
  destruct (Nat.lt_ge_cases b (length h)) as [L|G]; [rewrite app_nth1 by exact L; exact E|].
  rewrite (nth_overflow h) in E by exact G; cbn in E; lia.
Qed.
Lemma read_app h h1 v : exists_in h v -> read (h ++ h1) v = read h v.
Proof.
  intros E; apply read_cells; intros b k C; specialize (E _ _ C).
  destruct (cell_at h b k) eqn:Q; [exact (cell_app _ _ _ _ _ Q)|].
  unfold cell_at in Q; apply nth_error_None in Q; lia.
Qed.
(** Everything that existed is kept. *)
Definition grown h h' : Prop := exists h1, h' = h ++ h1.
Lemma grown_refl h : grown h h.
Proof. exists []; rewrite app_nil_r; reflexivity. Qed.
Lemma grown_trans h1 h2 h3 : grown h1 h2 -> grown h2 h3 -> grown h1 h3.
Proof. intros (a & ->) (b & ->); exists (a ++ b); rewrite app_assoc; reflexivity. Qed.
Lemma grown_read h h' v : grown h h' -> exists_in h v -> exists_in h' v /\ read h' v = read h v.
Proof. intros (a & ->) E; split; [apply exists_app, E|apply read_app, E]. Qed.
Lemma grown_length h h' : grown h h' -> length h <= length h'.
Proof. intros (a & ->); rewrite app_length; lia. Qed.

(** An array of its own, made between [h] and [h']. *)
Definition fresh h h' v : Prop := length h <= buf v < length h' /\ exists_in h' v.
Lemma fresh_apart h h' v w : fresh h h' v -> exists_in h w -> apart v w.
Proof.
  intros [[L _] _] E b k [B1 _] C; specialize (E _ _ C); subst b.
  rewrite (nth_overflow h) in E by exact L; cbn in E; lia.
Qed.
Lemma fresh_two h1 h2 h3 v w : fresh h1 h2 v -> fresh h2 h3 w -> apart v w /\ apart w v.
Proof. intros [[_ L] _] [[L' _] _]; split; intros b k [B1 _] [B2 _]; lia. Qed.
Lemma fresh_grow h1 h2 h3 v : fresh h1 h2 v -> grown h2 h3 -> fresh h1 h3 v.
Proof. intros [[A B] E] G; pose proof (grown_length _ _ G); split; [lia|exact (proj1 (grown_read _ _ _ G E))]. Qed.
Lemma fresh_from h0 h1 h2 v : fresh h1 h2 v -> grown h0 h1 -> fresh h0 h2 v.
Proof. intros [[A B] E] G; pose proof (grown_length _ _ G); split; [lia|exact E]. Qed.

Lemma copy_spec h v h' c : exists_in h v -> copy h v = (h', c) ->
  grown h h' /\ fresh h h' c /\ dims c = dims v /\ read h' c = read h v.
Proof.
  intros E C; injection C as <- <-; split; [eexists; reflexivity|].
  assert (Nt : nth (length h) (h ++ [read h v]) [] = read h v) by (rewrite app_nth2, Nat.sub_diag by lia; reflexivity).
  split; [|split; [reflexivity|]].
  - split; [rewrite app_length; cbn; lia|]; intros b k [B K]; cbn in B; subst b; rewrite Nt, read_length by exact E.
    change (0 <= k < 0 + size v) in K; lia.
  - unfold read at 1; cbn [buf off]; rewrite Nt; unfold slice; rewrite Nat.sub_0_r; cbn [skipn Nat.add].
    unfold size at 1; cbn [dims]; fold (size v); rewrite <- (read_length _ _ E); apply firstn_all.
Qed.
Lemma zeros_spec h d h' c : zeros h d = (h', c) ->
  grown h h' /\ fresh h h' c /\ dims c = d /\ read h' c = vzeros (fold_right Nat.mul 1 d).
Proof.
  intros C; injection C as <- <-; split; [eexists; reflexivity|].
  set (z := vzeros (fold_right Nat.mul 1 d)).
  assert (Lz : length z = fold_right Nat.mul 1 d) by apply repeat_length.
  assert (Nt : nth (length h) (h ++ [z]) [] = z) by (rewrite app_nth2, Nat.sub_diag by lia; reflexivity).
  split; [|split; [reflexivity|]].
  - split; [rewrite app_length; cbn; lia|]; intros b k [B K]; cbn in B; subst b; rewrite Nt, Lz.
    change (0 <= k < 0 + fold_right Nat.mul 1 d) in K; lia.
  - unfold read; cbn [buf off]; rewrite Nt; unfold slice; rewrite Nat.sub_0_r; cbn [skipn Nat.add].
    unfold size; cbn [dims]; rewrite <- Lz; apply firstn_all.
Qed.

(** *** Values depend on contents and shapes *)
Lemma row_of_read h v i : i < hd 0 (dims v) ->
  read h (row v i) = slice (i * fold_right Nat.mul 1 (tl (dims v))) ((i + 1) * fold_right Nat.mul 1 (tl (dims v))) (read h v).
Proof.
  intros L; apply list_ext; intros j; rewrite nth_error_slice, !nth_read; cbn [buf off row].
  set (m := fold_right Nat.mul 1 (tl (dims v))).
  assert (Sr : size (row v i) = m) by reflexivity; rewrite Sr.
  assert (Sv : size v = hd 0 (dims v) * m) by (unfold size, m; destruct (dims v); [cbn in L; lia|reflexivity]).
  replace ((i + 1) * m - i * m) with m by lia.
  destruct (Nat.ltb_spec j m) as [J|J]; [|reflexivity].
  assert (i * m + j < size v) by (rewrite Sv; assert (S i * m <= hd 0 (dims v) * m) by (apply Nat.mul_le_mono_r; lia); lia).
  destruct (Nat.ltb_spec (i * m + j) (size v)); [|lia]; f_equal; lia.
Qed.
Lemma rows_of_read h v : rows h v =
  map (fun i => slice (i * fold_right Nat.mul 1 (tl (dims v))) ((i + 1) * fold_right Nat.mul 1 (tl (dims v))) (read h v)) (seq 0 (hd 0 (dims v))).
Proof. unfold rows; apply map_ext_in; intros i I; apply in_seq in I; apply row_of_read; lia. Qed.
Lemma rows_same h h' v w : dims v = dims w -> read h v = read h' w -> rows h v = rows h' w.
Proof. intros D E; rewrite !rows_of_read, D, E; reflexivity. Qed.

Lemma rk_value_same h h' o o' : (forall f, dims (attr o f) = dims (attr o' f) /\ read h (attr o f) = read h' (attr o' f)) ->
  embedded (rk_value h o) = embedded (rk_value h' o') -> rk_value h o = rk_value h' o'.
Proof.
  intros F Ex; unfold rk_value in *; cbn in Ex; rewrite Ex; unfold entry0.
  f_equal; try (apply rows_same; apply F); try (apply F); f_equal; apply F.
Qed.

Definition same_at h o h' o' k : Prop :=
  match at_key o k, at_key o' k with
  | Some v, Some w => dims v = dims w /\ read h v = read h' w
  | None, None => True
  | _, _ => False
  end.
Lemma ti_value_same h h' o o' : (forall k, same_at h o h' o' k) -> ti_value h o = ti_value h' o'.
Proof.
  intros F; unfold ti_value; f_equal.
  - apply rk_value_same; [intros f; exact (F (Disc f))|]; unfold rk_value; cbn.
    pose proof (F EmbeddedState) as F1; pose proof (F ErrorEstimate) as F2; unfold same_at in F1, F2; cbn in F1, F2.
    destruct (extra (o_disc o)) as [[e r]|], (extra (o_disc o')) as [[e' r']|]; cbn in *; try contradiction; [|reflexivity].
    rewrite (proj2 F1), (proj2 F2); reflexivity.
  - unfold entry0; f_equal; apply (F Suggestion).
  - apply (F StepHistory).
  - apply (F ErrorHistory).
Qed.
End Heap.
