(** Lemmas: metadata of several processes; programs of processes that stay in
    step. *)
From Coq Require Import String.
From Coq Require Import List Bool Arith Lia.
From Verif Require Import Base M_Tableau M_State M_ODE M_Step M_Controller M_Measure M_Integrator M_Metadata M_MPI
  SpecMetadata SpecMPI L_Metadata L_Metadata2 L_Metadata3.
Import ListNotations.
Local Open Scope nat_scope.
Local Open Scope list_scope.

(** *** Metadata *)

(** What two processes have in common. *)
Record alike (m1 m2 : metadata) (q1 q2 : quantity ti_translation) : Prop := {
  lk_name : q_name q1 = q_name q2;
  lk_dist : distributed (q_array q1) = distributed (q_array q2);
  lk_le1 : start_index (q_array q1) <= end_index (q_array q1) <= time_integration_array_size m1;
  lk_le2 : start_index (q_array q2) <= end_index (q_array q2) <= time_integration_array_size m2;
  lk_width : distributed (q_array q1) = false ->
    end_index (q_array q1) - start_index (q_array q1) = end_index (q_array q2) - start_index (q_array q2)
}.
Definition matching (m1 m2 : metadata) : Prop :=
  Forall2 (alike m1 m2) (time_integration_quantities m1) (time_integration_quantities m2).

Lemma Forall2_by_nth {A B} (P : A -> B -> Prop) l : forall l', length l = length l' ->
  (forall j a b, nth_error l j = Some a -> nth_error l' j = Some b -> P a b) -> Forall2 P l l'.
Proof.
  induction l as [|a l IH]; intros [|b l'] E H; cbn in E; try discriminate; constructor.
  - exact (H 0 a b eq_refl eq_refl).
  - apply IH; [lia|]; intros j; exact (H (S j)).
Qed.

Section Meta.
Variables (procs : nat) (vs : list variable) (qs is : list string) (mds : list metadata).
Hypothesis M : metadata_of procs vs qs is = Ok mds.
Hypothesis W : well_tagged vs qs.

Lemma global_shape_of r md j q : nth_error mds r = Some md ->
  nth_error (time_integration_quantities md) j = Some q ->
  exists v, nth_error (with_tags qs (outputs_of vs)) j = Some v /\
    global_shape (q_array q) = v_global_shape v /\
    (local (q_array q) = true -> local_shape r v = Some (shape (q_array q))) /\
    (local (q_array q) = false -> local_shape r v = None /\ shape (q_array q) = [0]).
Proof.
  intros Hr Hq.
  destruct (metadata_of_nth _ _ _ _ _ _ _ M Hr) as (all & md0 & _ & P & -> & _).
  apply process_ok in P as (F & _); cbn in Hq.
  apply mark_nth in Hq as (q0 & Hq & E1 & E2 & E3).
  destruct (Forall2_nth _ _ _ F _ _ Hq) as (v & Iv & (Et & D)).
  exists v; split; [exact Iv|]; rewrite E3; unfold set_distributed; cbn [global_shape local shape].
  pose proof (tag_in _ _ _ Et) as [Iq Tq].
  apply nth_error_In, with_tags_in in Iv as [Iv _]; unfold outputs_of in Iv; apply filter_In in Iv as [Iv Ov].
  destruct (is_local r v) eqn:Lv.
  - destruct D as (n & m & Ac); destruct (ac_output _ _ _ _ _ _ Ac) as (u & sh & X & Es & _ & D & _ & Eo).
    apply exactly_one_in in X as [X So]; apply in_tagged in X as (X1 & X2 & X3).
    destruct D as (D1 & D2 & D3 & D4 & D5).
    assert (u = v) as ->.
    { destruct (wt_output _ _ W _ Iq) as (w & Hw & _).
      rewrite (exactly_one_unique _ _ _ u Hw X1), (exactly_one_unique _ _ _ v Hw Iv); [reflexivity|split; assumption|].
      split; [exact (wt_inputs _ _ W _ _ Iq X1 X2 So)|exact X2]. }
    repeat split; try congruence.
  - rewrite D; cbn; split; [reflexivity|]; split; [discriminate|]; intros _; split; [|reflexivity].
    unfold is_local in Lv; destruct (local_shape r v); [discriminate|reflexivity].
Qed.

Lemma range_bounds r md j q : nth_error mds r = Some md ->
  nth_error (time_integration_quantities md) j = Some q ->
  start_index (q_array q) <= end_index (q_array q) <= time_integration_array_size md.
Proof.
  intros Hr Hq; destruct (c24_fills _ _ _ _ _ _ _ M Hr) as [(_ & B & _) _].
  apply (B j); rewrite nth_error_map, Hq; reflexivity.
Qed.

Lemma range_width r md j q : nth_error mds r = Some md ->
  nth_error (time_integration_quantities md) j = Some q ->
  end_index (q_array q) - start_index (q_array q) = prod (shape (q_array q)).
Proof.
  intros Hr Hq; pose proof (c24_sources _ _ _ _ _ _ _ M Hr) as S; rewrite Forall_forall in S.
  specialize (S _ (nth_error_In _ _ Hq)) as S'.
  destruct (global_shape_of _ _ _ _ Hr Hq) as (v & _ & _ & _ & G).
  destruct S' as [(L & E & _)|(L & E1 & E2 & _)]; [lia|].
  destruct (G L) as [_ ->]; rewrite E1, E2; reflexivity.
Qed.

Lemma same_length r r' md md' : nth_error mds r = Some md -> nth_error mds r' = Some md' ->
  length (time_integration_quantities md) = length (time_integration_quantities md').
Proof.
  intros H H'; destruct (c24_same_names _ _ _ _ _ _ _ _ _ M H H') as [E _].
  apply (f_equal (@length _)) in E; rewrite !map_length in E; exact E.
Qed.

Lemma metadata_matching r r' md md' : nth_error mds r = Some md -> nth_error mds r' = Some md' -> matching md md'.
Proof.
  intros H H'; apply Forall2_by_nth; [exact (same_length _ _ _ _ H H')|].
  intros j q q' Hq Hq'.
  assert (En : q_name q = q_name q').
  { destruct (c24_same_names _ _ _ _ _ _ _ _ _ M H H') as [E _].
    assert (X := f_equal (fun l => nth_error l j) E); cbn in X; rewrite !nth_error_map, Hq, Hq' in X.
    injection X as X; exact X. }
  assert (Ed : distributed (q_array q) = distributed (q_array q')).
  { pose proof (c50_distributed _ _ _ _ _ _ _ _ _ M H Hq) as A.
    pose proof (c50_distributed _ _ _ _ _ _ _ _ _ M H' Hq') as B.
    destruct (distributed (q_array q)), (distributed (q_array q')); try reflexivity; exfalso.
    - assert (X : false = true) by (apply B, A; reflexivity); discriminate.
    - assert (X : false = true) by (apply A, B; reflexivity); discriminate. }
  constructor; [exact En|exact Ed|eapply range_bounds; eassumption|eapply range_bounds; eassumption|].
  intros Nd; rewrite (range_width _ _ _ _ H Hq), (range_width _ _ _ _ H' Hq').
  assert (A : shape (q_array q) = global_shape (q_array q)).
  { destruct (list_eq_dec Nat.eq_dec (shape (q_array q)) (global_shape (q_array q))) as [E|E]; [exact E|exfalso].
    assert (X : distributed (q_array q) = true) by (apply (c50_distributed _ _ _ _ _ _ _ _ _ M H Hq); eauto 10).
    congruence. }
  assert (B : shape (q_array q') = global_shape (q_array q')).
  { destruct (list_eq_dec Nat.eq_dec (shape (q_array q')) (global_shape (q_array q'))) as [E|E]; [exact E|exfalso].
    assert (X : distributed (q_array q) = true) by (apply (c50_distributed _ _ _ _ _ _ _ _ _ M H Hq); eauto 10).
    congruence. }
  destruct (global_shape_of _ _ _ _ H Hq) as (v & I & -> & _) in A.
  destruct (global_shape_of _ _ _ _ H' Hq') as (v' & I' & -> & _) in B.
  congruence.
Qed.
End Meta.

(** *** Slices of arrays *)
Section Slices.
Context {T : Type} {N : Num T}.

Lemma skipn_map2 {A B D} (f : A -> B -> D) n : forall x y, skipn n (map2 f x y) = map2 f (skipn n x) (skipn n y).
Proof.
  induction n as [|n IH]; intros [|a x] [|b y]; cbn; try reflexivity; [|apply IH].
  destruct (skipn n x); reflexivity.
Qed.
Lemma firstn_map2 {A B D} (f : A -> B -> D) n : forall x y, firstn n (map2 f x y) = map2 f (firstn n x) (firstn n y).
Proof. induction n as [|n IH]; intros [|a x] [|b y]; cbn; try reflexivity; f_equal; apply IH. Qed.
Lemma slice_map2 {A B D} (f : A -> B -> D) s e x y : slice s e (map2 f x y) = map2 f (slice s e x) (slice s e y).
Proof. unfold slice; rewrite skipn_map2, firstn_map2; reflexivity. Qed.
Lemma slice_map {A B} (f : A -> B) s e x : slice s e (map f x) = map f (slice s e x).
Proof. unfold slice; rewrite skipn_map, firstn_map; reflexivity. Qed.
Lemma skipn_repeat {A} (a : A) s : forall n, skipn s (repeat a n) = repeat a (n - s).
Proof. induction s as [|s IH]; intros [|n]; cbn; auto. Qed.
Lemma firstn_repeat {A} (a : A) s : forall n, firstn s (repeat a n) = repeat a (Nat.min s n).
Proof. induction s as [|s IH]; intros [|n]; cbn; auto; f_equal; auto. Qed.
Lemma slice_zeros s e n : s <= e <= n -> slice s e (vzeros n) = vzeros (e - s).
Proof. intros H; unfold slice, vzeros; rewrite skipn_repeat, firstn_repeat; f_equal; lia. Qed.

Lemma slice_einsum_from s e n ws : forall field acc, Forall (fun r => length r = n) field ->
  slice s e (fold_left (fun acc rw => vadd acc (map (fun x => nmul x (snd rw)) (fst rw))) (combine field ws) acc) =
  fold_left (fun acc rw => vadd acc (map (fun x => nmul x (snd rw)) (fst rw)))
            (combine (map (slice s e) field) ws) (slice s e acc).
Proof.
  induction ws as [|w ws IH]; intros [|r field] acc F; try reflexivity.
  cbn; inversion F; subst; rewrite IH by assumption; unfold vadd; rewrite slice_map2, slice_map; reflexivity.
Qed.
Lemma slice_einsum s e n field ws : s <= e <= n -> Forall (fun r => length r = n) field ->
  slice s e (einsum_ij_i n field ws) = einsum_ij_i (e - s) (map (slice s e) field) ws.
Proof. intros H F; unfold einsum_ij_i; rewrite (slice_einsum_from s e n) by exact F; rewrite slice_zeros by exact H; reflexivity. Qed.

Lemma map2_length {A B D} (f : A -> B -> D) x : forall y, length (map2 f x y) = Nat.min (length x) (length y).
Proof. induction x as [|a x IH]; intros [|b y]; cbn; auto. Qed.
Lemma einsum_length n ws : forall field acc, length acc = n -> Forall (fun r => length r = n) field ->
  length (fold_left (fun acc rw => vadd acc (map (fun x => nmul x (snd rw)) (fst rw))) (combine field ws) acc) = n.
Proof.
  induction ws as [|w ws IH]; intros [|r field] acc E F; cbn; try exact E.
  inversion F; subst; apply IH; [|assumption]; unfold vadd; rewrite map2_length, map_length; lia.
Qed.
Lemma einsum_len n field ws : Forall (fun r => length r = n) field -> length (einsum_ij_i n field ws) = n.
Proof. intros F; apply einsum_length; [apply repeat_length|exact F]. Qed.
Lemma Forall_upd {A} (P : A -> Prop) i v : forall l, Forall P l -> P v -> Forall P (upd i v l).
Proof. revert i; intros i l; revert i; induction l as [|a l IH]; intros [|i] F V; cbn; auto; inversion F; subst; constructor; auto. Qed.
Lemma upd_length {A} (v : A) l : forall i, length (upd i v l) = length l.
Proof. induction l as [|a l IH]; intros [|i]; cbn; auto. Qed.
End Slices.
