(** Lemmas: what the callbacks write is what is to be recorded. *)
From Coq Require Import String.
From Coq Require Import List Bool Arith Lia Permutation.
From Verif Require Import Base M_State M_Metadata M_Writer SpecMetadata SpecWriter L_Metadata L_Metadata2 L_Heap L_Writer L_Writer2.
From Verif Require L_Packing6.
Import ListNotations.
Local Open Scope string_scope.
Local Open Scope nat_scope.
Local Open Scope list_scope.

Section Steps.
Context {T : Type} {N : Num T}.
Implicit Types (f : file T) (gr : group T) (d : dataset T) (r : instant T) (st : tistate T).

Definition fits1 (x : list T) (qu : quantity ti_translation) (y : list T) : Prop :=
  let a := q_array qu in prod (global_shape a) = length y /\
  (nothing a \/ (rows a /\ local_part a x = slice (global_start_index a) (global_end_index a) y)).

Lemma existsb_zero sh : existsb (Nat.eqb 0) sh = true <-> In 0 sh.
Proof.
  rewrite existsb_exists; split; [intros (x & I & E); apply Nat.eqb_eq in E; subst; exact I|].
  intros I; exists 0; auto.
Qed.

Lemma put_quantity_good g tf x qu y :
  get g (q_name qu) tf = Some {| d_shape := global_shape (q_array qu); d_data := y |} -> fits1 x qu y ->
  Forall (good tf) (put_quantity g x qu) /\
  (~ nothing (q_array qu) -> forall k, global_start_index (q_array qu) <= k < global_end_index (q_array qu) ->
     exists o, In o (put_quantity g x qu) /\ covers tf o g (q_name qu) k).
Proof.
  intros G [Ly F]; unfold put_quantity; destruct (existsb (Nat.eqb 0) (shape (q_array qu))) eqn:Z.
  { split; [constructor|]; intros H; destruct H; apply existsb_zero; exact Z. }
  assert (Hn : ~ nothing (q_array qu)) by (intros I; apply existsb_zero in I; congruence).
  destruct F as [F|[R F]]; [contradiction|].
  destruct (rows_select _ R Hn) as (sel & E & Esh & H); rewrite E.
  destruct (rows_indices _ R Hn) as (n & rest & s & k & Eg & Es & Hk & L & Hr & E1 & E2 & _).
  pose proof (prod_pos rest Hr) as P.
  assert (Hy : global_end_index (q_array qu) <= length y) by (rewrite <- Ly, Eg, prod_cons, E2; nia).
  assert (Hge : global_start_index (q_array qu) <= global_end_index (q_array qu)) by (rewrite E1, E2; nia).
  assert (Lp : length (slice (start_index (q_array qu)) (end_index (q_array qu)) x) = prod (shape (q_array qu))).
  { change (length (local_part (q_array qu) x) = prod (shape (q_array qu))).
    rewrite F, Es, prod_cons; unfold slice; rewrite firstn_length, skipn_length.
    replace (global_end_index (q_array qu)) with (global_start_index (q_array qu) + k * prod rest) in * by (rewrite E1, E2; lia).
    lia. }
  rewrite Lp, Nat.eqb_refl; split.
  - constructor; [|constructor]; eexists; split; [exact G|]; cbn [d_shape d_data].
    split; [exact Esh|]; split; [congruence|]; intros i Li Q.
    destruct (H _ _ (unravel_place _ _ Li)) as [S1 S2]; rewrite (place_ravel _ _ _ (S2 Q)).
    apply S1 in Q; change (slice (start_index (q_array qu)) (end_index (q_array qu)) x) with (local_part (q_array qu) x).
    rewrite F; unfold slice; rewrite L_Packing6.nth_firstn_lt, L_Packing6.nth_skipn by lia; f_equal; lia.
  - intros _ i Hi; eexists; split; [left; reflexivity|]; do 4 eexists; split; [reflexivity|]; split; [exact G|].
    cbn [d_shape]; assert (Li : i < prod (global_shape (q_array qu))) by lia.
    apply (proj1 (H _ _ (unravel_place _ _ Li))); exact Hi.
Qed.

Lemma put_one_good g n tf v : get g n tf = Some {| d_shape := [1]; d_data := [v] |} ->
  good tf (Put g n [(0, 1)] [1] [v]) /\ covers tf (Put g n [(0, 1)] [1] [v]) g n 0.
Proof.
  intros G; split.
  - eexists; split; [exact G|]; split; [reflexivity|]; split; [reflexivity|]; intros k L _.
    cbn in L; replace k with 0 by lia; reflexivity.
  - do 4 eexists; split; [reflexivity|]; split; [exact G|]; reflexivity.
Qed.

(** *** Groups *)
Section Group.
Variables (names : list string) (shapes : list (list nat)) (r : instant T).
Hypothesis Hok : names_ok names (match i_error r with Some _ => true | None => false end).
Hypothesis Hl : length names = length (i_values r).
Hypothesis Hs : map (@prod) shapes = map (@length T) (i_values r).

Let sets : list (dataset T) := map2 (fun sh y => {| d_shape := sh; d_data := y |}) shapes (i_values r).

Lemma map2_length {A B C} (h : A -> B -> C) l : forall l', length l = length l' -> length (map2 h l l') = length l.
Proof. induction l as [|a l IH]; intros [|b l'] E; cbn in *; try lia; rewrite IH by lia; reflexivity. Qed.
Lemma map2_nth_error {A B C} (h : A -> B -> C) l : forall l' j, nth_error (map2 h l l') j =
  match nth_error l j, nth_error l' j with Some a, Some b => Some (h a b) | _, _ => None end.
Proof. induction l as [|a l IH]; intros [|b l'] [|j]; cbn; try reflexivity; [destruct (nth_error l j); reflexivity|apply IH]. Qed.
Lemma combine_nth_error {A B} (l : list A) : forall (l' : list B) j, nth_error (combine l l') j =
  match nth_error l j, nth_error l' j with Some a, Some b => Some (a, b) | _, _ => None end.
Proof. induction l as [|a l IH]; intros [|b l'] [|j]; cbn; try reflexivity; [destruct (nth_error l j); reflexivity|apply IH]. Qed.
Lemma combine_fst {A B} (l : list A) : forall (l' : list B), length l = length l' -> map fst (combine l l') = l.
Proof. induction l as [|a l IH]; intros [|b l'] E; cbn in *; try lia; [reflexivity|]; rewrite IH by lia; reflexivity. Qed.

Lemma shapes_length : length shapes = length (i_values r).
Proof. apply (f_equal (@length nat)) in Hs; rewrite !map_length in Hs; exact Hs. Qed.
Lemma sets_length : length sets = length names.
Proof. unfold sets; rewrite map2_length; [rewrite shapes_length, Hl; reflexivity|apply shapes_length]. Qed.

Lemma record_names : map fst (record_of names shapes r) =
  "time" :: names ++ (match i_error r with Some _ => ["error_measure"] | None => [] end).
Proof.
  unfold record_of; cbn [map fst]; rewrite map_app; fold sets; rewrite combine_fst by (symmetry; apply sets_length).
  destruct (i_error r); reflexivity.
Qed.
Lemma record_nodup : NoDup (map fst (record_of names shapes r)).
Proof. rewrite record_names; unfold names_ok in Hok; destruct (i_error r); exact Hok. Qed.

Lemma record_time : lookup "time" (record_of names shapes r) = Some {| d_shape := [1]; d_data := [i_time r] |}.
Proof. reflexivity. Qed.
Lemma record_value j n sh y : nth_error names j = Some n -> nth_error shapes j = Some sh -> nth_error (i_values r) j = Some y ->
  lookup n (record_of names shapes r) = Some {| d_shape := sh; d_data := y |}.
Proof.
  intros E1 E2 E3; apply lookup_in; [apply record_nodup|]; unfold record_of; right; apply in_or_app; left.
  apply nth_error_In with (n := j); rewrite combine_nth_error, E1, map2_nth_error, E2, E3; reflexivity.
Qed.
Lemma record_error e : i_error r = Some e -> lookup "error_measure" (record_of names shapes r) = Some {| d_shape := [1]; d_data := [e] |}.
Proof.
  intros E; apply lookup_in; [apply record_nodup|]; unfold record_of; rewrite E; right; apply in_or_app; right; left; reflexivity.
Qed.
Lemma record_cases n d : lookup n (record_of names shapes r) = Some d ->
  (n = "time" /\ length (d_data d) = 1) \/
  (exists j sh y, nth_error names j = Some n /\ nth_error shapes j = Some sh /\ nth_error (i_values r) j = Some y /\ d_data d = y) \/
  (n = "error_measure" /\ i_error r <> None /\ length (d_data d) = 1).
Proof.
  intros E; apply lookup_some in E; unfold record_of in E; destruct E as [E|E]; [injection E as <- <-; auto|].
  apply in_app_or in E; destruct E as [E|E]; right.
  - left; apply In_nth_error in E; destruct E as [j E]; exists j; rewrite combine_nth_error, map2_nth_error in E.
    destruct (nth_error names j), (nth_error shapes j) as [sh|], (nth_error (i_values r) j) as [y|]; try discriminate.
    injection E as -> <-; exists sh, y; auto.
  - right; destruct (i_error r); [|contradiction]; destruct E as [E|[]]; injection E as <- <-.
    split; [reflexivity|]; split; [discriminate|reflexivity].
Qed.
Lemma record_sized n d : lookup n (record_of names shapes r) = Some d -> length (d_data d) = prod (d_shape d).
Proof.
  intros E; apply lookup_some in E; unfold record_of in E; destruct E as [E|E]; [injection E as <- <-; reflexivity|].
  apply in_app_or in E; destruct E as [E|E].
  - apply In_nth_error in E; destruct E as [j E]; rewrite combine_nth_error, map2_nth_error in E.
    pose proof (f_equal (fun l => nth_error l j) Hs) as Hj; cbn in Hj; rewrite !nth_error_map in Hj.
    destruct (nth_error names j), (nth_error shapes j) as [sh|], (nth_error (i_values r) j) as [y|]; try discriminate.
    injection E as -> <-; injection Hj as Hj; cbn [d_data d_shape]; congruence.
  - destruct (i_error r); [|contradiction]; destruct E as [E|[]]; injection E as <- <-; reflexivity.
Qed.

Lemma blank_skeleton md : agree names shapes md ->
  skeleton_of (blank (N := N) md (match i_error r with Some _ => true | None => false end)) = skeleton_of (record_of names shapes r).
Proof.
  intros [A1 A2]; unfold skeleton_of, blank, record_of; cbn [map fst snd zeros_of d_shape]; f_equal.
  rewrite !map_app, map_map; cbn [fst snd zeros_of d_shape]; f_equal.
  2:{ destruct (i_error r); reflexivity. }
  transitivity (combine names shapes).
  - subst names shapes; clear; induction (time_integration_quantities md) as [|q l IH]; cbn; [reflexivity|]; rewrite IH; reflexivity.
  - pose proof shapes_length as L; revert Hl L; clear; generalize (i_values r); revert shapes.
    induction names as [|n l IH]; intros [|sh shs] [|y ys] H L; cbn in *; try lia; [reflexivity|].
    rewrite (IH shs ys) by lia; reflexivity.
Qed.
Lemma blank_sized md emb n d : lookup n (blank (N := N) md emb) = Some d -> length (d_data d) = prod (d_shape d).
Proof.
  intros E; apply lookup_some in E; unfold blank in E; destruct E as [E|E]; [injection E as <- <-; reflexivity|].
  apply in_app_or in E; destruct E as [E|E].
  - apply in_map_iff in E; destruct E as (q & E & _); injection E as <- <-; cbn; apply repeat_length.
  - destruct emb; [|contradiction]; destruct E as [E|[]]; injection E as <- <-; reflexivity.
Qed.

(** *** One process writes one group *)
Variables (tf : file T) (g : string).
Hypothesis Hg : lookup g tf = Some (record_of names shapes r).

Lemma get_record n : get g n tf = lookup n (record_of names shapes r).
Proof. unfold get; rewrite Hg; reflexivity. Qed.

Lemma put_step_good md x (err : list (fop T)) : agree names shapes md ->
  Forall2 (fits1 x) (time_integration_quantities md) (i_values r) -> Forall (good tf) err ->
  Forall (good tf) (put_step md g (i_time r) x err).
Proof.
  intros [A1 A2] F E; unfold put_step; constructor.
  { apply put_one_good; rewrite get_record; apply record_time. }
  apply Forall_app; split; [|exact E].
  apply Forall_forall; intros o I; apply in_flat_map in I; destruct I as (qu & I & Io).
  apply In_nth_error in I; destruct I as [j I].
  pose proof (f_equal (fun l => nth_error l j) A1) as N1; pose proof (f_equal (fun l => nth_error l j) A2) as N2.
  cbn in N1, N2; rewrite nth_error_map, I in N1, N2; cbn in N1, N2.
  destruct (nth_error (i_values r) j) as [y|] eqn:Ey.
  2:{ apply nth_error_None in Ey; rewrite <- Hl in Ey; apply nth_error_None in Ey; congruence. }
  assert (Fy : fits1 x qu y).
  { destruct (Forall2_nth _ _ _ F _ _ Ey) as (q' & Eq & Fq); rewrite I in Eq; injection Eq as <-; exact Fq. }
  assert (G : get g (q_name qu) tf = Some {| d_shape := global_shape (q_array qu); d_data := y |}).
  { rewrite get_record; apply record_value with (j := j); congruence. }
  destruct (put_quantity_good _ _ _ _ _ G Fy) as [Q _]; rewrite Forall_forall in Q; apply Q, Io.
Qed.
Lemma put_step_time md x err : exists o, In o (put_step md g (i_time r) x err) /\ covers tf o g "time" 0.
Proof.
  eexists; split; [left; reflexivity|]; apply put_one_good; rewrite get_record; apply record_time.
Qed.
Lemma put_step_value md x err j qu n y k : agree names shapes md ->
  nth_error (time_integration_quantities md) j = Some qu -> nth_error names j = Some n -> nth_error (i_values r) j = Some y ->
  fits1 x qu y -> ~ nothing (q_array qu) -> global_start_index (q_array qu) <= k < global_end_index (q_array qu) ->
  exists o, In o (put_step md g (i_time r) x err) /\ covers tf o g n k.
Proof.
  intros [A1 A2] I En Ey F Hn Hk.
  pose proof (f_equal (fun l => nth_error l j) A1) as N1; pose proof (f_equal (fun l => nth_error l j) A2) as N2.
  cbn in N1, N2; rewrite nth_error_map, I in N1, N2; cbn in N1, N2; rewrite En in N1; injection N1 as N1; subst n.
  assert (G : get g (q_name qu) tf = Some {| d_shape := global_shape (q_array qu); d_data := y |}).
  { rewrite get_record; apply record_value with (j := j); congruence. }
  destruct (put_quantity_good _ _ _ _ _ G F) as [_ Q]; destruct (Q Hn k Hk) as (o & Io & Co).
  exists o; split; [|exact Co]; right; apply in_or_app; left; apply in_flat_map; exists qu.
  split; [eapply nth_error_In; exact I|exact Io].
Qed.
End Group.
End Steps.
