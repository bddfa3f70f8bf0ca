(** Lemmas about the metadata of all processes. *)
From Coq Require Import String.
From Coq Require Import List Bool Arith Lia Permutation.
From Verif Require Import Base M_Metadata SpecMetadata L_Metadata.
Import ListNotations.
Local Open Scope nat_scope.
Local Open Scope list_scope.

(** *** Gathering *)
Lemma all_ok_spec {A} (l : list (res A)) : forall x, all_ok l = Ok x ->
  length x = length l /\ forall k a, nth_error x k = Some a -> nth_error l k = Some (Ok a).
Proof.
  induction l as [|r l IH]; cbn; intros x H.
  - injection H as <-; split; [reflexivity|intros [|k]; discriminate].
  - apply bind_ok in H as (a & -> & H); apply bind_ok in H as (y & H & E); injection E as <-.
    destruct (IH y H) as [L N]; cbn; split; [lia|].
    intros [|k] b; cbn; [congruence|apply N].
Qed.

Lemma mark_length {X} all (ql : list (quantity X)) : forall k, length (mark all k ql) = length ql.
Proof. induction ql; cbn; intros; auto. Qed.

Lemma mark_nth {X} all (ql : list (quantity X)) : forall k j q, nth_error (mark all k ql) j = Some q ->
  exists q0, nth_error ql j = Some q0 /\ q_name q = q_name q0 /\ q_translation q = q_translation q0 /\
    q_array q = set_distributed (negb (shapes_match_everywhere all (k + j))) (q_array q0).
Proof.
  induction ql as [|x ql IH]; intros k [|j] q; cbn; try discriminate.
  - intros [= <-]; exists x; rewrite Nat.add_0_r; auto.
  - intros H; destruct (IH _ _ _ H) as (q0 & A & B & C & D); exists q0; rewrite Nat.add_succ_r; auto.
Qed.

Lemma mark_laid_out {X} all (ql : list (quantity X)) : forall k n m,
  laid_out n (map q_array ql) m -> laid_out n (map q_array (mark all k ql)) m.
Proof.
  induction ql as [|x ql IH]; cbn; intros k n m H; [exact H|].
  destruct (local (q_array x)); [destruct H as (A & B & C)|destruct H as (A & C)]; auto.
Qed.

Lemma mark_names {X} all (ql : list (quantity X)) : forall k, map q_name (mark all k ql) = map q_name ql.
Proof. induction ql; cbn; intros; f_equal; auto. Qed.

(** *** Counting in the list of all variables *)
Lemma tagged_filter {P : variable -> Prop} {b} rank vs q : (forall x, b x = true <-> P x) ->
  let b' := fun u => b u && (is_local rank u && mem q (v_tags u)) in
  (forall x, b' x = true <-> of_quantity rank q P x) /\
  length (filter b (tagged_with rank vs q)) = length (filter b' vs).
Proof.
  intros H b'; split.
  - intros x; unfold b', of_quantity, has, here, is_local; rewrite !andb_true_iff, H, mem_iff.
    destruct (local_shape rank x); intuition congruence.
  - unfold tagged_with, locals; rewrite with_tags_one.
    unfold inputs_of, outputs_of.
    assert (X : forall l : list variable, filter b (filter (is_local rank) (filter (fun v => mem q (v_tags v)) l)) = filter b' l).
    { clear; intros l; induction l as [|x l IH]; cbn; [reflexivity|]; unfold b' in *.
      destruct (mem q (v_tags x)) eqn:E1; cbn; [|rewrite !andb_false_r; exact IH].
      destruct (is_local rank x) eqn:E2; cbn; [|rewrite andb_false_r; exact IH].
      destruct (b x); cbn; rewrite IH; reflexivity. }
    rewrite X; apply split_count.
Qed.

Lemma one_tagged P b rank vs q x : (forall x, b x = true <-> P x) ->
  exactly_one P (tagged_with rank vs q) x <-> exactly_one (of_quantity rank q P) vs x.
Proof.
  intros H; destruct (tagged_filter rank vs q H) as [H' L].
  rewrite <- (filter_one P b _ x H), <- (filter_one _ _ vs x H').
  set (b' := fun u => b u && (is_local rank u && mem q (v_tags u))) in *.
  split; intros E.
  - rewrite E in L; cbn in L; symmetry in L; apply length_one in L as (y & L); rewrite L; f_equal.
    assert (I : In x (filter b' vs)).
    { assert (Ix : In x (filter b (tagged_with rank vs q))) by (rewrite E; left; reflexivity).
      apply filter_In in Ix as [Ix Bx]; apply in_tagged in Ix as (A1 & A2 & A3).
      apply filter_In; split; [exact A1|apply H']; split; [exact A2|]; split; [exact A3|apply H, Bx]. }
    rewrite L in I; destruct I as [I|[]]; exact I.
  - rewrite E in L; cbn in L; apply length_one in L as (y & L); rewrite L; f_equal.
    assert (I : In x (filter b (tagged_with rank vs q))).
    { assert (Ix : In x (filter b' vs)) by (rewrite E; left; reflexivity).
      apply filter_In in Ix as [Ix Bx]; apply H' in Bx as (A1 & A2 & A3).
      apply filter_In; split; [apply in_tagged; auto|apply H, A3]. }
    rewrite L in I; destruct I as [I|[]]; exact I.
Qed.

Lemma none_tagged P b rank vs q : (forall x, b x = true <-> P x) ->
  none P (tagged_with rank vs q) <-> none (of_quantity rank q P) vs.
Proof.
  intros H; destruct (tagged_filter rank vs q H) as [H' L].
  rewrite <- (filter_none P b _ H), <- (filter_none _ _ vs H').
  rewrite <- !length_zero_iff_nil, L; reflexivity.
Qed.

Lemma accepted_proper rank vs q n m qu : accepted rank vs q n m qu ->
  (exists v, exactly_one (of_quantity rank q stage_output) vs v) /\ paired rank vs q.
Proof.
  intros Ac; destruct (ac_output _ _ _ _ _ _ Ac) as (u & sh & X & _); split.
  - exists u; apply (one_tagged _ bout); [apply bout_iff|exact X].
  - destruct (ac_pair _ _ _ _ _ _ Ac) as [(A & B & _)|(s & a & A & B & _)]; [left|right].
    + split; [apply (none_tagged _ bstep), A; apply bstep_iff|apply (none_tagged _ bacc), B; apply bacc_iff].
    + exists s, a; split; [apply (one_tagged _ bstep), A; apply bstep_iff|apply (one_tagged _ bacc), B; apply bacc_iff].
Qed.

(** *** Errors *)
Definition setup_exn (e : exn) : Prop := e = SetupError \/ e = IndexError.

Lemma bind_err {A B} (m : res A) (k : A -> res B) e : bind m k = Err e ->
  m = Err e \/ exists a, m = Ok a /\ k a = Err e.
Proof. destruct m; cbn; intros H; [right; eauto|left; congruence]. Qed.

Lemma create_err rank vs n m v sh e : create_local_array_metadata rank vs n m v sh = Err e -> e = IndexError.
Proof.
  unfold create_local_array_metadata; intros H; apply bind_err in H as [H|(a & _ & H)]; [|discriminate].
  destruct (negb _); [|discriminate]; destruct (nth_error _ _); congruence.
Qed.

Lemma scan_err {A B} (body : B -> A -> res B) (P : A -> Prop) (E : exn -> Prop) :
  (forall b a e, P a -> body b a = Err e -> E e) ->
  forall l, Forall P l -> forall b e, scan body b l = Err e -> E e.
Proof.
  intros H l F; induction F as [|a l Pa F IH]; cbn; intros b e S; [discriminate|].
  apply bind_err in S as [S|(b' & _ & S)]; eauto.
Qed.

Lemma tagged_local rank vs q : Forall (fun v => is_local rank v = true) (tagged_with rank vs q).
Proof.
  apply Forall_forall; intros v I; apply in_tagged in I as (_ & _ & I).
  unfold here, is_local in *; destruct (local_shape rank v); congruence.
Qed.

Lemma extract_ti_err rank vs q n e : extract_time_integration_quantity rank vs q n = Err e -> setup_exn e.
Proof.
  unfold extract_time_integration_quantity; intros H; apply bind_err in H as [H|(f & S & H)].
  - right; revert H; apply (scan_err _ (fun v => is_local rank v = true) (fun e => e = IndexError)); [|apply tagged_local].
    clear; intros f v e Lv H; unfold scan_ti in H; unfold is_local in Lv.
    destruct (mem "stage_output_var" (v_tags v)); [|destruct (mem _ _); [discriminate|destruct (mem _ _); discriminate]].
    destruct (local_shape rank v); [|discriminate].
    apply bind_err in H as [H|(a & _ & H)]; [apply create_err in H; exact H|discriminate].
  - pose proof (scan_ti_counts _ _ _ _ _ S) as (C1 & _); cbn in C1.
    destruct (1 <? f_outputs f) eqn:E1; [injection H as <-; left; reflexivity|].
    destruct (1 <? f_steps f); [injection H as <-; left; reflexivity|].
    destruct (1 <? f_accumulated f); [injection H as <-; left; reflexivity|].
    destruct (f_outputs f <? 1) eqn:E4; [injection H as <-; left; reflexivity|].
    destruct (negb _); [injection H as <-; left; reflexivity|].
    apply Nat.ltb_ge in E1, E4.
    assert (L : length (filter bout (tagged_with rank vs q)) = 1) by lia; apply length_one in L as (v & L).
    destruct (scan_ti_one _ _ _ _ _ _ L S) as (sh & a & _ & _ & E & _); rewrite E in H; discriminate.
Qed.

Lemma extract_ind_err rank vs q n e : extract_time_independent_quantity rank vs q n = Err e -> setup_exn e.
Proof.
  unfold extract_time_independent_quantity; intros H; apply bind_err in H as [H|(f & S & H)].
  - right; revert H; apply (scan_err _ (fun v => is_local rank v = true) (fun e => e = IndexError)); [|apply tagged_local].
    clear; intros f v e Lv H; unfold scan_ind in H; unfold is_local in Lv.
    destruct (mem "time_independent_input_var" (v_tags v)); [|discriminate].
    destruct (local_shape rank v); [|discriminate].
    apply bind_err in H as [H|(a & _ & H)]; [apply create_err in H; exact H|discriminate].
  - pose proof (scan_ind_spec _ _ _ _ _ S) as (C1 & _ & _ & C4); cbn [f_outputs] in C1.
    destruct (1 <? f_outputs f) eqn:E1; [injection H as <-; left; reflexivity|].
    destruct (f_outputs f <? 1) eqn:E4; [injection H as <-; left; reflexivity|].
    apply Nat.ltb_ge in E1, E4.
    assert (L : length (filter bind_in (tagged_with rank vs q)) = 1) by lia; apply length_one in L as (v & L).
    destruct (C4 v L) as (sh & a & _ & _ & E & _); rewrite E in H; discriminate.
Qed.

Lemma process_errors rank vs qs is e : process_metadata rank vs qs is = Err e -> setup_exn e.
Proof.
  unfold process_metadata; intros H; apply bind_err in H as [H|(md & _ & H)].
  - unfold extract_time_integration_metadata in H; apply bind_err in H as [H|([s ql] & _ & H)].
    + revert H; apply (scan_err _ (fun _ => True)); [|apply Forall_forall; auto].
      clear; intros acc v e _ H; unfold scan_output in H.
      destruct (tag_intersection qs (v_tags v)) as [|q [|]]; try (injection H as <-; left; reflexivity).
      destruct (is_local rank v); [|discriminate].
      apply bind_err in H as [H|([s qu] & _ & H)]; [apply extract_ti_err in H; exact H|discriminate].
    + apply bind_err in H as [H|(tv & _ & H)]; [|discriminate].
      unfold search_for_time_variable in H.
      set (g := with_tags _ _) in H; set (l := locals rank g) in H; clearbody g l.
      destruct l as [|x [|]], g as [|y [|]]; try discriminate; try (injection H as <-; left; reflexivity).
      destruct (negb _); [injection H as <-; left; reflexivity|discriminate].
  - destruct is as [|i is]; [discriminate|].
    unfold add_time_independent_input_metadata in H; apply bind_err in H as [H|([s ql] & _ & H)]; [|discriminate].
    revert H; apply (scan_err _ (fun _ => True)); [|apply Forall_forall; auto].
    clear; intros acc v e _ H; unfold scan_input in H.
    destruct (tag_intersection _ (v_tags v)) as [|q [|]]; try (injection H as <-; left; reflexivity).
    destruct (is_local rank v); [|discriminate].
    apply bind_err in H as [H|([s' qu] & _ & H)]; [apply extract_ind_err in H; exact H|discriminate].
Qed.

Section All.
Variables (procs : nat) (vs : list variable) (qs is : list string).

Lemma metadata_of_spec mds : metadata_of procs vs qs is = Ok mds ->
  exists all, length mds = procs /\ mds = map (add_distributivity_information all) all /\
    forall rank md0, nth_error all rank = Some md0 -> rank < procs /\ process_metadata rank vs qs is = Ok md0.
Proof.
  unfold metadata_of; intros H; apply bind_ok in H as (all & H & E); injection E as <-.
  apply all_ok_spec in H as [L N]; rewrite map_length, seq_length in L.
  exists all; split; [rewrite map_length; exact L|]; split; [reflexivity|].
  intros rank md0 H; specialize (N _ _ H).
  assert (K : rank < procs) by (rewrite <- L; apply nth_error_Some; congruence).
  split; [exact K|].
  rewrite nth_error_map, (nth_error_nth' (seq 0 procs) 0) in N by (rewrite seq_length; exact K).
  rewrite seq_nth in N by exact K; cbn in N; congruence.
Qed.

Lemma metadata_of_nth mds rank md : metadata_of procs vs qs is = Ok mds -> nth_error mds rank = Some md ->
  exists all md0, rank < procs /\ process_metadata rank vs qs is = Ok md0 /\
    md = add_distributivity_information all md0 /\ nth_error all rank = Some md0 /\
    mds = map (add_distributivity_information all) all.
Proof.
  intros H Hn; destruct (metadata_of_spec mds H) as (all & L & -> & N).
  rewrite nth_error_map in Hn; destruct (nth_error all rank) as [md0|] eqn:E; [|discriminate].
  injection Hn as <-; destruct (N _ _ E) as [A B]; exists all, md0; auto.
Qed.

(** *** C24 *)
Lemma c24_fills mds rank md : metadata_of procs vs qs is = Ok mds -> nth_error mds rank = Some md ->
  fills (map q_array (time_integration_quantities md)) (time_integration_array_size md) /\
  fills (map q_array (time_independent_quantities md)) (time_independent_input_size md).
Proof.
  intros H Hn; destruct (metadata_of_nth _ _ _ H Hn) as (all & md0 & _ & P & -> & _).
  apply process_ok in P as (_ & L1 & _ & L2 & _); cbn.
  split; apply laid_out_fills, mark_laid_out; assumption.
Qed.

Lemma Forall2_nth {A B} (P : A -> B -> Prop) l l' : Forall2 P l l' -> forall j b, nth_error l' j = Some b ->
  exists a, nth_error l j = Some a /\ P a b.
Proof. induction 1; intros [|j] c; cbn; try discriminate; [intros [= <-]; eauto|auto]. Qed.

Lemma exactly_one_in {A} (P : A -> Prop) l x : exactly_one P l x -> In x l /\ P x.
Proof. intros (l1 & l2 & -> & H & _); split; [apply in_or_app; right; left; reflexivity|exact H]. Qed.

Lemma tag_in ts tags q : tag_intersection ts tags = [q] -> In q ts /\ In q tags.
Proof.
  unfold tag_intersection; intros H.
  assert (I : In q (nodup string_dec (filter (fun t => mem t ts) tags))) by (rewrite H; left; reflexivity).
  apply nodup_In, filter_In in I; rewrite mem_iff in I; tauto.
Qed.

Lemma with_tags_in tags l v : In v (with_tags tags l) <-> In v l /\ exists t, In t tags /\ has t v.
Proof.
  unfold with_tags; rewrite filter_In, existsb_exists; unfold has.
  split; intros [H (t & A & B)]; (split; [exact H|exists t; rewrite mem_iff in *; auto]).
Qed.

Lemma c24_sources mds rank md : metadata_of procs vs qs is = Ok mds -> nth_error mds rank = Some md ->
  Forall (ti_source vs rank) (time_integration_quantities md).
Proof.
  intros H Hn; destruct (metadata_of_nth _ _ _ H Hn) as (all & md0 & _ & P & -> & _).
  apply process_ok in P as (F & _).
  apply Forall_forall; intros q Iq; apply In_nth_error in Iq as (j & Iq); cbn in Iq.
  apply mark_nth in Iq as (q0 & Iq & E1 & E2 & E3).
  destruct (Forall2_nth _ _ _ F _ _ Iq) as (v & Iv & (Et & D)).
  unfold ti_source; cbv zeta; rewrite E1, E2, E3; unfold set_distributed; cbn [local end_index start_index shape global_shape].
  destruct (is_local rank v) eqn:Lv.
  - left; destruct D as (n & m & Ac); destruct (ac_output _ _ _ _ _ _ Ac) as (u & sh & X & Es & _ & D & _ & Eo).
    apply exactly_one_in in X as [X So]; apply in_tagged in X as (X1 & X2 & X3).
    destruct D as (D1 & D2 & D3 & D4 & D5).
    split; [exact D3|]; split; [congruence|].
    exists u; repeat split; auto; congruence.
  - right; rewrite D; cbn; split; [reflexivity|]; split; [reflexivity|]; split; [reflexivity|].
    apply nth_error_In, with_tags_in in Iv as [Iv _]; unfold outputs_of in Iv; apply filter_In in Iv as [Iv _].
    exists v; repeat split; auto.
    + apply (tag_in _ _ _ Et).
    + unfold is_local in Lv; destruct (local_shape rank v); [discriminate|reflexivity].
Qed.

Lemma c24_ind_sources mds rank md : metadata_of procs vs qs is = Ok mds -> nth_error mds rank = Some md ->
  Forall (ind_source vs rank) (time_independent_quantities md).
Proof.
  intros H Hn; destruct (metadata_of_nth _ _ _ H Hn) as (all & md0 & _ & P & -> & _).
  apply process_ok in P as (_ & _ & F & _).
  apply Forall_forall; intros q Iq; apply In_nth_error in Iq as (j & Iq); cbn in Iq.
  apply mark_nth in Iq as (q0 & Iq & E1 & E2 & E3).
  destruct (Forall2_nth _ _ _ F _ _ Iq) as (v & Iv & (Et & D)).
  unfold ind_source; cbv zeta; rewrite E1, E2, E3; unfold set_distributed; cbn [local end_index start_index shape global_shape].
  destruct (is_local rank v) eqn:Lv.
  - left; destruct D as (n & m & Ac); destruct (ai_input _ _ _ _ _ _ Ac) as (u & sh & X & Es & _ & D & _ & Eo).
    apply exactly_one_in in X as [X So]; apply in_tagged in X as (X1 & X2 & X3).
    destruct D as (D1 & D2 & D3 & D4 & D5).
    split; [exact D3|]; split; [congruence|].
    exists u; repeat split; auto; congruence.
  - right; rewrite D; cbn; split; [reflexivity|]; split; [reflexivity|]; split; [reflexivity|].
    apply nth_error_In, with_tags_in in Iv as [Iv _]; unfold inputs_of in Iv; apply filter_In in Iv as [Iv _].
    exists v; repeat split; auto.
    + apply (tag_in _ _ _ Et).
    + unfold is_local in Lv; destruct (local_shape rank v); [discriminate|reflexivity].
Qed.

(** Order and names are the same on all processes. *)
Lemma Forall2_names {X} (P : variable -> quantity X -> Prop) ts l ql :
  (forall v q, P v q -> tag_intersection ts (v_tags v) = [q_name q]) ->
  Forall2 P l ql -> map q_name ql = flat_map (fun v => tag_intersection ts (v_tags v)) l.
Proof. intros H; induction 1; cbn; [reflexivity|]; rewrite (H _ _ H0), IHForall2; reflexivity. Qed.

Lemma process_names rank md : process_metadata rank vs qs is = Ok md ->
  map q_name (time_integration_quantities md)
    = flat_map (fun v => tag_intersection qs (v_tags v)) (with_tags qs (outputs_of vs)) /\
  map q_name (time_independent_quantities md)
    = flat_map (fun v => tag_intersection is (v_tags v)) (with_tags is (inputs_of vs)).
Proof.
  intros P; apply process_ok in P as (F & _ & F2 & _); split.
  - eapply Forall2_names; [|exact F]; intros v q [A _]; exact A.
  - eapply Forall2_names; [|exact F2]; intros v q [A _]; exact A.
Qed.

Lemma c24_same_names mds r r' md md' : metadata_of procs vs qs is = Ok mds ->
  nth_error mds r = Some md -> nth_error mds r' = Some md' ->
  map q_name (time_integration_quantities md) = map q_name (time_integration_quantities md') /\
  map q_name (time_independent_quantities md) = map q_name (time_independent_quantities md').
Proof.
  intros H Hn Hn'; destruct (metadata_of_nth _ _ _ H Hn) as (all & md0 & _ & P & -> & _).
  destruct (metadata_of_nth _ _ _ H Hn') as (all' & md0' & _ & P' & -> & _).
  apply process_names in P as [A B], P' as [A' B']; cbn; rewrite !mark_names; split; congruence.
Qed.

(** *** C26 *)
Lemma c26_accepted mds rank md : metadata_of procs vs qs is = Ok mds -> nth_error mds rank = Some md ->
  Forall (fun q => local (q_array q) = true ->
    (exists v, exactly_one (of_quantity rank (q_name q) stage_output) vs v) /\ paired rank vs (q_name q))
    (time_integration_quantities md).
Proof.
  intros H Hn; destruct (metadata_of_nth _ _ _ H Hn) as (all & md0 & _ & P & -> & _).
  apply process_ok in P as (F & _).
  apply Forall_forall; intros q Iq; apply In_nth_error in Iq as (j & Iq); cbn in Iq.
  apply mark_nth in Iq as (q0 & Iq & E1 & E2 & E3).
  destruct (Forall2_nth _ _ _ F _ _ Iq) as (v & Iv & (Et & D)); rewrite E1, E3; cbn.
  destruct (is_local rank v) eqn:Lv; [|rewrite D; discriminate].
  intros _; destruct D as (n & m & Ac); exact (accepted_proper _ _ _ _ _ _ Ac).
Qed.

Lemma c26_rejects rank v q : In v vs -> v_output v = true -> here rank v -> In q qs -> has q v ->
  ~ ((exists u, exactly_one (of_quantity rank q stage_output) vs u) /\ paired rank vs q /\
     (forall q', In q' qs -> has q' v -> q' = q)) ->
  exists e, process_metadata rank vs qs is = Err e /\ (e = SetupError \/ e = IndexError).
Proof.
  intros Iv Ov Hv Iq Hq N.
  destruct (process_metadata rank vs qs is) as [md|e] eqn:P; [exfalso|exists e; split; [reflexivity|]].
  - apply N; clear N.
    apply process_ok in P as (F & _).
    assert (W : In v (with_tags qs (outputs_of vs))).
    { apply with_tags_in; split; [apply filter_In; auto|eauto]. }
    assert (X : exists qu, made_from rank vs qs v qu).
    { clear - F W; induction F; [contradiction|]; destruct W as [<- |W]; eauto. }
    destruct X as (qu & Et & D).
    assert (U : forall q', In q' qs -> has q' v -> q' = q_name qu).
    { intros q' A B; assert (C : In q' (tag_intersection qs (v_tags v))).
      { apply nodup_In, filter_In; rewrite mem_iff; auto. }
      rewrite Et in C; destruct C as [C|[]]; auto. }
    assert (E : q = q_name qu) by (apply U; assumption).
    assert (Lv : is_local rank v = true).
    { unfold is_local, here in *; destruct (local_shape rank v); congruence. }
    rewrite Lv, <- E in D; destruct D as (n & m & Ac).
    destruct (accepted_proper _ _ _ _ _ _ Ac) as [A B]; split; [exact A|]; split; [exact B|].
    intros q' C1 C2; rewrite E; auto.
  - eapply process_errors; exact P.
Qed.

End All.
