(** Lemmas: properly tagged problems are accepted; global ranges. *)
From Coq Require Import String.
From Coq Require Import List Bool Arith Lia Permutation.
From Verif Require Import Base M_Metadata SpecMetadata L_Metadata L_Metadata2.
Import ListNotations.
Local Open Scope nat_scope.
Local Open Scope list_scope.

(** *** Positions *)
Lemma position_lt v l : In v l -> position (v_name v) l < length l.
Proof.
  induction l as [|u l IH]; cbn; [contradiction|]; intros [->|H].
  - rewrite String.eqb_refl; lia.
  - destruct (String.eqb _ _); [lia|]; apply IH in H; lia.
Qed.

Lemma position_nth v l : NoDup (map v_name l) -> In v l -> nth_error l (position (v_name v) l) = Some v.
Proof.
  induction l as [|u l IH]; cbn; [contradiction|]; intros N [->|H].
  - rewrite String.eqb_refl; reflexivity.
  - inversion N; subst; destruct (String.eqb (v_name u) (v_name v)) eqn:E; [|cbn; auto].
    apply String.eqb_eq in E; exfalso; apply H2; rewrite E; apply in_map, H.
Qed.

Lemma same_kind v vs : v_output v = true -> filter (fun u => Bool.eqb (v_output u) (v_output v)) vs = outputs_of vs.
Proof. intros ->; apply filter_ext; intros u; destruct (v_output u); reflexivity. Qed.

Lemma create_runs rank vs n m v sh : In v vs -> v_output v = true ->
  exists a, create_local_array_metadata rank vs n m v sh = Ok a.
Proof.
  intros I O; unfold create_local_array_metadata; rewrite (same_kind v vs O).
  destruct (negb _); [|cbn; eauto].
  destruct (nth_error _ _) eqn:E; [cbn; eauto|].
  apply nth_error_None in E; assert (Iv : In v (outputs_of vs)) by (apply filter_In; auto).
  apply position_lt in Iv; lia.
Qed.

Lemma scan_runs {A B} (body : B -> A -> res B) (P : A -> Prop) :
  (forall b a, P a -> exists b', body b a = Ok b') ->
  forall l, Forall P l -> forall b, exists b', scan body b l = Ok b'.
Proof.
  intros H l F; induction F as [|a l Pa F IH]; cbn; intros b; [eauto|].
  destruct (H b a Pa) as (b' & E); rewrite E; cbn; apply IH.
Qed.

Lemma exactly_one_unique {A} (P : A -> Prop) l x y : exactly_one P l x -> In y l -> P y -> y = x.
Proof.
  intros (l1 & l2 & -> & _ & F1 & F2) I Py; rewrite Forall_forall in F1, F2.
  apply in_app_iff in I as [I|[I|I]]; [exfalso; exact (F1 y I Py)|auto|exfalso; exact (F2 y I Py)].
Qed.

Lemma exactly_one_intro {A} (P Q : A -> Prop) l x : exactly_one P l x -> Q x ->
  (forall y, In y l -> Q y -> P y) -> exactly_one Q l x.
Proof.
  intros (l1 & l2 & -> & _ & F1 & F2) Qx H; rewrite Forall_forall in F1, F2.
  exists l1, l2; split; [reflexivity|]; split; [exact Qx|].
  split; apply Forall_forall; intros y I Qy; [apply (F1 y I)|apply (F2 y I)]; apply H; auto;
    apply in_or_app; [left|right; right]; exact I.
Qed.

(** *** Properly tagged problems *)
Section Complete.
Variables (vs : list variable) (qs : list string).
Hypothesis WT : well_tagged vs qs.

Lemma extract_runs rank q v n : In q qs -> In v vs -> v_output v = true -> has q v -> is_local rank v = true ->
  exists r, extract_time_integration_quantity rank vs q n = Ok r.
Proof.
  intros Iq Iv Ov Hv Lv; unfold extract_time_integration_quantity.
  match goal with |- exists r, bind (scan _ ?f0 _) _ = _ => destruct (scan_runs (scan_ti rank vs)
    (fun u => In u vs /\ has q u /\ here rank u)) with (l := tagged_with rank vs q) (b := f0) as (f & S) end.
  - intros f u (Iu & Hu & Lu); unfold scan_ti.
    destruct (mem "stage_output_var" (v_tags u)) eqn:E.
    + unfold here in Lu; destruct (local_shape rank u) as [sh|]; [|congruence].
      assert (Ou : v_output u = true).
      { apply (wt_inputs _ _ WT q); auto; apply mem_iff; exact E. }
      destruct (create_runs rank vs (f_size f) (f_size f + prod sh) u sh Iu Ou) as (a & ->); cbn; eauto.
    + destruct (mem "step_input_var" (v_tags u)), (mem "accumulated_stage_var" (v_tags u)); eauto.
  - apply Forall_forall; intros u; apply in_tagged.
  - rewrite S; cbn [bind].
    assert (Lh : here rank v) by (unfold here, is_local in *; destruct (local_shape rank v); congruence).
    destruct (wt_output _ _ WT q Iq) as (w & Xw & Sw).
    assert (v = w) by (apply (exactly_one_unique _ _ _ _ Xw); auto); subst w.
    assert (X : exactly_one (of_quantity rank q stage_output) vs v).
    { apply (exactly_one_intro _ _ _ _ Xw); [repeat split; auto|].
      intros y Iy (A1 & _ & A3); split; [apply (wt_inputs _ _ WT q); auto|exact A1]. }
    apply (one_tagged _ bout) in X; [|apply bout_iff].
    apply (filter_one _ bout) in X; [|apply bout_iff].
    pose proof (scan_ti_counts _ _ _ _ _ S) as (C1 & C2 & C3 & _); cbn in C1, C2, C3; rewrite Nat.add_0_r in C1, C2, C3.
    rewrite X in C1; cbn in C1; rewrite C1; cbn [Nat.ltb Nat.leb].
    destruct (scan_ti_one _ _ _ _ _ _ X S) as (sh & a & _ & _ & E & _); rewrite E.
    assert (D : (f_steps f = 0 /\ f_accumulated f = 0) \/ (f_steps f = 1 /\ f_accumulated f = 1)).
    { destruct (wt_pair _ _ WT q rank Iq) as [[A B]|(s & t & A & B)]; [left|right]; rewrite C2, C3.
      - apply (none_tagged _ bstep) in A; [|apply bstep_iff]; apply (none_tagged _ bacc) in B; [|apply bacc_iff].
        apply (filter_none _ bstep) in A; [|apply bstep_iff]; apply (filter_none _ bacc) in B; [|apply bacc_iff].
        rewrite A, B; auto.
      - apply (one_tagged _ bstep) in A; [|apply bstep_iff]; apply (one_tagged _ bacc) in B; [|apply bacc_iff].
        apply (filter_one _ bstep) in A; [|apply bstep_iff]; apply (filter_one _ bacc) in B; [|apply bacc_iff].
        rewrite A, B; auto. }
    destruct D as [[-> ->]|[-> ->]]; cbn; eauto.
Qed.

Lemma nodup_all_same (l : list string) q : NoDup l -> In q l -> (forall x, In x l -> x = q) -> l = [q].
Proof.
  destruct l as [|a [|b l]]; cbn; intros N I H; [contradiction| |].
  - rewrite (H a); auto.
  - inversion N; subst; exfalso; apply H2; left; rewrite (H a), (H b); auto.
Qed.

Lemma one_tag v q : In v vs -> v_output v = true -> In q qs -> has q v -> tag_intersection qs (v_tags v) = [q].
Proof.
  intros Iv Ov Iq Hq; apply nodup_all_same.
  - apply NoDup_nodup.
  - apply nodup_In, filter_In; rewrite mem_iff; auto.
  - intros x H; apply nodup_In, filter_In in H as [A B]; apply mem_iff in B.
    symmetry; apply (wt_one _ _ WT v); auto.
Qed.

Lemma outputs_run rank acc : exists r, scan (scan_output rank vs qs) acc (with_tags qs (outputs_of vs)) = Ok r.
Proof.
  apply (scan_runs _ (fun v => In v (with_tags qs (outputs_of vs)))); [|apply Forall_forall; auto].
  intros [s ql] v I; apply with_tags_in in I as [I (q & Iq & Hq)]; apply filter_In in I as [Iv Ov].
  unfold scan_output; rewrite (one_tag v q); auto.
  destruct (is_local rank v) eqn:L; [|eauto].
  destruct (extract_runs rank q v (fst (s, ql)) Iq Iv Ov Hq L) as ([m qu] & ->); cbn; eauto.
Qed.

Lemma time_runs rank : well_timed rank vs -> exists tv, search_for_time_variable rank vs = Ok tv.
Proof.
  intros W; unfold search_for_time_variable; rewrite with_tags_one.
  set (b := fun u => mem "time_variable" (v_tags u) && negb (v_output u)).
  assert (Hb : forall x, b x = true <-> v_output x = false /\ has "time_variable" x).
  { intros x; unfold b, has; rewrite andb_true_iff, negb_true_iff, mem_iff; tauto. }
  assert (E : filter (fun v => mem "time_variable" (v_tags v)) (inputs_of vs) = filter b vs).
  { unfold inputs_of, b; clear; induction vs as [|u l IH]; cbn; [reflexivity|].
    destruct (v_output u); cbn; [rewrite andb_false_r; exact IH|].
    destruct (mem _ _); cbn; rewrite IH; reflexivity. }
  rewrite E; destruct W as [W|(v & W & Lv & Sv)].
  - apply (filter_none _ b) in W; [|exact Hb]; rewrite W; cbn; eauto.
  - apply (filter_one _ b) in W; [|exact Hb]; rewrite W; cbn.
    assert (L : is_local rank v = true) by (unfold is_local, here in *; destruct (local_shape rank v); congruence).
    rewrite L, Sv; cbn; eauto.
Qed.

Lemma all_ok_runs {A B} (f : A -> res B) l : (forall a, In a l -> exists b, f a = Ok b) -> exists x, all_ok (map f l) = Ok x.
Proof.
  induction l as [|a l IH]; cbn; intros H; [eauto|].
  destruct (H a (or_introl eq_refl)) as (b & ->); destruct IH as (x & ->); [auto|]; cbn; eauto.
Qed.

Lemma count_one q v : exactly_one (fun u => v_output u = true /\ has q u) vs v -> In q qs ->
  count_occ string_dec (flat_map (fun v => tag_intersection qs (v_tags v)) (with_tags qs (outputs_of vs))) q = 1.
Proof.
  intros X Iq.
  assert (G : forall l, (forall u, In u l -> In u vs /\ v_output u = true) ->
    count_occ string_dec (flat_map (fun v => tag_intersection qs (v_tags v)) l) q
      = length (filter (fun u => mem q (v_tags u)) l)).
  { induction l as [|u l IH]; cbn; intros H; [reflexivity|].
    rewrite count_occ_app, IH by auto.
    destruct (H u (or_introl eq_refl)) as [Iu Ou].
    destruct (mem q (v_tags u)) eqn:E; cbn.
    - apply mem_iff in E; rewrite (one_tag u q); auto; cbn; destruct (string_dec q q); [reflexivity|congruence].
    - replace (count_occ string_dec (tag_intersection qs (v_tags u)) q) with 0; [reflexivity|].
      symmetry; apply count_occ_not_In; intros I; apply nodup_In, filter_In in I as [I _].
      apply mem_false in E; contradiction. }
  rewrite G.
  - set (b := fun u => v_output u && mem q (v_tags u)).
    assert (Hb : forall x, b x = true <-> v_output x = true /\ has q x).
    { intros x; unfold b, has; rewrite andb_true_iff, mem_iff; tauto. }
    apply (filter_one _ b) in X; [|exact Hb].
    replace (filter (fun u => mem q (v_tags u)) (with_tags qs (outputs_of vs))) with (filter b vs); [rewrite X; reflexivity|].
    unfold with_tags, outputs_of, b; clear - Iq; induction vs as [|u l IH]; cbn; [reflexivity|].
    destruct (v_output u); cbn; [|exact IH].
    destruct (mem q (v_tags u)) eqn:E; cbn.
    + replace (existsb _ (v_tags u)) with true; cbn; [rewrite E, IH; reflexivity|].
      symmetry; apply existsb_exists; exists q; rewrite mem_iff in *; auto.
    + destruct (existsb _ (v_tags u)); cbn; [rewrite E|]; exact IH.
  - intros u I; apply with_tags_in in I as [I _]; apply filter_In in I; exact I.
Qed.

Lemma c26_complete procs : (forall rank, rank < procs -> well_timed rank vs) ->
  exists mds, metadata_of procs vs qs [] = Ok mds /\
    forall rank md q, nth_error mds rank = Some md -> In q qs ->
      count_occ string_dec (map q_name (time_integration_quantities md)) q = 1.
Proof.
  intros T.
  destruct (all_ok_runs (fun rank => process_metadata rank vs qs []) (seq 0 procs)) as (all & E).
  - intros rank I; apply in_seq in I; unfold process_metadata, extract_time_integration_metadata.
    destruct (outputs_run rank (0, [])) as ([s ql] & ->); cbn [bind].
    destruct (time_runs rank) as (tv & ->); [apply T; lia|]; cbn; eauto.
  - exists (map (add_distributivity_information all) all).
    assert (M : metadata_of procs vs qs [] = Ok (map (add_distributivity_information all) all))
      by (unfold metadata_of; rewrite E; reflexivity).
    split; [exact M|].
    intros rank md q N Iq; destruct (metadata_of_nth _ _ _ _ _ _ _ M N) as (al & md0 & _ & P & -> & _).
    apply process_names in P as [P _]; cbn; rewrite mark_names, P.
    destruct (wt_output _ _ WT q Iq) as (v & X & _); apply (count_one q v); auto.
Qed.

(** *** Global ranges *)
Definition same_positions (r : nat * nat) (a b : nat) : Prop := forall k, fst r <= k < snd r <-> a <= k < b.

Lemma partition_of_sizes (sizes : list nat) (rs : list (nat * nat)) :
  length rs = length sizes ->
  (forall j r, nth_error rs j = Some r -> same_positions r (list_sum (firstn j sizes)) (list_sum (firstn j sizes) + nth j sizes 0) /\
     snd r <= list_sum sizes) ->
  partitions rs (list_sum sizes).
Proof.
  intros L H; split; [|split].
  - intros k Hk.
    assert (X : exists j, j < length sizes /\ list_sum (firstn j sizes) <= k < list_sum (firstn j sizes) + nth j sizes 0).
    { clear - Hk; unfold list_sum in *; revert k Hk; induction sizes as [|s sizes IH]; cbn; intros k Hk; [lia|].
      destruct (Nat.lt_ge_cases k s) as [K|K]; [exists 0; cbn; lia|].
      destruct (IH (k - s) ltac:(lia)) as (j & A & B); exists (S j); cbn; lia. }
    destruct X as (j & Hj & B).
    destruct (nth_error rs j) as [r|] eqn:E; [|apply nth_error_None in E; lia].
    exists j, r; split; [exact E|]; apply (proj1 (H _ _ E)), B.
  - intros j r E; apply (H _ _ E).
  - intros j j' r r' k E E' K K'; apply (proj1 (H _ _ E)) in K; apply (proj1 (H _ _ E')) in K'.
    assert (M : forall (s : list nat) (i i' : nat), i < i' -> list_sum (firstn i s) + nth i s 0 <= list_sum (firstn i' s)).
    { clear; induction s as [|x s IH]; intros [|i] [|i'] Hlt; cbn; try lia.
      pose proof (IH i i' ltac:(lia)); unfold list_sum in *; lia. }
    destruct (Nat.lt_trichotomy j j') as [C|[C|C]]; [|exact C|]; apply (M sizes) in C; lia.
Qed.

Lemma sum_nth sizes r : list_sum (firstn r sizes) + nth r sizes 0 <= list_sum sizes.
Proof.
  revert r; induction sizes as [|s l IH]; intros [|r]; cbn; try lia.
  specialize (IH r); unfold list_sum in *; lia.
Qed.

Lemma c50_partition procs is mds v q j :
  named procs vs -> metadata_of procs vs qs is = Ok mds ->
  In v vs -> v_output v = true -> In q qs -> has q v -> split_up v ->
  (forall md, In md mds -> option_map q_name (nth_error (time_integration_quantities md) j) = Some q) ->
  partitions (map (global_range j) mds) (prod (v_global_shape v)).
Proof.
  intros [Nm Lp] M Iv Ov Iq Hq Sp Hj.
  rewrite <- Sp; unfold split_up in Sp; apply partition_of_sizes.
  - unfold var_sizes; rewrite !map_length; destruct (metadata_of_spec _ _ _ _ _ M) as (all & -> & _).
    rewrite Forall_forall in Lp; symmetry; apply Lp, Iv.
  - intros r rg Hr; rewrite nth_error_map in Hr; destruct (nth_error mds r) as [md|] eqn:Er; [|discriminate].
    injection Hr as <-; specialize (Hj md (nth_error_In _ _ Er)).
    destruct (metadata_of_nth _ _ _ _ _ _ _ M Er) as (all & md0 & Hrk & P & -> & _).
    apply process_ok in P as (F & _); unfold global_range; cbn in Hj |- *.
    destruct (nth_error (mark all 0 _) j) as [qu|] eqn:Eq; [|discriminate]; cbn in Hj; injection Hj as Hn.
    apply mark_nth in Eq as (q0 & Eq & E1 & _ & E3).
    destruct (Forall2_nth _ _ _ F _ _ Eq) as (w & Iw & (Et & D)).
    rewrite E3; unfold set_distributed; cbn [global_start_index global_end_index].
    apply nth_error_In, with_tags_in in Iw as [Iw _]; apply filter_In in Iw as [Iw Ow].
    destruct (wt_output _ _ WT q Iq) as (x & Xx & Sx).
    rewrite <- E1, Hn in Et; apply tag_in in Et as [_ Hw].
    assert (v = x) by (apply (exactly_one_unique _ _ _ _ Xx); auto); subst x.
    assert (w = v) by (apply (exactly_one_unique _ _ _ _ Xx); auto); subst w.
    pose proof (sum_nth (var_sizes v) r) as Sn.
    assert (Sz : nth r (var_sizes v) 0 = match local_shape r v with Some s => prod s | None => 0 end).
    { unfold var_sizes, local_shape; apply (map_nth (fun p => match p with Some s => prod s | None => 0 end) (v_parts v) None r). }
    unfold is_local in D; destruct (local_shape r v) as [sh|] eqn:Es.
    + destruct D as (n & m & Ac); rewrite <- E1, Hn in Ac.
      destruct (ac_output _ _ _ _ _ _ Ac) as (u & sh' & Xu & Es' & _ & _ & C & _).
      apply exactly_one_in in Xu as [Iu Su]; apply in_tagged in Iu as (Iu & Hu & _).
      assert (u = v) by (apply (exactly_one_unique _ _ _ _ Xx); auto; split; auto; apply (wt_inputs _ _ WT q); auto).
      subst u; rewrite Es in Es'; injection Es' as <-.
      unfold create_local_array_metadata in C; rewrite (same_kind v vs Ov) in C.
      destruct (shape_eqb sh (v_global_shape v)) eqn:Eg; cbn [negb bind] in C.
      * injection C as <-; cbn; apply shape_eqb_iff in Eg; rewrite <- Eg in Sp.
        rewrite Sz in *; split; [intros k; cbn; lia|lia].
      * rewrite position_nth in C; [|clear - Nm; unfold outputs_of; induction vs as [|y l IH]; cbn; [constructor|];
            inversion Nm; subst; destruct (v_output y); cbn; [|auto]; constructor; [|auto];
            intros I; apply H1, in_map_iff in I as (z & Ez & Iz) ||
              (apply in_map_iff in I as (z & Ez & Iz); apply filter_In in Iz as [Iz _]; apply H1; rewrite <- Ez; apply in_map, Iz)
          |apply filter_In; auto].
        injection C as <-; cbn; split; [intros k; cbn; tauto|exact Sn].
    + rewrite D; cbn; rewrite Sz; split; [intros k; cbn; lia|lia].
Qed.

(** The mark "distributed". *)
Lemma c50_distributed procs is mds r md j qu :
  metadata_of procs vs qs is = Ok mds -> nth_error mds r = Some md ->
  nth_error (time_integration_quantities md) j = Some qu ->
  (distributed (q_array qu) = true <->
   exists r' md' qu', nth_error mds r' = Some md' /\ nth_error (time_integration_quantities md') j = Some qu' /\
     shape (q_array qu') <> global_shape (q_array qu')).
Proof.
  intros M Hr Hq.
  destruct (metadata_of_nth _ _ _ _ _ _ _ M Hr) as (all & md0 & _ & P & -> & Ha & E).
  cbn in Hq; apply mark_nth in Hq as (q0 & Hq & _ & _ & E3); cbn in E3; rewrite E3; cbn [distributed set_distributed].
  apply process_names in P as [Pn _].
  assert (Ln : forall r' m', nth_error all r' = Some m' -> map q_name (time_integration_quantities m') = map q_name (time_integration_quantities md0)).
  { intros r' m' H'; rewrite Pn.
    assert (H2 : nth_error mds r' = Some (add_distributivity_information all m')) by (rewrite E, nth_error_map, H'; reflexivity).
    destruct (metadata_of_spec _ _ _ _ _ M) as (al2 & _ & E2 & N2).
    destruct (metadata_of_nth _ _ _ _ _ _ _ M H2) as (al3 & m3 & _ & P3 & E4 & _).
    apply process_names in P3 as [P3 _]; rewrite <- P3.
    apply (f_equal time_integration_quantities) in E4; cbn in E4; apply (f_equal (map q_name)) in E4.
    rewrite !mark_names in E4; exact E4. }
  assert (Lj : j < length (time_integration_quantities md0)) by (apply nth_error_Some; congruence).
  assert (At : forall r' m', nth_error all r' = Some m' -> exists q', nth_error (time_integration_quantities m') j = Some q' /\
     nth_error (arrays m') j = Some (q_array q')).
  { intros r' m' H'; apply Ln in H'; apply (f_equal (@length _)) in H'; rewrite !map_length in H'.
    destruct (nth_error (time_integration_quantities m') j) as [q'|] eqn:Eq; [|apply nth_error_None in Eq; lia].
    exists q'; split; [reflexivity|]; unfold arrays; rewrite nth_error_app1 by (rewrite map_length; lia).
    rewrite nth_error_map, Eq; reflexivity. }
  rewrite negb_true_iff; unfold shapes_match_everywhere; split.
  - intros Hf.
    assert (X : exists m', In m' all /\ match nth_error (arrays m') j with Some a => shape_eqb (shape a) (global_shape a) | None => true end = false).
    { clear - Hf; induction all as [|m' l IH]; cbn in Hf; [discriminate|].
      apply andb_false_iff in Hf as [Hf|Hf]; [exists m'; split; [left; reflexivity|exact Hf]|].
      destruct (IH Hf) as (m2 & A & B); exists m2; split; [right; exact A|exact B]. }
    destruct X as (m' & I & X); apply In_nth_error in I as (r' & I); destruct (At _ _ I) as (q' & A1 & A2); rewrite A2 in X.
    assert (K : j < length (mark all 0 (time_integration_quantities m'))) by (rewrite mark_length; apply nth_error_Some; congruence).
    apply nth_error_Some in K; destruct (nth_error (mark all 0 (time_integration_quantities m')) j) as [q2|] eqn:E2; [|congruence].
    exists r', (add_distributivity_information all m'), q2; split; [rewrite E, nth_error_map, I; reflexivity|].
    split; [exact E2|]; apply mark_nth in E2 as (q3 & E2 & _ & _ & E5); rewrite A1 in E2; injection E2 as <-.
    rewrite E5; cbn; intros C; apply shape_eqb_iff in C; congruence.
  - intros (r' & md' & q' & H1 & H2 & H3).
    rewrite E, nth_error_map in H1; destruct (nth_error all r') as [m'|] eqn:Em; [|discriminate]; injection H1 as <-.
    cbn in H2; apply mark_nth in H2 as (q2 & H2 & _ & _ & E5); rewrite E5 in H3; cbn in H3.
    destruct (At _ _ Em) as (q3 & A1 & A2); rewrite H2 in A1; injection A1 as <-.
    apply not_true_iff_false; intros C; rewrite forallb_forall in C; specialize (C m' (nth_error_In _ _ Em)).
    cbv beta in C; rewrite A2 in C; apply shape_eqb_iff in C; contradiction.
Qed.

End Complete.
