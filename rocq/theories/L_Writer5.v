(** Lemmas: portions that the metadata describe. *)
From Coq Require Import String.
From Coq Require Import List Bool Arith Lia.
From Verif Require Import Base M_State M_Metadata M_Writer SpecMetadata SpecWriter L_Metadata L_Metadata2 L_Metadata3
  L_MPI3 L_Writer L_Writer4.
From Verif Require L_Heap L_Writer3.
Import ListNotations.
Local Open Scope string_scope.
Local Open Scope nat_scope.
Local Open Scope list_scope.

Lemma outputs_nodup vs : NoDup (map v_name vs) -> NoDup (map v_name (outputs_of vs)).
Proof.
  intros Nm; unfold outputs_of; induction vs as [|y l IH]; cbn; [constructor|]; inversion Nm as [|? ? N1 N2]; subst.
  destruct (v_output y); cbn; [|auto]; constructor; [|auto].
  intros I; apply in_map_iff in I as (z & Ez & Iz); apply filter_In in Iz as [Iz _]; apply N1; rewrite <- Ez; apply in_map, Iz.
Qed.

Section Problem.
Variables (vs : list variable) (qs : list string).
Hypothesis WT : well_tagged vs qs.

(** What the metadata of a process say about a quantity. *)
Definition describes (r : nat) (v : variable) (a : array_metadata) : Prop :=
  global_shape a = v_global_shape v /\
  match local_shape r v with
  | None => shape a = [0] /\ start_index a = 0 /\ end_index a = 0 /\ local a = false
  | Some sh => shape a = sh /\ end_index a = start_index a + prod sh /\ local a = true /\
      ((sh = v_global_shape v /\ global_start_index a = 0 /\ global_end_index a = prod sh) \/
       (sh <> v_global_shape v /\ global_start_index a = list_sum (firstn r (var_sizes v)) /\
        global_end_index a = list_sum (firstn r (var_sizes v)) + prod sh))
  end.

Lemma array_described procs is mds v j r md qu :
  named procs vs -> metadata_of procs vs qs is = Ok mds -> nth_error mds r = Some md ->
  nth_error (time_integration_quantities md) j = Some qu ->
  In v vs -> v_output v = true -> In (q_name qu) qs -> has (q_name qu) v -> describes r v (q_array qu).
Proof.
  intros [Nm Lp] M Er Eq Iv Ov Iq Hq.
  destruct (metadata_of_nth _ _ _ _ _ _ _ M Er) as (all & md0 & Hrk & P & -> & _).
  apply process_ok in P as (F & _); cbn in Eq; apply mark_nth in Eq as (q0 & Eq & E1 & _ & E3).
  destruct (Forall2_nth _ _ _ F _ _ Eq) as (w & Iw & (Et & D)).
  rewrite E3; unfold set_distributed, describes; cbn [global_start_index global_end_index global_shape shape start_index end_index local].
  apply nth_error_In, with_tags_in in Iw as [Iw _]; apply filter_In in Iw as [Iw Ow].
  destruct (wt_output _ _ WT _ Iq) as (x & Xx & Sx).
  rewrite <- E1 in Et; apply tag_in in Et as [_ Hw].
  assert (v = x) by (apply (exactly_one_unique _ _ _ _ Xx); auto); subst x.
  assert (w = v) by (apply (exactly_one_unique _ _ _ _ Xx); auto); subst w.
  unfold is_local in D; destruct (local_shape r v) as [sh|] eqn:Es.
  - destruct D as (n & m & Ac); rewrite <- E1 in Ac.
    destruct (ac_output _ _ _ _ _ _ Ac) as (u & sh' & Xu & Es' & _ & De & C & _).
    apply exactly_one_in in Xu as [Iu Su]; apply in_tagged in Iu as (Iu & Hu & _).
    assert (u = v).
    { apply (exactly_one_unique _ _ _ _ Xx); auto; split; auto; apply (wt_inputs _ _ WT (q_name qu)); auto. }
    subst u; rewrite Es in Es'; injection Es' as <-.
    destruct De as (De1 & De2 & De3 & De4 & De5).
    split; [exact De2|]; split; [exact De1|]; split; [congruence|]; split; [exact De3|].
    unfold create_local_array_metadata in C; rewrite (same_kind v vs Ov) in C.
    destruct (shape_eqb sh (v_global_shape v)) eqn:Eg; cbn [negb bind] in C.
    + apply shape_eqb_iff in Eg; left; injection C as <-; cbn; auto.
    + right; split; [intros E; apply shape_eqb_iff in E; congruence|].
      rewrite position_nth in C; [|apply outputs_nodup, Nm|apply filter_In; auto].
      injection C as <-; cbn; split; [reflexivity|]; f_equal.
      transitivity (match local_shape r v with Some s => prod s | None => 0 end); [|rewrite Es; reflexivity].
      unfold var_sizes, local_shape; apply (map_nth (fun p => match p with Some s => prod s | None => 0 end) (v_parts v) None r).
  - rewrite D; cbn; split; [|auto].
    destruct q0 as [nm a0 t0]; cbn in *; subst; reflexivity.
Qed.
End Problem.

Section Spreading.
Context {T : Type}.
Implicit Types (x y : list T) (ps : list (array_metadata * list T)).

Lemma slice_concat (L : list (list T)) : forall r l, nth_error L r = Some l ->
  slice (list_sum (map (@length T) (firstn r L))) (list_sum (map (@length T) (firstn r L)) + length l) (concat L) = l.
Proof.
  induction L as [|a L IH]; intros [|r] l E; try discriminate.
  - injection E as ->; unfold slice; cbn; rewrite Nat.sub_0_r, firstn_app, Nat.sub_diag, firstn_all, firstn_O, app_nil_r; reflexivity.
  - cbn [nth_error] in E; specialize (IH r l E); unfold slice in *; cbn [firstn map list_sum fold_right concat].
    change (fold_right Nat.add 0 (map (@length T) (firstn r L))) with (list_sum (map (@length T) (firstn r L))).
    rewrite skipn_app, skipn_all2 by lia; cbn [app].
    replace (length a + list_sum (map (@length T) (firstn r L)) - length a) with (list_sum (map (@length T) (firstn r L))) by lia.
    etransitivity; [|exact IH]; f_equal; lia.
Qed.
Lemma concat_cover (L : list (list T)) : forall k, k < length (concat L) -> exists r l, nth_error L r = Some l /\
  list_sum (map (@length T) (firstn r L)) <= k < list_sum (map (@length T) (firstn r L)) + length l.
Proof.
  induction L as [|a L IH]; intros k Hk; [cbn in Hk; lia|]; cbn [concat] in Hk; rewrite app_length in Hk.
  destruct (Nat.lt_ge_cases k (length a)) as [K|K].
  - exists 0, a; split; [reflexivity|]; cbn; lia.
  - destruct (IH (k - length a) ltac:(lia)) as (r & l & E & B); exists (S r), l; split; [exact E|].
    cbn [firstn map list_sum fold_right].
    change (fold_right Nat.add 0 (map (@length T) (firstn r L))) with (list_sum (map (@length T) (firstn r L))); lia.
Qed.

Lemma sum_firstn ks : forall r k, nth_error ks r = Some k -> list_sum (firstn r ks) + k <= list_sum ks.
Proof.
  induction ks as [|a ks IH]; intros [|r] k E; try discriminate.
  - injection E as ->; cbn; lia.
  - cbn [firstn list_sum fold_right]; specialize (IH r k E); unfold list_sum in *; cbn; lia.
Qed.

(** The process number [r] has the description and state [p]. *)
Definition placed (v : variable) ps : Prop := length ps = length (v_parts v) /\
  forall r p, nth_error ps r = Some p -> describes r v (fst p) /\
    length (local_part (fst p) (snd p)) = end_index (fst p) - start_index (fst p).

Lemma split_spread v ps : split_rows v -> placed v ps ->
  spread ps (concat (map (fun p => local_part (fst p) (snd p)) ps)) /\
  length (concat (map (fun p => local_part (fst p) (snd p)) ps)) = prod (v_global_shape v).
Proof.
  intros (n & rest & ks & Eg & Sk & F) [Lp H].
  set (L := map (fun p => local_part (fst p) (snd p)) ps).
  assert (Lk : length ks = length ps) by (rewrite Lp; symmetry; exact (Forall2_len _ _ _ F)).
  assert (K : forall r p, nth_error ps r = Some p -> exists k, nth_error ks r = Some k /\
     length (local_part (fst p) (snd p)) = k * prod rest /\
     (local_shape r v = Some (k :: rest) \/ (local_shape r v = None /\ k = 0))).
  { intros r p E; destruct (H r p E) as [[_ D] Hl].
    destruct (nth_error ks r) as [k|] eqn:Ek.
    2:{ apply nth_error_None in Ek; assert (r < length ps) by (apply nth_error_Some; congruence); lia. }
    destruct (Forall2_nth _ _ _ F _ _ Ek) as (q & Eq & Q).
    assert (Els : local_shape r v = q) by (unfold local_shape; apply nth_error_nth; exact Eq).
    exists k; split; [reflexivity|]; rewrite Hl.
    destruct Q as [->|[-> ->]]; rewrite Els in D |- *.
    - destruct D as (_ & -> & _); split; [rewrite prod_cons; lia|auto].
    - destruct D as (_ & -> & -> & _); split; [lia|auto]. }
  assert (Lens : map (@length T) L = map (fun k => k * prod rest) ks).
  { apply L_Heap.list_ext; intros r; unfold L; rewrite !nth_error_map.
    destruct (nth_error ps r) as [p|] eqn:E; cbn [option_map].
    - destruct (K r p E) as (k & -> & -> & _); reflexivity.
    - apply nth_error_None in E; rewrite (proj2 (nth_error_None ks r)) by lia; reflexivity. }
  assert (Scale : forall l, list_sum (map (fun k => k * prod rest) l) = list_sum l * prod rest).
  { clear; induction l as [|k l IH]; [reflexivity|]; cbn; unfold list_sum in IH; rewrite IH; lia. }
  assert (Sums : forall r, list_sum (map (@length T) (firstn r L)) = list_sum (firstn r ks) * prod rest).
  { intros r; rewrite <- firstn_map, Lens, firstn_map; apply Scale. }
  assert (Ly : length (concat L) = prod (v_global_shape v)).
  { rewrite Eg, prod_cons, <- Sk, <- Scale, <- Lens; clear; induction L as [|l L IH]; [reflexivity|].
    cbn [concat map list_sum fold_right]; rewrite app_length, IH; reflexivity. }
  assert (Sizes : forall r, list_sum (firstn r (var_sizes v)) = list_sum (firstn r ks) * prod rest).
  { intros r; rewrite <- Scale, <- firstn_map; f_equal; f_equal; unfold var_sizes; clear - F.
    induction F as [|q k l l' [->|[-> ->]] F IH]; cbn [map]; [reflexivity| |]; rewrite IH; reflexivity. }
  assert (Ranges : forall r p, nth_error ps r = Some p -> ~ nothing (fst p) -> exists k, nth_error ks r = Some k /\
    shape (fst p) = k :: rest /\ global_start_index (fst p) = list_sum (firstn r ks) * prod rest /\
    global_end_index (fst p) = (list_sum (firstn r ks) + k) * prod rest).
  { intros r p E Hn; destruct (K r p E) as (k & Ek & _ & Q); destruct (H r p E) as [[_ D] _]; exists k; split; [exact Ek|].
    destruct Q as [Q|[Q _]]; rewrite Q in D.
    - destruct D as (D1 & _ & _ & [(D2 & D3 & D4)|(_ & D3 & D4)]); split; try exact D1.
      + rewrite Eg in D2; injection D2 as D2; pose proof (sum_firstn ks r k Ek) as B.
        replace (list_sum (firstn r ks)) with 0 by lia; rewrite D3, D4, prod_cons; lia.
      + rewrite D3, D4, Sizes, prod_cons; lia.
    - destruct D as (D1 & _); destruct Hn; unfold nothing; rewrite D1; left; reflexivity. }
  split; [|exact Ly]; split.
  - apply Forall_forall; intros p I; apply In_nth_error in I; destruct I as [r E]; cbv zeta.
    destruct (H r p E) as [[D _] _]; split; [rewrite D, <- Ly; reflexivity|].
    destruct (in_dec Nat.eq_dec 0 (shape (fst p))) as [Z|Z]; [left; exact Z|right].
    destruct (Ranges r p E Z) as (k & Ek & R1 & R2 & R3); split.
    + exists n, rest, (list_sum (firstn r ks)), k; rewrite D; repeat (split; [assumption|]); split; [|auto].
      rewrite <- Sk; apply sum_firstn, Ek.
    + assert (EL : nth_error L r = Some (local_part (fst p) (snd p))) by (unfold L; rewrite nth_error_map, E; reflexivity).
      rewrite <- (slice_concat L r _ EL) at 1; rewrite Sums, R2, R3; f_equal.
      destruct (K r p E) as (k' & Ek' & -> & _); rewrite Ek in Ek'; injection Ek' as <-; lia.
  - intros i Li; destruct (concat_cover L i Li) as (r & l & El & B).
    unfold L in El; rewrite nth_error_map in El; destruct (nth_error ps r) as [p|] eqn:E; [|discriminate]; injection El as <-.
    exists p; split; [eapply nth_error_In; exact E|].
    destruct (K r p E) as (k & Ek & Lk' & Q); rewrite Sums, Lk' in B.
    assert (Hn : ~ nothing (fst p)).
    { intros Z; destruct (H r p E) as [[_ D] _]; destruct Q as [Q|[Q ->]]; [|lia]; rewrite Q in D; destruct D as (D1 & _).
      unfold nothing in Z; rewrite D1 in Z; apply prod_zero in Z; rewrite prod_cons in Z; lia. }
    split; [exact Hn|]; destruct (Ranges r p E Hn) as (k' & Ek' & _ & -> & ->); rewrite Ek in Ek'; injection Ek' as <-; lia.
Qed.

Lemma copied_spread v ps y : copied v -> placed v ps -> length y = prod (v_global_shape v) ->
  Forall (fun p => local (fst p) = true -> local_part (fst p) (snd p) = y) ps -> spread ps y.
Proof.
  intros (Hne & I & F) [Lp H] Ly A; rewrite Forall_forall in F, A.
  assert (Q : forall r p, nth_error ps r = Some p ->
    (nothing (fst p)) \/ (global_start_index (fst p) = 0 /\ global_end_index (fst p) = length y /\
      shape (fst p) = v_global_shape v /\ local (fst p) = true)).
  { intros r p E; destruct (H r p E) as [[_ D] _].
    assert (Lr : r < length (v_parts v)) by (rewrite <- Lp; apply nth_error_Some; congruence).
    destruct (F (local_shape r v)) as [Q|Q]; [unfold local_shape; apply nth_In; exact Lr| |]; rewrite Q in D.
    - destruct D as (D1 & _ & D3 & [(_ & D4 & D5)|(D4 & _)]); [|congruence]; right; rewrite D4, D5, Ly; auto.
    - left; destruct D as (D1 & _); unfold nothing; rewrite D1; left; reflexivity. }
  split.
  - apply Forall_forall; intros p Ip; cbv zeta; pose proof Ip as Ip'; apply In_nth_error in Ip; destruct Ip as [r E].
    destruct (H r p E) as [[D _] _]; split; [rewrite D, Ly; reflexivity|].
    destruct (Q r p E) as [Z|(Q1 & Q2 & Q3 & Q4)]; [left; exact Z|right; split].
    + destruct (v_global_shape v) as [|n rest] eqn:Eg; [contradiction|].
      exists n, rest, 0, n; rewrite D, Q1, Q2, Ly, prod_cons; repeat split; auto.
    + rewrite (A p Ip' Q4), Q1, Q2; unfold slice; cbn; rewrite Nat.sub_0_r, firstn_all; reflexivity.
  - intros k Lk; apply In_nth_error in I; destruct I as [r I].
    destruct (nth_error ps r) as [p|] eqn:E.
    2:{ apply nth_error_None in E; assert (r < length (v_parts v)) by (apply nth_error_Some; congruence); lia. }
    exists p; split; [eapply nth_error_In; exact E|].
    destruct (H r p E) as [[_ D] _].
    assert (El : local_shape r v = Some (v_global_shape v)) by (unfold local_shape; apply nth_error_nth; exact I).
    rewrite El in D; destruct D as (D1 & _ & _ & [(_ & D4 & D5)|(D4 & _)]); [|congruence].
    split; [|rewrite D4, D5; lia].
    unfold nothing; rewrite D1; intros Z; apply prod_zero in Z; lia.
Qed.
End Spreading.

(** *** All quantities of a problem *)
Section All.
Context {T : Type}.
Variables (vs : list variable) (qs : list string).
Hypothesis WT : well_tagged vs qs.

Lemma whole_spread procs is mds (xs ys : list (list T)) :
  named procs vs -> metadata_of procs vs qs is = Ok mds -> 0 < procs ->
  length xs = length mds ->
  (forall r md x, nth_error mds r = Some md -> nth_error xs r = Some x -> length x = time_integration_array_size md) ->
  Forall (fun md => length (time_integration_quantities md) = length ys) mds ->
  (forall j y, nth_error ys j = Some y -> exists v q, In v vs /\ v_output v = true /\ In q qs /\ has q v /\
     Forall (fun md => option_map q_name (nth_error (time_integration_quantities md) j) = Some q) mds /\
     whole_of v (portions mds xs j) y) ->
  spread_all mds xs ys.
Proof.
  intros Nm M Hp Lx Lf Lq H; split; [exact Lx|]; split; [exact Lq|]; intros j y Ey.
  destruct (H j y Ey) as (v & q & Iv & Ov & Iq & Hq & Fq & W).
  assert (Hj : forall r md, nth_error mds r = Some md -> exists qu, nth_error (time_integration_quantities md) j = Some qu /\ q_name qu = q).
  { intros r md E; rewrite Forall_forall in Fq; specialize (Fq md (nth_error_In _ _ E)).
    destruct (nth_error (time_integration_quantities md) j) as [qu|]; [|discriminate]; cbn in Fq; injection Fq as Fq; eauto. }
  assert (Pn : forall r, nth_error (portions mds xs j) r =
     match nth_error mds r, nth_error xs r with
     | Some md, Some x => option_map (fun qu => (q_array qu, x)) (nth_error (time_integration_quantities md) j)
     | _, _ => None end).
  { unfold portions; clear - Hj; revert xs; induction mds as [|md l IH]; intros [|x xs] [|r]; cbn [combine flat_map nth_error]; try reflexivity.
    - destruct (nth_error l r); reflexivity.
    - destruct (Hj 0 md eq_refl) as (qu & E & _); cbn [fst snd]; rewrite E; reflexivity.
    - destruct (Hj 0 md eq_refl) as (qu & E & _); cbn [fst snd]; rewrite E; cbn [app nth_error].
      apply IH; intros r' md' E'; exact (Hj (S r') md' E'). }
  assert (Lm : length mds = procs) by (destruct (metadata_of_spec _ _ _ _ _ M) as (all & L & _); exact L).
  assert (Lp : length (portions mds xs j) = length mds).
  { apply Nat.le_antisymm.
    - apply nth_error_None; rewrite Pn, (proj2 (nth_error_None mds _)) by lia; reflexivity.
    - apply Nat.nlt_ge; intros Hlt.
      destruct (nth_error mds (length (portions mds xs j))) as [md|] eqn:E1; [|apply nth_error_None in E1; lia].
      destruct (nth_error xs (length (portions mds xs j))) as [x|] eqn:E2; [|apply nth_error_None in E2; lia].
      destruct (Hj _ _ E1) as (qu & E3 & _).
      pose proof (Pn (length (portions mds xs j))) as E; rewrite E1, E2, E3 in E; cbn in E.
      assert (length (portions mds xs j) < length (portions mds xs j)) by (apply nth_error_Some; congruence); lia. }
  assert (Pl : placed v (portions mds xs j)).
  { split.
    - rewrite Lp, Lm; destruct Nm as [_ Nm]; rewrite Forall_forall in Nm; symmetry; apply Nm, Iv.
    - intros r p E; rewrite Pn in E.
      destruct (nth_error mds r) as [md|] eqn:E1; [|discriminate]; destruct (nth_error xs r) as [x|] eqn:E2; [|discriminate].
      destruct (Hj _ _ E1) as (qu & E3 & En); rewrite E3 in E; injection E as <-; cbn [fst snd].
      split; [eapply (array_described vs qs WT); try eassumption; rewrite En; assumption|].
      destruct (c24_fills _ _ _ _ _ _ _ M E1) as [(_ & B & _) _].
      specialize (B j (q_array qu)); rewrite nth_error_map, E3 in B; specialize (B eq_refl).
      rewrite <- (Lf r md x E1 E2) in B.
      unfold local_part, slice; rewrite firstn_length, skipn_length; lia. }
  exists (portions mds xs j); split.
  - destruct W as [[W ->]|(W & Ly & A)]; [apply (split_spread v); assumption|eapply copied_spread; eassumption].
  - apply Forall2_of_nth.
    + rewrite Lp, combine_length; lia.
    + intros r p [md x] E E'; rewrite Pn in E; rewrite L_Writer3.combine_nth_error in E'.
      destruct (nth_error mds r) as [md'|]; [|discriminate]; destruct (nth_error xs r) as [x'|]; [|discriminate].
      injection E' as -> ->; destruct (nth_error (time_integration_quantities md) j) as [qu|] eqn:E3; [|discriminate].
      injection E as <-; exists qu; auto.
Qed.
End All.
