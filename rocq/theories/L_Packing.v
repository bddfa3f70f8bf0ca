(** Lemmas about packing and about the OpenMDAO-backed ODE (C25, C39, C40). *)
From Coq Require Import String.
From Coq Require Import List Bool Arith Lia.
From Verif Require Import Base M_ODE M_Metadata M_Components SpecMetadata SpecComponents M_Packing SpecPacking
  L_Components L_Metadata L_Metadata2.
Import ListNotations.
Local Open Scope string_scope.
Local Open Scope nat_scope.
Local Open Scope list_scope.

(** *** Arrays cut into ranges *)
Lemma skipn_skipn {T} m n (l : list T) : skipn m (skipn n l) = skipn (m + n) l.
Proof.
  revert l; induction n as [|n IH]; intros l; [now rewrite Nat.add_0_r|].
  destruct l as [|x l]; [now rewrite !skipn_nil|].
  rewrite Nat.add_succ_r. cbn. apply IH.
Qed.

Section Cuts.
Context {T : Type}.
Definition cut (r : nat * nat) (arr : list T) : list T := slice (fst r) (snd r) arr.

Fixpoint lay (n : nat) (l : list (nat * nat)) (m : nat) : Prop :=
  match l with
  | [] => n = m
  | (s, e) :: l' => (s = n /\ n <= e /\ lay e l' m) \/ (s = 0 /\ e = 0 /\ lay n l' m)
  end.

Lemma lay_le l : forall n m, lay n l m -> n <= m.
Proof.
  induction l as [|[s e] l IH]; cbn; intros n m; [lia|].
  intros [(-> & H & L)|(-> & -> & L)]; apply IH in L; lia.
Qed.
Lemma lay_range l : forall n m r, lay n l m -> In r l ->
  (n <= fst r /\ fst r <= snd r /\ snd r <= m) \/ (fst r = 0 /\ snd r = 0).
Proof.
  induction l as [|[s e] l IH]; cbn; intros n m r; [tauto|].
  intros [(-> & H & L)|(-> & -> & L)] [<-|I]; cbn; [left|..|right; auto|].
  - apply lay_le in L; lia.
  - destruct (IH _ _ _ L I); [left; lia|auto].
  - destruct (IH _ _ _ L I); [left; lia|auto].
Qed.

Lemma cut_alt n e (arr : list T) : cut (n, e) arr = skipn n (firstn e arr).
Proof. unfold cut, slice; cbn. now rewrite skipn_firstn_comm. Qed.
Lemma cut_empty (arr : list T) : cut (0, 0) arr = [].
Proof. reflexivity. Qed.
Lemma cut_length n e (arr : list T) : e <= length arr -> length (cut (n, e) arr) = e - n.
Proof. intros H. unfold cut, slice; cbn. rewrite firstn_length, skipn_length; lia. Qed.

(** Copying arrays (or nothing) into the ranges. *)
Definition reads (items : list (option (list T) * (nat * nat))) (arr : list T) : res (list T) :=
  scan (fun arr p => match fst p with
                     | Some x => copy_into (fst (snd p)) (snd (snd p)) x arr
                     | None => Ok arr end) arr items.

Lemma copy_into_inv n e x (arr arr' : list T) : n <= e -> e <= length arr -> copy_into n e x arr = Ok arr' ->
  length x = e - n /\ arr' = firstn n arr ++ x ++ skipn e arr /\ length arr' = length arr.
Proof.
  unfold copy_into, slice_set. intros H1 H2.
  destruct (length x =? _) eqn:E; [|discriminate]. intros [= <-]. apply Nat.eqb_eq in E.
  pose proof (cut_length n e arr H2) as L; unfold cut in L; cbn [fst snd] in L. rewrite L in E.
  split; [exact E|]. split; [reflexivity|]. rewrite !app_length, firstn_length, skipn_length; lia.
Qed.
Lemma copy_into_empty x (arr arr' : list T) : copy_into 0 0 x arr = Ok arr' -> x = [] /\ arr' = arr.
Proof.
  unfold copy_into, slice, slice_set; cbn. destruct x; cbn; [|discriminate]. intros [= <-]; auto.
Qed.

Definition taken (arr arr' : list T) (p : option (list T) * (nat * nat)) : Prop :=
  match fst p with
  | Some x => length x = snd (snd p) - fst (snd p) /\ cut (snd p) arr' = x
  | None => cut (snd p) arr' = cut (snd p) arr
  end.

Lemma cut_skipn_eq n m r (arr arr' : list T) : skipn n arr = skipn n arr' ->
  (n <= fst r /\ fst r <= snd r /\ snd r <= m) \/ (fst r = 0 /\ snd r = 0) -> cut r arr = cut r arr'.
Proof.
  intros E [H|[H1 H2]]; destruct r as [s e]; cbn in *.
  - unfold cut, slice; cbn. f_equal.
    assert (Y : forall c : list T, skipn s c = skipn (s - n) (skipn n c))
      by (intros c; rewrite skipn_skipn; f_equal; lia).
    rewrite (Y arr), E, <- Y. reflexivity.
  - subst; reflexivity.
Qed.

Lemma reads_inv items : forall n m arr arr', lay n (map snd items) m -> m <= length arr ->
  reads items arr = Ok arr' ->
  length arr' = length arr /\ firstn n arr' = firstn n arr /\ skipn m arr' = skipn m arr /\
  Forall (taken arr arr') items.
Proof.
  induction items as [|[o [s e]] items IH]; intros n m arr arr' L Hm R.
  - cbn in *. injection R as <-. subst. repeat split; constructor.
  - cbn [map snd] in L. unfold reads in R; cbn [scan fst snd] in R.
    apply bind_ok in R as (arr1 & R1 & R2). fold (reads items arr1) in R2.
    cbn [lay] in L. destruct L as [(-> & He & L)|(-> & -> & L)].
    + pose proof (lay_le _ _ _ L) as Lm.
      assert (X : length arr1 = length arr /\ firstn n arr1 = firstn n arr /\ skipn e arr1 = skipn e arr /\
                  taken arr arr1 (o, (n, e))).
      { destruct o as [x|]; [|injection R1 as <-; repeat split].
        apply copy_into_inv in R1 as (Lx & -> & Ll); [|lia|lia].
        assert (Ln : length (firstn n arr) = n) by (rewrite firstn_length; lia).
        split; [exact Ll|]. split; [rewrite firstn_app, Ln, Nat.sub_diag; cbn; rewrite app_nil_r;
          apply firstn_all2; lia|]. split.
        - rewrite app_assoc, skipn_app, skipn_all2, app_length, Ln, Lx by (rewrite app_length; lia).
          replace (e - (n + (e - n))) with 0 by lia. reflexivity.
        - cbn. split; [exact Lx|]. unfold cut, slice; cbn.
          rewrite skipn_app, Ln, Nat.sub_diag, skipn_all2 by lia. cbn.
          rewrite firstn_app, Lx, Nat.sub_diag; cbn. rewrite app_nil_r. apply firstn_all2; lia. }
      destruct X as (X1 & X2 & X3 & X4).
      destruct (IH _ _ arr1 _ L ltac:(lia) R2) as (A1 & A2 & A3 & A4).
      split; [lia|]. split.
      { assert (Y : forall c : list T, firstn n c = firstn n (firstn e c))
          by (intros c; rewrite firstn_firstn; f_equal; lia).
        rewrite (Y arr'), A2, <- Y. exact X2. }
      split.
      { assert (Y : forall c : list T, skipn m c = skipn (m - e) (skipn e c))
          by (intros c; rewrite skipn_skipn; f_equal; lia).
        rewrite A3, (Y arr1), X3, <- Y. reflexivity. }
      constructor.
      * unfold taken in *; cbn [fst snd] in *. rewrite (cut_alt n e arr'), A2, <- cut_alt. exact X4.
      * rewrite Forall_forall in *. intros [o' r'] I. specialize (A4 _ I). unfold taken in *; cbn [fst snd] in *.
        destruct o'; [exact A4|]. rewrite A4. apply (cut_skipn_eq e m); [exact X3|].
        apply (lay_range _ _ _ _ L), (in_map snd _ _ I).
    + assert (X : arr1 = arr /\ taken arr arr1 (o, (0, 0))).
      { destruct o as [x|]; [|injection R1 as <-; split; reflexivity].
        apply copy_into_empty in R1 as (-> & ->). split; [reflexivity|split; reflexivity]. }
      destruct X as (-> & X4).
      destruct (IH _ _ _ _ L Hm R2) as (A1 & A2 & A3 & A4).
      split; [exact A1|]; split; [exact A2|]; split; [exact A3|]; constructor; [|exact A4].
      unfold taken in *; cbn [fst snd] in *; destruct o; [split; [apply X4|]|reflexivity].
      rewrite <- (proj2 X4). reflexivity.
Qed.

Lemma reads_ok items : forall n m arr, lay n (map snd items) m -> m <= length arr ->
  Forall (fun p => match fst p with Some x => length x = snd (snd p) - fst (snd p) | None => True end) items ->
  exists arr', reads items arr = Ok arr'.
Proof.
  induction items as [|[o [s e]] items IH]; intros n m arr L Hm F.
  - eexists; reflexivity.
  - inversion F as [|? ? F1 F2]; subst. cbn [map snd fst] in *. cbn [lay] in L.
    destruct L as [(-> & He & L)|(-> & -> & L)].
    + pose proof (lay_le _ _ _ L).
      assert (X : exists arr1, match o with Some x => copy_into n e x arr | None => Ok arr end = Ok arr1 /\
                  length arr1 = length arr).
      { destruct o as [x|]; [|eauto]. unfold copy_into. rewrite F1.
        pose proof (cut_length n e arr) as Lc; unfold cut in Lc; cbn [fst snd] in Lc. rewrite Lc, Nat.eqb_refl by lia.
        eexists; split; [reflexivity|]. unfold slice_set; rewrite !app_length, firstn_length, skipn_length; lia. }
      destruct X as (arr1 & X1 & X2).
      destruct (IH _ _ arr1 L ltac:(lia) F2) as (arr' & R). exists arr'.
      unfold reads; cbn [scan fst snd]. rewrite X1; exact R.
    + destruct (IH _ _ arr L Hm F2) as (arr' & R). exists arr'.
      unfold reads; cbn [scan fst snd]. destruct o as [x|]; [|exact R].
      destruct x; [|discriminate]. unfold copy_into; cbn. exact R.
Qed.

Lemma cuts_eq l : forall n m (a b : list T), lay n l m -> length a = m -> length b = m ->
  (forall r, In r l -> cut r a = cut r b) -> skipn n a = skipn n b.
Proof.
  induction l as [|[s e] l IH]; cbn [lay]; intros n m a b L La Lb H.
  - subst. rewrite !skipn_all2 by lia. reflexivity.
  - destruct L as [(-> & He & L)|(-> & -> & L)].
    + pose proof (lay_le _ _ _ L).
      assert (X : forall c : list T, skipn n c = cut (n, e) c ++ skipn e c).
      { intros c. unfold cut, slice; cbn. rewrite <- (firstn_skipn (e - n) (skipn n c)) at 1.
        f_equal. rewrite skipn_skipn. f_equal; lia. }
      rewrite (X a), (X b), (H (n, e)) by (left; reflexivity). f_equal.
      apply (IH _ m); auto. intros; apply H; right; assumption.
    + apply (IH _ m); auto. intros; apply H; right; assumption.
Qed.
End Cuts.

(** Ranges of the metadata. *)
Definition rng (a : array_metadata) : nat * nat := (start_index a, end_index a).
Lemma laid_out_lay l : forall n m, laid_out n l m -> lay n (map rng l) m.
Proof.
  induction l as [|a l IH]; cbn; intros n m; [auto|].
  destruct (local a).
  - intros (-> & E & L). left. split; [reflexivity|]. split; [lia|auto].
  - intros ((-> & -> & _) & L). right; auto.
Qed.
Lemma laid_out_shape l : forall n m a, laid_out n l m -> In a l -> end_index a - start_index a = prod (M_Metadata.shape a).
Proof.
  induction l as [|b l IH]; cbn; intros n m a; [tauto|].
  destruct (local b) eqn:E; [intros (S & En & L)|intros ((S & En & Sh) & L)]; intros [<-|I]; eauto.
  - lia.
  - rewrite S, En, Sh; reflexivity.
Qed.

(** *** Assignments to vectors *)
Section Writes.
Context {T : Type}.

Lemma update_inv {E} (f : E -> E -> res E) n x (v v' : omvec E) : update f n x v = Ok v' ->
  exists y z, get n v = Ok y /\ f y x = Ok z /\ get n v' = Ok z /\
    (forall m, m <> n -> get m v' = get m v) /\ names v' = names v.
Proof.
  revert v'; induction v as [|[k y] v IH]; intros v' U; cbn [update] in U; [discriminate|].
  cbn [get]. destruct (String.eqb_spec n k) as [<-|H].
  - apply bind_ok in U as (z & F & U). injection U as <-. exists y, z. cbn. rewrite String.eqb_refl.
    repeat split; auto. intros m Hm. destruct (String.eqb_spec m n); [contradiction|reflexivity].
  - apply bind_ok in U as (w & U & E1). injection E1 as <-.
    destruct (IH _ U) as (y' & z & A & B & C & D & F). exists y', z.
    repeat split; auto.
    + cbn. destruct (String.eqb_spec n k); [contradiction|exact C].
    + intros m Hm. cbn. rewrite (D m Hm). reflexivity.
    + unfold names in *; cbn. now rewrite F.
Qed.

Lemma assign_inv n x (v v' : vec T) : assign n x v = Ok v' ->
  layout v' = layout v /\ (exists y, get n v = Ok y /\ length y = length x) /\ get n v' = Ok x /\
  (forall m, m <> n -> get m v' = get m v).
Proof.
  intros U. pose proof U as U'. apply update_inv in U as (y & z & A & B & C & D & _).
  destruct (length y =? length x) eqn:E; [|discriminate]. injection B as <-. apply Nat.eqb_eq in E.
  split; [|eauto]. clear -U'. unfold assign in U'.
  revert v' U'; induction v as [|[k y] v IH]; intros v' U; cbn [update] in U; [discriminate|].
  destruct (String.eqb n k).
  - apply bind_ok in U as (z & F & U). injection U as <-.
    destruct (length y =? length x) eqn:E; [|discriminate]. injection F as <-. apply Nat.eqb_eq in E.
    cbn. now rewrite E.
  - apply bind_ok in U as (w & U & E1). injection E1 as <-. unfold layout in *; cbn. now rewrite (IH _ U).
Qed.

Lemma assign_ok n x (v : vec T) y : get n v = Ok y -> length y = length x -> exists v', assign n x v = Ok v'.
Proof.
  intros G L. unfold assign. induction v as [|[k z] v IH]; cbn [get update] in *; [discriminate|].
  destruct (String.eqb n k).
  - injection G as ->. rewrite L, Nat.eqb_refl. eexists; reflexivity.
  - destruct (IH G) as (v' & ->). eexists; reflexivity.
Qed.

Lemma fill_assign n t (v : vec T) : (forall x, get n v = Ok x -> length x = 1) ->
  fill n t v = assign n [t] v.
Proof.
  intros H. unfold fill, assign. induction v as [|[k z] v IH]; cbn [get update] in *; [reflexivity|].
  destruct (String.eqb n k).
  - specialize (H _ eq_refl). destruct z as [|a [|b z]]; try discriminate H. reflexivity.
  - rewrite IH by auto. reflexivity.
Qed.

Definition writes (W : list (string * list T)) (v : vec T) : res (vec T) :=
  scan (fun v p => assign (fst p) (snd p) v) v W.

Lemma writes_inv W : forall v v', writes W v = Ok v' ->
  layout v' = layout v /\
  (NoDup (map fst W) -> forall n x, In (n, x) W -> get n v' = Ok x) /\
  (forall m, ~ In m (map fst W) -> get m v' = get m v) /\
  (forall n x, In (n, x) W -> exists y, get n v = Ok y /\ length y = length x).
Proof.
  induction W as [|[k z] W IH]; intros v v' H; unfold writes in H; cbn [scan fst snd] in H.
  - injection H as <-. repeat split; intros; contradiction.
  - apply bind_ok in H as (v1 & A & B). fold (writes W v1) in B.
    apply assign_inv in A as (L & (y & G & Ly) & G1 & O).
    destruct (IH _ _ B) as (L' & I1 & I2 & I3). cbn [map fst].
    split; [congruence|]. split; [|split].
    + intros ND n x [[= <- <-]|I]; inversion ND; subst; auto.
      rewrite I2 by assumption. exact G1.
    + intros m Hm. rewrite I2 by (intros C; apply Hm; right; exact C).
      apply O. intros ->; apply Hm; left; reflexivity.
    + intros n x [[= <- <-]|I]; [eauto|]. destruct (I3 _ _ I) as (y1 & G' & Ly').
      destruct (string_dec n k) as [->|Hn]; [|rewrite O in G' by assumption; eauto].
      exists y; split; [exact G|]. rewrite G1 in G'. injection G' as <-. congruence.
Qed.

Lemma layout_get (v w : vec T) n x : layout v = layout w -> get n v = Ok x ->
  exists y, get n w = Ok y /\ length x = length y.
Proof. intros L G. exact (shape_get (@List.length T) v w n x L G). Qed.

Lemma writes_ok W : forall v, (forall n x, In (n, x) W -> exists y, get n v = Ok y /\ length y = length x) ->
  exists v', writes W v = Ok v'.
Proof.
  induction W as [|[k z] W IH]; intros v H; [eexists; reflexivity|].
  destruct (H k z (or_introl eq_refl)) as (y & G & L).
  destruct (assign_ok _ _ _ _ G L) as (v1 & A).
  destruct (IH v1) as (v' & B).
  - intros n x I. destruct (H n x (or_intror I)) as (y' & G' & L').
    apply assign_inv in A as (La & _). symmetry in La. destruct (layout_get _ _ _ _ La G') as (y2 & ? & ?).
    exists y2; split; [assumption|congruence].
  - exists v'. unfold writes; cbn [scan fst snd]. rewrite A. exact B.
Qed.

Lemma get_notin (v : vec T) n : ~ In n (map fst v) -> get n v = Err KeyError.
Proof.
  induction v as [|[k y] v IH]; cbn; [reflexivity|]. intros H.
  destruct (String.eqb_spec n k) as [->|]; [exfalso; apply H; auto|]. apply IH; tauto.
Qed.

(** Same names and same entries: same vector, if names are unique. *)
Lemma vec_eq (v w : vec T) : layout v = layout w -> NoDup (map fst v) ->
  (forall n x, get n v = Ok x -> get n w = Ok x) -> v = w.
Proof.
  revert w; induction v as [|[k x] v IH]; intros [|[k' y] w] L ND H; try discriminate; [reflexivity|].
  injection L as <- Lx L. inversion ND as [|? ? N1 N2]; subst.
  pose proof (H k x) as H1. cbn in H1. rewrite String.eqb_refl in H1. specialize (H1 eq_refl). injection H1 as <-.
  f_equal. apply IH; auto. intros n z G. specialize (H n z). cbn in H.
  destruct (String.eqb_spec n k) as [->|]; [|auto].
  rewrite get_notin in G by assumption. discriminate.
Qed.
End Writes.

(** *** Reading and writing all quantities *)
Section Quantities.
Context {T X : Type} (nm : quantity X -> string) (ql : list (quantity X)) (m : nat).
Hypothesis Lay : laid_out 0 (map q_array ql) m.

Let rd (v : vec T) (arr : list T) (q : quantity X) :=
  let* x := get (nm q) v in copy_into (start_index (q_array q)) (end_index (q_array q)) x arr.
Let wr (arr : list T) (v : vec T) (q : quantity X) :=
  let* x := reshape (M_Metadata.shape (q_array q)) (slice (start_index (q_array q)) (end_index (q_array q)) arr) in
  assign (nm q) x v.

Definition fits (v : vec T) : Prop := forall q, In q ql ->
  exists x, get (nm q) v = Ok x /\ length x = prod (M_Metadata.shape (q_array q)).

Lemma q_size q : In q ql -> end_index (q_array q) - start_index (q_array q) = prod (M_Metadata.shape (q_array q)).
Proof. intros I. eapply laid_out_shape; [exact Lay|]. apply in_map, I. Qed.
Lemma part_length q (arr : list T) : In q ql -> length arr = m ->
  length (part (q_array q) arr) = prod (M_Metadata.shape (q_array q)).
Proof.
  intros I L. rewrite <- (q_size q I). apply (cut_length (start_index (q_array q)) (end_index (q_array q)) arr).
  pose proof (laid_out_lay _ _ _ Lay) as Y. rewrite map_map in Y.
  destruct (lay_range _ _ _ (rng (q_array q)) Y) as [A|A]; [apply (in_map (fun q => rng (q_array q))), I|..];
    unfold rng in A; cbn in A; lia.
Qed.

Definition getd (n : string) (v : vec T) : list T := match get n v with Ok x => x | Err _ => [] end.

Lemma rd_reads v l : (forall q, In q l -> exists x, get (nm q) v = Ok x) -> forall arr,
  scan (rd v) arr l = reads (map (fun q => (Some (getd (nm q) v), rng (q_array q))) l) arr.
Proof.
  induction l as [|q l IH]; intros H arr; [reflexivity|]. unfold reads; cbn [scan map fst snd rng].
  unfold rd at 1, getd. destruct (H q (or_introl eq_refl)) as (x & ->). cbn [bind].
  destruct (copy_into _ _ x arr); cbn [bind]; [|reflexivity].
  apply IH. intros; apply H; right; assumption.
Qed.

Lemma read_quantities v arr : fits v -> length arr = m -> exists arr', scan (rd v) arr ql = Ok arr' /\
  length arr' = m /\ forall q, In q ql -> get (nm q) v = Ok (part (q_array q) arr').
Proof.
  intros F L. rewrite rd_reads by (intros q I; destruct (F q I) as (x & ? & _); eauto).
  pose proof (laid_out_lay _ _ _ Lay) as Y. rewrite map_map in Y.
  set (items := map (fun q => (Some (getd (nm q) v), rng (q_array q))) ql).
  assert (Z : lay 0 (map snd items) m) by (unfold items; rewrite map_map; exact Y).
  destruct (reads_ok items 0 m arr Z) as (arr' & R); [lia|..].
  { unfold items. rewrite Forall_map. apply Forall_forall. intros q I. cbn.
    destruct (F q I) as (x & G & Lx). unfold getd; rewrite G, Lx. symmetry. apply q_size, I. }
  exists arr'. split; [exact R|].
  destruct (reads_inv items 0 m arr arr' Z ltac:(lia) R) as (A & _ & _ & B).
  split; [lia|]. intros q I. unfold items in B. rewrite Forall_map, Forall_forall in B. specialize (B q I).
  cbn in B. destruct (F q I) as (x & G & _). unfold getd in B; rewrite G in B. rewrite G.
  destruct B as (_ & B). f_equal. symmetry. exact B.
Qed.

Lemma wr_writes arr l : (forall q, In q l -> In q ql) -> length arr = m -> forall v,
  scan (wr arr) v l = writes (map (fun q => (nm q, part (q_array q) arr)) l) v.
Proof.
  intros H L. induction l as [|q l IH]; intros v; [reflexivity|]. unfold writes; cbn [scan map fst snd].
  unfold wr at 1. unfold reshape.
  change (slice (start_index (q_array q)) (end_index (q_array q)) arr) with (part (q_array q) arr).
  rewrite part_length by auto using in_eq. rewrite Nat.eqb_refl. cbn [bind].
  destruct (assign _ _ v); cbn [bind]; [|reflexivity]. apply IH. intros; apply H; right; assumption.
Qed.

Lemma write_quantities v arr : NoDup (map nm ql) -> fits v -> length arr = m ->
  exists v', scan (wr arr) v ql = Ok v' /\ layout v' = layout v /\
    (forall q, In q ql -> get (nm q) v' = Ok (part (q_array q) arr)) /\
    (forall n, ~ In n (map nm ql) -> get n v' = get n v).
Proof.
  intros ND F L. rewrite wr_writes by auto.
  set (W := map (fun q => (nm q, part (q_array q) arr)) ql).
  assert (NW : map fst W = map nm ql) by (unfold W; rewrite map_map; reflexivity).
  destruct (writes_ok W v) as (v' & R).
  { intros n x I. apply in_map_iff in I as (q & [= <- <-] & I). destruct (F q I) as (y & G & Ly).
    exists y; split; [exact G|]. rewrite part_length by assumption. exact Ly. }
  exists v'. split; [exact R|]. destruct (writes_inv _ _ _ R) as (A & B & C & _).
  rewrite NW in *. split; [exact A|]. split; [|exact C].
  intros q I. apply B; [exact ND|]. apply (in_map (fun q => (nm q, part (q_array q) arr))), I.
Qed.

Lemma fits_layout v v' : layout v' = layout v -> fits v -> fits v'.
Proof.
  intros L F q I. destruct (F q I) as (x & G & Lx). symmetry in L.
  destruct (layout_get _ _ _ _ L G) as (y & G' & Ly). exists y; split; [exact G'|congruence].
Qed.

Lemma array_roundtrip v v' arr arr0 : NoDup (map nm ql) -> fits v -> length arr = m -> length arr0 = m ->
  scan (wr arr) v ql = Ok v' -> scan (rd v') arr0 ql = Ok arr.
Proof.
  intros ND F L L0 W. destruct (write_quantities v arr ND F L) as (v1 & E & A & B & _).
  rewrite W in E; injection E as <-.
  destruct (read_quantities v' arr0 (fits_layout _ _ A F) L0) as (arr' & R & L' & P).
  rewrite R. f_equal. apply (cuts_eq (map rng (map q_array ql)) 0 m arr' arr); auto using laid_out_lay.
  intros r I. rewrite map_map in I. apply in_map_iff in I as (q & <- & I).
  specialize (P q I). rewrite (B q I) in P. injection P as P. symmetry. exact P.
Qed.

Lemma vector_roundtrip v arr arr0 : NoDup (map nm ql) -> NoDup (map fst v) -> fits v -> length arr0 = m ->
  scan (rd v) arr0 ql = Ok arr -> scan (wr arr) v ql = Ok v.
Proof.
  intros ND NV F L0 R. destruct (read_quantities v arr0 F L0) as (arr' & E & L & P).
  rewrite R in E; injection E as <-.
  destruct (write_quantities v arr ND F L) as (v' & W & A & B & C).
  rewrite W. f_equal. symmetry. apply vec_eq; auto.
  intros n x G. destruct (in_dec string_dec n (map nm ql)) as [I|I]; [|rewrite C by assumption; exact G].
  apply in_map_iff in I as (q & <- & I). rewrite (B q I), <- (P q I). exact G.
Qed.
End Quantities.

(** *** The declared inputs and outputs *)
Definition io_names (io : list (string * nat) * list (string * nat)) := map fst (fst io) ++ map fst (snd io).

Lemma declare_inv k n s io io' : declare k n s io = Ok io' ->
  ~ In n (io_names io) /\
  io' = match k with input_kind => (fst io ++ [(n, s)], snd io) | output_kind => (fst io, snd io ++ [(n, s)]) end.
Proof.
  unfold declare. destruct (M_Metadata.mem n _) eqn:E; [discriminate|].
  apply mem_false in E. unfold io_names. split; [exact E|]. destruct k; congruence.
Qed.
Lemma declare_nodup k n s io io' : declare k n s io = Ok io' -> NoDup (io_names io) -> NoDup (io_names io').
Proof.
  intros H ND. apply declare_inv in H as (H & ->). unfold io_names in *.
  destruct k; cbn [fst snd]; rewrite map_app; cbn.
  - rewrite <- app_assoc. apply NoDup_Add with (a := n) (l := map fst (fst io) ++ map fst (snd io)); [apply Add_app|auto].
  - rewrite app_assoc. apply NoDup_Add with (a := n) (l := map fst (fst io) ++ map fst (snd io)).
    + rewrite <- (app_nil_r (map fst (fst io) ++ map fst (snd io))) at 1. apply Add_app.
    + auto.
Qed.
