(** Lemmas: [set], [deepcopy] and [__init__] of the state objects (C30). *)
From Coq Require Import String.
From Coq Require Import List Bool Arith Lia.
From Verif Require Import Base M_State M_Heap SpecHeap L_Heap.
Import ListNotations.
Local Open Scope nat_scope.
Local Open Scope list_scope.

Lemma apart_sym v w : apart v w -> apart w v.
Proof. intros A b k C1 C2; exact (A b k C2 C1). Qed.
Lemma separate_sym o o' : separate o o' -> separate o' o.
Proof. intros S k k' v v' A B; apply apart_sym; exact (S _ _ _ _ B A). Qed.
Lemma bufs_apart v w : buf v <> buf w -> apart v w.
Proof. intros D b k [B1 _] [B2 _]; congruence. Qed.

Section Objects.
Context {T : Type} {N : Num T}.
Implicit Types (h : heap T) (v w : view).

Fixpoint assigns h (l : list (view * view)) : res (heap T) :=
  match l with
  | [] => Ok h
  | (d, s) :: l' => let* h1 := assign h d s in assigns h1 l'
  end.
Definition vw (o : tiobj) (k : key) : view := match at_key o k with Some v => v | None => nowhere end.
Definition copied : list key := map Disc set_fields ++ [Suggestion; StepHistory; ErrorHistory].

Lemma ti_set_assigns h a b :
  ti_obj_set h a b = (let* h1 := assigns h (map (fun k => (vw a k, vw b k)) copied) in Ok (h1, a)).
Proof.
  destruct a as [da sa ha ea], b as [db sb hb eb]; unfold ti_obj_set, rk_obj_set, copied, set_fields.
  cbn [assign_fields map assigns app bind o_disc o_suggestion o_step_hist o_err_hist vw at_key].
  repeat (destruct (assign _ _ _) as [?|?]; cbn [bind]; [|reflexivity]); reflexivity.
Qed.

Lemma assigns_spec (l : list (view * view)) : forall h,
  (forall d s, In (d, s) l -> exists_in h d /\ exists_in h s /\ dims d = dims s) ->
  (forall d s d' s', In (d, s) l -> In (d', s') l -> apart d s') ->
  ForallOrdPairs (fun p q => apart (fst p) (fst q)) l ->
  exists h', assigns h l = Ok h' /\
    (forall d s, In (d, s) l -> read h' d = read h s) /\
    (forall w, exists_in h w -> exists_in h' w) /\
    (forall w, (forall d s, In (d, s) l -> apart d w) -> read h' w = read h w).
Proof.
  induction l as [|[d s] l IH]; intros h E A P.
  - exists h; repeat split; auto; intros ? ? [].
  - destruct (E d s (or_introl eq_refl)) as (Ed & Es & D).
    assert (Ln : length (read h s) = size d) by (rewrite read_length by exact Es; symmetry; apply same_size, D).
    inversion P as [|? ? P1 P2]; subst.
    destruct (IH (store h d (read h s))) as (h' & R & C & X & F).
    + intros d' s' I; destruct (E d' s' (or_intror I)) as (E1 & E2 & E3); repeat split; auto; apply store_exists; auto.
    + intros ? ? ? ? I I'; eapply A; right; eassumption.
    + exact P2.
    + exists h'; split; [cbn; unfold assign; rewrite (proj2 (dims_eqb_iff _ _) D); exact R|]; repeat split.
      * intros d' s' [I|I].
        -- injection I as <- <-; rewrite F; [apply read_store_same; auto|].
           intros d' s' I; rewrite Forall_forall in P1; apply apart_sym; exact (P1 (d', s') I).
        -- rewrite (C d' s' I); apply read_store_apart; auto; exact (A d s d' s' (or_introl eq_refl) (or_intror I)).
      * intros w W; apply X, store_exists; auto.
      * intros w W; rewrite F by (intros ? ? I; eapply W; right; exact I).
        apply read_store_apart; auto; eapply W; left; reflexivity.
Qed.

Lemma copied_some o k : In k copied -> exists v, at_key o k = Some v /\ vw o k = v.
Proof.
  intros I; unfold vw; assert (X : at_key o k <> None).
  { cbn in I; repeat (destruct I as [<-|I]; [discriminate|]); contradiction. }
  destruct (at_key o k); [eauto|contradiction].
Qed.
Lemma copied_all k : k <> EmbeddedState -> k <> ErrorEstimate -> In k copied.
Proof. destruct k as [f| | | | |]; intros; try contradiction; [destruct f| | |]; cbn; tauto. Qed.
Lemma not_copied k : In k copied -> k <> EmbeddedState /\ k <> ErrorEstimate.
Proof. intros I; cbn in I; split; intros ->; repeat (destruct I as [E|I]; [discriminate|]); exact I. Qed.
Lemma copied_nodup : NoDup copied.
Proof. unfold copied, set_fields; cbn; repeat constructor; cbn; intuition discriminate. Qed.

Lemma ordpairs_map {A B} (R : B -> B -> Prop) (f : A -> B) (l : list A) :
  NoDup l -> (forall x y, In x l -> In y l -> x <> y -> R (f x) (f y)) -> ForallOrdPairs R (map f l).
Proof.
  induction l as [|a l IH]; intros ND H; constructor.
  - apply Forall_forall; intros y I; apply in_map_iff in I; destruct I as (x & <- & I); inversion ND; subst.
    apply H; [left; reflexivity|right; exact I|intros ->; contradiction].
  - inversion ND; subst; apply IH; [assumption|intros; apply H; auto; right; assumption].
Qed.

(** [set]. *)
Lemma set_spec h a b : proper h a -> proper h b -> separate a b -> same_shape a b ->
  exists h', ti_obj_set h a b = Ok (h', a) /\
    (forall k v v', k <> EmbeddedState -> k <> ErrorEstimate -> at_key a k = Some v -> at_key b k = Some v' ->
       read h' v = read h v') /\
    (forall k v, k = EmbeddedState \/ k = ErrorEstimate -> at_key a k = Some v -> read h' v = read h v) /\
    (forall w, exists_in h w -> exists_in h' w) /\
    (forall w, (forall k v, at_key a k = Some v -> apart v w) -> read h' w = read h w).
Proof.
  intros [Ea Oa] [Eb Ob] S D.
  assert (Inl : forall d s, In (d, s) (map (fun k => (vw a k, vw b k)) copied) ->
    exists k, In k copied /\ at_key a k = Some d /\ at_key b k = Some s).
  { intros d s I; apply in_map_iff in I; destruct I as (k & E & I); injection E as <- <-.
    destruct (copied_some a k I) as (v & V & ->), (copied_some b k I) as (v' & V' & ->); eauto. }
  destruct (assigns_spec (map (fun k => (vw a k, vw b k)) copied) h) as (h' & R & C & X & F).
  - intros d s I; destruct (Inl _ _ I) as (k & _ & A & B); repeat split; eauto.
    pose proof (D k) as Dk; rewrite A, B in Dk; injection Dk as Dk; exact Dk.
  - intros d s d' s' I I'; destruct (Inl _ _ I) as (k & _ & A & _), (Inl _ _ I') as (k' & _ & _ & B); eauto.
  - apply ordpairs_map; [apply copied_nodup|]; intros k k' I I' Ne; cbn.
    destruct (copied_some a k I) as (v & V & ->), (copied_some a k' I') as (v' & V' & ->); eauto.
  - exists h'; rewrite ti_set_assigns, R; split; [reflexivity|]; repeat split; auto.
    + intros k v v' N1 N2 A B; apply C; apply in_map_iff; exists k; split; [|apply copied_all; assumption].
      unfold vw; rewrite A, B; reflexivity.
    + intros k v K A; apply F; intros d s I; destruct (Inl _ _ I) as (k' & I' & A' & _).
      apply (Oa k' k); auto; intros ->; destruct (not_copied _ I'), K; contradiction.
    + intros w W; apply F; intros d s I; destruct (Inl _ _ I) as (k & _ & A & _); eauto.
Qed.

Lemma entry_same h h' v w : read h v = read h' w -> entry0 h v = entry0 h' w.
Proof. unfold entry0; intros ->; reflexivity. Qed.

Lemma at_key_same h h' o k :
  (forall v, at_key o k = Some v -> read h' v = read h v) -> same_at h' o h o k.
Proof. unfold same_at; destruct (at_key o k); intros H; [split; [reflexivity|apply H; reflexivity]|exact I]. Qed.

Lemma set_value h a b : proper h a -> proper h b -> separate a b -> same_shape a b ->
  exists h', ti_obj_set h a b = Ok (h', a) /\ proper h' a /\ proper h' b /\
    ti_value h' a = ti_set (ti_value h a) (ti_value h b) /\ ti_value h' b = ti_value h b /\
    only a h h'.
Proof.
  intros Pa Pb S D; destruct (set_spec h a b Pa Pb S D) as (h' & R & C & Em & X & F).
  exists h'; split; [exact R|]; destruct Pa as [Ea Oa], Pb as [Eb Ob]; repeat split; eauto.
  - assert (Q : forall f, dims (attr (o_disc a) f) = dims (attr (o_disc b) f) /\ read h' (attr (o_disc a) f) = read h (attr (o_disc b) f)).
    { intros f; split; [pose proof (D (Disc f)) as Dk; injection Dk as Dk; exact Dk|].
      apply (C (Disc f)); reflexivity || discriminate. }
    unfold ti_value, ti_set; cbn [disc suggestion step_hist err_hist].
    f_equal; [|apply entry_same; apply (C Suggestion)|apply (C StepHistory)|apply (C ErrorHistory)]; try reflexivity; try discriminate.
    unfold rk_value, rk_set; cbn [start_state stage_states stage_updates final_state independent_inputs
      stage_independent_outputs final_independent_outputs start_time stage_times final_time step_size linearization_points embedded].
    f_equal; try (apply rows_same; apply Q); try (apply Q); try (apply entry_same; apply Q).
    pose proof (Em EmbeddedState) as E1; pose proof (Em ErrorEstimate) as E2; cbn in E1, E2.
    destruct (extra (o_disc a)) as [[e r]|]; [|reflexivity]; cbn in *.
    rewrite (E1 e), (E2 r) by auto; reflexivity.
  - apply ti_value_same; intros k; apply at_key_same; intros v V; apply F; intros k' v' V'; eauto.
Qed.

Lemma assigns_self h o l : assigns h (map (fun k => (vw o k, vw o k)) l) = Ok h.
Proof.
  induction l as [|k l IH]; [reflexivity|]; cbn [map assigns]; unfold assign.
  rewrite (proj2 (dims_eqb_iff _ _) eq_refl), store_read; exact IH.
Qed.
Lemma set_self h o : ti_obj_set h o o = Ok (h, o).
Proof. rewrite ti_set_assigns, assigns_self; reflexivity. Qed.

(** A change of shapes is noticed. *)
Lemma assigns_mismatch h l d s : In (d, s) l -> dims d <> dims s -> assigns h l = Err ValueError.
Proof.
  revert h; induction l as [|[d' s'] l IH]; intros h I D; [contradiction|]; cbn [assigns].
  destruct I as [E|I].
  - injection E as -> ->; unfold assign; destruct (dims_eqb (dims d) (dims s)) eqn:Q; [apply dims_eqb_iff in Q; contradiction|reflexivity].
  - unfold assign; destruct (dims_eqb (dims d') (dims s')); cbn [bind]; [apply IH; assumption|reflexivity].
Qed.

(** *** [deepcopy] *)
Definition copy_of h v h' c : Prop := fresh h h' c /\ dims c = dims v /\ read h' c = read h v.

Lemma copy_of_later h0 h1 h2 h3 v c : copy_of h1 v h2 c -> grown h0 h1 -> grown h2 h3 -> exists_in h0 v -> copy_of h0 v h3 c.
Proof.
  intros (F & D & R) G1 G2 E; split; [|split; [exact D|]].
  - eapply fresh_grow; [|exact G2]; eapply fresh_from; eassumption.
  - rewrite (proj2 (grown_read _ _ c G2 (proj2 F))), R; apply (grown_read _ _ _ G1 E).
Qed.

Lemma field_eqb_iff f g : field_eqb f g = true <-> f = g.
Proof. split; [destruct f, g; (reflexivity || discriminate)|intros <-; destruct f; reflexivity]. Qed.
Lemma attr_rebind_same f v (o : rkobj) : attr (rebind f v o) f = v.
Proof. cbn; rewrite (proj2 (field_eqb_iff f f) eq_refl); reflexivity. Qed.
Lemma attr_rebind_other f g v (o : rkobj) : f <> g -> attr (rebind f v o) g = attr o g.
Proof. intros D; cbn; destruct (field_eqb f g) eqn:Q; [apply field_eqb_iff in Q; contradiction|reflexivity]. Qed.

Lemma copy_fields_spec src l : forall h (o : rkobj) h' o', NoDup l -> (forall f, In f l -> exists_in h (attr src f)) ->
  copy_fields h l src o = (h', o') ->
  grown h h' /\ extra o' = extra o /\ (forall f, ~ In f l -> attr o' f = attr o f) /\
  (forall f, In f l -> copy_of h (attr src f) h' (attr o' f)) /\
  (forall f g, In f l -> In g l -> f <> g -> buf (attr o' f) <> buf (attr o' g)).
Proof.
  induction l as [|f l IH]; intros h o h' o' ND E C.
  - injection C as <- <-; split; [apply grown_refl|]; split; [reflexivity|]; split; [reflexivity|]; split; [intros ? []|intros ? ? []].
  - cbn [copy_fields] in C; destruct (copy h (attr src f)) as [h1 v] eqn:Cv.
    destruct (copy_spec _ _ _ _ (E f (or_introl eq_refl)) Cv) as (G1 & F1 & D1 & R1).
    inversion ND as [|? ? NI ND']; subst.
    destruct (IH h1 (rebind f v o) h' o' ND') as (G2 & X2 & K2 & C2 & B2); [|exact C|].
    { intros g I; exact (proj1 (grown_read _ _ _ G1 (E g (or_intror I)))). }
    assert (Hf : attr o' f = v) by (rewrite K2 by exact NI; apply attr_rebind_same).
    split; [eapply grown_trans; eassumption|]; split; [exact X2|]; split; [|split].
    + intros g NG; rewrite K2 by (intros I; apply NG; right; exact I); apply attr_rebind_other; intros ->; apply NG; left; reflexivity.
    + intros g [<-|I].
      * rewrite Hf; apply (copy_of_later h h h1 h'); [split; auto|apply grown_refl|exact G2|apply E; left; reflexivity].
      * apply (copy_of_later h h1 h' h'); [apply C2, I|exact G1|apply grown_refl|apply E; right; exact I].
    + assert (Ne : forall g, In g l -> buf v <> buf (attr o' g)).
      { intros g I; destruct (C2 g I) as (((L & _) & _) & _), F1 as ((_ & L') & _); lia. }
      intros g g' [<-|I] [<-|I'] Dg; try contradiction.
      * rewrite Hf; apply Ne, I'.
      * rewrite Hf; intros Q; apply (Ne g I); congruence.
      * apply B2; assumption.
Qed.

Definition copy_at h o h' c k : Prop :=
  match at_key o k, at_key c k with
  | Some v, Some w => copy_of h v h' w
  | None, None => True
  | _, _ => False
  end.

Lemma set_fields_nodup : NoDup set_fields.
Proof. unfold set_fields; repeat constructor; cbn; intuition discriminate. Qed.
Lemma set_fields_all f : In f set_fields.
Proof. destruct f; cbn; tauto. Qed.

Lemma deepcopy_spec h o h' c : proper h o -> ti_deepcopy h o = (h', c) ->
  grown h h' /\ (forall k, copy_at h o h' c k) /\
  (forall k k' v v', k <> k' -> at_key c k = Some v -> at_key c k' = Some v' -> buf v <> buf v').
Proof.
  intros [E O] C; unfold ti_deepcopy, rk_deepcopy in C.
  destruct (copy_fields _ _ _ _) as [h1 oc] eqn:Q1.
  destruct (copy_fields_spec _ _ _ _ _ _ set_fields_nodup (fun f _ => E (Disc f) _ eq_refl) Q1) as (G1 & X1 & _ & C1 & B1).
  specialize (fun f => C1 f (set_fields_all f)); specialize (fun f g => B1 f g (set_fields_all f) (set_fields_all g)).
  assert (Q : exists h3 d, (match extra (o_disc o) with
     | None => (h1, oc)
     | Some (e, r) => let (h, e) := copy h1 e in let (h, r) := copy h r in (h, {| attr := attr oc; extra := Some (e, r) |})
     end) = (h3, d) /\ grown h1 h3 /\ attr d = attr oc /\
     match extra (o_disc o), extra d with
     | Some (e, r), Some (e', r') => copy_of h1 e h3 e' /\ copy_of h1 r h3 r' /\ buf e' <> buf r'
     | None, None => True
     | _, _ => False
     end).
  { pose proof (E EmbeddedState) as E1; pose proof (E ErrorEstimate) as E2; cbn in E1, E2.
    destruct (extra (o_disc o)) as [[e r]|] eqn:Ex; cbn in E1, E2.
    - destruct (copy h1 e) as [h2 e'] eqn:Ce; destruct (copy h2 r) as [h3 r'] eqn:Cr.
      specialize (E1 _ eq_refl); specialize (E2 _ eq_refl).
      destruct (grown_read _ _ _ G1 E1) as [E1' _]; destruct (grown_read _ _ _ G1 E2) as [E2' _].
      destruct (copy_spec _ _ _ _ E1' Ce) as (G2 & F2 & D2 & R2).
      destruct (grown_read _ _ _ G2 E2') as [E2'' _].
      destruct (copy_spec _ _ _ _ E2'' Cr) as (G3 & F3 & D3 & R3).
      exists h3; eexists; split; [reflexivity|]; cbn; split; [eapply grown_trans; eassumption|]; split; [reflexivity|].
      split; [|split].
      + apply (copy_of_later h1 h1 h2 h3); [split; auto|apply grown_refl|exact G3|exact E1'].
      + apply (copy_of_later h1 h2 h3 h3); [split; auto|exact G2|apply grown_refl|exact E2'].
      + destruct F2 as ((_ & L) & _), F3 as ((L' & _) & _); lia.
    - exists h1, oc; rewrite X1; repeat split; auto using grown_refl. }
  destruct Q as (h3 & d & Qd & G3 & Ad & Xd); rewrite Qd in C.
  assert (G03 : grown h h3) by (eapply grown_trans; eassumption).
  destruct (copy h3 (o_suggestion o)) as [h4 s] eqn:Cs.
  destruct (copy h4 (o_step_hist o)) as [h5 sh] eqn:Csh.
  destruct (copy h5 (o_err_hist o)) as [h6 eh] eqn:Ceh; injection C as <- <-.
  pose proof (E Suggestion _ eq_refl) as Es; pose proof (E StepHistory _ eq_refl) as Esh; pose proof (E ErrorHistory _ eq_refl) as Eeh.
  destruct (copy_spec _ _ _ _ (proj1 (grown_read _ _ _ G03 Es)) Cs) as (G4 & F4 & D4 & R4).
  assert (G04 : grown h h4) by (eapply grown_trans; eassumption).
  destruct (copy_spec _ _ _ _ (proj1 (grown_read _ _ _ G04 Esh)) Csh) as (G5 & F5 & D5 & R5).
  assert (G05 : grown h h5) by (eapply grown_trans; eassumption).
  destruct (copy_spec _ _ _ _ (proj1 (grown_read _ _ _ G05 Eeh)) Ceh) as (G6 & F6 & D6 & R6).
  assert (G46 : grown h4 h6) by (eapply grown_trans; eassumption).
  assert (G36 : grown h3 h6) by (eapply grown_trans; eassumption).
  assert (G16 : grown h1 h6) by (eapply grown_trans; eassumption).
  split; [eapply grown_trans; eassumption|].
  assert (L13 : length h1 <= length h3) by (apply grown_length; exact G3).
  assert (Lc : forall f, buf (attr d f) < length h1) by (intros f; rewrite Ad; destruct (C1 f) as (((_ & L) & _) & _); exact L).
  split.
  - intros [f| | | | |]; unfold copy_at; cbn [at_key o_disc o_suggestion o_step_hist o_err_hist].
    + rewrite Ad; apply (copy_of_later h h h1 h6); [apply C1|apply grown_refl|exact G16|exact (E (Disc f) _ eq_refl)].
    + pose proof (E EmbeddedState) as E1; cbn in E1.
      destruct (extra (o_disc o)) as [[e r]|], (extra d) as [[e' r']|]; cbn in *; try contradiction; auto.
      apply (copy_of_later h h1 h3 h6); [apply Xd|exact G1|exact G36|auto].
    + pose proof (E ErrorEstimate) as E1; cbn in E1.
      destruct (extra (o_disc o)) as [[e r]|], (extra d) as [[e' r']|]; cbn in *; try contradiction; auto.
      apply (copy_of_later h h1 h3 h6); [apply Xd|exact G1|exact G36|auto].
    + apply (copy_of_later h h3 h4 h6); [split; auto|exact G03|exact G46|exact Es].
    + apply (copy_of_later h h4 h5 h6); [split; auto|exact G04|exact G6|exact Esh].
    + apply (copy_of_later h h5 h6 h6); [split; auto|exact G05|apply grown_refl|exact Eeh].
  - destruct F4 as ((A4 & B4) & _), F5 as ((A5 & B5) & _), F6 as ((A6 & B6) & _).
    assert (Bx : forall e' r', extra d = Some (e', r') ->
       length h1 <= buf e' < length h3 /\ length h1 <= buf r' < length h3 /\ buf e' <> buf r').
    { intros e' r' X; rewrite X in Xd; destruct (extra (o_disc o)) as [[e r]|]; [|contradiction].
      destruct Xd as (((L & _) & _) & ((L' & _) & _) & Ne); auto. }
    intros k k' v v' Ne V V'.
    destruct k as [f| | | | |], k' as [f'| | | | |]; cbn [at_key o_disc o_suggestion o_step_hist o_err_hist] in V, V'; try contradiction;
      destruct (extra d) as [[e' r']|]; cbn in V, V'; try discriminate;
      try (destruct (Bx _ _ eq_refl) as (Be & Br & Ber));
      injection V as <-; injection V' as <-;
      try (pose proof (Lc f)); try (pose proof (Lc f')); try lia;
      rewrite Ad; apply B1; congruence.
Qed.

Lemma deepcopy_value h o h' c : proper h o -> ti_deepcopy h o = (h', c) ->
  proper h' c /\ ti_value h' c = ti_value h o /\ proper h' o /\ ti_value h' o = ti_value h o /\
  (forall w, exists_in h w -> exists_in h' w /\ read h' w = read h w /\ forall k v, at_key c k = Some v -> apart v w).
Proof.
  intros P C; destruct (deepcopy_spec _ _ _ _ P C) as (G & K & B).
  assert (Kc : forall k w, at_key c k = Some w -> exists v, at_key o k = Some v /\ copy_of h v h' w).
  { intros k w W; specialize (K k); unfold copy_at in K; rewrite W in K; destruct (at_key o k); [eauto|contradiction]. }
  split; [split|split; [|split; [split|split]]].
  - intros k v V; destruct (Kc _ _ V) as (v0 & _ & (_ & X) & _); exact X.
  - intros k k' v v' D V V'; apply bufs_apart; eapply B; eassumption.
  - apply ti_value_same; intros k; specialize (K k); unfold copy_at in K; unfold same_at.
    destruct (at_key o k), (at_key c k); try contradiction; auto; destruct K as (_ & D & R); auto.
  - intros k v V; exact (proj1 (grown_read _ _ _ G (proj1 P _ _ V))).
  - exact (proj2 P).
  - apply ti_value_same; intros k; apply at_key_same; intros v V; exact (proj2 (grown_read _ _ _ G (proj1 P _ _ V))).
  - intros w W; destruct (grown_read _ _ _ G W) as [W1 W2]; split; [exact W1|split; [exact W2|]].
    intros k v V; destruct (Kc _ _ V) as (v0 & _ & F & _); eapply fresh_apart; eassumption.
Qed.

(** Work on one object leaves separate ones alone. *)
Lemma only_other h h' o o' : only o h h' -> proper h o' -> separate o o' -> proper h' o' /\ ti_value h' o' = ti_value h o'.
Proof.
  intros W [E O] S; split; [split; [|exact O]|].
  - intros k v V; apply (W v (E _ _ V)); intros k' v' V'; eapply S; eassumption.
  - apply ti_value_same; intros k; apply at_key_same; intros v V; apply (W v (E _ _ V)); intros k' v' V'; eapply S; eassumption.
Qed.

Lemma history_spec live h snaps seen : history live h snaps seen ->
  proper h live /\ Forall2 (fun s y => proper h s /\ separate live s /\ ti_value h s = y) snaps seen.
Proof.
  induction 1 as [h P|h h' snaps seen H [P IH] W P'|h h' snap snaps seen H [P IH] C].
  - split; [exact P|constructor].
  - split; [exact P'|]; clear H; induction IH as [|s v snaps seen (Ps & Ss & Vs) F IHF]; constructor; [|exact IHF].
    destruct (only_other _ _ _ _ W Ps Ss) as [A B]; split; [exact A|split; [exact Ss|rewrite B; exact Vs]].
  - destruct (deepcopy_value _ _ _ _ P C) as (Pc & Vc & Po & Vo & Fr).
    split; [exact Po|]; constructor.
    + split; [exact Pc|split; [|exact Vc]]; intros k k' v v' V V'; apply apart_sym.
      destruct (Fr v (proj1 P _ _ V)) as (_ & _ & A); eapply A; exact V'.
    + clear H; induction IH as [|s v snaps seen (Ps & Ss & Vs) F IHF]; constructor; [|exact IHF].
      split; [split; [|exact (proj2 Ps)]|split; [exact Ss|]].
      * intros k w W; exact (proj1 (Fr w (proj1 Ps _ _ W))).
      * rewrite <- Vs; apply ti_value_same; intros k; apply at_key_same; intros w W; apply (Fr w (proj1 Ps _ _ W)).
Qed.

(** *** [__init__] *)
Definition zero_array h h' (d : list nat) v : Prop :=
  fresh h h' v /\ dims v = d /\ read h' v = vzeros (fold_right Nat.mul 1 d).
Lemma zero_array_later h0 h1 h2 h3 d v : zero_array h1 h2 d v -> grown h0 h1 -> grown h2 h3 -> zero_array h0 h3 d v.
Proof.
  intros (F & D & R) G1 G2; split; [|split; [exact D|]].
  - eapply fresh_grow; [|exact G2]; eapply fresh_from; eassumption.
  - rewrite (proj2 (grown_read _ _ v G2 (proj2 F))); exact R.
Qed.

Lemma zero_fields_spec l : forall h (o : rkobj) h' o', NoDup (map fst l) ->
  zero_fields h l o = (h', o') ->
  grown h h' /\ extra o' = extra o /\ (forall f, ~ In f (map fst l) -> attr o' f = attr o f) /\
  (forall f d, In (f, d) l -> zero_array h h' d (attr o' f)) /\
  (forall f g, In f (map fst l) -> In g (map fst l) -> f <> g -> buf (attr o' f) <> buf (attr o' g)).
Proof.
  induction l as [|[f d] l IH]; intros h o h' o' ND C.
  - injection C as <- <-; split; [apply grown_refl|]; split; [reflexivity|]; split; [reflexivity|]; split; [intros ? ? []|intros ? ? []].
  - cbn [zero_fields] in C; destruct (zeros h d) as [h1 v] eqn:Cv.
    destruct (zeros_spec _ _ _ _ Cv) as (G1 & F1 & D1 & R1).
    cbn [map fst] in ND; inversion ND as [|? ? NI ND']; subst.
    destruct (IH h1 (rebind f v o) h' o' ND' C) as (G2 & X2 & K2 & C2 & B2).
    assert (Hf : attr o' f = v) by (rewrite K2 by exact NI; apply attr_rebind_same).
    split; [eapply grown_trans; eassumption|]; split; [exact X2|]; split; [|split].
    + intros g NG; cbn in NG; rewrite K2 by (intros I; apply NG; right; exact I); apply attr_rebind_other; intros ->; apply NG; left; reflexivity.
    + intros g d' [I|I].
      * injection I as <- <-; rewrite Hf; apply (zero_array_later h h h1 h'); [split; auto|apply grown_refl|exact G2].
      * apply (zero_array_later h h1 h' h'); [apply C2, I|exact G1|apply grown_refl].
    + assert (Ne : forall g, In g (map fst l) -> buf v <> buf (attr o' g)).
      { intros g I; apply in_map_iff in I; destruct I as ([g' d'] & <- & I); cbn.
        destruct (C2 g' d' I) as (((L & _) & _) & _), F1 as ((_ & L') & _); lia. }
      cbn [map fst]; intros g g' [<-|I] [<-|I'] Dg; try contradiction.
      * rewrite Hf; apply Ne, I'.
      * rewrite Hf; intros Q; apply (Ne g I); congruence.
      * apply B2; assumption.
Qed.

Lemma init_fields_nodup z : NoDup (map fst (init_fields z)).
Proof. cbn; repeat constructor; cbn; intuition discriminate. Qed.
Lemma init_fields_all z f : In (f, dims_of z f) (init_fields z).
Proof. destruct f; cbn; tauto. Qed.

Lemma new_spec emb h z h' o : rk_new emb h z = (h', o) ->
  grown h h' /\ formed z o /\ (emb = true <-> extra o <> None) /\
  (forall f, zero_array h h' (dims_of z f) (attr o f)) /\
  (forall e r, extra o = Some (e, r) -> zero_array h h' [n_state z] e /\ zero_array h h' [n_state z] r /\ buf e <> buf r /\
      forall f, buf (attr o f) <> buf e /\ buf (attr o f) <> buf r) /\
  (forall f g, f <> g -> buf (attr o f) <> buf (attr o g)).
Proof.
  unfold rk_new; destruct (zero_fields _ _ _) as [h1 o1] eqn:Q.
  destruct (zero_fields_spec _ _ _ _ _ (init_fields_nodup z) Q) as (G & X & _ & C & B).
  assert (Al : forall f, In f (map fst (init_fields z))) by (intros f; apply (in_map fst) with (1 := init_fields_all z f)).
  assert (C' : forall f, zero_array h h1 (dims_of z f) (attr o1 f)) by (intros f; apply C, init_fields_all).
  assert (Fo : formed z o1) by (intros f; apply (C' f)).
  destruct emb.
  - destruct (zeros h1 _) as [h2 e] eqn:Ze; destruct (zeros h2 _) as [h3 r] eqn:Zr; intros R; injection R as <- <-.
    destruct (zeros_spec _ _ _ _ Ze) as (G2 & F2 & D2 & R2), (zeros_spec _ _ _ _ Zr) as (G3 & F3 & D3 & R3).
    rewrite (Fo StartState) in D2, D3, R2, R3; cbn [dims_of] in D2, D3, R2, R3.
    assert (G13 : grown h1 h3) by (eapply grown_trans; eassumption).
    split; [eapply grown_trans; eassumption|]; split; [exact Fo|]; split; [cbn; split; [discriminate|reflexivity]|]; cbn.
    split; [intros f; apply (zero_array_later h h h1 h3); [apply C'|apply grown_refl|exact G13]|]; split; [|intros f g D; apply B; auto].
    intros e' r' R; injection R as <- <-.
    assert (G02 : grown h h2) by (eapply grown_trans; eassumption).
    split; [apply (zero_array_later h h1 h2 h3); [split; auto|exact G|exact G3]|].
    split; [apply (zero_array_later h h2 h3 h3); [split; auto|exact G02|apply grown_refl]|].
    destruct F2 as ((A2 & B2) & _), F3 as ((A3 & B3) & _); split; [lia|].
    intros f; destruct (C' f) as (((_ & L) & _) & _); lia.
  - intros R; injection R as <- <-; split; [exact G|]; split; [exact Fo|]; rewrite X; cbn.
    split; [split; [discriminate|intros A; contradiction]|]; split; [exact C'|split; [discriminate|intros f g D; apply B; auto]].
Qed.

Lemma array_spec h x h' c : new_array h x = (h', c) ->
  grown h h' /\ fresh h h' c /\ dims c = [length x] /\ read h' c = x.
Proof.
  intros C; injection C as <- <-; split; [eexists; reflexivity|].
  assert (Nt : nth (length h) (h ++ [x]) [] = x) by (rewrite app_nth2, Nat.sub_diag by lia; reflexivity).
  assert (Sz : forall n b o, size {| buf := b; off := o; dims := [n] |} = n) by (intros; unfold size; cbn; lia).
  split; [|split; [reflexivity|]].
  - split; [rewrite app_length; cbn; lia|]; intros b k [B K]; cbn [buf] in B; subst b; rewrite Nt; rewrite Sz in K; cbn in K; lia.
  - unfold read; rewrite Sz; cbn [buf off]; rewrite Nt; unfold slice; rewrite Nat.sub_0_r; cbn [skipn Nat.add]; apply firstn_all.
Qed.

Lemma ti_new_spec emb h z s sh eh h' o : ti_new emb h z s sh eh = (h', o) ->
  proper h' o /\ formed z (o_disc o) /\ (emb = true <-> extra (o_disc o) <> None) /\
  (forall w, exists_in h w -> exists_in h' w /\ read h' w = read h w /\ forall k v, at_key o k = Some v -> apart v w) /\
  (forall f, read h' (attr (o_disc o) f) = vzeros (fold_right Nat.mul 1 (dims_of z f))) /\
  read h' (o_suggestion o) = s /\ read h' (o_step_hist o) = sh /\ read h' (o_err_hist o) = eh /\
  dims (o_suggestion o) = [length s] /\ dims (o_step_hist o) = [length sh] /\ dims (o_err_hist o) = [length eh] /\
  (forall e r, extra (o_disc o) = Some (e, r) -> dims e = [n_state z] /\ dims r = [n_state z] /\
     read h' e = vzeros (n_state z) /\ read h' r = vzeros (n_state z)).
Proof.
  unfold ti_new; destruct (rk_new emb h z) as [h1 d] eqn:Q1.
  destruct (new_array h1 s) as [h2 vs] eqn:Q2; destruct (new_array h2 sh) as [h3 vsh] eqn:Q3; destruct (new_array h3 eh) as [h4 veh] eqn:Q4.
  intros R; injection R as <- <-.
  destruct (new_spec _ _ _ _ _ Q1) as (G1 & Fo & X & Za & Ze & B).
  destruct (array_spec _ _ _ _ Q2) as (G2 & F2 & D2 & R2), (array_spec _ _ _ _ Q3) as (G3 & F3 & D3 & R3), (array_spec _ _ _ _ Q4) as (G4 & F4 & D4 & R4).
  assert (G24 : grown h2 h4) by exact (grown_trans _ _ _ G3 G4).
  assert (G14 : grown h1 h4) by exact (grown_trans _ _ _ G2 G24).
  assert (G04 : grown h h4) by exact (grown_trans _ _ _ G1 G14).
  assert (G02 : grown h h2) by exact (grown_trans _ _ _ G1 G2).
  assert (G03 : grown h h3) by exact (grown_trans _ _ _ G02 G3).
  assert (Fr : forall k v, at_key {| o_disc := d; o_suggestion := vs; o_step_hist := vsh; o_err_hist := veh |} k = Some v -> fresh h h4 v).
  { intros [f| | | | |] v V; cbn in V.
    - injection V as <-; eapply fresh_grow; [apply Za|exact G14].
    - destruct (extra d) as [[e r]|]; [|discriminate]; injection V as <-; destruct (Ze _ _ eq_refl) as ((A & _) & _); eapply fresh_grow; [exact A|exact G14].
    - destruct (extra d) as [[e r]|]; [|discriminate]; injection V as <-; destruct (Ze _ _ eq_refl) as (_ & (A & _) & _); eapply fresh_grow; [exact A|exact G14].
    - injection V as <-; eapply fresh_from; [eapply fresh_grow; [exact F2|exact G24]|exact G1].
    - injection V as <-; eapply fresh_from; [eapply fresh_grow; [exact F3|exact G4]|exact G02].
    - injection V as <-; eapply fresh_from; [exact F4|exact G03]. }
  split; [split|split; [exact Fo|split; [exact X|split; [|split]]]].
  - intros k v V; exact (proj2 (Fr k v V)).
  - destruct F2 as ((A2 & B2) & _), F3 as ((A3 & B3) & _), F4 as ((A4 & B4) & _).
    assert (Lf : forall f, buf (attr d f) < length h1) by (intros f; destruct (Za f) as (((_ & L) & _) & _); exact L).
    assert (Lx : forall e r, extra d = Some (e, r) -> buf e < length h1 /\ buf r < length h1 /\ buf e <> buf r /\
       forall f, buf (attr d f) <> buf e /\ buf (attr d f) <> buf r).
    { intros e r Er; destruct (Ze e r Er) as ((((_ & L) & _) & _) & (((_ & L') & _) & _) & Nb & Nf); auto. }
    intros k k' v v' Ne V V'; apply bufs_apart.
    destruct k as [f| | | | |], k' as [f'| | | | |]; cbn [at_key o_disc o_suggestion o_step_hist o_err_hist] in V, V'; try contradiction;
      destruct (extra d) as [[e' r']|]; cbn in V, V'; try discriminate;
      try (destruct (Lx _ _ eq_refl) as (Le & Lr & Ler & Lfe));
      injection V as <-; injection V' as <-;
      try (pose proof (Lf f)); try (pose proof (Lf f')); try (pose proof (Lfe f)); try (pose proof (Lfe f')); try lia;
      (apply B; congruence).
  - intros w Ew; destruct (grown_read _ _ _ G04 Ew) as [W1 W2]; split; [exact W1|split; [exact W2|]].
    intros k v V; eapply fresh_apart; [exact (Fr k v V)|exact Ew].
  - intros f; destruct (Za f) as ((_ & E) & _ & R); cbn; rewrite (proj2 (grown_read _ _ _ G14 E)); exact R.
  - cbn [o_suggestion o_step_hist o_err_hist o_disc].
    split; [rewrite (proj2 (grown_read _ _ _ G24 (proj2 F2))); exact R2|].
    split; [rewrite (proj2 (grown_read _ _ _ G4 (proj2 F3))); exact R3|].
    split; [exact R4|]; split; [exact D2|split; [exact D3|split; [exact D4|]]].
    intros e r Er; destruct (Ze e r Er) as ((Fe & De & Re) & (Fr' & Dr & Rr) & _); split; [exact De|split; [exact Dr|]].
    rewrite (proj2 (grown_read _ _ _ G14 (proj2 Fe))), (proj2 (grown_read _ _ _ G14 (proj2 Fr'))), Re, Rr.
    cbn; rewrite Nat.mul_1_r; split; reflexivity.
Qed.
End Objects.
