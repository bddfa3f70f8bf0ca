(** Lemmas: snapshots of the recomputing checkpointer (C32). *)
From Coq Require Import String.
From Coq Require Import List Bool Arith Lia FinFun.
From Verif Require Import Base M_State M_Heap M_Integrator SpecHeap L_Heap L_Heap2 L_Heap3.
Import ListNotations.
Local Open Scope string_scope.
Local Open Scope nat_scope.
Local Open Scope list_scope.

Section Snapshots.
Context {T : Type} {N : Num T}.
Implicit Types (h : heap T) (v w : view).

Lemma pyval_ind' (P : pyval T -> Prop) :
  (forall v, P (Arr v)) -> (forall x, P (Flt x)) ->
  (forall l, Forall (fun e => P (snd e)) l -> P (Dict l)) -> forall d, P d.
Proof.
  intros HA HF HD; fix IH 1; intros [v|x|l]; [apply HA|apply HF|apply HD].
  induction l as [|[s e] l IHl]; constructor; [apply IH|exact IHl].
Qed.

Fixpoint locs (l : list (string * pyval T)) : res (list view) :=
  match l with
  | [] => Ok []
  | (_, x) :: l' => let* a := locations x in let* b := locs l' in Ok (a ++ b)
  end.
Fixpoint szs (l : list (string * pyval T)) : res nat :=
  match l with
  | [] => Ok 0
  | (_, x) :: l' => let* a := data_size x in let* b := szs l' in Ok (a + b)
  end.
Lemma locations_dict l : locations (Dict l) = locs l.
Proof. reflexivity. Qed.
Lemma size_dict l : data_size (Dict l) = szs l.
Proof. reflexivity. Qed.

Definition filled v : bool := 0 <? size v.
Definition total (l : list view) : nat := list_sum (map size l).

Lemma total_app l l' : total (l ++ l') = total l + total l'.
Proof. unfold total; rewrite map_app, list_sum_app; reflexivity. Qed.

(** The size is that of what is handed out; nothing empty is handed out. *)
Lemma size_handed (d : pyval T) : match locations d, data_size d with
  | Ok l, Ok n => n = total l /\ Forall (fun v => size v <> 0) l
  | Err e, Err e' => e = e'
  | _, _ => False
  end.
Proof.
  induction d as [v|x|l IH] using pyval_ind'.
  - cbn [locations data_size]; destruct (Nat.ltb_spec 0 (size v)) as [L|L]; unfold total; cbn [map list_sum fold_right];
      (split; [lia|]); [constructor; [lia|constructor]|constructor].
  - reflexivity.
  - rewrite locations_dict, size_dict; induction IH as [|[s x] l Hx Hl IHl]; [split; [reflexivity|constructor]|].
    cbn [locs szs]; cbn [snd] in Hx.
    destruct (locations x) as [a|e], (data_size x) as [n|e']; cbn [bind]; try contradiction; [|exact Hx].
    destruct (locs l) as [b|e], (szs l) as [m|e']; cbn [bind]; try contradiction; [|exact IHl].
    destruct Hx as [-> Fa], IHl as [-> Fb]; rewrite total_app; split; [reflexivity|apply Forall_app; auto].
Qed.

Lemma copies_spec (l : list view) : forall h h' cs, (forall v, In v l -> exists_in h v) -> copies h l = (h', cs) ->
  grown h h' /\ map (read h') cs = map (read h) l /\ map dims cs = map dims l /\ Forall (exists_in h') cs.
Proof.
  induction l as [|v l IH]; intros h h' cs E C.
  - injection C as <- <-; repeat split; [apply grown_refl|constructor].
  - cbn [copies] in C; destruct (copy h v) as [h1 c] eqn:Cv; destruct (copies h1 l) as [h2 cs'] eqn:Cl; injection C as <- <-.
    destruct (copy_spec _ _ _ _ (E v (or_introl eq_refl)) Cv) as (G1 & F1 & D1 & R1).
    destruct (IH h1 h2 cs') as (G2 & R2 & D2 & X2); [|exact Cl|].
    { intros w I; exact (proj1 (grown_read _ _ _ G1 (E w (or_intror I)))). }
    split; [eapply grown_trans; eassumption|]; cbn; split; [|split; [rewrite D1, D2; reflexivity|]].
    + rewrite (proj2 (grown_read _ _ c G2 (proj2 F1))), R1, R2; f_equal; apply map_ext_in; intros w I.
      apply (grown_read _ _ _ G1 (E w (or_intror I))).
    + constructor; [exact (proj1 (grown_read _ _ c G2 (proj2 F1)))|exact X2].
Qed.

Lemma concat_length (xs : list (list T)) : length (concat xs) = list_sum (map (@length T) xs).
Proof. induction xs as [|x xs IH]; [reflexivity|]; cbn; rewrite app_length, IH; reflexivity. Qed.

(** The slot holds as many numbers as reported. *)
Lemma save_length h d h' slot : (forall l v, locations d = Ok l -> In v l -> exists_in h v) ->
  save h d = Ok (h', slot) -> data_size d = Ok (length slot) /\ grown h h'.
Proof.
  intros E S; pose proof (size_handed d) as Z; unfold save, get_data in S.
  destruct (locations d) as [l|]; cbn [bind] in S; [|discriminate].
  destruct (copies h l) as [h1 cs] eqn:C; injection S as <- <-.
  destruct (copies_spec l h h1 cs (fun v I => E l v eq_refl I) C) as (G & R & D & X); split; [|exact G].
  destruct (data_size d) as [n|]; [|contradiction]; destruct Z as [-> _]; f_equal.
  rewrite concat_length, R, map_map; unfold total; f_equal; apply map_ext_in; intros v I.
  symmetry; apply read_length; eapply E; eauto.
Qed.

Lemma load_pieces_spec (l : list view) : forall h xs,
  Forall2 (fun x v => length x = size v) xs l -> (forall v, In v l -> exists_in h v) -> ForallOrdPairs apart l ->
  let h' := load_pieces h (concat xs) l in
  Forall2 (fun x v => read h' v = x) xs l /\ (forall w, exists_in h w -> exists_in h' w) /\
  (forall w, (forall v, In v l -> apart v w) -> read h' w = read h w).
Proof.
  induction l as [|v l IH]; intros h xs L E P; inversion L as [|x ? xs' ? Lx Ls]; subst; cbn [load_pieces concat].
  - repeat split; auto.
  - rewrite firstn_app, <- Lx, firstn_all, Nat.sub_diag, firstn_O, app_nil_r.
    rewrite skipn_app, skipn_all, Nat.sub_diag, skipn_O; cbn [app].
    assert (Ev : exists_in h v) by (apply E; left; reflexivity).
    inversion P as [|? ? P1 P2]; subst.
    destruct (IH (store h v x) xs' Ls) as (R & X & F); [|exact P2|].
    { intros w I; apply store_exists; auto; apply E; right; exact I. }
    split; [|split].
    + constructor; [|exact R]; rewrite F; [apply read_store_same; auto|].
      intros w I; rewrite Forall_forall in P1; apply apart_sym, P1, I.
    + intros w W; apply X, store_exists; auto.
    + intros w W; rewrite F by (intros u I; apply W; right; exact I).
      apply read_store_apart; auto; apply W; left; reflexivity.
Qed.

(** *** The entries of the dictionary of a state object *)
Inductive dkey : Type := W (k : key) | Rw (f : field) (i : nat).
Definition dkview (o : tiobj) (k : dkey) : view :=
  match k with W k => vw o k | Rw f i => row (attr (o_disc o) f) i end.
Definition dict_keys (emb : bool) (n : nat) : list dkey :=
  [W (Disc StartState); W (Disc StartTime); W (Disc StageTimes)] ++
  map (fun p => Rw (snd p) (fst p)) (list_prod (seq 0 n) stage_fields) ++
  [W (Disc FinalState); W (Disc IndependentInputs); W (Disc FinalIndependentOutputs); W (Disc FinalTime);
   W (Disc LinearizationPoints)] ++ (if emb then [W EmbeddedState; W ErrorEstimate] else []) ++
  [W Suggestion; W StepHistory; W ErrorHistory].
Definition is_emb (o : tiobj) : bool := match extra (o_disc o) with Some _ => true | None => false end.

Lemma locs_app l l' : locs (l ++ l') = (let* a := locs l in let* b := locs l' in Ok (a ++ b)).
Proof.
  induction l as [|[s x] l IH]; cbn [locs app bind].
  - destruct (locs l'); reflexivity.
  - destruct (locations x); cbn [bind]; [|reflexivity]; rewrite IH.
    destruct (locs l); cbn [bind]; [|reflexivity]; destruct (locs l'); cbn [bind]; [rewrite app_assoc|]; reflexivity.
Qed.
Lemma locs_arrays l : locs (map (fun p : string * view => (fst p, Arr (snd p))) l) = Ok (filter filled (map snd l)).
Proof.
  induction l as [|[s v] l IH]; [reflexivity|]; cbn [map locs fst snd]; rewrite IH; cbn [locations bind filter].
  change (0 <? size v) with (filled v); destruct (filled v); reflexivity.
Qed.
Lemma locs_stages (o : rkobj) l : locs (map (fun i => (stage_key i, stage_entry o i)) l) =
  Ok (filter filled (map (fun p => row (attr o (snd p)) (fst p)) (list_prod l stage_fields))).
Proof.
  induction l as [|i l IH]; [reflexivity|]; cbn [map locs list_prod stage_fields].
  rewrite IH; unfold stage_entry; rewrite locations_dict.
  pose proof (locs_arrays [("state", row (attr o StageStates) i); ("update", row (attr o StageUpdates) i);
    ("independent_output", row (attr o StageIndependentOutputs) i)]) as L; cbn [map fst snd] in L; rewrite L; cbn [bind].
  rewrite <- filter_app; rewrite map_app; reflexivity.
Qed.

Lemma locations_state (o : tiobj) : locations (ti_to_dict (T := T) o) =
  Ok (filter filled (map (dkview o) (dict_keys (is_emb o) (hd 0 (dims (attr (o_disc o) StageStates)))))).
Proof.
  unfold ti_to_dict; rewrite locations_dict; cbn [locs]; rewrite locations_dict; unfold rk_to_dict; rewrite !locs_app.
  pose proof (locs_arrays [("start_state", attr (o_disc o) StartState); ("start_time", attr (o_disc o) StartTime); ("stage_times", attr (o_disc o) StageTimes)]) as L1.
  cbn [map fst snd] in L1; rewrite L1; clear L1; cbn [bind].
  pose proof (locs_stages (o_disc o) (seq 0 (hd 0 (dims (attr (o_disc o) StageStates))))) as L2.
  unfold stage_entry in L2; rewrite L2; clear L2; cbn [bind].
  pose proof (locs_arrays [("final_state", attr (o_disc o) FinalState); ("independent_input", attr (o_disc o) IndependentInputs);
   ("final_independent_output", attr (o_disc o) FinalIndependentOutputs); ("final_time", attr (o_disc o) FinalTime);
   ("linearization_points", attr (o_disc o) LinearizationPoints)]) as L3.
  cbn [map fst snd] in L3; rewrite L3; clear L3; cbn [bind].
  assert (L4 : locs (match extra (o_disc o) with None => [] | Some (e, r) => [("embedded_state", Arr e); ("error_estimate", Arr r)] end) =
    Ok (filter filled (map (dkview o) (if is_emb o then [W EmbeddedState; W ErrorEstimate] else [])))).
  { unfold is_emb, dkview, vw; cbn [at_key]; destruct (extra (o_disc o)) as [[e r]|] eqn:Ex; [|reflexivity].
    cbn [map at_key]; rewrite Ex; cbn [option_map fst snd]; exact (locs_arrays [("embedded_state", e); ("error_estimate", r)]). }
  rewrite L4; cbn [bind].
  pose proof (locs_arrays [("step_size_suggestion", o_suggestion o); ("step_size_history", o_step_hist o); ("error_history", o_err_hist o)]) as L5.
  cbn [map fst snd locs] in L5.
  cbn [bind] in L5.
  rewrite L5; cbn [bind]; f_equal.
  rewrite <- !filter_app; f_equal; unfold dict_keys; rewrite !map_app, map_map.
  rewrite <- !app_assoc; reflexivity.
Qed.

Lemma filter_map_swap {A B} (p : B -> bool) (f : A -> B) l : filter p (map f l) = map f (filter (fun x => p (f x)) l).
Proof. induction l as [|a l IH]; [reflexivity|]; cbn; destruct (p (f a)); cbn; rewrite IH; reflexivity. Qed.
Lemma ordpairs_filter {A} (R : A -> A -> Prop) (p : A -> bool) l : ForallOrdPairs R l -> ForallOrdPairs R (filter p l).
Proof.
  induction 1 as [|a l F P IH]; [constructor|]; cbn; destruct (p a); [|exact IH]; constructor; [|exact IH].
  apply Forall_forall; intros x I; apply filter_In in I; rewrite Forall_forall in F; apply F, I.
Qed.

(** A key belongs to the object. *)
Definition has (z : sizes) (o : tiobj) (k : dkey) : Prop :=
  match k with W k => at_key o k <> None /\ k <> Disc StepSize | Rw f i => In f stage_fields /\ i < n_stages z end.
Lemma dict_keys_has z o k : In k (dict_keys (is_emb o) (n_stages z)) -> has z o k.
Proof.
  intros I; unfold dict_keys, is_emb in I; rewrite !in_app_iff in I.
  destruct I as [I|[I|[I|[I|I]]]].
  - cbn in I; repeat (destruct I as [<-|I]; [split; discriminate|]); contradiction.
  - apply in_map_iff in I; destruct I as ([i f] & <- & I); apply in_prod_iff in I; destruct I as [I If]; apply in_seq in I; split; [exact If|cbn; lia].
  - cbn in I; repeat (destruct I as [<-|I]; [split; discriminate|]); contradiction.
  - destruct (extra (o_disc o)) eqn:Ex; [|contradiction]; cbn in I.
    repeat (destruct I as [<-|I]; [split; [cbn; rewrite Ex|]; discriminate|]); contradiction.
  - cbn in I; repeat (destruct I as [<-|I]; [split; discriminate|]); contradiction.
Qed.
Lemma stage_dims z (o : rkobj) f i : formed z o -> In f stage_fields -> i < n_stages z -> i < hd 0 (dims (attr o f)).
Proof. intros F I L; rewrite (F f); cbn in I; repeat (destruct I as [<-|I]; [exact L|]); contradiction. Qed.

(** The key of the whole array a dictionary entry lies in. *)
Definition whole (k : dkey) : key := match k with W k => k | Rw f _ => Disc f end.
Lemma dkview_cell z o k : formed z (o_disc o) -> has z o k ->
  exists v, at_key o (whole k) = Some v /\ forall b c, cell (dkview o k) b c -> cell v b c.
Proof.
  intros F; destruct k as [k|f i]; cbn [has whole dkview].
  - intros [S _]; unfold vw; destruct (at_key o k) as [v|]; [|contradiction]; eauto.
  - intros [I L]; exists (attr (o_disc o) f); split; [reflexivity|]; intros b c C; eapply cell_row; [eapply stage_dims|]; eassumption.
Qed.
Lemma dkview_exists h z o k : proper h o -> formed z (o_disc o) -> has z o k -> exists_in h (dkview o k).
Proof.
  intros [E _] F H b c C; destruct (dkview_cell z o k F H) as (v & V & Q); exact (E _ _ V b c (Q _ _ C)).
Qed.
Lemma dkview_apart h z o k k' : proper h o -> formed z (o_disc o) -> has z o k -> has z o k' -> k <> k' ->
  (forall f i, k = W (Disc f) -> k' = Rw f i -> False) -> (forall f i, k' = W (Disc f) -> k = Rw f i -> False) ->
  apart (dkview o k) (dkview o k').
Proof.
  intros [_ O] F H H' Ne D1 D2.
  destruct (dkview_cell z o k F H) as (v & V & Q), (dkview_cell z o k' F H') as (v' & V' & Q').
  assert (Dis : whole k <> whole k' -> apart (dkview o k) (dkview o k')).
  { intros D b c C C'; exact (O _ _ _ _ D V V' b c (Q _ _ C) (Q' _ _ C')). }
  destruct k as [k|f i], k' as [k'|f' i']; cbn [whole] in Dis.
  - apply Dis; congruence.
  - apply Dis; intros ->; eapply D1; reflexivity.
  - apply Dis; intros <-; eapply D2; reflexivity.
  - destruct (field_eqb f f') eqn:Qf.
    + apply field_eqb_iff in Qf; subst f'; apply rows_apart; congruence.
    + apply Dis; intros A; injection A as ->; rewrite (proj2 (field_eqb_iff f' f') eq_refl) in Qf; discriminate.
Qed.

Lemma dict_keys_whole emb n k : In (W k) (dict_keys emb n) -> forall f, k = Disc f -> ~ In f stage_fields.
Proof.
  intros I f ->; unfold dict_keys in I; rewrite !in_app_iff in I.
  destruct I as [I|[I|[I|[I|I]]]].
  - cbn in I; intros Q; cbn in Q; repeat (destruct I as [A|I]; [injection A as <-; intuition discriminate|]); contradiction.
  - apply in_map_iff in I; destruct I as (p & A & _); discriminate.
  - cbn in I; intros Q; cbn in Q; repeat (destruct I as [A|I]; [injection A as <-; intuition discriminate|]); contradiction.
  - destruct emb; cbn in I; intuition discriminate.
  - cbn in I; intuition discriminate.
Qed.
Lemma dict_keys_nodup emb n : NoDup (dict_keys emb n).
Proof.
  assert (NS : NoDup (map (fun p => Rw (snd p) (fst p)) (list_prod (seq 0 n) stage_fields))).
  { apply FinFun.Injective_map_NoDup; [intros [a b] [c d] E; injection E; intros; subst; reflexivity|].
    apply nodup_prod; [apply seq_NoDup|]; repeat constructor; cbn; intuition discriminate. }
  unfold dict_keys; apply nodup_app; [repeat constructor; cbn; intuition discriminate| |].
  - apply nodup_app; [exact NS| |].
    + destruct emb; repeat constructor; cbn; intuition discriminate.
    + intros x I I'; apply in_map_iff in I; destruct I as (p & <- & _); destruct emb; cbn in I'; intuition discriminate.
  - intros x I I'; rewrite in_app_iff in I'; destruct I' as [I'|I'].
    + apply in_map_iff in I'; destruct I' as (p & <- & _); cbn in I; intuition discriminate.
    + cbn in I; repeat (destruct I as [<-|I]; [destruct emb; cbn in I'; intuition discriminate|]); contradiction.
Qed.

Lemma dkview_pairs h z o l : proper h o -> formed z (o_disc o) -> NoDup l -> incl l (dict_keys (is_emb o) (n_stages z)) ->
  ForallOrdPairs apart (map (dkview o) l).
Proof.
  intros P F ND I; apply ordpairs_map; [exact ND|]; intros k k' Ik Ik' Ne; apply I in Ik, Ik'.
  assert (G : forall k k', In k (dict_keys (is_emb o) (n_stages z)) -> In k' (dict_keys (is_emb o) (n_stages z)) ->
     forall f i, k = W (Disc f) -> k' = Rw f i -> False).
  { intros a a' Ia Ia' f i -> ->; eapply dict_keys_whole; [exact Ia|reflexivity|]; apply dict_keys_has in Ia'; apply Ia'. }
  eapply dkview_apart; eauto using dict_keys_has.
Qed.

Lemma same_emb o o2 : same_shape o o2 -> is_emb o2 = is_emb o.
Proof.
  intros S; pose proof (S EmbeddedState) as Q; cbn in Q; unfold is_emb.
  destruct (extra (o_disc o)), (extra (o_disc o2)); cbn in Q; (discriminate || reflexivity).
Qed.
Lemma same_dkview z o o2 k : same_shape o o2 -> has z o k -> dims (dkview o k) = dims (dkview o2 k).
Proof.
  intros S; destruct k as [k|f i]; cbn.
  - intros [H _]; pose proof (S k) as Q; unfold vw; destruct (at_key o k), (at_key o2 k); cbn in Q; try discriminate; [|contradiction].
    injection Q as Q; exact Q.
  - intros _; pose proof (S (Disc f)) as Q; injection Q as Q; rewrite Q; reflexivity.
Qed.

Lemma forall2_map {A B C} (R : B -> C -> Prop) (f : A -> B) (g : A -> C) l :
  Forall2 R (map f l) (map g l) <-> (forall x, In x l -> R (f x) (g x)).
Proof.
  induction l as [|a l IH]; cbn.
  - split; [intros _ x []|constructor].
  - split.
    + intros F x [<-|I]; inversion F; subst; [assumption|apply IH; assumption].
    + intros H; constructor; [apply H; left; reflexivity|apply IH; intros x I; apply H; right; exact I].
Qed.

Theorem save_load h0 h1 z o o2 : proper h0 o -> proper h1 o2 -> formed z (o_disc o) -> same_shape o o2 ->
  exists h0' slot h2, save h0 (ti_to_dict o) = Ok (h0', slot) /\
    (forall w, exists_in h0 w -> exists_in h0' w /\ read h0' w = read h0 w) /\
    data_size (ti_to_dict (T := T) o) = Ok (length slot) /\
    load h1 slot (ti_to_dict o2) = Ok h2 /\
    ti_value h2 o2 = load_snapshot (ti_value h1 o2) (ti_value h0 o) /\
    only o2 h1 h2 /\ proper h2 o2.
Proof.
  intros P0 P1 F S.
  assert (F2 : formed z (o_disc o2)) by (intros f; rewrite <- (F f); pose proof (S (Disc f)) as Q; injection Q as Q; symmetry; exact Q).
  set (ks := dict_keys (is_emb o) (n_stages z)).
  set (kf := filter (fun k => filled (dkview o k)) ks).
  assert (Hk : forall k, In k ks -> has z o k) by (intros k I; apply dict_keys_has, I).
  assert (Hk2 : forall k, In k ks -> has z o2 k) by (intros k I; apply dict_keys_has; rewrite (same_emb _ _ S); exact I).
  assert (Lo : locations (ti_to_dict (T := T) o) = Ok (map (dkview o) kf)).
  { rewrite locations_state, (F StageStates); cbn [dims_of hd]; rewrite filter_map_swap; reflexivity. }
  assert (Lo2 : locations (ti_to_dict (T := T) o2) = Ok (map (dkview o2) kf)).
  { rewrite locations_state, (F2 StageStates), (same_emb _ _ S); cbn [dims_of hd]; rewrite filter_map_swap; f_equal; f_equal.
    apply filter_ext_in; intros k I; unfold filled; f_equal; apply same_size; symmetry; apply (same_dkview z); auto. }
  assert (Ikf : incl kf ks) by (intros k I; apply filter_In in I; apply I).
  assert (E0 : forall v, In v (map (dkview o) kf) -> exists_in h0 v).
  { intros v I; apply in_map_iff in I; destruct I as (k & <- & I); eapply dkview_exists; eauto. }
  unfold save, get_data, load; rewrite Lo, Lo2; cbn [bind].
  destruct (copies h0 (map (dkview o) kf)) as [h0' cs] eqn:C.
  destruct (copies_spec _ _ _ _ E0 C) as (G & R & _ & _).
  set (slot := concat (map (read h0') cs)).
  assert (Es : slot = concat (map (fun k => read h0 (dkview o k)) kf)) by (unfold slot; rewrite R, map_map; reflexivity).
  destruct (load_pieces_spec (map (dkview o2) kf) h1 (map (fun k => read h0 (dkview o k)) kf)) as (Rd & X & Fm).
  - apply forall2_map; intros k I; rewrite read_length by (apply E0, in_map, I); apply same_size, (same_dkview z); auto.
  - intros v I; apply in_map_iff in I; destruct I as (k & <- & I); eapply dkview_exists; eauto.
  - apply (dkview_pairs h1 z); auto; [apply NoDup_filter, dict_keys_nodup|rewrite (same_emb _ _ S); exact Ikf].
  - rewrite <- Es in Rd, X, Fm.
    exists h0', slot; eexists; split; [reflexivity|]; split; [intros w Ew; exact (grown_read _ _ _ G Ew)|].
    split; [refine (proj1 (save_length h0 _ h0' slot _ _)); [intros l v L I; rewrite Lo in L; injection L as <-; auto|]|].
    { unfold save, get_data; rewrite Lo; cbn [bind]; rewrite C; reflexivity. }
    split; [reflexivity|]; set (h2 := load_pieces h1 slot (map (dkview o2) kf)) in *.
    assert (Fm' : forall w, (forall k, In k ks -> apart (dkview o2 k) w) -> read h2 w = read h1 w).
    { intros w Ap; apply Fm; intros v I; apply in_map_iff in I; destruct I as (k & <- & I); auto. }
    assert (Rk : forall k, In k ks -> read h2 (dkview o2 k) = read h0 (dkview o k)).
    { intros k I; destruct (filled (dkview o k)) eqn:Fl.
      - refine (proj1 (forall2_map (fun x v => read h2 v = x) (fun k => read h0 (dkview o k)) (dkview o2) kf) Rd k _); apply filter_In; auto.
      - unfold filled in Fl; apply Nat.ltb_ge in Fl.
        assert (A : length (read h0 (dkview o k)) = 0) by (rewrite read_length by (eapply dkview_exists; eauto); lia).
        assert (B : length (read h2 (dkview o2 k)) = 0).
        { rewrite read_length by (apply X; eapply dkview_exists; eauto); rewrite <- (same_size (dkview o k)) by (apply (same_dkview z); auto); lia. }
        destruct (read h0 (dkview o k)), (read h2 (dkview o2 k)); cbn in *; (discriminate || reflexivity). }
    assert (Ro : forall k v v', In (W k) ks -> at_key o k = Some v -> at_key o2 k = Some v' -> read h2 v' = read h0 v).
    { intros k v v' I V V'; specialize (Rk _ I); cbn in Rk; unfold vw in Rk; rewrite V, V' in Rk; exact Rk. }
    assert (Rs : forall f, In f stage_fields -> rows h2 (attr (o_disc o2) f) = rows h0 (attr (o_disc o) f)).
    { intros f If; unfold rows; rewrite (F f), (F2 f).
      assert (Hn : hd 0 (dims_of z f) = n_stages z) by (cbn in If; repeat (destruct If as [<-|If]; [reflexivity|]); contradiction).
      rewrite Hn; apply map_ext_in; intros i Ii; apply (Rk (Rw f i)); unfold ks, dict_keys; rewrite !in_app_iff; right; left.
      apply in_map_iff; exists (i, f); split; [reflexivity|apply in_prod_iff; auto]. }
    assert (Rw' : forall f, In (W (Disc f)) ks -> read h2 (attr (o_disc o2) f) = read h0 (attr (o_disc o) f)) by (intros f I; apply (Ro (Disc f)); auto).
    assert (Rstep : read h2 (attr (o_disc o2) StepSize) = read h1 (attr (o_disc o2) StepSize)).
    { apply Fm'; intros k I b c Cc Cs; destruct (dkview_cell z o2 k F2 (Hk2 k I)) as (v & V & Q).
      refine (proj2 P1 (whole k) (Disc StepSize) _ _ _ V eq_refl b c (Q _ _ Cc) Cs).
      specialize (Hk2 k I); destruct k as [k|f i]; cbn in Hk2 |- *; [apply Hk2|intros A; injection A as ->; destruct Hk2 as [A _]; cbn in A; intuition discriminate]. }
    assert (In1 : forall l, In l [W (Disc StartState); W (Disc StartTime); W (Disc StageTimes); W (Disc FinalState); W (Disc IndependentInputs);
       W (Disc FinalIndependentOutputs); W (Disc FinalTime); W (Disc LinearizationPoints); W Suggestion; W StepHistory; W ErrorHistory] -> In l ks).
    { intros l I; unfold ks, dict_keys; rewrite !in_app_iff; cbn in I |- *; tauto. }
    split; [|split].
    + unfold ti_value, load_snapshot, w_disc, w_step_size; cbn [disc suggestion step_hist err_hist]; f_equal.
      * unfold rk_value; cbn [start_state stage_states stage_updates final_state independent_inputs
          stage_independent_outputs final_independent_outputs start_time stage_times final_time step_size linearization_points embedded].
        f_equal; try (apply Rs; cbn; tauto); try (apply Rw', In1; cbn; tauto); try (apply entry_same, Rw', In1; cbn; tauto).
        -- apply entry_same, Rstep.
        -- apply rows_same; [rewrite (F _), (F2 _); reflexivity|apply Rw', In1; cbn; tauto].
        -- pose proof (Ro EmbeddedState) as R1; pose proof (Ro ErrorEstimate) as R2; pose proof (same_emb _ _ S) as SE.
           unfold ks, dict_keys in R1, R2; unfold is_emb in R1, R2, SE; cbn [at_key] in R1, R2.
           destruct (extra (o_disc o)) as [[e r]|], (extra (o_disc o2)) as [[e' r']|]; try discriminate; [|reflexivity].
           cbn [option_map fst snd] in *; rewrite (R1 e e'), (R2 r r'); try reflexivity; rewrite !in_app_iff; cbn; tauto.
      * apply entry_same, (Ro Suggestion); try reflexivity; apply In1; cbn; tauto.
      * apply (Ro StepHistory); try reflexivity; apply In1; cbn; tauto.
      * apply (Ro ErrorHistory); try reflexivity; apply In1; cbn; tauto.
    + intros w Ew Ap; split; [apply X, Ew|]; apply Fm'; intros k I b c Cc Cw.
      destruct (dkview_cell z o2 k F2 (Hk2 k I)) as (v & V & Q); exact (Ap _ _ V b c (Q _ _ Cc) Cw).
    + split; [intros k v V; apply X, (proj1 P1 k v V)|exact (proj2 P1)].
Qed.
End Snapshots.
