(** Lemmas: dictionaries of state objects (C31). *)
From Coq Require Import String Ascii DecimalString DecimalNat.
From Coq Require Import List Bool Arith Lia.
From Verif Require Import Base M_State M_Heap SpecHeap L_Heap L_Heap2.
Import ListNotations.
Local Open Scope string_scope.
Local Open Scope nat_scope.
Local Open Scope list_scope.

Lemma str_inj i j : str i = str j -> i = j.
Proof.
  unfold str; intros E; apply (f_equal NilEmpty.uint_of_string) in E; rewrite !NilEmpty.usu in E.
  injection E as E; exact (Unsigned.to_uint_inj _ _ E).
Qed.
Lemma str_not_times i : str i <> "times".
Proof. unfold str; intros E; apply (f_equal NilEmpty.uint_of_string) in E; rewrite NilEmpty.usu in E; discriminate. Qed.
Lemma stage_key_inj i j : stage_key i = stage_key j -> i = j.
Proof. unfold stage_key; cbn; intros E; injection E as E; exact (str_inj _ _ E). Qed.
Lemma stage_key_times i : String.eqb "stage_times" (stage_key i) = false.
Proof. apply String.eqb_neq; unfold stage_key; cbn; intros E; injection E as E; exact (str_not_times _ (eq_sym E)). Qed.

Lemma find_app {A} (p : A -> bool) l1 l2 : find p (l1 ++ l2) = match find p l1 with Some x => Some x | None => find p l2 end.
Proof. induction l1 as [|a l1 IH]; cbn; [reflexivity|]; destruct (p a); [reflexivity|exact IH]. Qed.
Lemma find_map_none {A B} (p : B -> bool) (f : A -> B) l : (forall x, p (f x) = false) -> find p (map f l) = None.
Proof. intros H; induction l as [|a l IH]; cbn; [reflexivity|]; rewrite H; exact IH. Qed.

Section Dicts.
Context {T : Type} {N : Num T}.
Implicit Types (h : heap T) (v w : view).

Definition stage_entry (o : rkobj) (i : nat) : pyval T :=
  Dict [("state", Arr (row (attr o StageStates) i)); ("update", Arr (row (attr o StageUpdates) i));
        ("independent_output", Arr (row (attr o StageIndependentOutputs) i))].
Definition rk_dict (o : rkobj) : pyval T := Dict (rk_to_dict o).

Lemma find_stage (o : rkobj) n i : i < n ->
  find (fun e => String.eqb (fst e) (stage_key i)) (map (fun i => (stage_key i, stage_entry o i)) (seq 0 n)) = Some (stage_key i, stage_entry o i).
Proof.
  intros L; assert (G : forall s, s <= i < s + n ->
    find (fun e => String.eqb (fst e) (stage_key i)) (map (fun i => (stage_key i, stage_entry o i)) (seq s n)) = Some (stage_key i, stage_entry o i)).
  { clear L; induction n as [|n IH]; intros s B; [lia|]; cbn [seq map find fst].
    destruct (String.eqb_spec (stage_key s) (stage_key i)) as [E|E]; [apply stage_key_inj in E; subst s; reflexivity|].
    apply IH; assert (s <> i) by (intros ->; contradiction); lia. }
  apply G; lia.
Qed.

Lemma item_stage (o : rkobj) i : i < hd 0 (dims (attr o StageStates)) -> item (rk_dict o) (stage_key i) = Ok (stage_entry o i).
Proof.
  intros L; unfold item, rk_dict, rk_to_dict.
  rewrite !find_app; cbn [find fst app].
  change (String.eqb "start_state" (stage_key i)) with false; change (String.eqb "start_time" (stage_key i)) with false.
  rewrite stage_key_times.
  change (map _ (seq 0 (hd 0 (dims (attr o StageStates))))) with
    (map (fun i => (stage_key i, stage_entry o i)) (seq 0 (hd 0 (dims (attr o StageStates))))).
  rewrite (find_stage o _ i L); reflexivity.
Qed.

(** The other entries. *)
Lemma item_head (o : rkobj) :
  array_at (rk_dict o) "start_state" = Ok (attr o StartState) /\
  array_at (rk_dict o) "start_time" = Ok (attr o StartTime) /\
  array_at (rk_dict o) "stage_times" = Ok (attr o StageTimes).
Proof. repeat split. Qed.

Definition not_stage (k : string) : Prop := forall i, String.eqb (stage_key i) k = false.
Lemma item_tail (o : rkobj) k : not_stage k ->
  String.eqb "start_state" k = false -> String.eqb "start_time" k = false -> String.eqb "stage_times" k = false ->
  item (rk_dict o) k = item (Dict ([("final_state", Arr (attr o FinalState)); ("independent_input", Arr (attr o IndependentInputs));
   ("final_independent_output", Arr (attr o FinalIndependentOutputs)); ("final_time", Arr (attr o FinalTime));
   ("linearization_points", Arr (attr o LinearizationPoints))] ++
   match extra o with None => [] | Some (e, r) => [("embedded_state", Arr e); ("error_estimate", Arr r)] end)) k.
Proof.
  intros NS A B C; unfold item, rk_dict, rk_to_dict.
  rewrite find_app, (find_app _ (map _ _)).
  rewrite find_map_none by (intros i; apply NS).
  cbn [find fst]; rewrite A, B, C; reflexivity.
Qed.

Ltac tail_item o := unfold array_at; rewrite (item_tail o) by (reflexivity || (intros ?; reflexivity)); reflexivity.
Lemma at_final_state (o : rkobj) : array_at (rk_dict o) "final_state" = Ok (attr o FinalState). Proof. tail_item o. Qed.
Lemma at_independent_input (o : rkobj) : array_at (rk_dict o) "independent_input" = Ok (attr o IndependentInputs). Proof. tail_item o. Qed.
Lemma at_final_output (o : rkobj) : array_at (rk_dict o) "final_independent_output" = Ok (attr o FinalIndependentOutputs). Proof. tail_item o. Qed.
Lemma at_final_time (o : rkobj) : array_at (rk_dict o) "final_time" = Ok (attr o FinalTime). Proof. tail_item o. Qed.
Lemma at_points (o : rkobj) : array_at (rk_dict o) "linearization_points" = Ok (attr o LinearizationPoints). Proof. tail_item o. Qed.
Lemma at_embedded (o : rkobj) : item (rk_dict o) "embedded_dict" = Err KeyError.
Proof. rewrite (item_tail o) by (reflexivity || (intros ?; reflexivity)); destruct (extra o) as [[e r]|]; reflexivity. Qed.

(** *** Rows *)
Lemma cell_row v i b k : i < hd 0 (dims v) -> cell (row v i) b k -> cell v b k.
Proof.
  intros L [B [K1 K2]]; split; [exact B|]; cbn [buf off row] in K1, K2.
  set (m := fold_right Nat.mul 1 (tl (dims v))) in *.
  change (size (row v i)) with m in K2.
  assert (Sv : size v = hd 0 (dims v) * m) by (unfold size, m; destruct (dims v); [cbn in L; lia|reflexivity]).
  assert (S i * m <= hd 0 (dims v) * m) by (apply Nat.mul_le_mono_r; lia); lia.
Qed.
Lemma rows_apart v i j : i <> j -> apart (row v i) (row v j).
Proof.
  intros D b k [_ K] [_ K']; cbn [off row] in K, K'.
  change (size (row v i)) with (fold_right Nat.mul 1 (tl (dims v))) in K; change (size (row v j)) with (fold_right Nat.mul 1 (tl (dims v))) in K'.
  set (m := fold_right Nat.mul 1 (tl (dims v))) in *.
  destruct (Nat.lt_ge_cases i j).
  - assert (S i * m <= j * m) by (apply Nat.mul_le_mono_r; lia); lia.
  - assert (S j * m <= i * m) by (apply Nat.mul_le_mono_r; lia); lia.
Qed.
Lemma row_apart v w i : apart v w -> i < hd 0 (dims v) -> apart (row v i) w.
Proof. intros A L b k C; apply A; exact (cell_row _ _ _ _ L C). Qed.
Lemma row_apart2 v w i j : apart v w -> i < hd 0 (dims v) -> j < hd 0 (dims w) -> apart (row v i) (row w j).
Proof. intros A L L' b k C C'; apply (A b k); eapply cell_row; eassumption. Qed.
Lemma row_exists h v i : exists_in h v -> i < hd 0 (dims v) -> exists_in h (row v i).
Proof. intros E L b k C; apply E; exact (cell_row _ _ _ _ L C). Qed.

(** *** The loop over the stages *)
Definition stage_fields : list field := [StageStates; StageUpdates; StageIndependentOutputs].
Definition stage_pairs (o src : rkobj) (l : list nat) : list (view * view) :=
  map (fun p => (row (attr o (snd p)) (fst p), row (attr src (snd p)) (fst p))) (list_prod l stage_fields).

Lemma load_stages_assigns (o src : rkobj) l : forall h, (forall i, In i l -> i < hd 0 (dims (attr src StageStates))) ->
  load_stages h (rk_dict src) o l = assigns h (stage_pairs o src l).
Proof.
  induction l as [|i l IH]; intros h B; [reflexivity|].
  cbn [load_stages]; rewrite item_stage by (apply B; left; reflexivity); cbn [bind].
  unfold stage_pairs; cbn [list_prod map app stage_fields fst snd assigns].
  change (array_at (stage_entry src i) "state") with (@Ok view (row (attr src StageStates) i)).
  change (array_at (stage_entry src i) "update") with (@Ok view (row (attr src StageUpdates) i)).
  change (array_at (stage_entry src i) "independent_output") with (@Ok view (row (attr src StageIndependentOutputs) i)).
  cbn [bind].
  repeat (destruct (assign _ _ _) as [?|?]; cbn [bind]; [|reflexivity]).
  apply IH; intros j J; apply B; right; exact J.
Qed.

Lemma nodup_app {A} (l l' : list A) : NoDup l -> NoDup l' -> (forall x, In x l -> In x l' -> False) -> NoDup (l ++ l').
Proof.
  induction 1 as [|a l NI ND IH]; intros N' D; [exact N'|]; cbn; constructor.
  - intros I; apply in_app_or in I; destruct I as [I|I]; [contradiction|]; exact (D a (or_introl eq_refl) I).
  - apply IH; [exact N'|]; intros x I; apply D; right; exact I.
Qed.
Lemma nodup_prod {A B} (l : list A) (l' : list B) : NoDup l -> NoDup l' -> NoDup (list_prod l l').
Proof.
  intros Nl Nl'; induction Nl as [|a l NI ND IH]; [constructor|]; cbn [list_prod]; apply nodup_app; [|exact IH|].
  - clear -Nl'; induction Nl' as [|b l' NI ND IH]; [constructor|]; cbn; constructor; [|exact IH].
    intros I; apply in_map_iff in I; destruct I as (x & E & I); injection E as <-; contradiction.
  - intros [x y] I I'; apply in_map_iff in I; destruct I as (z & E & _); injection E as <- <-.
    apply in_prod_iff in I'; destruct I'; contradiction.
Qed.

Lemma stage_pairs_in (o src : rkobj) l d s : In (d, s) (stage_pairs o src l) ->
  exists i f, In i l /\ In f stage_fields /\ d = row (attr o f) i /\ s = row (attr src f) i.
Proof.
  intros I; apply in_map_iff in I; destruct I as ([i f] & E & I); cbn in E; injection E as <- <-.
  apply in_prod_iff in I; destruct I; eauto 6.
Qed.

(** Loading the stages into new arrays [o]. *)
Lemma load_stages_spec h (o src : rkobj) n :
  (forall f, In f stage_fields -> hd 0 (dims (attr o f)) = n /\ dims (attr o f) = dims (attr src f)) ->
  (forall f, In f stage_fields -> exists_in h (attr o f) /\ exists_in h (attr src f)) ->
  (forall f g, In f stage_fields -> In g stage_fields -> apart (attr o f) (attr src g)) ->
  (forall f g, In f stage_fields -> In g stage_fields -> f <> g -> apart (attr o f) (attr o g)) ->
  exists h', load_stages h (rk_dict src) o (seq 0 n) = Ok h' /\
    (forall f, In f stage_fields -> rows h' (attr o f) = rows h (attr src f)) /\
    (forall w, (forall f, In f stage_fields -> apart (attr o f) w) -> read h' w = read h w).
Proof.
  intros D E A O.
  assert (D' : forall f, In f stage_fields -> hd 0 (dims (attr src f)) = n) by (intros f I; destruct (D f I) as [<- <-]; reflexivity).
  destruct (assigns_spec (stage_pairs o src (seq 0 n)) h) as (h' & R & C & X & F).
  - intros d s I; destruct (stage_pairs_in _ _ _ _ _ I) as (i & f & Ii & If & -> & ->); apply in_seq in Ii.
    destruct (E f If), (D f If) as [D1 D2]; repeat split.
    + apply row_exists; [assumption|lia].
    + apply row_exists; [assumption|rewrite <- D2; lia].
    + cbn; rewrite D2; reflexivity.
  - intros d s d' s' I I'; destruct (stage_pairs_in _ _ _ _ _ I) as (i & f & Ii & If & -> & ->),
      (stage_pairs_in _ _ _ _ _ I') as (i' & f' & Ii' & If' & -> & ->); apply in_seq in Ii, Ii'.
    apply row_apart2; [apply A; assumption|rewrite (proj1 (D f If)); lia|rewrite D' by assumption; lia].
  - apply ordpairs_map.
    + apply nodup_prod; [apply seq_NoDup|]; repeat constructor; cbn; intuition discriminate.
    + intros [i f] [i' f'] I I' Ne; cbn; apply in_prod_iff in I, I'; destruct I as [Ii If], I' as [Ii' If']; apply in_seq in Ii, Ii'.
      destruct (field_eqb f f') eqn:Q.
      * apply field_eqb_iff in Q; subst f'; apply rows_apart; intros ->; contradiction.
      * apply row_apart2.
        -- apply O; auto; intros ->; rewrite (proj2 (field_eqb_iff f' f') eq_refl) in Q; discriminate.
        -- rewrite (proj1 (D f If)); lia.
        -- rewrite (proj1 (D f' If')); lia.
  - exists h'; split; [|split].
    + rewrite load_stages_assigns; [exact R|]; intros i I; apply in_seq in I; rewrite D' by (cbn; tauto); lia.
    + intros f If; unfold rows; rewrite (proj1 (D f If)), D' by exact If; apply map_ext_in; intros i I.
      apply C; apply in_map_iff; exists (i, f); split; [reflexivity|]; apply in_prod_iff; auto.
    + intros w W; apply F; intros d s I; destruct (stage_pairs_in _ _ _ _ _ I) as (i & f & Ii & If & -> & ->); apply in_seq in Ii.
      apply row_apart; [apply W, If|rewrite (proj1 (D f If)); lia].
Qed.

Lemma dims_size z o f : formed z o -> size (attr o f) = fold_right Nat.mul 1 (dims_of z f).
Proof. intros F; unfold size; rewrite F; reflexivity. Qed.

(** What happens before the object is made. *)
Lemma from_dict_start emb h z (o : rkobj) : formed z o -> 0 < n_stages z ->
  rk_from_dict emb h (rk_dict o) =
  (let* shape_in := shape_of_array (attr o IndependentInputs) in
   let (h, o1) := rk_new emb h {| n_state := n_state z; n_in := shape_in; n_out := n_out z;
                                  n_stages := n_stages z; n_lin := n_lin z |} in
   let o1 := rebind StageTimes (attr o StageTimes) (rebind StartTime (attr o StartTime) (rebind StartState (attr o StartState) o1)) in
   let* h := load_stages h (rk_dict o) o1 (seq 0 (n_stages z)) in
   Ok (h, rebind LinearizationPoints (attr o LinearizationPoints) (rebind FinalTime (attr o FinalTime)
       (rebind FinalIndependentOutputs (attr o FinalIndependentOutputs) (rebind IndependentInputs (attr o IndependentInputs)
       (rebind FinalState (attr o FinalState) o1)))))).
Proof.
  intros F P; unfold rk_from_dict.
  destruct (item_head o) as (H1 & H2 & H3).
  rewrite at_points; cbn [bind].
  assert (Dp : dims (attr o LinearizationPoints) = [n_stages z; n_lin z]) by apply F.
  unfold dim at 1; rewrite Dp; cbn [nth_error bind].
  rewrite at_final_state; cbn [bind]; rewrite at_independent_input; cbn [bind].
  rewrite item_stage by (rewrite (F StageStates); cbn; exact P); cbn [bind].
  change (array_at (stage_entry o 0) "independent_output") with (@Ok view (row (attr o StageIndependentOutputs) 0)); cbn [bind].
  unfold dim; rewrite Dp; cbn [nth_error bind].
  destruct (shape_of_array _) as [sh|e]; cbn [bind]; [|reflexivity].
  replace (size (attr o FinalState)) with (n_state z) by (rewrite (dims_size z o) by exact F; cbn; lia).
  replace (size (row (attr o StageIndependentOutputs) 0)) with (n_out z) by
    (unfold size; cbn [dims row]; rewrite (F StageIndependentOutputs); cbn; lia).
  destruct (rk_new emb h _) as [h1 o1].
  rewrite H1; cbn [bind]; rewrite H2; cbn [bind]; rewrite H3; cbn [bind].
  destruct (load_stages _ _ _ _) as [h2|e]; cbn [bind]; [|reflexivity].
  rewrite at_final_output; cbn [bind]; rewrite at_final_time; reflexivity.
Qed.

Lemma from_dict_inputs emb h z o : formed z o -> 0 < n_stages z -> fold_right Nat.mul 1 (n_in z) <> 0 ->
  rk_from_dict emb h (rk_dict o) = Err TypeError.
Proof.
  intros F P I; rewrite (from_dict_start emb h z o F P); unfold shape_of_array.
  rewrite (dims_size z o _ F); cbn [dims_of]; destruct (Nat.eqb_spec (fold_right Nat.mul 1 (n_in z)) 0); [contradiction|reflexivity].
Qed.

Lemma embedded_never h d h' (o : rkobj) : embedded_from_dict h d <> Ok (h', Some o).
Proof.
  unfold embedded_from_dict; destruct (rk_from_dict true h d) as [[h1 o1]|]; cbn [bind]; [|discriminate].
  destruct (item d "embedded_dict"); cbn [bind]; [|discriminate]; destruct (item d "error_estimate"); cbn [bind]; discriminate.
Qed.
Lemma embedded_fails h (o : rkobj) : exists e, embedded_from_dict h (rk_dict o) = Err e.
Proof.
  unfold embedded_from_dict; destruct (rk_from_dict true h (rk_dict o)) as [[h1 o1]|e]; cbn [bind]; [|eauto].
  rewrite at_embedded; cbn; eauto.
Qed.

Lemma hd_zeros n : 0 < n -> hd n0 (vzeros n) = n0.
Proof. destruct n; [lia|reflexivity]. Qed.

Lemma from_dict_ok h z o : formed z o -> 0 < n_stages z -> fold_right Nat.mul 1 (n_in z) = 0 ->
  (forall f, exists_in h (attr o f)) ->
  exists h' o', rk_from_dict false h (rk_dict o) = Ok (h', o') /\
    (forall w, exists_in h w -> read h' w = read h w) /\
    rk_value h' o' = w_step_size n0 (w_embedded None (rk_value h o)) /\
    (forall f, In f [StageStates; StageUpdates; StageIndependentOutputs; StepSize] ->
       forall w, exists_in h w -> apart (attr o' f) w) /\
    (forall f, ~ In f [StageStates; StageUpdates; StageIndependentOutputs; StepSize] -> attr o' f = attr o f).
Proof.
  intros F P Z E; rewrite (from_dict_start false h z o F P); unfold shape_of_array.
  rewrite (dims_size z o _ F); cbn [dims_of]; rewrite Z; cbn [Nat.eqb bind].
  set (z1 := {| n_state := n_state z; n_in := []; n_out := n_out z; n_stages := n_stages z; n_lin := n_lin z |}).
  destruct (rk_new false h z1) as [h1 o1] eqn:Q.
  destruct (new_spec _ _ _ _ _ Q) as (G & Fo & X & Za & _ & B).
  set (o2 := rebind StageTimes _ _).
  assert (Nx : extra o1 = None).
  { destruct (extra o1) eqn:Ex; [|reflexivity]; exfalso; assert (false = true) by (apply X; congruence); discriminate. }
  assert (A2 : forall f, In f stage_fields \/ f = StepSize -> attr o2 f = attr o1 f).
  { intros f [I| ->]; [|reflexivity]; cbn in I; repeat (destruct I as [<-|I]; [reflexivity|]); contradiction. }
  assert (Fr : forall f w, exists_in h w -> apart (attr o1 f) w).
  { intros f w W; destruct (Za f) as (Ff & _); eapply fresh_apart; eassumption. }
  destruct (load_stages_spec h1 o2 o (n_stages z)) as (h' & R & C & Fm).
  - intros f I; rewrite A2 by (left; exact I); rewrite (Fo f), (F f).
    cbn in I; repeat (destruct I as [<-|I]; [split; reflexivity|]); contradiction.
  - intros f I; rewrite A2 by (left; exact I); split; [apply (Za f)|apply (grown_read _ _ _ G (E f))].
  - intros f g I I'; rewrite A2 by (left; exact I); apply Fr, E.
  - intros f g I I' D; rewrite !A2 by (left; assumption); apply bufs_apart, B, D.
  - rewrite R; cbn [bind].
    set (o3 := rebind LinearizationPoints _ _).
    assert (Kp : forall w, exists_in h w -> read h' w = read h w).
    { intros w W; rewrite Fm; [apply (grown_read _ _ _ G W)|]; intros f I; rewrite A2 by (left; exact I); apply Fr, W. }
    assert (A3 : forall f, In f [StageStates; StageUpdates; StageIndependentOutputs; StepSize] -> attr o3 f = attr o1 f).
    { intros f I; cbn in I; repeat (destruct I as [<-|I]; [reflexivity|]); contradiction. }
    assert (B3 : forall f, ~ In f [StageStates; StageUpdates; StageIndependentOutputs; StepSize] -> attr o3 f = attr o f).
    { intros f I; destruct f; try reflexivity; exfalso; apply I; cbn; tauto. }
    exists h', o3; split; [reflexivity|]; split; [exact Kp|]; split; [|split; [|exact B3]].
    + assert (R1 : forall f, ~ In f [StageStates; StageUpdates; StageIndependentOutputs; StepSize] -> read h' (attr o3 f) = read h (attr o f))
        by (intros f I; rewrite B3 by exact I; apply Kp, E).
      assert (R2 : forall f, In f stage_fields -> rows h' (attr o3 f) = rows h (attr o f)).
      { intros f I; transitivity (rows h1 (attr o f)).
        - rewrite <- (C f I); f_equal; rewrite A3, A2; auto; cbn in I |- *; tauto.
        - apply rows_same; [reflexivity|apply (grown_read _ _ _ G (E f))]. }
      assert (R3 : rows h' (attr o3 LinearizationPoints) = rows h (attr o LinearizationPoints)).
      { apply rows_same; [rewrite B3; [reflexivity|]|apply R1]; cbn; intuition discriminate. }
      assert (R4 : entry0 h' (attr o3 StepSize) = n0).
      { unfold entry0; rewrite A3 by (cbn; tauto); rewrite Fm.
        - rewrite (proj2 (proj2 (Za StepSize))); reflexivity.
        - intros f I; rewrite A2 by (left; exact I); apply bufs_apart, B; cbn in I; intuition congruence. }
      unfold rk_value, w_step_size, w_embedded; cbn [start_state stage_states stage_updates final_state independent_inputs
        stage_independent_outputs final_independent_outputs start_time stage_times final_time step_size linearization_points embedded].
      rewrite R3, R4; f_equal; try (apply R2; cbn; tauto); try (apply R1; cbn; intuition discriminate);
        try (apply entry_same, R1; cbn; intuition discriminate).
      change (extra o3) with (extra o1); rewrite Nx; reflexivity.
    + intros f I w W; rewrite A3 by exact I; apply Fr, W.
Qed.

(** Time integration states. *)
Lemma from_dict_plain h d h' o : rk_from_dict false h d = Ok (h', o) -> extra o = None.
Proof.
  unfold rk_from_dict; intros R.
  repeat (match type of R with
    | bind ?m _ = Ok _ => destruct m; cbn [bind] in R; [|discriminate]
    | (let (_, _) := rk_new false ?x ?z in _) = _ => destruct (rk_new false x z) as [h1 o1] eqn:Q
    end).
  injection R as <- <-; change (extra o1 = None).
  destruct (new_spec _ _ _ _ _ Q) as (_ & _ & X & _).
  destruct (extra o1) eqn:Ex; [|reflexivity]; exfalso; assert (false = true) by (apply X; discriminate); discriminate.
Qed.

Lemma ti_from_dict_scalar h o h' a : ti_from_dict h (ti_to_dict o) = Ok (h', a) ->
  (exists x, a_suggestion a = Flt x) /\ extra (a_disc a) = None.
Proof.
  unfold ti_from_dict; change (item (ti_to_dict o) "discretization_state") with (@Ok (pyval T) (rk_dict (o_disc o))); cbn [bind].
  destruct (rk_from_dict false h _) as [[h1 o1]|] eqn:Q; cbn [bind]; [|discriminate].
  change (array_at (ti_to_dict o) "step_size_suggestion") with (@Ok view (o_suggestion o)); cbn [bind].
  destruct (read h1 (o_suggestion o)) as [|y l]; cbn [bind]; [discriminate|].
  change (item (ti_to_dict o) "step_size_history") with (@Ok (pyval T) (Arr (o_step_hist o))); cbn [bind].
  change (item (ti_to_dict o) "error_history") with (@Ok (pyval T) (Arr (o_err_hist o))); cbn [bind].
  intros R; injection R as <- <-; split; [eexists; reflexivity|]; cbn; exact (from_dict_plain _ _ _ _ Q).
Qed.

Lemma ti_from_dict_never_equal h o h' a : ti_from_dict h (ti_to_dict o) = Ok (h', a) -> ~ equal_states h o h' a.
Proof.
  intros R (o' & _ & S & _); destruct (ti_from_dict_scalar _ _ _ _ R) as [[x X] _]; congruence.
Qed.

(** The rest does come back when there are no independent inputs. *)
Lemma ti_from_dict_ok h z o : proper h o -> formed z (o_disc o) -> 0 < n_stages z -> fold_right Nat.mul 1 (n_in z) = 0 ->
  dims (o_suggestion o) = [1] ->
  exists h' a, ti_from_dict h (ti_to_dict o) = Ok (h', a) /\
    rk_value h' (a_disc a) = w_step_size n0 (w_embedded None (disc (ti_value h o))) /\
    a_suggestion a = Flt (suggestion (ti_value h o)) /\
    (exists v, a_step_hist a = Arr v /\ read h' v = step_hist (ti_value h o)) /\
    (exists v, a_err_hist a = Arr v /\ read h' v = err_hist (ti_value h o)).
Proof.
  intros [E O] F P Z D.
  destruct (from_dict_ok h z (o_disc o) F P Z (fun f => E (Disc f) _ eq_refl)) as (h' & o' & R & K & V & _).
  assert (Ks : read h' (o_suggestion o) = read h (o_suggestion o)) by (apply K, (E Suggestion); reflexivity).
  assert (Ls : length (read h (o_suggestion o)) = 1) by (rewrite read_length by (apply (E Suggestion); reflexivity); unfold size; rewrite D; reflexivity).
  unfold ti_from_dict; change (item (ti_to_dict o) "discretization_state") with (@Ok (pyval T) (rk_dict (o_disc o))); cbn [bind].
  rewrite R; cbn [bind].
  change (array_at (ti_to_dict o) "step_size_suggestion") with (@Ok view (o_suggestion o)); cbn [bind].
  rewrite Ks; unfold ti_value, entry0; cbn [suggestion step_hist err_hist disc].
  destruct (read h (o_suggestion o)) as [|y l]; [discriminate|]; cbn [bind].
  exists h'; eexists; split; [reflexivity|]; cbn; split; [exact V|]; split; [reflexivity|].
  split; eexists; (split; [reflexivity|]); apply K; [apply (E StepHistory)|apply (E ErrorHistory)]; reflexivity.
Qed.
End Dicts.
