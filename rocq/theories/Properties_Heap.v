(** Property theorems about the state objects and their memory: C30 to C32. *)
From Coq Require Import String.
From Coq Require Import List Arith ZArith.
From Verif Require Import Base M_State M_Heap M_Integrator SpecHeap L_Heap L_Heap2 L_Heap3 L_Heap4 WitnessRun WitnessHeap.
Import ListNotations.
Local Open Scope string_scope.
Local Open Scope nat_scope.
Local Open Scope list_scope.

(** ** C30: Snapshots are independent copies *)

(** [set] copies every attribute of the class without error estimate, and
    nothing outside the target changes. *)
Theorem C30_set_copies_partial :
  forall (T : Type) (N : Num T) (h : heap T) (a b : tiobj),
  proper h a -> proper h b -> separate a b -> same_shape a b -> plain a ->
  exists h', ti_obj_set h a b = Ok (h', a) /\ ti_value h' a = ti_value h b /\ ti_value h' b = ti_value h b /\
    proper h' a /\ proper h' b /\ only a h h'.
Proof.
  intros T N h a b Pa Pb S D Pl; destruct (set_value h a b Pa Pb S D) as (h' & R & P1 & P2 & V1 & V2 & O).
  exists h'; repeat split; try assumption; try (apply P1); try (apply P2); try (apply O; assumption).
  rewrite V1; unfold ti_set, ti_value, rk_set, rk_value; cbn; f_equal; f_equal.
  pose proof (D EmbeddedState) as Q; unfold plain in Pl; cbn in Q; rewrite Pl in *; cbn in *.
  destruct (extra (o_disc b)); [discriminate|reflexivity].
Qed.
Print Assumptions C30_set_copies_partial.

Example C30_meets_hypotheses : proper (wh false wz) (wa false wz) /\ proper (wh false wz) (wb false wz) /\
  separate (wa false wz) (wb false wz) /\ same_shape (wa false wz) (wb false wz) /\ plain (wa false wz) /\
  ti_value (wh false wz) (wa false wz) <> ti_value (wh false wz) (wb false wz).
Proof.
  destruct (wh_spec false wz) as (A & B & _ & _ & S); repeat (split; [assumption || apply w_same || reflexivity|]).
  intros E; apply (f_equal (suggestion (T := Z))) in E; vm_compute in E; discriminate.
Qed.

(** For both classes it does what the state model of M_State.v says: the two
    additional arrays of the embedded class keep their contents. *)
Theorem C30_set_is_the_state_model :
  forall (T : Type) (N : Num T) (h : heap T) (a b : tiobj),
  proper h a -> proper h b -> separate a b -> same_shape a b ->
  exists h', ti_obj_set h a b = Ok (h', a) /\ proper h' a /\ proper h' b /\
    ti_value h' a = ti_set (ti_value h a) (ti_value h b) /\ ti_value h' b = ti_value h b /\ only a h h'.
Proof. intros T N; exact set_value. Qed.
Print Assumptions C30_set_is_the_state_model.

Example C30_embedded_meets_hypotheses : proper (wh true wz) (wa true wz) /\ proper (wh true wz) (wb true wz) /\
  separate (wa true wz) (wb true wz) /\ same_shape (wa true wz) (wb true wz).
Proof. destruct (wh_spec true wz) as (A & B & _ & _ & S); exact (conj A (conj B (conj S (w_same true)))). Qed.

(** So the copy of an embedded state is not equal to its source. *)
Theorem C30_embedded_set_refuted :
  exists (h : heap Z) (a b : tiobj) (h' : heap Z) (a' : tiobj),
  proper h a /\ proper h b /\ separate a b /\ same_shape a b /\
  ti_obj_set h a b = Ok (h', a') /\ ti_value h' a' <> ti_value h b.
Proof.
  destruct (wh_spec true wz) as (A & B & _ & _ & S); destruct set_forgets_embedded as (h' & a' & R & E1 & E2).
  exists (wh true wz), (wa true wz), (wb true wz), h', a'; repeat (split; [assumption || apply w_same|]).
  intros E; rewrite E, E2 in E1; discriminate.
Qed.
Print Assumptions C30_embedded_set_refuted.

(** After [set], whatever is done to one of the two leaves the other alone. *)
Theorem C30_independent_after_set :
  forall (T : Type) (N : Num T) (h : heap T) (a b : tiobj) (h' : heap T) (a' : tiobj),
  proper h a -> proper h b -> separate a b -> same_shape a b -> ti_obj_set h a b = Ok (h', a') ->
  forall h2, (only a' h' h2 -> ti_value h2 b = ti_value h' b) /\ (only b h' h2 -> ti_value h2 a' = ti_value h' a').
Proof.
  intros T N h a b h' a' Pa Pb S D R; destruct (set_value h a b Pa Pb S D) as (h1 & R1 & P1 & P2 & _); rewrite R in R1.
  injection R1 as <- <-; intros h2; split; intros O; eapply only_other; eauto using separate_sym.
Qed.
Print Assumptions C30_independent_after_set.

(** Setting an object to itself does nothing. *)
Theorem C30_set_to_itself :
  forall (T : Type) (N : Num T) (h : heap T) (o : tiobj), ti_obj_set h o o = Ok (h, o).
Proof. intros T N; exact set_self. Qed.
Print Assumptions C30_set_to_itself.

(** A deep copy equals its source, with the additional arrays of the embedded
    class, and shares no memory with anything that existed. *)
Theorem C30_deep_copy :
  forall (T : Type) (N : Num T) (h : heap T) (o : tiobj) (h' : heap T) (c : tiobj),
  proper h o -> ti_deepcopy h o = (h', c) ->
  proper h' c /\ ti_value h' c = ti_value h o /\ proper h' o /\ ti_value h' o = ti_value h o /\
  (forall w, exists_in h w -> exists_in h' w /\ read h' w = read h w /\ forall k v, at_key c k = Some v -> apart v w).
Proof. exact (@deepcopy_value). Qed.
Print Assumptions C30_deep_copy.

(** Deep copies that are kept while work on the live object goes on still have
    the values the object had when they were made. *)
Theorem C30_kept_copies_stay :
  forall (T : Type) (N : Num T) (live : tiobj) (h : heap T) (snaps : list tiobj) (seen : list (tistate T)),
  history live h snaps seen -> map (ti_value h) snaps = seen.
Proof.
  intros T N live h snaps seen H; destruct (history_spec _ _ _ _ H) as [_ F].
  induction F as [|s y snaps' seen' (_ & _ & V) F IH] in H |- *; [reflexivity|]; cbn; rewrite V; f_equal.
  clear H IH; induction F as [|s' y' l l' (_ & _ & V') F IH]; [reflexivity|]; cbn; rewrite V', IH; reflexivity.
Qed.
Print Assumptions C30_kept_copies_stay.

(** Two copies, with a change of the live object in between. *)
Example C30_history_nonvacuous : exists h s1 s2 y1 y2, history (wa true wz) h [s2; s1] [y2; y1] /\ y1 <> y2.
Proof.
  destruct (wh_spec true wz) as (P & _).
  destruct (ti_deepcopy (wh true wz) (wa true wz)) as [h1 s1] eqn:C1.
  destruct (deepcopy_value _ _ _ _ P C1) as (_ & _ & P1 & V1 & _).
  set (v := o_suggestion (wa true wz)).
  assert (E : exists_in h1 v) by (apply (proj1 P1 Suggestion); reflexivity).
  set (h2 := store h1 v [4%Z]).
  assert (L : length [4%Z] = size v) by reflexivity.
  assert (P2 : proper h2 (wa true wz)) by (apply store_proper; assumption).
  destruct (ti_deepcopy h2 (wa true wz)) as [h3 s2] eqn:C2.
  exists h3, s1, s2, (ti_value (wh true wz) (wa true wz)), (ti_value h2 (wa true wz)); split.
  - eapply history_keep; [|exact C2]; eapply history_work; [eapply history_keep; [apply history_start, P|exact C1]| |exact P2].
    intros w W A; split; [apply store_exists; assumption|]; apply read_store_apart; auto; apply (A Suggestion); reflexivity.
  - rewrite <- V1; intros Q; apply (f_equal (suggestion (T := Z))) in Q; unfold ti_value in Q; cbn [suggestion] in Q.
    unfold entry0 in Q; fold v in Q; unfold h2 in Q; rewrite read_store_same in Q by assumption.
    assert (Rv : read h1 v = [1%Z]).
    { transitivity (read (wh true wz) v); [|reflexivity].
      destruct (deepcopy_value _ _ _ _ P C1) as (_ & _ & _ & _ & K); apply (K v), (proj1 P Suggestion); reflexivity. }
    rewrite Rv in Q; discriminate.
Qed.

(** New objects share no memory with anything that exists. *)
Theorem C30_new_objects_are_separate :
  forall (T : Type) (N : Num T) (emb : bool) (h : heap T) (z : sizes) (s sh eh : list T) (h' : heap T) (o : tiobj),
  ti_new emb h z s sh eh = (h', o) ->
  proper h' o /\ formed z (o_disc o) /\
  (forall w, exists_in h w -> exists_in h' w /\ read h' w = read h w /\ forall k v, at_key o k = Some v -> apart v w).
Proof.
  intros T N emb h z s sh eh h' o Q; destruct (ti_new_spec _ _ _ _ _ _ _ _ Q) as (P & F & _ & K & _); auto.
Qed.
Print Assumptions C30_new_objects_are_separate.

(** ** C31: State dictionaries round-trip *)

(** A discretization state without independent inputs comes back from its
    dictionary except for the step size. *)
Theorem C31_plain_round_trip_partial :
  forall (T : Type) (N : Num T) (h : heap T) (z : sizes) (o : rkobj),
  formed z o -> 0 < n_stages z -> fold_right Nat.mul 1 (n_in z) = 0 -> (forall f, exists_in h (attr o f)) ->
  exists h' o', rk_from_dict false h (Dict (rk_to_dict o)) = Ok (h', o') /\
    rk_value h' o' = w_step_size n0 (w_embedded None (rk_value h o)) /\
    (forall w, exists_in h w -> read h' w = read h w).
Proof.
  intros T N h z o F P Z E; destruct (from_dict_ok h z o F P Z E) as (h' & o' & R & K & V & _); eauto.
Qed.
Print Assumptions C31_plain_round_trip_partial.

Example C31_meets_hypotheses : formed wz (o_disc (wb false wz)) /\ 0 < n_stages wz /\ fold_right Nat.mul 1 (n_in wz) = 0 /\
  (forall f, exists_in (wh false wz) (attr (o_disc (wb false wz)) f)) /\
  stage_states (rk_value (wh false wz) (o_disc (wb false wz))) = [[8%Z]; [8%Z]].
Proof.
  destruct (wh_spec false wz) as (_ & P & _ & F & _); split; [exact F|]; split; [cbn; auto with arith|]; split; [reflexivity|].
  split; [intros f; apply (proj1 P (Disc f)); reflexivity|vm_compute; reflexivity].
Qed.

(** The result shares the arrays that are not per stage with the original. *)
Theorem C31_result_shares_arrays :
  forall (T : Type) (N : Num T) (h : heap T) (z : sizes) (o : rkobj),
  formed z o -> 0 < n_stages z -> fold_right Nat.mul 1 (n_in z) = 0 -> (forall f, exists_in h (attr o f)) ->
  exists h' o', rk_from_dict false h (Dict (rk_to_dict o)) = Ok (h', o') /\
    forall f, (In f [StageStates; StageUpdates; StageIndependentOutputs; StepSize] ->
                 forall w, exists_in h w -> apart (attr o' f) w) /\
              (~ In f [StageStates; StageUpdates; StageIndependentOutputs; StepSize] -> attr o' f = attr o f).
Proof.
  intros T N h z o F P Z E; destruct (from_dict_ok h z o F P Z E) as (h' & o' & R & _ & _ & A & B).
  exists h', o'; split; [exact R|]; intros f; split; [apply A|apply B].
Qed.
Print Assumptions C31_result_shares_arrays.

(** With independent inputs the call raises, for every state. *)
Theorem C31_independent_inputs_refuted :
  forall (T : Type) (N : Num T) (emb : bool) (h : heap T) (z : sizes) (o : rkobj),
  formed z o -> 0 < n_stages z -> fold_right Nat.mul 1 (n_in z) <> 0 ->
  rk_from_dict emb h (Dict (rk_to_dict o)) = Err TypeError.
Proof. exact (@from_dict_inputs). Qed.
Print Assumptions C31_independent_inputs_refuted.

Example C31_inputs_meet_hypotheses : formed wz_in (o_disc (wb false wz_in)) /\ 0 < n_stages wz_in /\
  fold_right Nat.mul 1 (n_in wz_in) <> 0 /\ proper (wh false wz_in) (wb false wz_in).
Proof.
  destruct (wh_spec false wz_in) as (_ & P & _ & F & _); split; [exact F|]; split; [cbn; auto with arith|]; split; [discriminate|exact P].
Qed.

(** The embedded class never returns a state: on every dictionary it has made
    itself the call raises, and on no dictionary is there a result. *)
Theorem C31_embedded_refuted :
  forall (T : Type) (N : Num T) (h : heap T),
  (forall o, exists e, embedded_from_dict h (Dict (rk_to_dict o)) = Err e) /\
  (forall d h' o, embedded_from_dict h d <> Ok (h', Some o)).
Proof. intros T N h; split; [exact (embedded_fails h)|exact (embedded_never h)]. Qed.
Print Assumptions C31_embedded_refuted.

(** For time integration states the suggestion comes back as a number and not as
    an array, so that the result is equal to the original for no state; the
    arrays of an embedded state are lost. *)
Theorem C31_time_integration_refuted :
  forall (T : Type) (N : Num T) (h : heap T) (o : tiobj) (h' : heap T) (a : tiany T),
  ti_from_dict h (ti_to_dict o) = Ok (h', a) ->
  ~ equal_states h o h' a /\ (exists x, a_suggestion a = Flt x) /\ extra (a_disc a) = None.
Proof.
  intros T N h o h' a R; split; [exact (ti_from_dict_never_equal _ _ _ _ R)|exact (ti_from_dict_scalar _ _ _ _ R)].
Qed.
Print Assumptions C31_time_integration_refuted.

(** The rest comes back when there are no independent inputs. *)
Theorem C31_time_integration_partial :
  forall (T : Type) (N : Num T) (h : heap T) (z : sizes) (o : tiobj),
  proper h o -> formed z (o_disc o) -> 0 < n_stages z -> fold_right Nat.mul 1 (n_in z) = 0 ->
  dims (o_suggestion o) = [1] ->
  exists h' a, ti_from_dict h (ti_to_dict o) = Ok (h', a) /\
    rk_value h' (a_disc a) = w_step_size n0 (w_embedded None (disc (ti_value h o))) /\
    a_suggestion a = Flt (suggestion (ti_value h o)) /\
    (exists v, a_step_hist a = Arr v /\ read h' v = step_hist (ti_value h o)) /\
    (exists v, a_err_hist a = Arr v /\ read h' v = err_hist (ti_value h o)).
Proof. exact (@ti_from_dict_ok). Qed.
Print Assumptions C31_time_integration_partial.

Example C31_time_integration_meets_hypotheses : proper (wh true wz) (wb true wz) /\ formed wz (o_disc (wb true wz)) /\
  0 < n_stages wz /\ fold_right Nat.mul 1 (n_in wz) = 0 /\ dims (o_suggestion (wb true wz)) = [1].
Proof.
  destruct (wh_spec true wz) as (_ & P & _ & F & _); split; [exact P|]; split; [exact F|]; split; [cbn; auto with arith|]; split; reflexivity.
Qed.

(** ** C32: Snapshot buffers of the recomputing checkpointer *)

(** For every dictionary of arrays the reported size is the number of scalars
    handed out, and no empty array is handed out. *)
Theorem C32_size_is_what_is_handed_out :
  forall (T : Type) (N : Num T) (d : pyval T),
  match locations d, data_size d with
  | Ok l, Ok n => n = list_sum (map size l) /\ Forall (fun v => size v <> 0) l
  | Err e, Err e' => e = e'
  | _, _ => False
  end.
Proof. intros T N; exact size_handed. Qed.
Print Assumptions C32_size_is_what_is_handed_out.

(** Saving a state and loading it later into an object of the same shape, after
    any changes, restores everything but the step size; nothing else changes.
    The slot has the reported length. *)
Theorem C32_save_then_load_partial :
  forall (T : Type) (N : Num T) (h0 h1 : heap T) (z : sizes) (o o2 : tiobj),
  proper h0 o -> proper h1 o2 -> formed z (o_disc o) -> same_shape o o2 ->
  exists h0' slot h2, save h0 (ti_to_dict o) = Ok (h0', slot) /\
    (forall w, exists_in h0 w -> exists_in h0' w /\ read h0' w = read h0 w) /\
    data_size (ti_to_dict (T := T) o) = Ok (length slot) /\
    load h1 slot (ti_to_dict o2) = Ok h2 /\
    ti_value h2 o2 = w_disc (w_step_size (step_size (disc (ti_value h1 o2))) (disc (ti_value h0 o))) (ti_value h0 o) /\
    only o2 h1 h2 /\ proper h2 o2.
Proof. exact (@save_load). Qed.
Print Assumptions C32_save_then_load_partial.

Example C32_meets_hypotheses : proper (wh true wz) (wb true wz) /\ proper (wh true wz) (wa true wz) /\
  formed wz (o_disc (wb true wz)) /\ same_shape (wb true wz) (wa true wz) /\
  size (attr (o_disc (wb true wz)) IndependentInputs) = 0 /\
  data_size (ti_to_dict (T := Z) (wb true wz)) = Ok 21.
Proof.
  destruct (wh_spec true wz) as (A & B & _ & F & _); split; [exact B|]; split; [exact A|]; split; [exact F|].
  split; [intros k; symmetry; apply w_same|]; split; vm_compute; reflexivity.
Qed.

(** The step size is not among the arrays handed out and is not restored. *)
Theorem C32_step_size_refuted :
  exists (h0 h1 : heap Z) (z : sizes) (o : tiobj) (h0' : heap Z) (slot : list Z) (h2 : heap Z),
  proper h0 o /\ proper h1 o /\ formed z (o_disc o) /\
  save h0 (ti_to_dict o) = Ok (h0', slot) /\ load h1 slot (ti_to_dict o) = Ok h2 /\ ti_value h2 o <> ti_value h0 o.
Proof.
  destruct (wh_spec false wz) as (_ & P & _ & F & _); destruct load_forgets_step_size as (h0' & slot & h2 & S & L & A & B).
  exists wstep, (wh false wz), wz, (wb false wz), h0', slot, h2.
  split; [exact wstep_proper|]; split; [exact P|]; split; [exact F|]; split; [exact S|]; split; [exact L|].
  intros E; rewrite E, A in B; discriminate.
Qed.
Print Assumptions C32_step_size_refuted.
