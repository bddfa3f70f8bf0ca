(** Lemmas: callbacks as operations of all processes; vectors of outputs;
    metadata extended twice. *)
From Coq Require Import String.
From Coq Require Import List Bool Arith Lia.
From Verif Require Import Base M_Tableau M_State M_ODE M_Step M_Controller M_Measure M_Integrator M_Metadata M_MPI M_MPIRun
  SpecMPI SpecMPIRun SpecMeet L_MPI5.
Import ListNotations.
Local Open Scope nat_scope.
Local Open Scope list_scope.

Section Meet.
Context {T : Type} {N : Num T} {C : Type}.
Variable op : options T C.
Variable ord : order T.
Variable excl : list string.
Variable md : metadata.
Variable o : ode T.

Lemma met_bind {A B} (p : prog T A) (f : A -> prog T B) : met o (pbind p f) = met o p ++ met o (f (alone o p)).
Proof. induction p; cbn; auto. rewrite IHp. reflexivity. Qed.
Lemma alone_bind' {A B} (p : prog T A) (f : A -> prog T B) : alone o (pbind p f) = alone o (f (alone o p)).
Proof. induction p; cbn; auto. Qed.

(** The log grows by what has been met. *)
Definition tracks {A} (p : pmethod (T := T) (C := C) A) : Prop := forall w,
  first_calls (log (fst (alone o (p w)))) = first_calls (log w) ++ met o (p w).
Definition silent {A} (p : prog T A) : Prop := met o p = [].

Lemma tracks_lift {A} (m : method T C A) : (forall w, log (fst (m w)) = log w) -> tracks (plift m).
Proof. intros H w. cbn. rewrite H, app_nil_r. reflexivity. Qed.
Lemma tracks_then {A B} (p : pmethod (T := T) (C := C) A) (k : A -> pmethod B) : tracks p -> (forall a, tracks (k a)) -> tracks (pthen p k).
Proof.
  intros P K w. unfold pthen. rewrite alone_bind', met_bind. specialize (P w).
  destruct (alone o (p w)) as [w' [a|e]]; cbn [fst] in P.
  - rewrite (K a w'), P, app_assoc. reflexivity.
  - cbn. rewrite app_nil_r. exact P.
Qed.
Lemma tracks_reading {A} (f : component T C -> pmethod A) : (forall w, tracks (f w)) -> tracks (preading f).
Proof. intros H w. apply H. Qed.
Lemma tracks_silent {A B} (p : component T C -> prog T B) (g : component T C -> B -> component T C * res A) :
  (forall w, silent (p w)) -> (forall w b, log (fst (g w b)) = log w) -> tracks (fun w => pbind (p w) (fun b => Done _ (g w b))).
Proof. intros H G w. rewrite alone_bind', met_bind, (H w). cbn. rewrite G, app_nil_r. reflexivity. Qed.

Lemma silent_try {A B} (p : prog T (res A)) (f : A -> prog T (res B)) : silent p -> (forall a, silent (f a)) -> silent (ptry p f).
Proof. intros P F. unfold silent, ptry. rewrite met_bind, P. destruct (alone o p); [apply F|reflexivity]. Qed.
Lemma silent_stages (b : rkstate T -> nat -> prog T (res (rkstate T))) l : (forall s i, silent (b s i)) -> forall s, silent (p_for_stages b l s).
Proof. intros H. induction l as [|i l IH]; intros s; [reflexivity|]. apply silent_try; [apply H|exact IH]. Qed.
Lemma silent_norm x : silent (p_norm ord excl md x).
Proof. unfold silent, p_norm. repeat (match goal with |- context [match ?x with _ => _ end] => destruct x end; try reflexivity). Qed.
Lemma silent_measure s : silent (p_state_measure op ord excl md s).
Proof.
  unfold p_state_measure. destruct (embedded s) as [[y err]|]; [|reflexivity]. unfold p_measure. destruct (o_meas op); [apply silent_norm|].
  apply silent_try; [apply silent_norm|intros a]. apply silent_try; [apply silent_norm|reflexivity].
Qed.
Lemma silent_step s h : silent (p_compute_step op s h).
Proof.
  unfold p_compute_step. cbv zeta. apply silent_try; [apply silent_stages; reflexivity|reflexivity].
Qed.
Lemma silent_iterate fuel : forall c st, silent (p_iterate op ord excl md fuel c st).
Proof.
  induction fuel as [|fuel IH]; intros c st; [reflexivity|]. unfold silent. cbn [p_iterate]. rewrite met_bind, silent_step.
  destruct (alone o (p_compute_step op (disc st) (suggestion st))) as [tmp|e]; [|reflexivity].
  destruct (o_adaptive op); [|reflexivity]. rewrite met_bind, silent_measure.
  destruct (alone o (p_state_measure op ord excl md tmp)) as [em|e]; [|reflexivity].
  destruct (o_ctl op c _) as [c' [stat|e]]; [|reflexivity]. cbn [app met]. destruct (acceptance stat); [reflexivity|apply IH].
Qed.
Lemma silent_derivative s p h : silent (p_step_derivative op s p h).
Proof. unfold p_step_derivative. cbv zeta. apply silent_try; [apply silent_stages; reflexivity|reflexivity]. Qed.
Lemma silent_adjoint s p h : silent (p_step_adjoint op s p h).
Proof. unfold p_step_adjoint. cbv zeta. apply silent_try; [apply silent_stages; reflexivity|reflexivity]. Qed.

Lemma first_app (l l' : list (event T)) : first_calls (l ++ l') = first_calls l ++ first_calls l'.
Proof. apply flat_map_app. Qed.
Lemma later_hooks ev hook : (forall i, first_callback (ev (S i)) = []) -> forall l i (w : component T C),
  first_calls (log (fst (call_hooks ev hook (S i) l w))) = first_calls (log w).
Proof.
  intros He. induction l as [|cb l IH]; intros i w; [reflexivity|].
  cbn [call_hooks]. unfold mbind, modify, mlift. destruct (hook cb) as [[]|e].
  - rewrite IH. cbn [fst log w_log]. rewrite first_app. unfold first_calls at 2. cbn [flat_map]. rewrite He. cbn [app]. apply app_nil_r.
  - cbn [fst log w_log]. rewrite first_app. unfold first_calls at 2. cbn [flat_map]. rewrite He. cbn [app]. apply app_nil_r.
Qed.
Lemma tracks_hooks m b step st : tracks (p_hooks op m b step st).
Proof.
  intros w. unfold p_hooks, before_hooks, after_hooks. destruct (o_callbacks op m) as [|cb l].
  - destruct b; cbn; rewrite app_nil_r; reflexivity.
  - cbn [alone met].
    destruct b; cbn [call_hooks]; unfold mbind, modify, mlift.
    + destruct (before_iteration cb step st) as [[]|e]; [rewrite later_hooks by reflexivity|]; cbn [fst log w_log]; rewrite first_app; reflexivity.
    + destruct (after_iteration cb step st) as [[]|e]; [rewrite later_hooks by reflexivity|]; cbn [fst log w_log]; rewrite first_app; reflexivity.
Qed.

Lemma tracks_step_live : tracks (p_step_live op ord excl md).
Proof.
  unfold p_step_live. intros w. rewrite alone_bind', met_bind, silent_iterate.
  destruct (alone o (p_iterate op ord excl md (retry_limit op) (ctl w) (live w))) as [[c' st'] r]. cbn. rewrite app_nil_r. reflexivity.
Qed.
Lemma tracks_pert (p : component T C -> prog T (res (rkstate T))) : (forall w, silent (p w)) ->
  tracks (preading (fun w => pthen (fun w' => pbind (p w) (fun r => Done _ (w', r)))
     (fun d => plift (modify (fun w => w_pert (w_disc (rk_set (disc (pert w)) d) (pert w)) w))))).
Proof.
  intros H. apply tracks_reading. intros w. apply tracks_then; [|intros d; apply tracks_lift; reflexivity].
  apply (tracks_silent (fun _ => p w) (fun w' r => (w', r))); [intros; apply H|reflexivity].
Qed.
Lemma tracks_run_step step : tracks (p_run_step op ord excl md step).
Proof.
  apply tracks_then; [apply tracks_reading; intros w; apply tracks_hooks|intros _].
  apply tracks_then; [apply tracks_step_live|intros _; apply tracks_reading; intros w; apply tracks_hooks].
Qed.
Lemma tracks_run_step_rev step st : tracks (p_run_step_rev op step st).
Proof.
  apply tracks_then; [apply tracks_hooks|intros _]. apply tracks_then; [|intros _; apply tracks_hooks].
  apply (tracks_pert (fun w => p_step_adjoint op (disc st) (disc (pert w)) (nth 0 (step_hist st) n0))). intros w; apply silent_adjoint.
Qed.
Lemma tracks_run_step_fwd step : tracks (p_run_step_fwd op ord excl md step).
Proof.
  apply tracks_then; [apply tracks_reading; intros w; apply tracks_hooks|intros _]. apply tracks_then; [apply tracks_step_live|intros _].
  apply tracks_then; [|intros _; apply tracks_reading; intros w; apply tracks_hooks].
  apply (tracks_pert (fun w => p_step_derivative op (disc (live w)) (disc (pert w)) (nth 0 (step_hist (live w)) n0))). intros w; apply silent_derivative.
Qed.
Lemma tracks_forward_loop keep fuel : forall it, tracks (p_forward_loop op ord excl md keep fuel it).
Proof.
  induction fuel as [|fuel IH]; intros it; [apply tracks_lift; reflexivity|].
  apply tracks_reading; intros w; destruct (is_iteration_finished (o_crit op) it (live w)); [apply tracks_lift; reflexivity|].
  apply tracks_then; [apply tracks_run_step|intros _]; apply tracks_then; [apply tracks_lift; destruct keep; reflexivity|intros _; apply IH].
Qed.
Lemma tracks_fwd_steps fuel : forall it, tracks (p_fwd_steps op ord excl md fuel it).
Proof.
  induction fuel as [|fuel IH]; intros it; [apply tracks_lift; reflexivity|].
  apply tracks_reading; intros w; destruct (is_iteration_finished (o_crit op) it (live w)); [apply tracks_lift; reflexivity|].
  apply tracks_then; [apply tracks_run_step_fwd|intros _; apply IH].
Qed.
Lemma tracks_reverse_all l : tracks (p_reverse_all op l).
Proof.
  induction l as [|st l IH]; [apply tracks_lift; reflexivity|].
  apply tracks_then; [apply tracks_lift; reflexivity|intros _]; apply tracks_then; [apply tracks_run_step_rev|intros _; exact IH].
Qed.
Lemma tracks_forward_operator n : forall lo, tracks (p_forward_operator op ord excl md n lo).
Proof. induction n as [|n IH]; intros lo; [apply tracks_lift; reflexivity|]; apply tracks_then; [apply tracks_run_step|intros _; apply IH]. Qed.
Lemma tracks_reverse_operator n lo : tracks (p_reverse_operator op n lo).
Proof.
  induction n as [|n IH]; [apply tracks_lift; reflexivity|].
  apply tracks_then; [apply tracks_reading; intros w; apply tracks_run_step_rev|intros _; exact IH].
Qed.
Lemma tracks_actions l : tracks (p_run_actions op ord excl md l).
Proof.
  induction l as [|a l IH]; [apply tracks_lift; reflexivity|]. apply tracks_then; [|intros _; exact IH].
  destruct a; cbn [p_run_action]; [apply tracks_forward_operator|apply tracks_lift; reflexivity| |apply tracks_reverse_operator].
  apply tracks_lift. intros w. cbn. unfold reading. destruct (find _ (slots w)) as [[? snap]|]; reflexivity.
Qed.
Lemma tracks_iterate_forward : tracks (p_iterate_forward op ord excl md).
Proof.
  unfold p_iterate_forward. destruct (o_ckpt op); [apply tracks_forward_loop|apply tracks_forward_loop|].
  apply tracks_then; [apply tracks_forward_operator|intros _]. apply tracks_then; [apply tracks_lift; reflexivity|intros _; apply tracks_actions].
Qed.
Lemma tracks_iterate_reverse : tracks (p_iterate_reverse op ord excl md).
Proof.
  unfold p_iterate_reverse. destruct (o_ckpt op); [apply tracks_lift; reflexivity|apply tracks_reading; intros w; apply tracks_reverse_all|].
  apply tracks_then; [apply tracks_actions|intros _]. apply tracks_then; [apply tracks_lift; reflexivity|intros _; apply tracks_reverse_operator].
Qed.
Lemma tracks_compute i : tracks (p_compute op ord excl md i).
Proof.
  apply tracks_then; [apply tracks_lift; reflexivity|intros _].
  apply tracks_then; [apply tracks_lift; intros w; unfold create_checkpointer; destruct (o_ckpt op); reflexivity|intros _].
  apply tracks_then; [apply tracks_iterate_forward|intros _; apply tracks_lift; reflexivity].
Qed.
Lemma tracks_fwd i d : tracks (p_product_fwd op ord excl md i d).
Proof.
  apply tracks_then; [apply tracks_lift; reflexivity|intros _].
  apply tracks_then; [apply tracks_fwd_steps|intros _; apply tracks_lift; reflexivity].
Qed.
Lemma tracks_rev i d : tracks (p_product_rev op ord excl md i d).
Proof.
  apply tracks_then.
  - apply tracks_then; [|intros _; apply tracks_lift; reflexivity]. apply tracks_reading; intros w.
    destruct (cache_hit i (cached w)); [apply tracks_lift; reflexivity|]. apply tracks_then; [apply tracks_compute|intros _; apply tracks_lift; reflexivity].
  - intros _. apply tracks_then; [apply tracks_iterate_reverse|intros _].
    apply tracks_then; [apply tracks_lift; reflexivity|intros r]. apply tracks_then; [apply tracks_lift; reflexivity|intros _; apply tracks_lift; reflexivity].
Qed.
Lemma tracks_calls l : forall w,
  first_calls (log (fst (alone o (p_calls op ord excl md l w)))) = first_calls (log w) ++ met o (p_calls op ord excl md l w).
Proof.
  assert (F : forall A (p : pmethod (T := T) (C := C) A), tracks p -> forall w,
    first_calls (log (fst (alone o (forget (p w))))) = first_calls (log w) ++ met o (forget (p w))).
  { intros A p P w. unfold forget. rewrite alone_bind', met_bind. cbn. rewrite app_nil_r. apply P. }
  induction l as [|k l IH]; intros w; [cbn; rewrite app_nil_r; reflexivity|].
  cbn [p_calls]. rewrite alone_bind', met_bind, alone_bind', met_bind. cbn [alone met fst]. rewrite app_nil_r, IH, app_assoc. f_equal.
  destruct k; cbn [p_call]; apply F; [apply tracks_compute|apply tracks_fwd|apply tracks_rev].
Qed.
End Meet.

(** Metadata extended by further time-independent inputs. *)
Lemma scan_input_appends rank vs qs : forall l acc acc', scan (scan_input rank vs qs) acc l = Ok acc' ->
  exists new, snd acc' = snd acc ++ new /\ length new = length l.
Proof.
  induction l as [|v l IH]; intros acc acc' H; cbn [scan] in H.
  - injection H as <-. exists []. rewrite app_nil_r. auto.
  - destruct (scan_input rank vs qs acc v) as [acc1|e] eqn:E; cbn [bind] in H; [|discriminate].
    assert (G : exists q, snd acc1 = snd acc ++ [q]).
    { unfold scan_input in E. destruct (tag_intersection qs (v_tags v)) as [|q [|? ?]]; try discriminate.
      destruct (is_local rank v); [|injection E as <-; eexists; reflexivity].
      destruct (extract_time_independent_quantity rank vs q (fst acc)) as [[size qu]|e]; [|discriminate].
      injection E as <-. eexists. reflexivity. }
    destruct G as (q & G). destruct (IH _ _ H) as (new & E1 & E2). exists (q :: new).
    rewrite E1, G, <- app_assoc. split; [reflexivity|cbn; rewrite E2; reflexivity].
Qed.
Lemma c25_appended rank vs qs md md' : add_time_independent_input_metadata rank vs qs md = Ok md' ->
  time_variable md' = time_variable md /\ time_integration_array_size md' = time_integration_array_size md /\
  time_integration_quantities md' = time_integration_quantities md /\
  exists new, time_independent_quantities md' = time_independent_quantities md ++ new /\ length new = length (with_tags qs (M_Metadata.inputs_of vs)).
Proof.
  unfold add_time_independent_input_metadata. destruct (scan _ _ _) as [[size ql]|e] eqn:E; cbn [bind]; [|discriminate].
  intros [= <-]. cbn. split; [reflexivity|]. split; [reflexivity|]. split; [reflexivity|].
  exact (scan_input_appends _ _ _ _ _ _ E).
Qed.
