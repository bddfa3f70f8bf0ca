(** Lemmas: the calls of one process alone are those of the integrator model. *)
From Coq Require Import String.
From Coq Require Import List Bool Arith Lia.
From Verif Require Import Base M_Tableau M_State M_ODE M_Step M_Controller M_Measure M_Integrator M_Metadata M_MPI M_MPIRun
  SpecMPI SpecMPIRun L_MPI5.
Import ListNotations.
Local Open Scope nat_scope.
Local Open Scope list_scope.

Section Bridge.
Context {T : Type} {N : Num T} {C : Type}.
Variable op : options T C.
Variable ord : order T.
Variable excl : list string.
Variable md : metadata.
Notation o := (o_ode op).
Notation bt := (o_bt op).
Hypothesis Nm : forall x, compute_state_norms ord excl [(md, x)] =
  Ok [compute_state_norm o {| stage_update := []; stage_state := x; independent_output := [] |}].

Definition is {A} (p : pmethod A) (m : method T C A) : Prop := forall w, alone o (p w) = m w.

Lemma is_lift {A} (m : method T C A) : is (plift m) m.
Proof. intros w; reflexivity. Qed.
Lemma is_then {A B} (p : pmethod A) m (k : A -> pmethod B) l : is p m -> (forall a, is (k a) (l a)) -> is (pthen p k) (mbind m l).
Proof.
  intros P K w; unfold pthen, mbind; rewrite alone_bind, P; destruct (m w) as [w' [a|e]]; [apply K|reflexivity].
Qed.
Lemma is_reading {A} (f : component T C -> pmethod A) g : (forall w, is (f w) (g w)) -> is (preading f) (reading g).
Proof. intros H w; apply H. Qed.

Lemma alone_for_stages (b : rkstate T -> nat -> prog T (res (rkstate T))) b' l : (forall s i, alone o (b s i) = b' s i) ->
  forall s, alone o (p_for_stages b l s) = for_stages b' l s.
Proof.
  intros H; induction l as [|i l IH]; intros s; [reflexivity|].
  cbn [p_for_stages for_stages]; rewrite alone_try, H; destruct (b' s i); cbn [bind]; [apply IH|reflexivity].
Qed.
Lemma alone_derivative s p h : alone o (p_step_derivative op s p h) = compute_step_derivative bt o s p h.
Proof.
  unfold p_step_derivative, compute_step_derivative; cbv zeta.
  rewrite alone_try, (alone_for_stages _ (fun p i => compute_stage_derivative bt o (linearization_points s) p h i)) by reflexivity.
  destruct (for_stages _ _ _) as [q|e]; cbn [bind]; [|reflexivity].
  cbn [alone]; destruct (compute_final_independent_outputs _); reflexivity.
Qed.
Lemma alone_adjoint s p h : alone o (p_step_adjoint op s p h) = compute_step_adjoint_derivative bt o s p h.
Proof.
  unfold p_step_adjoint, compute_step_adjoint_derivative; cbv zeta.
  rewrite alone_try, (alone_for_stages _ (fun p i => compute_stage_adjoint_derivative bt o (linearization_points s) p h i)) by reflexivity.
  destruct (for_stages _ _ _) as [q|e]; cbn [bind]; reflexivity.
Qed.

Lemma is_hooks m b step st : is (p_hooks op m b step st) (if b then before_hooks op m step st else after_hooks op m step st).
Proof. intros w; unfold p_hooks; destruct (o_callbacks op m); reflexivity. Qed.
Lemma is_step_live : is (p_step_live op ord excl md) (step_live op).
Proof.
  intros w; unfold p_step_live, step_live; rewrite alone_bind, c37_alone by exact Nm.
  destruct (iterate_on_step op (retry_limit op) (ctl w) (live w)) as [[c' st'] r]; reflexivity.
Qed.
Lemma is_run_step step : is (p_run_step op ord excl md step) (run_step op step).
Proof.
  apply is_then; [apply is_reading; intros w; apply (is_hooks Compute true)|intros _].
  apply is_then; [apply is_step_live|intros _; apply is_reading; intros w; apply (is_hooks Compute false)].
Qed.
Lemma is_pert_update (p : component T C -> prog T (res (rkstate T))) r : (forall w, alone o (p w) = r w) ->
  is (preading (fun w => pthen (fun w' => pbind (p w) (fun r => Done _ (w', r)))
           (fun d => plift (modify (fun w => w_pert (w_disc (rk_set (disc (pert w)) d) (pert w)) w)))))
     (reading (fun w => mbind (mlift (r w)) (fun d => modify (fun w => w_pert (w_disc (rk_set (disc (pert w)) d) (pert w)) w)))).
Proof.
  intros H; apply is_reading; intros w; apply is_then; [|intros d; apply is_lift].
  intros w'; rewrite alone_bind, H; reflexivity.
Qed.
Lemma is_run_step_rev step st : is (p_run_step_rev op step st) (run_step_jacvec_rev op step st).
Proof.
  apply is_then; [apply (is_hooks Rev true)|intros _]; apply is_then; [|intros _; apply (is_hooks Rev false)].
  apply (is_pert_update _ (fun w => compute_step_adjoint_derivative bt o (disc st) (disc (pert w)) (nth 0 (step_hist st) n0))).
  intros w; apply alone_adjoint.
Qed.
Lemma is_derivative_live : is (p_step_derivative_live op) (step_derivative_live op).
Proof.
  apply (is_pert_update _ (fun w => compute_step_derivative bt o (disc (live w)) (disc (pert w)) (nth 0 (step_hist (live w)) n0))).
  intros w; apply alone_derivative.
Qed.
Lemma is_run_step_fwd step : is (p_run_step_fwd op ord excl md step) (run_step_jacvec_fwd op step).
Proof.
  apply is_then; [apply is_reading; intros w; apply (is_hooks Fwd true)|intros _].
  apply is_then; [apply is_step_live|intros _].
  apply is_then; [apply is_derivative_live|intros _; apply is_reading; intros w; apply (is_hooks Fwd false)].
Qed.

Lemma is_forward_loop keep fuel : forall it, is (p_forward_loop op ord excl md keep fuel it) (forward_loop op keep fuel it).
Proof.
  induction fuel as [|fuel IH]; intros it; [apply is_lift|].
  apply is_reading; intros w; destruct (is_iteration_finished (o_crit op) it (live w)); [apply is_lift|].
  apply is_then; [apply is_run_step|intros _]; apply is_then; [apply is_lift|intros _; apply IH].
Qed.
Lemma is_fwd_steps fuel : forall it, is (p_fwd_steps op ord excl md fuel it) (jacvec_fwd_run_steps op fuel it).
Proof.
  induction fuel as [|fuel IH]; intros it; [apply is_lift|].
  apply is_reading; intros w; destruct (is_iteration_finished (o_crit op) it (live w)); [apply is_lift|].
  apply is_then; [apply is_run_step_fwd|intros _; apply IH].
Qed.
Lemma is_reverse_all l : is (p_reverse_all op l) (reverse_all op l).
Proof.
  induction l as [|st l IH]; [apply is_lift|].
  apply is_then; [apply is_lift|intros _]; apply is_then; [apply is_run_step_rev|intros _; exact IH].
Qed.
Lemma is_forward_operator n : forall lo, is (p_forward_operator op ord excl md n lo) (forward_operator op n lo).
Proof. induction n as [|n IH]; intros lo; [apply is_lift|]; apply is_then; [apply is_run_step|intros _; apply IH]. Qed.
Lemma is_reverse_operator n lo : is (p_reverse_operator op n lo) (reverse_operator op n lo).
Proof.
  induction n as [|n IH]; [apply is_lift|].
  apply is_then; [apply is_reading; intros w; apply is_run_step_rev|intros _; exact IH].
Qed.
Lemma is_action a : is (p_run_action op ord excl md a) (run_action op a).
Proof. destruct a; [apply is_forward_operator|apply is_lift..|apply is_reverse_operator]. Qed.
Lemma is_actions l : is (p_run_actions op ord excl md l) (run_actions op l).
Proof. induction l as [|a l IH]; [apply is_lift|]; apply is_then; [apply is_action|intros _; exact IH]. Qed.
Lemma is_iterate_forward : is (p_iterate_forward op ord excl md) (iterate_forward op).
Proof.
  unfold p_iterate_forward, iterate_forward; destruct (o_ckpt op); [apply is_forward_loop..|].
  apply is_then; [apply is_forward_operator|intros _]; apply is_then; [apply is_lift|intros _; apply is_actions].
Qed.
Lemma is_iterate_reverse : is (p_iterate_reverse op ord excl md) (iterate_reverse op).
Proof.
  unfold p_iterate_reverse, iterate_reverse; destruct (o_ckpt op); [apply is_lift|apply is_reading; intros w; apply is_reverse_all|].
  apply is_then; [apply is_actions|intros _]; apply is_then; [apply is_lift|intros _; apply is_reverse_operator].
Qed.

Theorem is_compute i : is (p_compute op ord excl md i) (compute op i).
Proof.
  apply is_then; [apply is_lift|intros _]; apply is_then; [apply is_lift|intros _].
  apply is_then; [apply is_iterate_forward|intros _; apply is_lift].
Qed.
Theorem is_fwd i d : is (p_product_fwd op ord excl md i d) (compute_jacvec_product_fwd op i d).
Proof.
  apply is_then; [apply is_lift|intros _]; apply is_then; [apply is_fwd_steps|intros _; apply is_lift].
Qed.
Theorem is_rev i d : is (p_product_rev op ord excl md i d) (compute_jacvec_product_rev op i d).
Proof.
  apply is_then; [|intros _; apply is_then; [apply is_iterate_reverse|intros _]].
  - apply is_then; [|intros _; apply is_lift]; apply is_reading; intros w.
    destruct (cache_hit i (cached w)); [apply is_lift|]; apply is_then; [apply is_compute|intros _; apply is_lift].
  - apply is_then; [apply is_lift|intros r]; apply is_then; [apply is_lift|intros _; apply is_lift].
Qed.

Lemma alone_forget {A} (p : pmethod (C := C) A) m w : is p m -> fst (alone o (forget (p w))) = fst (m w).
Proof. intros H; unfold forget; rewrite alone_bind, H; reflexivity. Qed.
Theorem alone_calls l : forall w, fst (alone o (p_calls op ord excl md l w)) = run_calls op l w.
Proof.
  induction l as [|k l IH]; intros w; [reflexivity|].
  cbn [p_calls]; rewrite !alone_bind; cbn [alone fst]; rewrite IH.
  unfold run_calls; cbn [fold_left]; f_equal.
  destruct k; cbn [p_call run_call]; apply alone_forget; [apply is_compute|apply is_fwd|apply is_rev].
Qed.

Theorem c86_alone :
  (forall i w, alone o (p_compute op ord excl md i w) = compute op i w) /\
  (forall i d w, alone o (p_product_fwd op ord excl md i d w) = compute_jacvec_product_fwd op i d w) /\
  (forall i d w, alone o (p_product_rev op ord excl md i d w) = compute_jacvec_product_rev op i d w) /\
  (forall l w, fst (alone o (p_calls op ord excl md l w)) = run_calls op l w).
Proof. exact (conj is_compute (conj is_fwd (conj is_rev alone_calls))). Qed.
End Bridge.
