(** Lemmas in exactly the form Properties_Step.v states them. *)
From Coq Require Import String.
From Coq Require Import List Reals Lia Lra Bool.
From Verif Require Import Base Ext M_Tableau M_State M_ODE M_Step SpecRK SpecShape SpecDeriv
  L_Vec L_Step L_Adjoint L_Deriv L_Tableau Witness.
Import ListNotations.
Open Scope R_scope.

Lemma c01 (bt : tableau R) (o : ode R) (f : R -> list R -> list R -> list R) ni s h s' :
  tableau_wf bt -> result_sizes o ->
  is_implicit bt = false ->
  solves_stage_equation o (state_size o) f ->
  shaped (t_stages bt) (state_size o) ni (independent_output_size o) (linearization_point_size o) s ->
  compute_step bt o s h = Ok s' ->
  rk_equations (t_stages bt) (state_size o) (entry (t_A bt)) (fun i => vnth i (t_b bt))
    (fun i => vnth i (t_c bt)) (fun t y => f t (independent_inputs s) y)
    (final_time s) h (final_state s)
    (fun i => nth i (stage_updates s') []) (final_state s') /\
  start_state s' = final_state s /\ start_time s' = final_time s /\
  independent_inputs s' = independent_inputs s /\ step_size s' = h /\
  final_time s' = final_time s + h /\
  (forall i, (i < t_stages bt)%nat -> vnth i (stage_times s') = final_time s + h * vnth i (t_c bt)) /\
  shaped (t_stages bt) (state_size o) ni (independent_output_size o) (linearization_point_size o) s'.
Proof.
  intros W Hsz Himp Hf Hs H.
  split.
  - eapply step_rk_equations; eauto using is_implicit_false_no_upper.
  - pose proof (compute_step_facts bt o _ ni _ _ W eq_refl eq_refl eq_refl Hsz s h s' Hs H) as F.
    destruct F as [[Hshape Hy Hp Ht Hh Htimes Hstage] Ffin Ftime _ _]; auto 10.
Qed.

Lemma c02_refuted : exists (A : mat R) b c p name bt ws o f s h s',
  mat_wf A /\ tableau_init A b c p name = Ok (bt, ws) /\ ~ no_upper bt /\ result_sizes o /\
  solves_stage_equation o (state_size o) f /\
  shaped (t_stages bt) (state_size o) (independent_input_size o) (independent_output_size o)
         (linearization_point_size o) s /\
  compute_step bt o s h = Ok s' /\
  ~ rk_equations (t_stages bt) (state_size o) (entry (t_A bt)) (fun i => vnth i (t_b bt))
    (fun i => vnth i (t_c bt)) (fun t y => f t (independent_inputs s) y)
    (final_time s) h (final_state s)
    (fun i => nth i (stage_updates s') []) (final_state s').
Proof.
  destruct ubt_built as [ws Hb]; destruct ubt_step_ok as [s' Hs'].
  exists uA, [1/2; 1/2], (Some [1; 0]), (Some 1%nat), "u"%string, ubt, ws, wode, wf_rhs,
    (wst 0 1 0), 1, s'.
  split; [apply uA_wf|]; split; [exact Hb|]; split.
  { intros U; specialize (U 0%nat 1%nat ltac:(cbn; lia)); cbn in U; lra. }
  split; [apply wode_result_sizes|]; split; [apply wode_solves|]; split; [apply wst_shaped|].
  split; [exact Hs'|]; apply ubt_step_wrong, Hs'.
Qed.

Lemma c04 (bt : tableau R) (o : ode R) ni del (s s' : R -> rkstate R) v h v' :
  tableau_wf bt -> result_sizes o -> derivative_sizes o -> ode_differentiable o ->
  independent_input_size o = ni ->
  let shape := shaped (t_stages bt) (state_size o) ni (independent_output_size o)
                      (linearization_point_size o) in
  0 < del ->
  (forall e, Rabs e < del -> shape (s e)) ->
  (forall e, Rabs e < del -> compute_step bt o (s e) h = Ok (s' e)) ->
  shape v ->
  curve (fun e => final_state (s e)) (final_state v) ->
  curve (fun e => independent_inputs (s e)) (independent_inputs v) ->
  derivable_pt_lim (fun e => final_time (s e)) 0 (final_time v) ->
  compute_step_derivative bt o (s' 0) v h = Ok v' ->
  curve (fun e => final_state (s' e)) (final_state v') /\
  curve (fun e => independent_inputs (s' e)) (independent_inputs v') /\
  derivable_pt_lim (fun e => final_time (s' e)) 0 (final_time v') /\
  (forall i, (i < t_stages bt)%nat ->
     curve (fun e => nth i (stage_updates (s' e)) []) (nth i (stage_updates v') []) /\
     curve (fun e => nth i (stage_states (s' e)) []) (nth i (stage_states v') []) /\
     curve (fun e => nth i (stage_independent_outputs (s' e)) [])
           (nth i (stage_independent_outputs v') [])).
Proof. intros; eapply step_derivative_correct; eauto. Qed.

Lemma c04_unchanged (bt : tableau R) (o : ode R) ni s v h v' :
  tableau_wf bt -> derivative_sizes o ->
  let shape := shaped (t_stages bt) (state_size o) ni (independent_output_size o)
                      (linearization_point_size o) in
  shape s -> shape v ->
  compute_step_derivative bt o s v h = Ok v' ->
  independent_inputs v' = independent_inputs v /\ final_time v' = final_time v /\
  start_state v' = final_state v /\ shape v'.
Proof.
  intros W Hd shape Hs Hv H.
  pose proof (compute_step_derivative_facts bt o _ ni _ _ W eq_refl eq_refl Hd s v h v' Hv
                (sh_sio _ _ _ _ _ _ Hs) (sh_sior _ _ _ _ _ _ Hs) H) as D.
  destruct D as [[Sh Y P _ _] Fi Ti]; auto.
Qed.

Lemma c05 (bt : tableau R) (o : ode R) s v w h v' w' :
  tableau_wf bt -> derivative_sizes o -> adjoint_sizes o -> ode_transposed o ->
  let shape := shaped (t_stages bt) (state_size o) (independent_input_size o)
                      (independent_output_size o) (linearization_point_size o) in
  shape s -> shape v -> shape w ->
  compute_step_derivative bt o s v h = Ok v' ->
  compute_step_adjoint_derivative bt o s w h = Ok w' ->
  final_time w * final_time v' + dot (final_state w) (final_state v')
  + dot (independent_inputs w) (independent_inputs v')
  + rsum (t_stages bt) (fun i => dot (nth i (stage_states w) []) (nth i (stage_states v') []))
  = final_time w' * final_time v + dot (final_state w') (final_state v)
    + dot (independent_inputs w') (independent_inputs v).
Proof.
  intros W Hd Ha Ht shape Hs Hv Hw H1 H2.
  eapply (step_transpose bt o _ _ _ _ W eq_refl eq_refl eq_refl Hd Ha Ht s v w h v' w'); eauto.
Qed.
