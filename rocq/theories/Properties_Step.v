(** Property theorems about a single step: C01, C02, C04, C05, C45, and the
    tableau properties C27, C28. *)
From Coq Require Import String.
From Coq Require Import List Reals Lia Lra Bool.
From Verif Require Import Base Ext M_Tableau M_State M_ODE M_Step SpecRK SpecShape SpecDeriv
  L_Vec L_Step L_Adjoint L_Deriv L_Tableau Witness L_StepProps.
Import ListNotations.
Open Scope R_scope.

(** ** C01 *)
Theorem C01_step_satisfies_rk_equations :
  forall (bt : tableau R) (o : ode R) (f : R -> list R -> list R -> list R) ni s h s',
  tableau_wf bt -> result_sizes o ->
  is_implicit bt = false ->
  solves_stage_equation o (state_size o) f ->
  shaped (t_stages bt) (state_size o) ni (independent_output_size o) (linearization_point_size o) s ->
  compute_step bt o s h = Ok s' ->
  rk_equations (t_stages bt) (state_size o) (entry (t_A bt)) (fun i => vnth i (t_b bt))
    (fun i => vnth i (t_c bt)) (fun t y => f t (independent_inputs s) y)
    (final_time s) h (final_state s)
    (fun i => nth i (stage_updates s') []) (final_state s') /\
  start_state s' = final_state s /\ start_time s' = final_time s /\
  independent_inputs s' = independent_inputs s /\ step_size s' = h /\
  final_time s' = final_time s + h /\
  (forall i, (i < t_stages bt)%nat -> vnth i (stage_times s') = final_time s + h * vnth i (t_c bt)) /\
  shaped (t_stages bt) (state_size o) ni (independent_output_size o) (linearization_point_size o) s'.
Proof. exact c01. Qed.
Print Assumptions C01_step_satisfies_rk_equations.

Example C01_hypotheses_met : exists s',
  tableau_wf wbt /\ result_sizes wode /\ is_implicit wbt = false /\
  solves_stage_equation wode (state_size wode) wf_rhs /\
  shaped (t_stages wbt) (state_size wode) 1 (independent_output_size wode)
         (linearization_point_size wode) (wst 3 2 1) /\
  compute_step wbt wode (wst 3 2 1) (1/2) = Ok s'.
Proof.
  destruct (wstep_ok 3 2 1) as [s' H]; exists s'.
  split; [apply wbt_wf|]; split; [apply wode_result_sizes|]; split.
  { destruct (is_implicit wbt) eqn:E; [|reflexivity].
    apply is_implicit_spec in E; exfalso; apply E, wbt_lower. }
  split; [apply wode_solves|]; split; [apply wst_shaped|exact H].
Qed.

(** A step is defined whenever the ODE's update is: the theorem above is not
    about an empty set of runs. *)
Theorem C01_step_defined :
  forall (bt : tableau R) (o : ode R) s h n ni no nl,
  tableau_wf bt -> state_size o = n -> independent_output_size o = no ->
  linearization_point_size o = nl -> result_sizes o ->
  shaped (t_stages bt) n ni no nl s -> (0 < t_stages bt)%nat ->
  (forall i inp, (i < t_stages bt)%nat ->
     exists r, compute_update o inp h (entry (t_A bt) i i) = Ok r) ->
  exists s', compute_step bt o s h = Ok s'.
Proof. exact compute_step_total. Qed.
Print Assumptions C01_step_defined.

Example C01_step_defined_hypotheses_met :
  tableau_wf wbt /\ result_sizes wode /\ shaped (t_stages wbt) 1 1 1 1 (wst 3 2 1) /\
  (0 < t_stages wbt)%nat /\
  (forall i inp, (i < t_stages wbt)%nat ->
     exists r, compute_update wode inp (1/2) (entry (t_A wbt) i i) = Ok r).
Proof.
  split; [apply wbt_wf|]; split; [apply wode_result_sizes|]; split; [apply wst_shaped|].
  split; [cbn; lia|]; intros i inp Hi; apply wode_update_ok, wdiag, Hi.
Qed.

(** A fresh state has the shape asked for above. *)
Theorem C01_fresh_state_shaped : forall (bt : tableau R) (o : ode R),
  shaped (t_stages bt) (state_size o) (independent_input_size o)
         (independent_output_size o) (linearization_point_size o)
         (create_empty_discretization_state bt o).
Proof. exact create_empty_shaped. Qed.
Print Assumptions C01_fresh_state_shaped.

Example C01_fresh_state_example :
  length (stage_updates (create_empty_discretization_state wbt wode)) = 2%nat.
Proof. reflexivity. Qed.

(** ** C02: refuted as stated; what the code does instead is the last theorem. *)
Theorem C02_upper_entries_refuted : exists (A : mat R) b c p name bt ws o f s h s',
  mat_wf A /\ tableau_init A b c p name = Ok (bt, ws) /\ ~ no_upper bt /\ result_sizes o /\
  solves_stage_equation o (state_size o) f /\
  shaped (t_stages bt) (state_size o) (independent_input_size o) (independent_output_size o)
         (linearization_point_size o) s /\
  compute_step bt o s h = Ok s' /\
  ~ rk_equations (t_stages bt) (state_size o) (entry (t_A bt)) (fun i => vnth i (t_b bt))
    (fun i => vnth i (t_c bt)) (fun t y => f t (independent_inputs s) y)
    (final_time s) h (final_state s)
    (fun i => nth i (stage_updates s') []) (final_state s').
Proof. exact c02_refuted. Qed.
Print Assumptions C02_upper_entries_refuted.

Theorem C02_upper_entries_ignored :
  forall (T : Type) (N : Num T) (bt bt' : tableau T) o s h,
  tableau_wf bt -> tableau_wf bt' -> same_lower_part bt bt' ->
  compute_step bt o s h = compute_step bt' o s h.
Proof. exact (@compute_step_lower). Qed.
Print Assumptions C02_upper_entries_ignored.

Example C02_ignored_hypotheses_met :
  let bt' := {| t_A := [[0; 0]; [0; 0]]; t_b := [1/2; 1/2]; t_c := [1; 0]; t_stages := 2;
                t_p := None; t_name := "v"; t_hat := None |} in
  tableau_wf ubt /\ tableau_wf bt' /\ same_lower_part ubt bt' /\ t_A ubt <> t_A bt'.
Proof.
  cbn zeta; split; [apply ubt_wf|]; split; [constructor; cbn; auto|]; split.
  - constructor; cbn; auto; intros i j H.
    destruct i as [|[|i]], j as [|[|j]]; try lia; reflexivity.
  - cbn; intros E; injection E as E; lra.
Qed.

(** ** C04 *)
Theorem C04_step_derivative_is_derivative :
  forall (bt : tableau R) (o : ode R) ni del (s s' : R -> rkstate R) v h v',
  tableau_wf bt -> result_sizes o -> derivative_sizes o -> ode_differentiable o ->
  independent_input_size o = ni ->
  let shape := shaped (t_stages bt) (state_size o) ni (independent_output_size o)
                      (linearization_point_size o) in
  0 < del ->
  (forall e, Rabs e < del -> shape (s e)) ->
  (forall e, Rabs e < del -> compute_step bt o (s e) h = Ok (s' e)) ->
  shape v ->
  curve (fun e => final_state (s e)) (final_state v) ->
  curve (fun e => independent_inputs (s e)) (independent_inputs v) ->
  derivable_pt_lim (fun e => final_time (s e)) 0 (final_time v) ->
  compute_step_derivative bt o (s' 0) v h = Ok v' ->
  curve (fun e => final_state (s' e)) (final_state v') /\
  curve (fun e => independent_inputs (s' e)) (independent_inputs v') /\
  derivable_pt_lim (fun e => final_time (s' e)) 0 (final_time v') /\
  (forall i, (i < t_stages bt)%nat ->
     curve (fun e => nth i (stage_updates (s' e)) []) (nth i (stage_updates v') []) /\
     curve (fun e => nth i (stage_states (s' e)) []) (nth i (stage_states v') []) /\
     curve (fun e => nth i (stage_independent_outputs (s' e)) [])
           (nth i (stage_independent_outputs v') [])).
Proof. exact c04. Qed.
Print Assumptions C04_step_derivative_is_derivative.

Example C04_hypotheses_met : exists (s' : R -> rkstate R) v',
  tableau_wf wbt /\ result_sizes wode /\ derivative_sizes wode /\ ode_differentiable wode /\
  (forall e, shaped 2 1 1 1 1 (wst (3 + e) (2 + 2 * e) (1 + 5 * e))) /\
  (forall e, Rabs e < 1 -> compute_step wbt wode (wst (3 + e) (2 + 2 * e) (1 + 5 * e)) (1/2) = Ok (s' e)) /\
  curve (fun e => final_state (wst (3 + e) (2 + 2 * e) (1 + 5 * e))) (final_state (wst 1 2 5)) /\
  curve (fun e => independent_inputs (wst (3 + e) (2 + 2 * e) (1 + 5 * e))) (independent_inputs (wst 1 2 5)) /\
  derivable_pt_lim (fun e => final_time (wst (3 + e) (2 + 2 * e) (1 + 5 * e))) 0 (final_time (wst 1 2 5)) /\
  compute_step_derivative wbt wode (s' 0) (wst 1 2 5) (1/2) = Ok v'.
Proof.
  set (c := fun e => compute_step wbt wode (wst (3 + e) (2 + 2 * e) (1 + 5 * e)) (1/2)).
  exists (fun e => match c e with Ok x => x | Err _ => wst 0 0 0 end).
  assert (Hc : forall e, exists x, c e = Ok x) by (intros e; apply wstep_ok).
  destruct (Hc 0) as [x0 E0].
  destruct (wdstep_ok x0 (wst 1 2 5)) as [v' Hv']; exists v'.
  split; [apply wbt_wf|]; split; [apply wode_result_sizes|]; split; [apply wode_derivative_sizes|].
  split; [apply wode_differentiable|]; split; [intros; apply wst_shaped|]; split.
  { intros e _; fold (c e); destruct (Hc e) as [x ->]; reflexivity. }
  assert (G : forall a b, derivable_pt_lim (fun e => a + b * e) 0 b).
  { intros a b; cut (derivable_pt_lim (fun e => a + b * e) 0 (0 + b * 1)).
    - replace (0 + b * 1) with b by ring; auto.
    - apply dlim_plus; [apply derivable_pt_lim_const|apply dlim_scal, derivable_pt_lim_id]. }
  split; [apply (curve1 (fun e => 2 + 2 * e)), G|]; split; [apply (curve1 (fun e => 1 + 5 * e)), G|].
  split.
  { cbn; apply (dlim_ext_near (fun e => 3 + 1 * e) _ _ 1); [lra|intros; lra|apply G]. }
  rewrite E0; apply Hv'.
  pose proof (compute_step_facts wbt wode 1 1 1 1 wbt_wf eq_refl eq_refl eq_refl wode_result_sizes
                _ _ _ (wst_shaped (3 + 0) (2 + 2 * 0) (1 + 5 * 0)) E0) as F.
  apply (pi_shape _ _ _ _ _ _ _ _ _ _ _ _ (sf_inv _ _ _ _ _ _ _ _ _ F)).
Qed.

Theorem C04_step_derivative_linear :
  forall (bt : tableau R) (o : ode R) n ni no nl,
  tableau_wf bt -> state_size o = n -> independent_input_size o = ni ->
  independent_output_size o = no -> derivative_sizes o -> ode_linear o ->
  forall s v1 v2 v h v1' v2' v' al be,
  shaped (t_stages bt) n ni no nl s -> shaped (t_stages bt) n ni no nl v1 ->
  shaped (t_stages bt) n ni no nl v2 -> shaped (t_stages bt) n ni no nl v ->
  final_time v = al * final_time v1 + be * final_time v2 ->
  final_state v = vlin al (final_state v1) be (final_state v2) ->
  independent_inputs v = vlin al (independent_inputs v1) be (independent_inputs v2) ->
  compute_step_derivative bt o s v1 h = Ok v1' ->
  compute_step_derivative bt o s v2 h = Ok v2' ->
  compute_step_derivative bt o s v h = Ok v' ->
  final_time v' = al * final_time v1' + be * final_time v2' /\
  final_state v' = vlin al (final_state v1') be (final_state v2') /\
  independent_inputs v' = vlin al (independent_inputs v1') be (independent_inputs v2') /\
  forall i, (i < t_stages bt)%nat ->
    nth i (stage_updates v') [] = vlin al (nth i (stage_updates v1') []) be (nth i (stage_updates v2') []) /\
    nth i (stage_states v') [] = vlin al (nth i (stage_states v1') []) be (nth i (stage_states v2') []) /\
    nth i (stage_independent_outputs v') []
      = vlin al (nth i (stage_independent_outputs v1') []) be (nth i (stage_independent_outputs v2') []).
Proof. exact step_derivative_linear. Qed.
Print Assumptions C04_step_derivative_linear.

Example C04_linear_hypotheses_met : exists v1' v2' v',
  tableau_wf wbt /\ derivative_sizes wode /\ ode_linear wode /\
  shaped (t_stages wbt) 1 1 1 1 (wst 3 2 1) /\
  final_state (wst 7 8 9) = vlin 2 (final_state (wst 2 1 3)) 3 (final_state (wst 1 2 1)) /\
  compute_step_derivative wbt wode (wst 3 2 1) (wst 2 1 3) (1/2) = Ok v1' /\
  compute_step_derivative wbt wode (wst 3 2 1) (wst 1 2 1) (1/2) = Ok v2' /\
  compute_step_derivative wbt wode (wst 3 2 1) (wst 7 8 9) (1/2) = Ok v'.
Proof.
  destruct (wdstep_ok (wst 3 2 1) (wst 2 1 3)) as [a Ha].
  destruct (wdstep_ok (wst 3 2 1) (wst 1 2 1)) as [b Hb].
  destruct (wdstep_ok (wst 3 2 1) (wst 7 8 9)) as [c Hc].
  exists a, b, c; split; [apply wbt_wf|]; split; [apply wode_derivative_sizes|].
  split; [apply wode_linear|]; split; [apply wst_shaped|]; split.
  - unfold vlin, vadd, vscale; cbn; f_equal; lra.
  - auto.
Qed.

Theorem C04_step_derivative_keeps_inputs :
  forall (bt : tableau R) (o : ode R) ni s v h v',
  tableau_wf bt -> derivative_sizes o ->
  let shape := shaped (t_stages bt) (state_size o) ni (independent_output_size o)
                      (linearization_point_size o) in
  shape s -> shape v ->
  compute_step_derivative bt o s v h = Ok v' ->
  independent_inputs v' = independent_inputs v /\ final_time v' = final_time v /\
  start_state v' = final_state v /\ shape v'.
Proof. exact c04_unchanged. Qed.
Print Assumptions C04_step_derivative_keeps_inputs.

Example C04_keeps_hypotheses_met : exists v',
  tableau_wf wbt /\ derivative_sizes wode /\ shaped 2 1 1 1 1 (wst 3 2 1) /\
  compute_step_derivative wbt wode (wst 3 2 1) (wst 2 1 3) (1/2) = Ok v'.
Proof.
  destruct (wdstep_ok (wst 3 2 1) (wst 2 1 3)) as [a Ha]; exists a.
  split; [apply wbt_wf|]; split; [apply wode_derivative_sizes|]; split; [apply wst_shaped|auto].
Qed.

(** ** C05 *)
Theorem C05_step_adjoint_is_transpose :
  forall (bt : tableau R) (o : ode R) s v w h v' w',
  tableau_wf bt -> derivative_sizes o -> adjoint_sizes o -> ode_transposed o ->
  let shape := shaped (t_stages bt) (state_size o) (independent_input_size o)
                      (independent_output_size o) (linearization_point_size o) in
  shape s -> shape v -> shape w ->
  compute_step_derivative bt o s v h = Ok v' ->
  compute_step_adjoint_derivative bt o s w h = Ok w' ->
  final_time w * final_time v' + dot (final_state w) (final_state v')
  + dot (independent_inputs w) (independent_inputs v')
  + rsum (t_stages bt) (fun i => dot (nth i (stage_states w) []) (nth i (stage_states v') []))
  = final_time w' * final_time v + dot (final_state w') (final_state v)
    + dot (independent_inputs w') (independent_inputs v).
Proof. exact c05. Qed.
Print Assumptions C05_step_adjoint_is_transpose.

Example C05_hypotheses_met : exists v' w',
  tableau_wf wbt /\ derivative_sizes wode /\ adjoint_sizes wode /\ ode_transposed wode /\
  shaped 2 1 1 1 1 (wst 3 2 1) /\ shaped 2 1 1 1 1 (wst 2 1 3) /\ shaped 2 1 1 1 1 (wst 4 5 6) /\
  compute_step_derivative wbt wode (wst 3 2 1) (wst 2 1 3) (1/2) = Ok v' /\
  compute_step_adjoint_derivative wbt wode (wst 3 2 1) (wst 4 5 6) (1/2) = Ok w'.
Proof.
  destruct (wdstep_ok (wst 3 2 1) (wst 2 1 3)) as [a Ha].
  destruct (wastep_ok (wst 3 2 1) (wst 4 5 6)) as [b Hb].
  exists a, b; split; [apply wbt_wf|]; split; [apply wode_derivative_sizes|].
  split; [apply wode_adjoint_sizes|]; split; [apply wode_transposed|].
  split; [apply wst_shaped|]; split; [apply wst_shaped|]; split; [apply wst_shaped|auto].
Qed.

Theorem C05_step_adjoint_ignores_working_fields :
  forall (T : Type) (N : Num T) (bt : tableau T) (o : ode T) s w1 w2 h,
  final_time w1 = final_time w2 -> final_state w1 = final_state w2 ->
  independent_inputs w1 = independent_inputs w2 -> stage_states w1 = stage_states w2 ->
  length (stage_updates w1) = t_stages bt -> length (stage_updates w2) = t_stages bt ->
  match compute_step_adjoint_derivative bt o s w1 h, compute_step_adjoint_derivative bt o s w2 h with
  | Ok a, Ok b => final_time a = final_time b /\ final_state a = final_state b /\
                  independent_inputs a = independent_inputs b
  | Err e, Err e' => e = e'
  | _, _ => False
  end.
Proof. exact (@adjoint_independent). Qed.
Print Assumptions C05_step_adjoint_ignores_working_fields.

Example C05_ignores_hypotheses_met :
  let w2 := w_start_state [100] (w_stage_updates [[0]; [55]] (wst 4 5 6)) in
  final_time (wst 4 5 6) = final_time w2 /\ stage_states (wst 4 5 6) = stage_states w2 /\
  length (stage_updates (wst 4 5 6)) = t_stages wbt /\ length (stage_updates w2) = t_stages wbt.
Proof. cbn; auto. Qed.

(** ** C45 *)
Theorem C45_error_estimate_is_difference_of_methods :
  forall (T : Type) (N : Num T) (bt : tableau T) o s h s' m wm em we,
  tableau_wf bt ->
  main_method bt = Ok (m, wm) -> embedded_method bt = Ok (em, we) ->
  compute_step bt o s h = Ok s' ->
  exists sm se,
    compute_step m o s h = Ok sm /\ compute_step em o s h = Ok se /\
    embedded s' = Some (final_state se, vsub (final_state sm) (final_state se)) /\
    s' = w_embedded (embedded s') sm.
Proof. exact (@embedded_step). Qed.
Print Assumptions C45_error_estimate_is_difference_of_methods.

Theorem C45_error_estimate_formula :
  forall bt o n ni no nl s h s' bh q,
  tableau_wf bt -> state_size o = n -> independent_output_size o = no ->
  linearization_point_size o = nl -> result_sizes o ->
  t_hat bt = Some (bh, q) ->
  shaped (t_stages bt) n ni no nl s ->
  compute_step bt o s h = Ok s' ->
  exists e err, embedded s' = Some (e, err) /\ length e = n /\ length err = n /\
  (forall m, vnth m e = vnth m (final_state s)
     + h * rsum (t_stages bt) (fun i => vnth i bh * vnth m (nth i (stage_updates s') []))) /\
  (forall m, vnth m err
     = h * rsum (t_stages bt) (fun i => (vnth i (t_b bt) - vnth i bh) * vnth m (nth i (stage_updates s') []))).
Proof. exact error_estimate_formula. Qed.
Print Assumptions C45_error_estimate_formula.

Example C45_hypotheses_met : exists s' m em,
  tableau_wf wbt /\ t_hat wbt = Some ([1; 0], Some 1%nat) /\
  main_method wbt = Ok m /\ embedded_method wbt = Ok em /\
  compute_step wbt wode (wst 3 2 1) (1/2) = Ok s'.
Proof.
  destruct (wstep_ok 3 2 1) as [s' H].
  destruct (main_method_ok wbt [1; 0] (Some 1%nat) wbt_wf eq_refl) as [[m Hm] [em Hem]].
  exists s', m, em; split; [apply wbt_wf|]; auto.
Qed.

(** ** C27 *)
Theorem C27_exactly_one_class : forall bt : tableau R,
  match is_explicit bt, is_diagonally_implicit bt, is_implicit bt with
  | true, false, false | false, true, false | false, false, true => True
  | _, _, _ => False
  end.
Proof. exact classification. Qed.
Print Assumptions C27_exactly_one_class.

Theorem C27_explicit : forall bt : tableau R,
  is_explicit bt = true <-> forall i j, (i <= j < t_stages bt)%nat -> entry (t_A bt) i j = 0.
Proof. exact is_explicit_spec. Qed.
Print Assumptions C27_explicit.

Theorem C27_diagonally_implicit : forall bt : tableau R,
  is_diagonally_implicit bt = true <->
  no_upper bt /\ exists i, (i < t_stages bt)%nat /\ entry (t_A bt) i i <> 0.
Proof. exact is_dirk_spec. Qed.
Print Assumptions C27_diagonally_implicit.

Theorem C27_implicit : forall bt : tableau R,
  is_implicit bt = true <-> ~ no_upper bt.
Proof. exact is_implicit_spec. Qed.
Print Assumptions C27_implicit.

Example C27_each_class_occurs :
  is_diagonally_implicit wbt = true /\ is_implicit ubt = true /\
  is_explicit {| t_A := [[0; 0]; [1; 0]]; t_b := [1/2; 1/2]; t_c := [0; 1]; t_stages := 2;
                 t_p := None; t_name := ""; t_hat := None |} = true.
Proof.
  split; [|split].
  - apply is_dirk_spec; split; [apply wbt_lower|]; exists 0%nat; cbn; split; [lia|lra].
  - apply is_implicit_spec; intros U; specialize (U 0%nat 1%nat ltac:(cbn; lia)); cbn in U; lra.
  - apply is_explicit_spec; intros i j H; cbn in H.
    destruct i as [|[|i]], j as [|[|j]]; try lia; reflexivity.
Qed.

(** ** C28 *)
Theorem C28_constructed_iff_sizes_agree :
  forall (T : Type) (N : Num T) (A : mat T) b c p name,
  (exists tw, tableau_init A b c p name = Ok tw) <->
  mrows A = mcols A /\ mrows A = length b /\
  (match c with None => length (mdata A) = length b | Some cs => length cs = length b end).
Proof. exact (@tableau_init_ok). Qed.
Print Assumptions C28_constructed_iff_sizes_agree.

Theorem C28_constructed_fields :
  forall (T : Type) (N : Num T) (A : mat T) b c p name t ws,
  tableau_init A b c p name = Ok (t, ws) ->
  t_A t = mdata A /\ t_b t = b /\ t_p t = p /\ t_name t = name /\ t_hat t = None /\
  t_stages t = length b /\
  t_c t = match c with None => map vsum (mdata A) | Some cs => cs end /\
  (In WeightsDoNotSum ws <-> warn_weights b = true) /\
  (In RowSumsDiffer ws <-> exists cs, c = Some cs /\ warn_rows (mdata A) cs = true).
Proof. exact (@tableau_init_fields). Qed.
Print Assumptions C28_constructed_fields.

Theorem C28_weights_warning : forall b : list R,
  warn_weights b = true <-> Rabs (rsum (length b) (fun i => vnth i b) - 1) > 1 / 100000.
Proof. exact warn_weights_spec. Qed.
Print Assumptions C28_weights_warning.

Theorem C28_constructed_wf :
  forall (T : Type) (N : Num T) (A : mat T) b c p name t ws,
  mat_wf A -> tableau_init A b c p name = Ok (t, ws) -> tableau_wf t.
Proof. exact (@tableau_init_wf). Qed.
Print Assumptions C28_constructed_wf.

Theorem C28_constructed_embedded_wf :
  forall (T : Type) (N : Num T) (A : mat T) b bh c p q name t ws,
  mat_wf A -> embedded_init A b bh c p q name = Ok (t, ws) -> tableau_wf t.
Proof. exact (@embedded_init_wf). Qed.
Print Assumptions C28_constructed_embedded_wf.

Example C28_hypotheses_met : mat_wf wA /\ exists ws,
  embedded_init wA [1/2; 1/2] [1; 0] (Some [1/4; 3/4]) (Some 2%nat) (Some 1%nat) "w" = Ok (wbt, ws).
Proof. split; [apply wA_wf|apply wbt_built]. Qed.

(** The row-sum warning: refuted as stated, then what the code does. *)
Theorem C28_row_sum_warning_refuted : exists (A : mat R) b cs p name t ws i,
  mat_wf A /\ tableau_init A b (Some cs) p name = Ok (t, ws) /\ (i < t_stages t)%nat /\
  Rabs (vnth i (t_c t) - rsum (t_stages t) (fun j => entry (t_A t) i j)) >= 1 /\
  ~ In RowSumsDiffer ws.
Proof. exact row_warning_refuted. Qed.
Print Assumptions C28_row_sum_warning_refuted.

Theorem C28_row_sum_warning_only_if_all_differ : forall (A : list (list R)) (c : list R),
  length A = length c ->
  warn_rows A c = true <->
  forall i, (i < length A)%nat -> vnth i c <> rsum (length (nth i A [])) (fun j => entry A i j).
Proof. exact warn_rows_spec. Qed.
Print Assumptions C28_row_sum_warning_only_if_all_differ.

Theorem C28_default_times_are_row_sums : forall (A : list (list R)) i,
  (i < length A)%nat ->
  vnth i (map vsum A) = rsum (length (nth i A [])) (fun j => entry A i j).
Proof. exact vnth_map_vsum. Qed.
Print Assumptions C28_default_times_are_row_sums.
