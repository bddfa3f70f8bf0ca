(** Property theorems about error control: C13, C14, C17, C18, C21, C22, C23,
    C38. *)
From Coq Require Import List Reals Lia Lra Bool.
From Verif Require Import Base Ext M_State M_ODE M_Controller M_Measure SpecControl
  L_Control L_Catalogue.
Import ListNotations.
Open Scope R_scope.

(** ** C13: the acceptance rule, for every chain and every internal state.
    (What "remaining time" means in a run is settled in Properties_Adaptive.) *)
Theorem C13_accept_rule :
  forall cfg (c : controller (ext R)) q c' st,
  ctl_call cfg c q = (c', Ok st) ->
  (acceptance st = true <->
   xle (error_measure q) (tol cfg) \/ near (delta_t q) (lower_bound cfg) \/
   near (delta_t q) (remaining_time q)).
Proof. exact c13. Qed.
Print Assumptions C13_accept_rule.

(** A two-member chain answering "rejected". *)
Example C13_hypotheses_met :
  let c := Decorated (pseudo (Fin 1)) true true 0 (Plain (integral (Fin 1)) false) in
  build_chain [integral (Fin 1); pseudo (Fin 1)] = Some c /\
  ctl_call (cfg18 5) c (q18 3) = (c, Ok {| step_size_suggestion := Fin (2 ^ 2); acceptance := false |}).
Proof.
  cbv zeta; split; [reflexivity|].
  apply delegate_resets with (c := Plain (integral (Fin 1)) false); [cbn; lia| |reflexivity|].
  - cbn [ctl_call]; rewrite base_run_18 by lia.
    cbn [acceptance negb andb]; rewrite andb_false_r; reflexivity.
  - cbn [step_size_suggestion delta_t q18]. apply xltb_iff; unfold xlt; cbn; lra.
Qed.

(** ** C14 *)
Theorem C14_suggestion_bounds :
  forall cfg (c : controller (ext R)) q d c' st,
  xle (lower_bound cfg) (upper_bound cfg) ->
  delta_t q = Fin d -> remaining_time q <> NInf -> remaining_time q <> NaN ->
  ctl_call cfg c q = (c', Ok st) ->
  xle (step_size_suggestion st) (upper_bound cfg) /\
  xle (step_size_suggestion st) (time_limit q (acceptance st)) /\
  (xle (lower_bound cfg) (step_size_suggestion st) \/
   step_size_suggestion st = time_limit q (acceptance st)) /\
  (error_measure q = Fin 0 ->
   is_cut (lower_bound cfg) (upper_bound cfg) (time_limit q (acceptance st))
          (delta_t q) (step_size_suggestion st)).
Proof. exact c14. Qed.
Print Assumptions C14_suggestion_bounds.

Example C14_hypotheses_met :
  xle (lower_bound (cfg18 5)) (upper_bound (cfg18 5)) /\ delta_t (q18 3) = Fin (2 ^ 3) /\
  remaining_time (q18 3) <> NInf /\ remaining_time (q18 3) <> NaN /\
  ctl_call (cfg18 5) (Plain (integral (Fin 1)) false) (q18 3) =
    (Plain (integral (Fin 1)) false, Ok {| step_size_suggestion := Fin (2 ^ 2); acceptance := false |}).
Proof.
  repeat split; try discriminate.
  cbn [ctl_call]; rewrite base_run_18 by lia.
  cbn [acceptance negb andb]; rewrite andb_false_r; reflexivity.
Qed.

(** ** C17 *)
Theorem C17_retry_not_larger :
  forall cfg (c : controller (ext R)) q c' st,
  outermost c -> ctl_call cfg c q = (c', Ok st) -> acceptance st = false ->
  ~ xlt (delta_t q) (step_size_suggestion st).
Proof. exact c17. Qed.
Print Assumptions C17_retry_not_larger.

(** Chains as built by the integrator are outermost at their head. *)
Theorem C17_built_chains_are_outermost :
  forall xs (c : controller (ext R)), build_chain xs = Some c -> outermost c.
Proof. exact build_chain_outermost. Qed.
Print Assumptions C17_built_chains_are_outermost.

Example C17_hypotheses_met :
  let c := Decorated (pseudo (Fin 1)) true true 0 (Plain (integral (Fin 1)) false) in
  build_chain [integral (Fin 1); pseudo (Fin 1)] = Some c /\
  outermost c /\
  exists c' st, ctl_call (cfg18 5) c (q18 3) = (c', Ok st) /\ acceptance st = false.
Proof.
  cbv zeta; split; [reflexivity|]; split; [reflexivity|].
  eexists; eexists; split; [apply C13_hypotheses_met|reflexivity].
Qed.

(** ** C18: violated.  For every limit [m] and every [n] there are [n]
    consecutive rejected trials of one step that are all answered by the outer
    controller. *)
Theorem C18_retry_limit_refuted :
  forall m n, (1 <= m)%nat -> exists cfg x1 x2 c qs,
  max_iter cfg = m /\ build_chain [x1; x2] = Some c /\ length qs = n /\
  rejected_trials qs (answers cfg c qs) /\
  Forall2 (fun q r => exists st, r = Ok st /\
     step_size_suggestion st = step_size_suggestion (base_run cfg x1 q) /\
     step_size_suggestion st <> step_size_suggestion (base_run cfg x2 q))
    qs (answers cfg c qs).
Proof. exact c18_refuted. Qed.
Print Assumptions C18_retry_limit_refuted.

(** The mechanism: any delegated rejection with a smaller suggestion leaves
    the retry counter at zero. *)
Theorem C18_counter_is_reset :
  forall (T : Type) (N : Num T) cfg x im c (q : call_args T) c1 st,
  (1 <= max_iter cfg)%nat ->
  ctl_call cfg c q = (c1, Ok st) -> acceptance st = false ->
  nltb (step_size_suggestion st) (delta_t q) = true ->
  ctl_call cfg (Decorated x im true 0 c) q = (Decorated x im true 0 c1, Ok st).
Proof. exact (@delegate_resets). Qed.
Print Assumptions C18_counter_is_reset.

Example C18_hypotheses_met :
  (1 <= 5)%nat /\
  ctl_call (cfg18 5) (Plain (integral (Fin 1)) false) (q18 3) =
    (Plain (integral (Fin 1)) false, Ok {| step_size_suggestion := Fin (2 ^ 2); acceptance := false |}) /\
  nltb (T := ext R) (Fin (2 ^ 2)) (delta_t (q18 3)) = true.
Proof.
  split; [lia|]. split; [apply C14_hypotheses_met|].
  apply xltb_iff; unfold xlt; cbn; lra.
Qed.

(** ** C21 *)
Theorem C21_deadbeat :
  forall ctl qf p C h h1 h2 rem cfg eps kappa c' st,
  deadbeat ctl qf -> 0 < p -> 0 < C -> 0 < h -> 0 < h1 -> 0 < h2 ->
  rem <> NaN -> rem <> NInf -> sane cfg eps kappa ->
  ctl_call cfg (mk_plain (ctl p)) (power_law_args C (qf p) h h1 h2 rem) = (c', Ok st) ->
  is_cut (lower_bound cfg) (upper_bound cfg)
    (time_limit (power_law_args C (qf p) h h1 h2 rem) (acceptance st))
    (Fin (kappa * Rpower (eps / C) (1 / qf p))) (step_size_suggestion st).
Proof. exact c21. Qed.
Print Assumptions C21_deadbeat.

Example C21_hypotheses_met :
  exists c' st, deadbeat (fun p => h0_312 (Fin p)) (fun p => p) /\
  sane (cfg18 5) 1 1 /\ 
  ctl_call (cfg18 5) (mk_plain (h0_312 (Fin 2))) (power_law_args (1/2) 2 1 1 1 PInf) = (c', Ok st).
Proof.
  do 2 eexists; split; [constructor|]. split; [constructor; cbn; auto; lra|].
  cbn [ctl_call mk_plain].
  assert (E : run_success (cfg18 5) (power_law_args (1 / 2) 2 1 1 1 PInf) = true).
  { apply run_success_iff; left; cbn. unfold Rpower; rewrite ln_1, Rmult_0_r, exp_0; lra. }
  rewrite acceptance_base_run, E. reflexivity.
Qed.

Theorem C21_h0_321_refuted :
  exists p C h h1 h2 cfg eps kappa rem c' st,
  0 < p /\ 0 < C /\ 0 < h /\ 0 < h1 /\ 0 < h2 /\ sane cfg eps kappa /\
  ctl_call cfg (mk_plain (h0_321 (Fin p))) (power_law_args C p h h1 h2 rem) = (c', Ok st) /\
  ~ is_cut (lower_bound cfg) (upper_bound cfg)
    (time_limit (power_law_args C p h h1 h2 rem) (acceptance st))
    (Fin (kappa * Rpower (eps / C) (1 / p))) (step_size_suggestion st).
Proof. exact c21_refuted. Qed.
Print Assumptions C21_h0_321_refuted.

(** ** C22 *)
Theorem C22_monotone :
  forall p x cfg eps kappa q e e' h e1 e2 h1 h2 c1 st c2 st',
  0 < p -> In x (catalogue (Fin p)) -> sane cfg eps kappa ->
  positive_args q e h e1 e2 h1 h2 -> e <= e' ->
  ctl_call cfg (mk_plain x) q = (c1, Ok st) ->
  ctl_call cfg (mk_plain x) (with_error e' q) = (c2, Ok st') ->
  acceptance st = acceptance st' \/ remaining_time q = PInf ->
  xle (step_size_suggestion st') (step_size_suggestion st).
Proof. exact c22_monotone. Qed.
Print Assumptions C22_monotone.

Theorem C22_fixed_point :
  forall p x cfg eps kappa q h h1 h2 c1 st,
  0 < p -> In x (catalogue (Fin p)) -> sane cfg eps kappa ->
  positive_args q eps h eps eps h1 h2 ->
  (h1 = h \/ h1 = 0) -> (h2 = h1 \/ h2 = 0) ->
  ctl_call cfg (mk_plain x) q = (c1, Ok st) ->
  is_cut (lower_bound cfg) (upper_bound cfg) (time_limit q (acceptance st))
         (Fin (kappa * h)) (step_size_suggestion st).
Proof. exact c22_fixed_point. Qed.
Print Assumptions C22_fixed_point.

Example C22_hypotheses_met : forall x, In x (catalogue (Fin 2)) ->
  exists c1 st c2 st', let q := fin_args (1/2) 1 100 1 1 1 1 in
  sane (cfg18 5) 1 1 /\ positive_args q (1/2) 1 1 1 1 1 /\
  ctl_call (cfg18 5) (mk_plain x) q = (c1, Ok st) /\
  ctl_call (cfg18 5) (mk_plain x) (with_error 1 q) = (c2, Ok st') /\
  acceptance st = acceptance st'.
Proof.
  intros x _.
  assert (E1 : run_success (cfg18 5) (fin_args (1/2) 1 100 1 1 1 1) = true)
    by (apply run_success_iff; left; cbn; lra).
  assert (E2 : run_success (cfg18 5) (with_error 1 (fin_args (1/2) 1 100 1 1 1 1)) = true)
    by (apply run_success_iff; left; cbn; lra).
  do 4 eexists; cbv zeta.
  split; [constructor; cbn; auto; lra|].
  split; [constructor; cbn; auto; try lra; discriminate|].
  cbn [ctl_call mk_plain]. rewrite !acceptance_base_run, E1, E2.
  split; [reflexivity|]; split; [reflexivity|].
  transitivity true; [exact E1|symmetry; exact E2].
Qed.

(** ** C23 *)
Theorem C23_pseudo_keeps_step :
  forall p q h,
  delta_t q = Fin h -> error_measure q <> NaN ->
  remaining_time q <> NaN -> remaining_time q <> NInf ->
  exists st, ctl_call pseudo_config (mk_plain (pseudo p)) q = (mk_plain (pseudo p), Ok st) /\
    acceptance st = true /\
    is_cut (Fin 0) PInf (remaining_time q) (delta_t q) (step_size_suggestion st).
Proof. exact c23. Qed.
Print Assumptions C23_pseudo_keeps_step.

Example C23_hypotheses_met :
  let q := fin_args 1000000 (1/2) 3 0 7 1 0 in
  delta_t q = Fin (1/2) /\ error_measure q <> NaN /\ remaining_time q <> NaN /\ remaining_time q <> NInf.
Proof. repeat split; discriminate. Qed.

(** ** C38 *)
Theorem C38_simple_measure_is_norm :
  forall (T : Type) (N : Num T) (o : ode T) s emb err,
  embedded s = Some (emb, err) ->
  state_measure SimpleErrorMeasurer o s =
  Ok (compute_state_norm o {| stage_update := []; stage_state := err; independent_output := [] |}).
Proof. exact (@c38_simple). Qed.
Print Assumptions C38_simple_measure_is_norm.

Theorem C38_improved_measure :
  forall (o : ode R) err st eta eps,
  let ne := compute_state_norm o err in
  let ns := compute_state_norm o st in
  0 <= ne -> 0 <= ns -> 0 < eta -> 0 < eps ->
  let m := get_measure (ImprovedErrorMeasurer eta eps) err st o in
  0 <= m /\ m <= ne * eps / eta /\ (0 < ns -> m <= ne / ns) /\ (0 < ns -> 0 < ne -> m < ne / ns) /\
  m * (ns + eta / eps) = ne.
Proof. exact c38_improved. Qed.
Print Assumptions C38_improved_measure.

Theorem C38_improved_measure_increases :
  forall (o o' : ode R) err err' st st' eta eps,
  0 <= compute_state_norm o st -> compute_state_norm o' st' = compute_state_norm o st ->
  0 < eta -> 0 < eps ->
  compute_state_norm o err < compute_state_norm o' err' ->
  get_measure (ImprovedErrorMeasurer eta eps) err st o <
  get_measure (ImprovedErrorMeasurer eta eps) err' st' o'.
Proof. exact c38_monotone. Qed.
Print Assumptions C38_improved_measure_increases.

Example C38_hypotheses_met :
  let o := {| compute_update := fun _ _ _ => Err SolverError;
              compute_update_derivative := fun _ _ _ _ => Err SolverError;
              compute_update_adjoint_derivative := fun _ _ _ _ => Err SolverError;
              compute_state_norm := fun r : ode_out R => Rabs (nth 0 (stage_state r) 0);
              state_size := 1; independent_input_size := 0; independent_output_size := 0;
              linearization_point_size := 0 |} in
  let e := {| stage_update := []; stage_state := [-3]; independent_output := [] |} in
  let e' := {| stage_update := []; stage_state := [5]; independent_output := [] |} in
  0 <= compute_state_norm o e /\ compute_state_norm o e < compute_state_norm o e'.
Proof. cbn. split; [apply Rabs_pos|]. rewrite Rabs_left, Rabs_right by lra. lra. Qed.
