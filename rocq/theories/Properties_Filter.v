(** Property theorems about the controller catalogue as filters (C51), the
    modes of nested controllers (C52) and the measured state (C38). *)
From Coq Require Import List Reals Lra Lia Bool.
From Verif Require Import Base Ext M_State M_ODE M_Controller M_Measure SpecControl SpecFilter
  L_Control L_Catalogue L_Filter.
Import ListNotations.
Local Open Scope nat_scope.
Local Open Scope R_scope.

(** ** C51: errors that alternate around the tolerance at constant step size
    are ignored by the filtering controllers, ... *)
Theorem C51_alternating_errors_filtered :
  forall ctl p cfg eps kappa r h rem c' st,
  filtering ctl -> 0 < p -> sane cfg eps kappa -> 0 < r -> 0 < h -> rem <> NaN -> rem <> NInf ->
  ctl_call cfg (mk_plain (ctl p)) (alternating eps r h rem) = (c', Ok st) ->
  is_cut (lower_bound cfg) (upper_bound cfg) (time_limit (alternating eps r h rem) (acceptance st))
    (Fin (kappa * h)) (step_size_suggestion st).
Proof. exact c51_filter. Qed.
Print Assumptions C51_alternating_errors_filtered.

Theorem C51_growing_alternation_filtered :
  forall ctl p cfg eps kappa r s h rem c' st,
  filtering2 ctl -> 0 < p -> sane cfg eps kappa -> 0 < r -> 0 < s -> 0 < h -> rem <> NaN -> rem <> NInf ->
  ctl_call cfg (mk_plain (ctl p)) (growing_alternation eps r s h rem) = (c', Ok st) ->
  is_cut (lower_bound cfg) (upper_bound cfg) (time_limit (growing_alternation eps r s h rem) (acceptance st))
    (Fin (kappa * h)) (step_size_suggestion st).
Proof. exact c51_filter2. Qed.
Print Assumptions C51_growing_alternation_filtered.

(** ... and a trend of the step size is continued by the predicting ones. *)
Theorem C51_trend_continued :
  forall ctl p cfg eps kappa rho h rem c' st,
  predicting ctl -> 0 < p -> sane cfg eps kappa -> 0 < rho -> 0 < h -> rem <> NaN -> rem <> NInf ->
  ctl_call cfg (mk_plain (ctl p)) (trend eps rho h rem) = (c', Ok st) ->
  is_cut (lower_bound cfg) (upper_bound cfg) (time_limit (trend eps rho h rem) (acceptance st))
    (Fin (kappa * (rho * h))) (step_size_suggestion st).
Proof. exact c51_trend. Qed.
Print Assumptions C51_trend_continued.

Theorem C51_curved_trend_continued :
  forall ctl p cfg eps kappa rho sigma h rem c' st,
  predicting3 ctl -> 0 < p -> sane cfg eps kappa -> 0 < rho -> 0 < sigma -> 0 < h -> rem <> NaN -> rem <> NInf ->
  ctl_call cfg (mk_plain (ctl p)) (curved_trend eps rho sigma h rem) = (c', Ok st) ->
  is_cut (lower_bound cfg) (upper_bound cfg) (time_limit (curved_trend eps rho sigma h rem) (acceptance st))
    (Fin (kappa * (rho * sigma * sigma * h))) (step_size_suggestion st).
Proof. exact c51_curved. Qed.
Print Assumptions C51_curved_trend_continued.

(** [h0_321] should filter too (its last digit is 1), but does not. *)
Theorem C51_h0_321_refuted :
  exists p cfg eps kappa r h rem c' st,
  0 < p /\ sane cfg eps kappa /\ 0 < r /\ 0 < h /\ rem <> NaN /\ rem <> NInf /\
  ctl_call cfg (mk_plain (h0_321 (Fin p))) (alternating eps r h rem) = (c', Ok st) /\
  ~ is_cut (lower_bound cfg) (upper_bound cfg) (time_limit (alternating eps r h rem) (acceptance st))
      (Fin (kappa * h)) (step_size_suggestion st).
Proof. exact c51_refuted. Qed.
Print Assumptions C51_h0_321_refuted.

(** Calls that meet the hypotheses: tolerance 1, the current error half of it. *)
Example C51_hypotheses_met :
  filtering (fun p => pid (Fin p)) /\ filtering2 (fun p => pid (Fin p)) /\
  predicting (fun p => pc (Fin p)) /\ predicting3 (fun p => h0_330 (Fin p)) /\
  sane (cfg52 5) 1 1 /\
  forall x, exists c' st c'' st',
    ctl_call (cfg52 5) (mk_plain x) (alternating 1 (/ 2) 1 PInf) = (c', Ok st) /\
    ctl_call (cfg52 5) (mk_plain x) (curved_trend 1 2 3 1 PInf) = (c'', Ok st').
Proof.
  do 4 (split; [constructor|]); split; [apply cfg52_sane|]; intros x.
  assert (E1 : run_success (cfg52 5) (alternating 1 (/ 2) 1 PInf) = true) by (apply run_success_iff; left; cbn; lra).
  assert (E2 : run_success (cfg52 5) (curved_trend 1 2 3 1 PInf) = true) by (apply run_success_iff; left; cbn; lra).
  do 4 eexists; cbn [ctl_call mk_plain]; rewrite !acceptance_base_run, E1, E2; split; reflexivity.
Qed.

(** ** C52: as long as every step is accepted, the first controller decides
    alone, whatever is nested around it. *)
Theorem C52_accepted_runs_use_first_controller :
  forall (T : Type) (N : Num T) cfg x xs c (qs : list (call_args T)),
  build_chain (x :: xs) = Some c -> Forall accepted (replies cfg c qs) ->
  replies cfg c qs = map (alone cfg x) qs.
Proof. exact (@c52_all_accepted). Qed.
Print Assumptions C52_accepted_runs_use_first_controller.

(** A pair of controllers: after an accepted step, whatever happened before,
    the first controller answers the next accepted one; ... *)
Theorem C52_pair_back_to_first :
  forall (T : Type) (N : Num T) cfg x1 x2 c (qs : list (call_args T)) q q',
  build_chain [x1; x2] = Some c ->
  accepted (snd (ctl_call cfg (after cfg c qs) q)) ->
  accepted (snd (ctl_call cfg (after cfg c (qs ++ [q])) q')) ->
  snd (ctl_call cfg (after cfg c (qs ++ [q])) q') = alone cfg x1 q'.
Proof. exact (@c52_two_accepted). Qed.
Print Assumptions C52_pair_back_to_first.

(** ... after two accepted steps it also answers a rejection if it shrinks the
    step. *)
Theorem C52_pair_rejection_by_first :
  forall (T : Type) (N : Num T) cfg x1 x2 c (qs : list (call_args T)) q q' q'',
  build_chain [x1; x2] = Some c -> (1 <= max_iter cfg)%nat ->
  accepted (snd (ctl_call cfg (after cfg c qs) q)) ->
  accepted (snd (ctl_call cfg (after cfg c (qs ++ [q])) q')) ->
  shrinking q'' (alone cfg x1 q'') ->
  snd (ctl_call cfg (after cfg c (qs ++ [q; q'])) q'') = alone cfg x1 q''.
Proof. exact (@c52_two_rejected). Qed.
Print Assumptions C52_pair_rejection_by_first.

(** One accepted step is not enough for that: the counter of failed
    delegations survives an acceptance. *)
Theorem C52_counter_survives_refuted :
  exists cfg c q1 q2 q3,
  (1 <= max_iter cfg)%nat /\ build_chain [pc (Fin 1); integral (Fin 1)] = Some c /\
  accepted (snd (ctl_call cfg (after cfg c [q1]) q2)) /\
  shrinking q3 (alone cfg (pc (Fin 1)) q3) /\
  snd (ctl_call cfg (after cfg c [q1; q2]) q3) <> alone cfg (pc (Fin 1)) q3.
Proof. exact c52_counter_refuted. Qed.
Print Assumptions C52_counter_survives_refuted.

(** In a chain of three the middle controller keeps answering after the step
    was accepted. *)
Theorem C52_three_controllers_refuted :
  exists cfg c q1 q2 q3,
  build_chain [pc (Fin 1); h0_330 (Fin 1); integral (Fin 1)] = Some c /\
  accepted (snd (ctl_call cfg (after cfg c [q1]) q2)) /\
  accepted (snd (ctl_call cfg (after cfg c [q1; q2]) q3)) /\
  snd (ctl_call cfg (after cfg c [q1; q2]) q3) = alone cfg (h0_330 (Fin 1)) q3 /\
  snd (ctl_call cfg (after cfg c [q1; q2]) q3) <> alone cfg (pc (Fin 1)) q3.
Proof. exact c52_three_refuted. Qed.
Print Assumptions C52_three_controllers_refuted.

Example C52_hypotheses_met :
  exists c, build_chain [pc (Fin 1); integral (Fin 1)] = Some c /\
  (1 <= max_iter (cfg52 5))%nat /\
  let q := pow_args 0 0 0 2 2 2 in let q'' := pow_args 2 0 0 2 2 2 in
  Forall accepted (replies (cfg52 5) c [q; q]) /\
  shrinking q'' (alone (cfg52 5) (pc (Fin 1)) q'').
Proof.
  eexists; split; [reflexivity|]; split; [cbn; lia|]; cbv zeta.
  assert (A : run_success (cfg52 5) (pow_args 0 0 0 2 2 2) = true).
  { apply run_success_iff; left; cbn; rewrite Rpower_O; lra. }
  split.
  - change (mk_decorated _ _) with (Decorated (integral (Fin 1)) true true 0 (Plain (pc (Fin 1)) false)).
    cbn [replies]; rewrite (chain2_accepts (cfg52 5) _ _ _ _ _ A); cbn [fst snd].
    rewrite (chain2_accepts (cfg52 5) _ _ _ _ _ A); cbn [fst snd].
    repeat constructor; (eexists; split; [reflexivity|exact A]).
  - unfold shrinking, alone; cbn [ctl_call mk_plain]; rewrite pc1.
    rewrite (run_pow 5 2 1 0 1 0 _ _ _ _ _ _ (-2) false) by lra.
    cbn [acceptance step_size_suggestion pow_args history_args delta_t negb andb].
    rewrite nlt_pow by lra; cbn [andb snd]; eexists; split; [reflexivity|]; split; [reflexivity|apply lt_pow; lra].
Qed.

(** ** C38: which state the improved measure is scaled by. *)
Theorem C38_improved_measure_of_state :
  forall (o : ode R) s emb err eta eps m,
  embedded s = Some (emb, err) ->
  0 <= compute_state_norm o {| stage_update := []; stage_state := final_state s; independent_output := [] |} ->
  0 < eta -> 0 < eps -> state_measure (ImprovedErrorMeasurer eta eps) o s = Ok m ->
  m * (compute_state_norm o {| stage_update := []; stage_state := final_state s; independent_output := [] |} + eta / eps)
  = compute_state_norm o {| stage_update := []; stage_state := err; independent_output := [] |}.
Proof. exact c38_state. Qed.
Print Assumptions C38_improved_measure_of_state.

Example C38_state_hypotheses_met :
  exists (o : ode R) (s : rkstate R) emb err m, embedded s = Some (emb, err) /\
  0 <= compute_state_norm o {| stage_update := []; stage_state := final_state s; independent_output := [] |} /\
  state_measure (ImprovedErrorMeasurer 1 1) o s = Ok m /\ final_state s <> start_state s.
Proof.
  exists {| compute_update := fun _ _ _ => Err SolverError;
            compute_update_derivative := fun _ _ _ _ => Err SolverError;
            compute_update_adjoint_derivative := fun _ _ _ _ => Err SolverError;
            compute_state_norm := fun r : ode_out R => Rabs (nth 0 (stage_state r) 0);
            state_size := 1; independent_input_size := 0; independent_output_size := 0;
            linearization_point_size := 0 |}.
  exists {| start_state := [1]; stage_states := []; stage_updates := []; final_state := [2]; independent_inputs := [];
            stage_independent_outputs := []; final_independent_outputs := []; start_time := 0; stage_times := [];
            final_time := 1; step_size := 1; linearization_points := []; embedded := Some ([3], [1]) |}; do 3 eexists.
  split; [reflexivity|]; split; [cbn; apply Rabs_pos|]; split; [reflexivity|].
  cbn; intros E; injection E; lra.
Qed.
