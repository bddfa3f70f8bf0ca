{
 "claims": [
  {
   "property": "C01",
   "status": "proved",
   "theorems": [
    "C01_step_satisfies_rk_equations",
    "C01_step_defined",
    "C01_fresh_state_shaped"
   ],
   "note": "Over the reals, for every tableau without entries above the diagonal."
  },
  {
   "property": "C02",
   "status": "partial",
   "theorems": [
    "C02_upper_entries_refuted",
    "C02_upper_entries_ignored"
   ],
   "note": "Violated by the code: a fully implicit tableau is accepted and executed as its lower triangular part. The second theorem states this for every scalar type."
  },
  {
   "property": "C03",
   "status": "proved",
   "theorems": [
    "C03_fixed_step_times",
    "C03_fixed_step_times_recomputing"
   ],
   "note": "All checkpointing variants; for the recomputing one, library schedules that advance and save in the forward phase."
  },
  {
   "property": "C04",
   "status": "proved",
   "theorems": [
    "C04_step_derivative_is_derivative",
    "C04_step_derivative_linear",
    "C04_step_derivative_keeps_inputs"
   ],
   "note": "Derivatives along differentiable curves of inputs."
  },
  {
   "property": "C05",
   "status": "proved",
   "theorems": [
    "C05_step_adjoint_is_transpose",
    "C05_step_adjoint_ignores_working_fields"
   ],
   "note": "Includes weights on all stage states."
  },
  {
   "property": "C06",
   "status": "proved",
   "theorems": [
    "C06_products_transposed_fresh",
    "C06_products_transposed",
    "C06_products_transposed_recomputing",
    "C06_forward_product_linear"
   ],
   "note": "Fixed or adaptive steps, any number of steps. The recomputing variant: at least one step and controllers without a nested one."
  },
  {
   "property": "C07",
   "status": "proved",
   "theorems": [
    "C07_forward_product_is_derivative",
    "C07_same_trajectory",
    "components_in_use_are_wf"
   ],
   "note": "Derivatives along differentiable curves of inputs."
  },
  {
   "property": "C08",
   "status": "proved",
   "theorems": [
    "C08_storing_is_transparent",
    "C08_reverse_uses_every_step",
    "C08_no_checkpoints_no_reverse"
   ],
   "note": "For every scalar type."
  },
  {
   "property": "C09",
   "status": "proved",
   "theorems": [
    "C09_compute_same_for_all_variants",
    "C09_reverse_same_for_all_variants"
   ],
   "note": "For every scalar type and every schedule allowed by SpecRevolve.v; controllers without memory (or fixed steps), ODEs that give no weight to stage states."
  },
  {
   "property": "C10",
   "status": "partial",
   "theorems": [
    "C10_same_run_for_all_variants_refuted",
    "C10_recomputing_callbacks",
    "C10_recomputing_reverse_callbacks",
    "C08_storing_is_transparent",
    "C33_compute_callbacks"
   ],
   "note": "Violated by the code: the recomputing variant numbers the steps from 0 and calls compute callbacks during reverse products. Proved: what the callbacks see with each variant."
  },
  {
   "property": "C11",
   "status": "partial",
   "theorems": [
    "C11_reverse_product_history_independent_refuted",
    "C11_forward_product_between_refuted",
    "C11_reverse_product_history_independent",
    "C11_reverse_product_after_compute",
    "C11_reverse_product_after_other_inputs",
    "C11_recomputing_history_independent"
   ],
   "note": "Violated by the code: the initial time is not compared, a run that raised is reused, and with the recomputing checkpointer a forward product in between corrupts the state. Proved for histories without exceptions and with one initial time (recomputing variant: without forward products), right after a compute call on the same inputs, and after a compute call on other inputs."
  },
  {
   "property": "C12",
   "status": "partial",
   "theorems": [
    "C12_failed_run_not_reused_refuted",
    "C12_failed_reverse_not_reused_refuted",
    "C12_other_inputs_unaffected"
   ],
   "note": "Violated by the code in both ways; other inputs are proved not to be affected."
  },
  {
   "property": "C13",
   "status": "partial",
   "theorems": [
    "C13_accept_rule",
    "C13_mid_run_step_refuted"
   ],
   "note": "The rule of ErrorController._run holds for every chain, configuration and question. The 'in particular' part is false: the remaining time it is compared with is that after the step, so a step in the middle of a run that is as long as the time left after it is accepted whatever its error (refuted by a run)."
  },
  {
   "property": "C14",
   "status": "proved",
   "theorems": [
    "C14_suggestion_bounds"
   ],
   "note": "Extended reals, so infinite bounds and remaining times are covered."
  },
  {
   "property": "C15",
   "status": "proved",
   "theorems": [
    "C15_no_overshoot",
    "C15_final_time"
   ],
   "note": "For every chain of controllers; extended reals with exact arithmetic. Runs without recomputation (NoCheckpointer, AllCheckpointer)."
  },
  {
   "property": "C16",
   "status": "proved",
   "theorems": [
    "C16_retries_end",
    "C16_bound_exists"
   ],
   "note": "n rejected trials suffice whenever kappa^n * step < lower bound + 1e-10, whatever the error measures of the trials (nan excluded)."
  },
  {
   "property": "C17",
   "status": "proved",
   "theorems": [
    "C17_retry_not_larger",
    "C17_built_chains_are_outermost"
   ],
   "note": ""
  },
  {
   "property": "C18",
   "status": "partial",
   "theorems": [
    "C18_retry_limit_refuted",
    "C18_counter_is_reset"
   ],
   "note": "Violated by the code: the counter is set back to zero after each delegated rejection, so the limit is never reached by consecutive rejections."
  },
  {
   "property": "C19",
   "status": "partial",
   "theorems": [
    "C19_step_count",
    "C19_integral_runs_end_partial",
    "C19_short_closing_step_forever",
    "C19_refuted"
   ],
   "note": "The bound on the number of steps is proved for every chain. The attempt loop need not end: a closing step shorter than the lower bound with error above the tolerance is repeated unchanged for ever, with every chain; a concrete run shows it. For the integral controller this is proved to be the only way not to end."
  },
  {
   "property": "C20",
   "status": "proved",
   "theorems": [
    "C20_histories_of_accepted_steps",
    "C20_failed_step_leaves_no_trace"
   ],
   "note": "For every scalar type."
  },
  {
   "property": "C21",
   "status": "partial",
   "theorems": [
    "C21_deadbeat",
    "C21_h0_321_refuted"
   ],
   "note": "Proved for h0_211, h0_220, h0_312, h0_330 (error exponent p) and h0_110 (error exponent p+1); false for h0_321."
  },
  {
   "property": "C22",
   "status": "proved",
   "theorems": [
    "C22_monotone",
    "C22_fixed_point"
   ],
   "note": "All else equal includes the accept decision, or an unlimited remaining time."
  },
  {
   "property": "C23",
   "status": "proved",
   "theorems": [
    "C23_pseudo_keeps_step"
   ],
   "note": "For error measures other than nan."
  },
  {
   "property": "C24",
   "status": "proved",
   "theorems": [
    "C24_ranges_fill_array",
    "C24_range_lengths",
    "C24_same_order_everywhere"
   ],
   "note": "For every list of variables, tags, shapes and every distribution over processes."
  },
  {
   "property": "C25",
   "status": "proved",
   "theorems": [
    "C25_reading_places_every_quantity",
    "C25_writing_places_every_quantity",
    "C25_array_round_trip",
    "C25_vector_round_trip",
    "C25_independent_inputs_placed",
    "C25_independent_inputs_round_trip",
    "C25_ode_input_placed",
    "C25_ode_update_read",
    "C25_independent_inputs_appended",
    "C25_no_independent_outputs"
   ],
   "note": "For every problem accepted by extractor and component set-up. The ODE part assumes distinct sources and a scalar time source. Broadcasting of size-one arrays is not modelled."
  },
  {
   "property": "C26",
   "status": "partial",
   "theorems": [
    "C26_accepted_quantities",
    "C26_wrong_tags_rejected",
    "C26_properly_tagged_accepted",
    "C26_missing_quantity_accepted",
    "C26_doubled_quantity_accepted",
    "C26_other_shapes_accepted",
    "C26_verdicts_differ"
   ],
   "note": "Wrong roles of a quantity some output is tagged with are rejected and properly tagged problems are accepted with each quantity once. Refuted otherwise: a requested quantity without tagged output is silently left out, one with a second tagged output without role is listed twice, shapes of inputs are not checked, and the verdict may differ between processes."
  },
  {
   "property": "C27",
   "status": "proved",
   "theorems": [
    "C27_exactly_one_class",
    "C27_explicit",
    "C27_diagonally_implicit",
    "C27_implicit"
   ],
   "note": ""
  },
  {
   "property": "C28",
   "status": "partial",
   "theorems": [
    "C28_constructed_iff_sizes_agree",
    "C28_constructed_fields",
    "C28_weights_warning",
    "C28_constructed_wf",
    "C28_constructed_embedded_wf",
    "C28_default_times_are_row_sums",
    "C28_row_sum_warning_refuted",
    "C28_row_sum_warning_only_if_all_differ"
   ],
   "note": "Everything but the row-sum warning is proved. The warning is given only if every row deviates, so the last clause is violated."
  },
  {
   "property": "C29",
   "status": "proved",
   "theorems": [
    "C29_every_tableau_covered",
    "C29_constructed",
    "C29_order_conditions",
    "C29_order_not_higher",
    "C29_polynomials_exact",
    "C29_polynomials_rounded",
    "C29_polynomials_recentre"
   ],
   "note": "Coefficients are the real values of the expressions in butcher_tableaux.py; 16 main methods meet the conditions exactly, the others up to the bounds listed in SpecTree.precision. Rounding of float64 is not modelled."
  },
  {
   "property": "C30",
   "status": "partial",
   "theorems": [
    "C30_set_copies_partial",
    "C30_set_is_the_state_model",
    "C30_embedded_set_refuted",
    "C30_independent_after_set",
    "C30_set_to_itself",
    "C30_deep_copy",
    "C30_kept_copies_stay",
    "C30_new_objects_are_separate"
   ],
   "note": "Memory with buffers and views. set() copies every attribute of the class without error estimate, and afterwards no work on one object is seen in the other; it is what the value-level model used by the run theorems says. For the embedded class the full statement is false: set() is inherited and leaves embedded_state and error_estimate as they were (C30_embedded_set_refuted). Deep copies (all-checkpointer) are complete for both classes and stay as they were."
  },
  {
   "property": "C31",
   "status": "partial",
   "theorems": [
    "C31_plain_round_trip_partial",
    "C31_result_shares_arrays",
    "C31_independent_inputs_refuted",
    "C31_embedded_refuted",
    "C31_time_integration_refuted",
    "C31_time_integration_partial"
   ],
   "note": "False as stated, for every state with independent inputs (TypeError), for every embedded state (KeyError or TypeError, no return value) and for every time integration state (suggestion becomes a float). Proved: what does come back for discretization states without independent inputs (all but step_size)."
  },
  {
   "property": "C32",
   "status": "partial",
   "theorems": [
    "C32_size_is_what_is_handed_out",
    "C32_save_then_load_partial",
    "C32_step_size_refuted"
   ],
   "note": "Size and skipping of empty arrays for every dictionary; saving, any changes, loading restores everything that to_dict exports. step_size is not exported, hence not restored (C32_step_size_refuted). What pyrevolve does with the arrays (copying them into a slot and back) is assumed."
  },
  {
   "property": "C33",
   "status": "proved",
   "theorems": [
    "C33_compute_callbacks",
    "C33_forward_callbacks",
    "C33_compute_callbacks_when_raising",
    "C33_forward_callbacks_when_raising",
    "C33_reverse_callbacks_when_raising",
    "C08_reverse_uses_every_step",
    "C10_recomputing_callbacks",
    "C10_recomputing_reverse_callbacks"
   ],
   "note": "The numbers are those of the property for the variants without recomputation; for the recomputing variant see C10."
  },
  {
   "property": "C34",
   "status": "partial",
   "theorems": [
    "C34_file_of_a_run",
    "C34_file_of_compute",
    "C34_one_process",
    "C34_interrupted_partial",
    "C34_file_when_raising",
    "C34_no_group_without_data_refuted",
    "C34_recomputing_refuted",
    "C34_error_measure_name_refuted"
   ],
   "note": "Contents of the file proved for every finished run, any number of processes and any order of their writes. The last sentence (no group without data) is false for interrupted runs; proved instead that earlier records stay complete. The writer cannot be used with the recomputing checkpointer, nor with a quantity named error_measure."
  },
  {
   "property": "C35",
   "status": "proved",
   "theorems": [
    "C35_every_entry_once",
    "C35_selection_is_portion"
   ],
   "note": "For metadata extracted from any well-tagged problem."
  },
  {
   "property": "C36",
   "status": "partial",
   "theorems": [
    "C36_norm_of_all_entries_partial",
    "C36_infinity_needs_entries",
    "C36_minus_infinity_is_zero",
    "C36_minus_infinity_refuted",
    "C36_partial_copies_refuted"
   ],
   "note": "Proved for order 0, positive orders and, when every process holds entries of each included quantity, infinity, for quantities held by all processes or split over them. Refuted for minus infinity (always 0), for infinity with an empty portion (ValueError), and for quantities copied on some but not all processes (counted once per copy). Negative finite orders are not modelled."
  },
  {
   "property": "C37",
   "status": "partial",
   "theorems": [
    "C37_one_process_is_the_integrator",
    "C37_processes_stay_in_step_partial",
    "C37_no_deadlock_partial",
    "C37_infinite_order_deadlock_refuted",
    "C37_differing_copies_refuted"
   ],
   "note": "Proved for runs without or with full checkpointing and every number of processes, when the norm is defined on every process, copies of quantities agree at the start and in solver answers, and solver exceptions reach all processes. Refuted for infinite norm orders with a quantity missing on a process (deadlock) and for differing copies."
  },
  {
   "property": "C38",
   "status": "proved",
   "theorems": [
    "C38_improved_measure_of_state",
    "C38_simple_measure_is_norm",
    "C38_improved_measure",
    "C38_improved_measure_increases"
   ],
   "note": ""
  },
  {
   "property": "C39",
   "status": "partial",
   "theorems": [
    "C39_transposed",
    "C39_linear",
    "C39_differentiable",
    "C39_sizes",
    "C39_integrator_transposed",
    "C39_shared_source_refuted",
    "C39_vector_time_refuted"
   ],
   "note": "As stated, with the additional hypothesis that the source of the time variable has one entry, which is needed (counterexample proved). Also linked to the integrator's hypotheses. The solver of the stage problem is a parameter; one process."
  },
  {
   "property": "C40",
   "status": "proved",
   "theorems": [
    "C40_point_restores_the_problem",
    "C40_point_restores_any_state",
    "C40_point_size"
   ],
   "note": "For every stage problem whose solves keep the set of variables and every later sequence of ODE calls."
  },
  {
   "property": "C41",
   "status": "proved",
   "theorems": [
    "C41_value_and_update_inverse",
    "C41_value_derivative",
    "C41_update_derivative",
    "C41_value_products_transposed",
    "C41_update_products_transposed"
   ],
   "note": "Real arithmetic; all partial views of the vectors; broadcasting not modelled."
  },
  {
   "property": "C42",
   "status": "partial",
   "theorems": [
    "C42_simple_linear_solves",
    "C42_prothero_robinson_solves",
    "C42_simple_linear_derivative",
    "C42_simple_linear_transposed",
    "C42_simple_linear_partial_view_refuted",
    "C42_prothero_robinson_derivative_refuted"
   ],
   "note": "Stage equations proved for both components; SimpleLinearODE's products are transposed derivatives only when all variables are in view (KeyError otherwise); ProtheroRobinson defines no derivatives, so the derivative part is false for it."
  },
  {
   "property": "C43",
   "status": "partial",
   "theorems": [
    "C43_kaps1_solves",
    "C43_kaps2_solves",
    "C43_kaps1_derivative",
    "C43_kaps2_derivative",
    "C43_kaps1_transposed",
    "C43_kaps2_transposed",
    "C43_kaps1_linear_fwd",
    "C43_kaps2_linear_fwd",
    "C43_kaps1_linear_rev",
    "C43_kaps2_linear_rev_partial",
    "C43_kaps2_linear_rev_refuted"
   ],
   "note": "All parts proved except the reverse linear solve of KapsComponent2, which divides by the wrong determinant: refuted in general, proved where the two agree."
  },
  {
   "property": "C44",
   "status": "partial",
   "theorems": [
    "C44_simple_linear_solution",
    "C44_prothero_robinson_solution_partial",
    "C44_prothero_robinson_default",
    "C44_prothero_robinson_solution_refuted",
    "C44_kaps_solution_partial",
    "C44_kaps_initial_values_refuted",
    "C44_kaps_initial_time_refuted"
   ],
   "note": "True for SimpleLinearODE, and for the other two with their default initial values; refuted for other initial values or times."
  },
  {
   "property": "C45",
   "status": "proved",
   "theorems": [
    "C45_error_estimate_is_difference_of_methods",
    "C45_error_estimate_formula"
   ],
   "note": ""
  },
  {
   "property": "C46",
   "status": "partial",
   "theorems": [
    "C46_compute_repeatable_refuted",
    "C46_compute_repeatable",
    "C46_compute_repeatable_recomputing",
    "C46_plain_controllers_stateless"
   ],
   "note": "Violated by the code for nested controllers; proved for fixed steps and for controllers without nesting, with every checkpointing variant."
  },
  {
   "property": "C47",
   "status": "proved",
   "theorems": [
    "C47_number_of_steps",
    "C47_final_time",
    "C47_returns"
   ],
   "note": ""
  },
  {
   "property": "C48",
   "status": "partial",
   "theorems": [
    "C48_embedded_fields_of_the_step_refuted",
    "C48_embedded_fields_always_zero"
   ],
   "note": "Violated by the code: the embedded fields are never copied into the integration state; proved to be zero always."
  },
  {
   "property": "C49",
   "status": "partial",
   "theorems": [
    "C49_nan_reported",
    "C49_nan_closing_step_forever",
    "C49_refuted"
   ],
   "note": "Reported when the step does not reach the final time; repeated without end on the closing step (refuted by a run)."
  },
  {
   "property": "C50",
   "status": "partial",
   "theorems": [
    "C50_global_ranges_partition",
    "C50_distributed_mark",
    "C50_independent_inputs_refuted"
   ],
   "note": "Proved for time-integration quantities; refuted for distributed independent inputs, whose ranges are taken from the size table of the outputs."
  },
  {
   "property": "C51",
   "status": "partial",
   "theorems": [
    "C51_alternating_errors_filtered",
    "C51_growing_alternation_filtered",
    "C51_trend_continued",
    "C51_curved_trend_continued",
    "C51_h0_321_refuted"
   ],
   "note": "Holds for all controllers but h0_321, whose alpha is 1/(3p): it does not filter (counterexample proved)."
  },
  {
   "property": "C52",
   "status": "partial",
   "theorems": [
    "C52_accepted_runs_use_first_controller",
    "C52_pair_back_to_first",
    "C52_pair_rejection_by_first",
    "C52_counter_survives_refuted",
    "C52_three_controllers_refuted"
   ],
   "note": "As stated it is false: the counter survives an acceptance, and in chains of three or more the inner flags do. Proved for runs without rejections (any chain) and for pairs."
  },
  {
   "property": "C53",
   "status": "partial",
   "theorems": [
    "C53_derivatives_ignore_history_partial",
    "C53_updates_ignore_history_partial",
    "C53_refuted"
   ],
   "note": "Proved over the reals; refuted with non-finite values, because vectors are cleared by multiplying with zero."
  },
  {
   "property": "C54",
   "status": "proved",
   "theorems": [
    "C54_last_local_error"
   ],
   "note": ""
  },
  {
   "property": "C55",
   "status": "partial",
   "theorems": [
    "C55_one_quantity",
    "C55_several_quantities_partial",
    "C55_several_quantities_refuted"
   ],
   "note": "With several quantities the code uses the initial values of one quantity for all; correct only for solutions whose components depend on their own initial values."
  },
  {
   "property": "C56",
   "status": "partial",
   "theorems": [
    "C56_steps_in_any_arithmetic",
    "C56_exact_sums_partial",
    "C56_refuted"
   ],
   "note": "False: the test is T - time <= 0 without tolerance, and ten steps of 0.1 add up to less than 1 in binary64, so an eleventh step is made. Proved: the number of steps in any arithmetic, and the statement whenever the sums are exact."
  },
  {
   "property": "C57",
   "status": "proved",
   "theorems": [
    "C57_run_is_composition_of_steps",
    "C57_run_is_composition_of_steps_recomputing",
    "C57_forward_product_follows_steps"
   ],
   "note": "In real arithmetic."
  },
  {
   "property": "C58",
   "status": "proved",
   "theorems": [
    "C58_error_bound",
    "C58_runs_converge"
   ],
   "note": "In real arithmetic, maximum norm. First-order estimate for every consistent scheme; the higher order of particular schemes is not used."
  },
  {
   "property": "C59",
   "status": "proved",
   "theorems": [
    "C59_vectors_hold_inputs",
    "C59_vectors_hold_outputs",
    "C59_compute_by_name",
    "C59_forward_by_name",
    "C59_reverse_by_name",
    "C59_component_takes_steps"
   ],
   "note": "The last theorem is in real arithmetic, the others in any."
  },
  {
   "property": "C60",
   "status": "proved",
   "theorems": [
    "C60_products_transposed_by_name"
   ],
   "note": "In real arithmetic, with the checkpointer that stores everything."
  },
  {
   "property": "C61",
   "status": "proved",
   "theorems": [
    "C61_forward_is_derivative_by_name"
   ],
   "note": "In real arithmetic."
  },
  {
   "property": "C62",
   "status": "partial",
   "theorems": [
    "C62_forward_adds_iff_partial",
    "C62_reverse_adds_iff_partial",
    "C62_refuted"
   ],
   "note": "False: only the time entry is added, quantities replace what is in the vector. Proved: exactly when the result is the sum."
  },
  {
   "property": "C63",
   "status": "partial",
   "theorems": [
    "C63_forward_refuted",
    "C63_reverse_refuted"
   ],
   "note": "False: every declared input is accessed, so a missing one raises KeyError for every such component and vector."
  },
  {
   "property": "C64",
   "status": "proved",
   "theorems": [
    "C64_order_of_runs",
    "C64_fixed_steps",
    "C64_shipped",
    "C64_shipped_all"
   ],
   "note": "In real arithmetic, maximum norm. Errors of printed coefficients (decimals) enter with the sizes listed in SpecTree.v and SpecNodes.v."
  },
  {
   "property": "C65",
   "status": "proved",
   "theorems": [
    "C65_estimate_order",
    "C65_shipped_estimate"
   ],
   "note": "In real arithmetic, maximum norm."
  },
  {
   "property": "C66",
   "status": "proved",
   "theorems": [
    "C66_factor",
    "C66_compute",
    "C66_forward",
    "C66_reverse"
   ],
   "note": "In real arithmetic; reverse mode with the checkpointer that stores everything."
  },
  {
   "property": "C67",
   "status": "proved",
   "theorems": [
    "C67_decay",
    "C67_prothero_robinson",
    "C67_exact"
   ],
   "note": "In real arithmetic. The exact solutions are those with the given initial value at t0, not ProtheroRobinson.solution (finding 5)."
  },
  {
   "property": "C68",
   "status": "partial",
   "theorems": [
    "C68_products_partial",
    "C68_reverse_partial",
    "C68_refuted"
   ],
   "note": "False: both products are the identity, the derivative is the n-th power of the stability function. Proved: exactly what is returned and the derivative."
  },
  {
   "property": "C69",
   "status": "proved",
   "theorems": [
    "C69"
   ],
   "note": "In real arithmetic, fixed steps, the checkpointers without recomputation."
  },
  {
   "property": "C70",
   "status": "partial",
   "theorems": [
    "C70_accepts",
    "C70_names",
    "C70_same_file_iff_partial",
    "C70_factor_partial",
    "C70_one_digit_partial",
    "C70_shipped_partial",
    "C70_shipped_named_partial",
    "C70_refuted"
   ],
   "note": "False: step sizes that agree in one digit, names equal up to case and commas, and two shipped tableaux share files. Proved: exactly when files are shared, and that the shipped study is affected only by the shared name."
  },
  {
   "property": "C71",
   "status": "partial",
   "theorems": [
    "C71_mean_partial",
    "C71_range",
    "C71_missing",
    "C71_refuted"
   ],
   "note": "False for step sizes that agree in the first digit; proved for all others."
  },
  {
   "property": "C72",
   "status": "partial",
   "theorems": [
    "C72_directory_partial",
    "C72_bare_refuted",
    "C72_parallel_partial",
    "C72_parallel_refuted"
   ],
   "note": "False for bare file names and for parallel runs that start without the directory; proved otherwise."
  },
  {
   "property": "C73",
   "status": "partial",
   "theorems": [
    "C73_one_step_more_refuted"
   ],
   "note": "False for every run: the group of the initial state is counted as a step."
  },
  {
   "property": "C74",
   "status": "partial",
   "theorems": [
    "C74_shipped_partial",
    "C74_refuted"
   ],
   "note": "False in general (0.3 / 0.1); proved for the end times and step sizes of both shipped problems."
  },
  {
   "property": "C75",
   "status": "proved",
   "theorems": [
    "C75_any_steps",
    "C75_fixed_steps",
    "C75_shipped"
   ],
   "note": "Distances and tolerances are real numbers."
  },
  {
   "property": "C76",
   "status": "proved",
   "theorems": [
    "C76_fixed_steps",
    "C76_any_steps"
   ],
   "note": "The Newton solver is a parameter of which convergence and moderate updates are asked."
  },
  {
   "property": "C77",
   "status": "proved",
   "theorems": [
    "C77_forward",
    "C77_transposed"
   ],
   "note": "The Newton and Krylov solvers are parameters that solve exactly or raise."
  },
  {
   "property": "C78",
   "status": "proved",
   "theorems": [
    "C78_any_steps",
    "C78_fixed_steps",
    "C78_reverse",
    "C78_shipped"
   ],
   "note": "The linearized solution is a hypothesis; that it is the derivative of the flow is not needed."
  },
  {
   "property": "C79",
   "status": "proved",
   "theorems": [
    "C79_forward",
    "C79_reverse"
   ],
   "note": "The Newton and the linear solver are parameters of which convergence and moderate values are asked; the reverse statement asks exact linear solves."
  },
  {
   "property": "C80",
   "status": "proved",
   "theorems": [
    "C80_binary",
    "C80_any_steps",
    "C80_fixed_steps",
    "C80_shipped"
   ],
   "note": "Stage solves, their rounding included, are parameters of which a tolerance is asked; square roots and divisions in coefficients enter through dl. np.einsum is taken to add in the order of the stages; another order changes only the constant, which is not proved."
  },
  {
   "property": "C81",
   "status": "proved",
   "theorems": [
    "C81_coefficients",
    "C81_order",
    "C81_runs"
   ],
   "note": "The power function of the C library is a parameter of which an error bound is asked. np.sum is taken to add in order, which it does for rows of fewer than eight numbers."
  },
  {
   "property": "C82",
   "status": "partial",
   "theorems": [
    "C82_set_up_accepts_exactly",
    "C82_set_up_result",
    "C82_set_up_errors",
    "C82_shipped_tableaux",
    "C82_general_controllers_refuted",
    "C82_general_by_name",
    "C82_general_accepts_exactly"
   ],
   "note": "Refuted for the three controllers with further arguments: they are shipped but cannot be chosen (finding 41). Orders 0 are not modelled (a ZeroDivisionError in most factories)."
  },
  {
   "property": "C83",
   "status": "partial",
   "theorems": [
    "C83_from_tableau",
    "C83_methods_and_orders",
    "C83_unknown_order_refuted"
   ],
   "note": "Refuted: an unknown embedded order - the default of from_butchertableau - is not reported but makes set-up raise TypeError (finding 42)."
  },
  {
   "property": "C84",
   "status": "partial",
   "theorems": [
    "C84_options_handed_over",
    "C84_storages",
    "C84_separate_dictionaries",
    "C84_same_again_partial",
    "C84_storages_twice_refuted",
    "C84_checkpoint_number_refuted",
    "C84_shared_dictionary_refuted",
    "C84_shared_run_refuted",
    "C84_unknown_storages_refuted"
   ],
   "note": "Refuted for dictionaries used more than once and for misspelt storage types (finding 43)."
  },
  {
   "property": "C85",
   "status": "proved",
   "theorems": [
    "C85_steps_taken",
    "C85_forward_is_derivative",
    "C85_forward_linear",
    "C85_reverse_is_transpose",
    "C85_component_compute",
    "C85_component_products"
   ],
   "note": "The final independent outputs are zeros whatever the stages give (finding 8). Products of the component are compared for a component just set up."
  },
  {
   "property": "C86",
   "status": "partial",
   "theorems": [
    "C86_one_process_is_the_integrator",
    "C86_histories_stay_in_step_partial",
    "C86_no_deadlock_partial",
    "C86_local_cache_decision_deadlock_refuted",
    "C86_callbacks_are_met"
   ],
   "note": "Proved for every history when the norm is defined on every process, callbacks raise on all processes or on none, copies of quantities agree, solver exceptions reach all processes, and a change of inputs between calls shows on all processes or on none. Refuted otherwise: each process compares its own portion of the inputs with its own cache, and a change on one process only leaves it in compute while the others wait in the adjoint solve."
  },
  {
   "property": "C87",
   "status": "proved",
   "theorems": [
    "C87_factor",
    "C87_compute",
    "C87_forward",
    "C87_reverse",
    "C87_covers",
    "C87_explicit_refuted"
   ],
   "note": "C87_explicit_refuted shows that the restriction to tableaux that are not explicit is needed (classical method, step size 4, factor 5). Reverse products with the all-storing checkpointer."
  },
  {
   "property": "C88",
   "status": "proved",
   "theorems": [
    "C88_weak_stage_order",
    "C88_uniform",
    "C88_full_order",
    "C88_sharp"
   ],
   "note": "Up to the precision of the written coefficients (stiff_orders in SpecStiff.v, precision in SpecTree.v). The implicit midpoint rule is outside the quantifier of the uniform bound: its factor tends to -1."
  },
  {
   "property": "C89",
   "status": "partial",
   "theorems": [
    "C89_settles",
    "C89_accepted",
    "C89_run",
    "C89_swings_refuted"
   ],
   "note": "Proved for the controllers and orders of SpecLoop.v settling: all of the catalogue with q = p, most with q = p + 1. Refuted with q = p + 1 for pc and h0_220 with p = 1, 2 and h0_330 with p = 1..4: the integrator passes the order p while errors behave like h^(p+1), and the step sizes swing away from the balance. Neither is proved for pc with p = 3."
  },
  {
   "property": "C90",
   "status": "proved",
   "theorems": [
    "C90_exceptions",
    "C90_no_influence",
    "C90_histories"
   ],
   "note": "For every scalar type. Callbacks of the model return or raise depending on step number and state; they do not change the state they are shown."
  },
  {
   "property": "C91",
   "status": "proved",
   "theorems": [
    "C91_linear",
    "C91_linear_recomputing",
    "C91_forward",
    "C91_reverse",
    "C91_quadratic",
    "C91_midpoint",
    "C91_euler",
    "C91_quadratic_refuted"
   ],
   "note": "Over the reals. The refutation bounds the claim: other shipped tableaux do not keep quadratic quantities (explicit Euler multiplies the energy of a rotation by 1 + h^2 per step), as the statement says."
  },
  {
   "property": "C92",
   "status": "proved",
   "theorems": [
    "C92_compute",
    "C92_forward",
    "C92_reverse",
    "C92_parameters",
    "C92_final_time",
    "C92_adaptive_refuted"
   ],
   "note": "Number of steps: for every scalar type, below the loop limit of the model; parameter adjoints and the final-time form over the reals. The refutation bounds the claim: a continued adaptive run starts again from the initial step size with empty histories."
  },
  {
   "property": "C93",
   "status": "proved",
   "theorems": [
    "C93_compute",
    "C93_reordering",
    "C93_affine",
    "C93_units_refuted",
    "C93_forward",
    "C93_reverse"
   ],
   "note": "The new ODE is required to give changed slopes for changed stage inputs. The refutation bounds the claim: without equal norms an adaptive run in other units takes other steps. Reverse products: stored checkpoints, components that have just been set up."
  },
  {
   "property": "C94",
   "status": "proved",
   "theorems": [
    "C94_compute",
    "C94_forward",
    "C94_reverse",
    "C94_recomputing",
    "C94_raising",
    "C94_other_processes",
    "C94_options",
    "C94_no_influence",
    "C94_times"
   ],
   "note": "With the recomputing checkpointer compute reports steps 0..N-1 (C94_recomputing); its reverse products are covered by C10. Reverse products that raise are covered by C33 for the hooks only."
  }
 ]
}