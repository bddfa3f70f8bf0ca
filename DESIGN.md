# Design of the formal model of rkopenmdao

Source of truth: `/repo/src/rkopenmdao` (read as text, never run).
Properties: `properties.jsonl`. Status per property: `MANIFEST.json`.
Wrong programs tried against the theorems: `seeded/LOG.jsonl`.

Contents: 1 shape of the development, 2 what is modelled, 3 the properties one by one,
4 findings about the code, 5 trusted base, 6 axioms per theorem.

## 1. Shape of the development

* `rocq/theories/M_*.v`: the model. Total Gallina functions, no proofs. Every
  definition cites file and lines in /repo.
* `rocq/theories/Spec*.v`: small specifications that do not mention model helpers.
* `rocq/theories/L_*.v`: lemmas and proofs. `Base.v`, `Ext.v`: scalars, results, lists,
  the extended real line.
* `rocq/theories/Witness*.v`: concrete problems, runs and files for the examples.
* `rocq/theories/Properties_*.v`: only property theorems (`exact lemma`),
  `Print Assumptions` and one non-vacuity `Example` beside each.

Conventions.

* *Numbers.* Model code is parametric in a class `Num T` of scalar operations
  (`+ - * / **`, comparisons). No law is part of the class, so a theorem stated for
  every `Num` instance also covers IEEE double arithmetic, rounding, inf and nan.
  Theorems that need algebra are stated for the instance `R` (Coq reals), for reals with
  two infinities (`ExtNum`) or reals with inf and nan (`NumInf`); they ignore rounding.
  Rational and integer instances make the model executable for witnesses.
* *Exceptions* are values: `res A = Ok a | Err e`.
* *Loops without bound* (`while not finished`, retry recursion) take fuel and return
  `Err OutOfFuel`; statements are about `Ok` results or show a sufficient fuel.
* *In-place mutation* is modelled by returning the new record. Where sharing of arrays
  is itself the property, `M_Heap.v` has buffers and views; `C30_set_is_the_state_model`
  links the two.
* *External code* (OpenMDAO solvers, PyRevolve scheduler, h5py, MPI) enters as
  universally quantified functions or schedules, with the assumed contract in the
  statement.
* *Names.* `X_refuted` proves that the code violates the stated property by a concrete
  case. `X_partial` proves the property under a restriction which the comment beside it
  names. A property with either has status `partial` in the manifest; "partial" there
  mostly means that the full statement is false of the code, not that a proof is missing.

## 2. What is modelled, file by file

| file in /repo/src/rkopenmdao | model | what is left out |
|---|---|---|
| `butcher_tableau.py` | `M_Tableau.v`: constructor checks, classification, embedded tableau | printing |
| `runge_kutta_integrator.py` 161-291, 393-436, `error_controllers.py`, `checkpoint_interface/pyrevolve_checkpointer.py` 62-145 | `M_Setup.v`: construction and set-up from the user's options, the dictionaries they share | orders 0, the `name` arguments |
| `butcher_tableaux.py` | `M_Tableaux.v`, `M_TableauxInit.v`: all 24 tableaux as the expressions written there; `M_TableauxFloat.v`: their evaluation with rounding | the power function of the C library (a parameter in `M_TableauxFloat.v`) |
| `time_discretization/runge_kutta_discretization_state.py` | `M_State.v` (values), `M_Heap.v` (arrays in memory): all methods | |
| `time_integration_state.py` | the same two files: all methods | |
| `time_discretization/stage_ordered_runge_kutta_discretization.py` | `M_Step.v`: all methods | |
| `time_discretization/time_discretization_scheme_interface.py` | abstract methods, nothing to model | |
| `discretized_ode/discretized_ode.py` | `M_ODE.v`: the interface as a record of functions | |
| `discretized_ode/openmdao_ode.py` | `M_Packing.v` (transfers, the three calls, linearization point), `M_MPI.v` (norm) | OpenMDAO's set-up; the solver is a parameter; norm orders below 0 other than -inf |
| `metadata_extractor.py` | `M_Metadata.v`: all functions | docstrings |
| `error_controller.py`, `error_controllers.py` | `M_Controller.v`: run, decorator, whole catalogue | `__str__` |
| `error_measurer.py` | `M_Measure.v`, `M_MPI.v` | |
| `termination_criterion.py` | `M_Integrator.v` | |
| `runge_kutta_integrator.py` | `M_Integrator.v` (compute, jacvec product, cache, callbacks), `M_Packing.v` (set-up, transfers), `M_Component.v` (calls on named vectors), `M_MPI.v` (one of several processes), `M_MPIRun.v` (public methods of one of several processes) | recording options, `np.testing`-like checks of OpenMDAO itself |
| `checkpoint_interface/*.py` | `M_Integrator.v`, `M_Heap.v` (snapshots) | PyRevolve's schedule construction (quantified over, `SpecRevolve.v`) and its storage |
| `callback.py` | part of `M_Integrator.v` (order of calls) | |
| `callback.py` 79-137, `runge_kutta_integrator.py` 266-289 | `M_Console.v`: the two callbacks that print, the default lists | text of the lines; banners; one callback object in several lists |
| `file_writer.py` | `M_Writer.v`: writer and both readers | h5py itself beyond groups, datasets, hyperslabs; names with "/"; period 0 |
| `components.py`, `om_data_exchange.py`, `integration_config.py`, `errors.py` | option records and exceptions of the model | |
| `odes/*.py`, `utils/utility_components.py` | `M_Components.v` | broadcasting; division by zero |
| `utils/problems.py` | `M_Stage.v` and `M_Kaps.v` (the stage problem of `execute`, lines 111-118), `M_Problems.v` (paths, tolerance, directories, step sizes; also the loops of `examples/convergence_study/integration_scripts`) | command line; non-ASCII letters; figures |

Assumptions about what is outside /repo, all visible in statements or in the comments of the
model files:

* *OpenMDAO.* `get_io_metadata` reports every variable with the tags, shapes and size tables
  of its processes (`M_Metadata.v`, `well_formed`, `well_tagged`). Vectors are ordered,
  name-indexed blocks of floats; `asarray` is their concatenation; writing to a name changes
  that block only. Arrays are never broadcast. Solving (`run_solve_nonlinear`,
  `run_solve_linear`) is an arbitrary function that keeps names and sizes. For the shipped explicit
  components `M_Stage.v` spells it out: one source per unconnected input, and one sweep over sources and
  component, with zero partials where no derivative is given. For `KapsGroup` `M_Kaps.v` does the same with
  the coupled variables connected; its Newton and Krylov solvers are arbitrary functions of the data they
  get, of which C76 and C77 ask convergence.
* *PyRevolve.* A schedule is any list of actions satisfying `SpecRevolve.v` (positions within
  range, snapshots only restored after they were taken, the reverse phase visits every step
  once). A slot holds as many floats as `size` says and is copied back piece by piece.
* *MPI.* `allreduce` returns the same value to every process. File creation is collective,
  writes of different processes may interleave in any order.
* *h5py.* New datasets are zero, a hyperslab assignment needs equal shapes.
* *numpy.* Contiguous arrays only. `np.linalg.norm` as documented.

## 3. The properties one by one

**C01 One step satisfies the Runge-Kutta equations** (proved). Model: tableau, discretization state, `compute_step`, ODE as record of functions. Proof: induction over the stage loop: processed stages satisfy their equation and are not overwritten; spec `SpecRK.v` states the Runge-Kutta equations with plain sums.
Theorems (`Properties_Step.v`): `C01_step_satisfies_rk_equations`, `C01_step_defined`, `C01_fresh_state_shaped`.
Over the reals, for every tableau without entries above the diagonal.

**C02 A tableau that cannot be executed in stage order is never silently replaced by another one** (partial). Model: the same with a tableau that has entries above the diagonal. Proof: counterexample tableau; for every scalar type the result equals that of the truncated tableau.
Theorems (`Properties_Step.v`): `C02_upper_entries_refuted`, `C02_upper_entries_ignored`.
Violated by the code: a fully implicit tableau is accepted and executed as its lower triangular part. The second theorem states this for every scalar type.

**C03 Time bookkeeping of fixed-step runs** (proved). Model: integrator loop for all three checkpointers. Proof: induction over steps.
Theorems (`Properties_Revolve.v`, `Properties_Run.v`): `C03_fixed_step_times`, `C03_fixed_step_times_recomputing`.
All checkpointing variants; for the recomputing one, library schedules that advance and save in the forward phase.

**C04 Forward-mode step derivative is the derivative of the step** (proved). Model: `compute_step_derivative`. Proof: derivative along differentiable curves by the chain rule stage by stage; linearity by induction.
Theorems (`Properties_Step.v`): `C04_step_derivative_is_derivative`, `C04_step_derivative_linear`, `C04_step_derivative_keeps_inputs`.
Derivatives along differentiable curves of inputs.

**C05 Reverse-mode step derivative is the transpose of the forward-mode one** (proved). Model: `compute_step_adjoint_derivative`. Proof: loop invariant over the reversed stages on inner products.
Theorems (`Properties_Step.v`): `C05_step_adjoint_is_transpose`, `C05_step_adjoint_ignores_working_fields`.
Includes weights on all stage states.

**C06 Whole-run forward and reverse products are transposes** (proved). Model: integrator products fwd/rev, all checkpointers. Proof: induction over the list of steps using C05; recomputing variant through C09.
Theorems (`Properties_Revolve.v`, `Properties_Run.v`): `C06_products_transposed_fresh`, `C06_products_transposed`, `C06_products_transposed_recomputing`, `C06_forward_product_linear`.
Fixed or adaptive steps, any number of steps. The recomputing variant: at least one step and controllers without a nested one.

**C07 Whole-run forward products are the derivative of the fixed-step run** (proved). Model: integrator forward product. Proof: induction over steps using C04.
Theorems (`Properties_Run.v`): `C07_forward_product_is_derivative`, `C07_same_trajectory`, `components_in_use_are_wf`.
Derivatives along differentiable curves of inputs.

**C08 Store-all checkpointing is transparent and replays in reverse order** (proved). Model: store-all and no-store checkpointers. Proof: induction over the loop for any step function.
Theorems (`Properties_Run.v`): `C08_storing_is_transparent`, `C08_reverse_uses_every_step`, `C08_no_checkpoints_no_reverse`.
For every scalar type.

**C09 Recomputation checkpointing gives the same adjoint as store-all** (proved). Model: abstract schedule machine with snapshots. Proof: invariant: live state and all snapshots are the states at their positions.
Theorems (`Properties_Revolve.v`): `C09_compute_same_for_all_variants`, `C09_reverse_same_for_all_variants`.
For every scalar type and every schedule allowed by SpecRevolve.v; controllers without memory (or fixed steps), ODEs that give no weight to stage states.

**C10 All checkpointing variants present the same run** (partial). Model: numbering of callbacks in operators. Proof: counterexample for the recomputing variant, exact log for all variants.
Theorems (`Properties_Revolve.v`, `Properties_Run.v`): `C10_same_run_for_all_variants_refuted`, `C10_recomputing_callbacks`, `C10_recomputing_reverse_callbacks`, `C08_storing_is_transparent`, `C33_compute_callbacks`.
Violated by the code: the recomputing variant numbers the steps from 0 and calls compute callbacks during reverse products. Proved: what the callbacks see with each variant.

**C11 Reverse products depend only on their arguments** (partial). Model: call-history machine: cache, stored trajectory, live state. Proof: invariant over lists of calls; counterexamples.
Theorems (`Properties_Revolve.v`, `Properties_Run.v`): `C11_reverse_product_history_independent_refuted`, `C11_forward_product_between_refuted`, `C11_reverse_product_history_independent`, `C11_reverse_product_after_compute`, `C11_reverse_product_after_other_inputs`, `C11_recomputing_history_independent`.
Violated by the code: the initial time is not compared, a run that raised is reused, and with the recomputing checkpointer a forward product in between corrupts the state. Proved for histories without exceptions and with one initial time (recomputing variant: without forward products), right after a compute call on the same inputs, and after a compute call on other inputs.

**C12 A failed run is not mistaken for a complete one** (partial). Model: the same machine with failing steps. Proof: counterexamples by a history with an exception; unaffected histories proved.
Theorems (`Properties_Run.v`): `C12_failed_run_not_reused_refuted`, `C12_failed_reverse_not_reused_refuted`, `C12_other_inputs_unaffected`.
Violated by the code in both ways; other inputs are proved not to be affected.

**C13 Accept/reject rule of error control** (partial). Model: `ErrorController._run`. Proof: case analysis; counterexample for the informal reading.
Theorems (`Properties_Adaptive.v`, `Properties_Control.v`): `C13_accept_rule`, `C13_mid_run_step_refuted`.
The rule of ErrorController._run holds for every chain, configuration and question. The 'in particular' part is false: the remaining time it is compared with is that after the step, so a step in the middle of a run that is as long as the time left after it is accepted whatever its error (refuted by a run).

**C14 Bounds on the suggested step size** (proved). Model: the same. Proof: order reasoning on the extended line.
Theorems (`Properties_Control.v`): `C14_suggestion_bounds`.
Extended reals, so infinite bounds and remaining times are covered.

**C15 Adaptive runs to a prescribed final time do not overshoot it** (proved). Model: adaptive loop. Proof: invariant: suggestion at most the time left.
Theorems (`Properties_Adaptive.v`): `C15_no_overshoot`, `C15_final_time`.
For every chain of controllers; extended reals with exact arithmetic. Runs without recomputation (NoCheckpointer, AllCheckpointer).

**C16 Retries with the integral controller terminate** (proved). Model: `_iterate_on_step` with any error measures. Proof: geometric decrease with explicit bound.
Theorems (`Properties_Adaptive.v`): `C16_retries_end`, `C16_bound_exists`.
n rejected trials suffice whenever kappa^n * step < lower bound + 1e-10, whatever the error measures of the trials (nan excluded).

**C17 A retry never uses a larger step** (proved). Model: chain of controllers with internal state. Proof: induction over the chain.
Theorems (`Properties_Control.v`): `C17_retry_not_larger`, `C17_built_chains_are_outermost`.

**C18 The retry limit of nested controllers is enforced** (partial). Model: decorator counter. Proof: counterexample for every limit; the counter's value proved.
Theorems (`Properties_Control.v`): `C18_retry_limit_refuted`, `C18_counter_is_reset`.
Violated by the code: the counter is set back to zero after each delegated rejection, so the limit is never reached by consecutive rejections.

**C19 Adaptive runs to a prescribed final time end** (partial). Model: adaptive loop with lower bound. Proof: counting argument; counterexample for the closing step.
Theorems (`Properties_Adaptive.v`): `C19_step_count`, `C19_integral_runs_end_partial`, `C19_short_closing_step_forever`, `C19_refuted`.
The bound on the number of steps is proved for every chain. The attempt loop need not end: a closing step shorter than the lower bound with error above the tolerance is repeated unchanged for ever, with every chain; a concrete run shows it. For the integral controller this is proved to be the only way not to end.

**C20 Rejected trials leave no trace in the solution; histories record accepted steps** (proved). Model: `_iterate_on_step`. Proof: induction over retries for every scalar type.
Theorems (`Properties_Run.v`): `C20_histories_of_accepted_steps`, `C20_failed_step_leaves_no_trace`.
For every scalar type.

**C21 Dead-beat property of the H0 controllers** (partial). Model: controller catalogue. Proof: exponent arithmetic; counterexample h0_321.
Theorems (`Properties_Control.v`): `C21_deadbeat`, `C21_h0_321_refuted`.
Proved for h0_211, h0_220, h0_312, h0_330 (error exponent p) and h0_110 (error exponent p+1); false for h0_321.

**C22 Controllers react monotonically to the error** (proved). Model: catalogue. Proof: monotonicity of real powers.
Theorems (`Properties_Control.v`): `C22_monotone`, `C22_fixed_point`.
All else equal includes the accept decision, or an unlimited remaining time.

**C23 The pseudo controller keeps the step size** (proved). Model: pseudo controller. Proof: case analysis.
Theorems (`Properties_Control.v`): `C23_pseudo_keeps_step`.
For error measures other than nan.

**C24 State quantities get disjoint, gap-free array ranges** (proved). Model: metadata extraction over variable tables. Proof: induction over variables and processes.
Theorems (`Properties_Metadata.v`): `C24_ranges_fill_array`, `C24_range_lengths`, `C24_same_order_everywhere`.
For every list of variables, tags, shapes and every distribution over processes.

**C25 Packing and unpacking of component data is lossless** (proved). Model: transfers between arrays and vectors. Proof: induction over quantities, ranges from C24.
Theorems (`Properties_Packing.v`): `C25_reading_places_every_quantity`, `C25_writing_places_every_quantity`, `C25_array_round_trip`, `C25_vector_round_trip`, `C25_independent_inputs_placed`, `C25_independent_inputs_round_trip`, `C25_ode_input_placed`, `C25_ode_update_read`; `Properties_Meet.v`: `C25_independent_inputs_appended`, `C25_no_independent_outputs`.
For every problem accepted by extractor and component set-up. The ODE part assumes distinct sources and a scalar time source. Broadcasting of size-one arrays is not modelled.

**C26 Wrongly tagged stage problems are rejected** (partial). Model: tag checks. Proof: case analysis and counterexamples.
Theorems (`Properties_Metadata.v`): `C26_accepted_quantities`, `C26_wrong_tags_rejected`, `C26_properly_tagged_accepted`, `C26_missing_quantity_accepted`, `C26_doubled_quantity_accepted`, `C26_other_shapes_accepted`, `C26_verdicts_differ`.
Wrong roles of a quantity some output is tagged with are rejected and properly tagged problems are accepted with each quantity once. Refuted otherwise: a requested quantity without tagged output is silently left out, one with a second tagged output without role is listed twice, shapes of inputs are not checked, and the verdict may differ between processes.

**C27 Tableau classification** (proved). Model: classification. Proof: boolean reflection.
Theorems (`Properties_Step.v`): `C27_exactly_one_class`, `C27_explicit`, `C27_diagonally_implicit`, `C27_implicit`.

**C28 Tableau construction checks** (partial). Model: constructor. Proof: case analysis; counterexample for the row-sum warning.
Theorems (`Properties_Step.v`): `C28_constructed_iff_sizes_agree`, `C28_constructed_fields`, `C28_weights_warning`, `C28_constructed_wf`, `C28_constructed_embedded_wf`, `C28_default_times_are_row_sums`, `C28_row_sum_warning_refuted`, `C28_row_sum_warning_only_if_all_differ`.
Everything but the row-sum warning is proved. The warning is given only if every row deviates, so the last clause is violated.

**C29 Shipped methods integrate polynomials exactly up to their order** (proved). Model: table of shipped tableaux. Proof: order conditions for all rooted trees up to the order by exact arithmetic or interval bounds, lifted to all polynomials.
Theorems (`Properties_Order.v`): `C29_every_tableau_covered`, `C29_constructed`, `C29_order_conditions`, `C29_order_not_higher`, `C29_polynomials_exact`, `C29_polynomials_rounded`, `C29_polynomials_recentre`.
Coefficients are the real values of the expressions in butcher_tableaux.py; 16 main methods meet the conditions exactly, the others up to the bounds listed in SpecTree.precision. Rounding of float64 is not modelled.

**C30 Snapshots are independent copies** (partial). Model: memory model. Proof: frame lemmas; counterexample for embedded states.
Theorems (`Properties_Heap.v`): `C30_set_copies_partial`, `C30_set_is_the_state_model`, `C30_embedded_set_refuted`, `C30_independent_after_set`, `C30_set_to_itself`, `C30_deep_copy`, `C30_kept_copies_stay`, `C30_new_objects_are_separate`.
Memory with buffers and views. set() copies every attribute of the class without error estimate, and afterwards no work on one object is seen in the other; it is what the value-level model used by the run theorems says. For the embedded class the full statement is false: set() is inherited and leaves embedded_state and error_estimate as they were (C30_embedded_set_refuted). Deep copies (all-checkpointer) are complete for both classes and stay as they were.

**C31 State dictionaries round-trip** (partial). Model: to_dict/from_dict. Proof: evaluation of both; general counterexamples.
Theorems (`Properties_Heap.v`): `C31_plain_round_trip_partial`, `C31_result_shares_arrays`, `C31_independent_inputs_refuted`, `C31_embedded_refuted`, `C31_time_integration_refuted`, `C31_time_integration_partial`.
False as stated, for every state with independent inputs (TypeError), for every embedded state (KeyError or TypeError, no return value) and for every time integration state (suggestion becomes a float). Proved: what does come back for discretization states without independent inputs (all but step_size).

**C32 Snapshot buffers of the recomputing checkpointer are sized and restored correctly** (partial). Model: get_data/size/get_data_location. Proof: induction over dictionaries.
Theorems (`Properties_Heap.v`): `C32_size_is_what_is_handed_out`, `C32_save_then_load_partial`, `C32_step_size_refuted`.
Size and skipping of empty arrays for every dictionary; saving, any changes, loading restores everything that to_dict exports. step_size is not exported, hence not restored (C32_step_size_refuted). What pyrevolve does with the arrays (copying them into a slot and back) is assumed.

**C33 Callbacks bracket every step in order** (proved). Model: log of callbacks. Proof: induction over steps, including raising callbacks and steps.
Theorems (`Properties_Revolve.v`, `Properties_Run.v`): `C33_compute_callbacks`, `C33_forward_callbacks`, `C33_compute_callbacks_when_raising`, `C33_forward_callbacks_when_raising`, `C33_reverse_callbacks_when_raising`, `C08_reverse_uses_every_step`, `C10_recomputing_callbacks`, `C10_recomputing_reverse_callbacks`.
The numbers are those of the property for the variants without recomputation; for the recomputing variant see C10.

**C34 Result file holds exactly the requested steps** (partial). Model: file as list of groups. Proof: induction over steps and over any interleaving of the processes' writes; counterexamples at a crash point.
Theorems (`Properties_Writer.v`): `C34_file_of_a_run`, `C34_file_of_compute`, `C34_one_process`, `C34_interrupted_partial`, `C34_file_when_raising`, `C34_no_group_without_data_refuted`, `C34_recomputing_refuted`, `C34_error_measure_name_refuted`.
Contents of the file proved for every finished run, any number of processes and any order of their writes. The last sentence (no group without data) is false for interrupted runs; proved instead that earlier records stay complete. The writer cannot be used with the recomputing checkpointer, nor with a quantity named error_measure.

**C35 Distributed result datasets are written without gaps or overlaps** (proved). Model: `get_write_indices`. Proof: mixed-radix arithmetic.
Theorems (`Properties_Writer.v`): `C35_every_entry_once`, `C35_selection_is_portion`.
For metadata extracted from any well-tagged problem.

**C36 Distributed norm equals the norm of the assembled vector** (partial). Model: norm over processes. Proof: sums over concatenation; counterexamples.
Theorems (`Properties_MPI.v`): `C36_norm_of_all_entries_partial`, `C36_infinity_needs_entries`, `C36_minus_infinity_is_zero`, `C36_minus_infinity_refuted`, `C36_partial_copies_refuted`.
Proved for order 0, positive orders and, when every process holds entries of each included quantity, infinity, for quantities held by all processes or split over them. Refuted for minus infinity (always 0), for infinity with an empty portion (ValueError), and for quantities copied on some but not all processes (counted once per copy). Negative finite orders are not modelled.

**C37 All processes take the same decisions** (partial). Model: processes as interaction trees synchronised at collective operations. Proof: simulation with the single-process integrator; counterexamples.
Theorems (`Properties_MPI.v`): `C37_one_process_is_the_integrator`, `C37_processes_stay_in_step_partial`, `C37_no_deadlock_partial`, `C37_infinite_order_deadlock_refuted`, `C37_differing_copies_refuted`.
Proved for runs without or with full checkpointing and every number of processes, when the norm is defined on every process, copies of quantities agree at the start and in solver answers, and solver exceptions reach all processes. Refuted for infinite norm orders with a quantity missing on a process (deadlock) and for differing copies.

**C38 Error measures are sound** (proved). Model: measurers. Proof: real inequalities.
Theorems (`Properties_Control.v`, `Properties_Filter.v`): `C38_improved_measure_of_state`, `C38_simple_measure_is_norm`, `C38_improved_measure`, `C38_improved_measure_increases`.

**C39 Derivative and adjoint of the OpenMDAO-backed ODE are transposes** (partial). Model: `OpenMDAOODE` products, solver as a linear relation. Proof: duality of scatter and gather.
Theorems (`Properties_Packing.v`): `C39_transposed`, `C39_linear`, `C39_differentiable`, `C39_sizes`, `C39_integrator_transposed`, `C39_shared_source_refuted`, `C39_vector_time_refuted`.
As stated, with the additional hypothesis that the source of the time variable has one entry, which is needed (counterexample proved). Also linked to the integrator's hypotheses. The solver of the stage problem is a parameter; one process.

**C40 Linearization points are saved and restored completely** (proved). Model: linearization point. Proof: list round trip, any calls in between.
Theorems (`Properties_Packing.v`): `C40_point_restores_the_problem`, `C40_point_restores_any_state`, `C40_point_size`.
For every stage problem whose solves keep the set of variables and every later sequence of ODE calls.

**C41 Stage value and stage update components are inverse and correctly differentiated** (proved). Model: StageValue/StageUpdate components. Proof: field; derivatives along curves; inner products.
Theorems (`Properties_Components.v`): `C41_value_and_update_inverse`, `C41_value_derivative`, `C41_update_derivative`, `C41_value_products_transposed`, `C41_update_products_transposed`.
Real arithmetic; all partial views of the vectors; broadcasting not modelled.

**C42 Built-in linear ODE components solve their stage equation** (partial). Model: SimpleLinearODE, ProtheroRobinsonODE. Proof: field; counterexamples.
Theorems (`Properties_Components.v`): `C42_simple_linear_solves`, `C42_prothero_robinson_solves`, `C42_simple_linear_derivative`, `C42_simple_linear_transposed`, `C42_simple_linear_partial_view_refuted`, `C42_prothero_robinson_derivative_refuted`.
Stage equations proved for both components; SimpleLinearODE's products are transposed derivatives only when all variables are in view (KeyError otherwise); ProtheroRobinson defines no derivatives, so the derivative part is false for it.

**C43 Kaps components solve their stage equation and linearization** (partial). Model: Kaps components. Proof: field, quadratic formula; counterexample for one reverse solve.
Theorems (`Properties_Components.v`): `C43_kaps1_solves`, `C43_kaps2_solves`, `C43_kaps1_derivative`, `C43_kaps2_derivative`, `C43_kaps1_transposed`, `C43_kaps2_transposed`, `C43_kaps1_linear_fwd`, `C43_kaps2_linear_fwd`, `C43_kaps1_linear_rev`, `C43_kaps2_linear_rev_partial`, `C43_kaps2_linear_rev_refuted`.
All parts proved except the reverse linear solve of KapsComponent2, which divides by the wrong determinant: refuted in general, proved where the two agree.

**C44 Analytical reference solutions solve their ODEs** (partial). Model: reference solutions. Proof: derivatives; counterexamples.
Theorems (`Properties_Components.v`): `C44_simple_linear_solution`, `C44_prothero_robinson_solution_partial`, `C44_prothero_robinson_default`, `C44_prothero_robinson_solution_refuted`, `C44_kaps_solution_partial`, `C44_kaps_initial_values_refuted`, `C44_kaps_initial_time_refuted`.
True for SimpleLinearODE, and for the other two with their default initial values; refuted for other initial values or times.

**C45 Embedded error estimate** (proved). Model: embedded step. Proof: algebra.
Theorems (`Properties_Step.v`): `C45_error_estimate_is_difference_of_methods`, `C45_error_estimate_formula`.

**C46 compute is repeatable** (partial). Model: integrator with controller state. Proof: invariant; counterexample for nested controllers.
Theorems (`Properties_Revolve.v`, `Properties_Run.v`): `C46_compute_repeatable_refuted`, `C46_compute_repeatable`, `C46_compute_repeatable_recomputing`, `C46_plain_controllers_stateless`.
Violated by the code for nested controllers; proved for fixed steps and for controllers without nesting, with every checkpointing variant.

**C47 Fixed-step runs to a prescribed final time** (proved). Model: fixed-step loop to a final time. Proof: archimedean counting.
Theorems (`Properties_Run.v`): `C47_number_of_steps`, `C47_final_time`, `C47_returns`.

**C48 Unknown results are not reported as zero after adaptive steps** (partial). Model: embedded state after `set`. Proof: invariant: fields stay zero.
Theorems (`Properties_Run.v`): `C48_embedded_fields_of_the_step_refuted`, `C48_embedded_fields_always_zero`.
Violated by the code: the embedded fields are never copied into the integration state; proved to be zero always.

**C49 An error measure of nan is reported** (partial). Model: controller with nan. Proof: case analysis with `NumInf`; counterexample.
Theorems (`Properties_Adaptive.v`): `C49_nan_reported`, `C49_nan_closing_step_forever`, `C49_refuted`.
Reported when the step does not reach the final time; repeated without end on the closing step (refuted by a run).

**C50 Global index ranges of a distributed quantity partition the whole** (partial). Model: global ranges. Proof: sums over size tables; counterexample.
Theorems (`Properties_Metadata.v`): `C50_global_ranges_partition`, `C50_distributed_mark`, `C50_independent_inputs_refuted`.
Proved for time-integration quantities; refuted for distributed independent inputs, whose ranges are taken from the size table of the outputs.

**C51 Catalogue controllers filter and predict as their names say** (partial). Model: catalogue on log-error signals. Proof: linear recurrences; counterexample.
Theorems (`Properties_Filter.v`): `C51_alternating_errors_filtered`, `C51_growing_alternation_filtered`, `C51_trend_continued`, `C51_curved_trend_continued`, `C51_h0_321_refuted`.
Holds for all controllers but h0_321, whose alpha is 1/(3p): it does not filter (counterexample proved).

**C52 After an accepted step a nested controller starts afresh** (partial). Model: decorator state over accepted steps. Proof: induction over the calls; counterexamples.
Theorems (`Properties_Filter.v`): `C52_accepted_runs_use_first_controller`, `C52_pair_back_to_first`, `C52_pair_rejection_by_first`, `C52_counter_survives_refuted`, `C52_three_controllers_refuted`.
As stated it is false: the counter survives an acceptance, and in chains of three or more the inner flags do. Proved for runs without rejections (any chain) and for pairs.

**C53 Calls of the OpenMDAO-backed ODE do not depend on earlier calls** (partial). Model: `OpenMDAOODE` as a state machine. Proof: vectors cleared before use; counterexample with inf.
Theorems (`Properties_Packing.v`): `C53_derivatives_ignore_history_partial`, `C53_updates_ignore_history_partial`, `C53_refuted`.
Proved over the reals; refuted with non-finite values, because vectors are cleared by multiplying with zero.

**C54 The last local error is that of the last recorded step** (proved). Model: reader. Proof: file contents from C34, largest number.
Theorems (`Properties_Writer.v`): `C54_last_local_error`.

**C55 Reading a result file returns what was recorded, with errors against the given solution** (partial). Model: reader. Proof: file contents from C34; counterexample.
Theorems (`Properties_Writer.v`): `C55_one_quantity`, `C55_several_quantities_partial`, `C55_several_quantities_refuted`.
With several quantities the code uses the initial values of one quantity for all; correct only for solutions whose components depend on their own initial values.

**C56 Fixed-step runs to a final time make the expected number of steps in double precision** (partial). Model: fixed-step loop with scalars of any kind; `Float64.v` has IEEE binary64 from the standard library's executable `SpecFloat`. Proof: induction over the loop; counterexample computed in binary64.
Theorems (`Properties_Rounding.v`): `C56_steps_in_any_arithmetic`, `C56_exact_sums_partial`, `C56_refuted`.
False: the test is T - time <= 0 without tolerance, and ten steps of 0.1 add up to less than 1 in binary64, so an eleventh step is made. Proved: the number of steps in any arithmetic, and the statement whenever the sums are exact.

**C57 A whole run is the composition of Runge-Kutta steps** (proved). Model: the whole integrator with any checkpointer. Proof: induction over the trajectory with C01 at each step.
Theorems (`Properties_Convergence.v`): `C57_run_is_composition_of_steps`, `C57_run_is_composition_of_steps_recomputing`, `C57_forward_product_follows_steps`.
In real arithmetic.

**C58 Runs approximate the solution of the ODE and converge to it** (proved). Model: the whole integrator; the ODE and its solution are any real functions with the stated properties. Proof: discrete Gronwall estimate over C57, mean value theorem for the solution, fixed-point bound for the stages.
Theorems (`Properties_Convergence.v`): `C58_error_bound`, `C58_runs_converge`.
In real arithmetic, maximum norm. First-order estimate for every consistent scheme; the higher order of particular schemes is not used.

**C59 The component computes on its named variables** (proved). Model: `M_Component.v`: the three calls on named vectors around the runs on arrays; `SpecComponent.v` says what a vector holds. Proof: transfers from C25, histories of component calls mapped to histories of runs, C57 for the steps.
Theorems (`Properties_Component.v`): `C59_vectors_hold_inputs`, `C59_vectors_hold_outputs`, `C59_compute_by_name`, `C59_forward_by_name`, `C59_reverse_by_name`, `C59_component_takes_steps`.
The last theorem is in real arithmetic, the others in any.

**C60 Forward and reverse products are transposes as products of named vectors** (proved). Model: as C59. Proof: C59 and C39 (transposed stage solves, whole-run adjoint), inner products split by name.
Theorems (`Properties_Component.v`): `C60_products_transposed_by_name`.
In real arithmetic, with the checkpointer that stores everything.

**C61 The forward product is the derivative of compute on named variables** (proved). Model: as C59. Proof: C59 and C39/C07, curves split by name.
Theorems (`Properties_Component.v`): `C61_forward_is_derivative_by_name`.
In real arithmetic.

**C62 Products are added to the vectors passed in** (partial). Model: as C59. Proof: both results computed by C59, compared entry by entry; counterexample.
Theorems (`Properties_Component.v`): `C62_forward_adds_iff_partial`, `C62_reverse_adds_iff_partial`, `C62_refuted`.
False: only the time entry is added, quantities replace what is in the vector. Proved: exactly when the result is the sum.

**C63 Products work for vectors with only the relevant variables** (partial). Model: as C59 with vectors that lack variables. Proof: scan over the quantities reaches the first missing name.
Theorems (`Properties_Component.v`): `C63_forward_refuted`, `C63_reverse_refuted`.
False: every declared input is accessed, so a missing one raises KeyError for every such component and vector.

**C64 Runs converge with the order of the scheme** (proved). Model: the whole integrator; `SpecTree.v`/`SpecOrder.v` order conditions over rooted trees, `SpecSmooth.v` smoothness. Proof: Taylor series over trees (B-series) of the solution and of the stages for the ODE with time as an extra state entry, order conditions tree by tree, Gronwall estimate over C57; tableau conditions from C29.
Theorems (`Properties_OrderConv.v`): `C64_order_of_runs`, `C64_fixed_steps`, `C64_shipped`, `C64_shipped_all`.
In real arithmetic, maximum norm. Errors of printed coefficients (decimals) enter with the sizes listed in SpecTree.v and SpecNodes.v.

**C65 The error estimate has the order of the weaker method** (proved). Model: one step with embedded weights. Proof: as C64 for both weight vectors, difference of the two series.
Theorems (`Properties_OrderConv.v`): `C65_estimate_order`, `C65_shipped_estimate`.
In real arithmetic, maximum norm.

**C66 SimpleLinearODE end to end** (proved). Model: `M_Stage.v`: the stage problem built around the component, over `M_Packing.v`, `M_Component.v` and the integrator. Proof: C57 gives the steps as Runge-Kutta steps of y' = -y, induction over the steps with the stability function of `SpecStage.v`; products from the derivative theorems C60/C61; that the calls return from C69.
Theorems (`Properties_Stage.v`): `C66_factor`, `C66_compute`, `C66_forward`, `C66_reverse`.
In real arithmetic; reverse mode with the checkpointer that stores everything.

**C67 The shipped test problems are solved with the order of the scheme** (proved). Model: as C66, and ProtheroRobinson. Proof: C64 for affine right hand sides with smooth inhomogeneity; regular stage solves for small steps; C69.
Theorems (`Properties_Stage.v`): `C67_decay`, `C67_prothero_robinson`, `C67_exact`.
In real arithmetic. The exact solutions are those with the given initial value at t0, not ProtheroRobinson.solution (finding 5).

**C68 Derivative products for ProtheroRobinson** (partial). Model: as C67. Proof: two runs differ by the power of the stability function; the empty Jacobian makes every stage derivative zero, so both sweeps are the identity.
Theorems (`Properties_Stage.v`): `C68_products_partial`, `C68_reverse_partial`, `C68_refuted`.
False: both products are the identity, the derivative is the n-th power of the stability function. Proved: exactly what is returned and the derivative.

**C69 Calls return whenever the stage solves do** (proved). Model: the whole integrator without recomputation. Proof: totality of step, sweeps and loop by induction on stages and steps, sizes from C06.
Theorems (`Properties_Stage.v`): `C69`.
In real arithmetic, fixed steps, the checkpointers without recomputation.

**C70 Every run of a study has its own file** (partial). Model: `M_Problems.v`: name normalisation, the format `.0E` with rounding to even, paths. Proof: names: characters folded to a normal form, equality against the relation `same_name`; format: scaling to one digit before the point, uniqueness of the rounded digit; separators make concatenation injective.
Theorems (`Properties_Problems.v`): `C70_accepts`, `C70_names`, `C70_same_file_iff_partial`, `C70_factor_partial`, `C70_one_digit_partial`, `C70_shipped_partial`, `C70_shipped_named_partial`, `C70_refuted`.
False: step sizes that agree in one digit, names equal up to case and commas, and two shipped tableaux share files. Proved: exactly when files are shared, and that the shipped study is affected only by the shared name.

**C71 Tolerance from earlier runs** (partial). Model: `compute_tolerance` over `M_Writer.v`, the loop of the homogeneous script. Proof: C54 for every file, later runs leave earlier files alone by C70.
Theorems (`Properties_Problems.v`): `C71_mean_partial`, `C71_range`, `C71_missing`, `C71_refuted`.
False for step sizes that agree in the first digit; proved for all others.

**C72 Directories for output files** (partial). Model: `generate_path`; look and make as separate actions of several processes. Proof: case analysis on the last slash; invariant over all orders of actions.
Theorems (`Properties_Problems.v`): `C72_directory_partial`, `C72_bare_refuted`, `C72_parallel_partial`, `C72_parallel_refuted`.
False for bare file names and for parallel runs that start without the directory; proved otherwise.

**C73 Average step size of an adaptive run** (partial). Model: `count_keys` and the averaged step size of the script. Proof: number of groups of the file by C34's file.
Theorems (`Properties_Problems.v`): `C73_one_step_more_refuted`.
False for every run: the group of the initial state is counted as a step.

**C74 Number of fixed steps of a study** (partial). Model: quotient and truncation in `Float64.v`. Proof: evaluation for the ten shipped pairs and a counterexample.
Theorems (`Properties_Problems.v`): `C74_shipped_partial`, `C74_refuted`.
False in general (0.3 / 0.1); proved for the end times and step sizes of both shipped problems.

**C75 Order of the scheme near the solution, with inexact stage solves** (proved). Model: the run of the integrator; `nearly_solves` is all that is asked of the ODE. Proof: induction over the steps that the run stays in the box, with the expansion of C64 for the exact stages and a Lipschitz bound for the error of inexact ones.
Theorems (`Properties_Local.v`): `C75_any_steps`, `C75_fixed_steps`, `C75_shipped`.
Distances and tolerances are real numbers.

**C76 Kaps runs converge with the order of the scheme, down to the solver tolerance** (proved). Model: `M_Kaps.v`: KapsGroup as stage problem, with any Newton solver. Proof: C75 with the box [-1, 2]^2 around the solution; residuals bounded by tol give updates off by at most a multiple of tol.
Theorems (`Properties_Local.v`): `C76_fixed_steps`, `C76_any_steps`.
The Newton solver is a parameter of which convergence and moderate updates are asked.

**C77 Derivatives of Kaps runs** (proved). Model: `M_Kaps.v`, with any exact solvers. Proof: the transposed Jacobian from both products of the components; derivative of a solution of the quadratic stage equations by division through the determinant along secants, then C60 and C61.
Theorems (`Properties_Local.v`): `C77_forward`, `C77_transposed`.
The Newton and Krylov solvers are parameters that solve exactly or raise.

**C78 Derivative products have the order of the scheme** (proved). Model: the forward and the reverse run of the integrator; `nearly_differentiates` is all that is asked of the ODE. Proof: a derivative sweep beside its run is a run of the system for state and change (`paired`), so the induction of C75 applies to the pair; reverse by the transposition of C06.
Theorems (`Properties_Sensitivity.v`): `C78_any_steps`, `C78_fixed_steps`, `C78_reverse`, `C78_shipped`.
The linearized solution is a hypothesis; that it is the derivative of the flow is not needed.

**C79 Derivative products of Kaps runs converge to the changes of the solution** (proved). Model: `M_Kaps.v`, with any Newton and linear solver. Proof: the pair is polynomial of degree two (`L_Quadratic.v`): Lipschitz and smooth in every box; residuals up to tol give changes off by at most a multiple of tol; then C78 and calls by name.
Theorems (`Properties_Sensitivity.v`): `C79_forward`, `C79_reverse`.
The Newton and the linear solver are parameters of which convergence and moderate values are asked; the reverse statement asks exact linear solves.

**C80 Runs in floating point keep the order of the scheme down to the rounding errors** (proved). Model: the run of the integrator for every `Num` with rounding errors (`rounded` in `SpecFloating.v`); binary formats are those of `Coq.Floats.SpecFloat`. Proof: `L_Float.v`: rounding to nearest of sums and products from the executable definitions; `L_Floating*.v`: errors of the sums of a step, of stage times and coefficients, then the induction of C75 with perturbed stages.
Theorems (`Properties_Floating.v`): `C80_binary`, `C80_any_steps`, `C80_fixed_steps`, `C80_shipped`.
Stage solves, their rounding included, are parameters of which a tolerance is asked; square roots and divisions in coefficients enter through dl. np.einsum is taken to add in the order of the stages; another order changes only the constant, which is not proved.

**C81 The shipped tableaux computed in floating point are the tabulated methods** (proved). Model: `M_TableauxFloat.v`: the expressions of `M_Tableaux.v` in `SpecFloat` arithmetic, literals and square roots correctly rounded, any power function. Proof: `L_FloatOps.v`: errors of division, square root, literals and comparisons from the executable definitions; `L_FloatError.v`: an evaluator for enclosures and error coefficients linear in 2^-prec; `L_TableauxFloatCheck.v` runs it on all tableaux; runs by C80.
Theorems (`Properties_TableauxFloat.v`): `C81_coefficients`, `C81_order`, `C81_runs`.
The power function of the C library is a parameter of which an error bound is asked. np.sum is taken to add in order, which it does for rows of fewer than eight numbers.

**C82 Set-up accepts exactly the usable options and resolves them as documented** (partial). Model: `M_Setup.v`: the factory functions as called by the option check and by set-up, dictionaries in a heap. Proof: induction over the list of controllers.
Theorems (`Properties_Setup.v`): `C82_set_up_accepts_exactly`, `C82_set_up_result`, `C82_set_up_errors`, `C82_shipped_tableaux`, `C82_general_controllers_refuted`; (`Properties_Setup2.v`): `C82_general_by_name`, `C82_general_accepts_exactly`.
Refuted for the three controllers with further arguments: they are shipped but cannot be chosen (finding 41). Orders 0 are not modelled (a ZeroDivisionError in most factories).

**C83 Orders and methods of an embedded tableau are those it was built from** (partial). Model: `M_Tableau.v`. Proof: case analysis on the constructor.
Theorems (`Properties_Setup.v`): `C83_from_tableau`, `C83_methods_and_orders`, `C83_unknown_order_refuted`.
Refuted: an unknown embedded order - the default of from_butchertableau - is not reported but makes set-up raise TypeError (finding 42).

**C84 The recomputing checkpointer is set up with the user's options** (partial). Model: `M_Setup.v`: dictionaries by address, as `__post_init__` writes into the one of the user; runs with the objects of another integrator by `shared_compute`. Proof: lookups after every assignment; runs by the lemmas of C09.
Theorems (`Properties_Setup.v`): `C84_options_handed_over`, `C84_storages`, `C84_separate_dictionaries`, `C84_same_again_partial`, `C84_storages_twice_refuted`, `C84_checkpoint_number_refuted`, `C84_shared_dictionary_refuted`, `C84_shared_run_refuted`; (`Properties_Setup2.v`): `C84_unknown_storages_refuted`.
Refuted for dictionaries used more than once and for misspelt storage types (finding 43).

**C85 The time discretization can be driven by hand** (proved). Spec: `SpecScheme.v`, the loops of the caller. Proof: induction over the steps with the lemmas of C01, C04, C05; the reverse chain needs no assumption on weights of stage states because fresh states hold none; the component's states agree with the caller's in all but the embedded fields.
Theorems (`Properties_Scheme.v`): `C85_steps_taken`, `C85_forward_is_derivative`, `C85_forward_linear`, `C85_reverse_is_transpose`, `C85_component_compute`, `C85_component_products`.
The final independent outputs are zeros whatever the stages give (finding 8). Products of the component are compared for a component just set up.

**C86 Derivative products on several processes neither deadlock nor diverge** (partial). Model: `M_MPIRun.v`, the methods of `M_Integrator.v` as programs over the collective operations of `M_MPI.v`, to which the linear solves are added. Spec: `SpecMPIRun.v`, joint calls with the portions of each process. Proof: a relation between the components of two processes (live and stored states alike, caches from the same joint inputs) kept by every method; the programs of related components are aligned; one process alone is `M_Integrator.v`. The counterexample changes the inputs on one of two processes between compute and reverse product.
Theorems (`Properties_MPIRun.v`): `C86_one_process_is_the_integrator`, `C86_histories_stay_in_step_partial`, `C86_no_deadlock_partial`, `C86_local_cache_decision_deadlock_refuted`; `Properties_Meet.v` (spec `SpecMeet.v`: the callback operations of a process): `C86_callbacks_are_met`.

**C87 Non-explicit tableaux damp decaying problems at every step size** (proved). Spec: `SpecStiff.v` (which tableaux), `amplification` of `SpecStage.v`. Proof: for a lower triangular tableau the factor at -h is a quotient of polynomials in h whose coefficients are computed from the written ones (in the number field of the tableau, or in rational balls); that the coefficients of the denominator dominate those of the numerator is checked by computation in `L_StiffCheck.v` and proved to mean the bound in `L_Stiff.v`. Runs by the lemmas of C67.
Theorems (`Properties_Stiff.v`): `C87_factor`, `C87_compute`, `C87_forward`, `C87_reverse`, `C87_covers`, `C87_explicit_refuted`.

**C88 Weak stage orders of the tableaux and errors independent of the stiffness** (proved). Spec: `SpecStiff.v`. Proof: the error of a step is rho times the old error, plus what the weights b miss of the increment of the exact solution, plus z times what the stages miss, weighted by the row vector b (I - zA)^-1. Taylor expansion leaves the moments of the stages; that z times the weighted moments below q, and z times the weights, are at most a multiple of 1 - |rho| is checked as for C87, so that these parts sum up to a constant however many steps are taken. Sharpness: a z with non-zero weighted moment q, and step sizes going to 0 with z fixed.
Theorems (`Properties_Stiff.v`): `C88_weak_stage_order`, `C88_uniform`, `C88_full_order`, `C88_sharp`.
The implicit midpoint rule is excluded from the uniform bound (finding 46).

**C89 Step sizes settle where the error fits the tolerance** (partial). Spec: `SpecLoop.v` (closed loop of controller and errors C h^q, balance, distance `away` in logarithms). Proof: in logarithms the suggestions obey a linear recurrence over the last three step sizes with rational coefficients; that k steps halve the maximum norm, and fewer at most quadruple it, is a check of the rows of the k-th power of the companion matrix, evaluated in the kernel. Refutation: a check of rows that grow.
Theorems (`Properties_Loop.v`): `C89_settles`, `C89_accepted`, `C89_run`, `C89_swings_refuted`.
Refuted for `pc`, `h0_220` and `h0_330` with q = p + 1 (finding 47). Step sizes are not limited by bounds or a final time here.

**C90 Exceptions of callbacks are reported, callbacks that return have no influence** (proved). Spec: `SpecCallback.v`. Proof: a predicate on methods closed under sequencing (every hook of the log answered by the callback at its place in its list), and a simulation between the component with and without callbacks.
Theorems (`Properties_Callback.v`): `C90_exceptions`, `C90_no_influence`, `C90_histories`.

**C91 Conserved quantities stay constant** (proved). Spec: `SpecInvariant.v` (linear and quadratic quantities, Cooper's condition). Proof: every step adds a combination of stage updates, which have total zero; the reverse product by transposition (C06) from the forward one; quadratic quantities by the identity of Cooper on the Runge-Kutta equations of C57.
Theorems (`Properties_Invariant.v`): `C91_linear`, `C91_linear_recomputing`, `C91_forward`, `C91_reverse`, `C91_quadratic`, `C91_midpoint`, `C91_euler`, `C91_quadratic_refuted`.

**C92 Interrupted runs can be continued** (proved). Spec: `SpecRestart.v` (the options with another end of the run; inputs made of the outputs of a run, weights made of a gradient). Proof: with a fixed step size a step depends on final time, final values and parameters only (`fsim`, `alike`), so the chain of states of the long run is cut where the first run ends and its tail is matched with the chain of the second; tangent and adjoint sweeps over the joined lists are composed. The adjoint of the parameters is an accumulation, which over the reals may start from zero again.
Theorems (`Properties_Restart.v`): `C92_compute`, `C92_forward`, `C92_reverse`, `C92_parameters`, `C92_final_time`, `C92_adaptive_refuted`.

**C93 Runs do not depend on the variables of the ODE** (proved). Spec: `SpecChange.v` (a change of variables, an ODE written in other variables, norms that agree). Proof: one step commutes with the change, stage by stage (`change_step`), and so does its error estimate; questions to the controller are then the same, and the chains of accepted steps correspond in both directions. Forward products (`SpecChange2.v`) follow by the same correspondence of the perturbation, step by step. For reverse products (`SpecChange3.v`) the weights are taken from the new to the old variables, and the correspondence of the weights is carried backwards through the stages and steps.
Theorems (`Properties_Change.v`): `C93_compute`, `C93_reordering`, `C93_affine`, `C93_units_refuted`; `Properties_Change2.v`: `C93_forward`; `Properties_Change3.v`: `C93_reverse`.

**C94 The default callbacks report every step once, with the time it took** (proved). Model: `M_Console.v` (the two callback classes, the default lists, the console of a process). Spec: `SpecConsole.v`. Proof: the hooks of one step print its three lines from any console (`step_shown`); sequences of hooks from C33, C08, C10.
Theorems (`Properties_Console.v`): `C94_compute`, `C94_forward`, `C94_reverse`, `C94_recomputing`, `C94_raising`, `C94_other_processes`, `C94_options`, `C94_no_influence`, `C94_times`.

## 4. Findings about the code

Each item was found while modelling; theorem names show which ones are proved of the model.

**Results that are wrong or lost**

1. A fully implicit tableau is accepted and run as its lower triangular part (`C02_upper_entries_refuted`).
2. `set` of the embedded state class does not copy `embedded_state` and `error_estimate`; after every
   accepted step they are still zero in the integration state (`C30_embedded_set_refuted`, `C48_*`).
3. `from_dict` does not invert `to_dict`: TypeError with independent inputs, the embedded class returns
   None, the suggestion becomes a float, `step_size` is lost, arrays are shared (`C31_*`, `C32_step_size_refuted`).
4. `KapsComponent2.solve_linear` in reverse mode divides by the wrong determinant (`C43_kaps2_linear_rev_refuted`).
5. `ProtheroRobinson.solution` uses exp(t) where exp(lambda t) is needed; `kaps_solution` ignores the
   initial time and is wrong for other initial values (`C44_*_refuted`).
6. `ProtheroRobinson` defines no derivatives; `SimpleLinearODE`'s products raise KeyError when not all
   variables are in view (`C42_*_refuted`).
7. `read_hdf5_file` hands the initial values of one quantity to the solution of all
   (`C55_several_quantities_refuted`).
8. `final_independent_outputs` is always zero; the perturbation of stage states is not cleared in reverse mode.
9. Global ranges of distributed independent inputs use the size table of the outputs (`C50_independent_inputs_refuted`).
10. The norm of order -inf is always 0; quantities copied on some but not all processes count once per
    copy (`C36_minus_infinity_refuted`, `C36_partial_copies_refuted`).
11. A time source with more than one entry: forward fills all entries, reverse reads the first only
    (`C39_vector_time_refuted`). Quantities with a common source also break the transposition.
12. Vectors are cleared by multiplying with 0.0, which keeps nan and inf (`C53_refuted`).

**State carried over where it should not be**

13. The cached run is identified by its initial values only; initial time, and whether the run raised, are
    ignored (`C11_*_refuted`, `C12_*_refuted`). Inputs with nan always recompute.
14. The recomputing checkpointer numbers steps from 0 and calls the compute callbacks again during reverse
    products (`C10_*_refuted`); with zero steps it still runs one. The file writer cannot be used with it
    (`C34_recomputing_refuted`).
15. Nested controllers are not reset between runs (`C46_*_refuted`), the counter survives an accepted step and
    in chains of three or more the inner modes are stale (`C52_*_refuted`).
16. `PyrevolveCheckpointer.__post_init__` changes the dictionary of options it was given.

**Step size control**

17. Acceptance compares with the time left after the step, so a mid-run step as long as the time left after
    it is accepted whatever its error (`C13_mid_run_step_refuted`).
18. `max_iter` of nested controllers never limits consecutive rejections (`C18_retry_limit_refuted`).
19. A closing step below the lower bound with error above the tolerance is repeated for ever
    (`C19_refuted`); with a nan error as well (`C49_refuted`).
20. `h0_321` is neither dead-beat nor filtering; its alpha is 1/(3p) instead of 5/(4p) (`C21_*`, `C51_*`).
21. The first step is not clamped: an initial step longer than the interval overshoots.
22. A zero error in the history makes all later suggestions inf or nan. p = None raises TypeError, p = 0 ZeroDivisionError.
23. In fixed-step runs the result of `np.roll` is discarded (runge_kutta_integrator.py:633).
24. `PredefinedFinalTime` compares without tolerance: with h = 0.1 and T = 1 (the step size and time objective
    of `kaps_problem`) a fixed-step run in doubles makes eleven steps and ends at 1.1 (`C56_refuted`).
25. Adaptive stepping with a tableau without embedded method raises AttributeError in the first step.

**Checks that are missing or too weak**

26. The row-sum warning needs all rows to deviate (`C28_row_sum_warning_refuted`).
27. A listed quantity without tagged output is silently left out, a second tagged output without role lists a
    quantity twice, shapes of inputs are not compared (`C26_*`). A quantity named "time" clashes at set-up.
28. Verdicts about tags may differ between processes, then only some raise (`C26_verdicts_differ`).
29. A time variable that exists on another process only gives a misleading SetupError;
    `_add_time_independent_inputs` asks `get_val(None)` for an input that is not local.
30. Infinite norm orders deadlock or raise when a process holds an empty portion (`C37_infinite_order_deadlock_refuted`).
31. A run interrupted between the two callbacks leaves a group of zeros in the file
    (`C34_no_group_without_data_refuted`). A quantity named "error_measure" clashes
    (`C34_error_measure_name_refuted`). `write_out_period = 0` raises ZeroDivisionError.
32. `get_write_indices` is right only for portions that consist of whole rows; those are the only ones the
    extractor can produce for well-tagged problems (`C35_*`).
33. Two shipped tableaux share a name, RK4 is named as embedded though it is not, one has the default name.
    `min_p_order` of an embedded tableau with unknown phat raises TypeError.
34. `compute_jacvec_product` assigns quantities (=) but adds (+=) to the times, in both modes
    (`C62_refuted`; harmless as long as the caller passes zeros, which OpenMDAO's own linear operator does),
    and accesses every declared input, so vectors restricted to relevant variables raise KeyError
    (`C63_forward_refuted`, `C63_reverse_refuted`).
35. `RungeKuttaCheckpoint.size` is documented in bytes and counts floats.
36. Because `ProtheroRobinson` defines no derivatives and OpenMDAO takes a missing `compute_jacvec_product`
    as zero partials, the integrator's products for it are those of the identity, without any error; the
    derivative is the n-th power of the stability function (`C68_refuted`, `C68_products_partial`).
37. `Problem.get_file_path` prints step sizes with one digit, so e.g. 1.2e-3 and 1.4e-3 share a file and the
    later run replaces the earlier; `compute_tolerance` then counts one error twice (`C70_refuted`,
    `C71_refuted`). The stiffness is not part of the path either. The two tableaux of finding 33 share all files.
38. `generate_path("output.h5")` raises FileNotFoundError (`os.makedirs("")`), and in a parallel run two processes
    can both try to make the directory; the second raises FileExistsError (`C72_bare_refuted`,
    `C72_parallel_refuted`).
39. The averaged runs of the example study take one step more than the adaptive run, as the group of the initial
    state is counted (`C73_one_step_more_refuted`). `int(time_objective / step_size)` can lose a step in double
    precision (`C74_refuted`; not with the shipped values).
40. By reading only: both `constants.py` of the example study import `embedded_third_order_three_stage_sdirk`,
    which `butcher_tableaux.py` does not define, so the scripts fail with ImportError; `parse_problem` gives a
    default to a positional argument without `nargs="?"`, so the default is never used.
41. `h_312_general`, `h_321_general` and `h_330_general` have required arguments, so the option check of
    `error_controller`, which calls every entry with `p=1` only, raises TypeError: they cannot be chosen
    (`C82_general_controllers_refuted`). What is given in `error_controller_options` goes to every controller of the
    list, so no entry makes a set-up work that fails without it (`C82_set_up_accepts_exactly`). An empty list of
    controllers raises AttributeError at set-up.
42. `from_butchertableau` without `phat` - its default - builds a tableau that no component accepts: `min_p_order` raises
    TypeError at set-up, also for runs with fixed steps, instead of the "Order is unknown" of the property
    (`C83_unknown_order_refuted`). A plain tableau of unknown order works with the pseudo controller only.
43. `__post_init__` of the recomputing checkpointer writes into the dictionary `revolver_options` of the user. Set up
    twice with `storage_list`, the second set-up raises AttributeError (`C84_storages_twice_refuted`); the
    `n_checkpoints` chosen for one number of steps is kept for the next (`C84_checkpoint_number_refuted`); of two
    integrators with the same dictionary, the one set up first runs the ODE, tableau and number of steps of the other
    and returns its result (`C84_shared_dictionary_refuted`, `C84_shared_run_refuted`). A storage type other than
    "Numpy", "Disk" and "Bytes" is left out without an error (`C84_unknown_storages_refuted`).
44. Whether a reverse product reuses the checkpoints is decided by each process for itself, by comparing its own
    portion of the inputs with its own copy (`np.array_equal`, no reduction over the processes). When the inputs differ
    from those of the last compute on some processes only (a distributed input changed in one portion, a NaN in one
    portion, which equals nothing), these recompute while the others start the adjoint solves: a deadlock
    (`C86_local_cache_decision_deadlock_refuted`).

45. Of the shipped tableaux of order 4 and 5 only `embedded_fourth_order_third_weak_stage_order_six_stage_dirk` keeps its
    order on stiff problems: the SDIRK tableaux have weak stage order 1, the ESDIRK tableaux 2, and
    no bound with a power of the step size higher than that plus one holds for the error of one step
    uniformly in lambda (`C88_sharp`).
46. The factor of the implicit midpoint rule tends to -1 for large steps, so its errors on stiff problems are hardly
    damped; C88's uniform bound leaves it out.
47. The integrator gives controllers the order p of the method (`min_p_order`), but the error measure it feeds them
    behaves like h^(p+1). With `pc` and `h0_220` at p = 1, 2 and `h0_330` at p = 1..4 the loop is then unstable:
    from step sizes as close as one likes to the balance they swing away until steps are rejected
    (`C89_swings_refuted`).

## 5. Trusted base

* The Coq 8.16.1 kernel; everything is rechecked by `coqchk`. No axiom of our own, no functor or module
  type, no plugin, no kernel check switched off.
* Axioms of the standard library, only through `Reals` and `Classical`/`Extensionality` parts:
  D = `ClassicalDedekindReals.sig_forall_dec`, N = `ClassicalDedekindReals.sig_not_dec`,
  F = `FunctionalExtensionality.functional_extensionality_dep`, C = `Classical_Prop.classic`.
  Section 6 lists them per theorem as printed by `Print Assumptions`.
* The reading of the Python text: that each definition in `M_*.v` does what the cited lines do. Mutations of
  those definitions (`seeded/LOG.jsonl`) show which theorems notice a wrong reading.
  `theorems_failed` names theorems whose proof, or a lemma under it, no longer compiles after the edit; that a
  statement became false is argued by the edit itself, not checked.
* The simplifications named in the header of each `M_*.v` file and in section 2.
* Theorems over R ignore rounding; C80 bounds its effect on primal runs, C81 on the shipped coefficients. Not modelled: OpenMDAO internals (set-up, solvers, assembly), PyRevolve's
  schedule construction, h5py internals, MPI transport, printing and logging, wall-clock measurement.

## 6. Axioms per theorem

`-`: closed under the global context. Letters as in section 5.

### -

* `Properties_Adaptive.v`: C13_mid_run_step_refuted, C19_refuted, C49_refuted
* `Properties_Callback.v`: C90_exceptions, C90_no_influence, C90_histories
* `Properties_Restart.v`: C92_compute, C92_forward, C92_reverse, C92_adaptive_refuted
* `Properties_Change.v`: C93_compute, C93_reordering, C93_units_refuted
* `Properties_Change2.v`: C93_forward
* `Properties_Change3.v`: C93_reverse
* `Properties_Console.v`: C94_compute, C94_forward, C94_reverse, C94_recomputing, C94_raising, C94_other_processes, C94_options, C94_no_influence
* `Properties_Component.v`: C59_vectors_hold_inputs, C59_vectors_hold_outputs, C59_compute_by_name, C59_forward_by_name, C59_reverse_by_name, C63_forward_refuted, C63_reverse_refuted
* `Properties_Control.v`: C17_built_chains_are_outermost, C18_counter_is_reset, C38_simple_measure_is_norm
* `Properties_Filter.v`: C52_accepted_runs_use_first_controller, C52_pair_back_to_first, C52_pair_rejection_by_first
* `Properties_Heap.v`: C30_set_copies_partial, C30_set_is_the_state_model, C30_embedded_set_refuted, C30_independent_after_set, C30_set_to_itself, C30_deep_copy, C30_kept_copies_stay, C30_new_objects_are_separate, C31_plain_round_trip_partial, C31_result_shares_arrays, C31_independent_inputs_refuted, C31_embedded_refuted, C31_time_integration_refuted, C31_time_integration_partial, C32_size_is_what_is_handed_out, C32_save_then_load_partial, C32_step_size_refuted
* `Properties_MPI.v`: C36_infinity_needs_entries, C37_one_process_is_the_integrator, C37_processes_stay_in_step_partial, C37_no_deadlock_partial, C37_infinite_order_deadlock_refuted, C37_differing_copies_refuted
* `Properties_Meet.v`: C86_callbacks_are_met, C25_independent_inputs_appended, C25_no_independent_outputs
* `Properties_MPIRun.v`: C86_one_process_is_the_integrator, C86_histories_stay_in_step_partial, C86_no_deadlock_partial, C86_local_cache_decision_deadlock_refuted
* `Properties_Metadata.v`: C24_ranges_fill_array, C24_range_lengths, C24_same_order_everywhere, C26_accepted_quantities, C26_wrong_tags_rejected, C26_properly_tagged_accepted, C26_missing_quantity_accepted, C26_doubled_quantity_accepted, C26_other_shapes_accepted, C26_verdicts_differ, C50_global_ranges_partition, C50_distributed_mark, C50_independent_inputs_refuted
* `Properties_Order.v`: C29_every_tableau_covered
* `Properties_Packing.v`: C25_reading_places_every_quantity, C25_writing_places_every_quantity, C25_array_round_trip, C25_vector_round_trip, C25_independent_inputs_placed, C25_independent_inputs_round_trip, C40_point_restores_the_problem, C40_point_restores_any_state, C40_point_size, C53_refuted
* `Properties_Problems.v`: C70_accepts, C70_names, C70_same_file_iff_partial, C70_factor_partial, C70_one_digit_partial, C70_shipped_partial, C70_shipped_named_partial, C72_directory_partial, C72_bare_refuted, C72_parallel_partial, C72_parallel_refuted, C73_one_step_more_refuted, C74_shipped_partial, C74_refuted
* `Properties_Revolve.v`: C09_compute_same_for_all_variants, C09_reverse_same_for_all_variants, C10_same_run_for_all_variants_refuted, C10_recomputing_callbacks, C10_recomputing_reverse_callbacks, C46_compute_repeatable_recomputing, C11_forward_product_between_refuted, C11_recomputing_history_independent
* `Properties_Rounding.v`: C56_steps_in_any_arithmetic, C56_refuted
* `Properties_Run.v`: C07_same_trajectory, components_in_use_are_wf, C08_storing_is_transparent, C08_reverse_uses_every_step, C08_no_checkpoints_no_reverse, C11_reverse_product_history_independent_refuted, C11_reverse_product_history_independent, C11_reverse_product_after_compute, C11_reverse_product_after_other_inputs, C12_failed_run_not_reused_refuted, C12_failed_reverse_not_reused_refuted, C12_other_inputs_unaffected, C20_histories_of_accepted_steps, C20_failed_step_leaves_no_trace, C33_compute_callbacks, C33_forward_callbacks, C33_compute_callbacks_when_raising, C33_forward_callbacks_when_raising, C33_reverse_callbacks_when_raising, C46_compute_repeatable_refuted, C46_compute_repeatable, C46_plain_controllers_stateless, C48_embedded_fields_of_the_step_refuted, C48_embedded_fields_always_zero
* `Properties_Scheme.v`: C85_component_compute, C85_component_products
* `Properties_Setup.v`: C82_set_up_accepts_exactly, C82_set_up_result, C82_set_up_errors, C82_general_controllers_refuted, C83_from_tableau, C83_methods_and_orders, C83_unknown_order_refuted, C84_options_handed_over, C84_storages, C84_separate_dictionaries, C84_same_again_partial, C84_storages_twice_refuted, C84_checkpoint_number_refuted, C84_shared_dictionary_refuted, C84_shared_run_refuted
* `Properties_Setup2.v`: C82_general_by_name, C82_general_accepts_exactly, C84_unknown_storages_refuted
* `Properties_Step.v`: C02_upper_entries_ignored, C05_step_adjoint_ignores_working_fields, C45_error_estimate_is_difference_of_methods, C28_constructed_iff_sizes_agree, C28_constructed_fields, C28_constructed_wf, C28_constructed_embedded_wf
* `Properties_Writer.v`: C34_file_of_a_run, C34_file_of_compute, C34_one_process, C34_interrupted_partial, C34_file_when_raising, C34_no_group_without_data_refuted, C34_recomputing_refuted, C34_error_measure_name_refuted, C35_every_entry_once, C35_selection_is_portion, C54_last_local_error, C55_one_quantity, C55_several_quantities_partial, C55_several_quantities_refuted

### DF

* `Properties_Adaptive.v`: C16_bound_exists
* `Properties_Components.v`: C42_simple_linear_solves, C42_simple_linear_derivative, C42_simple_linear_transposed, C42_simple_linear_partial_view_refuted, C43_kaps1_solves, C43_kaps1_derivative, C43_kaps2_derivative, C43_kaps1_transposed, C43_kaps2_transposed, C43_kaps1_linear_fwd, C43_kaps2_linear_fwd, C43_kaps1_linear_rev, C43_kaps2_linear_rev_partial, C43_kaps2_linear_rev_refuted
* `Properties_Floating.v`: C80_binary
* `Properties_Order.v`: C29_polynomials_recentre
* `Properties_Problems.v`: C71_range
* `Properties_Rounding.v`: C56_exact_sums_partial

### DNF

* `Properties_Components.v`: C42_prothero_robinson_solves, C42_prothero_robinson_derivative_refuted, C44_simple_linear_solution, C44_prothero_robinson_solution_partial, C44_prothero_robinson_default, C44_prothero_robinson_solution_refuted, C44_kaps_solution_partial, C44_kaps_initial_values_refuted
* `Properties_Problems.v`: C70_refuted
* `Properties_Stage.v`: C67_exact

### DNCF

* `Properties_Adaptive.v`: C15_no_overshoot, C15_final_time, C16_retries_end, C19_step_count, C19_integral_runs_end_partial, C19_short_closing_step_forever, C49_nan_reported, C49_nan_closing_step_forever
* `Properties_Component.v`: C59_component_takes_steps, C60_products_transposed_by_name, C61_forward_is_derivative_by_name, C62_forward_adds_iff_partial, C62_reverse_adds_iff_partial, C62_refuted
* `Properties_Components.v`: C41_value_and_update_inverse, C41_value_derivative, C41_update_derivative, C41_value_products_transposed, C41_update_products_transposed, C43_kaps2_solves, C44_kaps_initial_time_refuted
* `Properties_Control.v`: C13_accept_rule, C14_suggestion_bounds, C17_retry_not_larger, C18_retry_limit_refuted, C21_deadbeat, C21_h0_321_refuted, C22_monotone, C22_fixed_point, C23_pseudo_keeps_step, C38_improved_measure, C38_improved_measure_increases
* `Properties_Convergence.v`: C57_run_is_composition_of_steps, C57_run_is_composition_of_steps_recomputing, C57_forward_product_follows_steps, C58_error_bound, C58_runs_converge
* `Properties_Filter.v`: C51_alternating_errors_filtered, C51_growing_alternation_filtered, C51_trend_continued, C51_curved_trend_continued, C51_h0_321_refuted, C52_counter_survives_refuted, C52_three_controllers_refuted, C38_improved_measure_of_state
* `Properties_Floating.v`: C80_any_steps, C80_fixed_steps, C80_shipped
* `Properties_Local.v`: C75_any_steps, C75_fixed_steps, C75_shipped, C76_fixed_steps, C76_any_steps, C77_forward, C77_transposed
* `Properties_MPI.v`: C36_norm_of_all_entries_partial, C36_minus_infinity_is_zero, C36_minus_infinity_refuted, C36_partial_copies_refuted
* `Properties_Order.v`: C29_constructed, C29_order_conditions, C29_order_not_higher, C29_polynomials_exact, C29_polynomials_rounded
* `Properties_OrderConv.v`: C64_order_of_runs, C64_fixed_steps, C64_shipped, C64_shipped_all, C65_estimate_order, C65_shipped_estimate
* `Properties_Packing.v`: C25_ode_input_placed, C25_ode_update_read, C39_transposed, C39_linear, C39_differentiable, C39_sizes, C39_integrator_transposed, C39_shared_source_refuted, C39_vector_time_refuted, C53_derivatives_ignore_history_partial, C53_updates_ignore_history_partial
* `Properties_Problems.v`: C71_mean_partial, C71_missing, C71_refuted
* `Properties_Revolve.v`: C03_fixed_step_times_recomputing, C06_products_transposed_recomputing
* `Properties_Run.v`: C03_fixed_step_times, C47_number_of_steps, C47_final_time, C47_returns, C06_products_transposed_fresh, C06_products_transposed, C06_forward_product_linear, C07_forward_product_is_derivative
* `Properties_Scheme.v`: C85_steps_taken, C85_forward_is_derivative, C85_forward_linear, C85_reverse_is_transpose
* `Properties_Sensitivity.v`: C78_any_steps, C78_fixed_steps, C78_reverse, C78_shipped, C79_forward, C79_reverse
* `Properties_Setup.v`: C82_shipped_tableaux
* `Properties_Stage.v`: C66_factor, C66_compute, C66_forward, C66_reverse, C67_decay, C67_prothero_robinson, C68_products_partial, C68_reverse_partial, C68_refuted, C69
* `Properties_Step.v`: C01_step_satisfies_rk_equations, C01_step_defined, C01_fresh_state_shaped, C02_upper_entries_refuted, C04_step_derivative_is_derivative, C04_step_derivative_linear, C04_step_derivative_keeps_inputs, C05_step_adjoint_is_transpose, C45_error_estimate_formula, C27_exactly_one_class, C27_explicit, C27_diagonally_implicit, C27_implicit, C28_weights_warning, C28_row_sum_warning_refuted, C28_row_sum_warning_only_if_all_differ, C28_default_times_are_row_sums
* `Properties_TableauxFloat.v`: C81_coefficients, C81_order, C81_runs
* `Properties_Stiff.v`: C87_factor, C87_compute, C87_forward, C87_reverse, C87_covers, C87_explicit_refuted, C88_weak_stage_order, C88_uniform, C88_full_order, C88_sharp
* `Properties_Loop.v`: C89_settles, C89_accepted, C89_run, C89_swings_refuted
* `Properties_Invariant.v`: C91_linear, C91_linear_recomputing, C91_forward, C91_reverse, C91_quadratic, C91_midpoint, C91_euler, C91_quadratic_refuted
* `Properties_Restart.v`: C92_parameters, C92_final_time
* `Properties_Change.v`: C93_affine
* `Properties_Console.v`: C94_times
