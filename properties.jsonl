{"id": "C01", "title": "One step satisfies the Runge-Kutta equations", "statement": "For an explicit or diagonally implicit Butcher tableau (A,b,c), if the ODE's compute_update returns a stage update k that solves k = f(t, y + h*acc + h*a*k) for the inputs it is given, then compute_step with step size h started at (t,y) leaves stage updates k_i with k_i = f(t + c_i h, y + h*sum_j a_ij k_j) for every stage i, start state y, and final state y + h*sum_i b_i k_i. All array shapes are kept and the independent inputs are unchanged.", "quantifier": "every tableau that is zero above the diagonal (any number of stages), every right-hand side, state size, step size, start time and starting state object, including leftovers in the state's other fields", "why_tests_cant": "tests run a handful of scalar ODEs with fixed tableaux to a tolerance; they cannot cover every tableau, dimension and right-hand side", "anchors": ["src/rkopenmdao/time_discretization/stage_ordered_runge_kutta_discretization.py::StageOrderedRungeKuttaDiscretization.compute_step", "src/rkopenmdao/time_discretization/stage_ordered_runge_kutta_discretization.py::_compute_stage", "src/rkopenmdao/time_discretization/stage_ordered_runge_kutta_discretization.py::_accumulate_stages", "src/rkopenmdao/time_discretization/stage_ordered_runge_kutta_discretization.py::_accumulate_step"]}
{"id": "C02", "title": "A tableau that cannot be executed in stage order is never silently replaced by another one", "statement": "If a Butcher tableau has a nonzero entry above its diagonal, one step either reports an error or satisfies the full Runge-Kutta equations of that tableau.", "quantifier": "every square tableau accepted by ButcherTableau", "why_tests_cant": "tests only use tableaux that are explicit or diagonally implicit", "anchors": ["src/rkopenmdao/butcher_tableau.py::ButcherTableau.is_implicit", "src/rkopenmdao/time_discretization/stage_ordered_runge_kutta_discretization.py::compute_step", "src/rkopenmdao/runge_kutta_integrator.py::RungeKuttaIntegrator.setup"]}
{"id": "C03", "title": "Time bookkeeping of fixed-step runs", "statement": "In a run of N steps of fixed size h started at t0, the stages of step n are evaluated at t0 + (n-1)h + c_i h, step n ends at t0 + n*h, step n starts in the state step n-1 ended in, and time_final is t0 + N*h.", "quantifier": "every N, h, t0, tableau, ODE and checkpointing variant", "why_tests_cant": "tests check one step for a few tableaux", "anchors": ["src/rkopenmdao/time_discretization/stage_ordered_runge_kutta_discretization.py::compute_step", "src/rkopenmdao/runge_kutta_integrator.py::_iterate_on_step", "src/rkopenmdao/runge_kutta_integrator.py::compute"]}
{"id": "C04", "title": "Forward-mode step derivative is the derivative of the step", "statement": "If the ODE's compute_update_derivative is the directional derivative of its compute_update at the point it was linearized, then compute_step_derivative returns the directional derivative of compute_step with respect to start time, start state and independent inputs, for final time, final state, every stage state and every stage update; it is additive and homogeneous in the perturbation, and leaves the independent-input perturbation unchanged.", "quantifier": "every tableau (any number of stages), ODE, step size, base point and perturbation direction", "why_tests_cant": "finite-difference tests sample a few directions at a few points with a tolerance", "anchors": ["src/rkopenmdao/time_discretization/stage_ordered_runge_kutta_discretization.py::compute_step_derivative", "src/rkopenmdao/time_discretization/stage_ordered_runge_kutta_discretization.py::_compute_stage_derivative"]}
{"id": "C05", "title": "Reverse-mode step derivative is the transpose of the forward-mode one", "statement": "For any direction v of (time, state, independent inputs) and any weights w on (final time, final state, independent inputs, stage states), <w, forward(v)> = <reverse(w), v>, whenever the ODE's own update derivative and adjoint derivative are transposes of each other at every linearization point. The result does not depend on what the weight object held in its start-state, stage-update, stage-time and stage-independent-output fields.", "quantifier": "every tableau, number of stages, ODE, step size, state size, v and w", "why_tests_cant": "the duality tests use a few ODEs with random vectors; the identity has to hold for all vectors and tableaux", "anchors": ["src/rkopenmdao/time_discretization/stage_ordered_runge_kutta_discretization.py::compute_step_adjoint_derivative", "src/rkopenmdao/time_discretization/stage_ordered_runge_kutta_discretization.py::_compute_stage_adjoint_derivative"]}
{"id": "C06", "title": "Whole-run forward and reverse products are transposes", "statement": "For any run, compute_jacvec_product in fwd mode and in rev mode define transposed linear maps between perturbations of (time_initial, *_initial, independent inputs) and of (time_final, *_final): <d_out, fwd(d_in)> = <rev(d_out), d_in>. This includes runs whose step sizes were chosen adaptively and runs of zero steps.", "quantifier": "every number of steps, every sequence of accepted step sizes, every tableau and transpose-consistent ODE, all d_in and d_out", "why_tests_cant": "tests run check_partials on few-step problems", "anchors": ["src/rkopenmdao/runge_kutta_integrator.py::compute_jacvec_product", "src/rkopenmdao/runge_kutta_integrator.py::_compute_jacvec_product_fwd_run", "src/rkopenmdao/runge_kutta_integrator.py::_compute_jacvec_product_rev_run", "src/rkopenmdao/checkpoint_interface/all_checkpointer.py::AllCheckpointer.iterate_reverse"]}
{"id": "C07", "title": "Whole-run forward products are the derivative of the fixed-step run", "statement": "In fixed-step runs with a prescribed number of steps, the fwd-mode product is the directional derivative of the map from (time_initial, *_initial, independent inputs) to (time_final, *_final) that compute evaluates, and the primal trajectory followed during the product is the one compute follows.", "quantifier": "every number of steps, step size, tableau, differentiable ODE, base point and direction", "why_tests_cant": "finite differences at sample points", "anchors": ["src/rkopenmdao/runge_kutta_integrator.py::_compute_jacvec_product_fwd_run", "src/rkopenmdao/runge_kutta_integrator.py::_run_step_jacvec_fwd", "src/rkopenmdao/runge_kutta_integrator.py::compute"]}
{"id": "C08", "title": "Store-all checkpointing is transparent and replays in reverse order", "statement": "Running forward with the store-all checkpointer gives the same final state, callbacks and step count as running with no checkpointer, and the following reverse sweep visits exactly the states that existed after steps N, N-1, ..., 1, each with the linearization data and step size of that step, unaffected by later overwriting of the live state. Afterwards the store is empty. Reversing with the no-checkpointer variant is reported as an error.", "quantifier": "every number of steps, step function, initial state and termination criterion", "why_tests_cant": "tests compare a few short runs", "anchors": ["src/rkopenmdao/checkpoint_interface/all_checkpointer.py::AllCheckpointer", "src/rkopenmdao/checkpoint_interface/no_checkpointer.py::NoCheckpointer"]}
{"id": "C09", "title": "Recomputation checkpointing gives the same adjoint as store-all", "statement": "For every schedule of advance/save/restore/reverse actions that the checkpointing library may issue and that respects positions (restores only saved positions, reverses steps last to first), the reverse sweep of the recomputing checkpointer returns the same perturbation as the store-all one, for runs of at least one step, although its snapshots leave out the stored step size.", "quantifier": "every valid schedule, number of steps >= 1, number of snapshot slots, step and reverse-step functions", "why_tests_cant": "the set of schedules is unbounded; tests see the one produced for a particular step and slot count", "anchors": ["src/rkopenmdao/checkpoint_interface/pyrevolve_checkpointer.py::PyrevolveCheckpointer", "src/rkopenmdao/checkpoint_interface/runge_kutta_integrator_pyrevolve_classes.py"]}
{"id": "C10", "title": "All checkpointing variants present the same run", "statement": "The number of steps executed, and the iteration numbers passed to callbacks (1..N forward, N..1 backward), do not depend on which checkpointing variant is configured.", "quantifier": "every number of steps >= 0 and every schedule", "why_tests_cant": "no test records callback numbers for the recomputing variant", "anchors": ["src/rkopenmdao/checkpoint_interface/runge_kutta_integrator_pyrevolve_classes.py::RungeKuttaIntegratorForwardOperator", "src/rkopenmdao/checkpoint_interface/pyrevolve_checkpointer.py::iterate_forward"]}
{"id": "C11", "title": "Reverse products depend only on their arguments", "statement": "The value of a reverse-mode product is the same whatever compute and product calls were made before on the same component: checkpoints are reused only when they belong to the inputs of this call.", "quantifier": "every history of compute / fwd / rev calls with arbitrary inputs, including time_initial, state and independent inputs", "why_tests_cant": "histories are unbounded and the failing ones need two calls that differ in one input", "anchors": ["src/rkopenmdao/runge_kutta_integrator.py::_compute_jacvec_product_rev_preparation_phase", "src/rkopenmdao/runge_kutta_integrator.py::_compute_preparation_phase"]}
{"id": "C12", "title": "A failed run is not mistaken for a complete one", "statement": "If a forward run or a reverse sweep is aborted by an exception at any step, a later reverse-mode product on the same inputs is not computed from the partial checkpoints.", "quantifier": "every crash point in compute or in a reverse sweep, every later call", "why_tests_cant": "crash points are not enumerated by tests", "anchors": ["src/rkopenmdao/runge_kutta_integrator.py::_compute_preparation_phase", "src/rkopenmdao/runge_kutta_integrator.py::_compute_jacvec_product_rev"]}
{"id": "C13", "title": "Accept/reject rule of error control", "statement": "A step is accepted exactly when its error measure is at most the tolerance, or its size is within 1e-10 of the configured lower bound, or within 1e-10 of the time remaining; in particular, apart from steps at the lower bound or the closing step of the run, no step with error above the tolerance is accepted.", "quantifier": "every controller parameter set, error measure, step size, history and remaining time", "why_tests_cant": "tests evaluate a few numeric combinations", "anchors": ["src/rkopenmdao/error_controller.py::ErrorController._run"]}
{"id": "C14", "title": "Bounds on the suggested step size", "statement": "Every suggestion is at most the upper bound; an accepted step's suggestion is at most the remaining time and a rejected step's at most the remaining time plus the rejected step; it is at least the lower bound unless cut by that limit; with error zero the old step size is proposed before clamping.", "quantifier": "every controller, error, step size, history, bounds and remaining time", "why_tests_cant": "tests evaluate a few numeric combinations", "anchors": ["src/rkopenmdao/error_controller.py::ErrorController._run", "src/rkopenmdao/error_controller.py::ErrorController._estimate_next_step_function"]}
{"id": "C15", "title": "Adaptive runs to a prescribed final time do not overshoot it", "statement": "With a prescribed final time T and error control, if the initial step size is at most T - time_initial, then no accepted step ends after T, and a run that finishes reports time_final = T.", "quantifier": "every controller chain, ODE, tolerance, bounds, initial data and number of retries (exact arithmetic)", "why_tests_cant": "tests run a few ODEs", "anchors": ["src/rkopenmdao/error_controller.py::ErrorController._run", "src/rkopenmdao/termination_criterion.py::PredefinedFinalTime", "src/rkopenmdao/runge_kutta_integrator.py::_iterate_on_step"]}
{"id": "C16", "title": "Retries with the integral controller terminate", "statement": "With a single integral controller (safety below 1, tolerance positive), for a trial step not smaller than the lower bound and with at least the lower bound of time left, the repeat-until-accepted loop ends after at most a number of trials computable from step size, lower bound and safety factor, never raises a controller error, and every retry uses a strictly smaller step.", "quantifier": "every error behaviour of the ODE (an arbitrary error measure other than nan for each trial, infinite ones included; nan is the subject of C49), every tolerance, safety factor, step size and bounds", "why_tests_cant": "the loop has no iteration limit, so termination is a claim about all error sequences", "anchors": ["src/rkopenmdao/runge_kutta_integrator.py::_iterate_on_step", "src/rkopenmdao/error_controller.py::ErrorController", "src/rkopenmdao/error_controllers.py::integral"]}
{"id": "C17", "title": "A retry never uses a larger step", "statement": "Whatever chain of nested controllers is configured, when the outermost controller returns 'rejected' its suggestion is not larger than the rejected step; otherwise a controller error is raised.", "quantifier": "every chain length, parameters, internal controller state and history", "why_tests_cant": "chains, internal flags and histories are unbounded", "anchors": ["src/rkopenmdao/error_controller.py::ErrorController.__call__", "src/rkopenmdao/error_controller.py::ErrorControllerDecorator.__call__"]}
{"id": "C18", "title": "The retry limit of nested controllers is enforced", "statement": "With a nested controller and retry limit max_iter, no more than max_iter consecutive rejected trials of a step are delegated to the outer controller before the inner one takes over.", "quantifier": "every max_iter >= 1 and every sequence of error measures", "why_tests_cant": "needs long sequences of consecutive rejections", "anchors": ["src/rkopenmdao/error_controller.py::ErrorControllerDecorator.__call__", "src/rkopenmdao/error_controller.py::ErrorControllerConfig"]}
{"id": "C19", "title": "Adaptive runs to a prescribed final time end", "statement": "With a positive lower bound on the step size every accepted step except the closing one advances time by at least the lower bound (up to 1e-10), so the number of accepted steps is bounded by (T - t0)/lower_bound + 1; and the attempt loop of each step ends.", "quantifier": "every error behaviour, tolerance, bounds, t0, T", "why_tests_cant": "termination for all error behaviours", "anchors": ["src/rkopenmdao/error_controller.py::ErrorController._run", "src/rkopenmdao/runge_kutta_integrator.py::_iterate_on_step", "src/rkopenmdao/termination_criterion.py::PredefinedFinalTime"]}
{"id": "C20", "title": "Rejected trials leave no trace in the solution; histories record accepted steps", "statement": "The state after an adaptive step equals one plain step from the same start with the finally accepted size; rejected trials change nothing but the step-size suggestion. step_size_history and error_history hold the sizes and error measures of the last two accepted steps, newest first.", "quantifier": "every number of rejected trials, controller, ODE and state", "why_tests_cant": "tests look at a single accepted step", "anchors": ["src/rkopenmdao/runge_kutta_integrator.py::_iterate_on_step"]}
{"id": "C21", "title": "Dead-beat property of the H0 controllers", "statement": "If the error measure is exactly C*h^p, each H0_xyz controller of the catalogue, after its history is filled, suggests safety*(tol/C)^(1/p) regardless of the previous step sizes.", "quantifier": "every p > 0, C > 0, tolerance, safety factor and history of step sizes", "why_tests_cant": "it is an identity in real exponents for all histories", "anchors": ["src/rkopenmdao/error_controllers.py::h0_211", "src/rkopenmdao/error_controllers.py::h0_220", "src/rkopenmdao/error_controllers.py::h0_312", "src/rkopenmdao/error_controllers.py::h0_321", "src/rkopenmdao/error_controllers.py::h0_330", "src/rkopenmdao/error_controllers.py::h0_110"]}
{"id": "C22", "title": "Controllers react monotonically to the error", "statement": "For every catalogue controller with positive order, a larger error measure never yields a larger suggestion, all else equal; and if error, its history and tolerance coincide and step sizes are constant, the suggestion before clamping is safety times the step.", "quantifier": "every positive error, history, step size, order and tolerance", "why_tests_cant": "monotonicity over all reals", "anchors": ["src/rkopenmdao/error_controllers.py", "src/rkopenmdao/error_controller.py::_estimate_next_step_function"]}
{"id": "C23", "title": "The pseudo controller keeps the step size", "statement": "The pseudo controller accepts every step and suggests the same step size again (within bounds and remaining time).", "quantifier": "every error measure other than nan, every history, step size within bounds", "why_tests_cant": "tests sample", "anchors": ["src/rkopenmdao/error_controllers.py::pseudo", "src/rkopenmdao/error_controller.py::ErrorController._run"]}
{"id": "C24", "title": "State quantities get disjoint, gap-free array ranges", "statement": "The local array ranges assigned to the time-integration quantities are pairwise disjoint, in order, and exactly fill an array of the reported total size; each range has the length of its variable's local size; likewise for independent inputs. Quantities not local to a process get an empty range.", "quantifier": "every set of stage-problem variables, shapes, tags and every distribution of variables over processes", "why_tests_cant": "layouts are unbounded", "anchors": ["src/rkopenmdao/metadata_extractor.py::extract_time_integration_metadata", "src/rkopenmdao/metadata_extractor.py::_create_local_array_metadata", "src/rkopenmdao/metadata_extractor.py::add_time_independent_input_metadata"]}
{"id": "C25", "title": "Packing and unpacking of component data is lossless", "statement": "Writing a state array to component outputs and reading the values back gives the same array, every quantity's values land in its own variables with its own shape, and variables of other quantities are not touched.", "quantifier": "every metadata layout produced by the extractor, every array", "why_tests_cant": "layouts are unbounded", "anchors": ["src/rkopenmdao/runge_kutta_integrator.py::_to_numpy_array_time_integration", "src/rkopenmdao/runge_kutta_integrator.py::_from_numpy_array_time_integration", "src/rkopenmdao/discretized_ode/openmdao_ode.py"]}
{"id": "C26", "title": "Wrongly tagged stage problems are rejected", "statement": "A stage problem is accepted only if each requested quantity has exactly one stage output and at most one step input and at most one accumulated-stage input of matching shape; every requested quantity name ends up in the metadata exactly once; otherwise a setup error is raised.", "quantifier": "every list of variables with tags and every list of requested quantities", "why_tests_cant": "tag combinations are unbounded", "anchors": ["src/rkopenmdao/metadata_extractor.py::_extract_time_integration_quantity", "src/rkopenmdao/metadata_extractor.py::extract_time_integration_metadata"]}
{"id": "C27", "title": "Tableau classification", "statement": "Every tableau is exactly one of explicit, (properly) diagonally implicit and fully implicit, matching the zero pattern of A.", "quantifier": "every square matrix of any size", "why_tests_cant": "matrices are unbounded", "anchors": ["src/rkopenmdao/butcher_tableau.py::ButcherTableau.is_explicit", "src/rkopenmdao/butcher_tableau.py::is_diagonally_implicit", "src/rkopenmdao/butcher_tableau.py::is_implicit"]}
{"id": "C28", "title": "Tableau construction checks", "statement": "ButcherTableau is constructed exactly when A is square and the sizes of A, b and c agree; omitted c equals the row sums; a warning is given when the weights do not sum to one or when some c_i deviates from its row sum.", "quantifier": "every matrix and vectors", "why_tests_cant": "inputs are unbounded", "anchors": ["src/rkopenmdao/butcher_tableau.py::ButcherTableau.__init__"]}
{"id": "C29", "title": "Shipped methods integrate polynomials exactly up to their order", "statement": "For each exactly representable shipped tableau of declared order p, one step on y' = q(t) with any polynomial q of degree < p reproduces y(t+h) exactly, for every t, h and start value; the shipped tableaux satisfy all order conditions of trees up to their declared order (up to the precision of the printed decimals), and embedded weights those of their declared order.", "quantifier": "all shipped tableaux; all polynomials, times and step sizes", "why_tests_cant": "tests check order conditions numerically with tolerance and only sampled ODEs", "anchors": ["src/rkopenmdao/butcher_tableaux.py"]}
{"id": "C30", "title": "Snapshots are independent copies", "statement": "Copying a time-integration state with set() makes every field of the target equal to the source, and later changes to either one do not affect the other.", "quantifier": "all states, all later modifications", "why_tests_cant": "aliasing shows only in particular histories", "anchors": ["src/rkopenmdao/time_integration_state.py::TimeIntegrationState.set", "src/rkopenmdao/time_discretization/runge_kutta_discretization_state.py::RungeKuttaDiscretizationState.set"]}
{"id": "C31", "title": "State dictionaries round-trip", "statement": "from_dict(to_dict(s)) yields a state equal to s for discretization states, embedded discretization states and time integration states.", "quantifier": "all states", "why_tests_cant": "there is no test; must hold for every state", "anchors": ["src/rkopenmdao/time_discretization/runge_kutta_discretization_state.py::from_dict", "src/rkopenmdao/time_integration_state.py::from_dict"]}
{"id": "C32", "title": "Snapshot buffers of the recomputing checkpointer are sized and restored correctly", "statement": "The reported snapshot size equals the number of scalars handed out, empty arrays are skipped consistently on save and load, and save followed by load restores every array.", "quantifier": "all states and array sizes", "why_tests_cant": "array sizes are unbounded", "anchors": ["src/rkopenmdao/checkpoint_interface/runge_kutta_integrator_pyrevolve_classes.py::RungeKuttaIntegratorCheckpoint"]}
{"id": "C33", "title": "Callbacks bracket every step in order", "statement": "In a forward run each step n = 1..N calls every callback's before hook in list order, performs the step, then every after hook in list order; a reverse sweep does the same with n = N..1; no hook is called otherwise, and hooks see the state before and after that step.", "quantifier": "every number of steps, callbacks and step function", "why_tests_cant": "unbounded runs", "anchors": ["src/rkopenmdao/runge_kutta_integrator.py::_run_step", "src/rkopenmdao/runge_kutta_integrator.py::_run_step_jacvec_rev", "src/rkopenmdao/callback.py"]}
{"id": "C34", "title": "Result file holds exactly the requested steps", "statement": "After a run of N >= 1 steps with write period w the result file contains exactly step 0 and the multiples of w up to N, each with the time and state at that step; earlier contents of the file are gone. No group exists without its data.", "quantifier": "every N, w >= 1, trajectory and previous file contents; every crash point for the last sentence", "why_tests_cant": "tests use few steps and no crash", "anchors": ["src/rkopenmdao/file_writer.py::OpenMDAOHDF5Callback"]}
{"id": "C35", "title": "Distributed result datasets are written without gaps or overlaps", "statement": "For variables distributed over processes along their first axis the written index ranges of the processes are disjoint, cover the dataset, and each covers exactly the local portion.", "quantifier": "every shape, number of processes and row partition", "why_tests_cant": "MPI layouts are unbounded", "anchors": ["src/rkopenmdao/file_writer.py::OpenMDAOHDF5Callback.get_write_indices"]}
{"id": "C36", "title": "Distributed norm equals the norm of the assembled vector", "statement": "compute_state_norm returns on every process the norm of the given order of the concatenation of all included quantities over all processes, counting replicated quantities once.", "quantifier": "every order (2, inf, -inf, general p>0), vector, partition over processes and set of excluded quantities", "why_tests_cant": "partitions are unbounded", "anchors": ["src/rkopenmdao/discretized_ode/openmdao_ode.py::OpenMDAOODE.compute_state_norm"]}
{"id": "C37", "title": "All processes take the same decisions", "statement": "In adaptive runs on several processes every process accepts, rejects and stops at the same trials with the same step sizes, so collective calls stay matched.", "quantifier": "every number of processes and distribution of the state", "why_tests_cant": "schedules and partitions unbounded", "anchors": ["src/rkopenmdao/discretized_ode/openmdao_ode.py::compute_state_norm", "src/rkopenmdao/runge_kutta_integrator.py::_iterate_on_step"]}
{"id": "C38", "title": "Error measures are sound", "statement": "The simple measure is the norm of the error estimate. The improved measure is nonnegative, never exceeds norm(error)*eps/eta, is below norm(error)/norm(state), and increases with the norm of the error.", "quantifier": "all norms, eta >= 0, eps > 0", "why_tests_cant": "real-number quantification", "anchors": ["src/rkopenmdao/error_measurer.py"]}
{"id": "C39", "title": "Derivative and adjoint of the OpenMDAO-backed ODE are transposes", "statement": "If the stage problem's linear solver solves with a matrix in fwd mode and with its transpose in rev mode, and the quantities' sources are distinct, the OpenMDAO-backed ODE's update derivative and adjoint derivative are transposes of each other.", "quantifier": "every linear stage problem, layout and vectors", "why_tests_cant": "all vectors", "anchors": ["src/rkopenmdao/discretized_ode/openmdao_ode.py::compute_update_derivative", "src/rkopenmdao/discretized_ode/openmdao_ode.py::compute_update_adjoint_derivative"]}
{"id": "C40", "title": "Linearization points are saved and restored completely", "statement": "Exporting the linearization point and importing it again later restores inputs and outputs of the stage problem exactly, whatever was computed in between.", "quantifier": "all stage problems and intermediate computations", "why_tests_cant": "histories", "anchors": ["src/rkopenmdao/discretized_ode/openmdao_ode.py::set_linearization_point", "src/rkopenmdao/discretized_ode/openmdao_ode.py::export_linearization"]}
{"id": "C41", "title": "Stage value and stage update components are inverse and correctly differentiated", "statement": "The component computing a stage value from a stage update and the one computing the update from the value are inverse to each other, and their fwd and rev products are transposed derivatives.", "quantifier": "all step sizes and stage factors with nonzero product, all vectors", "why_tests_cant": "all reals", "anchors": ["src/rkopenmdao/utils/utility_components.py"]}
{"id": "C42", "title": "Built-in linear ODE components solve their stage equation", "statement": "SimpleLinearODE and ProtheroRobinsonODE return a stage update k with k = f(t, y_old + h*acc + h*a*k), and their fwd/rev products are the transposed derivatives.", "quantifier": "all inputs with nonsingular stage equation", "why_tests_cant": "all reals", "anchors": ["src/rkopenmdao/odes/simple_linear_ode.py", "src/rkopenmdao/odes/prothero_robinson_ode.py"]}
{"id": "C43", "title": "Kaps components solve their stage equation and linearization", "statement": "solve_nonlinear of each Kaps component zeroes apply_nonlinear; solve_linear inverts apply_linear with respect to the outputs in fwd mode, and its transpose in rev mode.", "quantifier": "all inputs with real solution and nonsingular linearization", "why_tests_cant": "all reals", "anchors": ["src/rkopenmdao/odes/kaps.py"]}
{"id": "C44", "title": "Analytical reference solutions solve their ODEs", "statement": "The reference solutions shipped with the ODEs satisfy the initial condition and differential equation for the initial values passed in.", "quantifier": "all times, initial times and initial values", "why_tests_cant": "all reals", "anchors": ["src/rkopenmdao/odes/kaps.py::kaps_solution", "src/rkopenmdao/odes/prothero_robinson_ode.py::solution", "src/rkopenmdao/odes/simple_linear_ode.py::solution"]}
{"id": "C45", "title": "Embedded error estimate", "statement": "With an embedded tableau the error estimate after a step is the difference between the step of the main method and the step of the embedded method from the same start, i.e. h*sum_i (b_i - bhat_i) k_i, and the main result equals that of the non-embedded method.", "quantifier": "every embedded tableau, ODE, state", "why_tests_cant": "all tableaux", "anchors": ["src/rkopenmdao/time_discretization/stage_ordered_runge_kutta_discretization.py::compute_error_estimate", "src/rkopenmdao/butcher_tableau.py::EmbeddedButcherTableau.main_method", "src/rkopenmdao/butcher_tableau.py::EmbeddedButcherTableau.embedded_method"]}
{"id": "C46", "title": "compute is repeatable", "statement": "Calling compute twice with the same inputs gives the same outputs, whatever was run in between on the same component.", "quantifier": "every history of compute and product calls, every controller configuration", "why_tests_cant": "histories", "anchors": ["src/rkopenmdao/runge_kutta_integrator.py::compute", "src/rkopenmdao/runge_kutta_integrator.py::_reset_error_control", "src/rkopenmdao/error_controller.py::ErrorControllerDecorator"]}
{"id": "C47", "title": "Fixed-step runs to a prescribed final time", "statement": "With fixed step h > 0 and final time T, the run ends after the smallest number of steps n with t0 + n*h >= T; if t0 <= T, time_final lies in [T, T+h), and if t0 >= T no step is made. With a prescribed number n of steps exactly n steps are made. If every single step returns, so does the run.", "quantifier": "every t0, T, h, n", "why_tests_cant": "all reals", "anchors": ["src/rkopenmdao/termination_criterion.py", "src/rkopenmdao/runge_kutta_integrator.py::compute"]}
{"id": "C48", "title": "Unknown results are not reported as zero after adaptive steps", "statement": "After an accepted adaptive step the embedded solution and the error estimate visible in the integration state belong to that step.", "quantifier": "every embedded tableau, ODE and step", "why_tests_cant": "no test reads these fields from the live state after a step", "anchors": ["src/rkopenmdao/time_discretization/runge_kutta_discretization_state.py::EmbeddedRungeKuttaDiscretizationState", "src/rkopenmdao/runge_kutta_integrator.py::_iterate_on_step"]}
{"id": "C49", "title": "An error measure of nan is reported", "statement": "If the error measure of a trial step is nan and the step is not accepted by size, the run ends with an error of the error controller instead of repeating the trial without end.", "quantifier": "every controller chain whose members react to the error measure, every ODE, step size, bound and time", "why_tests_cant": "no test produces a nan error measure; endless repetition cannot be observed by running", "anchors": ["src/rkopenmdao/error_controller.py::ErrorController._run", "src/rkopenmdao/error_controller.py::ErrorController.__call__", "src/rkopenmdao/runge_kutta_integrator.py::_iterate_on_step"]}
{"id": "C50", "title": "Global index ranges of a distributed quantity partition the whole", "statement": "For every quantity whose portions together make up the whole variable, the global index ranges the processes hold for it cover the global array without gap or overlap and each has the length of the local portion; a quantity is marked distributed on all processes exactly if some process does not hold all of it.", "quantifier": "every stage problem, number of processes and distribution, for time-integration quantities and independent inputs", "why_tests_cant": "MPI tests run with one or two processes and one splitting; they never check the ranges of distributed independent inputs", "anchors": ["src/rkopenmdao/metadata_extractor.py::_create_local_array_metadata", "src/rkopenmdao/metadata_extractor.py::add_distributivity_information"]}
{"id": "C51", "title": "Catalogue controllers filter and predict as their names say", "statement": "A controller whose filter order (last digit of its H name) is at least 1 ignores errors that alternate between r*tol and tol/r at constant step size (it suggests safety*h), one of filter order 2 also ignores geometrically growing alternation; one of adaptivity order (middle digit) 2 continues a geometric trend of accepted steps (suggests safety*rho*h when errors are at the tolerance and the steps grew by rho), one of order 3 continues a geometrically changing growth factor.", "quantifier": "every controller of the catalogue including the general ones with free coefficients, every order p > 0, tolerance, safety factor, step size, r, rho", "why_tests_cant": "identities in real exponents for all histories", "anchors": ["src/rkopenmdao/error_controllers.py", "src/rkopenmdao/error_controller.py::ErrorController._estimate_next_step_function"]}
{"id": "C52", "title": "After an accepted step a nested controller starts afresh", "statement": "After every accepted step a chain of nested controllers behaves as it did when it was built: the next step is again first given to the first controller of the list, and its answer is used if it accepts or shrinks the step.", "quantifier": "every chain length, every history of accepted and rejected calls, max_iter >= 1", "why_tests_cant": "internal flags and counters depend on unbounded call histories", "anchors": ["src/rkopenmdao/error_controller.py::ErrorControllerDecorator.__call__", "src/rkopenmdao/error_controller.py::ErrorControllerDecorator._run"]}
{"id": "C53", "title": "Calls of the OpenMDAO-backed ODE do not depend on earlier calls", "statement": "If the stage problem's solves do not depend on their starting guesses, the results of compute_update, compute_update_derivative and compute_update_adjoint_derivative depend on their arguments only, whatever calls (with whatever values, including non-finite ones) were made before on the same OpenMDAOODE.", "quantifier": "every stage problem, every history of calls, all arguments", "why_tests_cant": "histories are unbounded", "anchors": ["src/rkopenmdao/discretized_ode/openmdao_ode.py::compute_update", "src/rkopenmdao/discretized_ode/openmdao_ode.py::compute_update_derivative", "src/rkopenmdao/discretized_ode/openmdao_ode.py::compute_update_adjoint_derivative"]}
{"id": "C54", "title": "The last local error is that of the last recorded step", "statement": "read_last_local_error of the file of a finished run returns the error measure of the last step that was written out: the greatest multiple of the write period that is not greater than the number of steps, and 0 (step 0) if no step was written. For a scheme without error estimate it raises KeyError.", "quantifier": "every number of steps, write period and trajectory", "why_tests_cant": "step names are compared as numbers, not strings, which only matters beyond nine steps; periods and lengths are unbounded", "anchors": ["src/rkopenmdao/file_writer.py::read_last_local_error"]}
{"id": "C55", "title": "Reading a result file returns what was recorded, with errors against the given solution", "statement": "read_hdf5_file returns, under the numbers of the recorded steps, the times and the values of the requested quantities as written, and for each the absolute difference between the analytical solution for the recorded initial values and the recorded value.", "quantifier": "every file of a finished run, every list of recorded quantities, every solution function", "why_tests_cant": "needs several coupled quantities with different initial values, and files of any length", "anchors": ["src/rkopenmdao/file_writer.py::read_hdf5_file"]}
{"id": "C56", "title": "Fixed-step runs to a final time make the expected number of steps in double precision", "statement": "With fixed step h and final time T = time_initial + n*h as decimal numbers, a run in double precision makes n steps and reports a time_final that differs from T by rounding only.", "quantifier": "every h, n, T and ODE, in IEEE binary64 arithmetic", "why_tests_cant": "tests use a few step sizes, and mostly a prescribed number of steps; whether rounding hits depends on the numbers", "anchors": ["src/rkopenmdao/termination_criterion.py::PredefinedFinalTime", "src/rkopenmdao/checkpoint_interface/no_checkpointer.py", "src/rkopenmdao/checkpoint_interface/all_checkpointer.py"]}
{"id": "C57", "title": "A whole run is the composition of Runge-Kutta steps", "statement": "For every call of compute that returns, the returned final state is exactly what the Runge-Kutta equations of the chosen scheme give when applied step after step, from the given initial state and time, with the step sizes the callbacks observe; time_final is the initial time plus their sum. In fixed-step runs all of them are the configured step size. The same holds with the recomputing checkpointer and for the trajectory a forward product follows.", "quantifier": "every scheme without entries above the diagonal, every ODE whose update solves the stage equation, every history of earlier calls, inputs, step controller and number of steps", "why_tests_cant": "tests compare a few problems with known solutions up to a tolerance; a wrong stage time, weight or carry-over between steps of higher order in the step size hides below it", "anchors": ["src/rkopenmdao/runge_kutta_integrator.py::compute", "src/rkopenmdao/runge_kutta_integrator.py::_iterate_on_step", "src/rkopenmdao/time_discretization/stage_ordered_runge_kutta_discretization.py::compute_step"]}
{"id": "C58", "title": "Runs approximate the solution of the ODE and converge to it", "statement": "For an ODE with Lipschitz continuous right-hand side and a scheme whose weights sum to one, the values returned by compute differ from the solution at time_final by at most an explicit bound, proportional to the largest step size used (plus the error of the initial values); hence fixed-step runs to a given time come arbitrarily close to the solution if the number of steps is large enough.", "quantifier": "every Lipschitz ODE of any dimension and its solution, every consistent scheme including diagonally implicit ones, every choice of step sizes (fixed or adaptive) small enough for the stage equations, every earlier history of calls", "why_tests_cant": "convergence is a statement about infinitely many runs; tests look at a few step sizes for a few right-hand sides", "anchors": ["src/rkopenmdao/runge_kutta_integrator.py::compute", "src/rkopenmdao/runge_kutta_integrator.py::_iterate_on_step", "src/rkopenmdao/time_discretization/stage_ordered_runge_kutta_discretization.py::compute_step"]}
{"id": "C59", "title": "The component computes on its named variables", "statement": "Calls of the integrator component read the initial time, the initial values <quantity>_initial and the independent inputs by name, do the run for these values, and put time_final and every <quantity>_final into the output vector by name, whatever it held before; exceptions of the run are passed on. If the stage problem implements y' = f(t, p, y) by name, the named outputs are the result of Runge-Kutta steps for f from the named inputs.", "quantifier": "every set of tagged variables, shapes, sizes and number of processes, every arithmetic (for the transfers), every history of earlier calls, every scheme and stage problem", "why_tests_cant": "tests check one or two quantities with equal or scalar shapes; a wrong offset, name or leftover value shows only for particular layouts and histories", "anchors": ["src/rkopenmdao/runge_kutta_integrator.py::compute", "src/rkopenmdao/runge_kutta_integrator.py::_compute_preparation_phase", "src/rkopenmdao/runge_kutta_integrator.py::_compute_jacvec_product_fwd", "src/rkopenmdao/runge_kutta_integrator.py::_compute_jacvec_product_rev", "src/rkopenmdao/runge_kutta_integrator.py::_to_numpy_array_time_integration", "src/rkopenmdao/runge_kutta_integrator.py::_from_numpy_array_time_integration"]}
{"id": "C60", "title": "Forward and reverse products are transposes as products of named vectors", "statement": "With vectors of all declared variables and zeros in the result vectors: the inner product of d_outputs with the forward product of d_inputs equals the inner product of the reverse product of d_outputs with d_inputs, entry by entry over all names including the times, also for adaptive runs and after any earlier calls.", "quantifier": "every component whose stage problem has transposed linear solves, every layout, input, seed and weight vector, every two histories of calls", "why_tests_cant": "check_partials compares single entries at one point within a tolerance", "anchors": ["src/rkopenmdao/runge_kutta_integrator.py::compute_jacvec_product", "src/rkopenmdao/runge_kutta_integrator.py::_compute_jacvec_product_fwd", "src/rkopenmdao/runge_kutta_integrator.py::_compute_jacvec_product_rev"]}
{"id": "C61", "title": "The forward product is the derivative of compute on named variables", "statement": "If the named inputs of the component move differentiably, the named outputs of compute move with the velocity which compute_jacvec_product puts into a zero d_outputs for the input velocity as d_inputs, for runs with a fixed number of steps.", "quantifier": "every differentiable stage problem, layout, curve of inputs, scheme, number of steps and history of calls", "why_tests_cant": "finite differences or complex step test single directions up to truncation", "anchors": ["src/rkopenmdao/runge_kutta_integrator.py::compute", "src/rkopenmdao/runge_kutta_integrator.py::_compute_jacvec_product_fwd"]}
{"id": "C62", "title": "Products are added to the vectors passed in", "statement": "compute_jacvec_product adds the product to d_outputs (fwd) or d_inputs (rev), as OpenMDAO prescribes for matrix-free components and as the package's own ODE components do.", "quantifier": "every component, inputs, seeds, and every content of the vectors passed in", "why_tests_cant": "the vectors are zero whenever OpenMDAO calls through its usual path, so tests never see the difference", "anchors": ["src/rkopenmdao/runge_kutta_integrator.py::_compute_jacvec_product_fwd", "src/rkopenmdao/runge_kutta_integrator.py::_compute_jacvec_product_rev", "src/rkopenmdao/runge_kutta_integrator.py::_from_numpy_array_time_integration", "src/rkopenmdao/runge_kutta_integrator.py::_from_numpy_array_independent_input"]}
{"id": "C63", "title": "Products work for vectors with only the relevant variables", "statement": "compute_jacvec_product returns the product also if d_inputs has only some of the declared inputs (those relevant for the derivative at hand), treating the missing ones as constant, as the package's own ODE components do by asking for each name first.", "quantifier": "every component and every proper subset of the declared inputs", "why_tests_cant": "test models always make every input relevant", "anchors": ["src/rkopenmdao/runge_kutta_integrator.py::_compute_jacvec_fwd_preparation_phase", "src/rkopenmdao/runge_kutta_integrator.py::_compute_jacvec_product_rev"]}
{"id": "C64", "title": "Runs converge with the order of the scheme", "statement": "If the coefficients of a scheme meet the order conditions up to order p within eps and the nodes are the row sums of the matrix within nu (or the ODE does not depend on time), there are constants K, H > 0 for the ODE such that every run with steps of at most h <= H, whatever else is configured, ends within K*(d + h^p + nu + eps) of the exact solution, d being the error of the initial values; in particular n equal steps give an error of at most K*(1/n)^p for exact coefficients. This holds with the stated order p for every shipped tableau.", "quantifier": "every scheme, every (nonlinear, time-dependent) ODE with a Lipschitz right hand side that is p times differentiable along its solution, every configuration of the integrator, number and sizes of steps and history of calls", "why_tests_cant": "convergence studies observe slopes for a handful of steps and one or two test problems; linear test problems do not even see most order conditions", "anchors": ["src/rkopenmdao/runge_kutta_integrator.py::compute", "src/rkopenmdao/time_discretization/stage_ordered_runge_kutta_discretization.py::_accumulate_stages", "src/rkopenmdao/time_discretization/stage_ordered_runge_kutta_discretization.py::_accumulate_step", "src/rkopenmdao/butcher_tableaux.py", "src/rkopenmdao/butcher_tableau.py"]}
{"id": "C65", "title": "The error estimate has the order of the weaker method", "statement": "For an embedded scheme whose two methods meet the order conditions up to order p, the error estimate of a step of size h from a state within d of the solution is at most h*K*(h^p + d + nu + eps) in every entry, for all h up to some H > 0. This holds for every shipped embedded tableau with p the smaller of the two stated orders.", "quantifier": "every embedded scheme, every ODE with a Lipschitz right hand side that is p times differentiable along its solution, every state next to the solution and every step size up to H", "why_tests_cant": "tests look at the estimate of a few steps; a wrong embedded weight can leave the estimate plausible for one problem and step size", "anchors": ["src/rkopenmdao/time_discretization/stage_ordered_runge_kutta_discretization.py::_accumulate_embedded_step", "src/rkopenmdao/butcher_tableaux.py", "src/rkopenmdao/butcher_tableau.py"]}
{"id": "C66", "title": "SimpleLinearODE end to end", "statement": "With SimpleLinearODE (y' = -y) as stage problem and n fixed steps of size h of a scheme whose stage solves are regular (1 + h*a_ii != 0), compute sets time_final to time_initial + n*h and y_final to R(-h)^n * y_initial, where R is the stability function of the scheme, which exists and is unique; compute_jacvec_product in forward mode maps (dt, dy) to (dt, R(-h)^n * dy) and in reverse mode, after compute, maps (wt, wy) to (wt, R(-h)^n * wy).", "quantifier": "every explicit or diagonally implicit tableau, step size with regular stage solves, number of steps, start time, initial value, perturbation, and history of earlier calls", "why_tests_cant": "tests compare a few tableaux and step sizes with the exponential within a tolerance; the exact value for all tableaux, step sizes and numbers of steps is out of reach", "anchors": ["src/rkopenmdao/odes/simple_linear_ode.py", "src/rkopenmdao/discretized_ode/openmdao_ode.py", "src/rkopenmdao/metadata_extractor.py", "src/rkopenmdao/runge_kutta_integrator.py::compute", "src/rkopenmdao/runge_kutta_integrator.py::compute_jacvec_product"]}
{"id": "C67", "title": "The shipped test problems are solved with the order of the scheme", "statement": "For every shipped tableau of order p there are K and N such that compute with n >= N equal steps from t0 to t1 returns time_final = t1 and a value within K*(h^p + nu + eps) of the exact solution, for SimpleLinearODE with any initial value and for ProtheroRobinson with any lambda and any initial value; nu and eps bound the rounding of the printed coefficients and vanish for exactly printed ones.", "quantifier": "every shipped tableau, every interval, initial value and lambda, all n from some N on, every configuration with fixed steps and every history of calls", "why_tests_cant": "a convergence study measures slopes for a handful of step sizes; it cannot exclude that some stiffness, interval or tableau behaves differently, nor that a run fails", "anchors": ["src/rkopenmdao/odes/simple_linear_ode.py", "src/rkopenmdao/odes/prothero_robinson_ode.py", "src/rkopenmdao/butcher_tableaux.py", "src/rkopenmdao/discretized_ode/openmdao_ode.py", "src/rkopenmdao/runge_kutta_integrator.py::compute", "src/rkopenmdao/utils/problems.py::execute"]}
{"id": "C68", "title": "Derivative products for ProtheroRobinson", "statement": "With ProtheroRobinson as stage problem, compute_jacvec_product returns the derivative of the outputs with respect to the initial value.", "quantifier": "every lambda, tableau, step size, number of steps and history of calls", "why_tests_cant": "only tests that check these derivatives against differences would notice, and the component is used for convergence studies only", "anchors": ["src/rkopenmdao/odes/prothero_robinson_ode.py", "src/rkopenmdao/discretized_ode/openmdao_ode.py", "src/rkopenmdao/runge_kutta_integrator.py::compute_jacvec_product"]}
{"id": "C69", "title": "Calls return whenever the stage solves do", "statement": "If the stage solves of the ODE and their linear solves succeed for the step size and all diagonal entries of the tableau, then with fixed steps compute and the forward product return for all inputs of the right sizes, and so does the reverse product after compute with the same inputs (checkpointer that stores everything); the integrator itself adds no failure.", "quantifier": "every ODE, tableau, fixed step size, termination criterion, history of calls and inputs of the right sizes", "why_tests_cant": "tests show that some configurations run; an exception raised by the integrator for some sizes or history would go unnoticed", "anchors": ["src/rkopenmdao/runge_kutta_integrator.py::compute", "src/rkopenmdao/runge_kutta_integrator.py::compute_jacvec_product", "src/rkopenmdao/time_discretization/stage_ordered_runge_kutta_discretization.py", "src/rkopenmdao/checkpoint_interface/all_checkpointer.py"]}
{"id": "C70", "title": "Every run of a study has its own file", "statement": "get_file_path accepts the types \"adaptive\", \"avg_homogeneous\" and floats and raises ValueError otherwise; the file is folder/kind/name.h5 with a name free of blanks, commas and capitals; runs with different tableaux, kinds or step sizes have different files.", "quantifier": "all folders, tableau names, kinds and positive step sizes", "why_tests_cant": "collisions need particular pairs of names or step sizes; nothing fails when one run silently replaces the file of another", "anchors": ["src/rkopenmdao/utils/problems.py::get_file_path", "src/rkopenmdao/butcher_tableaux.py"]}
{"id": "C71", "title": "Tolerance from earlier runs", "statement": "After runs with every step size of the problem, compute_tolerance returns the mean of the last local errors of these runs; if a file is missing it returns 1e-6.", "quantifier": "all problems, lists of step sizes, errors of the runs and states of the file system", "why_tests_cant": "tests use one list of step sizes; that two runs share a file shows only in the value of the mean", "anchors": ["src/rkopenmdao/utils/problems.py::compute_tolerance", "src/rkopenmdao/file_writer.py::read_last_local_error", "examples/convergence_study/integration_scripts/homogeneous.py"]}
{"id": "C72", "title": "Directories for output files", "statement": "generate_path returns the path it is given; afterwards the directory of a result file or figure exists, no other directory was made, and no process of a parallel run raises.", "quantifier": "all paths, sets of existing directories, numbers of processes and orders of their actions", "why_tests_cant": "the race between processes depends on timing, and tests use paths with a directory", "anchors": ["src/rkopenmdao/utils/problems.py::generate_path"]}
{"id": "C73", "title": "Average step size of an adaptive run", "statement": "The script for averaged runs takes as many steps as the adaptive run took, of the time divided by their number.", "quantifier": "all adaptive runs and their result files with period 1", "why_tests_cant": "scripts are not tested, and one step more or less is not visible in plots", "anchors": ["examples/convergence_study/integration_scripts/avg_homogeneous.py", "src/rkopenmdao/file_writer.py"]}
{"id": "C74", "title": "Number of fixed steps of a study", "statement": "int(time_objective / step_size), evaluated in double precision, is the number of steps that fill the time objective.", "quantifier": "all end times and step sizes with an exact ratio, in double precision", "why_tests_cant": "rounding makes it fail for isolated pairs only", "anchors": ["examples/convergence_study/integration_scripts/homogeneous.py", "src/rkopenmdao/utils/problems.py::prothero_robinson_problem", "src/rkopenmdao/utils/problems.py::kaps_problem"]}
{"id": "C75", "title": "Order of the scheme near the solution, with inexact stage solves", "statement": "If the right hand side is Lipschitz and smooth only in a box around the solution, and each stage solve returns an update that satisfies the stage equation only up to tol, then a run ends within K (d + h^p + tol + defects of the stored coefficients) of the solution, with K independent of the steps, the run and tol.", "quantifier": "all diagonally implicit tableaux of order p, right hand sides, solutions, fixed and adaptive runs, histories of calls, step sizes h and tolerances for which the bound stays below the distance to the sides of the box", "why_tests_cant": "tests run a few problems to a few tolerances; the constant has to hold for all of them", "anchors": ["src/rkopenmdao/runge_kutta_integrator.py", "src/rkopenmdao/discretized_ode/discretized_ode.py"]}
{"id": "C76", "title": "Kaps runs converge with the order of the scheme, down to the solver tolerance", "statement": "Integrating KapsGroup from y_1 = y_2 = 1 at time 0 with any shipped diagonally implicit or explicit tableau, the outputs y_1_final and y_2_final differ from exp(-2t) and exp(-t) by at most K (h^p + tol + defects of the stored coefficients), where tol bounds the residuals the Newton solver of the group leaves.", "quantifier": "all shipped tableaux, epsilon > 0, end times, step counts, Newton solvers that raise unless converged and return moderate updates, histories of calls", "why_tests_cant": "the tests check the derivatives of the components, not that a run solves the ODE", "anchors": ["src/rkopenmdao/odes/kaps.py", "src/rkopenmdao/utils/problems.py::kaps_problem", "src/rkopenmdao/discretized_ode/openmdao_ode.py"]}
{"id": "C77", "title": "Derivatives of Kaps runs", "statement": "With solvers that solve the group exactly, the forward product of the integrator component with KapsGroup is the derivative of the outputs of compute along the direction, and the reverse product is its transpose.", "quantifier": "all fixed step runs, tableaux, epsilon > 0, points, directions and curves through them, histories of calls", "why_tests_cant": "finite difference checks need a tolerance and cover single points of single runs", "anchors": ["src/rkopenmdao/odes/kaps.py", "src/rkopenmdao/discretized_ode/openmdao_ode.py"]}
{"id": "C78", "title": "Derivative products have the order of the scheme", "statement": "With stage solves and linearized stage solves that satisfy their equations only up to tol, a forward product of a run ends within K (d + h^p + tol + defects of the stored coefficients) of the solution of the ODE linearized along the exact solution, and a reverse product pairs with every direction to the same value up to that bound times the size of the weights. K does not depend on the steps, the run or tol.", "quantifier": "all explicit and diagonally implicit tableaux of order p, ODEs that are smooth near a solution, directions (initial state, initial time, independent inputs), fixed and adaptive forward runs, fixed step reverse runs with the all-checkpointer, histories of calls", "why_tests_cant": "derivative tests compare with finite differences of the same discrete run; none compares with the derivative of the exact solution, and the constant has to hold for all step sizes", "anchors": ["src/rkopenmdao/runge_kutta_integrator.py", "src/rkopenmdao/time_discretization/runge_kutta_discretization_state.py"]}
{"id": "C79", "title": "Derivative products of Kaps runs converge to the changes of the solution", "statement": "For KapsGroup integrated from y_1 = y_2 = 1 at time 0 with any shipped explicit or diagonally implicit tableau, the forward products of the integrator component converge to the solution of Kaps' equations linearized along (exp(-2t), exp(-t)) with the order of the scheme, down to the tolerances of the Newton and the linear solver; the reverse products of runs with exact linear solves pair with the direction to the same limit.", "quantifier": "all shipped tableaux, epsilon > 0, end times, step counts, directions, solvers that raise unless converged and return moderate values, histories of calls", "why_tests_cant": "partials are checked at single points; a run that solves another linear equation consistently would pass", "anchors": ["src/rkopenmdao/odes/kaps.py", "src/rkopenmdao/discretized_ode/openmdao_ode.py", "src/rkopenmdao/runge_kutta_integrator.py"]}
{"id": "C80", "title": "Runs in floating point keep the order of the scheme down to the rounding errors", "statement": "In binary floating point with prec digits, with tableau coefficients off by at most dl and stage solves off by at most tol, a run returns finite numbers within K (d + h^p + tol + defects + (2^-prec + dl) / h) of the solution at the time it has reached, and its final time is off by at most K (2^-prec + dl) / h; K does not depend on the precision, the steps or the run. Nothing overflows as long as the format reaches K.", "quantifier": "all binary formats (binary64 among them) and every other arithmetic with a relative error bound, all explicit and diagonally implicit tableaux of order p, smooth ODEs, solvers, step sizes (fixed and adaptive), histories of calls", "why_tests_cant": "convergence tests only see the orders of magnitude where rounding is invisible and one format; the accumulated error of the sums, stage times and stored coefficients over arbitrarily many steps needs a proof", "anchors": ["src/rkopenmdao/runge_kutta_integrator.py", "src/rkopenmdao/time_discretization/stage_ordered_runge_kutta_discretization.py"]}
{"id": "C81", "title": "The shipped tableaux computed in floating point are the tabulated methods", "statement": "Evaluated in binary64 - or any binary format with at least 53 digits, with a power function correct to four units in the last place - the expressions of butcher_tableaux.py construct all 24 tableaux without warnings. Every coefficient is finite and within k 2^-prec of the exact value, k listed per tableau (3 for the explicit Euler method, 1294741 for the five stage ESDIRK scheme of order four). Names, orders and the explicit/diagonally implicit/implicit classification are the exact ones, the computed main and embedded weights satisfy the order conditions up to their claimed order within listed bounds and miss one of the next order by at least 1/1000, and runs with the computed tableaux keep the order of the scheme down to the rounding errors.", "quantifier": "all 24 shipped tableaux, all binary formats with at least 53 digits, all power functions within four units in the last place; for the runs all smooth ODEs, solvers, step sizes and histories of calls", "why_tests_cant": "tests compare with tolerances on one platform whose pow and sqrt are fixed; cancellation in the expressions and the exact comparisons with zero and with row sums depend on every rounding", "anchors": ["src/rkopenmdao/butcher_tableaux.py", "src/rkopenmdao/butcher_tableau.py"]}
{"id": "C82", "title": "Set-up accepts exactly the usable options and resolves them as documented", "statement": "Constructing a component and setting it up returns exactly when at least one error controller is listed, none of them needs further arguments, no further arguments are given, the orders they compute with are known, and the checkpointing options are usable; otherwise it raises TypeError or AttributeError and leaves the dictionaries of the user as they were. The component then runs with the listed controllers nested in the order of the list, all of them for the lesser of the orders of the two methods, with the given configuration or else the default of the first, and starts fresh. Every shipped tableau can be used with every controller.", "quantifier": "all tableaux, lists of controllers, further arguments, configurations, checkpointing options and dictionaries", "why_tests_cant": "tests set up a few combinations; acceptance depends on every combination of list, arguments, known orders and dictionary contents", "anchors": ["src/rkopenmdao/runge_kutta_integrator.py: initialize, setup, _setup_error_controller, _setup_checkpointing", "src/rkopenmdao/error_controllers.py", "src/rkopenmdao/checkpoint_interface/pyrevolve_checkpointer.py"]}
{"id": "C83", "title": "Orders and methods of an embedded tableau are those it was built from", "statement": "Adding weights to a tableau keeps its method and order; it fails exactly for an unknown order (ValueError) and for weights of another number (AssertionError). The main and the embedded method of a tableau have its matrix, nodes and the respective weights and order, and the minimal order is the lesser of the two. An unknown order is reported as such.", "quantifier": "all tableaux, weights, orders and names", "why_tests_cant": "tests use tableaux with known orders", "anchors": ["src/rkopenmdao/butcher_tableau.py: EmbeddedButcherTableau.from_butchertableau, main_method, embedded_method, min_p_order, p, phat"]}
{"id": "C84", "title": "The recomputing checkpointer is set up with the user's options", "statement": "The library is given the options of the user, with storages made from the names in the given order and of the size of a checkpoint, the number of steps less one, the number of checkpoints only where the user left it open, and the state and methods of this integrator. No other dictionary is touched. Setting up again, with other numbers of steps or several integrators with the same options, gives every integrator its own options.", "quantifier": "all revolver types, dictionaries, step counts, sequences of set-ups and integrators", "why_tests_cant": "tests set up one integrator once with a dictionary of its own", "anchors": ["src/rkopenmdao/checkpoint_interface/pyrevolve_checkpointer.py: __post_init__, create_checkpointer, iterate_forward", "src/rkopenmdao/runge_kutta_integrator.py: _setup_checkpointing"]}
{"id": "C85", "title": "The time discretization can be driven by hand", "statement": "Starting the scheme, taking steps of sizes the caller chooses and finalizing gives the Runge-Kutta solution after these steps and the time they cover. The derivative calls made along the kept states give the derivative of that result with respect to initial time, values and independent inputs, linearly in the perturbation; the adjoint calls made backwards give its transpose. The integrator component returns what such a loop over its own step sizes returns.", "quantifier": "all tableaux without entries above the diagonal (derivatives: all tableaux), ODEs, numbers of steps, step sizes of any sign, initial data, perturbations and weights; the comparison with the component for every scalar type, controller and termination, without recomputation", "why_tests_cant": "tests drive a few steps of equal size for chosen tableaux and ODEs and compare numbers", "anchors": ["src/rkopenmdao/time_discretization/stage_ordered_runge_kutta_discretization.py: starting_scheme, compute_step, finalization_scheme and their derivatives", "src/rkopenmdao/time_discretization/time_discretization_scheme_interface.py"]}
{"id": "C86", "title": "Derivative products on several processes neither deadlock nor diverge", "statement": "In every history of compute calls, forward and reverse products made by all processes together, every process is at every moment at the same collective operation as the others (the same stage or linear solve with the same step size, the same reduction, the same callback of the same step), so that no process waits for another for ever, and all calls end with the same exception or none on all processes.", "quantifier": "all numbers of processes, distributions of quantities, tableaux, checkpointers, controllers, histories of calls, answers and failures of the solvers", "why_tests_cant": "tests run single calls on one or two processes with fixed inputs; the decision to recompute depends on the history", "anchors": ["src/rkopenmdao/runge_kutta_integrator.py: _compute_jacvec_product_fwd, _compute_jacvec_product_rev, _compute_jacvec_rev_preparation_phase", "src/rkopenmdao/discretized_ode/openmdao_ode.py: compute_update_derivative, compute_update_adjoint_derivative, compute_state_norm"]}
{"id": "C87", "title": "Non-explicit tableaux damp decaying problems at every step size", "statement": "For y' = -y (SimpleLinearODE) a run with any shipped tableau that is not explicit never makes the value larger, and makes every non-zero value strictly smaller in every step, whatever the step size; the forward and the reverse products shrink perturbations and weights likewise. For the tableaux whose factor vanishes at infinity, n steps of size h leave at most (100/h)^n of the value. Explicit tableaux do not have this.", "quantifier": "all shipped tableaux that are not explicit, all step sizes h > 0, numbers of steps, initial times and values, perturbations and weights", "why_tests_cant": "tests run small step sizes only; a wrong digit in a coefficient can leave the order intact to test precision and make large steps grow", "anchors": ["src/rkopenmdao/butcher_tableaux.py: all tableaux with entries on the diagonal", "src/rkopenmdao/odes/simple_linear_ode.py", "src/rkopenmdao/runge_kutta_integrator.py: compute, compute_jacvec_product"]}
{"id": "C88", "title": "Weak stage orders of the tableaux and errors independent of the stiffness", "statement": "The tableaux named after a weak stage order have it, and no higher one. On ProtheroRobinson with any parameter lambda <= 0 the error of a run is the damped initial error plus at most K (n h (h^p + precision) + h^(q+1)), where p is the order, q the weak stage order and K depends on the tableau only; so the full order p is reached for every lambda when p <= q + 1. The power q + 1 cannot be improved uniformly in lambda.", "quantifier": "all shipped tableaux that are not explicit (the uniform bound: except the implicit midpoint rule, whose factor tends to -1), all lambda <= 0, step sizes h > 0 (full order: h <= 1), numbers of steps, initial times and values", "why_tests_cant": "tests measure the error for one or two values of lambda; order reduction shows only as lambda goes to minus infinity together with h to 0", "anchors": ["src/rkopenmdao/butcher_tableaux.py:335-415", "src/rkopenmdao/butcher_tableaux.py:788-873", "src/rkopenmdao/odes/prothero_robinson_ode.py", "src/rkopenmdao/runge_kutta_integrator.py: compute"]}
{"id": "C89", "title": "Step sizes settle where the error fits the tolerance", "statement": "When the error measure behaves like C h^q (as for smooth problems and small steps), the step sizes an error controller of the catalogue suggests converge to the one at which the error equals the tolerance (reduced by the safety factor) however the first steps were chosen, at a fixed rate, and once near it no step is rejected.", "quantifier": "all controllers of the catalogue with q = p, and with q = p + 1 for p = 1..4 (integral and h0_110: every p); all tolerances, safety factors, constants C > 0, initial step sizes; the controller alone and in the integrator's loop", "why_tests_cant": "tests call a controller once with given history; whether the recurrence of step sizes is stable is a statement about infinitely many calls and depends on all coefficients together", "anchors": ["src/rkopenmdao/error_controllers.py", "src/rkopenmdao/error_controller.py:216-252", "src/rkopenmdao/runge_kutta_integrator.py:393-403", "src/rkopenmdao/runge_kutta_integrator.py:561-637"]}
{"id": "C90", "title": "Exceptions of callbacks are reported, callbacks that return have no influence", "statement": "If a hook of a callback raises in compute or in a derivative product, that call raises the same exception and invokes no further hook; an exception is never swallowed or deferred. Otherwise the outputs, the derivative products and everything later calls depend on are the same as for a component without callbacks, in every history of calls.", "quantifier": "all scalar types, tableaux, ODEs, checkpointers with their schedules, controllers, numbers and kinds of callbacks in the three modes, histories of calls", "why_tests_cant": "tests use callbacks that record, in one mode and with one checkpointer; recomputing checkpointers call the hooks from inside another library's schedule", "anchors": ["src/rkopenmdao/runge_kutta_integrator.py:534-552", "src/rkopenmdao/runge_kutta_integrator.py:733-762", "src/rkopenmdao/runge_kutta_integrator.py:847-875", "src/rkopenmdao/callback.py", "src/rkopenmdao/checkpoint_interface/"]}
{"id": "C91", "title": "Conserved quantities stay constant", "statement": "A linear quantity that the right-hand side does not change (a total mass, say) has the same value at the end of a run as at its start, whatever tableau, step size control and checkpointer, even if stages are solved inexactly; forward products keep it for perturbations, and the reverse product of its weights returns the weights. A quadratic quantity is kept by the shipped implicit midpoint rule, and by every tableau that meets the textbook condition, if stages are solved exactly.", "quantifier": "all weights or symmetric matrices, tableaux, ODEs, controllers, step sizes, histories; reverse products with the checkpointer that keeps all steps; quadratic quantities without recomputing checkpointers", "why_tests_cant": "tests compare with reference solutions within tolerances; a drift below the tolerance, or on other tableaux and problems, goes unnoticed", "anchors": ["src/rkopenmdao/runge_kutta_integrator.py:534-552", "src/rkopenmdao/time_discretization/stage_ordered_runge_kutta_discretization.py", "src/rkopenmdao/butcher_tableaux.py:68-74"]}
{"id": "C92", "title": "Interrupted runs can be continued", "statement": "With fixed step sizes, running n + m steps gives the same outputs as running n steps and then running m steps from the outputs of the first run (initial values and time replaced by final ones, same parameters); the long run returns exactly when both short ones do. Forward products chain the same way. Reverse products chain backwards: the adjoint of the second run's initial values and time is the seed of the first run's reverse product, and the parameters' adjoints of both are added. A run up to a final time can be interrupted at any earlier time.", "quantifier": "all numbers of steps, tableaux, ODEs, inputs, perturbations, histories of the components; any scalar type except the sum of parameter adjoints and the final-time form (real numbers); reverse products on fresh components with the checkpointer that keeps all steps; adaptive runs are excluded, for them it is refuted", "why_tests_cant": "equality with the uninterrupted run concerns every split point, every scheme and every state the component can be in, and holds bit by bit, which tests with tolerances do not see", "anchors": ["src/rkopenmdao/runge_kutta_integrator.py:438-470", "src/rkopenmdao/runge_kutta_integrator.py:534-637", "src/rkopenmdao/runge_kutta_integrator.py:658-880"]}
{"id": "C93", "title": "Runs do not depend on the variables of the ODE", "statement": "If an ODE is written in other variables - states in another order, in other units, linearly combined, measured from another origin, time counted from another origin, other parameters, or without states on which the rest does not depend - a run of the new ODE from the changed inputs returns exactly when the original one does, and its outputs are the changed outputs. With error control this needs a state norm that has the same values in the new variables. If the derivatives of the two ODEs correspond as well, forward products correspond in the same way, and reverse products with weights taken back from the new to the old variables.", "quantifier": "all changes of variables that respect sums, multiples and differences; all tableaux, controllers, criteria, inputs and histories; reordering and leaving out states for every scalar type (also floating point), affine changes over the real numbers; checkpointers that do not recompute", "why_tests_cant": "the statement compares runs of all pairs of related ODEs; reordering must not change a single bit", "anchors": ["src/rkopenmdao/time_discretization/stage_ordered_runge_kutta_discretization.py:53-80", "src/rkopenmdao/time_discretization/stage_ordered_runge_kutta_discretization.py:190-243", "src/rkopenmdao/runge_kutta_integrator.py:438-470", "src/rkopenmdao/runge_kutta_integrator.py:534-637"]}
{"id": "C94", "title": "The default callbacks report every step once, with the time it took", "statement": "Without callback options the first process prints, for a returning compute or forward product of N steps, a start line, an end line and a duration for each of the steps 1..N in order, and for a reverse product those of N..1; other processes print none. The duration of a step is the difference of the two clock readings around that very step, whatever calls were made in between. A compute that raises has reported exactly the completed steps and possibly part of the next one, whose end is reported only if it was made.", "quantifier": "all scalar types, tableaux, ODEs, controllers, criteria, histories of calls and clocks; durations are non-negative and bounded by the time passed for every monotone clock", "why_tests_cant": "unbounded runs, histories and failures; output of prints is not asserted", "anchors": ["src/rkopenmdao/callback.py:79-137", "src/rkopenmdao/runge_kutta_integrator.py:266-289", "src/rkopenmdao/runge_kutta_integrator.py:534-551"]}
