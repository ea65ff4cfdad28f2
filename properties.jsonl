{"id": "C01", "title": "Schedules hold their target from iters_max on and never fail on validated configs", "statement": "For every configuration accepted by SchedulerConfig.from_defaults and turned into a scheduler, once the horizon iters_max is a positive integer, value(it) returns a number for every iteration (None for the 'None' type), the only exception being a SawtoothDecay with num_steps = 0, which raises ValueError, and accelerating/decelerating schedules with a negative curvature, which raise ZeroDivisionError where the base is zero. At and beyond iters_max every schedule returns exactly its target value.", "quantifier": "all accepted configurations, all horizons > 0, all iterations", "why_tests_cant": "the configuration space and iteration range are unbounded", "anchors": ["scikit-topt/sktopt/tools/scheduler.py: SchedulerConfig.from_defaults, Scheduler.from_config, Scheduler.value, schedule_*"]}
{"id": "C02", "title": "Scheduled values stay between the initial and the target value", "statement": "With a positive curvature, every value produced by a Step, StepAccelerating, StepDecelerating or SawtoothDecay schedule at an iteration >= 1 lies in the closed interval spanned by init_value and target_value.", "quantifier": "all init/target reals, step counts, horizons, curvatures > 0, iterations >= 1", "why_tests_cant": "an out-of-range move limit, penalty or volume fraction could occur at any of infinitely many parameter combinations", "anchors": ["scikit-topt/sktopt/tools/scheduler.py: schedule_step, schedule_step_accelerating, schedule_step_decelerating, schedule_sawtooth_decay, Scheduler.value"]}
{"id": "C03", "title": "Continuation schedules are monotone", "statement": "Step, StepAccelerating and StepDecelerating schedules (curvature > 0) move monotonically from init_value towards target_value: for it1 <= it2 the value at it2 lies between the value at it1 and the target.", "quantifier": "all pairs of iterations and all schedule parameters", "why_tests_cant": "needs all pairs of iterations of all schedules", "anchors": ["scikit-topt/sktopt/tools/scheduler.py: Scheduler.value, schedule_step*"]}
{"id": "C04", "title": "A Step schedule has num_steps equal-length plateaus with evenly spaced values", "statement": "For num_steps = n >= 2 and horizon T, value(it) for 0 <= it < T is init + k/(n-1) (target-init), where plateau k collects exactly the iterations with k*T <= it*n < (k+1)*T; each plateau's length is floor(T/n) or floor(T/n)+1, i.e. 'approximately equal'. In IEEE binary64 (num_steps*T <= 2^49) the same holds, except that an iteration with it*n = k*T exactly still belongs to plateau k-1 when the division T/n was rounded up; the first and last values are exact and the others within rounding error.", "quantifier": "all horizons T > 0, all n >= 2, all iterations, all plateaus", "why_tests_cant": "the count of iterations per plateau is a statement about every horizon and step count", "anchors": ["scikit-topt/sktopt/tools/scheduler.py: schedule_step"]}
{"id": "C05", "title": "Curvature orders accelerating, linear and decelerating schedules", "statement": "With curvature 1 the three step schedules coincide; with curvature >= 1 at every iteration the accelerating schedule has progressed at most as far towards the target as the linear one and the decelerating one at least as far; larger curvature makes the accelerating one slower still. The decelerating schedule is the mirror image of the accelerating one.", "quantifier": "all parameters, curvatures >= 1 and iterations", "why_tests_cant": "real-valued exponents cannot be enumerated", "anchors": ["scikit-topt/sktopt/tools/scheduler.py: schedule_step_accelerating, schedule_step_decelerating"]}
{"id": "C06", "title": "SawtoothDecay decays linearly inside each cycle and resets at each cycle start", "statement": "Iterations 1..T are split in num_steps cycles of length T/num_steps; the first iteration of each cycle (when it falls on an integer) returns init_value, inside a cycle the value is the linear interpolation in the elapsed fraction of the cycle, and the value repeats with the cycle. The documented example (values 0.2 at 30 and 0.1 at 60 for 0.3->0.1, 120 iterations, 4 cycles) must follow. In IEEE binary64 the value stays within rounding error of this, except that the first iteration of a cycle returns target_value when T/num_steps was rounded up.", "quantifier": "all horizons, cycle counts, iterations", "why_tests_cant": "periodicity and reset are claims about all iterations", "anchors": ["scikit-topt/sktopt/tools/scheduler.py: schedule_sawtooth_decay, SchedulerSawtoothDecay"]}
{"id": "C07", "title": "SchedulerConfig.from_defaults accepts exactly the documented parameter combinations", "statement": "from_defaults returns a configuration iff the parameters required by the chosen type are present (and, for the *ToOne types, num_steps > 0 and target absent or 1), raises ValueError otherwise including for unknown type names, and the configuration returned carries the given parameters with only the documented fields filled in.", "quantifier": "all combinations of present/absent parameters and all type names", "why_tests_cant": "ten types times all optional fields with unbounded values", "anchors": ["scikit-topt/sktopt/tools/scheduler.py: SchedulerConfig.from_defaults, SchedulerConfig.none/constant/..."]}
{"id": "C08", "title": "*ToOne schedules climb from 1/num_steps to exactly 1", "statement": "For StepToOne, StepAcceleratingToOne and StepDeceleratingToOne the value is in [1/num_steps, 1] at every iteration, never decreases, and is exactly 1 at the end of the horizon; whatever init_value the user supplied is ignored.", "quantifier": "all num_steps >= 1, horizons, curvatures > 0, iterations", "why_tests_cant": "load-scaling continuation must end at the true load for every configuration", "anchors": ["scikit-topt/sktopt/tools/scheduler.py: SchedulerConfig.step_to_one, Scheduler.from_config"]}
{"id": "C09", "title": "Building a scheduler from a config is repeatable and agrees with the dedicated classes", "statement": "Building a Scheduler twice from the same (mutated) config gives the same scheduler; the factories followed by from_config give the same values as the classes SchedulerStep, SchedulerStepToOne, SchedulerStepAccelerating, ... at every iteration.", "quantifier": "all configs and iterations", "why_tests_cant": "aliasing/mutation of the config object over any number of rebuilds", "anchors": ["scikit-topt/sktopt/tools/scheduler.py: Scheduler.from_config, SchedulerStep, SchedulerStepToOne, SchedulerStepAccelerating, SchedulerStepDecelerating, SchedulerSawtoothDecay"]}
{"id": "C10", "title": "A Schedulers collection answers by name, last registration wins", "statement": "After any sequence of registrations and set_iters_max calls, values_as_list(it, names) returns, in the order requested, the value of the most recently registered scheduler of each name, raises KeyError iff some requested name was never registered (when all schedulers evaluate), and set_iters_max makes every registered scheduler use the new horizon and changes nothing else.", "quantifier": "all sequences of registrations, all requested name lists", "why_tests_cant": "arbitrary operation histories", "anchors": ["scikit-topt/sktopt/tools/scheduler.py: Schedulers.values_as_dict, values_as_list, value_on_a_scheduler, set_iters_max, add_object"]}
{"id": "C11", "title": "Exponential schedules start at init, end at target and are monotone", "statement": "schedule_exp_slowdown(0)=init and schedule_exp_slowdown(total)=target, schedule_exp_accelerate(0)=init and schedule_exp_accelerate(total)=target, both monotone and inside [init,target] for rate > 0.", "quantifier": "all rates > 0, init, target, totals and iterations", "why_tests_cant": "transcendental functions over the reals", "anchors": ["scikit-topt/sktopt/tools/scheduler.py: schedule_exp_slowdown, schedule_exp_accelerate"]}
{"id": "C12", "title": "Progress plots place each series in its own existing panel", "statement": "When schedules or histories are exported as pages of at most 8 panels, every series appears on exactly one page in exactly one panel, panel indices are always inside the allocated grid, two series never share a panel, and unused panels are exactly those switched off.", "quantifier": "any number of series", "why_tests_cant": "page arithmetic over every n", "anchors": ["scikit-topt/sktopt/tools/scheduler.py: Schedulers.export", "scikit-topt/sktopt/tools/history.py: HistoryCollection.export_progress"]}
{"id": "C13", "title": "Heaviside projection maps [0,1] into [0,1) with H(0)=0 and is strictly increasing", "statement": "For beta > 0 and 0 <= eta <= 1 the projected density is 0 at 0, is strictly increasing, lies in [0,1] for densities in [0,1], and differs from 1 at density 1 by at most 1e-12 relative to the normaliser.", "quantifier": "all beta > 0, eta in [0,1], rho in [0,1]", "why_tests_cant": "real parameters", "anchors": ["scikit-topt/sktopt/core/projection.py: heaviside_projection, heaviside_projection_inplace"]}
{"id": "C14", "title": "The projection derivative is the derivative", "statement": "heaviside_projection_derivative is the derivative of heaviside_projection with respect to rho at every rho, is positive for beta > 0, and the in-place variants of both functions compute the same numbers as the allocating ones.", "quantifier": "all rho, beta > 0, eta in [0,1]", "why_tests_cant": "a derivative is a limit statement", "anchors": ["scikit-topt/sktopt/core/projection.py: heaviside_projection_derivative, heaviside_projection_derivative_inplace"]}
{"id": "C15", "title": "SIMP sensitivity is consistent with the SIMP interpolation and never positive", "statement": "For densities above 1e-6 dE_drho_simp is the derivative of the interpolated modulus used for analysis, the interpolated modulus lies in [Emin,E0] and increases with density, and dC_drho_simp <= 0 for non-negative element energies.", "quantifier": "all densities, moduli 0 < Emin <= E0, exponents p >= 1, energies >= 0", "why_tests_cant": "derivative and sign over the reals", "anchors": ["scikit-topt/sktopt/core/derivatives.py: _E_simp, dE_drho_simp, dC_drho_simp", "scikit-topt/sktopt/fea/composer.py: simp_interpolation"]}
{"id": "C16", "title": "RAMP sensitivity is consistent with the RAMP interpolation", "statement": "dE_drho_ramp is the derivative of the RAMP interpolated modulus (as its docstring says), is non-negative on [0,1], and dC_drho_ramp <= 0 for non-negative energies; the in-place variants agree.", "quantifier": "all densities in [0,1], p >= 0", "why_tests_cant": "derivative over the reals", "anchors": ["scikit-topt/sktopt/core/derivatives.py: _E_ramp, dE_drho_ramp, dC_drho_ramp, *_inplace", "scikit-topt/sktopt/fea/composer.py: ramp_interpolation"]}
{"id": "C17", "title": "An OC update respects density bounds and the move limit, and never produces NaN for non-positive sensitivities", "statement": "For non-positive sensitivities, whatever multiplier the bisection returns, each new design density is in [rho_min,rho_max] and differs from the old one by at most move_limit; no NaN arises. (With a positive sensitivity and a fractional exponent the update is NaN.)", "quantifier": "all design vectors, sensitivities, filters, multipliers brackets and move limits", "why_tests_cant": "all sizes and values", "anchors": ["scikit-topt/sktopt/core/optimizers/oc.py: bisection_with_physical_volume, OC_Optimizer.rho_update"]}
{"id": "C18", "title": "The OC multiplier bisection terminates and returns mutually consistent results", "statement": "The bisection loop always terminates after at most max_iter+1 volume evaluations, the returned multiplier is inside [lambda_lower, lambda_upper], the densities left in the design buffer are those computed from the returned multiplier, and the returned volume error is the error of exactly these densities.", "quantifier": "all inputs, any filter", "why_tests_cant": "termination of a while-True loop for all inputs", "anchors": ["scikit-topt/sktopt/core/optimizers/oc.py: bisection_with_physical_volume"]}
{"id": "C19", "title": "The OC bisection meets the volume tolerance or pins the multiplier", "statement": "On exit either |volume error| < vol_tol, or the bracket is at most `tolerance` wide (the iteration cap is never the reason with the optimizer's own settings and default bracket); while running, the volume error was positive at the lower bracket end and non-positive at the upper end once these have moved.", "quantifier": "all inputs, all iteration counts", "why_tests_cant": "loop invariants over every run", "anchors": ["scikit-topt/sktopt/core/optimizers/oc.py: bisection_with_physical_volume"]}
{"id": "C20", "title": "The OC candidate density is monotone in the multiplier and in the sensitivity", "statement": "For non-positive sensitivities a larger Lagrange multiplier never increases any candidate density and a more negative sensitivity never decreases it, so with a monotone filter the projected volume is non-increasing in the multiplier.", "quantifier": "all multipliers, densities, sensitivities", "why_tests_cant": "real-valued ordering", "anchors": ["scikit-topt/sktopt/core/optimizers/oc.py: bisection_with_physical_volume"]}
{"id": "C21", "title": "OC design updates are invariant under rescaling of the objective", "statement": "Multiplying all sensitivities of all iterations by the same positive factor leaves every OC design update unchanged as long as the sensitivity scale stays above its floor, because the running scale is multiplied by the same factor.", "quantifier": "all factors > 0, all iteration histories", "why_tests_cant": "history-dependent running scale", "anchors": ["scikit-topt/sktopt/core/optimizers/oc.py: OC_Optimizer.rho_update"]}
{"id": "C22", "title": "The reported KKT residual is the worst stationarity violation over interior elements", "statement": "After each OC update the KKT residual is the maximum of |dC + lambda*scale*dV| over the design elements strictly inside the bounds (by 1e-6) and 0 when none is, hence is below a tolerance iff every interior element satisfies it.", "quantifier": "all vectors", "why_tests_cant": "all sizes and values", "anchors": ["scikit-topt/sktopt/core/optimizers/oc.py: OC_Optimizer.rho_update"]}
{"id": "C23", "title": "A LogMOC update respects the density bounds and the move limit and is a descent step", "statement": "For any Lagrangian gradient, each updated density is in [rho_min,rho_max], differs from the (clipped) old one by at most move_limit, decreases when the gradient is positive and increases when it is negative, and is unchanged when it is zero.", "quantifier": "all densities, gradients, move limits >= 0, bounds 0 < rho_min <= rho_max", "why_tests_cant": "logarithms over the reals", "anchors": ["scikit-topt/sktopt/core/optimizers/logmoc.py: lagrangian_log_update"]}
{"id": "C24", "title": "The LogMOC multiplier stays inside its configured bounds", "statement": "After any history of volume errors the multiplier is within [lambda_lower, lambda_upper]; in 'ema' mode an unclipped multiplier is bounded by the largest penalty seen; in 'augmented' mode it increases while the volume is too large and decreases while it is too small, until clipped.", "quantifier": "all histories of volume errors, both dual update modes", "why_tests_cant": "arbitrary histories", "anchors": ["scikit-topt/sktopt/core/optimizers/logmoc.py: LogMOC_Optimizer.rho_update"]}
{"id": "C25", "title": "An optimizer can be restarted from a checkpoint and continue", "statement": "A LogMOC optimizer constructed with restart=True continues at the iteration after the checkpoint; its first update succeeds like any other; and an OC run interrupted at a checkpoint and restarted produces the same densities as an uninterrupted run.", "quantifier": "all checkpoint iterations", "why_tests_cant": "crash points and process boundaries", "anchors": ["scikit-topt/sktopt/core/optimizers/logmoc.py: LogMOC_Optimizer.__init__, rho_update", "scikit-topt/sktopt/core/optimizers/oc.py: OC_Optimizer.__init__, rho_update", "scikit-topt/sktopt/core/optimizers/common_density.py: initialize_density"]}
{"id": "C26", "title": "Fixed and loaded elements keep density exactly 1 and design densities stay in bounds in every iteration", "statement": "After initialisation and after every iteration of any run, every non-design element and every load-bearing (pinned) element has density exactly 1 and every other design element has density within [rho_min,rho_max].", "quantifier": "all meshes' element sets, all runs, all iterations", "why_tests_cant": "arbitrary run histories", "anchors": ["scikit-topt/sktopt/core/optimizers/common_density.py: initialize_density, _optimize_impl"]}
{"id": "C27", "title": "Running in chunks equals running at once", "statement": "For every sequence of optimize_steps(n_i) calls (any n_i, including non-positive ones) followed by optimize(), densities, iteration counter, completion flag and the recorded histories are those of a single optimize() call; only the set of intermediate checkpoints may be larger.", "quantifier": "all call sequences", "why_tests_cant": "unbounded call schedules", "anchors": ["scikit-topt/sktopt/core/optimizers/common_density.py: optimize, optimize_steps, _optimize_impl"]}
{"id": "C28", "title": "A run performs each iteration once, in order, and stops at max_iters or convergence", "statement": "Over any sequence of optimize/optimize_steps calls the executed iteration numbers are consecutive starting at iter_begin without repetition, never exceed max_iters, at most n are executed per optimize_steps(n), and after completion further calls execute nothing and change nothing.", "quantifier": "all call sequences", "why_tests_cant": "unbounded call schedules", "anchors": ["scikit-topt/sktopt/core/optimizers/common_density.py: _optimize_impl, _ensure_state_initialized, _finalize"]}
{"id": "C29", "title": "Early stop happens exactly when both convergence criteria hold", "statement": "With check_convergence on, the run stops at the first iteration whose density change is below tol_rho_change and whose KKT residual is below tol_kkt_residual (or not finite), and that iteration is checkpointed; with check_convergence off it always runs to max_iters.", "quantifier": "all traces of (density change, residual)", "why_tests_cant": "arbitrary traces", "anchors": ["scikit-topt/sktopt/core/optimizers/common_density.py: _optimize_impl"]}
{"id": "C30", "title": "Checkpoints are written at the documented iterations", "statement": "A run checkpoints at iteration 1, at every multiple of max_iters // record_times, at the last iteration of every chunk and at convergence, and nowhere else; record_times larger than max_iters (or zero) is handled.", "quantifier": "all max_iters, record_times, call schedules", "why_tests_cant": "unbounded parameters", "anchors": ["scikit-topt/sktopt/core/optimizers/common_density.py: _optimize_impl"]}
{"id": "C31", "title": "Restart resumes from the newest checkpoint, whatever was saved when", "statement": "find_latest_iter_file returns the file with the greatest iteration number among checkpoint files in the directory regardless of listing order, the next run starts at that number plus one with exactly the saved design densities; after a crash at any point at most the iterations since the last checkpoint are lost.", "quantifier": "all directory contents and listing orders, all crash points", "why_tests_cant": "all crash points", "anchors": ["scikit-topt/sktopt/core/misc.py: find_latest_iter_file", "scikit-topt/sktopt/core/optimizers/common_density.py: initialize_density"]}
{"id": "C32", "title": "Checkpoint file names round-trip", "statement": "The name written for iteration i parses back to i, and distinct iterations give distinct names.", "quantifier": "all iteration numbers", "why_tests_cant": "all naturals, including those above 999999", "anchors": ["scikit-topt/sktopt/core/misc.py: find_latest_iter_file", "scikit-topt/sktopt/core/optimizers/common_density.py: _optimize_impl"]}
{"id": "C33", "title": "A fresh run does not pick up another run's checkpoints", "statement": "Starting a non-restart run in a used output directory and later restarting it resumes from a checkpoint of that run.", "quantifier": "all directory histories", "why_tests_cant": "arbitrary histories of runs in one directory", "anchors": ["scikit-topt/sktopt/core/optimizers/common_density.py: DensityMethod.__init__, initialize_density"]}
{"id": "C34", "title": "After a failed iteration the optimizer can be called again and continues", "statement": "If an iteration raises (solver failure), the optimizer's iteration counter and histories still describe the state, so that calling optimize again continues with the failed iteration.", "quantifier": "all failure points", "why_tests_cant": "all crash points inside a chunk", "anchors": ["scikit-topt/sktopt/core/optimizers/common_density.py: _optimize_impl"]}
{"id": "C35", "title": "The sensitivity-mode environment variable is restored on every exit", "statement": "OC_Optimizer.optimize and optimize_steps run with SCITOPT_SENSITIVITY_MODE=current and leave the variable exactly as they found it (set or unset), whether they return or raise; other variables are untouched.", "quantifier": "all environments, all outcomes of the body", "why_tests_cant": "all exit paths", "anchors": ["scikit-topt/sktopt/core/optimizers/oc.py: OC_Optimizer._scaled_sensitivity_mode", "scikit-topt/sktopt/core/derivatives.py: _sensitivity_mode"]}
{"id": "C36", "title": "Command-line arguments become a valid configuration", "statement": "args2OC_Config_dict maps every scheduler keyword to a SchedulerConfig with the given init/target/steps, copies every unrelated option unchanged and beta_eta, and succeeds for the parser's own defaults.", "quantifier": "all argument dictionaries", "why_tests_cant": "all dictionaries", "anchors": ["scikit-topt/sktopt/core/misc.py: add_common_arguments, args2OC_Config_dict"]}
{"id": "C37", "title": "A saved configuration can be loaded back and used", "statement": "DensityMethodConfig.import_from(export(cfg)) yields a configuration with which an optimizer can initialise its schedulers, with all plain fields equal.", "quantifier": "all configurations", "why_tests_cant": "all configurations", "anchors": ["scikit-topt/sktopt/core/optimizers/common_density.py: DensityMethodConfig.export, import_from, init_schedulers"]}
{"id": "C38", "title": "Histories are append-only and latest returns the last fed entry", "statement": "Feeding a series appends exactly one entry to that series and leaves all other series unchanged; latest(name) returns the last entry, raises KeyError for unknown names and ValueError for empty series.", "quantifier": "all sequences of add/feed operations", "why_tests_cant": "arbitrary operation histories", "anchors": ["scikit-topt/sktopt/tools/history.py: HistoryCollection.add, feed_data, latest, HistorySeries.add, latest"]}
{"id": "C39", "title": "Aggregated entries satisfy min <= mean <= max and std >= 0", "statement": "For every non-empty array fed to an aggregated series the stored entry is [min, mean, max] (plus standard deviation for min-max-mean-std) with min <= mean <= max, std >= 0 and std <= (max-min).", "quantifier": "all non-empty arrays", "why_tests_cant": "all array lengths and values", "anchors": ["scikit-topt/sktopt/tools/history.py: HistorySeries.add"]}
{"id": "C40", "title": "Exporting and importing histories is lossless", "statement": "export_histories followed by import (the code does both in one call) leaves every registered series with the same name, plot type, log flag and data.", "quantifier": "all collections of series and data", "why_tests_cant": "all collections", "anchors": ["scikit-topt/sktopt/tools/history.py: histories_to_array, export_histories, import_histories"]}
{"id": "C41", "title": "The section timer's nesting survives exceptions", "statement": "For every program of nested sections, with or without exceptions escaping any of them, each entered section records exactly one duration under its full path, and after the outermost section exits the nesting stack is exactly what it was before.", "quantifier": "all programs (trees of sections with exceptions)", "why_tests_cant": "all nesting structures and exception points", "anchors": ["scikit-topt/sktopt/tools/timer.py: SectionTimer.section"]}
{"id": "C42", "title": "Timer statistics are exact and self-times partition the total", "statement": "stats reports for each name the count, sum, average and maximum of its durations; with a non-decreasing clock and names free of the separator, the self-times of a hierarchical timer are non-negative and add up to the total time of the top-level sections (no double counting).", "quantifier": "all programs and clocks", "why_tests_cant": "all nesting structures", "anchors": ["scikit-topt/sktopt/tools/timer.py: stats, _self_time_stats, summary_self_time"]}
{"id": "C43", "title": "The running average is the arithmetic mean", "statement": "After any sequence of updates the running average of each name equals the arithmetic mean of the values fed under it since the last reset.", "quantifier": "all update sequences", "why_tests_cant": "arbitrary histories", "anchors": ["scikit-topt/sktopt/tools/timer.py: _update_running_average, reset"]}
{"id": "C44", "title": "Timer summaries are sorted permutations of the statistics", "statement": "summary(sort_by, descending) returns the same entries as stats ordered by the requested key and raises ValueError for any other key.", "quantifier": "all record sets, all keys", "why_tests_cant": "all collections", "anchors": ["scikit-topt/sktopt/tools/timer.py: summary"]}
{"id": "C45", "title": "The spatial filter averages: constants and bounds are preserved, non-design elements untouched", "statement": "For every mesh, design mask and radius > 0 the spatial filter's output on each design element is a convex combination of input densities of design elements within the radius: constants are preserved, outputs stay within the range of inputs, and non-design entries are returned unchanged.", "quantifier": "all geometries, masks, radii, densities", "why_tests_cant": "all sizes", "anchors": ["scikit-topt/sktopt/filters/spacial.py: make_kernel, build_filter_matrix, SpacialFilter.forward"]}
{"id": "C46", "title": "The spatial filter's gradient is the adjoint of its forward map", "statement": "For all vectors u, v: sum over design elements of forward(u)*v = sum over design elements of u*gradient(v); gradient vanishes outside the design region and maps non-positive vectors to non-positive ones.", "quantifier": "all geometries, masks, vectors", "why_tests_cant": "all sizes", "anchors": ["scikit-topt/sktopt/filters/spacial.py: SpacialFilter.forward, SpacialFilter.gradient"]}
{"id": "C47", "title": "The Helmholtz filter preserves constants", "statement": "For every mesh (any stiffness with zero row sums), any radius: filtering a constant density with the nodal Helmholtz filter returns the constant on design elements; nodal averaging keeps values in range.", "quantifier": "all meshes, radii", "why_tests_cant": "all sizes", "anchors": ["scikit-topt/sktopt/filters/helmholtz_filter_nodal.py: element_to_node_density_averaging, HelmholtzFilterNodal.forward"]}
{"id": "C48", "title": "The Helmholtz filter's gradient is the adjoint of its forward map", "statement": "HelmholtzFilterNodal.gradient applies the transpose of the forward filter for sensitivities of any sign.", "quantifier": "all vectors", "why_tests_cant": "all sizes and signs", "anchors": ["scikit-topt/sktopt/filters/helmholtz_filter_nodal.py: HelmholtzFilterNodal.gradient", "scikit-topt/sktopt/core/optimizers/logmoc.py: rho_update"]}
{"id": "C49", "title": "Design and fixed elements partition the mesh and loaded elements are never designed", "statement": "FEMDomain.from_nodes yields design and fixed element sets that are disjoint and together contain every element exactly once; elements touching a load are not design elements (when a load exists); ValueError if the design set would be empty; element order is preserved.", "quantifier": "all meshes and node selections", "why_tests_cant": "all inputs", "anchors": ["scikit-topt/sktopt/mesh/task_common.py: setdiff1d, FEMDomain.from_nodes, exlude_dirichlet_from_design"]}
{"id": "C50", "title": "Element lookup by nodes returns exactly the touching elements, for the mesh given", "statement": "get_elements_by_nodes(mesh, nodes) returns the sorted, duplicate-free list of all elements containing at least one of the nodes, for every sequence of calls with possibly different meshes.", "quantifier": "all meshes, node lists, call histories", "why_tests_cant": "call histories with a hidden cache", "anchors": ["scikit-topt/sktopt/mesh/utils.py: get_elements_by_nodes"]}
{"id": "C51", "title": "Orientation repair yields non-negative tetrahedra and is idempotent", "statement": "After fix_tetrahedron_orientation every tetrahedron has non-negative signed volume of the same magnitude and the same vertex set; running it twice changes nothing more.", "quantifier": "all meshes", "why_tests_cant": "all coordinates", "anchors": ["scikit-topt/sktopt/mesh/utils.py: fix_tetrahedron_orientation, fix_hexahedron_orientation"]}
{"id": "C52", "title": "Element volumes are the geometric volumes", "statement": "get_elements_volume returns the volume of each tetrahedron, and for hexahedra the volume of each cell (for a box: the product of edge lengths).", "quantifier": "all tetrahedra and boxes", "why_tests_cant": "all coordinates", "anchors": ["scikit-topt/sktopt/fea/composer.py: get_elements_volume, _tet/_hex volume functions"]}
{"id": "C53", "title": "Exported sub-meshes keep exactly the solid elements with correct geometry", "statement": "export_submesh writes every non-design element and every design element with density above the threshold and no other; the renumbered connectivity refers to the same coordinates as the original one; vertices are used.", "quantifier": "all meshes, densities, thresholds", "why_tests_cant": "all sizes", "anchors": ["scikit-topt/sktopt/mesh/visualization.py: export_submesh"]}
{"id": "C54", "title": "Scaling a task and unscaling it restores it", "statement": "FEMDomain.scale(1/L,1/F) followed by scale(L,F) restores mesh and loads; scaled tasks keep the number of load cases.", "quantifier": "all tasks", "why_tests_cant": "all tasks and factors", "anchors": ["scikit-topt/sktopt/mesh/task_common.py: scale", "scikit-topt/sktopt/mesh/task_elastic.py: force"]}
{"id": "C55", "title": "Solver options are validated and never silently replaced unless permitted", "statement": "solve_u uses exactly the requested solver; an unknown solver name raises ValueError; a direct solve replaces a failing solver only if fallback was allowed; petsc_spdirect accepts only preonly/lu options; merging PETSc options keeps user entries over defaults.", "quantifier": "all option sets and failure patterns", "why_tests_cant": "all combinations", "anchors": ["scikit-topt/sktopt/fea/solver_elastic.py: solve_u, normalize_linear_solver_config", "scikit-topt/sktopt/fea/solver_petsc.py: merge_petsc_options, normalize_petsc_options, petsc_options_for_solver"]}
{"id": "C56", "title": "Multi-load compliance equals the per-load compliances and scales quadratically with load", "statement": "compute_compliance over several loads returns for each load the value of a single-load analysis, and scaling the force by s multiplies each compliance by s^2.", "quantifier": "all load sets, all scales", "why_tests_cant": "all sizes", "anchors": ["scikit-topt/sktopt/fea/solver_elastic.py: compute_compliance_basis_multi_load, solve_multi_load"]}
{"id": "C57", "title": "Von Mises stress and strain energy density are non-negative and physically consistent", "statement": "von_mises_from_stress is non-negative, zero for hydrostatic states, unchanged by adding hydrostatic stress; the strain energy density is non-negative for positive Lame parameters and zero only for zero strain.", "quantifier": "all stress/strain tensors", "why_tests_cant": "all tensors", "anchors": ["scikit-topt/sktopt/fea/composer.py: von_mises_from_stress_tensor, strain_energy_density"]}
{"id": "C58", "title": "Lame parameters represent the given Young's modulus and Poisson ratio", "statement": "lame_parameters(E, nu) yields (lam, mu) from which E and nu are recovered, with mu > 0 and 3 lam + 2 mu > 0, linear in E; a uniaxial test gives stress E*strain with stress-free sides.", "quantifier": "all E > 0, -1 < nu < 1/2", "why_tests_cant": "all real parameters", "anchors": ["scikit-topt/sktopt/fea/composer.py: lam, mu (46-50)", "scikit-topt/sktopt/fea/solver_elastic.py: strain_energy_skfem"]}
{"id": "C59", "title": "Element strain energies are non-negative and add up to half the compliance", "statement": "For every mesh, density and load, energy_multi_load returns non-negative element energies whose sum is half of the compliance objectives_multi_load reports for that load; the assembled stiffness is symmetric, positive semidefinite, free of rigid-motion energy, and stays solvable for any density as long as E_min > 0.", "quantifier": "all discretisations, densities, loads and exact linear solvers", "why_tests_cant": "all meshes and densities", "anchors": ["scikit-topt/sktopt/fea/composer.py: assemble_stiffness_matrix", "scikit-topt/sktopt/fea/solver_elastic.py: strain_energy_skfem_multi, compute_compliance_basis"]}
{"id": "C60", "title": "Adding material never increases compliance", "statement": "If density rho' >= rho in every element, the compliance computed for rho' is at most the one computed for rho, for the same supports and load; scaling all moduli by s divides it by s.", "quantifier": "all meshes, densities, loads", "why_tests_cant": "an inequality over all density pairs", "anchors": ["scikit-topt/sktopt/fea/solver_elastic.py: FEM_SimpLinearElasticity.objectives_multi_load", "scikit-topt/sktopt/fea/composer.py: simp_interpolation"]}
{"id": "C61", "title": "condition.vtu shows supports, loads and the design region", "statement": "The condition file written at the start of a run colours every node by the strongest condition on it (3 Robin, 2 support, 1 load, 0 none) and every element by its class (3 design, 2 fixed, 1 free), for every set of boundaries; free_elements are the elements with an unprescribed degree of freedom.", "quantifier": "all meshes, boundary sets and design sets", "why_tests_cant": "all boundary and design sets; each boundary may be absent", "anchors": ["scikit-topt/sktopt/mesh/task_common.py: FEMDomain.export_analysis_condition_on_mesh, neumann_nodes_all, from_nodes"]}
{"id": "C62", "title": "The sensitivity handed to the update is the gradient of the reported compliance", "statement": "With SIMP interpolation and without sensitivity filtering, for every well-posed elastic problem, every load set, every density vector and every direction of design change, the compliance the run records is differentiable along that direction (through filter, projection, material law and the solved equilibrium) and its derivative is the inner product of the direction with the sensitivities handed to the density update, provided the projected design densities exceed the 1e-6 floor.", "quantifier": "all problems, loads, filters, scheduled values, densities and directions", "why_tests_cant": "a finite difference test samples a few designs at finite precision; the claim is an identity of functions over all of them", "anchors": ["scikit-topt/sktopt/core/optimizers/common_density.py: _optimize_impl", "scikit-topt/sktopt/fea/solver_elastic.py: objectives_multi_load, energy_multi_load", "scikit-topt/sktopt/core/derivatives.py: dC_drho_simp", "scikit-topt/sktopt/filters/spacial.py: SpacialFilter.gradient"]}
{"id": "C63", "title": "Every iteration meets the volume constraint or pins the multiplier", "statement": "For every accepted OC iteration, the new densities are the OC rule's densities for some multiplier inside the configured bracket, and either the filtered and projected material fraction of the new design is within 1e-4 of the scheduled target, or the multiplier is enclosed in an interval of width at most 1e-5 whose lower end is the bracket's or gives too much material and whose upper end is the bracket's or gives too little. With non-positive sensitivities a larger multiplier never adds material, and if some multiplier of the bracket meets the target exactly the iteration meets the tolerance or returns that multiplier up to 1e-5.", "quantifier": "all tasks with a Neumann boundary, configurations, scheduled values, densities and sensitivities", "why_tests_cant": "the claim is about the final design after filtering, projection and pinning, for every mesh and history; a test sees single designs", "anchors": ["scikit-topt/sktopt/core/optimizers/oc.py: bisection_with_physical_volume, OC_Optimizer.rho_update", "scikit-topt/sktopt/core/optimizers/common_density.py: _optimize_impl"]}
{"id": "C64", "title": "A restart continues from the densities it stored", "statement": "The design densities stored in a checkpoint of a valid state restore the complete density field; everything later iterations compute depends only on that field and on the running sensitivity scale, not on the state of the filter object; so a run stopped after any iteration and restarted from its checkpoint with the same running scale produces exactly the remaining iterations of the uninterrupted run.", "quantifier": "all tasks, configurations, schedules, stop points and filters on the same elements", "why_tests_cant": "every stop point of every run", "anchors": ["scikit-topt/sktopt/core/optimizers/common_density.py: initialize_density, _optimize_impl", "scikit-topt/sktopt/filters/spacial.py: SpacialFilter.forward"]}
{"id": "C65", "title": "The volume gradient in the KKT residual is the gradient of the constrained volume", "statement": "The derivative of the constrained (filtered, projected) volume fraction with respect to the design densities is the volume-gradient vector used in the KKT residual.", "quantifier": "all filters, projections, volumes and designs", "why_tests_cant": "an identity over all designs; the residual is only printed and never compared with a derivative", "anchors": ["scikit-topt/sktopt/core/optimizers/common_density.py: __init__ (_dV_drho_design)", "scikit-topt/sktopt/core/optimizers/oc.py: kkt_residual"]}
{"id": "C66", "title": "Temperatures: prescribed where prescribed, balanced elsewhere", "statement": "For every design with densities in [0,1], every load case of a heat task whose load cases share their Dirichlet nodes gets a temperature field that equals the prescribed value at those nodes and satisfies the weak heat balance (conduction with the interpolated conductivity, exchange at the Robin surfaces and in the interface layer) against every test field vanishing there; the analysis of a sound problem never fails. A single prescribed value is applied at the first node set only. If load cases have different node sets, the matrix of the first one is used for all: the later cases are not held at their prescribed temperature.", "quantifier": "all meshes, node sets, temperatures, Robin surfaces, densities, exact linear solvers", "why_tests_cant": "a statement about every mesh, design and load set; the tests solve one or two cases and never compare temperatures at the nodes of a second load case", "anchors": ["scikit-topt/sktopt/fea/solver_heat.py: solve_heat_system_multi, solve_multi_load, FEM_SimpLinearHeatConduction.objectives_multi_load", "scikit-topt/sktopt/mesh/task_heat.py: LinearHeatConduction.from_facets"]}
{"id": "C67", "title": "Vertex densities are means of the densities around the vertex", "statement": "The vertex densities that define the interface layer lie between the smallest and the largest element density, and a uniform design has uniform vertex densities; but the density given to a vertex is not the mean over the elements around it: which elements are averaged depends on the storage order of the connectivity array, and a vertex of one element only can get the density of another element.", "quantifier": "all connectivity arrays and densities", "why_tests_cant": "all meshes; wrong averages stay within range and keep uniform designs uniform", "anchors": ["scikit-topt/sktopt/fea/solver_heat.py: _rho_nodal_average", "scikit-topt/sktopt/mesh/task_heat.py: assemble_surface_robin"]}
{"id": "C68", "title": "Temperature fields obey the laws of linear heat conduction", "statement": "Temperature fields superpose; the zero point and the unit of the temperature scale do not matter; a body held at ambient temperature is at ambient temperature; on meshes without positive couplings every temperature lies between the prescribed and the ambient temperature.", "quantifier": "all sound problems, load cases, designs", "why_tests_cant": "laws relating analyses for arbitrary data", "anchors": ["scikit-topt/sktopt/fea/solver_heat.py: solve_heat_system_multi, get_robin_virtual"]}
{"id": "C69", "title": "Without a Robin surface there is nothing to optimise", "statement": "If no Robin surface is given, every design is at the prescribed temperature everywhere, the compliance is 0, the temperature objective is the number of vertices times the prescribed temperature, and all reported sensitivities are 0.", "quantifier": "all meshes, temperatures and designs", "why_tests_cant": "all designs", "anchors": ["scikit-topt/sktopt/fea/solver_heat.py: objectives_multi_load, compliance_sensitivity_multi_load", "scikit-topt/sktopt/mesh/task_heat.py: from_facets"]}
{"id": "C70", "title": "The thermal compliance sensitivity is the derivative of the thermal compliance", "statement": "For a single load case held at g in ambient A the derivative of the reported thermal compliance in any direction is the one C70_derivative gives. For g=0 it is the reported sensitivities plus the error made at vertices whose density is not the mean over their elements: the sensitivities are the gradient whenever vertex densities are true means, and for equal changes of all densities on any mesh. Otherwise they are not: two parallel bars give a smaller value; and for uniform designs the derivative is -(g+A)/(g-A) times the sum of the sensitivities (exactly its negative when A=0, wrong sign whenever |g|>|A|).", "quantifier": "all meshes, Robin surfaces, conductivities, exponents, temperatures, densities in [1e-6,1) (uniform or not), directions along which the interface is differentiable", "why_tests_cant": "a limit, for all data; the optimisation runs and converges with the wrong sign too", "anchors": ["scikit-topt/sktopt/fea/solver_heat.py: compliance_sensitivity_multi_load, compute_element_conductive_energy, get_robin_virtual", "scikit-topt/sktopt/core/derivatives.py: dC_drho_simp"]}
{"id": "C71", "title": "Sensitivities belong to the chosen objective and interpolation law", "statement": "The sensitivities reported for the averaged-temperature and the heat-exchange objective are the same, whatever the weight: they are not derivatives of either (in a bar held hotter than the ambient they have the wrong sign for the averaged temperature). With the RAMP law the SIMP slope is still used, which multiplies the sensitivities by the ratio of the two logarithmic slopes.", "quantifier": "all problems, designs, objectives, weights", "why_tests_cant": "a statement about all objectives and designs", "anchors": ["scikit-topt/sktopt/fea/solver_heat.py: compliance_sensitivity_multi_load", "scikit-topt/sktopt/core/optimizers/common_density.py: _optimize_impl"]}
{"id": "C72", "title": "What a heat task accepts and what it does with it", "statement": "design_robin_boundary changes nothing in any analysis; prescribed temperatures must be a float or a list as long as the node sets (an int is rejected, and so is a single node array); coefficients and ambient temperatures must be floats or lists with one entry per surface; a list of several coefficients is accepted when the task is built, but every analysis then fails, unless elements have one integration point or as many as there are surfaces - in which case the coefficient of surface q is applied at integration point q of every element.", "quantifier": "all arguments and designs", "why_tests_cant": "all combinations of argument shapes", "anchors": ["scikit-topt/sktopt/mesh/task_heat.py: from_facets, assemble_surface_robin, update_robin_bc", "scikit-topt/sktopt/fea/solver_heat.py: get_robin_virtual"]}
{"id": "C73", "title": "The heat exchange objective measures the heat exchanged at the interface", "statement": "The reported value is -A*h times the mean excess temperature over the interface, 0 if the interface is smaller than 1e-16; hence 0 for uniform designs, bounded by the temperature range, but 0 for every design in ambient 0 and multiplied by (A+c)/A when the zero of the temperature scale is moved by c. Weighted with the averaged temperature, two or more load cases make the mean of the reported values the constant w-1 for every design.", "quantifier": "all sound problems, load cases, weights, designs", "why_tests_cant": "all designs and temperature scales", "anchors": ["scikit-topt/sktopt/fea/solver_heat.py: heat_exchange_objective, objectives_multi_load"]}
{"id": "C74", "title": "What histories.npz contains after any sequence of runs, interruptions and restarts", "statement": "Within one process every recorder holds one entry per completed iteration, in order, so after any number of completed run / restart sessions histories.npz holds exactly iterations 1..N once each. A process that does not finish its run writes no history: after a restart from a checkpoint its entries are missing although its iterations are not repeated. A completed fresh run replaces the histories of earlier experiments in the directory, but an interrupted one leaves them, and its restart continues them. Restarting from an earlier iteration appends the repeated iterations behind the old ones, and calling optimize again after a caught exception records iterations twice.", "quantifier": "all sequences of processes, run lengths, interruption points and restart points", "why_tests_cant": "ranges over histories of several processes and crash points", "anchors": ["scikit-topt/sktopt/tools/history.py: HistoryCollection.export_histories, import_histories", "scikit-topt/sktopt/core/optimizers/common_density.py: optimize_steps, _ensure_state_initialized, _optimize_impl, _finalize"]}
{"id": "C75", "title": "Boundary tags of a mesh become the boundary conditions of the task", "statement": "from_mesh_tags turns the boundaries neumann_<n> (elastic), dirichlet_<n> and robin_<n> (heat) into regions, each once, in the order of their numbers, whatever the order in the file; the plain tag counts only without numbered ones. If two tags have the same number (1 and 01) the file order decides. Numbered support tags dirichlet_<n> of an elastic task are never recognised: without a plain tag the task cannot be built, with one they are silently ignored. A heat mesh with only the plain tag dirichlet never gives a task.", "quantifier": "all tag dictionaries, facet sets and arguments", "why_tests_cant": "all tag sets and orders", "anchors": ["scikit-topt/sktopt/mesh/task_elastic.py: from_mesh_tags", "scikit-topt/sktopt/mesh/task_heat.py: from_mesh_tags"]}
{"id": "C76", "title": "A surface load has the given resultant, direction and place", "statement": "An elastic task has one load case per load region; case i has resultant exactly the i-th value in the i-th direction and 0 in the others, however the region is divided into facets, and no force on nodes outside region i. The load is proportional to the value and independent of the facet order. The arguments are accepted exactly if there are as many directions and values as regions and every direction is u^1, u^2 or u^3.", "quantifier": "all facet geometries, region lists, directions and values", "why_tests_cant": "all subdivisions of a surface", "anchors": ["scikit-topt/sktopt/mesh/task_elastic.py: assemble_surface_forces, from_facets, from_mesh_tags"]}
{"id": "C77", "title": "Elements adjacent by a common node", "statement": "get_adjacent_elements and its fast variant return, for every list of element numbers (repetitions allowed), exactly the elements outside the list with a node in common with one inside, sorted and without repetition; a number outside [-n,n) raises in both. The fast adjacency matrix is 1 exactly for two different elements with a common node; the documented one holds the number of common nodes, also on the diagonal. Negative numbers make the two variants differ: only the documented one returns the element itself.", "quantifier": "all meshes with up to 255 nodes per element, all lists of element numbers", "why_tests_cant": "all connectivities and index lists; byte overflow of the counts", "anchors": ["scikit-topt/sktopt/mesh/utils.py: build_element_adjacency_matrix, get_adjacent_elements, build_element_adjacency_matrix_fast, get_adjacent_elements_fast"]}
{"id": "C78", "title": "Elements adjacent by a common face", "statement": "The face adjacency lists are mutual in every mesh; in a mesh where a face belongs to at most two elements the list of an element holds exactly the other elements with a face in common, each once; for tetrahedra these are the elements with three common nodes. A face shared by three or more elements joins none of them. For hexahedra in scikit-fem's own node order no element of any mesh has a neighbour.", "quantifier": "all connectivities", "why_tests_cant": "all meshes", "anchors": ["scikit-topt/sktopt/fea/composer.py: adjacency_matrix", "scikit-topt/sktopt/filters/helmholtz_filter_element.py: adjacency_matrix_volume_tet, adjacency_matrix_volume_hex and fast variants"]}
{"id": "C79", "title": "The element Helmholtz filter: what it preserves and what its gradient is", "statement": "For every mesh with positive volumes and every radius the filter has exactly one result; it is linear, keeps constants, the order and the bounds of the densities and the volume-weighted amount of material. gradient(v) is the directional change along v; it is the pull-back needed by the chain rule exactly if all coupled neighbours have the same volume, so it is wrong on graded meshes. On hexahedral meshes in scikit-fem's numbering the filter returns its input for every radius, and measuring body and radius in another unit of length changes every result that is not the input itself.", "quantifier": "all tetrahedral and hexahedral meshes with positive volumes, radii, densities and units", "why_tests_cant": "all meshes and all densities", "anchors": ["scikit-topt/sktopt/filters/helmholtz_filter_element.py: element_to_element_laplacian, prepare_helmholtz_filter, HelmholtzFilterElement.forward, gradient"]}
{"id": "C80", "title": "The box meshes", "statement": "create_box_hex divides every edge into the smallest number of parts not longer than mesh_size; all elements are equal bricks with edges at most mesh_size, every point of the box lies in one of them and no point is inside two; the orientation repair returns the mesh unchanged; the reported volumes are 5/6 of the true ones for every box, and the element Helmholtz filter returns its input on every one of them. create_box_tet makes the smallest number of refinements that brings the node lattice below mesh_size in the longest direction.", "quantifier": "all positive box lengths and mesh sizes", "why_tests_cant": "all real lengths and mesh sizes, meshes of any size", "anchors": ["scikit-topt/sktopt/mesh/toy_problem.py: create_box_hex, create_box_tet", "scikit-topt/sktopt/mesh/utils.py: fix_hexahedron_orientation, fix_tetrahedron_orientation"]}
{"id": "C81", "title": "The functional solver wrappers", "statement": "A call of a Python function succeeds in binding exactly if every argument fits the signature. The single load wrappers of fea/solver.py hand on every fitting call to the class based solver. The multi load wrappers (solve_multi_load, compute_compliance_basis_multi_load) pass a keyword the wrapped function does not have: every call raises TypeError. The solve_u wrapper's default 'auto' always ends in one direct solve; a named solver is used as requested.", "quantifier": "all calls (number of positional arguments, sets of keywords), all solver behaviours", "why_tests_cant": "all argument combinations", "anchors": ["scikit-topt/sktopt/fea/solver.py", "scikit-topt/sktopt/fea/solver_elastic.py: solve_multi_load, solve_u"]}
{"id": "C82", "title": "What the VTU files contain", "statement": "Whenever export_mesh_with_info writes a file it holds the nodes and elements of the mesh and under every name the array last given for it, with one entry per node or element; otherwise it raises ValueError. A file of an optimisation run holds the projected density and the energy of every element. For hexahedra the node order of scikit-fem is written where VTK's is expected: every cell of every such mesh is read as a cell that crosses itself.", "quantifier": "all meshes, names and arrays; all hexahedral meshes of parallelepipeds, all box meshes", "why_tests_cant": "all meshes and data", "anchors": ["scikit-topt/sktopt/core/visualization.py: export_mesh_with_info", "scikit-topt/sktopt/core/optimizers/common_density.py: DensityMethod (export of mesh and fields)"]}
{"id": "C83", "title": "The frames of the animation", "statement": "images2gif shows the images of one field in the order of the iterations, whatever the order in which the directory is listed, and no other file of the run; skip_frame=s > 0 keeps every (s+1)-th image starting with the first, s <= 0 keeps all. It fails from iteration 10^8 on.", "quantifier": "all sets of iterations, directory orders and values of skip_frame", "why_tests_cant": "all histories and all directory orders", "anchors": ["scikit-topt/sktopt/core/visualization.py: images2gif", "scikit-topt/sktopt/core/optimizers/common_density.py: image_path, vtu_path"]}
{"id": "C84", "title": "Bounds in IEEE binary64", "statement": "In double precision, not only in exact arithmetic: after any number of OC updates with finite non-positive sensitivities every density is a finite number in [rho_min, rho_max], exactly, and within the move limit of the previous one up to the rounding of rho +- move; the bisection tries at most max_iter + 1 multipliers and every one lies in the given interval; LogMOC densities with a positive rho_min are finite and in bounds (with rho_min = 0 every density at 0 becomes NaN); projected densities lie in [0,1] and are monotone in the density; the SIMP stiffness is at least Emin, monotone, and exceeds E0 at most by rounding (which does happen).", "quantifier": "all binary64 inputs in the stated ranges; all np.power, np.log, np.exp, np.tanh satisfying the stated sanity conditions; all volume functions; all runs", "why_tests_cant": "2^64 values per input, arbitrarily many updates", "anchors": ["scikit-topt/sktopt/core/optimizers/oc.py: bisection_with_physical_volume", "scikit-topt/sktopt/core/optimizers/logmoc.py: LogMOC_Optimizer (log-space update)", "scikit-topt/sktopt/core/projection.py", "scikit-topt/sktopt/fea/composer.py: simp_interpolation"]}
{"id": "C85", "title": "Reported von Mises stress", "statement": "The von Mises values obtained from stress_tensor_skfem and von_mises_from_stress_tensor are, element by element, the von Mises norm of the stress integrated over the element: with a uniform strain they equal element volume times the von Mises stress (so they are the stress only in elements of volume 1 or without von Mises stress, contrary to the docstring, and refining the mesh k-fold divides them by k); in general they never exceed volume times the largest stress in the element; they do not depend on the orientation of the coordinate frame; rigid motions give zero; the integrated stress is symmetric, its product with the strain is twice the element strain energy, and summed over the mesh it is the virtual work of uniform displacement gradients (the applied load).", "quantifier": "all meshes/bases with non-negative weights, all densities, materials and displacement fields", "why_tests_cant": "real-valued displacements on arbitrary meshes", "anchors": ["scikit-topt/sktopt/fea/composer.py: compute_element_stress_tensor", "scikit-topt/sktopt/fea/composer.py: stress_tensor_skfem", "scikit-topt/sktopt/fea/composer.py: von_mises_from_stress_tensor"]}
{"id": "C86", "title": "Timing charts", "statement": "A pie chart of the section timer has exactly one wedge per recorded section, proportional to its value, filling the circle; plot_pie fails with ValueError exactly for unknown keys/values, no data, all-zero or negative values; with self-times and value='total' the wedges add up to the time of the top-level sections. The timing.png written by an optimisation shows shares of the mean time per visit; they are shares of the run time if and only if all sections with non-zero self-time were visited equally often. Bar charts have one bar per section; with nested labels two sections are drawn on the same position exactly when they have the same depth and last name (plain names never collide). With moving_average, pies show the mean of the values of all charts so far (even of different metrics) and bars mix sections with equal labels. Stacked bars show the top-level sections with their direct children (nothing deeper) and reach max(own value, sum of children): the section's time for value='total', but not for averages or self-times.", "quantifier": "all programs using the timer, clocks, chart arguments, states of the running averages", "why_tests_cant": "programs and timings are unbounded", "anchors": ["scikit-topt/sktopt/tools/timer.py: SectionTimer.plot_bar, plot_pie, plot, save_plot", "scikit-topt/sktopt/core/optimizers/common_density.py: DensityMethod._save_timing_plot"]}
{"id": "C87", "title": "Histories as objects and their comparison", "statement": "as_object and as_object_latest (params_latest) succeed exactly when every registered series has at least one entry and does not mix scalars and arrays, otherwise they raise ValueError; their attributes are exactly the stored series and their latest entries; for a recorder fed one kind of value per series this means: exactly when every registered series has been fed. compare_histories_data_and_plot_type never raises on such data and returns True exactly when names, plot types and lengths agree and all values agree within numpy's tolerance 1e-8 + 1e-5*|second value|; it is reflexive, ignores ylog, constants and display names, is symmetric only up to the factor 1/(1-1e-5) and neither symmetric nor transitive; a completely fed recorder compares equal to itself after export/import.", "quantifier": "all recorders, histories of feeds, pairs of collections", "why_tests_cant": "arbitrary histories and real values", "anchors": ["scikit-topt/sktopt/tools/history.py: HistorySeries.data_np_array", "scikit-topt/sktopt/tools/history.py: compare_histories_data_and_plot_type", "scikit-topt/sktopt/tools/history.py: HistoryCollection.as_object, as_object_latest", "scikit-topt/sktopt/core/optimizers/common_density.py: DensityMethod.params_latest"]}
{"id": "C88", "title": "Selecting boundaries by coordinate ranges, and the built-in problems", "statement": "get_points_in_range combined with facets_satisfying/elements_satisfying selects exactly the facets (elements) whose centroid is in the closed box. Clamping a box mesh with the range (0, eps) at the end x=0 takes exactly the facets and nodes of that plane iff eps is below half an element, else interior nodes as well. toy_base can be built for every mesh size up to 1.2 and has a load of resultant (0,0,-100) near the tip, prescribed degrees of freedom exactly at x=0 (mesh sizes from 8/133 on; refuted below) and designs exactly the elements without a loaded node; its load also acts on interior facets (refuted: surface only); from mesh size 3 on it raises ValueError. toy2 has two load cases with resultants (0,-1,0), (0,1,0) on the two end rows of the face x=8, is held exactly at x=0. toy_msh returns only for the names down and down_box (pull, pull_2 always raise), with load range given by 0.8 times the distance of node 0 to its nearest node. The two mesh readers accept the same files but read different parts of a file with both tetrahedra and hexahedra. fix_elements_orientation dispatches on the mesh class and rejects others.", "quantifier": "all meshes, ranges, mesh sizes, facet numberings, file contents and problem names", "why_tests_cant": "a continuum of mesh sizes and ranges; thresholds between behaviours are exact numbers no sampling finds", "anchors": ["scikit-topt/sktopt/mesh/utils.py: get_points_in_range, fix_elements_orientation", "scikit-topt/sktopt/mesh/toy_problem.py: toy_base, toy2, toy_msh, load_mesh_auto", "scikit-topt/sktopt/mesh/loader.py: basis_from_file"]}
{"id": "C89", "title": "Analyses with the conjugate gradient solver", "statement": "compute_compliance_basis with solver='cg_jacobi' on any supported structure always answers; the held degrees of freedom are exactly at rest although only the rows of the stiffness matrix are replaced (the enforced matrix is not symmetric), and the compliance is the work of the load on the returned displacement. If more steps are allowed than there are degrees of freedom (by default: every problem below 300) the out-of-balance force is within rtol of the load. Stopped at any point, the reported compliance is between 0 and the exact one, the gap is the elastic energy of the missing displacement, it is 0 only for the exact displacement, and more steps or a smaller tolerance never lower it. With any preconditioner a zero convergence flag means a small residual unless no step was allowed. Refuted: that an unconverged result is reported (a step limit that is too small returns 3/4 of the compliance without an error).", "quantifier": "all matrices, supports, loads, tolerances and iteration limits", "why_tests_cant": "holds for every stiffness matrix and every stopping point of an iteration; tests see a few converged runs", "anchors": ["scikit-topt/sktopt/fea/solver_elastic.py: solve_u, compute_compliance_basis, LinearSolverConfig"]}
{"id": "C90", "title": "The element based Helmholtz filter as an object", "statement": "After any history of update_radius, preprocess, create_solver, create_amgsolver, create_LinearOperator, forward and gradient calls on a filter made by from_defaults, forward belongs to the radius asked for last and the accepted option asked for last: exact for spsolve, within rtol (or RuntimeError) for cg_jacobi, the AMG solver of the current matrix for cg_pyamg; update_radius leaves the object as if created with that radius. A residual bounds the error of every element density and how far densities leave their range. If more steps are allowed than elements, the conjugate gradients always succeed. gradient equals forward; unknown options raise ValueError and change nothing; the Jacobian of compute_filter_gradient_matrix is the matrix of the filter. Refuted: that the default cg_jacobi works on small meshes (below 4 elements it returns 0 for every density, with 4 to 7 elements it always raises), that assigning solver_option is safe (a solver of an earlier radius is used; unknown names make forward return None), and that tolerance and step limit survive update_radius.", "quantifier": "all meshes, radii, densities, options and call histories", "why_tests_cant": "stale factorizations appear only after particular call sequences; accuracy must hold for every density and mesh", "anchors": ["scikit-topt/sktopt/filters/helmholtz_filter_element.py: HelmholtzFilterElement, apply_helmholtz_filter_cg, apply_helmholtz_filter_lu, apply_helmholtz_filter_amg, compute_filter_gradient_matrix"]}
{"id": "C91", "title": "PETSc is asked for what the options say", "statement": "With use_set_from_options=False, solve_u_petsc solves with exactly the Krylov method, preconditioner, factorization package, prefix and tolerance asked for and the step limit asked for (10000 if none); by default the entries of PETSc's options database for that prefix, and no others, replace them; dicts and None mean the PETScOptions they describe. solve_u_petsc_multi returns, column by column and in order, what separate calls return, and the first failing column decides the exception; a one-dimensional right-hand side is one column. Without petsc4py every PETSc solve is a RuntimeError (or the direct solver, if fallback was allowed); the stand-in module treats options identically. If PETSc solves, the multi-load analyses return equilibrium displacements and their work (temperatures held at their values), load by load; the error of any returned compliance is the work of the out-of-balance force on the exact displacement. Refuted: that petsc_spdirect guarantees a direct solve (the options database replaces it), that prefix or package are used or refused (old petsc4py: ignored), that a failed convergence flag is reported, that one and two loads use the same step limit.", "quantifier": "all options, databases, matrices, right-hand sides and PETSc behaviours", "why_tests_cant": "PETSc is absent from the test environment; the claim ranges over every options database and every outcome of a solve", "anchors": ["scikit-topt/sktopt/fea/solver_petsc.py: solve_u_petsc, solve_u_petsc_multi, PETScOptions", "scikit-topt/sktopt/fea/_petsc_compat.py", "scikit-topt/sktopt/fea/solver_elastic.py: solve_u, solve_multi_load", "scikit-topt/sktopt/fea/solver_heat.py: solve_heat_system_multi"]}
{"id": "C92", "title": "Multi-load heat solvers called directly", "statement": "solve_scipy_heat_multi_enforce gives every load case its own temperature on its own node set, also when the sets differ; it succeeds exactly if u_all has one column per value and there are enough node sets, and otherwise raises AssertionError without writing or IndexError after writing the columns before the missing set. With one node set for all cases it agrees with solve_scipy and solve_heat_system_multi, which return the steady temperatures. Those two leave u_all alone when they fail. Refuted for solve_scipy and solve_heat_system_multi: different node sets (the first case's nodes are held in every case at the emission value, the case's own are not held), a missing node set is reported (cases are cut or the first field is copied to all), and no load cases (solve_scipy keeps the old array, solve_heat_system_multi writes zeros).", "quantifier": "all matrices, node sets, values, array widths", "why_tests_cant": "quantifies over all node sets and argument lengths and over the state of the caller's array after failures", "anchors": ["scikit-topt/sktopt/fea/solver_heat.py: solve_scipy_heat_multi_enforce, solve_scipy, solve_heat_system_multi"]}
{"id": "C93", "title": "Energies reported by the heat analysis", "statement": "For a sound heat problem an objective evaluation followed by energy_multi_load with its temperatures always succeeds and returns one list of per-element energies per load case. Compliance: the energies are nonnegative, add up to half the conducted heat form, and twice their sum plus the heat exchanged with the surroundings at zero ambient is the objective. Averaged temperature: the adjoint field balances a unit nodal source but is held at the prescribed temperatures, so when every conductivity moves, the objective's derivative is minus the sum of conductivity change times (energy minus prescribed value times the coupling of the temperature with a fixed lifting field); the energies are the exact gradient densities when the prescribed temperature is 0. Heat exchange: the adjoint balances the interface source with the ambient-temperature weight and the weakened coefficient h rho^p (1-rho)^q, mixed with the averaged-temperature adjoint under the documented scaling. energy_multi_load answers with the adjoint stored by the last objective call that succeeded: other densities, other penalties and failed calls make no difference, and without one it is a RuntimeError except for compliance. Refuted: that the energies are the gradient densities: for averaged temperature on one bar held at g they are off by the factor 1-4g (wrong sign for g>1/4); for heat exchange with 0/1 vertex densities and q>0 they are all 0 although the objective changes; and the energies ignore the densities passed.", "quantifier": "all meshes, shape functions, densities, parameters, ambient and prescribed temperatures, load cases, and call sequences", "why_tests_cant": "quantifies over all meshes and conductivity paths and needs derivatives; the stale-adjoint part ranges over call histories", "anchors": ["scikit-topt/sktopt/fea/solver_heat.py: objectives_multi_load, energy_multi_load, heat_exchange_grad_density_multi, avg_temp_grad_density_multi, _hx_adj_rhs_"]}
{"id": "C94", "title": "Whole optimisation iterations on heat conduction tasks", "statement": "Iterating the density method (OC update, spatial filter) on a heat task: the objective recorded is the mean of the objective values over the load cases, the energies are those of energy_multi_load, and the sensitivities given to the update stand for the filter- and projection-chained mean of the reported ones for every change of the design. With design_dirichlet=False every accepted iteration and every run, fresh or restarted, keeps designed densities in [rho_min, rho_max] and the others at 1, respects the move limit and meets the volume fraction up to the bisection's tolerance. With the averaged-temperature or heat-exchange objective no iteration or run fails; with compliance and a fractional eta an iteration succeeds exactly when no designed element has a positive sensitivity. Refuted: that compliance iterations never fail: on three bars in a row held at the ambient temperature and started from density 0 the first iteration gives NaN densities; and that design_dirichlet=True works: a heat task has no Neumann boundary, so every density is 1 after initialisation, restart and every iteration.", "quantifier": "all heat problems with Robin boundaries, load cases, filters, schedules, densities, iteration counts and restarts", "why_tests_cant": "ranges over all meshes, parameters and unbounded runs, and combines solver, filter and update", "anchors": ["scikit-topt/sktopt/core/optimizers/common_density.py: _optimize_impl, initialize_density", "scikit-topt/sktopt/fea/solver_heat.py: objectives_multi_load, energy_multi_load, compliance_sensitivity_multi_load", "scikit-topt/sktopt/core/optimizers/oc.py: rho_update"]}
{"id": "C95", "title": "Whole optimisation iterations with the LogMOC update", "statement": "Iterating the density method with the LogMOC update and the spatial filter, on an elastic or a heat task: every accepted iteration, and every fresh or restarted run, keeps designed densities in [rho_min, rho_max] and the others at 1, moves no density by more than the move limit, reports the largest density change exactly and keeps the volume multiplier in [lambda_lower, lambda_upper]. The multiplier moves by the configured rule applied to the volume error (material fraction minus target) of the design the iteration started from. For an elastic SIMP task without sensitivity filter, Lagrangian filter or centring, the slope each designed density follows is the derivative of reported compliance plus (multiplier + augmented penalty) times a positive weight (1 without normalisation) times the material fraction: the density never moves up that slope and moves strictly down it unless a bound stops it. A new optimizer's run starting at iteration 1 never fails, whatever the sign of the sensitivities, including the heat compliance problem on which OC gives NaN. Refuted: that a run can be resumed by a new optimizer after the first iteration (AttributeError, for every sound task); and that design_dirichlet=True works on heat tasks (every density becomes 1).", "quantifier": "all elastic and heat problems, load cases, filters, LogMOC settings, schedules, densities, iteration counts and restarts", "why_tests_cant": "ranges over all meshes, parameters and unbounded runs, and the descent claim is about derivatives of the composed analysis", "anchors": ["scikit-topt/sktopt/core/optimizers/common_density.py: _optimize_impl, initialize_density", "scikit-topt/sktopt/core/optimizers/logmoc.py: rho_update, lagrangian_log_update, LogMOC_Optimizer.__init__"]}
{"id": "C96", "title": "Whole runs from a configuration object", "statement": "Creating an OC optimizer from a configuration object on an elastic task with the spatial filter and calling optimize_steps/optimize any number of times, fresh or from a checkpoint: the iterations are numbered consecutively, each uses exactly the values its schedules prescribe for its number out of max_iters (filter radius included), and the last of max_iters iterations uses every schedule's target. Fields are used under their own names, and a lambda_lower above lambda_upper is refused at construction; a run ending with optimize() that raises nothing stopped at its first iteration meeting both criteria, or met them nowhere and went to max_iters. A configuration whose schedules are complete and stay positive, on a sound task, never raises, completes, keeps all densities in bounds and without early stopping performs every iteration; the default configuration is one. The final iteration's material fraction meets the configured target to 1e-4 unless the bisection bracket is exhausted. Refuted or delimited: the density-change criterion is void whenever the move limit is below its tolerance (in the default configuration: half of every cycle); the default move limit's last argument is iters_max and is ignored, so it has six cycles; and convergence may be reported with schedules still at their initial values. Starting a run fails unless every schedule has a value in every iteration from 1 to max_iters, and an interpolation other than SIMP or RAMP is refused at construction.", "quantifier": "all configuration objects, elastic tasks, filters, checkpoints, sequences of optimize and optimize_steps calls and iteration counts", "why_tests_cant": "the claims tie every iteration of unbounded runs to every configuration value; a test fixes one configuration and a few iterations", "anchors": ["scikit-topt/sktopt/core/optimizers/common_density.py: DensityMethodBase.__init__, init_schedulers, initialize_density, initialize_params, optimize, optimize_steps, _optimize_impl", "scikit-topt/sktopt/core/optimizers/oc.py: OC_Config, OC_Optimizer", "scikit-topt/sktopt/tools/scheduler.py: Schedulers.values, SchedulerConfig.sawtooth_decay, Schedulers.export"]}
{"id": "C97", "title": "The stiffness matrix of a mesh file", "statement": "load_stiffness_matrix(path, E, nu) reads hexahedra if the file has any, else tetrahedra, and refuses other files with ValueError; the matrix is symmetric. The claim that it is the stiffness matrix of a body with Young's modulus E and Poisson's ratio nu is refuted: the arguments are used as Lame parameters, so for positive arguments it is the matrix of the body with modulus nu(3E+2nu)/(E+nu) and ratio E/(2(E+nu)) (for the defaults 1 and 0.3: 54/65 and 5/13), which is the material asked for exactly when E=1 and nu=(sqrt 3-1)/2; with nu=0 shear costs no energy and with nu<0 the matrix is indefinite.", "quantifier": "all files (cell types), all meshes and finite-element bases, all E and nu", "why_tests_cant": "tests compare one matrix at one material, if any; the claim is about every material and mesh, and the defect is a systematic reinterpretation of the arguments", "anchors": ["scikit-topt/sktopt/mesh/loader.py: load_stiffness_matrix, basis_from_file"]}
{"id": "C98", "title": "Mesh statistics, task accessors and surface fluxes", "statement": "nodes_and_elements_stats reports, for nodes and element centroids, the true minimum, maximum, mean, median and standard deviation of the distances to the nearest other point (the node minimum is 0 exactly when two nodes coincide), and the volumes of all, supported, loaded and design elements; design and loaded volume never exceed the total when the design list has no repetitions. assemble_surface_neumann gives one vector per region whose total is flux times area. Refuted: without a loaded (supported) boundary the force (dirichlet) bar shows the whole volume; a mesh of one element raises; force_nodes returns elements whatever was assigned; force_elements_all always raises.", "quantifier": "all meshes, volumes, element sets, tasks, scale factors, regions and fluxes", "why_tests_cant": "the claims hold for all meshes and all point sets; tests look at one picture", "anchors": ["scikit-topt/sktopt/mesh/task_common.py: FEMDomain.nodes_and_elements_stats, scale", "scikit-topt/sktopt/mesh/task_elastic.py: LinearElasticity.force_nodes, force_elements, force_elements_all, dirichlet_force_elements", "scikit-topt/sktopt/mesh/task_heat.py: assemble_surface_neumann"]}
{"id": "C99", "title": "A whole LogMOC run from a configuration object", "statement": "For every LogMOC configuration, elastic or heat task and sequence of optimize()/optimize_steps(n) calls, the iterations are numbered consecutively and each uses exactly the values its schedules prescribe for its number, filter radius included; a run ending with optimize() that raises nothing stopped at its first converged iteration or went to max_iters; with complete schedules, positive lower density bound and ordered multiplier bounds a fresh run never raises, performs every iteration up to max_iters when early stopping is off, keeps densities, move limits and the multiplier within bounds, whatever the objective. Refuted: resuming. A new LogMOC optimizer that restarts from any checkpoint of iteration j >= 1 with iterations left performs none: every call raises AttributeError. Starting a run fails unless every schedule has a value in every iteration from 1 to max_iters.", "quantifier": "all configurations, elastic and heat tasks, objectives, checkpoints and call sequences", "why_tests_cant": "a run test fixes one configuration, one task and one call sequence; the claim is about all of them, and the restart failure needs a second optimizer object", "anchors": ["scikit-topt/sktopt/core/optimizers/logmoc.py: LogMOC_Config, LogMOC_Optimizer", "scikit-topt/sktopt/core/optimizers/common_density.py: init_schedulers, initialize_params, optimize, optimize_steps, _optimize_impl"]}
{"id": "C100", "title": "A whole OC run on a heat task from a configuration object", "statement": "For every OC configuration, heat task and sequence of optimize()/optimize_steps(n) calls, fresh or restarted, the iterations are numbered consecutively and use exactly the scheduled values; a run ending with optimize() that raises nothing stopped at its first converged iteration or went to max_iters; with a sane configuration, conduction problem held somewhere, and an objective other than the compliance, no call raises, the run completes, densities stay within bounds, each change within the scheduled move limit, and all iterations up to max_iters take place when early stopping is off.", "quantifier": "all configurations, heat tasks with a non-compliance objective, checkpoints and call sequences", "why_tests_cant": "a run test fixes one configuration, one task and one call sequence", "anchors": ["scikit-topt/sktopt/core/optimizers/oc.py: OC_Config, OC_Optimizer", "scikit-topt/sktopt/core/optimizers/common_density.py: init_schedulers, initialize_params, optimize, optimize_steps, _optimize_impl", "scikit-topt/sktopt/fea/solver_heat.py: FEM_SimpleHeat"]}
{"id": "C101", "title": "The range of the default (nodal Helmholtz) filter", "statement": "The default density filter keeps filtered densities within every interval that contains the design densities (and 1, if some element is outside the design domain) whenever the radius is large enough for the mesh, i.e. no off-diagonal entry of M + r^2 K is positive; its sensitivity filter never returns a positive value, never undershoots a lower bound of a non-positive input, and returns exactly zero for sensitivities that are all non-negative. On a row of unit squares the radius condition is exactly r^2 >= 1/3. Refuted for small radii: with the default radius 0.01 on that row next to a non-design element, admissible densities 0.01 are filtered to a negative density below -0.02.", "quantifier": "all meshes, matrices assembled from shape functions, design masks, radii and density vectors", "why_tests_cant": "a test samples one mesh and radius, and the sign of the off-diagonal entries decides", "anchors": ["scikit-topt/sktopt/filters/helmholtz_filter_nodal.py: HelmholtzFilterNodal.forward, gradient, solve_helmholtz, element_to_node, node_to_element"]}
{"id": "C102", "title": "Whole iterations with the default (nodal Helmholtz) filter", "statement": "With the default filter, one OC or LogMOC iteration on an elastic or heat task, for any mesh, radius and linear solver, keeps every design density within [rho_min, rho_max], moves it by at most the move limit and pins all other elements at 1, and the reported change is the largest movement. When the radius is large enough for the mesh (C101) and the solver solves, every iteration succeeds for every objective, thermal compliance included, filtered densities stay in [0, max(1, rho_max)], and OC meets the volume constraint as in C63. With sensitivity_filter off, the sensitivities passed to the update are never positive. Refuted, consequence of that: that the update follows the sensitivities. When no design element gains from material (RAMP with p > 1 at high densities; a uniform temperature field) the update sees zeros and removes material from every element as fast as the limits allow, whatever volume is requested; and LogMOC, whose volume sensitivities would be erased the same way, falls back on the density filter, so an element with k of its N nodes on fixed elements gets a volume slope of at least k/N, however small its share of the volume.", "quantifier": "all elastic and heat tasks, meshes, masks, radii, solvers, settings, densities and iteration numbers", "why_tests_cant": "a test fixes one mesh, radius and objective; erased sensitivities look like ordinary convergence", "anchors": ["scikit-topt/sktopt/core/optimizers/common_density.py: DensityMethod._optimize_impl", "scikit-topt/sktopt/filters/helmholtz_filter_nodal.py: HelmholtzFilterNodal", "scikit-topt/sktopt/core/optimizers/oc.py: OC_Optimizer.rho_update", "scikit-topt/sktopt/core/optimizers/logmoc.py: LogMOC_Optimizer.rho_update"]}
{"id": "C103", "title": "Whole runs with the default filter type, from the default configuration objects", "statement": "A run of the OC or LogMOC optimizer built from a configuration object with filter_type \"helmholtz\" (the default) uses in iteration i exactly the values its schedules prescribe for i, on elastic and heat tasks; any other filter type than \"spacial\" or \"helmholtz\" is refused with ValueError before any iteration. With a sane configuration, in particular OC_Config() and LogMOC_Config() themselves, on a task that can be analysed and a mesh fine enough for the smallest scheduled radius, no call raises, optimize() completes the run, every iteration keeps the densities within bounds, the change within the scheduled move limit, the filtered densities in [0, max(1, rho_max)] and the sensitivities non-positive, and without early stopping every iteration up to max_iters takes place; OC runs can be resumed, for every objective. Refuted: resuming LogMOC runs (AttributeError, as C99); and coarse meshes: with the default radius on unit elements and densities at their lower bound next to a fixed element, the iteration fails for every penalty p that is not an integer, on every elastic task with that mesh. A filter_type that is not a string is refused in the same way.", "quantifier": "all configurations, elastic and heat tasks, meshes, masks, radii, solvers, call sequences and checkpoints", "why_tests_cant": "a test runs one configuration on one mesh; the outcome depends on mesh size against radius and on the whole schedule", "anchors": ["scikit-topt/sktopt/core/optimizers/common_density.py: DensityMethod.parameterize, optimize, optimize_steps, _optimize_impl, DensityMethod_Config", "scikit-topt/sktopt/core/optimizers/oc.py: OC_Config, OC_Optimizer", "scikit-topt/sktopt/core/optimizers/logmoc.py: LogMOC_Config, LogMOC_Optimizer", "scikit-topt/sktopt/filters/helmholtz_filter_nodal.py: HelmholtzFilterNodal"]}
{"id": "C104", "title": "scaling=True: which design a scaled task gets", "statement": "A solid task whose lengths are multiplied by s and whose loads by F, optimized with the spatial filter and filter radii multiplied by s as well, passes through the same densities as the original in every iteration, as long as no sensitivity normalisation reaches sensitivity_scale_floor: filtered and physical densities and density changes are equal, the recorded compliance is multiplied by F^2/s, and so are sensitivities, KKT residual and recorded element energies with several loads. The constructor's scaling makes the longest side of the bounding box exactly 1 and divides the loads by 10^5. Refuted: with a single load, sensitivities, KKT residual and recorded energies are in addition divided by the number of degrees of freedom while the compliance is not, so that kkt_residual stopping accepts residuals larger by 10^10 N / L; the filter radius of the configuration is not scaled, the filter on the scaled mesh is that of radius r/s on the original one, and gives other densities; a heat task is refused with AttributeError only after its mesh has been replaced. Scaling a task twice multiplies the factors, with one load as with several, and unscale() restores points and loads; refuted: that several optimizers with scaling=True may be created on one task, since the second one divides the loads by 10^5 again.", "quantifier": "all solid tasks, loads, scale factors, schedules, densities, solvers and configurations with the spatial filter", "why_tests_cant": "a test compares two runs of one task; the claim is about every task and every factor, over the whole run", "anchors": ["scikit-topt/sktopt/core/optimizers/common_density.py: DensityMethodBase.__init__, scale, _optimize_impl", "scikit-topt/sktopt/mesh/task_common.py: FEMDomain.scale", "scikit-topt/sktopt/mesh/task_elastic.py: force, n_tasks", "scikit-topt/sktopt/fea/solver_elastic.py: objectives_multi_load", "scikit-topt/sktopt/core/optimizers/oc.py: OC_Optimizer.rho_update"]}
{"id": "C105", "title": "sensitivity_filter=True with the default filter", "statement": "With sensitivity_filter=True and the default (nodal Helmholtz) filter, an iteration's compliance, filtered and physical densities are those without the option, and its sensitivities are the result of applying the density filter to the sensitivities without it; when no element is fixed they are nowhere positive and an OC iteration succeeds, for every task. Refuted with fixed elements: the filter takes every fixed element to have the value 1, a density, whatever the size of the sensitivities. An element with a share q of its nodes on fixed elements has a filtered sensitivity of at least q - d(1-q) when no sensitivity is below -d, so it is positive for an element enclosed by fixed ones, and for every element touching a fixed one as soon as sensitivities are small; the OC update is then not a number. For every solid task with such an element there is a load level below which every iteration fails. LogMOC removes material there instead of adding it.", "quantifier": "all tasks, meshes, filters, loads, densities and configurations", "why_tests_cant": "a test runs one task at one load level; the failing load level depends on the task, and the claim is that there always is one", "anchors": ["scikit-topt/sktopt/core/optimizers/common_density.py: _optimize_impl", "scikit-topt/sktopt/filters/helmholtz_filter_nodal.py: forward", "scikit-topt/sktopt/core/misc.py: parser", "scikit-topt/sktopt/core/optimizers/oc.py: OC_Optimizer.rho_update", "scikit-topt/sktopt/core/optimizers/logmoc.py: LogMOC_Optimizer.rho_update"]}
{"id": "C106", "title": "Loops run in parallel give the sequential result for every schedule", "statement": "The loops compiled for parallel execution (tetrahedron orientation repair, tetrahedron and hexahedron volumes) return what the sequential functions return, however the elements are distributed over workers and however the workers' individual reads and writes of the shared arrays interleave; every schedule ends, after at most eight (volumes: one) accesses per element, and no state is stuck. Repair followed by volumes gives the exact volume of every tetrahedron under all schedules. That every element is given to one worker only is needed: with an element treated by two workers there is a schedule that leaves it inverted. Refuted: the parallel tetrahedron volumes are not a replacement for the sequential ones on inverted elements; those are refused with ValueError there, and silently given their negative volume here.", "quantifier": "all meshes, numbers of workers, distributions of elements and interleavings of memory accesses", "why_tests_cant": "tests see the schedules that happen to occur; the number of interleavings grows exponentially with the elements", "anchors": ["scikit-topt/sktopt/mesh/utils.py: fix_tetrahedron_orientation_numba, fix_tetrahedron_orientation", "scikit-topt/sktopt/fea/composer.py: _get_elements_volume_tet_numba, _get_elements_volume_hex_numba, _get_elements_volume_tet, _get_elements_volume_hex"]}
{"id": "C107", "title": "LogMOC's design depends on the unit of the loads", "statement": "Multiplying all loads of a solid task by F leaves an analysis' filtered and physical densities as they are and multiplies compliance and sensitivities by F^2. A LogMOC iteration updates its multiplier from the volume alone, the same for every F, and moves each design element by the sign of F^2 dc + coeff dv, with dc the derivative of the reported compliance and dv that of the volume fraction. Refuted: that a design does not depend on the unit of the loads, as it does not with OC. For every task and design element that contributes to the stiffness, when volume is to be removed, there is a load level below which the iteration removes material from the element and one above which it adds material, with normalize_volume_chain off. With normalize_volume_chain on it holds: a run with all loads multiplied by F and lagrangian_scale_floor by F^2 passes through the same densities, filters, multipliers, density changes and KKT residuals in every iteration, and reports F^2 times the compliance.", "quantifier": "all solid tasks, densities, configurations and load factors with the spatial filter", "why_tests_cant": "a test compares two load levels of one task; the levels at which the step turns depend on the task", "anchors": ["scikit-topt/sktopt/core/optimizers/logmoc.py: LogMOC_Optimizer.rho_update", "scikit-topt/sktopt/core/optimizers/common_density.py: _optimize_impl"]}
{"id": "C108", "title": "Numbering, position and orientation do not matter; symmetric tasks keep symmetric designs", "statement": "Let a solid task be given twice: once as is, and once with its elements, degrees of freedom and quadrature points numbered differently and possibly mirrored in coordinate or diagonal planes or turned by right angles (shape function gradients, loads, supports, design elements, volumes and filter centres are those of the images). Then an OC optimizer with the spatial filter analyses and designs the second task as the image of the first: in every iteration of a run the compliance, volume multiplier, running scale, density change and KKT residual are equal, and filtered, physical and design densities, element energies and sensitivities are the same up to the numbering, whatever the linear solvers do beyond solving. In particular a task that is its own mirror image, started from symmetric densities, has symmetric densities and sensitivities in every iteration. The same holds of the LogMOC optimizer, with equal multipliers. The design elements and the elements kept at 1 of a task given by the renumbered mesh, node lists and options are the images of those of the original. The same holds if the task is turned by any angle about any axis (or mirrored in any plane), for both optimizers, as long as the supports turn into supports (clamped nodes): compliance, element energies, sensitivities and densities of every iteration are equal. A heat task turned by any angle gives the same analyses and runs, also where these raise exceptions, with both optimizers.", "quantifier": "all tasks, renumberings, mirror images, rotations, configurations, schedules and run lengths with the spatial filter", "why_tests_cant": "a test compares one or two numberings of one mesh; symmetry must hold for every task that has one", "anchors": ["scikit-topt/sktopt/core/optimizers/common_density.py: _optimize_impl", "scikit-topt/sktopt/core/optimizers/oc.py: OC_Optimizer.rho_update", "scikit-topt/sktopt/filters/spacial.py: SpacialFilter.forward", "scikit-topt/sktopt/fea/composer.py: strain_energy_skfem_multi"]}
