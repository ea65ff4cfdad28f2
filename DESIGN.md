# A Rocq (Coq 8.16.1) model of scikit-topt

Source modelled: `/repo/scikit-topt/sktopt` (paths below are relative to it).
Nothing in `/repo` is executed; the tie between model and code is the citation
`file:lines` on every model definition.

This file is generated: `tools/design_head.md` (sections 1-4, written by hand),
then a table from `properties.jsonl` + `MANIFEST.json`, then the axioms of every
theorem (`tools/axioms.py`, from `Print Assumptions`).

## 1. Conventions

* **Layering.**  For each area `X`: `X_model.v` (executable/total Gallina model,
  branch by branch, with citations; no proofs), `X_spec.v` where a property
  needs vocabulary of its own (short, independent of the model's helpers),
  `X_proofs.v` (lemmas), `X_props.v` (theorems `Cnn_…`, `Print Assumptions`, and
  the non-vacuity `Example`s).
* **Exceptions** are values: `res A := Ok a | Err exn` (`Base.v`).  `NotModelled`
  marks behaviour outside the model (a NaN modulus, a filter radius 0); theorems
  that say `= Ok …` therefore exclude it.
* **Numbers.**  Python `int` is `Z` or `nat`; Python/NumPy `float` is a real
  number of the standard library `Reals` (exact arithmetic).  Rounding,
  overflow and signed zeros are *not* modelled, except where a theorem says so
  (`…_binary64…` and C84 use the stdlib `SpecFloat` arithmetic, proved equal to
  Flocq's, whose theorems relate it to the reals).  NaN and +inf are
  modelled where the code can create them (`np.power`) by `option R` / `fval`.
* **Arrays** are lists (or functions on indices where only pointwise facts are
  used); in-place mutation returns the new array, buffers that alias are a heap.
* **Loops** `for` become folds / structural recursion, the one `while True`
  becomes recursion on fuel with an explicit out-of-fuel result which a theorem
  excludes.
* **External code** (FEM assembly and sparse solves, KD-tree, matplotlib, the
  file system, the clock) enters as function arguments/section variables that
  are generalised in the theorems; every assumption on them is a hypothesis of
  the theorem.  No axioms are declared.
* A property that the code violates is proved as `…_refuted` (or a theorem named
  after the finding) with a witness or a general counter-statement, next to the
  strongest true statement we could prove; the claim is then `partial`.

## 2. Trusted base

* Coq's kernel (8.16.1).  No kernel check is switched off, no plugin is used;
  `vm_compute` (used for closed examples) is part of the kernel.
* The axioms of the standard library listed per theorem in section 6; they are
  `ClassicalDedekindReals.sig_forall_dec`, `ClassicalDedekindReals.sig_not_dec`
  (the construction of the reals),
  `FunctionalExtensionality.functional_extensionality_dep` and
  `Classical_Prop.classic` (used by the library's analysis).  No other library's
  axioms and none of our own.  Flocq (the only other library used) contributes only
  definitions and theorems (`Bin64.v` uses Flocq).
* The reading of the Python code recorded in the citations, and the contracts of
  external libraries named in section 4.

## 3. What is modelled

| files in /repo/scikit-topt/sktopt | model |
|---|---|
| tools/scheduler.py (all schedules, configs, collections, factory classes) | Sched_model, Sched_float |
| plotting layout of tools/scheduler.py and tools/history.py (panel arithmetic) | Plot_model |
| core/projection.py, core/derivatives.py, fea/composer.py interpolations and Lame parameters (incl. in-place variants on a heap) | Material_model |
| core/optimizers/oc.py (bisection, sensitivity scale, KKT residual, rho_update) | OC_model |
| core/optimizers/logmoc.py | LogMOC_model |
| core/optimizers/common_density.py driver: optimize, optimize_steps, state, finalisation, records | Driver_model |
| checkpoints and restart: core/misc.py, common_density.py | Ckpt_model (+ Session_spec) |
| core/misc.py CLI, configs (dataclasses, JSON), sensitivity-mode context manager | Config_model |
| tools/history.py (HistoryCollection etc.) | History_model |
| tools/timer.py recording, statistics, running means | Timer_model |
| tools/timer.py charts; common_density.py _save_timing_plot | Charts_model |
| filters/spacial.py | Filter_model |
| filters/helmholtz_filter_nodal.py | Helmholtz_model |
| mesh/task_common.py, mesh/utils.py, mesh/visualization.py, volumes in fea/composer.py, scale/unscale | Mesh_model |
| fea/solver option handling | Solver_model |
| fea/composer.py assembly, strain energy, von Mises; fea/solver_elastic.py compliance | Fea_model |
| fea/composer.py stress tensors | Stress_model |
| mesh/task_common.py export_analysis_condition_on_mesh | Cond_model |
| common_density.py initialize_density and the loop body, composed of the above | Iter_model |
| fea/solver_heat.py state equation, Robin and interface terms, objectives, sensitivities; mesh/task_heat.py from_facets, update_robin_bc | Heat_model |
| histories.npz over several processes (common_density.py recorder, tools/history.py export/import) | HistSess_model |
| mesh/task_elastic.py from_mesh_tags, assemble_surface_forces; mesh/task_heat.py from_mesh_tags | Tags_model |
| mesh/utils.py adjacency helpers; fea/composer.py adjacency_matrix | Adj_model |
| filters/helmholtz_filter_element.py | EHelm_model |
| mesh/toy_problem.py box meshes | Box_model |
| fea/solver.py | Wrap_model |
| core/visualization.py export_mesh_with_info, images2gif | Out_model |
| tools/scheduler.py step and sawtooth in binary64 | Sched_float, Float_props (with Bin64) |
| oc.py, logmoc.py, projection.py, composer.py per element in binary64 | Upd64_model |
| common_density.py:1013-1157, oc.py:16-250 for a renumbered or mirrored task | Iter_model, OC_model |
| core/optimizers/logmoc.py:150-258 with loads in other units | LMIter_model |
| mesh/utils.py:94-127, fea/composer.py:149-161, 251-311 (parallel=True) | Par_model |
| core/optimizers/common_density.py:1102-1106 with filters/helmholtz_filter_nodal.py:180-198 (sensitivity_filter) | HzIter_model |
| core/optimizers/common_density.py:539-540, 626-636, mesh/task_common.py:403-422, mesh/task_elastic.py:113-125 (scaling=True) | Scale_model |
| core/optimizers/common_density.py:681-703 (parameterize) and whole runs with the default filter | HzRun_model |
| filters/helmholtz_filter_nodal.py:160-233 inside common_density.py:1013-1157 (the default filter in the loop) | HzIter_model |
| core/optimizers/logmoc.py:13-88, common_density.py:643-1243 (whole LogMOC and heat runs) | LRun_model |
| mesh/task_common.py:424-505, mesh/task_elastic.py:126-148, 261-263, mesh/task_heat.py:23-57 (statistics, accessors, fluxes) | Stats_model |
| mesh/loader.py:36-43 (load_stiffness_matrix) | Load_model |
| core/optimizers/common_density.py:208-261, 349-389, 643-918, 966-1243 with oc.py:96-122 (configuration to whole run) | Run_model |
| core/optimizers/common_density.py:1013-1157 with logmoc.py:90-258 (whole iterations) | LMIter_model |
| core/optimizers/common_density.py:1013-1157 with fea/solver_heat.py (heat tasks) | HeatIter_model |
| fea/solver_heat.py:325-411, 529-549, 705-926 (lambda_all, energies) | HeatAdj_model |
| fea/solver_heat.py:27-195 (effects on u_all) | HeatAlt_model |
| fea/solver_petsc.py:127-237; fea/_petsc_compat.py:22-75; PETSc branches of fea/solver_elastic.py:61-143, 240-468 and fea/solver_heat.py:133-195 | Petsc_model |
| filters/helmholtz_filter_element.py:237-262, 280-590 | EFilt_model |
| fea/solver_elastic.py:80-143 and 176-237 with cg_jacobi; scipy.sparse.linalg.cg (library, modelled as published) | CG_model |
| mesh/utils.py:8-15, 130-136, mesh/toy_problem.py:52-250, mesh/loader.py:9-33 | Toy_model |
| tools/history.py data_np_array, as_object, as_object_latest, compare_histories_data_and_plot_type | Cmp_model |



## 4. What is not modelled, and external contracts

* scikit-fem's meshes, quadrature and elements: a basis is reduced to quadrature
  weights and basis-function gradients (`fembasis`); `skfem.enforce` is modelled by
  its effect (identity rows, zero right-hand side).  Positivity of weights is a
  hypothesis.
* Sparse solvers: any function; theorems that need a solution assume that it solves
  the system it was given (`solves`, `solver_ok`).
* scipy's `query_ball_point` (closed ball), numpy semantics as described in the
  comments, matplotlib/VTK output (only what is handed over is modelled), the
  `logging` output, joblib/threads.
* Of fea/solver_heat.py: the adjoint fields stored for `energy_multi_load` of the
  non-compliance objectives, and the PETSc solvers beyond the solver contract.
* Floating-point rounding, except in C04, C06 and C84 (see conventions).
* gmsh's meshing in `mesh/toy_problem.py`, `mesh/loader.py` file formats, the GUI
  and example scripts, `mesh` reading by meshio: not modelled.

## 5. Properties: approach and outcome

| id | property | model and proof idea | outcome | theorems | what is proved, what is missing or refuted |
|---|---|---|---|---|---|
| C01 | Schedules hold their target from iters_max on and never fail on validated configs | scheduler.py functions over R/Z with `res`; case analysis over accepted configs | proved | 3 | All types; the two documented exceptional cases (sawtooth with num_steps=0, non-positive curvature) are part of the theorem. |
| C02 | Scheduled values stay between the initial and the target value | convexity of the interpolation weights, weights in [0,1] | proved | 4 |  |
| C03 | Continuation schedules are monotone | monotonicity of floor and of powers | proved | 3 |  |
| C04 | A Step schedule has num_steps equal-length plateaus with evenly spaced values | floor of real quotient = integer division; counting iterations in an interval | proved | 6 | Exact arithmetic and binary64 (complete classification; C04_plateau_boundary_binary64_refuted shows the moved boundary does occur). |
| C05 | Curvature orders accelerating, linear and decelerating schedules | ordering of x^c on [0,1] | proved | 3 |  |
| C06 | SawtoothDecay decays linearly inside each cycle and resets at each cycle start | floor arithmetic; doc example refuted by evaluation; binary64 witness | partial | 7 | Linear interpolation and periodicity proved in exact arithmetic, and classified in binary64 (C06_binary64); the docstring example is refuted, as is the reset at the cycle start in binary64. |
| C07 | SchedulerConfig.from_defaults accepts exactly the documented parameter combinations | independent acceptance predicate vs. the code's if-chain | proved | 2 |  |
| C08 | *ToOne schedules climb from 1/num_steps to exactly 1 | corollary of C02/C03 for the derived parameters | proved | 1 |  |
| C09 | Building a scheduler from a config is repeatable and agrees with the dedicated classes | config mutation as state; equality of schedulers | proved | 5 |  |
| C10 | A Schedulers collection answers by name, last registration wins | collection as list; induction over operations, lookup spec = last occurrence | proved | 2 |  |
| C11 | Exponential schedules start at init, end at target and are monotone | exp monotone; accelerate(0)=init is false | partial | 3 | accelerate(0)=init is false (C11_exp_accelerate_start_refuted); everything else proved. |
| C12 | Progress plots place each series in its own existing panel | div/mod arithmetic over all n | proved | 2 |  |
| C13 | Heaviside projection maps [0,1] into [0,1) with H(0)=0 and is strictly increasing | tanh defined from exp in Reals; monotonicity | proved | 6 | Exact reals, 0<beta, 0<=eta<=1. beta=0 collapses to 0 (C13_beta_zero_collapses). |
| C14 | The projection derivative is the derivative | derivable_pt_lim | proved | 4 | In-place variants modelled on a heap of buffers, including out=rho. |
| C15 | SIMP sensitivity is consistent with the SIMP interpolation and never positive | derivable_pt_lim of Rpower on rho>1e-6 | proved | 6 | Includes the full adjoint argument: dC_drho_simp is the derivative of the compliance of any symmetric linear system. |
| C16 | RAMP sensitivity is consistent with the RAMP interpolation | true derivative computed and compared; refuted with witness | partial | 7 | REFUTED: dE_drho_ramp is not the derivative (derivatives.py:62) for any p>0, rho>0, and is negative where 2*p*rho>1+p; sign and range results hold where stated. |
| C17 | An OC update respects density bounds and the move limit, and never produces NaN for non-positive sensitivities | pointwise clip lemmas, NaN as None | proved | 3 |  |
| C18 | The OC multiplier bisection terminates and returns mutually consistent results | fuel recursion; invariant | proved | 2 |  |
| C19 | The OC bisection meets the volume tolerance or pins the multiplier | loop invariant, width halves each step | proved | 4 | Includes that an exact multiplier in the bracket is found when the filter is monotone. |
| C20 | The OC candidate density is monotone in the multiplier and in the sensitivity | monotone power and clip; generic monotone filter/projection | proved | 2 |  |
| C21 | OC design updates are invariant under rescaling of the objective | homogeneity of max/./and np.percentile, induction over iterations | proved | 4 |  |
| C22 | The reported KKT residual is the worst stationarity violation over interior elements | fold max characterisation | proved | 5 | All of the statement. C22_stationary_element_has_large_residual is an additional observation: the residual does not vanish where the OC update is stationary. |
| C23 | A LogMOC update respects the density bounds and the move limit and is a descent step | log/exp monotone, algebra | proved | 5 |  |
| C24 | The LogMOC multiplier stays inside its configured bounds | induction over histories | proved | 4 |  |
| C25 | An optimizer can be restarted from a checkpoint and continue | state machine incl. missing attribute; witnesses | partial | 5 | REFUTED: LogMOC restart raises AttributeError (running_scale missing); OC restart resets running_scale and gives different densities. Fresh runs proved fine. |
| C26 | Fixed and loaded elements keep density exactly 1 and design densities stay in bounds in every iteration | density lists; element sets from C49; step lemma from C17, induction over runs | partial | 9 | Proved for initialisation, restart, every accepted iteration (any interpolation, any solver) and whole runs, and that a run never fails with SIMP or with RAMP and p <= 1, for tasks prepared by this optimizer that have a Neumann boundary or design_dirichlet=False. REFUTED otherwise: without a Neumann boundary and design_dirichlet=True every density is overwritten by 1 in each iteration; a task already used with design_dirichlet=False keeps boundary elements at the initial volume fraction (0 after restart); RAMP with p > 1 yields positive sensitivities and NaN densities. |
| C27 | Running in chunks equals running at once | driver state machine with an arbitrary iteration body; induction over call lists | proved | 1 | Any list of calls (steps of any size, also non-positive, repeated optimize) before the final optimize; hypothesis only that the single run does not raise. |
| C28 | A run performs each iteration once, in order, and stops at max_iters or convergence | same machine with trace | proved | 2 | All call sequences that raise nothing; a failed call is C34. |
| C29 | Early stop happens exactly when both convergence criteria hold | same machine | proved | 3 | Both directions, and the error when no residual was computed. |
| C30 | Checkpoints are written at the documented iterations | same machine; ZeroDivision refuted | partial | 2 | Exact set of checkpoints proved; REFUTED: record_times > max_iters or 0 raises ZeroDivisionError in the first iteration (common_density.py:1189). |
| C31 | Restart resumes from the newest checkpoint, whatever was saved when | directory = list of names; max | partial | 7 | Any number of crashed sessions, any listing order, crash anywhere except inside the checkpoint write; REFUTED for a crash inside np.savez (torn newest file blocks restart) and for files that merely start like a checkpoint. |
| C32 | Checkpoint file names round-trip | decimal printing/parsing of strings | partial | 3 | Proved below 10^6; REFUTED from 10^6 on (misc.py:9 matches exactly six digits). |
| C33 | A fresh run does not pick up another run's checkpoints | run history on a directory | partial | 2 | Holds if the new run has got at least as far as the stale files; REFUTED otherwise (data/ is kept, common_density.py:553-556). |
| C34 | After a failed iteration the optimizer can be called again and continues | driver machine with failing body | partial | 2 | Single-step retries proved; REFUTED for chunks: _iter_next stays at the start of the failed chunk (line 1240 is skipped). |
| C35 | The sensitivity-mode environment variable is restored on every exit | environment as finite map; context manager | proved | 4 | Guard modelled as a wrapper around an arbitrary environment-changing run that returns or raises. |
| C36 | Command-line arguments become a valid configuration | dictionary functions; default CLI arguments | partial | 8 | Mapping and copying proved for every argument dict; REFUTED: the parser defaults (step counts None) raise ValueError, and options starting with p are dropped (misc.py:194-201). |
| C37 | A saved configuration can be loaded back and used | JSON value type; asdict / cls(**data) | partial | 4 | Plain fields survive; REFUTED for every configuration: schedules come back as dicts and init_schedulers raises AttributeError. |
| C38 | Histories are append-only and latest returns the last fed entry | collection as association list; induction | proved | 3 | Single feeds and arbitrary feed sequences; latest; KeyError/ValueError cases characterised. |
| C39 | Aggregated entries satisfy min <= mean <= max and std >= 0 | list min/mean/max/std over R | proved | 4 | Stored entry is exactly the min/mean/max(/std) summary; 0 <= std <= (max-min)/2. |
| C40 | Exporting and importing histories is lossless | npz file as association list | partial | 3 | Proved for every recorder built by add and any homogeneous feed history: fed series survive unchanged and if all were fed the collection is identical. Full claim refuted: unfed series, *_header names, a series called file, and mixed scalar/array series. |
| C41 | The section timer's nesting survives exceptions | program trees with exceptions, structural induction | proved | 2 | All finite executions (trees of nested sections with raises/catches, add, reset), any clock, any starting stack. |
| C42 | Timer statistics are exact and self-times partition the total | paths as lists of names; sums over trees | proved | 4 | Statistics for any execution; self-time partition for one-character separators and names free of it, as the property states (C42_separator_in_name_refuted shows the restriction is needed). |
| C43 | The running average is the arithmetic mean | induction | proved | 2 | Any sequence of updates and resets; also the returned list. |
| C44 | Timer summaries are sorted permutations of the statistics | stable insertion sort | proved | 3 | Permutation, order, stability in both directions; ValueError exactly for undocumented keys. |
| C45 | The spatial filter averages: constants and bounds are preserved, non-design elements untouched | row-normalised matrix over an arbitrary finite index set | proved | 7 | Weights characterised exactly (positive iff within radius and design, sum 1, gaussian with sigma = radius/3); forward always uses the radius set last; also a monotone_filter so C19/C20 apply. radius = 0 not modelled; scipy query_ball_point contract trusted. |
| C46 | The spatial filter's gradient is the adjoint of its forward map | finite sum exchange | proved | 4 | Adjoint of the forward map last evaluated, also after update_radius; AttributeError before any forward. |
| C47 | The Helmholtz filter preserves constants | linear algebra with an exact solve oracle | partial | 4 | Proved without fixed elements and for the constant 1; REFUTED with fixed elements for every radius (C47_fixed_elements_refuted). FEM matrices abstract: M positive definite, K semidefinite with zero row sums; result of any correct linear solver. |
| C48 | The Helmholtz filter's gradient is the adjoint of its forward map | sign clamp; witness | partial | 4 | REFUTED twice: positive sensitivities are clamped to 0 (every mesh), and the operator is the forward filter rather than its transpose (concrete kite mesh, non-positive v). |
| C49 | Design and fixed elements partition the mesh and loaded elements are never designed | list filters | proved | 9 | Exactly-once claim needs the requested design ids to be valid and distinct (stated). FINDINGS: Dirichlet groups of unequal size raise ValueError (task_common.py:161); exlude_dirichlet_from_design leaves elements in neither set. |
| C50 | Element lookup by nodes returns exactly the touching elements, for the mesh given | cache as association list keyed by id | partial | 3 | Proved for every call history in which an id always denotes the same mesh; REFUTED when a freed mesh's id is reused (cache keyed by id(mesh), utils.py:203-213). |
| C51 | Orientation repair yields non-negative tetrahedra and is idempotent | determinants over R | proved | 4 | Tetrahedra in full. Hexahedra: corner determinant, vertex set, idempotence; FINDING: swapping nodes 1 and 3 only leaves every left-handed box tangled (utils.py:50-52). |
| C52 | Element volumes are the geometric volumes | determinants over R | partial | 5 | Tetrahedra exact, also after repair. REFUTED for hexahedra: every parallelepiped gives 7/6 of its volume in the numbering of the source's drawing and 5/6 in scikit-fem's numbering (composer.py:224-246); ratios still right for boxes. |
| C53 | Exported sub-meshes keep exactly the solid elements with correct geometry | list renumbering | proved | 2 | Any mesh, design set, density, threshold; also no vertex duplicated or unused; error exactly when nothing is solid. |
| C54 | Scaling a task and unscaling it restores it | task record with single/multi load representation | partial | 3 | Several loads: exact. REFUTED for a single load: n_tasks becomes the number of dofs after scale() (task_elastic.py:117-125); element volumes are not rescaled. |
| C55 | Solver options are validated and never silently replaced unless permitted | decision tables | partial | 17 | Proved: no replacement when fallback is not allowed, PETSc merging, spdirect validation. REFUTED parts: with fallback allowed an unknown name is silently solved directly; the convergence flag is ignored; the single-load path ignores the caller's fallback flag ('auto' always falls back); the PETSc config silently replaces explicit cg/gamg for petsc_spdirect. |
| C56 | Multi-load compliance equals the per-load compliances and scales quadratically with load | linear solve oracle | proved | 5 | Any solvers that solve the enforced system (numerical error not modelled); supports must exclude zero-energy motions. |
| C57 | Von Mises stress and strain energy density are non-negative and physically consistent | polynomial inequalities over R | proved | 11 | Full. |
| C58 | Lame parameters represent the given Young's modulus and Poisson ratio | algebra over R | proved | 4 | Full. |
| C59 | Element strain energies are non-negative and add up to half the compliance | quadratic form of the assembled matrix = sum of element energies; sum exchange | proved | 6 | scikit-fem abstracted to quadrature weights and basis gradients (weights >= 0). |
| C60 | Adding material never increases compliance | principle of minimum potential energy: compliance as a maximum over displacements | proved | 3 | Any equilibrium states (existence not assumed of the theorem's user beyond the solver returning one). |
| C61 | condition.vtu shows supports, loads and the design region | list model of the two colour arrays | partial | 6 | Nodes proved when all three boundaries exist, elements proved for the domain as built. REFUTED: without a Robin boundary (all elastic tasks) every node is written as 3; elements taken out by exlude_dirichlet_from_design show as free or 0; free_elements uses dof numbers as node numbers and can miss a wholly free element. |
| C62 | The sensitivity handed to the update is the gradient of the reported compliance | second-order expansion of the compliance between two equilibria, squeeze, chain rule through filter adjoint and projection | proved | 1 | Exact reals; linear solvers assumed to solve the supported systems; projected design densities above the 1e-6 floor; spatial filter, elastic problem. RAMP excluded (C16 refutes its derivative). |
| C63 | Every iteration meets the volume constraint or pins the multiplier | the update's fields are unfolded once; bisection invariant of C19; scatter/pin as placement of the design densities | proved | 3 | Exact reals. The tolerances 1e-4 and 1e-5 are the code's constants. |
| C64 | A restart continues from the densities it stored | the filter matrix is rebuilt by every forward; induction over the schedule | proved | 3 | Proved for equal running scale. The code does not store running_scale: what then differs is C25. |
| C65 | The volume gradient in the KKT residual is the gradient of the constrained volume | chain rule through projection and the filter's adjoint; uniform design as counterexample | partial | 3 | REFUTED: the code uses v/V (no filter, no projection slope). The true gradient is proved (C65_volume_gradient); for uniform designs at the threshold and beta >= 3 the code is off by more than 25 percent (C65_kkt_volume_gradient_refuted). |
| C66 | Temperatures: prescribed where prescribed, balanced elsewhere | the assembled matrices tested with v are the weak form; enforced rows; positive definiteness of the form gives regularity and uniqueness | proved | 10 | Exact reals, exact linear solver. Includes the refutation for load cases with different node sets (C66_different_nodes_refuted, with an instance). |
| C67 | Vertex densities are means of the densities around the vertex | index arithmetic of np.repeat against the row-major ravel; two hexahedra as counterexample | proved | 5 | Includes the refutation: two hexahedra in scikit-fem's node order exchange their densities (C67_wrong_elements_refuted). |
| C68 | Temperature fields obey the laws of linear heat conduction | uniqueness of the weak solution; M-matrix argument with the positive part as test field | proved | 5 | C68_instance meets the hypotheses of the maximum principle. |
| C69 | Without a Robin surface there is nothing to optimise | the constant field solves the weak problem; uniqueness | proved | 1 |  |
| C70 | The thermal compliance sensitivity is the derivative of the thermal compliance | closed form of the compliance in the energy of the excess temperature; second-order expansion with Cauchy-Schwarz; squeeze | proved | 10 | Exact derivative for every design with densities in (0,1) and every direction in which the interface layer is differentiable (C70_derivative), every held temperature. Refutations with instances: wrong sign for /g/>/A/ (C70_sign_refuted, C70_instance: -3 times the reported value); wrong vertex densities (C70_vertex_densities_refuted). Exact reals, exact linear solver. |
| C71 | Sensitivities belong to the chosen objective and interpolation law | case analysis; closed form of the two-node bar | proved | 4 | Refutations with instances. |
| C72 | What a heat task accepts and what it does with it | case analysis over the argument shapes | proved | 7 | The objective's own array conversions of list arguments (np.full) are modelled up to length errors. |
| C73 | The heat exchange objective measures the heat exchanged at the interface | linearity and positivity of the interface integral | proved | 7 | Refutations with instance C73_instance. |
| C74 | What histories.npz contains after any sequence of runs, interruptions and restarts | invariant over the sequence of processes: file contents and recorder contents against the completed iterations | proved | 9 | Recorder contents abstracted to the iteration numbers they belong to. Includes the refutations of the plain reading (one entry per iteration in all cases). |
| C75 | Boundary tags of a mesh become the boundary conditions of the task | stable insertion sort is a sorted permutation; strictly sorted arrangements are unique | proved | 9 | ASCII digits. Includes the refutations (typo in the elastic support pattern, plain dirichlet tag on heat meshes, equal numbers). |
| C76 | A surface load has the given resultant, direction and place | exchange of the sums over nodes and facets with the partition of unity | proved | 4 | Facet integrals abstract: areas positive, nodal integrals of the shape functions add up to the area (partition of unity); exact reals. |
| C77 | Elements adjacent by a common node | counting characterisation of the assembled matrix; invariants of the neighbour table; sorted sets are unique | proved | 6 | csr_matrix adds duplicates modulo 256 (uint8). Includes the refutations of the documented 'A[i,j]=1' and of the agreement for negative numbers. |
| C78 | Elements adjacent by a common face | the face table lists the owners of each face; conforming faces have at most two owners | proved | 6 | Includes the refutations (faces with three owners; scikit-fem's hexahedra). |
| C79 | The element Helmholtz filter: what it preserves and what its gradient is | discrete maximum principle at an extremal element; Gaussian elimination for existence; symmetric exchange coefficients; unit vectors as tests for the converse | proved | 11 | Exact reals; the iterative solvers are taken to return a solution. Includes the refutations (chain rule on graded meshes with C79_instance, hexahedra, units of length). |
| C80 | The box meshes | lattice arithmetic of the tensor mesh; the nodes of an element from its index by division with remainder | proved | 6 | Exact reals. skfem's init_tensor and refined are modelled (their node numbering is an external contract). Includes the refutations (volumes, filter). |
| C81 | The functional solver wrappers | the binding algorithm against a declarative reading of a signature | proved | 5 | Includes the refutation of the multi load wrappers. |
| C82 | What the VTU files contain | association-list invariants of the data dictionaries; the Jacobian of the trilinear map changes sign | proved | 5 | meshio is modelled by the arguments it gets and by its length check. Includes the refutation for hexahedra; C82_right_order shows the permutation that would be right. |
| C83 | The frames of the animation | digit strings of equal length compare as numbers; sorted permutations are unique | proved | 2 | Prefixes and paths without wildcards. Includes the refutation from 10^8 on. |
| C84 | Bounds in IEEE binary64 | round-to-nearest is monotone and exact on floats, so clipping bounds survive; Flocq's correctness theorems of the operations; induction over the bisection and the run | proved | 9 | Flocq's binary64, round to nearest even. libm functions are parameters with the sanity conditions in the statement. Includes the refutations (LogMOC with rho_min = 0, E <= E0). |
| C85 | Reported von Mises stress | linearity of the stress, Cauchy-Schwarz for the von Mises seminorm, invariance of trace and Frobenius norm under rotations, the bilinear form of C56 | proved | 8 | The statement describes the code; the docstring's reading (values are stresses) is refuted by C85_is_the_stress_iff_refuted. |
| C86 | Timing charts | permutation of the statistics, C42's partition of self-times, injectivity of labels and of the categorical axis, invariant of the running means (C43) | proved | 18 | One-character separators. matplotlib's contract: pie divides by the sum and rejects negative sizes, a categorical axis gives equal labels one position. The statement describes the code, with the refuted readings (..._refuted) as part of it. |
| C87 | Histories as objects and their comparison | induction over the collection; numpy's stacking as a total function on uniform data; element-wise characterisation of allclose | proved | 9 | Values are real numbers (no NaN). Symmetry and transitivity of the comparison are refuted. |
| C88 | Selecting boundaries by coordinate ranges, and the built-in problems | lattice description of all facets of a box mesh; centroids by summation; composition with the C49, C76, C80 theorems | proved | 11 | scikit-fem's facet enumeration is any list naming each hexahedron face once; ranges and lengths are real numbers. 'The load acts on the surface only', 'only x = 0 is clamped' for very fine meshes and 'every named problem can be built' are refuted. |
| C89 | Analyses with the conjugate gradient solver | the SciPy iteration as a recursion; conjugacy of directions by induction in the subspace of held motions; termination from the dimension argument of LinAlg; Galerkin orthogonality for the compliance | proved | 7 | Exact arithmetic. scipy.sparse.linalg.cg is modelled from its published algorithm (SciPy >= 1.12), not from /repo. 'A result that did not converge is reported' is refuted. |
| C90 | The element based Helmholtz filter as an object | invariant over call histories (the solver in use was built from the current matrix); the maximum principle of C79 as a bound on the inverse; conjugate gradient termination of C89 | proved | 13 | SuperLU is any exact solver for systems with one solution, PyAMG any function of the matrix it was built from. Objects constructed without matrices are not modelled. Small meshes, assignment to solver_option and forgotten tolerances are refutations. |
| C91 | PETSc is asked for what the options say | PETSc as an oracle with the KSP object as a record changed by the setters in call order; induction over the columns; Cauchy-Schwarz for the compliance error | proved | 19 | PETSc is an oracle: what setters and setFromOptions do is modelled as documented. The four 'Refuted' items are proved of the code and are the reason the ideal statement needs them as exceptions. |
| C92 | Multi-load heat solvers called directly | the caller's array as state; induction over the load loop; uniqueness of the enforced system | proved | 8 | SuperLU is any function exact on systems with one solution. The refutations concern the two solvers documented to assume identical node sets. |
| C93 | Energies reported by the heat analysis | weak form of the adjoint system with a lifting of the held values; derivative of the discrete temperature by the adjoint identity; induction over call histories | proved | 15 | Real arithmetic; the direct solver is exact. The refutations are proved of the code and delimit the positive theorems. |
| C94 | Whole optimisation iterations on heat conduction tasks | composition of the heat analysis with the generic update lemma (advance); adjoint of the filter; invariant over runs; explicit three-bar instance solved through the maximum principle's constant field | proved | 10 | Real arithmetic; exact linear solver. A NaN density appears as NotModelled. The two refutations are theorems about the code and delimit the positive ones. |
| C95 | Whole optimisation iterations with the LogMOC update | composition of the analyses with the LogMOC update; generic lemma on writing design densities and pins; the update's volume chain is the gradient of the fraction (C65) and the sensitivities that of the compliance (C62), so the update's argument is the Lagrangian's derivative, and C23 gives the direction; induction over runs | proved | 10 | Real arithmetic; exact linear solver. The descent theorem excludes the case where all volume derivatives are below 1e-8 (np.allclose), in which the code swaps filter.gradient for filter.forward. The two refutations are theorems about the code and delimit the positive ones. |
| C96 | Whole runs from a configuration object | composition of the configuration, scheduler, driver and iteration models; the driver's trace is a chain (C28), a smooth-driver invariant carries densities and running scale through all calls, C26 makes every iteration succeed, C63 gives the final volume; the refutations run the default configuration on a concrete task | proved | 17 | Real arithmetic; exact linear solver; spatial filter, elastic task, OC update, scaling off; recording, file output and logging are not in this composition (C30-C43, C74). Fields of other kinds than their annotations are not modelled. |
| C97 | The stiffness matrix of a mesh file | the assembled form is identified with the composer's form at inverted Lame parameters; the characterisation of the single correct material evaluates the claim on a two-function basis (a dilation and a shear) | partial | 10 | Refuted part: the material is not the one asked for. scikit-fem's linear_elasticity(Lambda, Mu) is library code, modelled from its documented definition. Real arithmetic. |
| C98 | Mesh statistics, task accessors and surface fluxes | second smallest of the sorted distances is the minimum over the other points; sorting lemmas for the median; volumes by permutation of index sets | partial | 13 | Refuted parts as listed. The k-d tree is modelled by its contract (sorted distances); printing format, histogram pictures and the empty mesh are not modelled. |
| C99 | A whole LogMOC run from a configuration object | the generic driver lemmas with an invariant indexed by the next iteration (the running scale exists from iteration 2 on); the restart theorem by the driver lemma for an iteration that always fails | partial | 8 | Refuted part: restarting. Spatial filter; scaling=True not modelled; real arithmetic. |
| C100 | A whole OC run on a heat task from a configuration object | the generic driver lemmas with the iteration theorems of C94 | proved | 4 | The compliance objective is excluded because the code fails there (C94). Spatial filter; scaling=True not modelled; real arithmetic. |
| C101 | The range of the default (nodal Helmholtz) filter | discrete maximum principle for matrices with non-positive off-diagonal entries and positive row sums; the row of squares reduces to a rod by symmetry and is solved exactly | partial | 5 | Refuted part: small radii (the default radius on a unit mesh). Real arithmetic; the sparse solver is its contract. |
| C102 | Whole iterations with the default (nodal Helmholtz) filter | the iteration theorems of C26, C63, C94 and C95 redone for the Helmholtz filter, with its range (C101) in place of the spatial filter's convolution | partial | 9 | Refuted parts: gains are erased; LogMOC's volume slope near fixed elements. Real arithmetic; the linear solver is its contract. |
| C103 | Whole runs with the default filter type, from the default configuration objects | the run theorems of C96, C99 and C100 redone for the default filter on top of C102 and C101 | partial | 14 | Refuted parts: resumed LogMOC runs; coarse meshes. Real arithmetic; linear solvers are their contracts. |
| C104 | scaling=True: which design a scaled task gets | the scaled task is derived from the original one; equilibrium is unique, so displacements scale; C21 turns scaled sensitivities into equal updates; induction over the run | partial | 14 | Refuted parts: single loads, radius, heat tasks. Real arithmetic; linear solvers are their contracts; how scikit-fem's basis changes with the mesh is taken from the definition of isoparametric elements. |
| C105 | sensitivity_filter=True with the default filter | bounds for the discrete Helmholtz problem (C101) give the sign of the filtered sensitivities; equilibrium is linear in the load, so sensitivities shrink with its square | partial | 7 | Refuted parts: tasks with fixed elements. Real arithmetic; linear solvers are their contracts; the radius is large enough for the discrete maximum principle. |
| C106 | Loops run in parallel give the sequential result for every schedule | a small-step machine with shared memory; invariant: each worker's cells hold what it alone would have computed, frame property for the others; a step count that every access lowers | partial | 7 | Refuted part: inverted elements. Memory accesses are atomic and sequentially consistent; real coordinates. |
| C107 | LogMOC's design depends on the unit of the loads | equilibrium is unique and linear in the load; the reported sensitivity is the derivative (C62), so the slope of C95's Lagrangian is F^2 dc + coeff dv; explicit load levels; with the normalised chain the whole Lagrangian gradient is homogeneous in F^2 (induction over the run) | partial | 7 | Refuted part: independence of units. Real arithmetic; SIMP, spatial filter; linear solvers are their contracts. |
| C108 | Numbering, position and orientation do not matter; symmetric tasks keep symmetric designs | element sums are invariant under permutations and stiffness forms under mirroring; equilibrium is unique, so displacements correspond; filter rows, percentile, maximum, volume and hence every bisection decision are invariant; induction over the run | proved | 22 | Real arithmetic (sums in another order round differently); linear solvers are their contracts; spatial filter. Numbering and mirror images: elastic tasks; rotations by any angle: elastic and heat tasks. |

## 6. Print Assumptions
Generated by tools/axioms.py from the compiled development; 659 theorems.

### nothing (closed under the global context) — 98 theorems

C04_every_iteration_on_a_plateau, C04_plateau_boundary_binary64_refuted, C06_sawtooth_reset_binary64_refuted, C12_every_series_drawn_once, C12_panels_fit_and_are_distinct, C31_find_latest_is_the_newest, C31_listing_order_irrelevant, C31_restart_from_explicit, C31_torn_checkpoint_blocks_restart_refuted, C31_backup_file_taken_for_checkpoint_refuted, C31_empty_directory_restart_raises, C32_name_round_trip_partial, C32_names_distinct, C32_seven_digits_not_recognised_refuted, C33_resumes_own_checkpoint_partial, C33_stale_checkpoint_wins_refuted, C35_variable_restored_on_every_exit, C35_environment_unchanged, C35_mode_valid_inside, C35_mode_validation, C36_parser_defaults_rejected_refuted, C36_str2bool, C37_plain_fields_survive_partial, C37_schedule_data_survives, C42_children_are_subsections, C46_gradient_needs_forward, C49_partition, C49_loaded_not_designed, C49_pinned_sets, C49_errors, C49_facets, C49_unequal_dirichlet_groups_rejected, C49_exclude_dirichlet_breaks_partition, C49_exclude_dirichlet_covers, C49_design_mask, C50_lookup_exact, C50_recycled_id_refuted, C50_empty_boundary_lists_refused, C55_no_fallback, C55_unknown_solver, C55_fallback, C55_unknown_solver_fallback_refuted, C55_convergence_flag_ignored, C55_merge_dict, C55_merge_options, C55_spdirect_options, C55_single_load_solver, C55_auto_choice, C55_fallback_flag_ignored, C55_auto_replaces_without_permission_refuted, C55_multi_load, C56_no_load, C61_node_colours, C61_no_robin_refuted, C61_element_colours, C61_excluded_colour, C61_free_elements, C61_free_elements_refuted, C74_optimizer_recorders, C75_numbered_tags, C75_consecutive_loads, C75_dict_order, C75_refuted_equal_numbers, C75_refuted_heat_plain, C75_missing_tags_heat, C76_direction_shapes, C77_fast_matrix, C77_slow_matrix, C77_refuted_ones, C77_adjacent_elements, C77_out_of_range, C77_refuted_negative, C78_symmetric, C78_neighbours, C78_listed_once, C78_tetrahedra, C78_refuted_three_at_a_face, C78_refuted_hexahedra, C81_binding, C81_single_load_wrappers, C81_multi_load_wrappers_refuted, C81_solve_u_wrapper, C81_required_arguments, C82_written_data, C82_iteration_file, C83_frames_in_order, C83_refuted_nine_digits, C86_plot_kinds, C87_as_object_iff, C87_as_object_values, C88_readers, C91_stand_in, C97_which_mesh, C98_accessors, C98_force_nodes_refuted, C104_one_dof_refused_again, C108_element_sets, C108_sets_instance

### `ClassicalDedekindReals.sig_forall_dec` — 14 theorems

C39_mixed_entries_refused, C39_unregistered_series_imported_plain, C41_nesting_restored, C41_one_duration_per_section, C46_gradient_wrong_length, C72_design_robin_has_no_effect, C72_rejected, C72_robin_rejected, C92_enforce_outcome, C92_no_load, C92_failure_keeps_array, C99_settings_from_fields, C106_volumes_end, C107_new_optimizer

### `ClassicalDedekindReals.sig_forall_dec`, `ClassicalDedekindReals.sig_not_dec`, `Classical_Prop.classic`, `FunctionalExtensionality.functional_extensionality_dep` — 254 theorems

C01_value_outcomes, C01_target_held_from_horizon_on, C02_step_between, C02_accelerating_between, C02_decelerating_between, C02_sawtooth_between, C03_step_monotone, C03_accelerating_monotone, C03_decelerating_monotone, C04_binary64_plateau, C04_binary64_value, C04_step_value_on_plateau, C04_plateau_lengths, C05_curvature_one_is_linear, C05_curvature_order, C05_decelerating_mirrors_accelerating, C06_binary64, C06_sawtooth_linear_in_cycle, C06_sawtooth_periodic, C06_sawtooth_never_reaches_target_inside, C06_sawtooth_doc_example_refuted, C08_to_one_climbs_to_one, C09_constant_factories, C10_collection_answers_by_name, C10_key_error_iff_unknown_name, C11_exp_slowdown, C11_exp_accelerate_partial, C13_projection_strictly_increasing, C13_projection_stays_in_unit_interval, C13_full_density_almost_one, C13_symmetric_about_half, C14_projection_derivative_positive, C15_dE_simp_is_derivative_of_E_simp, C15_E_simp_is_the_analysis_modulus, C15_modulus_in_range, C15_modulus_increases, C15_simp_sensitivity_never_positive, C15_simp_sensitivity_is_compliance_derivative, C17_update_respects_bounds_and_move_limit, C17_any_multiplier_respects_bounds, C17_positive_sensitivity_gives_nan, C18_bisection_terminates_consistently, C18_loop_never_exhausts_fuel, C19_tolerance_met_or_multiplier_pinned, C19_finds_the_multiplier, C19_reported_error_is_physical, C20_candidate_monotone, C20_volume_nonincreasing_in_multiplier, C21_one_update_scale_invariant, C21_run_scale_invariant, C21_first_update_ignores_history, C21_running_scale, C22_update_reports_the_residual, C23_element_update_bounds_and_move_limit, C23_element_update_direction, C23_update_closed_form, C23_whole_update_bounds_and_move_limit, C23_whole_update_descends, C24_multiplier_always_in_bounds, C24_ema_bounded_by_largest_penalty, C24_update_applies_dual_step, C25_fresh_logmoc_run_never_fails, C25_logmoc_restart_refuted, C25_oc_restart_same_densities_refuted, C26_iteration_keeps_bounds, C26_run_keeps_bounds, C26_iteration_succeeds, C26_run_succeeds, C26_no_neumann_resets_all_densities, C26_reused_task_freezes_boundary, C26_positive_sensitivity_is_fatal, C26_ramp_positive_sensitivity, C45_kernels, C60_more_material_is_never_worse, C62_reported_sensitivity_is_the_gradient, C63_iteration_meets_the_volume, C63_multiplier_removes_material, C63_attainable_volume_is_met, C64_same_densities_same_future, C64_interrupted_run_continues, C65_kkt_volume_gradient_refuted, C66_interface_layer, C66_temperatures, C66_temperatures_without_robin, C66_single_value_holds_first_set_only, C66_different_nodes_refuted, C66_analysis_succeeds, C66_instance, C66_different_nodes_instance, C67_refusals, C68_instance, C68_superposition, C68_temperature_scale, C68_equilibrium, C68_maximum_principle, C69_without_robin_nothing_to_optimise, C70_derivative, C70_held_at_zero, C70_correct_with_true_means, C70_moving_together, C70_vertex_densities_refuted, C70_compliance_derivative, C70_correct_when_held_at_zero, C70_sign_refuted, C70_held_at_ambient, C70_instance, C71_objective_ignored, C71_average_refuted, C71_ramp_factor, C71_ramp_refuted, C72_flag_irrelevant, C72_list_of_coefficients_refuted, C73_value, C73_uniform_design_is_zero, C73_ambient_zero_refuted, C73_bounds, C73_temperature_scale_refuted, C73_weighted_mean_is_constant_refuted, C73_instance, C80_tet_refinements, C84_oc_element, C84_multiplier, C84_oc_run, C84_logmoc_element, C84_logmoc_positive_lower_bound, C84_logmoc_zero_lower_bound_refuted, C84_projection, C84_stiffness, C84_stiffness_upper_bound_refuted, C87_export_compares_equal, C88_toy_msh_names, C88_toy_msh_down, C89_balanced, C89_balanced_by_default, C89_never_above_exact, C89_more_effort_tighter, C90_converges, C93_average_adjoint, C93_average_derivative, C93_average_exact_at_zero, C93_evaluation_succeeds, C93_average_refuted, C93_exchange_adjoint, C93_black_and_white_energies, C93_exchange_derivative, C93_black_and_white_refuted, C93_compliance_energies, C93_energy_uses_last_adjoint, C93_energies_ignore_densities, C93_failed_call_keeps_adjoint, C93_instance, C94_what_is_evaluated, C94_iteration_keeps_bounds, C94_run_keeps_bounds, C94_iteration_succeeds, C94_run_succeeds, C94_compliance_iteration, C94_volume, C94_design_dirichlet_resets_all, C94_instance, C94_compliance_first_iteration_refuted, C95_iteration_keeps_bounds, C95_run_keeps_bounds, C95_iteration_succeeds, C95_fresh_run_succeeds, C95_resumed_run_refuted, C95_multiplier_follows_volume, C95_step_descends_the_lagrangian, C95_design_dirichlet_resets_all, C95_elastic_instance, C95_heat_instance, C96_start_needs_all_values, C96_unknown_interpolation_refused, C96_refused_settings_instance, C96_bracket_order_checked, C96_values_as_configured, C96_last_iteration_at_targets, C96_stops_when_converged, C96_sane_run_succeeds, C96_start, C96_every_iteration, C96_density_criterion_void, C96_sawtooth_fourth_argument_ignored, C96_final_volume, C96_default_move_limit, C96_convergence_before_targets_refuted, C99_values_as_configured, C99_stops_when_converged, C99_start, C99_fresh_run_succeeds, C99_restart_refuted, C99_start_needs_all_values, C100_start, C100_values_as_configured, C100_sane_run_succeeds, C100_stops_when_converged, C102_iteration_keeps_bounds, C102_sensitivities_nonpositive, C102_iteration_succeeds, C102_volume, C102_ramp_gains_erased, C102_heat_gains_erased, C102_logmoc_keeps_bounds, C102_logmoc_succeeds, C102_logmoc_volume_slope, C103_unknown_filter_refused, C103_oc_values_as_configured, C103_oc_start, C103_lm_start, C103_oc_run_succeeds, C103_oc_stops_when_converged, C103_lm_stops_when_converged, C103_lm_values_as_configured, C103_lm_fresh_run_succeeds, C103_lm_restart_refuted, C103_small_radius_refuted, C103_filter_type_no_string_refused, C103_refused_settings_instance, C104_analysis, C104_recorded_energy, C104_iteration, C104_run, C105_option, C105_small_sensitivities_fatal_refuted, C105_enclosed_element_fatal_refuted, C105_small_loads_fatal_refuted, C105_without_fixed_elements, C105_logmoc_removes_refuted, C107_normalized_iteration, C107_normalized_run, C107_normalized_instance, C107_analysis_by_load, C107_step_by_load, C107_opposite_steps_refuted, C108_logmoc_iteration, C108_logmoc_run, C108_logmoc_symmetric, C108_logmoc_instance, C108_analysis, C108_iteration, C108_run, C108_symmetric_designs, C108_instance, C108_diagonal_instance, C108_any_rotation_logmoc, C108_any_rotation_logmoc_instance, C108_any_rotation_filter_instance, C108_any_rotation_analysis, C108_any_rotation_run, C108_any_rotation, C108_any_rotation_instance, C108_heat_any_rotation_analysis, C108_heat_any_rotation, C108_heat_any_rotation_instance

### `ClassicalDedekindReals.sig_forall_dec`, `ClassicalDedekindReals.sig_not_dec`, `FunctionalExtensionality.functional_extensionality_dep` — 87 theorems

C11_exp_accelerate_start_refuted, C13_projection_zero_at_zero, C13_beta_zero_collapses, C14_projection_derivative_is_derivative, C14_inplace_projection_same_numbers, C14_inplace_derivative_same_numbers, C38_feed_appends_one, C38_any_history_of_feeds, C38_errors, C39_stored_summary, C39_ordered, C40_export_import_partial, C40_refuted_empty_series, C40_refuted_other_cases, C45_convex_combination, C45_bounds_and_constants, C45_no_design_element_raises, C45_monotone, C45_gaussian_weights, C45_radius_in_force, C46_adjoint, C46_total_preserved, C57_von_mises_nonnegative, C57_hydrostatic_shift, C57_hydrostatic_zero, C57_von_mises_textbook, C57_von_mises_zero_iff, C57_von_mises_scales, C57_uniaxial, C65_volume_gradient, C65_uniform_growth_rate, C74_one_process, C74_unfinished_writes_nothing, C74_completed_runs, C74_refuted_unfinished, C74_refuted_rewind, C74_fresh_run_replaces, C74_refuted_other_run, C74_refuted_retry, C79_maximum_principle, C79_well_defined, C79_solvable, C79_constants_and_order, C79_volume_kept, C79_self_adjoint, C79_gradient_is_directional, C79_chain_rule_iff, C79_refuted_hexahedra, C79_refuted_units, C80_element_helmholtz_identity, C85_volume_times_stress, C85_is_the_stress_iff_refuted, C85_refinement_dilutes_stress, C85_mean_below_peak, C85_frame_independent, C87_params_latest_iff, C89_always_answers, C89_zero_flag, C89_unconverged_refuted, C90_current_radius, C90_update_is_creation, C90_accuracy, C90_gradient_is_forward, C90_options_checked, C90_options_accepted, C90_unchecked_option_refuted, C90_stale_solver_refuted, C90_small_mesh_refuted, C90_tolerance_forgotten_refuted, C90_jacobian, C90_missing_factorisation, C91_inexact_compliance, C93_exchange_gradient, C97_right_for_one_material_only, C97_default_material_refuted, C98_distances, C98_zero_distance_means_duplicates, C98_single_element_refused, C98_succeeds, C98_design_outside_mesh_refused, C98_bars_partial, C98_absent_boundary_bar_refuted, C98_design_and_loaded_volume, C98_repeated_design_element_refuted, C98_scaled_task, C104_radius_is_not_scaled, C104_same_radius_refuted

### `ClassicalDedekindReals.sig_forall_dec`, `Classical_Prop.classic`, `FunctionalExtensionality.functional_extensionality_dep` — 7 theorems

C86_run_chart_time_share_iff, C86_run_chart_time_share_refuted, C87_compare_iff, C87_reflexive_and_blind, C88_selection, C88_toy_base, C104_heat_task_refused_after_change

### `ClassicalDedekindReals.sig_forall_dec`, `FunctionalExtensionality.functional_extensionality_dep` — 199 theorems

C01_accepted_config_builds, C06_sawtooth_every_iteration_in_a_cycle, C07_from_defaults_accepts_exactly, C07_rejections_are_ValueError, C09_from_config_repeatable, C09_classes_agree_with_factories, C09_to_one_classes_agree_with_factories, C09_constant_schedulers, C16_dE_ramp_is_derivative_refuted, C16_true_ramp_derivative, C16_dE_ramp_negative_iff, C16_ramp_sensitivity_sign_refuted, C16_ramp_sensitivity_nonpositive_partial, C16_ramp_modulus_in_range, C16_inplace_variants_agree, C19_default_settings_suffice, C22_residual_bounds_every_interior_element, C22_residual_attained_or_zero, C22_residual_below_tolerance_iff, C22_stationary_element_has_large_residual, C24_augmented_follows_volume_error, C25_scale_smoothing, C25_centred_mean_is_zero, C26_initial_densities, C27_chunked_equals_single, C28_iterations_once_in_order, C28_completed_optimizer_is_frozen, C29_stops_at_first_converged_iteration, C29_no_early_stop_when_unchecked, C29_missing_residual_raises, C30_checkpoints_exactly_when_documented, C30_record_times_out_of_range_refuted, C31_restart_after_any_crashes_partial, C34_single_step_retry_partial, C34_failed_chunk_repeats_iterations_refuted, C36_schedules_as_given_partial, C36_other_options_copied, C36_missing_step_count_rejected_refuted, C36_option_starting_with_p_lost_refuted, C36_missing_option_rejected, C36_default_schedules, C37_loaded_config_unusable_refuted, C37_neumann_scale_must_end_at_one, C42_statistics_exact, C42_self_times_partition, C42_separator_in_name_refuted, C43_running_average_is_mean, C43_returned_values, C44_sorted_permutation, C44_bad_key, C44_self_time_summary, C47_averaging_in_range, C47_node_mean_in_range, C47_constants_preserved_partial, C47_fixed_elements_refuted, C48_gradient_is_clamped_forward, C48_not_adjoint_any_sign_refuted, C48_not_adjoint_nonpositive_refuted, C48_adjoint_iff_selfadjoint_partial, C51_tet_orientation, C51_tet_idempotent, C51_hex_corner, C51_hex_repair_tangles, C52_tet_volumes, C52_tet_volumes_after_repair, C52_hex_volume_refuted, C52_hex_volume_skfem_refuted, C52_hex_ratio_partial, C53_export, C53_export_error, C54_scale_unscale_multi, C54_single_load_refuted, C54_volumes_stale, C55_config_default_spdirect, C55_config_silently_replaces_refuted, C55_config_spdirect_refuses, C55_options_of_other_backends, C56_multi_is_single, C56_scales_quadratically, C56_supports_and_sign, C56_cases_independent, C57_energy_nonnegative, C57_energy_zero_iff_strain_zero, C57_rotation_free, C57_stress_symmetric, C58_lame_recovers_young_poisson, C58_lame_positive, C58_lame_linear, C58_uniaxial_test, C59_stiffness_symmetric, C59_stiffness_semidefinite, C59_element_energy_nonnegative, C59_energies_sum_to_compliance, C59_solvable_for_every_density, C59_rigid_motion_free, C60_stiffer_is_never_worse, C60_modulus_scaling, C64_restart_restores_densities, C66_virtual_factors, C66_virtual_factors_single_point, C67_nodal_density_between, C67_what_is_averaged, C67_uniform, C67_wrong_elements_refuted, C72_coefficients_at_integration_points_refuted, C72_instance, C75_refuted_elastic_supports, C75_plain_tags, C75_missing_tags, C76_load_cases, C76_linear_and_order, C76_accepted, C79_hexahedron_volume, C80_fewest_cells, C80_bricks, C80_repair_does_nothing, C80_volumes_refuted, C82_hexahedra_refuted, C82_box_refuted, C82_right_order, C85_symmetric_and_rigid, C85_energy, C85_mean_stress, C86_pie_moving_average, C86_bar_moving_average, C86_bar_positions, C86_bars_overlap_refuted, C86_run_chart_shares, C86_stacked_rows, C86_stacked_error_iff, C86_stacked_total, C86_stacked_deep_sections_missing, C86_stacked_average_refuted, C86_stacked_self_time_refuted, C86_pie_wedges, C86_pie_values, C86_pie_error_iff, C86_pie_self_time, C87_symmetric_refuted, C87_transitive_refuted, C87_almost_symmetric, C88_toy2, C88_end_face, C88_refuted_inner_load, C88_refuted_fine_support, C88_coarse, C88_orientation, C91_options_are_used, C91_options_then_database, C91_dict_and_none, C91_prefix_selects, C91_unsupported_is_ignored_refuted, C91_spdirect_runs, C91_spdirect_overridden_refuted, C91_columns, C91_columns_exception, C91_one_dimensional, C91_missing, C91_missing_analyses, C91_flags_are_ignored_refuted, C91_step_limit_refuted, C91_elastic_multi, C91_heat_multi, C91_instance, C92_each_load_its_own_nodes, C92_same_nodes_same_result, C92_shared_matrix_refuted, C92_missing_nodes_refuted, C92_instance, C96_settings_from_fields, C96_default_config_is_sane, C97_stiffness_from_file_partial, C97_which_files, C97_refused_files, C97_default_material, C97_degenerate_materials, C97_degenerate_materials_reference, C97_degenerate_instance, C98_surface_fluxes, C99_default_config_is_sane, C101_in_range, C101_gradient_range, C101_row_coarse, C101_row_value, C101_negative_density_refuted, C103_default_config_is_sane, C104_scaled_again, C104_unscale_restores, C104_second_optimizer_refuted, C104_scaled_twice_instance, C104_unit_box, C104_kkt_tolerance, C105_fixed_elements_count_as_one, C106_orientation_any_schedule, C106_orientation_ends, C106_volumes_any_schedule, C106_tet_volumes_unchecked_refuted, C106_repair_then_volumes, C106_once_each_needed
