# A Rocq (Coq 8.16.1) model of scikit-topt

Source modelled: `/repo/scikit-topt/sktopt` (paths below are relative to it).
Nothing in `/repo` is executed; the tie between model and code is the citation
`file:lines` on every model definition.

This file is generated: `tools/design_head.md` (sections 1-4, written by hand),
then a table from `properties.jsonl` + `MANIFEST.json`, then the axioms of every
theorem (`tools/axioms.py`, from `Print Assumptions`).

## 1. Conventions

* **Layering.**  For each area `X`: `X_model.v` (executable/total Gallina model,
  branch by branch, with citations; no proofs), `X_spec.v` where a property
  needs vocabulary of its own (short, independent of the model's helpers),
  `X_proofs.v` (lemmas), `X_props.v` (theorems `Cnn_…`, `Print Assumptions`, and
  the non-vacuity `Example`s).
* **Exceptions** are values: `res A := Ok a | Err exn` (`Base.v`).  `NotModelled`
  marks behaviour outside the model (a NaN modulus, a filter radius 0); theorems
  that say `= Ok …` therefore exclude it.
* **Numbers.**  Python `int` is `Z` or `nat`; Python/NumPy `float` is a real
  number of the standard library `Reals` (exact arithmetic).  Rounding,
  overflow and signed zeros are *not* modelled, except where a theorem says so
  (`…_binary64…` and C84 use the stdlib `SpecFloat` arithmetic, proved equal to
  Flocq's, whose theorems relate it to the reals).  NaN and +inf are
  modelled where the code can create them (`np.power`) by `option R` / `fval`.
* **Arrays** are lists (or functions on indices where only pointwise facts are
  used); in-place mutation returns the new array, buffers that alias are a heap.
* **Loops** `for` become folds / structural recursion, the one `while True`
  becomes recursion on fuel with an explicit out-of-fuel result which a theorem
  excludes.
* **External code** (FEM assembly and sparse solves, KD-tree, matplotlib, the
  file system, the clock) enters as function arguments/section variables that
  are generalised in the theorems; every assumption on them is a hypothesis of
  the theorem.  No axioms are declared.
* A property that the code violates is proved as `…_refuted` (or a theorem named
  after the finding) with a witness or a general counter-statement, next to the
  strongest true statement we could prove; the claim is then `partial`.

## 2. Trusted base

* Coq's kernel (8.16.1).  No kernel check is switched off, no plugin is used;
  `vm_compute` (used for closed examples) is part of the kernel.
* The axioms of the standard library listed per theorem in section 6; they are
  `ClassicalDedekindReals.sig_forall_dec`, `ClassicalDedekindReals.sig_not_dec`
  (the construction of the reals),
  `FunctionalExtensionality.functional_extensionality_dep` and
  `Classical_Prop.classic` (used by the library's analysis).  No other library's
  axioms and none of our own.  Flocq (the only other library used) contributes only
  definitions and theorems (`Bin64.v` uses Flocq).
* The reading of the Python code recorded in the citations, and the contracts of
  external libraries named in section 4.

## 3. What is modelled

| files in /repo/scikit-topt/sktopt | model |
|---|---|
| tools/scheduler.py (all schedules, configs, collections, factory classes) | Sched_model, Sched_float |
| plotting layout of tools/scheduler.py and tools/history.py (panel arithmetic) | Plot_model |
| core/projection.py, core/derivatives.py, fea/composer.py interpolations and Lame parameters (incl. in-place variants on a heap) | Material_model |
| core/optimizers/oc.py (bisection, sensitivity scale, KKT residual, rho_update) | OC_model |
| core/optimizers/logmoc.py | LogMOC_model |
| core/optimizers/common_density.py driver: optimize, optimize_steps, state, finalisation, records | Driver_model |
| checkpoints and restart: core/misc.py, common_density.py | Ckpt_model (+ Session_spec) |
| core/misc.py CLI, configs (dataclasses, JSON), sensitivity-mode context manager | Config_model |
| tools/history.py (HistoryCollection etc.) | History_model |
| tools/timer.py recording, statistics, running means | Timer_model |
| tools/timer.py charts; common_density.py _save_timing_plot | Charts_model |
| filters/spacial.py | Filter_model |
| filters/helmholtz_filter_nodal.py | Helmholtz_model |
| mesh/task_common.py, mesh/utils.py, mesh/visualization.py, volumes in fea/composer.py, scale/unscale | Mesh_model |
| fea/solver option handling | Solver_model |
| fea/composer.py assembly, strain energy, von Mises; fea/solver_elastic.py compliance | Fea_model |
| fea/composer.py stress tensors | Stress_model |
| mesh/task_common.py export_analysis_condition_on_mesh | Cond_model |
| common_density.py initialize_density and the loop body, composed of the above | Iter_model |
| fea/solver_heat.py state equation, Robin and interface terms, objectives, sensitivities; mesh/task_heat.py from_facets, update_robin_bc | Heat_model |
| histories.npz over several processes (common_density.py recorder, tools/history.py export/import) | HistSess_model |
| mesh/task_elastic.py from_mesh_tags, assemble_surface_forces; mesh/task_heat.py from_mesh_tags | Tags_model |
| mesh/utils.py adjacency helpers; fea/composer.py adjacency_matrix | Adj_model |
| filters/helmholtz_filter_element.py | EHelm_model |
| mesh/toy_problem.py box meshes | Box_model |
| fea/solver.py | Wrap_model |
| core/visualization.py export_mesh_with_info, images2gif | Out_model |
| tools/scheduler.py step and sawtooth in binary64 | Sched_float, Float_props (with Bin64) |
| oc.py, logmoc.py, projection.py, composer.py per element in binary64 | Upd64_model |
| common_density.py:1013-1157, oc.py:16-250 for a renumbered or mirrored task | Iter_model, OC_model |
| core/optimizers/logmoc.py:150-258 with loads in other units | LMIter_model |
| mesh/utils.py:94-127, fea/composer.py:149-161, 251-311 (parallel=True) | Par_model |
| core/optimizers/common_density.py:1102-1106 with filters/helmholtz_filter_nodal.py:180-198 (sensitivity_filter) | HzIter_model |
| core/optimizers/common_density.py:539-540, 626-636, mesh/task_common.py:403-422, mesh/task_elastic.py:113-125 (scaling=True) | Scale_model |
| core/optimizers/common_density.py:681-703 (parameterize) and whole runs with the default filter | HzRun_model |
| filters/helmholtz_filter_nodal.py:160-233 inside common_density.py:1013-1157 (the default filter in the loop) | HzIter_model |
| core/optimizers/logmoc.py:13-88, common_density.py:643-1243 (whole LogMOC and heat runs) | LRun_model |
| mesh/task_common.py:424-505, mesh/task_elastic.py:126-148, 261-263, mesh/task_heat.py:23-57 (statistics, accessors, fluxes) | Stats_model |
| mesh/loader.py:36-43 (load_stiffness_matrix) | Load_model |
| core/optimizers/common_density.py:208-261, 349-389, 643-918, 966-1243 with oc.py:96-122 (configuration to whole run) | Run_model |
| core/optimizers/common_density.py:1013-1157 with logmoc.py:90-258 (whole iterations) | LMIter_model |
| core/optimizers/common_density.py:1013-1157 with fea/solver_heat.py (heat tasks) | HeatIter_model |
| fea/solver_heat.py:325-411, 529-549, 705-926 (lambda_all, energies) | HeatAdj_model |
| fea/solver_heat.py:27-195 (effects on u_all) | HeatAlt_model |
| fea/solver_petsc.py:127-237; fea/_petsc_compat.py:22-75; PETSc branches of fea/solver_elastic.py:61-143, 240-468 and fea/solver_heat.py:133-195 | Petsc_model |
| filters/helmholtz_filter_element.py:237-262, 280-590 | EFilt_model |
| fea/solver_elastic.py:80-143 and 176-237 with cg_jacobi; scipy.sparse.linalg.cg (library, modelled as published) | CG_model |
| mesh/utils.py:8-15, 130-136, mesh/toy_problem.py:52-250, mesh/loader.py:9-33 | Toy_model |
| tools/history.py data_np_array, as_object, as_object_latest, compare_histories_data_and_plot_type | Cmp_model |

@EXTRA@

## 4. What is not modelled, and external contracts

* scikit-fem's meshes, quadrature and elements: a basis is reduced to quadrature
  weights and basis-function gradients (`fembasis`); `skfem.enforce` is modelled by
  its effect (identity rows, zero right-hand side).  Positivity of weights is a
  hypothesis.
* Sparse solvers: any function; theorems that need a solution assume that it solves
  the system it was given (`solves`, `solver_ok`).
* scipy's `query_ball_point` (closed ball), numpy semantics as described in the
  comments, matplotlib/VTK output (only what is handed over is modelled), the
  `logging` output, joblib/threads.
* Of fea/solver_heat.py: the adjoint fields stored for `energy_multi_load` of the
  non-compliance objectives, and the PETSc solvers beyond the solver contract.
* Floating-point rounding, except in C04, C06 and C84 (see conventions).
* gmsh's meshing in `mesh/toy_problem.py`, `mesh/loader.py` file formats, the GUI
  and example scripts, `mesh` reading by meshio: not modelled.
