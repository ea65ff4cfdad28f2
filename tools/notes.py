STATUS={'C04':'partial','C06':'partial','C11':'partial'}
NOTES={
'C01':'All types; the two documented exceptional cases (sawtooth with num_steps=0, non-positive curvature) are part of the theorem.',
'C04':'Exact arithmetic: proved in full. In binary64 the plateau boundary can move by one iteration; witness in C04_plateau_boundary_binary64_refuted.',
'C06':'Linear interpolation and periodicity proved; the docstring example and the reset at the cycle start in binary64 are refuted with witnesses.',
'C11':'accelerate(0)=init is false (C11_exp_accelerate_start_refuted); everything else proved.',
}
STATUS.update({'C16':'partial','C22':'partial','C25':'partial'})
NOTES.update({
'C13':'Exact reals, 0<beta, 0<=eta<=1. beta=0 collapses to 0 (C13_beta_zero_collapses).',
'C14':'In-place variants modelled on a heap of buffers, including out=rho.',
'C15':'Includes the full adjoint argument: dC_drho_simp is the derivative of the compliance of any symmetric linear system.',
'C16':'REFUTED: dE_drho_ramp is not the derivative (derivatives.py:62) for any p>0, rho>0, and is negative where 2*p*rho>1+p; sign and range results hold where stated.',
'C19':'Includes that an exact multiplier in the bracket is found when the filter is monotone.',
'C22':'Max over interior elements proved; C22_stationary_element_has_large_residual shows the residual does not vanish where the OC update is stationary.',
'C25':'REFUTED: LogMOC restart raises AttributeError (running_scale missing); OC restart resets running_scale and gives different densities. Fresh runs proved fine.',
})
STATUS.update({'C30':'partial','C31':'partial','C32':'partial','C33':'partial','C34':'partial'})
NOTES.update({
'C27':'Any list of calls (steps of any size, also non-positive, repeated optimize) before the final optimize; hypothesis only that the single run does not raise.',
'C28':'All call sequences that raise nothing; a failed call is C34.',
'C29':'Both directions, and the error when no residual was computed.',
'C30':'Exact set of checkpoints proved; REFUTED: record_times > max_iters or 0 raises ZeroDivisionError in the first iteration (common_density.py:1189).',
'C31':'Any number of crashed sessions, any listing order, crash anywhere except inside the checkpoint write; REFUTED for a crash inside np.savez (torn newest file blocks restart) and for files that merely start like a checkpoint.',
'C32':'Proved below 10^6; REFUTED from 10^6 on (misc.py:9 matches exactly six digits).',
'C33':'Holds if the new run has got at least as far as the stale files; REFUTED otherwise (data/ is kept, common_density.py:553-556).',
'C34':'Single-step retries proved; REFUTED for chunks: _iter_next stays at the start of the failed chunk (line 1240 is skipped).',
})
STATUS.update({'C36':'partial','C37':'partial'})
NOTES.update({
'C35':'Guard modelled as a wrapper around an arbitrary environment-changing run that returns or raises.',
'C36':'Mapping and copying proved for every argument dict; REFUTED: the parser defaults (step counts None) raise ValueError, and options starting with p are dropped (misc.py:194-201).',
'C37':'Plain fields survive; REFUTED for every configuration: schedules come back as dicts and init_schedulers raises AttributeError.',
})
STATUS.update({"C38":"proved","C39":"proved","C40":"partial"})
NOTES.update({"C38":"Single feeds and arbitrary feed sequences; latest; KeyError/ValueError cases characterised.","C39":"Stored entry is exactly the min/mean/max(/std) summary; 0 <= std <= (max-min)/2.","C40":"Proved for every recorder built by add and any homogeneous feed history: fed series survive unchanged and if all were fed the collection is identical. Full claim refuted: unfed series, *_header names, a series called file, and mixed scalar/array series."})
STATUS.update({"C41":"proved","C42":"proved","C43":"proved","C44":"proved"})
NOTES.update({"C41":"All finite executions (trees of nested sections with raises/catches, add, reset), any clock, any starting stack.","C42":"Statistics for any execution; self-time partition for one-character separators and names free of it, as the property states (C42_separator_in_name_refuted shows the restriction is needed).","C43":"Any sequence of updates and resets; also the returned list.","C44":"Permutation, order, stability in both directions; ValueError exactly for undocumented keys."})
STATUS.update({"C45":"proved","C46":"proved","C47":"partial","C48":"partial"})
NOTES.update({"C45":"Weights characterised exactly (positive iff within radius and design, sum 1); also a monotone_filter so C19/C20 apply. radius = 0 not modelled; scipy query_ball_point contract trusted.","C46":"Adjoint of the forward map last evaluated, also after update_radius; AttributeError before any forward.","C47":"Proved without fixed elements and for the constant 1; REFUTED with fixed elements for every radius (C47_fixed_elements_refuted). FEM matrices abstract: M positive definite, K semidefinite with zero row sums; result of any correct linear solver.","C48":"REFUTED twice: positive sensitivities are clamped to 0 (every mesh), and the operator is the forward filter rather than its transpose (concrete kite mesh, non-positive v)."})
STATUS.update({"C49":"proved","C50":"partial","C51":"proved","C52":"partial","C53":"proved","C54":"partial"})
NOTES.update({
"C49":"Exactly-once claim needs the requested design ids to be valid and distinct (stated). FINDINGS: Dirichlet groups of unequal size raise ValueError (task_common.py:161); exlude_dirichlet_from_design leaves elements in neither set.",
"C50":"Proved for every call history in which an id always denotes the same mesh; REFUTED when a freed mesh's id is reused (cache keyed by id(mesh), utils.py:203-213).",
"C51":"Tetrahedra in full. Hexahedra: corner determinant, vertex set, idempotence; FINDING: swapping nodes 1 and 3 only leaves every left-handed box tangled (utils.py:50-52).",
"C52":"Tetrahedra exact, also after repair. REFUTED for hexahedra: every parallelepiped gives 7/6 of its volume in the numbering of the source's drawing and 5/6 in scikit-fem's numbering (composer.py:224-246); ratios still right for boxes.",
"C53":"Any mesh, design set, density, threshold; also no vertex duplicated or unused; error exactly when nothing is solid.",
"C54":"Several loads: exact. REFUTED for a single load: n_tasks becomes the number of dofs after scale() (task_elastic.py:117-125); element volumes are not rescaled."})
STATUS.update({"C55":"partial","C56":"proved","C57":"proved","C58":"proved","C59":"proved","C60":"proved"})
NOTES.update({
"C55":"Proved: no replacement when fallback is not allowed, PETSc merging, spdirect validation. REFUTED parts: with fallback allowed an unknown name is silently solved directly; the convergence flag is ignored; the single-load path ignores the caller's fallback flag ('auto' always falls back); the PETSc config silently replaces explicit cg/gamg for petsc_spdirect.",
"C56":"Any solvers that solve the enforced system (numerical error not modelled); supports must exclude zero-energy motions.",
"C57":"Full.","C58":"Full.",
"C59":"scikit-fem abstracted to quadrature weights and basis gradients (weights >= 0).",
"C60":"Any equilibrium states (existence not assumed of the theorem's user beyond the solver returning one)."})
STATUS.update({"C61":"partial"})
NOTES.update({"C61":"Nodes proved when all three boundaries exist, elements proved for the domain as built. REFUTED: without a Robin boundary (all elastic tasks) every node is written as 3; elements taken out by exlude_dirichlet_from_design show as free or 0; free_elements uses dof numbers as node numbers and can miss a wholly free element.","C45":"Weights characterised exactly (positive iff within radius and design, sum 1, gaussian with sigma = radius/3); forward always uses the radius set last; also a monotone_filter so C19/C20 apply. radius = 0 not modelled; scipy query_ball_point contract trusted."})
STATUS.update({"C26":"partial","C62":"proved"})
NOTES.update({"C26":"Proved for initialisation, restart, every accepted iteration (any interpolation, any solver) and whole runs, and that a run never fails with SIMP or with RAMP and p <= 1, for tasks prepared by this optimizer that have a Neumann boundary or design_dirichlet=False. REFUTED otherwise: without a Neumann boundary and design_dirichlet=True every density is overwritten by 1 in each iteration; a task already used with design_dirichlet=False keeps boundary elements at the initial volume fraction (0 after restart); RAMP with p > 1 yields positive sensitivities and NaN densities.",
"C62":"Exact reals; linear solvers assumed to solve the supported systems; projected design densities above the 1e-6 floor; spatial filter, elastic problem. RAMP excluded (C16 refutes its derivative)."})

STATUS.update({"C63":"proved","C64":"proved","C65":"partial"})
NOTES.update({"C63":"Exact reals. The tolerances 1e-4 and 1e-5 are the code's constants.",
"C64":"Proved for equal running scale. The code does not store running_scale: what then differs is C25.",
"C65":"REFUTED: the code uses v/V (no filter, no projection slope). The true gradient is proved (C65_volume_gradient); for uniform designs at the threshold and beta >= 3 the code is off by more than 25 percent (C65_kkt_volume_gradient_refuted)."})

STATUS.update({"C66":"proved","C67":"proved","C68":"proved","C69":"proved","C70":"partial","C71":"proved","C72":"proved","C73":"proved"})
NOTES.update({"C66":"Exact reals, exact linear solver. Includes the refutation for load cases with different node sets (C66_different_nodes_refuted, with an instance).",
"C67":"Includes the refutation: two hexahedra in scikit-fem's node order exchange their densities (C67_wrong_elements_refuted).",
"C68":"C68_instance meets the hypotheses of the maximum principle.",
"C69":"",
"C70":"Proved for uniform designs under uniform changes (where the interface layer is not differentiable in single densities); the derivative with respect to single densities of non-uniform designs is missing. The sign error is a refutation with instance C70_instance (held at 600 in ambient 300: the true derivative is -3 times the reported one).",
"C71":"Refutations with instances.",
"C72":"The objective's own array conversions of list arguments (np.full) are modelled up to length errors.",
"C73":"Refutations with instance C73_instance."})

STATUS.update({"C70":"proved"})
NOTES.update({"C70":"Exact derivative for every design with densities in (0,1) and every direction in which the interface layer is differentiable (C70_derivative), every held temperature. Refutations with instances: wrong sign for |g|>|A| (C70_sign_refuted, C70_instance: -3 times the reported value); wrong vertex densities (C70_vertex_densities_refuted). Exact reals, exact linear solver."})

STATUS.update({"C74":"proved","C75":"proved","C76":"proved"})
NOTES.update({"C74":"Recorder contents abstracted to the iteration numbers they belong to. Includes the refutations of the plain reading (one entry per iteration in all cases).",
"C75":"ASCII digits. Includes the refutations (typo in the elastic support pattern, plain dirichlet tag on heat meshes, equal numbers).",
"C76":"Facet integrals abstract: areas positive, nodal integrals of the shape functions add up to the area (partition of unity); exact reals."})

STATUS.update({"C77":"proved","C78":"proved","C79":"proved"})
NOTES.update({"C77":"csr_matrix adds duplicates modulo 256 (uint8). Includes the refutations of the documented 'A[i,j]=1' and of the agreement for negative numbers.",
"C78":"Includes the refutations (faces with three owners; scikit-fem's hexahedra).",
"C79":"Exact reals; the iterative solvers are taken to return a solution. Includes the refutations (chain rule on graded meshes with C79_instance, hexahedra, units of length)."})

STATUS.update({"C80":"proved","C81":"proved","C82":"proved","C83":"proved"})
NOTES.update({"C80":"Exact reals. skfem's init_tensor and refined are modelled (their node numbering is an external contract). Includes the refutations (volumes, filter).",
"C81":"Includes the refutation of the multi load wrappers.",
"C82":"meshio is modelled by the arguments it gets and by its length check. Includes the refutation for hexahedra; C82_right_order shows the permutation that would be right.",
"C83":"Prefixes and paths without wildcards. Includes the refutation from 10^8 on."})

STATUS.update({"C84":"proved","C04":"proved","C22":"proved"})
NOTES.update({"C84":"Flocq's binary64, round to nearest even. libm functions are parameters with the sanity conditions in the statement. Includes the refutations (LogMOC with rho_min = 0, E <= E0).",
"C04":"Exact arithmetic and binary64 (complete classification; C04_plateau_boundary_binary64_refuted shows the moved boundary does occur).",
"C06":"Linear interpolation and periodicity proved in exact arithmetic, and classified in binary64 (C06_binary64); the docstring example is refuted, as is the reset at the cycle start in binary64.",
"C22":"All of the statement. C22_stationary_element_has_large_residual is an additional observation: the residual does not vanish where the OC update is stationary."})

STATUS.update({"C85":"proved"})
NOTES.update({"C85":"The statement describes the code; the docstring's reading (values are stresses) is refuted by C85_is_the_stress_iff_refuted."})

STATUS.update({"C86":"proved"})
NOTES.update({"C86":"One-character separators. matplotlib's contract: pie divides by the sum and rejects negative sizes, a categorical axis gives equal labels one position. The statement describes the code, with the refuted readings (..._refuted) as part of it."})

STATUS['C87']='proved'
NOTES['C87']='Values are real numbers (no NaN). Symmetry and transitivity of the comparison are refuted.'

STATUS['C88']='proved'
NOTES['C88']="scikit-fem's facet enumeration is any list naming each hexahedron face once; ranges and lengths are real numbers. 'The load acts on the surface only', 'only x = 0 is clamped' for very fine meshes and 'every named problem can be built' are refuted."

STATUS['C89']='proved'
NOTES['C89']="Exact arithmetic. scipy.sparse.linalg.cg is modelled from its published algorithm (SciPy >= 1.12), not from /repo. 'A result that did not converge is reported' is refuted."

STATUS['C90']='proved'
NOTES['C90']='SuperLU is any exact solver for systems with one solution, PyAMG any function of the matrix it was built from. Objects constructed without matrices are not modelled. Small meshes, assignment to solver_option and forgotten tolerances are refutations.'

STATUS['C91']='proved'
NOTES['C91']="PETSc is an oracle: what setters and setFromOptions do is modelled as documented. The four 'Refuted' items are proved of the code and are the reason the ideal statement needs them as exceptions."

STATUS['C92']='proved'
NOTES['C92']='SuperLU is any function exact on systems with one solution. The refutations concern the two solvers documented to assume identical node sets.'

STATUS['C93']='proved'
NOTES['C93']='Real arithmetic; the direct solver is exact. The refutations are proved of the code and delimit the positive theorems.'

STATUS['C94']='proved'
NOTES['C94']='Real arithmetic; exact linear solver. A NaN density appears as NotModelled. The two refutations are theorems about the code and delimit the positive ones.'

STATUS['C95']='proved'
NOTES['C95']='Real arithmetic; exact linear solver. The descent theorem excludes the case where all volume derivatives are below 1e-8 (np.allclose), in which the code swaps filter.gradient for filter.forward. The two refutations are theorems about the code and delimit the positive ones.'

STATUS['C96']='proved'
NOTES['C96']='Real arithmetic; exact linear solver; spatial filter, elastic task, OC update, scaling off; recording, file output and logging are not in this composition (C30-C43, C74). Fields of other kinds than their annotations are not modelled.'

STATUS['C97']='partial'
NOTES['C97']="Refuted part: the material is not the one asked for. scikit-fem's linear_elasticity(Lambda, Mu) is library code, modelled from its documented definition. Real arithmetic."

STATUS['C98']='partial'
NOTES['C98']='Refuted parts as listed. The k-d tree is modelled by its contract (sorted distances); printing format, histogram pictures and the empty mesh are not modelled.'

STATUS['C99']='partial'
NOTES['C99']='Refuted part: restarting. Spatial filter; scaling=True not modelled; real arithmetic.'

STATUS['C100']='proved'
NOTES['C100']='The compliance objective is excluded because the code fails there (C94). Spatial filter; scaling=True not modelled; real arithmetic.'

STATUS['C101']='partial'
NOTES['C101']='Refuted part: small radii (the default radius on a unit mesh). Real arithmetic; the sparse solver is its contract.'

STATUS['C102']='partial'
NOTES['C102']="Refuted parts: gains are erased; LogMOC's volume slope near fixed elements. Real arithmetic; the linear solver is its contract."

STATUS['C103']='partial'
NOTES['C103']='Refuted parts: resumed LogMOC runs; coarse meshes. Real arithmetic; linear solvers are their contracts.'

STATUS['C104']='partial'
NOTES['C104']="Refuted parts: single loads, radius, heat tasks. Real arithmetic; linear solvers are their contracts; how scikit-fem's basis changes with the mesh is taken from the definition of isoparametric elements."

STATUS['C105']='partial'
NOTES['C105']='Refuted parts: tasks with fixed elements. Real arithmetic; linear solvers are their contracts; the radius is large enough for the discrete maximum principle.'

STATUS['C106']='partial'
NOTES['C106']='Refuted part: inverted elements. Memory accesses are atomic and sequentially consistent; real coordinates.'

STATUS['C107']='partial'
NOTES['C107']='Refuted part: independence of units. Real arithmetic; SIMP, spatial filter; linear solvers are their contracts.'

STATUS['C108']='proved'
NOTES['C108']='Real arithmetic (sums in another order round differently); linear solvers are their contracts; spatial filter. Numbering and mirror images: elastic tasks; rotations by any angle: elastic and heat tasks.'
