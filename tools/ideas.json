{
"C01": "scheduler.py functions over R/Z with `res`; case analysis over accepted configs",
"C02": "convexity of the interpolation weights, weights in [0,1]",
"C03": "monotonicity of floor and of powers",
"C04": "floor of real quotient = integer division; counting iterations in an interval",
"C05": "ordering of x^c on [0,1]",
"C06": "floor arithmetic; doc example refuted by evaluation; binary64 witness",
"C07": "independent acceptance predicate vs. the code's if-chain",
"C08": "corollary of C02/C03 for the derived parameters",
"C09": "config mutation as state; equality of schedulers",
"C10": "collection as list; induction over operations, lookup spec = last occurrence",
"C11": "exp monotone; accelerate(0)=init is false",
"C12": "div/mod arithmetic over all n",
"C13": "tanh defined from exp in Reals; monotonicity",
"C14": "derivable_pt_lim",
"C15": "derivable_pt_lim of Rpower on rho>1e-6",
"C16": "true derivative computed and compared; refuted with witness",
"C17": "pointwise clip lemmas, NaN as None",
"C18": "fuel recursion; invariant",
"C19": "loop invariant, width halves each step",
"C20": "monotone power and clip; generic monotone filter/projection",
"C21": "homogeneity of max|.|and np.percentile, induction over iterations",
"C22": "fold max characterisation",
"C23": "log/exp monotone, algebra",
"C24": "induction over histories",
"C25": "state machine incl. missing attribute; witnesses",
"C26": "density lists; element sets from C49; step lemma from C17, induction over runs",
"C27": "driver state machine with an arbitrary iteration body; induction over call lists",
"C28": "same machine with trace",
"C29": "same machine",
"C30": "same machine; ZeroDivision refuted",
"C31": "directory = list of names; max",
"C32": "decimal printing/parsing of strings",
"C33": "run history on a directory",
"C34": "driver machine with failing body",
"C35": "environment as finite map; context manager",
"C36": "dictionary functions; default CLI arguments",
"C37": "JSON value type; asdict / cls(**data)",
"C38": "collection as association list; induction",
"C39": "list min/mean/max/std over R",
"C40": "npz file as association list",
"C41": "program trees with exceptions, structural induction",
"C42": "paths as lists of names; sums over trees",
"C43": "induction",
"C44": "stable insertion sort",
"C45": "row-normalised matrix over an arbitrary finite index set",
"C46": "finite sum exchange",
"C47": "linear algebra with an exact solve oracle",
"C48": "sign clamp; witness",
"C49": "list filters",
"C50": "cache as association list keyed by id",
"C51": "determinants over R",
"C52": "determinants over R",
"C53": "list renumbering",
"C54": "task record with single/multi load representation",
"C55": "decision tables",
"C56": "linear solve oracle",
"C57": "polynomial inequalities over R",
"C58": "algebra over R",
"C59": "quadratic form of the assembled matrix = sum of element energies; sum exchange",
"C60": "principle of minimum potential energy: compliance as a maximum over displacements",
"C61": "list model of the two colour arrays",
"C62": "second-order expansion of the compliance between two equilibria, squeeze, chain rule through filter adjoint and projection",
"C63": "the update's fields are unfolded once; bisection invariant of C19; scatter/pin as placement of the design densities",
"C64": "the filter matrix is rebuilt by every forward; induction over the schedule",
"C65": "chain rule through projection and the filter's adjoint; uniform design as counterexample",
"C66": "the assembled matrices tested with v are the weak form; enforced rows; positive definiteness of the form gives regularity and uniqueness",
"C67": "index arithmetic of np.repeat against the row-major ravel; two hexahedra as counterexample",
"C68": "uniqueness of the weak solution; M-matrix argument with the positive part as test field",
"C69": "the constant field solves the weak problem; uniqueness",
"C70": "closed form of the compliance in the energy of the excess temperature; second-order expansion with Cauchy-Schwarz; squeeze",
"C71": "case analysis; closed form of the two-node bar",
"C72": "case analysis over the argument shapes",
"C73": "linearity and positivity of the interface integral",
"C74": "invariant over the sequence of processes: file contents and recorder contents against the completed iterations",
"C75": "stable insertion sort is a sorted permutation; strictly sorted arrangements are unique",
"C76": "exchange of the sums over nodes and facets with the partition of unity",
"C77": "counting characterisation of the assembled matrix; invariants of the neighbour table; sorted sets are unique",
"C78": "the face table lists the owners of each face; conforming faces have at most two owners",
"C79": "discrete maximum principle at an extremal element; Gaussian elimination for existence; symmetric exchange coefficients; unit vectors as tests for the converse",
"C80": "lattice arithmetic of the tensor mesh; the nodes of an element from its index by division with remainder",
"C81": "the binding algorithm against a declarative reading of a signature",
"C82": "association-list invariants of the data dictionaries; the Jacobian of the trilinear map changes sign",
"C83": "digit strings of equal length compare as numbers; sorted permutations are unique",
"C84": "round-to-nearest is monotone and exact on floats, so clipping bounds survive; Flocq's correctness theorems of the operations; induction over the bisection and the run",
"C85": "linearity of the stress, Cauchy-Schwarz for the von Mises seminorm, invariance of trace and Frobenius norm under rotations, the bilinear form of C56",
"C86": "permutation of the statistics, C42's partition of self-times, injectivity of labels and of the categorical axis, invariant of the running means (C43)",
"C87": "induction over the collection; numpy's stacking as a total function on uniform data; element-wise characterisation of allclose",
"C88": "lattice description of all facets of a box mesh; centroids by summation; composition with the C49, C76, C80 theorems",
"C89": "the SciPy iteration as a recursion; conjugacy of directions by induction in the subspace of held motions; termination from the dimension argument of LinAlg; Galerkin orthogonality for the compliance",
"C90": "invariant over call histories (the solver in use was built from the current matrix); the maximum principle of C79 as a bound on the inverse; conjugate gradient termination of C89",
"C91": "PETSc as an oracle with the KSP object as a record changed by the setters in call order; induction over the columns; Cauchy-Schwarz for the compliance error",
"C92": "the caller's array as state; induction over the load loop; uniqueness of the enforced system",
"C93": "weak form of the adjoint system with a lifting of the held values; derivative of the discrete temperature by the adjoint identity; induction over call histories",
"C94": "composition of the heat analysis with the generic update lemma (advance); adjoint of the filter; invariant over runs; explicit three-bar instance solved through the maximum principle's constant field",
"C95": "composition of the analyses with the LogMOC update; generic lemma on writing design densities and pins; the update's volume chain is the gradient of the fraction (C65) and the sensitivities that of the compliance (C62), so the update's argument is the Lagrangian's derivative, and C23 gives the direction; induction over runs",
"C96": "composition of the configuration, scheduler, driver and iteration models; the driver's trace is a chain (C28), a smooth-driver invariant carries densities and running scale through all calls, C26 makes every iteration succeed, C63 gives the final volume; the refutations run the default configuration on a concrete task",
"C97": "the assembled form is identified with the composer's form at inverted Lame parameters; the characterisation of the single correct material evaluates the claim on a two-function basis (a dilation and a shear)",
"C98": "second smallest of the sorted distances is the minimum over the other points; sorting lemmas for the median; volumes by permutation of index sets",
"C99": "the generic driver lemmas with an invariant indexed by the next iteration (the running scale exists from iteration 2 on); the restart theorem by the driver lemma for an iteration that always fails",
"C100": "the generic driver lemmas with the iteration theorems of C94",
"C101": "discrete maximum principle for matrices with non-positive off-diagonal entries and positive row sums; the row of squares reduces to a rod by symmetry and is solved exactly",
"C102": "the iteration theorems of C26, C63, C94 and C95 redone for the Helmholtz filter, with its range (C101) in place of the spatial filter's convolution",
"C103": "the run theorems of C96, C99 and C100 redone for the default filter on top of C102 and C101",
"C104": "the scaled task is derived from the original one; equilibrium is unique, so displacements scale; C21 turns scaled sensitivities into equal updates; induction over the run",
"C105": "bounds for the discrete Helmholtz problem (C101) give the sign of the filtered sensitivities; equilibrium is linear in the load, so sensitivities shrink with its square",
"C106": "a small-step machine with shared memory; invariant: each worker's cells hold what it alone would have computed, frame property for the others; a step count that every access lowers",
"C107": "equilibrium is unique and linear in the load; the reported sensitivity is the derivative (C62), so the slope of C95's Lagrangian is F^2 dc + coeff dv; explicit load levels; with the normalised chain the whole Lagrangian gradient is homogeneous in F^2 (induction over the run)",
"C108": "element sums are invariant under permutations and stiffness forms under mirroring; equilibrium is unique, so displacements correspond; filter rows, percentile, maximum, volume and hence every bisection decision are invariant; induction over the run"
}