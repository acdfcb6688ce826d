{"id": "C01", "title": "Unit conversion preserves the physical quantity", "statement": "When a value is converted between two dimensionally compatible units (convert_units, get_conversion_tuple, PhysicalQuantity.in_units_of / convert_to_unit, or the automatic conversion of a connected parameter), the converted number denotes the same physical quantity as the original: both give the same value in base units, including for units with an offset such as degF.", "quantifier": "all values, all pairs of compatible units (any nonzero factors, any offsets, any dimension vector)", "why_tests_cant": "a test samples a few unit pairs; the affine formula with two offsets and two factors must be right for every combination", "anchors": ["openmdao/units/units.py: PhysicalUnit.conversion_tuple_to, convert_units, get_conversion_tuple, PhysicalQuantity.convert_to_unit", "openmdao/core/vec_wrapper.py: Accessor._get_arr_units"]}
{"id": "C02", "title": "Unit conversions compose and invert", "statement": "Converting a value from unit A to B and back to A returns the original value, and converting A to B to C gives the same value as converting A to C directly.", "quantifier": "all values and all triples of compatible units", "why_tests_cant": "requires all unit triples; no finite sample covers them", "anchors": ["openmdao/units/units.py: PhysicalUnit.conversion_tuple_to, convert_units"]}
{"id": "C03", "title": "Conversion is refused exactly for dimensionally different units", "statement": "A conversion request between two units raises TypeError if and only if the two units have different dimension vectors; otherwise it returns a conversion.", "quantifier": "all pairs of units", "why_tests_cant": "the iff must hold for every pair of dimension vectors", "anchors": ["openmdao/units/units.py: PhysicalUnit.conversion_tuple_to, PhysicalUnit.is_compatible"]}
{"id": "C04", "title": "Unit algebra", "statement": "The unit obtained by multiplying, dividing or raising units to a power scales values exactly by the product, quotient or power of the component scales and its dimensions add, subtract or multiply accordingly; any such operation on a unit with a nonzero offset raises TypeError instead of returning a unit.", "quantifier": "all units and all integer exponents", "why_tests_cant": "unit expressions have unbounded shape and depth", "anchors": ["openmdao/units/units.py: PhysicalUnit.__mul__, __div__, __rdiv__, __pow__, NumberDict"]}
{"id": "C05", "title": "Quantity addition and comparison never silently mix offset scales", "statement": "Adding, subtracting or comparing two PhysicalQuantity objects either raises TypeError or gives the answer that holds for the underlying physical quantities.", "quantifier": "all pairs of quantities, including units with offsets", "why_tests_cant": "the faulty combinations are specific (equal factor, different offset) and easily missed by samples", "anchors": ["openmdao/units/units.py: PhysicalUnit.conversion_factor_to, PhysicalQuantity._sum, PhysicalQuantity.__eq__, __lt__"]}
{"id": "C06", "title": "Base-unit reduction preserves the physical quantity", "statement": "PhysicalQuantity.in_base_units returns a quantity equal to the original one.", "quantifier": "all quantities, including those in offset units", "why_tests_cant": "needs every unit, not the handful in a test", "anchors": ["openmdao/units/units.py: PhysicalQuantity.in_base_units"]}
{"id": "C07", "title": "Unit library loading does not depend on definition order", "statement": "Loading a unit library in which units refer to one another gives the same table whatever the order of the definitions, and fails exactly when some definition refers, directly or indirectly, to a unit that is never defined.", "quantifier": "all libraries and all permutations of their definitions", "why_tests_cant": "number of orders is factorial in the library size", "anchors": ["openmdao/units/units.py: _update_library, import_library"]}
{"id": "C08", "title": "Unit lookup does not depend on lookup history", "statement": "Looking up a unit name gives the same unit no matter which names were looked up before.", "quantifier": "all histories of lookups and all names", "why_tests_cant": "histories are unbounded; the lookup cache is filled as a side effect", "anchors": ["openmdao/units/units.py: _find_unit"]}
{"id": "C09", "title": "Design variable scaling round trip", "statement": "For a driver design variable with any nonzero scaler, any adder and any distinct in-range indices, the value read by get_desvars after set_desvar(name, v) is v, and the entries of the underlying variable that are not selected by the indices are unchanged.", "quantifier": "all vectors, scalers, adders, index lists", "why_tests_cant": "universally quantified over real-valued scalings and index subsets", "anchors": ["openmdao/core/driver.py: Driver.set_desvar, Driver._get_distrib_var, Driver.get_desvars"]}
{"id": "C10", "title": "Scaled bounds describe the same feasible set", "statement": "A design variable value satisfies the lower and upper bounds given to add_desvar if and only if its scaled value satisfies the scaled bounds the driver hands to the optimizer.", "quantifier": "all bounds, scalers (including negative ones), adders and values", "why_tests_cant": "sign of the scaler matters; tests use positive scalers", "anchors": ["openmdao/core/driver.py: Driver.add_desvar, Driver.get_desvar_metadata"]}
{"id": "C11", "title": "Setting one entry of a design variable changes only that entry", "statement": "set_desvar(name, v, index=i) changes entry i of the design variable and nothing else, for every valid i.", "quantifier": "all vectors and all valid indices, including 0", "why_tests_cant": "boundary index behaviour must hold for all i", "anchors": ["openmdao/core/driver.py: Driver.set_desvar"]}
{"id": "C12", "title": "Constraint declaration is a partition", "statement": "add_constraint accepts exactly the legal combinations of equals/lower/upper/linear arguments, and every accepted constraint is reported by get_constraints exactly once: as an equality when equals was given and as an inequality otherwise, with the scaled value of the constrained variable.", "quantifier": "all argument combinations and all sequences of add_constraint calls", "why_tests_cant": "all call histories", "anchors": ["openmdao/core/driver.py: Driver.add_constraint, Driver.get_constraints"]}
{"id": "C13", "title": "Gradients handed to the optimizer are derivatives of the scaled quantities", "statement": "The gradient entry the driver passes on for response f and design variable x equals d(scaled f)/d(scaled x), where scaled f and scaled x are the values the driver passes on for f and x.", "quantifier": "all scalers and adders for responses and design variables, any set of objectives and constraints", "why_tests_cant": "must hold for every scaling combination, including a variable used in two roles", "anchors": ["openmdao/core/driver.py: Driver._setup, Driver.calc_gradient", "openmdao/core/problem.py: Problem.calc_gradient"]}
{"id": "C14", "title": "Option values always satisfy their declaration", "statement": "After any sequence of add_option, assignments (successful or rejected), removals and deprecations, every stored option value satisfies its declared type or enumeration and bounds; a rejected assignment leaves every option unchanged and a locked option can never change.", "quantifier": "all operation histories", "why_tests_cant": "unbounded operation sequences", "anchors": ["openmdao/util/options.py: OptionsDictionary.add_option, __setitem__, _check, remove_option"]}
{"id": "C15", "title": "Deprecated option names are aliases", "statement": "Reading or writing an option through its deprecated name has the same result as through its new name, with every access method the dictionary offers.", "quantifier": "all dictionaries with deprecations and all access methods", "why_tests_cant": "all option tables and alias targets", "anchors": ["openmdao/util/options.py: OptionsDictionary.get, __getitem__, __setitem__, _add_deprecation"]}
{"id": "C16", "title": "Iteration coordinates identify iterations", "statement": "The text key under which an iteration is recorded determines its iteration coordinate: two different coordinates (different rank, different nesting of drivers, groups and solvers, or different iteration numbers) never get the same key.", "quantifier": "all coordinates of any depth with legal system names", "why_tests_cant": "unbounded nesting depth and iteration numbers", "anchors": ["openmdao/util/record_util.py: format_iteration_coordinate, create_local_meta, update_local_meta"]}
{"id": "C17", "title": "Recorders record exactly the selected variables", "statement": "A recorder attached to a driver or to the solver of any group records, at each iteration, exactly the variables of that group whose name matches an includes pattern and no excludes pattern.", "quantifier": "all pattern lists, all variable sets, groups at any nesting depth", "why_tests_cant": "unbounded nesting depth; pattern combinations", "anchors": ["openmdao/recorders/base_recorder.py: BaseRecorder._check_path, _get_pathname, _filter_vector", "openmdao/util/record_util.py: create_local_meta"]}
{"id": "C18", "title": "Recorded iterations are immutable history", "statement": "What an in-memory recorder holds for iteration k is the value the variables had when iteration k was recorded, whatever is executed afterwards.", "quantifier": "all execution histories after the recording", "why_tests_cant": "needs every later history", "anchors": ["openmdao/recorders/inmem_recorder.py: InMemoryRecorder.record_iteration", "openmdao/core/vec_wrapper.py: Accessor._get_arr"]}
{"id": "C19", "title": "Recorded cases can be read back", "statement": "For every sequence of recorded iterations with distinct coordinates, a case reader lists each of them once and returns the recorded values, success flag and derivatives for each.", "quantifier": "all recording histories", "why_tests_cant": "unbounded histories and every field", "anchors": ["openmdao/recorders/sqlite_recorder.py", "openmdao/recorders/sqlite_reader.py: SqliteCaseReader.get_case", "openmdao/recorders/hdf5_reader.py", "openmdao/recorders/case.py"]}
{"id": "C20", "title": "Even distribution partitions the work", "statement": "evenly_distrib_idxs(n, size) gives n consecutive chunks which exactly cover 0..size-1 without overlap and whose sizes differ by at most one, larger chunks first.", "quantifier": "all process counts n >= 1 and all sizes", "why_tests_cant": "all n and sizes", "anchors": ["openmdao/util/array_util.py: evenly_distrib_idxs"]}
{"id": "C21", "title": "Data transfer delivers connected values", "statement": "A forward data transfer sets every connected target entry to the value of its source entry and leaves every other target entry and the source vector unchanged, irrespective of how index lists are turned into slices or merged.", "quantifier": "all index lists and vectors", "why_tests_cant": "slice compaction and merging must preserve the index relation for all index lists", "anchors": ["openmdao/core/data_transfer.py: DataTransfer.__init__, DataTransfer.transfer", "openmdao/util/array_util.py: to_slice"]}
{"id": "C22", "title": "Reverse data transfer is the transpose of the forward one", "statement": "For every pair of vectors, the inner product of (forward transfer of u) with p equals the inner product of u with (reverse transfer of p), including when one source entry feeds several targets.", "quantifier": "all index lists, all vectors", "why_tests_cant": "adjointness is a statement about all vectors", "anchors": ["openmdao/core/data_transfer.py: DataTransfer.transfer"]}
{"id": "C23", "title": "Variables occupy disjoint storage", "statement": "In a system vector every non-pass-by-object local variable owns a contiguous range of its own; ranges are disjoint, follow declaration order and cover the vector, so setting one variable never changes another and reading returns what was last set.", "quantifier": "all lists of variables with any sizes and all set/get histories", "why_tests_cant": "all variable lists and histories", "anchors": ["openmdao/core/vec_wrapper.py: SrcVecWrapper.setup, VecWrapper.__getitem__, __setitem__"]}
{"id": "C24", "title": "Subsystem views alias the parent", "statement": "A value written through a subsystem view of the unknowns is what the parent reads for the corresponding variable and vice versa, and no other parent variable is affected.", "quantifier": "all hierarchies of views of any depth and all write histories", "why_tests_cant": "depth and histories unbounded", "anchors": ["openmdao/core/vec_wrapper.py: VecWrapper.get_view", "openmdao/core/group.py: Group._get_relname_map"]}
{"id": "C25", "title": "Step limiting keeps unknowns within bounds", "statement": "distance_along_vector_to_limit(alpha, d) returns the largest step a in [0, alpha] such that u + a*d respects every declared lower and upper bound, whenever u respects them.", "quantifier": "all vectors, bounds and directions", "why_tests_cant": "real-valued quantification with sign cases", "anchors": ["openmdao/core/vec_wrapper.py: SrcVecWrapper.distance_along_vector_to_limit"]}
{"id": "C26", "title": "Finite differences are exact on low-degree models and leave no trace", "statement": "The finite-difference Jacobian of an affine model (any form) and of a quadratic model (central form) equals the true Jacobian in exact arithmetic, and after the computation all parameters, unknowns and residuals have their original values.", "quantifier": "all models of the given degree, all step sizes, all forms, all dimensions", "why_tests_cant": "quantifies over all models", "anchors": ["openmdao/core/system.py: System.fd_jacobian"]}
{"id": "C27", "title": "Parallel finite difference covers every column once", "statement": "With num_par_fds parallel processes the columns computed by the processes are pairwise disjoint and together are all columns, and the assembled Jacobian equals the serial one.", "quantifier": "all column counts and process counts", "why_tests_cant": "all sizes", "anchors": ["openmdao/core/system.py: System.fd_jacobian, _get_combined_jac", "openmdao/core/parallel_fd_group.py: ParallelFDGroup"]}
{"id": "C28", "title": "Forward and reverse linear operators are transposes", "statement": "For every system the matrix-vector product applied in fwd mode and in rev mode satisfy <A x, y> = <x, A^T y>, for components with any user Jacobian, unit-converted parameters and for groups of any structure.", "quantifier": "all Jacobians, all vectors, all hierarchies", "why_tests_cant": "adjointness over all vectors and structures", "anchors": ["openmdao/core/system.py: System._sys_apply_linear, _apply_linear_jac", "openmdao/core/group.py: Group._sys_apply_linear", "openmdao/core/vec_wrapper.py: TgtVecWrapper._apply_unit_derivatives"]}
{"id": "C29", "title": "Linear Gauss-Seidel solves feed-forward systems in one sweep", "statement": "For a group without cycles, one linear Gauss-Seidel sweep (fwd in order, rev in reverse order) yields the exact solution of the linear system.", "quantifier": "all block-lower-triangular systems of any number of subsystems", "why_tests_cant": "all sizes and coefficients", "anchors": ["openmdao/solvers/ln_gauss_seidel.py: LinearGaussSeidel.solve"]}
{"id": "C30", "title": "Direct solver matrix equals the matrix-free operator", "statement": "The Jacobian assembled by DirectSolver(method='assemble') and the one obtained by matrix-vector products represent the same linear operator.", "quantifier": "all groups of components, connections, unit conversions and source indices", "why_tests_cant": "all model structures", "anchors": ["openmdao/core/group.py: Group.assemble_jacobian", "openmdao/solvers/ln_direct.py: DirectSolver.solve"]}
{"id": "C31", "title": "Residual evaluation does not change explicit outputs", "statement": "Evaluating the residuals of an explicit component leaves its unknowns unchanged and stores in the residuals new output minus old output.", "quantifier": "all components and all states", "why_tests_cant": "all values, including floating-point rounding", "anchors": ["openmdao/core/component.py: Component.apply_nonlinear"]}
{"id": "C32", "title": "Fixed-point iteration respects its limits and reports faithfully", "statement": "The nonlinear Gauss-Seidel solver performs at most maxiter iterations, stops as soon as a tolerance is met, and reports failure if and only if neither tolerance was met.", "quantifier": "all residual sequences and option values", "why_tests_cant": "all residual histories", "anchors": ["openmdao/solvers/nl_gauss_seidel.py: NLGaussSeidel.solve"]}
{"id": "C33", "title": "Newton iteration respects limits, bounds and options", "statement": "Newton with line search performs at most maxiter iterations, keeps every bounded unknown inside its declared bounds, reports failure iff it did not converge, and leaves the derivative options of the system as it found them however it ends.", "quantifier": "all residual and direction sequences, bounds, options, and failure points", "why_tests_cant": "all histories and failure points", "anchors": ["openmdao/solvers/newton.py: Newton.solve", "openmdao/solvers/backtracking.py: BackTracking.solve"]}
{"id": "C34", "title": "set_order only permutes", "statement": "set_order succeeds exactly for permutations of the existing subsystem names, yields that order, and otherwise raises an error and leaves the order unchanged.", "quantifier": "all name lists", "why_tests_cant": "all lists including duplicates and unknown names", "anchors": ["openmdao/core/group.py: Group.set_order"]}
{"id": "C35", "title": "Automatic ordering follows the data flow", "statement": "list_auto_order returns every subsystem exactly once; every data connection not reported as broken goes from an earlier to a later subsystem, and for an acyclic group no connection is reported broken.", "quantifier": "all connection graphs of any size", "why_tests_cant": "all graphs", "anchors": ["openmdao/core/group.py: Group.list_auto_order, Group._break_cycles", "openmdao/util/graph.py: break_strongly_connected"]}
{"id": "C36", "title": "Promoted names resolve consistently", "statement": "Within a group every variable has one promoted name, absolute names map to it and back, no two outputs share a promoted name without an error, and promotion patterns that match nothing are reported.", "quantifier": "all hierarchies and promotion patterns", "why_tests_cant": "unbounded hierarchies", "anchors": ["openmdao/core/group.py: Group._setup_variables", "openmdao/core/system.py: System._promoted, _check_promotes"]}
{"id": "C37", "title": "Every input ends up with at most one source", "statement": "After setup each target parameter is connected to at most one source, every explicit and implicit connection is honoured, and conflicting sources, unknown names or input-to-input chains without an output are reported as errors or as unconnected.", "quantifier": "all sets of explicit connections and promotions in any order", "why_tests_cant": "order of declaration and connection chains are unbounded", "anchors": ["openmdao/core/problem.py: Problem._setup_connections", "openmdao/core/group.py: Group._get_explicit_connections"]}
{"id": "C38", "title": "Derivative mode selection", "statement": "The derivative mode used is the one requested by argument, else by option, else rev exactly when there are more inputs than outputs of interest.", "quantifier": "all argument/option/size combinations", "why_tests_cant": "decision table over unbounded sizes", "anchors": ["openmdao/core/problem.py: Problem._mode"]}
{"id": "C39", "title": "Relevance never drops a dependency", "statement": "Every system and variable lying on a dataflow path from a variable of interest input to a variable of interest output is treated as relevant for both of them.", "quantifier": "all component graphs and all lists of inputs and outputs of interest, including a variable used as both", "why_tests_cant": "all graphs", "anchors": ["openmdao/core/relevance.py: Relevance._compute_relevant_vars, is_relevant_system"]}
{"id": "C40", "title": "Processor requirements are consistent", "statement": "The (min, max) processor counts reported by a group satisfy min <= max (or max unbounded), and cover the requirements of every subsystem.", "quantifier": "all hierarchies of groups and parallel groups", "why_tests_cant": "unbounded hierarchies", "anchors": ["openmdao/core/group.py: Group.get_req_procs", "openmdao/core/parallel_group.py: ParallelGroup.get_req_procs"]}
{"id": "C41", "title": "Parallel group processor allocation", "statement": "Given at least the minimum number of processes it reported, a parallel group always terminates its allocation, assigns every process, and gives every subsystem at least its minimum and at most its maximum number of processes.", "quantifier": "all lists of subsystem requirements and communicator sizes", "why_tests_cant": "arithmetic over unbounded lists; non-termination cannot be tested", "anchors": ["openmdao/core/parallel_group.py: ParallelGroup._setup_communicators"]}
{"id": "C42", "title": "Parallel DOE runs every case exactly once without deadlock", "statement": "When cases are dealt out over parallel DOE groups, every case is run by exactly one group, and all processes of the communicator take part in the same number of collective operations.", "quantifier": "all case counts, group counts and communicator sizes, and all positions of failing cases", "why_tests_cant": "sizes and failure positions unbounded; deadlock depends on them", "anchors": ["openmdao/drivers/predeterminedruns_driver.py: PredeterminedRunsDriver._distrib_build_runlist, _get_case_w_nones, _run_par_doe", "openmdao/drivers/latinhypercube_driver.py: _distrib_build_runlist"]}
{"id": "C43", "title": "Load-balanced DOE records every case exactly once", "statement": "Under the master/worker load balancing protocol, for every order in which workers complete, every case is executed by exactly one worker group, recorded exactly once, and the run terminates.", "quantifier": "all case lists, worker group layouts and completion orders", "why_tests_cant": "schedules", "anchors": ["openmdao/drivers/predeterminedruns_driver.py: PredeterminedRunsDriver._distrib_lb_build_runlist, _run_lb_workers"]}
{"id": "C44", "title": "Multiprocess DOE always finishes", "statement": "A DOE run over local worker processes terminates under every schedule of the workers, and records every case exactly once when no case fails fatally.", "quantifier": "all schedules of workers and queue operations, all failure patterns", "why_tests_cant": "schedule-dependent hangs", "anchors": ["openmdao/drivers/predeterminedruns_driver.py: worker, PredeterminedRunsDriver._run_lb_multiproc"]}
{"id": "C45", "title": "Concurrent evaluation evaluates every case", "statement": "concurrent_eval_lb evaluates every case exactly once and returns the results of all cases, for every number of workers and every completion order.", "quantifier": "all case lists, worker counts and completion orders", "why_tests_cant": "schedules and sizes", "anchors": ["openmdao/util/concurrent.py: concurrent_eval_lb, concurrent_eval"]}
{"id": "C46", "title": "Full factorial covers the grid", "statement": "The full factorial driver generates each combination of the level values of every design variable entry exactly once; every value lies within the bounds and bounds are attained when there are at least two levels.", "quantifier": "all numbers of levels, variables and bounds", "why_tests_cant": "combinatorial sizes", "anchors": ["openmdao/drivers/fullfactorial_driver.py: FullFactorialDriver._build_runlist"]}
{"id": "C47", "title": "Latin hypercube designs are Latin", "statement": "Every design produced by the Latin hypercube drivers, including the optimized one after any number of perturbations, uses each level of each dimension exactly once, and every sample lies in its bucket.", "quantifier": "all sample counts, dimensions, random choices and mutation counts", "why_tests_cant": "all random outcomes", "anchors": ["openmdao/drivers/latinhypercube_driver.py: _rand_latin_hypercube, _LHC_Individual.perturb, _mmlhs, LatinHypercubeDriver._get_buckets"]}
{"id": "C48", "title": "Optimizer constraint functions agree with the declared constraints", "statement": "For the SciPy optimizer driver, the constraint functions are all non-negative (zero for equalities) exactly when every declared constraint entry is satisfied, and each constraint gradient is the derivative of the corresponding function.", "quantifier": "all constraint lists with any sizes, bounds and values", "why_tests_cant": "all constraint sets", "anchors": ["openmdao/drivers/scipy_optimizer.py: ScipyOptimizer.run, _confunc, _congradfunc"]}
{"id": "C49", "title": "Inactive-constraint screening keeps active constraints", "statement": "When active-set screening is enabled in the pyOptSparse driver, the gradient of a constraint entry is skipped only if the entry is farther than the tolerance from every bound it has.", "quantifier": "all bounds, tolerances and values", "why_tests_cant": "two-sided cases missed by samples", "anchors": ["openmdao/drivers/pyoptsparse_driver.py: pyOptSparseDriver._gradfunc"]}
{"id": "C50", "title": "Surrogates are trained on the supplied data", "statement": "When a metamodel is trained, row r of the training matrix is the concatenation of the r-th training values of all parameters, in the same layout used for prediction; with warm restart new rows are appended after the old ones.", "quantifier": "all lists of scalar and array parameters and all training histories", "why_tests_cant": "all parameter layouts and histories", "anchors": ["openmdao/components/meta_model.py: MetaModel._train, MetaModel._params_to_inputs"]}
{"id": "C51", "title": "Response surface gradient", "statement": "The Jacobian returned by the response surface surrogate is the exact derivative of its prediction.", "quantifier": "all dimensions, coefficients and points", "why_tests_cant": "all dimensions", "anchors": ["openmdao/surrogate_models/response_surface.py: ResponseSurface.predict, linearize"]}
{"id": "C52", "title": "Expression components keep distinct variables distinct", "statement": "ExecComp evaluates expressions with colon-separated names so that different variable names in the expressions refer to different variables, whatever the order in which names are processed.", "quantifier": "all sets of variable names and all set iteration orders", "why_tests_cant": "iteration order of sets and name collisions", "anchors": ["openmdao/components/exec_comp.py: _valid_name, ExecComp._compile_exprs"]}
{"id": "C53", "title": "Linear system component adjoint", "statement": "The LinearSystem component applies exactly the derivative of its residual A x - b in fwd mode and its transpose in rev mode.", "quantifier": "all sizes, matrices and vectors", "why_tests_cant": "all vectors", "anchors": ["openmdao/components/linear_system.py: LinearSystem.apply_linear"]}
{"id": "C54", "title": "Template substitution changes only the addressed field", "statement": "InputFileGenerator.transfer_var replaces exactly the addressed field of the addressed line; all other fields, all delimiters and all other lines stay byte-for-byte the same.", "quantifier": "all templates, delimiters, rows, fields and values", "why_tests_cant": "all texts", "anchors": ["openmdao/util/file_wrap.py: InputFileGenerator.transfer_var, _SubHelper.replace"]}
{"id": "C55", "title": "Array substitution fits or fails", "statement": "InputFileGenerator.transfer_array writes every array entry in order into the addressed fields; if the array is too small for the addressed fields it raises ValueError, and no line other than the addressed ones is added or changed.", "quantifier": "all templates, arrays and field ranges", "why_tests_cant": "all texts and lengths", "anchors": ["openmdao/util/file_wrap.py: InputFileGenerator.transfer_array, _SubHelper.replace_array"]}
{"id": "C56", "title": "Anchor search finds the requested occurrence", "statement": "mark_anchor(text, n) moves to the line holding the n-th line containing the text at or after the current anchor (n > 0) or counted from the end of the file (n < 0, whatever the previous anchor), and fails exactly when there is none.", "quantifier": "all files, anchor histories and occurrences", "why_tests_cant": "all texts and call histories", "anchors": ["openmdao/util/file_wrap.py: InputFileGenerator.mark_anchor, FileParser.mark_anchor"]}
{"id": "C57", "title": "Key lookup reads the requested line", "statement": "FileParser.transfer_keyvar(key, field, occurrence) reads from the line holding the requested occurrence of the key relative to the current anchor.", "quantifier": "all files, anchors and occurrences", "why_tests_cant": "all texts and anchors", "anchors": ["openmdao/util/file_wrap.py: FileParser.transfer_keyvar"]}
{"id": "C58", "title": "Command timeouts are bounded", "statement": "Waiting for a command with a positive timeout returns the exit status if the command has finished, and otherwise stops the command after the timeout has elapsed and no more than two polling intervals later.", "quantifier": "all timeouts, polling delays and completion times", "why_tests_cant": "all real timings", "anchors": ["openmdao/util/shell_proc.py: ShellProc.wait"]}
{"id": "C59", "title": "External code outcome reporting", "statement": "Running an external code component raises no error exactly when all required input files exist, the command exits with status zero in time and all output files exist; return_code reflects the exit status, and the error class is determined by fail_hard.", "quantifier": "all combinations of file sets, exit statuses and options", "why_tests_cant": "all combinations", "anchors": ["openmdao/components/external_code.py: ExternalCode.solve_nonlinear"]}
{"id": "C60", "title": "Complex step leaves no trace and is exact on quadratics", "statement": "Complex-step derivatives of quadratic expressions are exact and the variable values are unchanged afterwards.", "quantifier": "all quadratic models, steps and points", "why_tests_cant": "all models", "anchors": ["openmdao/core/component.py: Component.complex_step_jacobian", "openmdao/components/exec_comp.py: ExecComp.linearize"]}
{"id": "C61", "title": "Path name utilities are inverse to joining", "statement": "For any dotted path, the relative name, nearest child and common ancestor of paths behave as prefix operations on the lists of path components.", "quantifier": "all paths of any depth", "why_tests_cant": "all strings", "anchors": ["openmdao/util/string_util.py: get_common_ancestor, nearest_child, name_relative_to"]}
{"id": "C62", "title": "Switching the derivative mode of a direct solver", "statement": "The direct linear solver returns the solution of the system for the requested mode in every sequence of fwd and rev solves.", "quantifier": "all histories of solves and re-linearizations", "why_tests_cant": "histories", "anchors": ["openmdao/solvers/ln_direct.py: DirectSolver.solve"]}
{"id": "C63", "title": "Bracketing solver ends at the root it found", "statement": "When the Brent solver finishes successfully, the state variable holds the root returned by the bracketing algorithm.", "quantifier": "all residual functions and evaluation histories of the bracketing algorithm", "why_tests_cant": "all evaluation sequences", "anchors": ["openmdao/solvers/brent.py: Brent.solve"]}
{"id": "C64", "title": "Default step sizes follow the derivative type", "statement": "After any sequence of assignments to the derivative options of a system, whether accepted or rejected, the step size is the last valid one the user assigned or, if none was assigned, the default of the derivative type assigned last.", "quantifier": "all sequences of assignments", "why_tests_cant": "unbounded assignment histories", "anchors": ["openmdao/core/system.py: DerivOptionsDict.__setitem__", "openmdao/util/options.py: OptionsDictionary.__setitem__"]}
{"id": "C65", "title": "Iterated linear Gauss-Seidel converges to a solution", "statement": "When the linear Gauss-Seidel solver stops because its residual test succeeds or because further sweeps change nothing, the vector it returns solves the linear system of the group in the requested mode.", "quantifier": "all groups, coefficients, right-hand sides and numbers of sweeps", "why_tests_cant": "all coefficients and structures", "anchors": ["openmdao/solvers/ln_gauss_seidel.py: LinearGaussSeidel.solve, _norm"]}
{"id": "C66", "title": "check_call reports every unsuccessful command", "statement": "check_call returns normally exactly when the command ended with status zero; a command that was stopped because of its timeout is reported as an error.", "quantifier": "all commands, exit statuses, timeouts and completion times", "why_tests_cant": "all timings", "anchors": ["openmdao/util/shell_proc.py: check_call, ShellProc.wait"]}
{"id": "C67", "title": "Files opened for a command are closed", "statement": "Every file opened for the streams of a command is closed again when running the command is over, whether opening another file, starting the process or waiting for it fails or not.", "quantifier": "all stream arguments and all failures", "why_tests_cant": "all failure combinations", "anchors": ["openmdao/util/shell_proc.py: ShellProc.__init__, close_files, wait"]}
{"id": "C68", "title": "Comment removal keeps the data", "statement": "FileParser.set_file drops the lines starting with the full-line comment character, cuts the other lines at the end-of-line comment character, and keeps all other text.", "quantifier": "all files and comment characters", "why_tests_cant": "all texts", "anchors": ["openmdao/util/file_wrap.py: FileParser.set_file"]}
{"id": "C69", "title": "Reading an array reads the addressed fields", "statement": "FileParser.transfer_array returns, in order, the fields from fieldstart of the first addressed line to fieldend of the last, and fails if some are missing.", "quantifier": "all files, anchors and ranges", "why_tests_cant": "all texts and ranges", "anchors": ["openmdao/util/file_wrap.py: FileParser.transfer_array"]}
{"id": "C70", "title": "Reading a matrix reads the addressed block", "statement": "FileParser.transfer_2Darray returns for each addressed line the fields from fieldstart to fieldend, and fails if some are missing.", "quantifier": "all files, anchors and ranges", "why_tests_cant": "all texts and ranges", "anchors": ["openmdao/util/file_wrap.py: FileParser.transfer_2Darray"]}
{"id": "C71", "title": "Delimiters are exactly the given characters", "statement": "After InputFileGenerator.set_delimiters(d) fields are separated exactly by the characters of d and the newline character.", "quantifier": "all delimiter strings", "why_tests_cant": "all strings", "anchors": ["openmdao/util/file_wrap.py: InputFileGenerator.set_delimiters"]}
{"id": "C72", "title": "Subsystem names are unique and valid", "statement": "Whatever sequence of Group.add and set_order calls is made, the subsystem names of a group stay distinct and valid; add appends one system at the end or raises an error and changes nothing.", "quantifier": "all histories of add and set_order calls, all names", "why_tests_cant": "all histories and all strings", "anchors": ["openmdao/core/group.py: Group.add, Group.set_order"]}
{"id": "C73", "title": "Total derivative Jacobian holds exactly the requested derivatives", "statement": "If the linear solves find the total derivatives, calc_gradient with the linear solver returns, as array or as dictionary, in forward and in reverse mode, exactly the requested derivatives (chosen indices, scaled), each at the row of its unknown and the column of its independent variable.", "quantifier": "all layouts, all lists of names and indices, all parallel groups, sparsity dictionaries and scalers", "why_tests_cant": "all layouts, index lists and solver results", "anchors": ["openmdao/core/problem.py: Problem._calc_gradient_ln_solver", "openmdao/core/problem.py: Problem._get_voi_key", "openmdao/core/vec_wrapper.py: VecWrapper._get_local_idxs"]}
{"id": "C74", "title": "Forward and reverse total derivatives agree with the chain rule", "statement": "If the linear solver solves the linearized equations of the root (or their transpose), forward and reverse mode return the same Jacobian, the one the chain rule determines uniquely.", "quantifier": "all system trees, all Jacobians over any commutative ring, all requests", "why_tests_cant": "all systems, all real-valued Jacobians", "anchors": ["openmdao/core/problem.py: Problem._calc_gradient_ln_solver", "openmdao/solvers/ln_gauss_seidel.py: LinearGaussSeidel.solve"]}
{"id": "C75", "title": "Matrix substitution fills each line with its row", "statement": "InputFileGenerator.transfer_2Darray writes row i of the array into the addressed fields of the i-th addressed line, in order, changes nothing else, and fails if the array and the addressed fields do not fit.", "quantifier": "all templates, arrays and ranges", "why_tests_cant": "all texts and shapes", "anchors": ["openmdao/util/file_wrap.py: InputFileGenerator.transfer_2Darray, _SubHelper.replace_array"]}
{"id": "C76", "title": "Reading one field", "statement": "FileParser.transfer_var returns the addressed field of the addressed line, and fails if there is no such line or field.", "quantifier": "all files, anchors, rows and fields", "why_tests_cant": "all texts", "anchors": ["openmdao/util/file_wrap.py: FileParser.transfer_var"]}
{"id": "C77", "title": "Connection checks accept exactly the compatible connections", "statement": "A connection passes setup exactly when the two ends have the same type and either the same shape or src_indices that lie inside the source and are as many as the target has entries.", "quantifier": "all declarations, shapes and index lists", "why_tests_cant": "combinations of shape, indices and pass_by_obj", "anchors": ["openmdao/core/_checks.py: check_connections", "openmdao/core/component.py: Component._add_variable", "openmdao/core/problem.py: Problem.setup"]}
{"id": "C78", "title": "An accepted connection delivers the source entries to the target", "statement": "After setup, transferring data to a subsystem gives every connected parameter of it exactly the entries of its source that src_indices name, whatever else the group owns, and changes no parameter of another subsystem.", "quantifier": "all groups, connections, index lists and values", "why_tests_cant": "the index arithmetic depends on the sizes and order of all variables of the group", "anchors": ["openmdao/core/group.py: Group._get_global_idxs, _setup_data_transfer, _transfer_data", "openmdao/core/vec_wrapper.py: TgtVecWrapper.setup"]}
{"id": "C79", "title": "One run solves a feed-forward model", "statement": "If every connection goes from a component that is run earlier to one run later, then after one run every parameter holds what its source delivers and every component has been evaluated on its final parameters; the result depends only on the inputs, not on earlier contents, nesting, legal order or solver; and Gauss-Seidel stops after one sweep.", "quantifier": "all trees of groups, components, connections, values and solvers that end with a sweep", "why_tests_cant": "unboundedly many trees and orders; stale values only show when earlier contents differ", "anchors": ["openmdao/core/group.py: Group.children_solve_nonlinear, _transfer_data", "openmdao/core/component.py: Component._sys_solve_nonlinear", "openmdao/core/parallel_group.py: ParallelGroup.children_solve_nonlinear", "openmdao/solvers/run_once.py: RunOnce.solve", "openmdao/solvers/nl_gauss_seidel.py: NLGaussSeidel.solve"]}
{"id": "C80", "title": "Zero residuals mean that the model is solved", "statement": "Evaluating residuals after a run changes no unknown, and if all residuals are zero then every connection is satisfied and every component's equations hold, because setup marks exactly the components that were run before one of their sources and evaluates those and the implicit ones.", "quantifier": "all trees, cycles, components, connections and values", "why_tests_cant": "a component wrongly skipped only shows for particular cycles and orders", "anchors": ["openmdao/core/problem.py: Problem._get_ubc_vars", "openmdao/core/component.py: Component.apply_nonlinear, _sys_apply_nonlinear", "openmdao/core/group.py: Group.apply_nonlinear", "openmdao/core/parallel_group.py: ParallelGroup.apply_nonlinear"]}
{"id": "C81", "title": "Setting a variable by its name and reading it back", "statement": "After prob[name] = v, reading name gives v, every input the name stands for has the value v and nothing else changes; exactly the names of unknowns and of unconnected inputs can be set, exactly the names of variables can be read, and any other name raises KeyError.", "quantifier": "all trees of systems, promotions, connections, set orders, states, names and values", "why_tests_cant": "which inputs a name stands for depends on the whole connection graph and on the order in which it is searched", "anchors": ["openmdao/core/problem.py: _get_root_var, _set_root_var, Problem._setup_connections", "openmdao/core/system.py: System._rec_get_param, _rec_set_param", "openmdao/core/vec_wrapper.py: Accessor, TgtVecWrapper._add_unconnected_var"]}
{"id": "C82", "title": "Interpolants reproduce the training data", "statement": "The weighted, linear and radial basis interpolants give exactly the training value at every training point; a weighted prediction lies between the smallest and the largest value of its neighbours, and linear interpolation of affine data gives the affine function everywhere.", "quantifier": "all training sets of distinct points in any dimension, numbers of outputs and neighbours, distance exponents and prediction points, any distance, null vector and sparse solution meeting their definitions", "why_tests_cant": "the tests compare a few predictions of three fixed functions with tolerances; degenerate neighbourhoods (collinear points, several outputs) are not sampled", "anchors": ["openmdao/surrogate_models/nn_interpolators/nn_base.py: NNBase.__init__", "openmdao/surrogate_models/nn_interpolators/weighted_interpolator.py: WeightedInterpolator.__call__", "openmdao/surrogate_models/nn_interpolators/linear_interpolator.py: _find_hyperplane, __call__", "openmdao/surrogate_models/nn_interpolators/rbf_interpolator.py: __init__, _find_R, __call__"]}
{"id": "C83", "title": "Gradients of interpolants are their derivatives", "statement": "The gradient of a weighted, radial basis or kriging surrogate is the first order part of its prediction, the gradient of the linear interpolant is the slope between points with the same neighbours, and dRp of each radial kernel is the derivative of R.", "quantifier": "all training sets, prediction points, directions, numbers of neighbours, weights, kernels with the given derivative, numbers of inputs and values of comp", "why_tests_cant": "finite differences at sample points only give approximate agreement for the kernels sampled, and the 4 x 7 table of kernels is not covered", "anchors": ["openmdao/surrogate_models/nn_interpolators/weighted_interpolator.py: gradient", "openmdao/surrogate_models/nn_interpolators/linear_interpolator.py: gradient", "openmdao/surrogate_models/nn_interpolators/rbf_interpolator.py: _find_dR, gradient", "openmdao/surrogate_models/kriging.py: KrigingSurrogate.predict, linearize"]}
{"id": "C84", "title": "A check of partial derivatives compares the component's operator with its residuals", "statement": "check_partial_derivatives reports, for every unknown and every input of a component, the matrix by which apply_linear multiplies in forward and in reverse mode, with unit conversions and residual scaling; the two agree exactly if the modes are transposes, they are the supplied Jacobian for components that inherit apply_linear, and they agree with the differences exactly if the supplied derivative is right.", "quantifier": "all components, numbers and sizes of variables, Jacobians, apply_linear operators, scalers, unit factors and previous contents of the derivative vectors", "why_tests_cant": "tests check fixed components with small Jacobians; an entry overwritten by another variable, a scaling applied in one mode only or stale contents of the vectors show only for particular shapes", "anchors": ["openmdao/core/problem.py: check_partial_derivatives", "openmdao/core/system.py: fd_jacobian", "openmdao/core/component.py: complex_step_jacobian", "openmdao/core/vec_wrapper_complex_step.py: set_complex_var"]}
{"id": "C85", "title": "A check of derivatives reports the distances of the right Jacobians", "statement": "The errors reported for a pair of variables are the norms of the differences of the Jacobians they are named after, zero exactly if these agree, for exactly the pairs and components checked, with the settings asked for.", "quantifier": "all Jacobians, norms, variable and component lists, settings and overrides", "why_tests_cant": "tests read a few of the reported numbers for a few settings, never the combination of overrides with components that are differenced themselves, and not the headings of the tables", "anchors": ["openmdao/core/problem.py: check_partial_derivatives, _assemble_deriv_data", "openmdao/core/system.py: fd_jacobian"]}
{"id": "C86", "title": "Relevance reduction does not change the total derivatives", "statement": "With single_voi_relevance_reduction, or for parallel groups of variables of interest, where each variable has derivative vectors that hold only the variables relevant to it, calc_gradient returns the same total derivatives as without, in both modes and both formats.", "quantifier": "all system trees, Jacobians over any commutative ring, lists of variables of interest and requests", "why_tests_cant": "tests use a few models in which every unknown is connected or of interest; a variable missing from the vectors shows only when a dependency runs through it", "anchors": ["openmdao/core/problem.py: Problem._calc_gradient_ln_solver", "openmdao/core/relevance.py: Relevance._compute_relevant_vars, is_relevant", "openmdao/core/vec_wrapper.py: SrcVecWrapper.setup, TgtVecWrapper.setup", "openmdao/core/system.py: System._apply_linear_jac"]}
{"id": "C87", "title": "A written namelist is read back", "statement": "Reading the file that Namelist.generate writes, with Namelist.parse_file, gives the title, the groups and the cards that were written.", "quantifier": "all titles, lists of groups and cards with integer, float, boolean, string, list and array values", "why_tests_cant": "tests read one file written by hand and write another; the set of names, strings and number formats that survive both is unbounded", "anchors": ["openmdao/util/namelist_util.py: Namelist.generate, Namelist.parse_file, _setup_parsing functions, Namelist.find_card", "openmdao/util/file_wrap.py: _getformat, ToFloat, ToInteger"]}
{"id": "C88", "title": "load_model accounts for every card of a namelist", "statement": "load_model stores every card in the variable the rules give or reports it: groups without cards as empty, groups that occurred before or are not in the rules as unlisted, cards without a variable as unlinked unless ignored; and writing, reading and loading a group before setup restores scalars, strings and arrays of at least two elements.", "quantifier": "all decks, rules, lists of ignored names and variables of the component", "why_tests_cant": "tests load one deck; loss of a card shows only for particular combinations of rules, case and repeated groups", "anchors": ["openmdao/util/namelist_util.py: Namelist.load_model"]}
{"id": "C89", "title": "Total derivatives by finite differences", "statement": "calc_gradient with finite differences returns, in array and dict format, the difference quotients of the model for every requested pair of entries, with the step settings of the first parameter connected to each independent variable, scaled, and the identity for unknowns that are independent variables; for models linear in their inputs this is the Jacobian the linear solver returns.", "quantifier": "all models, requests with indices, scalers, sparsity dictionaries, step settings and states", "why_tests_cant": "tests compare a few small models within a tolerance; wrong blocks for particular orders of names, indices, promoted targets or repeated names go unseen", "anchors": ["openmdao/core/problem.py: Problem._calc_gradient_fd", "openmdao/core/system.py: System.fd_jacobian"]}
{"id": "C90", "title": "The check of total derivatives compares solver and differences", "statement": "check_total_derivatives reports one entry for every pair of a checked unknown and a checked independent variable, in the order of the lists, and each absolute error is zero exactly if the forward solver and the differences, the reverse solver and the differences, or both solvers agree on every entry of that pair; with relevance reduction only the selected mode is compared; for models linear in their inputs with an exact linear solver every error is zero.", "quantifier": "all problems, driver variables, settings, solver results and states", "why_tests_cant": "tests look at a few models where the check passes or fails; a check which compares the wrong blocks, skips a mode or never calls the solver passes most of them", "anchors": ["openmdao/core/problem.py: Problem.check_total_derivatives", "openmdao/core/problem.py: _assemble_deriv_data", "openmdao/core/group.py: Group._get_fd_params", "openmdao/core/group.py: Group._get_fd_unknowns"]}
{"id": "C91", "title": "GMRES and DirectSolver solve the system's equations through the vectors", "statement": "Whatever sequence of matrix products and preconditioner applications GMRES performs, every product is that of the system's matrix (forward) or its transpose (reverse), nothing outside the system's vectors changes, and when it reports convergence the solver returns a solution; with ScipyGMRES or DirectSolver at the root, calc_gradient gives the chain rule's derivatives in both modes. Linear Gauss-Seidel is an exact preconditioner of feed-forward groups.", "quantifier": "all systems, solver procedures, preconditioners, right hand sides and vector contents", "why_tests_cant": "tests solve a few models; the vectors are shared between the callbacks, so one stale entry would show up only for particular orders of products and preconditioner applications", "anchors": ["openmdao/solvers/scipy_gmres.py: ScipyGMRES.solve", "openmdao/solvers/scipy_gmres.py: ScipyGMRES._precon", "openmdao/solvers/solver_base.py: MultLinearSolver.mult", "openmdao/solvers/ln_direct.py: DirectSolver.solve"]}
{"id": "C92", "title": "Kriging reproduces its training data and its gradient is the derivative of its prediction", "statement": "After training on samples with a regular covariance matrix, the prediction at every sample differs from the sample by at most the output's standard deviation times sqrt(n) times nugget/s + (1e-8*S/s)^2 (s, S the extreme singular values), the reported squared error there is bounded in the same way, constant outputs are predicted exactly everywhere, and linearize is the derivative of predict with respect to every input.", "quantifier": "all numbers of samples, inputs and outputs, all data, nuggets, hyper-parameters and points", "why_tests_cant": "tests compare a few predictions with tolerances; the error depends on the conditioning of the covariance matrix, and integer points, several points or outputs and failed trainings are not tried", "anchors": ["openmdao/surrogate_models/kriging.py: KrigingSurrogate.train", "openmdao/surrogate_models/kriging.py: KrigingSurrogate._calculate_reduced_likelihood_params", "openmdao/surrogate_models/kriging.py: KrigingSurrogate.predict", "openmdao/surrogate_models/kriging.py: KrigingSurrogate.linearize", "openmdao/surrogate_models/kriging.py: FloatKrigingSurrogate.predict"]}
{"id": "C93", "title": "Inputs without a source agree, or setup reports it", "statement": "setup reports an error exactly if two inputs fed by the same input without a source start with different values or have different units, or two inputs of one promoted name are given different step sizes, step calculations or difference forms.", "quantifier": "all trees of systems, promotions and connections, all values, units and settings", "why_tests_cant": "tests use two inputs of a flat group; which inputs share a missing source depends on chains of input-to-input links through nested groups, and which of them is compared depends on the order of a graph search", "anchors": ["openmdao/core/problem.py: Problem._check_input_diffs", "openmdao/core/problem.py: Problem._setup_connections"]}
{"id": "C94", "title": "A SubProblem behaves like the model it wraps", "statement": "A SubProblem accepts exactly the params that can be set in the wrapped problem; a call leaves a solution of the wrapped model for these params and returns its unknowns; these depend on the params only, not on earlier calls; putting the wrapped components directly into the outer model gives every variable the same value; derivatives are those of the wrapped model at its solution; its residuals are zero when its unknowns are its outputs.", "quantifier": "all wrapped and outer trees of systems and connections, all params, all histories of calls including failed ones", "why_tests_cant": "tests compare a few nested problems with known results for one or two runs; they cannot cover every history of the vectors kept inside, every nesting, or the evaluation of residuals, which the tests of SubProblem never reach", "anchors": ["openmdao/components/subproblem.py: SubProblem.solve_nonlinear", "openmdao/components/subproblem.py: SubProblem.linearize", "openmdao/components/subproblem.py: SubProblem._setup_variables", "openmdao/core/component.py: Component.apply_nonlinear"]}
{"id": "C95", "title": "The check of linear solvers finds every group that cannot solve its linear system", "statement": "setup reports a group whose subsystems feed each other in a circle exactly when neither its linear solver nor one above it can solve coupled equations; it reports a state exactly when neither its component nor a linear solver above can solve for it; it reports complex step below the root and together with solvers that need derivatives; and it never fails itself.", "quantifier": "all trees of groups and components, all linear solvers and their options, all connections, all states", "why_tests_cant": "tests set up a few models with one circle or one state; the bookkeeping over groups in different orders and depths (which group above iterates, which states are already covered) has many more combinations", "anchors": ["openmdao/core/problem.py: Problem._check_solvers", "openmdao/core/problem.py: _needs_iteration"]}
{"id": "C96", "title": "The check of the execution order reports exactly the subsystems that run too early", "statement": "The cycles reported for a group are the classes of subsystems that depend on each other, each once and in execution order; a subsystem is reported to have to run after another exactly when it runs before it and needs it through connections that were not broken to sort the graph; nothing is reported exactly when all unbroken connections go forward, in particular after automatic ordering; the check never fails.", "quantifier": "all trees of systems, connections and execution orders", "why_tests_cant": "tests look at the report for a few fixed models; they cannot show for every graph that nothing is missed or reported wrongly, nor that the automatic order is never reported", "anchors": ["openmdao/core/problem.py: Problem._check_graph", "openmdao/core/group.py: Group._break_cycles", "openmdao/core/group.py: Group._get_sys_graph"]}
{"id": "C97", "title": "A multi-fidelity metamodel is trained on each level's own points", "statement": "The surrogate of every output is trained, for every fidelity level, on exactly the training points supplied for that level, after the ones the level already had if it is a warm restart; levels may have different numbers of points, including none; numbers of points that differ within a level are refused without changing anything; with one level it trains as MetaModel does.", "quantifier": "all numbers of levels, all scalar and array inputs and outputs, all training data, all sequences of trainings", "why_tests_cant": "tests use two levels, one scalar input and one output, without warm restart; names of levels above the second, empty levels and repeated trainings are never exercised together", "anchors": ["openmdao/components/multifi_meta_model.py: MultiFiMetaModel._train", "openmdao/components/multifi_meta_model.py: _get_name_fi", "openmdao/components/multifi_meta_model.py: MultiFiMetaModel.add_param"]}
{"id": "C98", "title": "Data transfer between processes moves exactly the connected entries", "statement": "With several processes, a forward transfer gives every process that has a target exactly the entries of the whole source its indices name, in that order, and changes nothing else; a backward transfer adds to every entry of every part or copy of a source the derivatives of exactly the target entries taken from it, each once; independently of the order in which PETSc treats the entries.", "quantifier": "all numbers of processes, all distributions of variables over them, all sizes, index lists (repeated, unsorted, crossing processes) and connections, all vector contents, all orders of the scatter", "why_tests_cant": "MPI tests run with two or three processes on a few fixed layouts; the offset arithmetic depends on the sizes of all variables in all processes", "anchors": ["openmdao/core/group.py: Group._get_global_idxs", "openmdao/core/group.py: Group._setup_data_transfer", "openmdao/core/group.py: get_owning_ranks", "openmdao/core/petsc_impl.py: PetscDataTransfer"]}
{"id": "C99", "title": "Variables passed by object reach every process, without deadlock", "statement": "In any sequence of transfers of variables passed by object, with any interleaving of the processes, no process blocks for ever, every process that has a target gets its source's value at the time of that transfer (its own, or that of the lowest process that has the source), and no message is left over; also if comm.send waits for the receiver, as MPI allows.", "quantifier": "all numbers of processes, all distributions of sources and targets over them, all connections, all sequences of transfers with arbitrary computations in between, all interleavings", "why_tests_cant": "tests run few interleavings with two processes and small objects, for which MPI buffers; a blocking send or a message taken by the wrong receive depends on timing and size", "anchors": ["openmdao/core/petsc_impl.py: PetscDataTransfer.transfer", "openmdao/core/group.py: Group._get_owning_ranks"]}
{"id": "C100", "title": "The sparse Jacobians handed to pyOptSparse have all nonzero entries", "statement": "When the driver hands pyOptSparse a sparse block for a constraint and a design variable connected by indices, the block has the declared pattern, each position once, and its entries, zero where none is listed, are exactly the derivatives of the constraint by the design variable's entries.", "quantifier": "all connections of the design variable with and without indices, promoted or not, all indices of the design variable, all relevance sets, all derivative values", "why_tests_cant": "the tests have one indexed connection and unpromoted names; a lost column shows only as slow or wrong convergence of an optimizer that is not installed in most test runs", "anchors": ["openmdao/drivers/pyoptsparse_driver.py: pyOptSparseDriver._build_sparse", "openmdao/drivers/pyoptsparse_driver.py: pyOptSparseDriver.run", "openmdao/drivers/pyoptsparse_driver.py: pyOptSparseDriver._gradfunc", "openmdao/core/relevance.py: Relevance._compute_relevant_vars"]}
{"id": "C101", "title": "pyOptSparse is told about every failed evaluation", "statement": "A function or gradient evaluation is reported as successful exactly when every step of it succeeded, and then returns the values of the model at the requested design point; a model that cannot be evaluated yields zero gradients of the right shapes and a failure flag; any other failure is reported as well.", "quantifier": "all models, design points, sparsity data and failures at any step", "why_tests_cant": "failures inside callbacks are swallowed by compiled optimizers; tests raise AnalysisError only", "anchors": ["openmdao/drivers/pyoptsparse_driver.py: pyOptSparseDriver._objfunc", "openmdao/drivers/pyoptsparse_driver.py: pyOptSparseDriver._gradfunc"]}
{"id": "C102", "title": "The profile accounts for every profiled call", "statement": "After any run under the profiler, turned on and off anywhere, processing the raw files gives a tree with exactly one node for every path of nested profiled calls; the node has the number of calls with that path and the time spent in them without the overhead of the profiler in the calls within; its children are the paths with one more name; no time is negative and the children take no more time than the node; the totals by name and by method are the sums over the calls.", "quantifier": "all programs of nested calls, all times, any number of processes and files, all places where the profiler is turned on or off, calls that raise", "why_tests_cant": "times vary from run to run, so tests only check that files exist and that some names occur", "anchors": ["openmdao/util/profile.py: _profile_dec.__call__", "openmdao/util/profile.py: process_profile", "openmdao/util/profile.py: _update_counts", "openmdao/util/profile.py: _iter_raw_prof_file", "openmdao/util/profile.py: start", "openmdao/util/profile.py: stop", "openmdao/util/profile.py: prof_totals"]}
{"id": "C103", "title": "Recording over several processes", "statement": "When a system runs on several processes, each recorder attached to it stores, for every recorded iteration, each variable chosen by its options exactly once over all processes, with the value held by the first process that has the variable; serial recorders store everything on process 0.", "quantifier": "all numbers of processes, distributions of the variables over them, recorder lists and options, earlier setups and iteration histories", "why_tests_cant": "most tests run on one process with one recorder; distributions and mixtures of recorders are unbounded", "anchors": ["openmdao/recorders/recording_manager.py: RecordingManager.startup, _gather_vars, record_iteration", "openmdao/core/group.py: Group._get_owning_ranks", "openmdao/recorders/base_recorder.py: BaseRecorder.startup, _filter_vector", "openmdao/recorders/inmem_recorder.py: InMemoryRecorder.record_iteration"]}
{"id": "C104", "title": "Metadata derived for connected params", "statement": "After Problem.setup each connected param that is not passed by object has the shape it declares or else the shape of the entries it takes from its source, the source indices of its connection and no others, and a unit conversion under which it reads the same physical quantity as its source; a param without a declared shape starts with the entries it will be given; connections between units of different dimensions are reported, each once, and no others; other params are untouched; neither the order of the connections nor an earlier setup matters.", "quantifier": "all sets of connections with distinct targets, all metadata of params and unknowns, unit libraries and orders, and sequences of setups", "why_tests_cant": "each test sets up one problem once or twice with the same connections; the metadata outlive a setup, so sequences of setups with different connections matter", "anchors": ["openmdao/core/problem.py: Problem.setup (502-530)", "openmdao/core/problem.py: Problem._setup_units", "openmdao/core/component.py: Component._setup_variables", "openmdao/units/units.py: get_conversion_tuple"]}
{"id": "C105", "title": "Components run in the directory of their place in the tree", "statement": "After setup, whatever a script does with the model (run, run_once, gradients) and whichever component calls raise, the process is back in the directory it started from, and every component's solve_nonlinear, linearize and solve_linear ran in the directory given by the directory attributes on its path from the root. False where a context is entered twice (gradients of a root with a directory, Newton or a preconditioner on a system with a directory), for apply_nonlinear and apply_linear, after a directory is taken away and setup repeated, and if the process changes directory between setup and run.", "quantifier": "all system trees with distinct paths, directories, solvers as sequences of steps, scripts, patterns of exceptions, worlds", "why_tests_cant": "Tests use one or two systems with a directory and the default solvers; trees, solver sequences and exception patterns are unbounded.", "anchors": ["openmdao/core/system.py:471-486", "openmdao/util/file_util.py:188-203", "openmdao/core/driver.py:785-786", "openmdao/core/group.py:741-759", "openmdao/core/system.py:896-958", "openmdao/solvers/ln_gauss_seidel.py:115-198", "openmdao/solvers/newton.py:184-192", "openmdao/core/problem.py:1297-1310"]}
{"id": "C106", "title": "File variables carry the contents of their source", "statement": "After setup a component's FileRefs stand for files in its directory. Connections are accepted exactly between files of the same mode, and the check reports exactly the unconnected params whose file a connected param also has, and the files of params with different sources. If no two unknowns share a file, a param shares one only with its own source or with params of the same source, and no file is spelled in two ways, then components run in any order read exactly the current contents of their sources (text copies with newlines translated), and a run stops exactly where a source to copy is missing. False otherwise: the check does not see params in the file of another unknown, nor unknowns in one file; two spellings of one file empty it; text copies change carriage returns; a FileRef shared by components is in the directory of the last.", "quantifier": "all models with file variables, path resolutions, component behaviours, sequences of component runs, initial file systems", "why_tests_cant": "Tests cover one chain of three components with distinct file names; layouts of files, spellings and orders are unbounded.", "anchors": ["openmdao/core/fileref.py:18-93", "openmdao/core/component.py:440-465", "openmdao/core/_checks.py:32-84", "openmdao/core/data_transfer.py:127-134"]}
{"id": "C107", "title": "Variables of interest are grouped for parallel derivatives as declared", "statement": "Whatever calls add design variables, objectives, constraints and groups, in any order, and whichever of them raise: under MPI a call of parallel_derivs is accepted exactly when its variables are declared, none is in an earlier group, and they are different design variables or none is one; the design variables of interest then hold every design variable exactly once, two share a group exactly when one accepted call named both, and members keep the order of declaration. The same holds for the outputs unless an objective is also a constraint, and the indices of interest are those declared. Without MPI every variable is alone. Setup reports the groups whose LinearGaussSeidel works in the other mode when several variables are solved for together. False for an objective that is also a constraint (KeyError in setup when it is in a group, solved for twice otherwise, and the constraint has the objective's indices), and the modes are not checked without single_voi_relevance_reduction although groups are still solved for together.", "quantifier": "all sequences of calls (accepted or raising), all names and indices, with and without MPI, all group trees", "why_tests_cant": "Tests declare one or two groups of two variables in one order; sequences of declarations, overlaps and repeated names are unbounded, and MPI tests do not run without MPI.", "anchors": ["openmdao/core/driver.py:186-277", "openmdao/core/driver.py:321-368", "openmdao/core/problem.py:576-604", "openmdao/core/problem.py:2251-2281"]}
{"id": "C108", "title": "Multi-fidelity co-kriging reproduces the training data of its highest level", "statement": "For any number of levels with nested designs, any regressions, any training data that fit accepts and thetas that belong to the stored factors, the prediction at a training point of the highest fidelity differs from its value by the nugget's contribution alone (each level scales the error of the level below); with a zero nugget the value is exact and the error estimate is zero. The coefficients of every level solve the generalized least squares equations. fit refuses equal points, too few points, and lists of theta of another length. False after an optimization of theta: the factors kept are those of the last theta tried, so that the model need not interpolate; a second training reuses the thetas found by the first; a covariance that cannot be factored is not reported by fit; data that the regression reproduces are refused; too few points with one level give a NameError; the Float surrogate always raises.", "quantifier": "all numbers of levels, points and features, all data, regressions and thetas, all runs of the optimizer, all prediction points among the training points; any field with an exponential", "why_tests_cant": "Tests compare a few predictions with stored numbers for one or two levels; interpolation for every design and every optimizer run is a statement about all of them.", "anchors": ["openmdao/surrogate_models/multifi_cokriging.py:47-163", "openmdao/surrogate_models/multifi_cokriging.py:306-526", "openmdao/surrogate_models/multifi_cokriging.py:597-701", "openmdao/surrogate_models/multifi_cokriging.py:733-736", "openmdao/surrogate_models/multifi_cokriging.py:836-868"]}
{"id": "C109", "title": "Constraint components measure their constraint", "statement": "ConstraintComp turns the text of a constraint into an expression whose value is at most 0 exactly when the constraint holds, and refuses a text that is not one comparison of two expressions.", "quantifier": "all constraint texts, all values of the variables and all functions called", "why_tests_cant": "all texts: where the text is cut, how the pieces are read back when put together, zero sides and blanks", "anchors": ["openmdao/components/constraint.py: ConstraintComp.__init__", "openmdao/components/constraint.py: _combined_expr", "openmdao/components/constraint.py: _parse_constraint", "openmdao/components/exec_comp.py: ExecComp.solve_nonlinear", "openmdao/components/exec_comp.py: _UPDict.__setitem__"]}
{"id": "C110", "title": "build_directory makes what the dictionary says", "statement": "build_directory writes the directories and files of the nested dictionary below topdir and nothing else; a file that exists is left and warned of unless force is true; the working directory is restored whatever happens; an absolute key is refused.", "quantifier": "all nested dictionaries, file systems, working directories, values of force and outcomes", "why_tests_cant": "all nestings, clashes with existing files and directories, and failures half way", "anchors": ["openmdao/util/file_util.py: build_directory"]}
{"id": "C111", "title": "Files found below and above a directory", "statement": "find_files returns exactly the files below the start directories whose names match and are not excluded, not descending into directories that do not match or are excluded, each once; find_up returns the nearest file of the name at or above the start, or None.", "quantifier": "all directory trees, start directories, patterns and predicates, paths and names", "why_tests_cant": "all trees and filters, and paths as texts: relative ones, dots, the root", "anchors": ["openmdao/util/file_util.py: find_files", "openmdao/util/file_util.py: _file_gen", "openmdao/util/file_util.py: find_up"]}
{"id": "C112", "title": "Derivative vectors share memory safely", "statement": "The derivative vectors of variables of interest that are solved together are cut from one array: no two variables of these vectors share a cell, each has as many cells as its size, and the array is no larger than the largest collection of vectors solved together.", "quantifier": "all variables, sizes, relevance, groups of variables of interest, connections and sequences of assignments", "why_tests_cant": "offsets, sizes and layout are computed in three places from metadata that changes in between; numpy cuts a slice at the end of the array without an error", "anchors": ["openmdao/core/system.py: System._get_shared_vec_info", "openmdao/core/group.py: Group._setup_vectors", "openmdao/core/group.py: Group._create_vecs", "openmdao/core/system.py: System._create_views", "openmdao/core/vec_wrapper.py: SrcVecWrapper.setup", "openmdao/core/vec_wrapper.py: TgtVecWrapper.setup", "openmdao/core/vec_wrapper.py: TgtVecWrapper._setup_var_meta"]}
{"id": "C113", "title": "The report of connections lists each connection once", "statement": "list_connections writes each connection of the system exactly once, with its source and its target, the params without source and the unknowns without target, sources in alphabetical order and targets below them in alphabetical order.", "quantifier": "all systems, connections, names, promotions, units and patterns", "why_tests_cant": "dictionaries keyed by formatted text, names cut at prefixes and lines whose source is left blank could merge or lose connections for particular names only", "anchors": ["openmdao/core/system.py: System.list_connections"]}
{"id": "C114", "title": "Params without source and unit conversions are reported exactly", "statement": "list_params returns exactly the params without source and those whose source lies outside the system and prints each under its name below the system; list_unit_conv returns and prints exactly the connections within the system that convert units or have units on one side only, once each, in order, marking those passed by object.", "quantifier": "all systems, names, promotions, connections and units", "why_tests_cant": "names are cut by prefixes, by lstrip (which takes characters, not a prefix) and used as keys, so particular names can be shown wrongly or merged", "anchors": ["openmdao/core/system.py: System.list_params", "openmdao/core/system.py: System.list_unit_conv"]}
{"id": "C115", "title": "Checks of a setup report exactly what is wrong", "statement": "check_setup reports exactly the params without source, the components without connections, the variables that were not marked as passed by object, the relevant variables passed by object with their connections, and the constraints whose active_tol the driver ignores.", "quantifier": "all models, promotions, connections, relevance sets and orders of iteration of sets", "why_tests_cant": "reports of a few models say nothing about other names; promoted and absolute names only differ in some models", "anchors": ["openmdao/core/problem.py: Problem._check_dangling_params", "openmdao/core/problem.py: Problem._check_no_connect_comps", "openmdao/core/problem.py: Problem._check_unmarked_pbos", "openmdao/core/problem.py: Problem._check_relevant_pbos", "openmdao/core/problem.py: Problem._check_driver_issues"]}
{"id": "C116", "title": "Declared variables are consistent", "statement": "After any sequence of add_param, add_output, add_state and set_var_indices, some of which raise, every name is valid and declared once, sizes and shapes in the metadata are those of the values, variables passed by object have size 0 and the others differentiable values, units were checked, and a refused call leaves no trace.", "quantifier": "all sequences of calls, names, values, shapes and keyword arguments", "why_tests_cant": "unbounded sequences of calls and all combinations of value, shape, pass_by_obj and indices", "anchors": ["openmdao/core/component.py: Component.add_param", "openmdao/core/component.py: Component.add_output", "openmdao/core/component.py: Component.add_state", "openmdao/core/component.py: Component.set_var_indices", "openmdao/core/component.py: Component._add_variable", "openmdao/core/component.py: Component._check_varname"]}
{"id": "C117", "title": "Responses of a serial design of experiments", "statement": "Run in one process, a design of experiments has one response for each case, in order, with the values of that case or marked as failed; an AnalysisError of one case does not affect the others, any other exception ends the run with the responses up to it; running again gives the same responses; each variable can be a response once; setting up again leaves nothing behind.", "quantifier": "all models that depend on the case only, all case lists, response lists, exceptions, numbers of setups and runs", "why_tests_cant": "unbounded case lists with exceptions at any place, repeated setups and runs", "anchors": ["openmdao/drivers/predeterminedruns_driver.py: PredeterminedRunsDriver.run", "openmdao/drivers/predeterminedruns_driver.py: PredeterminedRunsDriver._run_serial", "openmdao/drivers/predeterminedruns_driver.py: PredeterminedRunsDriver._try_case", "openmdao/drivers/predeterminedruns_driver.py: PredeterminedRunsDriver.add_response", "openmdao/drivers/predeterminedruns_driver.py: PredeterminedRunsDriver.get_responses"]}
{"id": "C118", "title": "Words of a parsed line", "statement": "The words of a line, separated by any delimiters, are read one by one, each as the integer, float (with exponent letters e, E, d, D), infinity, not-a-number or text it shows, and the whole line is read; with columns, a field holds exactly the characters of the positions given, read as a value if it is one word and as it stands otherwise; what is skipped depends on the delimiters of that parser only; delimiters inside quotes are kept.", "quantifier": "all lines, words, delimiter sets, fields and column ranges", "why_tests_cant": "unbounded lines, number formats and delimiter sets", "anchors": ["openmdao/util/file_wrap.py: FileParser._reset_tokens", "openmdao/util/file_wrap.py: FileParser.set_delimiters", "openmdao/util/file_wrap.py: FileParser.transfer_var", "openmdao/util/file_wrap.py: ToFloat", "openmdao/util/file_wrap.py: ToInf"]}
{"id": "C119", "title": "Shapes of the Jacobians of components", "statement": "The result of linearize is read as one block for each pair of variables, a number as one entry and a vector as a column; a block of a wrong shape is refused with a message in both modes; alloc_jacobian gives one block of zeros of the right shape for each unknown with each param and each state that can be differentiated, also after a new setup.", "quantifier": "all dictionaries, shapes, components, vectors, both modes", "why_tests_cant": "unbounded shapes and variable lists; broadcasting only shows for particular shapes and modes", "anchors": ["openmdao/core/component.py: Component.alloc_jacobian", "openmdao/core/system.py: System._sys_linearize", "openmdao/core/system.py: System._apply_linear_jac"]}
{"id": "C120", "title": "View of the connections", "statement": "For a problem or any system in it, the page of view_connections has one row for each source with all its targets, and a last row with the params without source, so that every param appears exactly once; each value is that of the source, with the indices of the connection and in the units of the param; the systems to filter by are all those above a source or a target, each once.", "quantifier": "all systems, connections, names, values and unit conversions", "why_tests_cant": "unbounded connections and names; the page is only looked at", "anchors": ["openmdao/util/viewconns.py: view_connections"]}
{"id": "C121", "title": "Opening a file of cases", "statement": "CaseReader opens a file exactly if it is a SQLite file, by its first sixteen bytes and a length of at least 100, or else an HDF5 file, with cases of format version 3 or 4; the reader is of the kind of the file and has its version, the metadata of its parameters and unknowns, its keys without that of the metadata, and their number. Any other path gives an IOError.", "quantifier": "all paths, contents, metadata and keys; any SQLite and HDF5 library", "why_tests_cant": "unbounded contents; the tests open files of the recorders only", "anchors": ["openmdao/recorders/case_reader.py: CaseReader", "openmdao/util/record_util.py: is_valid_sqlite3_db", "openmdao/recorders/sqlite_reader.py: SqliteCaseReader.__init__, _load", "openmdao/recorders/hdf5_reader.py: HDF5CaseReader.__init__, _load"]}
{"id": "C122", "title": "Floating point errors in a stack of solvers", "statement": "A FloatingPointError raised while a nonlinear solver runs leaves the whole stack of solvers with its message extended once: by the unknowns, resids and params, in this order, of the innermost solver that have an entry that is not finite when the error is raised, without those passed by object. The lists can be read back from the message. Runs without errors and other exceptions are not changed.", "quantifier": "all trees of solvers, states, actions, vectors, names and messages", "why_tests_cant": "unbounded depth of the stack; the tests have one and two solvers", "anchors": ["openmdao/solvers/solver_base.py: error_wrap_nl", "openmdao/core/group.py: Group.solve_nonlinear"]}
{"id": "C123", "title": "Variables under complex step", "statement": "With complex support, a variable in a complex step is the complex array of its shape with its slices of the real and imaginary vectors as parts, and a unit conversion applies to that number; a value that is set is read back, leaves its real part after the step and does not change other variables. Outside of a complex step variables are real and the imaginary parts are not touched. An array can be filled by index in both modes.", "quantifier": "all variables, shapes, vectors, values, conversions and indices; any commutative ring", "why_tests_cant": "unbounded shapes and vectors, and values; the tests step a few components", "anchors": ["openmdao/core/vec_wrapper.py: Accessor._setup_get_funct, _setup_set_funct, _get_*_complex, _set_*_complex"]}
{"id": "C124", "title": "Systems by their names", "statement": "subsystems(recurse=True) lists every system below the root exactly once with the names on the way joined by dots as its pathname; find_subsystem finds a system exactly by that name, and raises KeyError for any other.", "quantifier": "all trees of systems with names without dots that differ within a group, and all texts", "why_tests_cant": "unbounded trees and texts", "anchors": ["openmdao/core/group.py: Group.find_subsystem, subsystems", "openmdao/core/system.py: System._init_sys_data", "openmdao/core/problem.py: Problem.find_subsystem"]}
{"id": "C125", "title": "Levels of printing", "statement": "print_all_convergence sets iprint of both solvers of the root and of every group down to the given depth, and of all the solvers within those, and of nothing else; a level that is not -1, 0, 1 or 2 and a problem that is not set up raise an error and change nothing.", "quantifier": "all trees of systems, solvers, levels and depths", "why_tests_cant": "unbounded trees and nested solvers", "anchors": ["openmdao/core/problem.py: Problem.print_all_convergence", "openmdao/solvers/newton.py: Newton.print_all_convergence", "openmdao/solvers/scipy_gmres.py: print_all_convergence", "openmdao/solvers/petsc_ksp.py: print_all_convergence", "openmdao/solvers/solver_base.py: print_all_convergence"]}
{"id": "C126", "title": "The hierarchy as json", "statement": "_json_system_tree gives for each group the dictionary of its own subsystems in order, with those of the groups among them below their names.", "quantifier": "all trees of systems", "why_tests_cant": "unbounded trees; no test calls it", "anchors": ["openmdao/core/problem.py: Problem._json_system_tree"]}
{"id": "C127", "title": "The data of the N2 diagram", "statement": "The tree for the diagram has one node per system, nested as in the model, and numbers the components in the order of the list of all systems. A connection between two components of a loop is listed with exactly the other edges of that loop between components that lie between the two in this order, sorted; any other connection is listed with none, and 'Count greater than 1' is never raised.", "quantifier": "all trees of systems, graphs of components, strongly connected components and connections", "why_tests_cant": "unbounded trees and graphs", "anchors": ["openmdao/devtools/partition_tree_n2.py: _system_tree_dict, get_model_viewer_data"]}
{"id": "C128", "title": "The checks of co-kriging's arguments", "statement": "MultiFiCoKriging.fit accepts exactly data of matching shapes with positive theta and theta0, and bounds of the length of theta0 with 0 < thetaL <= thetaU at each level; what is not given becomes the default, and the optimizer finds bounds for each entry of theta0. Accepted settings are accepted again, unchanged, by a second fit, and a number stands for all features.", "quantifier": "all shapes of data, numbers of levels and settings (numbers, rows, lists)", "why_tests_cant": "combinations of shapes, defaults and lists are unbounded", "anchors": ["openmdao/surrogate_models/multifi_cokriging.py: MultiFiCoKriging._check_list_structure, _check_params, _max_rlf"]}
{"id": "C129", "title": "Names of a system's unknowns in its parent's vectors", "statement": "The map by which a system's vectors are made as views of its parent's has one entry for each unknown of the system, in order, from its promoted name in the parent to that in the system; these are consecutive unknowns of the parent, so that the views exist for every system at any depth, for components, groups and SubProblems.", "quantifier": "all trees of systems, promotions and names", "why_tests_cant": "unbounded depth and promotions; SubProblems are tested at the top level only", "anchors": ["openmdao/core/component.py: Component._get_relname_map", "openmdao/core/group.py: Group._get_relname_map", "openmdao/components/subproblem.py: SubProblem._get_relname_map"]}
{"id": "C130", "title": "Statistics and plot of the tree of systems", "statement": "num_systems, num_groups and num_components count the systems of each kind in the tree starting at a group exactly, and the last two add up to the first; tree_depth is the number of levels below that group; the plot of the tree has one node for each system, named by its pathname, and one edge from each system to each subsystem, labelled with the place of the subsystem.", "quantifier": "all trees of systems, all groups in them", "why_tests_cant": "unbounded trees; the statistics are not tested for a group other than the root", "anchors": ["openmdao/devtools/debug.py: num_systems", "openmdao/devtools/debug.py: num_groups", "openmdao/devtools/debug.py: num_components", "openmdao/devtools/debug.py: tree_depth", "openmdao/devtools/dotgraph.py: _write_system_dot", "openmdao/devtools/dotgraph.py: _sys_dot"]}
{"id": "C131", "title": "Breadth-first search", "statement": "From a node of a finite directed graph, plain_bfs yields exactly the nodes connected to it when the direction of the edges is ignored, each once, nearer nodes before farther ones, in whatever order the sets of the levels are run through; it ends. From a node not in the graph it yields that node and raises KeyError.", "quantifier": "all finite directed graphs, all nodes, all orders of the sets", "why_tests_cant": "unbounded graphs; the order of a set is not under the control of a test; the function has no test", "anchors": ["openmdao/util/graph.py: plain_bfs"]}
{"id": "C132", "title": "Putting a namelist together", "statement": "The groups of a namelist are those added, in order, and the cards of each are the variables, new variables, comments and containers added while it was the last, in order; a container is the variables of the component below its path, sorted, without those to be skipped. The calls succeed if and only if every variable exists and no card comes before the first group. Different variables are written under different names, and a container without a path is every variable.", "quantifier": "all sequences of calls, all components, names and values", "why_tests_cant": "unbounded sequences of calls; the default path and equal names in two subtrees are not tested", "anchors": ["openmdao/util/namelist_util.py: Namelist.add_group", "openmdao/util/namelist_util.py: Namelist.add_var", "openmdao/util/namelist_util.py: Namelist.add_newvar", "openmdao/util/namelist_util.py: Namelist.add_container", "openmdao/util/namelist_util.py: Namelist.add_comment"]}
{"id": "C133", "title": "Importing a library of units, and the library that comes with the code", "statement": "After import_library the base units are those of the file in their order, each with its own dimension and scale one, every unit has one exponent for each base unit, and the file has every required type; a file without one is refused and the library in use is kept. The shipped library loads whatever the order of sets and whatever was loaded before; all its units have a positive scale, so that any two of one dimension convert exactly and back; only degC and degF have an offset; a prefixed name has one meaning; its physical constants have their dimension and size.", "quantifier": "all library files, all orders of the retry sets, all units of the shipped library and all values", "why_tests_cant": "unbounded files; a handful of conversions of the shipped library are tested, refused files and lookups in another order are not", "anchors": ["openmdao/units/units.py: import_library", "openmdao/units/units.py: _new_unit", "openmdao/units/unit_library.ini"]}
{"id": "C134", "title": "Design variables and objectives on several processes", "statement": "get_desvars and get_objectives return on every process the same dictionary: for each variable, in order, the entries of its indices held by its owning process, with adder and scaler applied; an error is raised on all processes alike, and no process waits for another that has stopped; return_type 'array' gives a flat array.", "quantifier": "all numbers of processes, variables, owners, values, index and scaling functions", "why_tests_cant": "all numbers of processes and all owners; under MPI an index out of range would hang a test run instead of failing it", "anchors": ["openmdao/core/driver.py: Driver.get_desvars", "openmdao/core/driver.py: Driver._get_distrib_var", "openmdao/core/driver.py: Driver.get_objectives"]}
{"id": "C135", "title": "Failing on all processes together", "statement": "If the statements under MultiProcFailCheck fail on some process, every process raises RuntimeError naming the lowest failed rank with its traceback, and if they fail on none, all go on; no process waits for one that has failed. Without MPI an exception is left alone. any_proc_is_true answers, alike for all, whether the expression is true on some process.", "quantifier": "all numbers of processes, all programs of collective operations with any results, all expressions", "why_tests_cant": "all patterns of failures on any number of processes; a failure between collective operations would hang a test run", "anchors": ["openmdao/core/mpi_wrap.py: MultiProcFailCheck", "openmdao/core/mpi_wrap.py: any_proc_is_true"]}
{"id": "C136", "title": "Messages for return codes of commands", "statement": "error_message is empty for a command that succeeded and only then; for a positive status it is the message of the system; for a command ended by a signal it names that signal. The text of CalledProcessError separates status and message by one colon.", "quantifier": "all return codes, all platforms' numbers of signals, all contents and orders of the module signal", "why_tests_cant": "depends on the order of a module's dictionary and on the platform; the number of a hangup is shared with other constants", "anchors": ["openmdao/util/shell_proc.py: ShellProc.error_message", "openmdao/util/shell_proc.py: CalledProcessError.__str__"]}
{"id": "C137", "title": "The dump of a system tree", "statement": "dump writes one line for every system with its class and name, and for a group its solvers, groups before their subsystems, each level three blanks further in, so that the tree can be read off the output; with verbose it also writes the variables and connections of any model.", "quantifier": "all trees of systems, names, connections and starting levels", "why_tests_cant": "unbounded trees; the verbose lines are excluded from coverage (pragma: no cover) and not tested", "anchors": ["openmdao/core/group.py: Group.dump", "openmdao/core/component.py: Component.dump"]}
{"id": "C138", "title": "The dump of a vector", "statement": "VecWrapper.dump writes one row for every local variable with its name, its slice and its value, in the order of the vector, then one for every variable passed by object; names and slices start in one column and numeric values end in one. Variables of other processes are left out.", "quantifier": "all vectors, names, slices and texts of values", "why_tests_cant": "the method is excluded from coverage (pragma: no cover); unbounded vectors, and remote variables exist under MPI only", "anchors": ["openmdao/core/vec_wrapper.py: VecWrapper.dump", "openmdao/core/vec_wrapper.py: Accessor._remote_access_error"]}
{"id": "C139", "title": "Reading a box of columns", "statement": "With the delimiter 'columns', FileParser.transfer_array returns all values in the box of the given rows and character columns, row by row, and a whole row as one text when it has a text; transfer_2Darray returns a matrix with the values of each row of the box.", "quantifier": "all files, anchors, boxes and parsers of a text into words", "why_tests_cant": "the tests read boxes from fixed files; the property ranges over all files and boxes, including rows of mixed kinds and boxes beyond the end of the file", "anchors": ["openmdao/util/file_wrap.py: FileParser.transfer_array", "openmdao/util/file_wrap.py: FileParser.transfer_2Darray"]}
{"id": "C140", "title": "The line a solver prints", "statement": "SolverBase.print_norm prints one line with the system, the solver, the iteration, the residual absolute and relative or the message, and the norm of the change of the unknowns if it was given; the line is indented by the depth of the system, so that lines of a subsystem stand one level to the right of those of the system it is in.", "quantifier": "all systems, solvers, iterations, norms, messages and levels", "why_tests_cant": "the property ranges over trees of any depth and all norms, including a change of exactly zero", "anchors": ["openmdao/solvers/solver_base.py: SolverBase.print_norm"]}
{"id": "C141", "title": "Which methods are profiled", "statement": "profile.setup wraps every requested method of the problem, its driver, all systems, all solvers and all recording managers in use exactly once, and nothing else; a setup that failed can be repeated.", "quantifier": "all trees of systems, solvers, tables of methods and classes, and states", "why_tests_cant": "no test of the repository calls setup of the profiler; trees of any depth, objects shared between groups", "anchors": ["openmdao/util/profile.py: _obj_iter", "openmdao/util/profile.py: wrap_methods", "openmdao/util/profile.py: setup"]}
