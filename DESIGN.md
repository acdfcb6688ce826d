# Formal model of OpenMDAO 1.x in Rocq: design

Source under study: `/repo` (OpenMDAO1, Python). The code is read as text and
never executed. The model lives in `rocq/theories/` (logical name `Verif`).

## 1. Layout

For every area `X` of the code there are up to four files:

| file | contents |
|------|----------|
| `XModel.v` | executable Gallina model, one definition per Python function, each with a comment citing file and lines; no proofs |
| `XSpec.v` (or a `Spec` section) | short independent specification, not using the model's helpers |
| `XProofs.v` | lemmas |
| `XProps.v` | the property theorems only: `Theorem … . Proof. exact lemma. Qed.`, `Print Assumptions`, and an `Example` showing the hypotheses are met by a concrete non-trivial case |

Conventions

* Python exceptions are values (`Err e` of a result type); a Python branch is a
  Gallina branch.
* Numbers: integers are `Z` or `nat`; floating-point numbers are modelled by
  exact rationals (`Q`), or by an arbitrary commutative ring/field when only
  algebra is needed. Rounding is *not* modelled, except where a property is
  about rounding; there the pure Gallina IEEE-754 model `SpecFloat` from the
  standard library is used (no primitive floats; no axioms apart from those of
  `Reals` in the Kriging area).
* Dictionaries are association lists in iteration order; Python `set`
  iteration order is an explicit argument (so a theorem quantifies over it).
* External code (user components, LAPACK, pyparsing, the operating system, MPI)
  is a function argument or an explicit schedule; assumptions on it are
  hypotheses of the theorem.
* Loops that may not terminate in Python use explicit fuel; running out of fuel
  is an error value and theorems show it is not reached (or that it is reached
  for every fuel, when the code really loops forever).
* When a property is false of the faithful model, the theorem `…_refuted`
  exhibits a witness, and a second theorem states the part that does hold
  (under a hypothesis excluding the witness).  Such properties have status
  `partial` in `MANIFEST.json` and are listed in section 4.

## 2. Plan per property

| id | modelled | proof |
|----|----------|-------|
| C01-C03 | `PhysicalUnit` (factor, offset, powers), `conversion_tuple_to`, `convert_units` over Q | spec: a unit denotes the affine map x -> (x+offset)*factor into base units; field arithmetic |
| C04 | `__mul__`, `__div__`, `__rdiv__`, `__pow__` | homomorphism into scale x dimension vector |
| C05, C06 | `conversion_factor_to`, `_sum`, comparison, `in_base_units` | refutation with degC/degK; theorem for equal offsets |
| C07 | `_update_library` retry loop on abstract definitions | least-fixpoint characterisation, permutation invariance |
| C08 | `_find_unit` with cache and prefixes | invariant: cache agrees with cacheless lookup, induction over histories |
| C09-C13 | driver metadata, `set_desvar`, `_get_distrib_var`, `add_desvar`, `add_constraint`, `get_constraints`, conversions | list induction and field arithmetic; refutations for index 0, negative scaler, double role |
| C14, C15 | `OptionsDictionary` as a state machine | invariant by induction over operation lists |
| C16 | `format_iteration_coordinate` on strings | injectivity of the string encoding by induction |
| C17-C19 | `_check_path`, coordinates through nested solvers, recorders as store machines with a heap of shared arrays | induction over nesting and histories |
| C20 | `evenly_distrib_idxs` | arithmetic + induction |
| C21, C22 | `to_slice`, sorting, merging, `transfer` | relation between slices and index lists; adjointness over any commutative ring |
| C23, C24 | vector layout, `_get`/`_set`, `get_view` | disjoint slices by induction, read-over-write laws |
| C25 | `distance_along_vector_to_limit` | fold invariant, linear arithmetic over Q |
| C26, C27, C60 | `fd_jacobian`, `complex_step_jacobian`, `ExecComp.linearize` loops | exactness on polynomial models, restoration, partition of columns modulo |
| C28-C30, C53 | `_sys_apply_linear`, `_apply_linear_jac`, group recursion, GS sweep, `assemble_jacobian`, `LinearSystem` | sums over lists in a commutative ring, induction over the system tree |
| C31-C33, C62, C63 | solver loops with residual evaluations as oracles | loop invariants; SpecFloat witness |
| C34-C37 | ordering, promotion and connection resolution | permutations, graph reachability, induction over connection lists |
| C38-C40 | decision procedures | case analysis, tree induction |
| C39 | reachability in component graph | induction over paths |
| C41 | allocation loops with fuel | arithmetic invariants, non-termination witness for all fuel |
| C42-C45 | case distribution; master/worker protocols as transition systems | invariants over all schedules; deadlock witnesses |
| C46, C47 | grids and Latin hypercubes with random choices as arguments | permutation invariants |
| C48, C49 | constraint bookkeeping of optimizer drivers | list offsets, sign analysis |
| C50, C51 | training matrix assembly, quadratic response surface | layout offsets, polynomial identity for all dimensions |
| C52 | `_valid_name`, name replacement on strings | refutation by collision and by iteration order |
| C54-C57 | field substitution, anchor search, key search on lists of lines | induction over text; refutations |
| C58, C59 | poll loop, decision table | arithmetic over Q; case analysis |
| C61 | dotted-path utilities | string/list correspondence |
| C64 | `DerivOptionsDict.__setitem__` and the defaults it sets | state machine, induction over assignments |
| C65 | the iteration of `LinearGaussSeidel.solve` over the sweep of C29 | fixed points of the sweep are solutions; refutations by small groups |
| C66, C67 | `check_call`, `ShellProc.__init__`, `close_files` | case analysis; refutations |
| C68-C71, C75, C76 | `set_file`, `transfer_array`, `transfer_2Darray`, `transfer_var` of the parser, `transfer_2Darray` of the generator, `set_delimiters` | induction over lines and fields |
| C72 | `Group.add` | invariant over histories of `add` and `set_order` |
| C30 | `assemble_jacobian` with both methods, as writes into a matrix over the positions of `du` | the written entries are compared with the operator on unit vectors, induction over the tree |
| C73, C74 | `_calc_gradient_ln_solver` with the linear solver as argument; the sweep of C29 as solver | induction over requested variables and entries; a matrix with left and right inverse |
| C77, C78 | `_add_variable`, completion of target metadata, `check_connections`, `TgtVecWrapper.setup`, `_get_global_idxs`, `_setup_data_transfer`, `_transfer_data` | characterisation of accepted connections; offsets of the size tables are the starts of the slices, then C21 |
| C79, C80 | `children_solve_nonlinear`, `apply_nonlinear` of groups, parallel groups and components, `RunOnce`, `NLGaussSeidel` as solver of a group, `_get_ubc_vars` | invariant over the tree: connections in order are satisfied and their components solved after a run; the solution of an ordered system is unique; marking is exact |
| C81 | `_get_root_var`, `_set_root_var` on the names and connections of C36/C37, accessors as copies or references into a heap of the caller | invariant of the search for unconnected inputs: every entry is the set fed by one input without links; unique such input if every param has one link |
| C82 | nearest neighbour interpolants over an ordered field; k-d tree, null vector of the SVD and sparse solver as arguments with pointwise hypotheses | weight 1 at the only point at distance 0; convex combination; the plane through the neighbours contains the training point; refuted for several outputs with a vertical plane |
| C83 | gradients of the same interpolants and of kriging, the tables of radial kernels over Q | dual numbers satisfying the defining equations (distance squared, weight times distance power); existence of such dual numbers; kernel tables by polynomial identity; two kernels refuted |
| C84 | check_partial_derivatives on the components of LinModel with an arbitrary apply_linear; complex step with unit conversions | loop invariant over the entries written by the passes; products with unit vectors; composed with exactness of finite differences (C26); stale residuals, units and scaling of complex steps refuted |
| C85 | _assemble_deriv_data with an arbitrary norm, option overrides, choice of components | direct, induction over the pairs; overrides and compact table refuted |
| C86 | the systems of C28 seen through vectors of the relevant variables, linked to relevance.py (C39) | equations of the reduced system, block triangular argument with determinants; unconnected states and other unknowns refuted |
| C87 | Namelist.generate and parse_file with the pyparsing grammar as an ordered-choice parser over characters | induction over the grammar: each written token is read back and stops where it should; continuation lines; decks that are not read back refuted by computation |
| C88 | load_model over decks, rules and a dictionary of variables | invariant of the loop over groups: variables as a fold of what was stored, reports as filters |
| C89 | _calc_gradient_fd with the naming and settings of fd_jacobian, over the differences of C26 and the requests of C38/C74 | blocks located by name resolution, assembly by induction over names with the layout of C74; linear models through uniqueness of the chain rule solution; bad requests refuted by computation |
| C90 | check_total_derivatives: choice of variables and modes, both solves of C74, the differences of C89, the comparison of C85 | each dictionary has the block of its table for every pair, errors separate equal blocks; no errors for linear models by C89; runs without output and finite difference roots refuted |
| C91 | gmres as an arbitrary tree of products and preconditioner applications, the callbacks on the vectors of C29, DirectSolver's matrix by unit vectors, Group.solve_linear | induction over the tree: each callback answers with the matrix of LinSpec and stays inside; with C74 both modes give the chain rule; unconverged runs and stale parameters refuted |
| C92 | KrigingSurrogate over the real numbers: normalization, covariance matrix, regularized pseudo-inverse from svd, prediction, errors, gradient; svd and minimize are arguments | orthogonal matrices keep norms, so the regularization changes the samples by at most the squared condition number times 1e-16; the gradient by the differentiation rules of Reals; exact reproduction, integer points, failed trainings, several outputs and several points refuted |
| C93 | _check_input_diffs on the dictionary of inputs without a source of the model of C37: units, values (arrays or objects, with any ==), step settings | invariant: every entry of the dictionary is the set of inputs fed by one unconnected top input, and all of these have an entry; refuted: missing units tolerated, NaN equal to itself, numbers of different types, links with indices, inputs in a circle, missing settings |
| C94 | the checks of SubProblem's setup, solve_nonlinear, linearize and the inherited evaluation of residuals, over the trees of C79, with the inner vectors kept between calls | invariant over histories of calls (the inputs that are not params stay); uniqueness of the solution of a feed-forward model (C79) gives independence of history and, for the merged vectors of the outer and inner model, equality with the flat model; refuted: residuals (unknowns are lost), derivatives without a preceding run |
| C95 | _check_solvers over trees of groups with a linear solver and components with states, on the graph of subsystems of C35 | invariant of the loop over the groups in order (a group comes after those above it), then the topmost group that can solve coupled equations covers a state; refuted: Krylov solvers limited to one iteration are never reported; a state of a SubProblem with a dotted name makes the check fail |
| C96 | _check_graph for every group: sorting the members of the cycles, depth-first search from each subsystem in execution order on the graph without broken connections (C35) | invariant of the loop over the subsystems; reachability in the broken graph = needing through unbroken connections; transitivity of the order |
| C97 | MultiFiMetaModel._train on the matrices of C50, with the loops over levels and the reassignment of name in them | two levels: projection of the loop over both levels on each level's own fill, reuse of the single-level lemmas, induction over the trainings; refuted: three levels always raise KeyError (looking up x_fi2_fi3; decomposition of names at the last underscore), empty levels without warm restart give None, array inputs overwrite each other, one level with a first warm restart raises AttributeError |
| C98 | tables of sizes per process and variable, _get_global_idxs for each process with its own metadata, a PETSc vector as the concatenation of the local arrays, a scatter as copying or adding pairs of positions in any order | forward: the position computed for an index is the home of that entry of the whole source, and positions are injective; backward: sum over processes and connections exchanged, each slot hit by exactly the entries taken from it; refuted backward: copies of a source with a target with indices (counted per process), a target outside the processes of a spread source (lost), indices known in some processes only; refuted forward: source not known to be spread |
| C99 | the program of each process (sends, barrier, receives) over a network with queues per sender, receiver and tag, interleaving semantics | diamond property of the network (steps of different processes commute), one complete schedule constructed round by round, hence every execution ends in the same state; refuted for sends that wait for the receiver: the start state of any transfer with a message is a deadlock |
| C100 | connections of a design variable, the sets of indices with an arbitrary iteration order, the pattern and the conversion of a dense block; the derivative as the sum over the targets | membership in the relevant indices characterised, columns left out shown zero, positions of the pattern distinct; refuted for promoted targets: relevance has promoted names, the driver asks for absolute ones, so a full connection is overlooked and its columns are lost; refuted for repeated indices of a design variable |
| C101 | _objfunc and _gradfunc with the outcome of every step given | case analysis over all outcomes, induction over the sparse pairs; refuted: a gradient that fails with anything but AnalysisError returns an empty dictionary and no failure flag |
| C102 | programs as trees of calls with clock readings, start and stop anywhere, exceptions; the wrapper with its stack, table of paths and records; reading, summing, the tree with children by reference, remove_child_ovr, totals | induction over programs (records are the profiled calls with their paths, up to order), invariants of the sums and of the construction of the tree, induction on depth for the overhead; refuted for calls that raise (the stack keeps their name, processing ends in KeyError), for the time of the root, and for grand totals of several processes |
| C103 | RmModel: RecordingManager.startup, _gather_vars, record_iteration (recording_manager.py 50-118, 162-232), Group._get_owning_ranks, on all processes of a communicator at once; not modelled: _casecomm (C42), metadata, derivatives, time stamps | invariant of the managers after startup (names localised, flags equal on all processes), then induction over the iterations. Runs with only serial recorders (C103_serial) and only parallel ones (C103_parallel, C103_once) are right. Refuted: parallel recorders next to a serial one lose the variables of all processes but the first, or raise AttributeError (C103_mixed_refuted, for all layouts); serial recorders of a system without world process 0 store nothing (C103_subgroup_refuted); after a second setup names of the first remain and raise KeyError (C103_restart_refuted) |
| C104 | SmModel: the loop over the connections in Problem.setup (problem.py 502-530: shape, size, val, src_indices) and _setup_units (2345-2394), on metadata that persist; how a param is read (vec_wrapper.py 114-290); conversion tuples from UnitsModel. Not modelled: check_connections (C77), other metadata keys, the lookup of a unit string (an argument; C06-C08), negative source indices | each loop is an instance of a loop updating one entry of a dictionary at a time; with distinct targets the entries are independent, which gives C104_first_setup (all fields and the reports), C104_repeated_setup (same connections again: nothing changes, from any state) and C104_order. Refuted: a conversion, source indices and shape from an earlier setup with other connections stay (C104_units_stale_refuted, C104_indices_stale_refuted); for a source with several axes the initial value consists of rows and does not fit the size (C104_rows_refuted), and indices that the transfer accepts stop setup (C104_index_error_refuted) |
| C105 | `DirModel.v`: `_setup_dir`, `DirContext`, and every place that enters a context (driver, groups, linearize, linear Gauss-Seidel, Newton, preconditioners, run_once, calc_gradient), over trees of any shape; solvers as lists of steps; any pattern of exceptions | partial: `C105_run`, `C105_all` by a frame invariant over the tree (cwd kept, only descendants' contexts touched) for systems whose contexts are not entered twice; `_refuted` theorems for the cases where the claim is false, the gradient one universal |
| C106 | `FrefModel.v`: FileRef objects on a heap, `_fileref_setup`, `validate`, the FileRef part of `check_connections`, `_assign_to` over a file system with an arbitrary path resolution, components with arbitrary behaviour run in any order | partial: refinement to contents passed as values (`C106_run`) under separation of files, exact characterisation of the checks and of setup; `_refuted` theorems for the layouts the checks let through, aliases, carriage returns, shared FileRefs |
| C107 | `VoiModel.v`: the dictionaries and VOI sets of a driver under sequences of add_desvar, add_objective, add_constraint and parallel_derivs (exceptions leave the state), `_of_interest` with its set of remaining names, `_map_voi_indices`, `_check_for_parallel_derivs` | invariant over all call sequences: the state is what the accepted calls declared, sets are disjoint; `_of_interest` computed in closed form, permutation and grouping from it; refutations are universal (every objective that is a constraint); C107_requests gives the hypothesis of C73 on groups |
| C108 | `CokModel.v`: distances in condensed form, squareform, correlation, design matrices, both loops of fit with their exceptions, rlf and what it stores, self.theta between fits, predict (mean and error) and the two surrogates, over an arbitrary field; cholesky, triangular solves, QR and the optimizer's run are arguments | exact algebra over the field: entry (a,b) of the condensed vector, (covariance) g = y - F beta from the factor, induction over the levels with the error of the level below; normal equations from QR; uniqueness of triangular solutions for the error estimate; the refutations hold for every model of the stated kind; examples over canonical rationals with proved substitution |
| C109 | constraint.py `_parse_constraint`, `_combined_expr`, `ConstraintComp.__init__` on character lists; the fragment of Python in which the built statement is read (CstrPy.v: lexer, expression reader, values over Q, chained assignment) stands for compile/exec | proved for one comparison of two arithmetic expressions without comparators: reader lemmas (extension of a reading by a following token, by induction on its steps) give the value of the combined text for all variables and functions; refusals proved; false for strict inequalities at equality and for equations (docstring), and refuted universally for `l <= m < r`, `< r`, `n =< r`, and by a witness for comparators inside calls. Not modelled: exponents, strings, and/or/if, arrays |
| C110 | file_util.py `build_directory` with its chdir/exists/makedirs/open calls on a map from paths to entries, the nested recursion, the finally clause and the warnings | proved: the recursion is shown equal to a list of operations (induction on nested dictionaries), each operation's effect on a sound file system is the filling of its places, and the closed form (first mention without force, last with) follows; restored directory, safety without force and confinement hold for failing calls too; refuted: a call refused for an absolute key has already written, force=0/None overwrites, `..` in a key leaves topdir. Not modelled: links, permissions, absolute topdir |
| C111 | file_util.py `find_files`, `_file_gen` (os.walk over a tree, pruning of the list of directories in place), `find_up` with posixpath.join/dirname/normpath on characters; fnmatch and exists are arguments | proved by induction on trees (membership both ways, no repetition) and on the names of an absolute path (nearest), termination of the upward loop by the length of the path; refuted: dirmatch/direxclude are put to the start directory's full name, relative paths stop below the working directory, paths with `..` search directories that are not above. Not modelled: links, changes during the walk |
| C112 | system.py `_get_shared_vec_info`, its use in Group._setup_vectors/_create_vecs and System._create_views, the slices of SrcVecWrapper.setup and TgtVecWrapper.setup/_setup_var_meta; numpy's cut of slices; assignment to cells | induction over the groups and over the variables: ranges of the vectors of one group are disjoint and inside the array, ranges of the variables are disjoint and inside their vector; every sequence of assignments reads back as if each variable were an array of its own; size is the maximum. False for dparams when a param passed by object has a source that is not (refuted universally). Not modelled: MPI, views of params not owned |
| C113 | system.py `list_connections` with its inner functions, on character lists; sorted, str.format with width, startswith; fnmatch as an argument | the lines, read back with a blank source meaning the one above, are a permutation of the rows of the connections in scope plus the unconnected ones; formatted keys are injective for names without spaces; order by induction. False with a pattern that matches both ends (listed twice, exact count proved) and for units=None (TypeError), both refuted universally |
| C114 | system.py `list_params`, `list_unit_conv` on character lists; str.lstrip, sorted on pairs, dictionary keyed by pairs of relative names | lists characterised by membership in the connections; conversions by an invariant of the loop (keys distinct because targets are and relative names are injective below the path); sort is a permutation in order. The printed name of a param with a source outside is wrong exactly when its first character occurs in the path: `lstrip` refuted universally |
| C115 | problem.py `_check_dangling_params`, `_check_no_connect_comps`, `_check_unmarked_pbos`, `_check_relevant_pbos`, `_check_driver_issues`; sets with any order of iteration | membership and order of each result characterised from the connections and names. Refuted: connections with a promoted end are not printed (absolute names are compared with promoted ones); the variables then go to the standard output instead of the stream |
| C116 | component.py `namecheck_rgx`, `_get_initial_val`, `_check_val`, `_add_variable`, `add_param`, `add_output`, `add_state`, `set_var_indices`, `_check_varname` as a state machine; values by shape and differentiability | invariant over all sequences of calls; the regular expression accepts exactly identifiers separated by colons. Refuted: an integer shape overrides that of a given value; 'unit' is checked in place of 'units'; set_var_indices gives objects a size and accepts values that are not differentiable; a refused variable stays in the warnings |
| C117 | predeterminedruns_driver.py `add_response`, `get_responses`, `_setup`, `run`, `_prep_case`, `_try_case`, `_run_serial`, `_save_case` in one process; InMemoryRecorder; the model is a function that returns, raises AnalysisError or another exception | induction over the cases with the entries of the recorder as invariant. Refuted: each setup adds a recorder that stays; a variable that is objective and constraint is refused with auto_add_response |
| C118 | file_wrap.py `ToInteger`, `ToFloat`, `ToNan`, `ToInf`, `set_delimiters`, `_reset_tokens`, `transfer_var` (both branches) of the parser; the pyparsing elements used (Word, Literal, CaselessLiteral, oneOf, Optional, And, MatchFirst, Combine, OneOrMore, skipping, expansion of tabs) as functions on texts | each element commutes with appending a character that is in no token, then induction over the words. Refuted: a number at the start of a word is cut from it, also in -3e5; the rest of a line after an unknown character is dropped; a tab as only delimiter; the sign of -Inf; quotes, letters as delimiters; delimiters of other parsers with columns |
| C119 | component.py `alloc_jacobian`, system.py `_sys_linearize` (the dictionary returned by linearize) over the model of `_apply_linear_jac` of C28 | case analysis on shapes, membership in nested maps. Refuted: arrays without axes; a single row forward (single column in reverse) is broadcast; the allocated Jacobian is kept after a new setup |
| C120 | viewconns.py `view_connections`: the data of the page (template, json and browser are left out; formatting of values is left out) | induction over the params with the groups as invariant, sorting lemmas of C113/C115. Refuted: a system with a source outside of it raises KeyError; the row without sources is not the last if a name sorts before it |
| C121 | record_util.py `is_valid_sqlite3_db`, case_reader.py `CaseReader`, `SqliteCaseReader.__init__`/`_load`, `HDF5CaseReader.__init__`/`_load`; what the SQLite and HDF5 libraries find in the bytes is given by arbitrary functions; a missing file name and `_group_to_dict` are left out | case analysis on the path and the contents, induction over the keys. Refuted: without h5py any other path gives RuntimeError; the attributes parameters and unknowns stay None, their values are in _parameters and _unknowns |
| C122 | solver_base.py `error_wrap_nl` around trees of solvers, each a list of arbitrary actions and subsolvers; entries are given by their being finite; tracebacks are left out | relational semantics without wrappers as the specification, mutual induction over its derivations with the marking of an exception as invariant; injectivity of the text by induction over the names. Refuted: a remote param that is a float makes it a TypeError |
| C123 | vec_wrapper.py `Accessor`: the getters and setters with complex support (`_setup_get_funct`, `_setup_set_funct`, `_get_arr_complex`, `_get_arr_diff_shape_complex`, `_get_scalar_complex`, `_get_arr_units_complex`, `_get_arr_units_diff_shape_complex`, `_get_scalar_units_complex`, `_set_arr_complex`, `_set_scalar_complex`) on slices of two lists over a commutative ring; by-object and remote variables are left out | lemmas on slices and updates, ring arithmetic on pairs. Refuted: filling an array by index in a complex step is lost, as the getter returns a copy |
| C124 | system.py `_init_sys_data` (pathname), group.py `subsystems`/`subgroups`, `find_subsystem` of group and problem, on trees of named systems | paths as lists of names (PathSpec of C61) as the specification, nested induction over the tree |
| C125 | problem.py `print_all_convergence`, and `print_all_convergence` of the solvers; a solver is iprint and the solvers in it | induction over the path to a group with the full path as a parameter; structural induction over solvers. Refuted: Newton defines the method twice, the second one does not pass the level on, so a preconditioner in its linear solver is left alone |
| C126 | problem.py `_json_system_tree`, `_tree_dict` on the trees of C124; json and the metadata of the unknowns are left out | induction over the tree, lemmas on ordered dictionaries. Refuted: the loop is recursive on its own, so the systems below a subgroup also appear in every group above it, where they replace systems of the same name |
| C127 | devtools/partition_tree_n2.py `_system_tree_dict`, `get_model_viewer_data` on the trees of C124; the nodes of variables are arbitrary, networkx's strongly connected components are an argument | induction over the tree with the counter; disjointness of the strongly connected components; spec is mutual reachability and places in the list of components |
| C128 | multifi_cokriging.py `_check_list_structure`, `_check_params`, the bounds `_max_rlf` reads; numbers are rationals, settings numbers or flat arrays (not arrays with several rows), a callable or named regression is left out | equivalence with a separate specification by entries of the broadcast arrays, induction over levels. Refuted: a second fit fails when theta0 has not one entry per feature and a bound is a default; a number as bound is refused when theta0 is not given; theta0 may lie outside the bounds; the columns of the first two X are not compared |
| C129 | `_get_relname_map` of component.py, group.py and subproblem.py on the dictionaries of C36, with the views of C24 | from the characterisation of the dictionaries (C36), induction over the way down; gives the hypothesis of C24_tree_views. Refuted for SubProblems: the key is made of the name, not the pathname, so the map of a SubProblem inside a group is empty |
| C130 | `num_systems`, `num_groups`, `num_components`, `tree_depth` of debug.py; `_write_system_dot` and `_sys_dot` of dotgraph.py (lines as nodes and edges, without indentation), on the trees of C124 | induction over the tree and the way from a system to another (C124); the depth from the longest way to a leaf. Refuted: the depth counts the names of the absolute pathname, so from a group below the root it is too large by the length of its path; a group without subsystems raises ValueError |
| C131 | `plain_bfs` of util/graph.py; the order of each set is an argument, any permutation | invariant of the levels: seen are the nodes nearer than k, the next level has all nodes at distance k and only ends of walks of length k; the number of levels is bounded by the number of nodes |
| C132 | `add_group`, `add_var`, `add_newvar`, `add_container`, `add_comment` of namelist_util.py as steps on groups, cards and the current group, and the name under which `generate` writes a card | induction over the calls with the invariant that the current group is the last; a sorted list without repetition is determined by its elements. Refuted: a container without a path has no variable; variables with the same last part in different subtrees are written under one name |
| C133 | `import_library` and `_new_unit` of units.py on the loading of C07, with sections of the file as lists; `unit_library.ini` written out (UlibData.v, decimal literals exact, pi the float) | invariants of loading: units stay with factor and dimension, and have one exponent for each base unit; the shipped file is evaluated in Coq with an arbitrary order, and C01, C02 applied. Refuted: a refused file has already replaced the library; looking up `ag` changes `dag`; sigma, Ken and V0 have a wrong dimension or size |
| C134 | `get_desvars`, `_get_distrib_var` and `get_objectives` of driver.py as one program per process, run together with matching broadcasts; values of any type, indexing and scaling functions that may raise; the variables are the same, in the same order, on all processes | induction over the variables: one variable is one broadcast of all processes (none on a single process). Refuted: an index out of range raises at the owner only, and the others wait for ever; `return_type` is not used |
| C135 | `MultiProcFailCheck` and `any_proc_is_true` of mpi_wrap.py; processes as trees of collective operations of a kind, run together | the check simulates every operation of the statements, then one allgather; induction over its list. Refuted: a failure while another process waits in an operation of the statements is reported nowhere, and all wait for ever |
| C136 | `error_message` and the end of `CalledProcessError.__str__` of shell_proc.py; the module signal as a list of its integer attributes in order, `os.strerror` a function | the loop gives the first attribute with that number, by induction. Refuted: constants such as SIG_UNBLOCK or SIG_IGN are named for SIGHUP and SIGINT if they come first; no message for a signal without a name; two colons in CalledProcessError |
| C137 | `dump` of group.py and component.py with sizes and dvecs off: the lines that start a system as texts; of the verbose lines whether they raise | induction over the tree; an output splits uniquely where the indentation falls back, so equal outputs come from trees alike. Refuted: with verbose, an unknown that feeds two params of a group raises TypeError (join of a list of lists) |
| C138 | `VecWrapper.dump` with widths and padding on texts of slices and values; reading a remote variable raises | no text is longer than the maximum over the vector, so each padded cell has the width of its column. Refuted: with any remote variable the values read for the width raise RuntimeError before anything is written |
| C139 | `transfer_array` and `transfer_2Darray` with the delimiter "columns"; parsing, the text of a number in an array of texts and numpy's reading of a text as a float are arguments | induction over the rows against a specification by splitting the file and the line; refuted: one row with a text makes texts of all numbers, rows beyond the end of the file are zeros in a matrix |
| C140 | `SolverBase.print_norm`; texts of numbers and the division of the norms are arguments | the number of dots of a path is the number of its names, by induction; refuted: a change of exactly zero is left out like one that was not given |
| C141 | profile.py `_obj_iter`, `wrap_methods`, `setup`; `subsystems` with recursion; isinstance and getattr are arguments, whether the file can be opened too | the objects visited are those of a specification by kinds (induction over trees, counting occurrences), each visit adds one wrapper; refuted: a shared solver is wrapped twice, a solver inside a solver not at all, and after a failed setup every further one is refused |

## 3. Trusted base

* The Coq 8.16.1 kernel and its virtual machine (`vm_compute` is used in
  examples and refutations, which are computations on concrete data).
* `Print Assumptions` follows every theorem of a `…Props.v` file.  Outside
  `KrigProps.v` each one prints *Closed under the global context*: no theorem
  depends on an axiom, be it of the standard library or of this development.
  The theorems of `KrigProps.v` (C92) are about the real numbers of the standard
  library and list its axioms: `ClassicalDedekindReals.sig_not_dec`,
  `ClassicalDedekindReals.sig_forall_dec`,
  `FunctionalExtensionality.functional_extensionality_dep` and, where `exp` and
  `sqrt` are computed with, `Classical_Prop.classic`.
* The reading of the Python code recorded in the comments of the model files.
  Nothing links the model to the code mechanically: the definitions cite the
  lines they stand for, and `seeded/LOG.jsonl` lists wrong programs (edits of
  the model) together with the theorems that reject them.
* What the theorems take as arguments: numpy, scipy, networkx, pyparsing, the
  operating system, MPI and the user's components.  Where they are assumed to
  behave in some way, this is a hypothesis of the theorem, written out in the
  `…Spec.v` file of the area.
* Floating-point numbers are exact rationals or elements of a ring or field,
  unless the theorem is about rounding (then `SpecFloat`) or about
  exponentials (then `Reals`, C92).

What each model covers, and what it leaves out (from the head of the file):

| file | covered and simplified |
|------|------------------------|
| `UnitsModel.v` | Model of openmdao/units/units.py. Simplifications (whole file): - floats are exact rationals [Q]; - the [names] field of a unit (lines 409-414, used only for printing) is dropped, so [set_name] (590-593) is the identity; - [eval] of a unit string is evaluation of the corresponding syntax tree ([uexpr]); parsing of the string by Python is not modelled. |
| `DriverModel.v` | Model of the design variable, constraint and scaling bookkeeping of openmdao/core/driver.py (and the scaling statements of openmdao/core/problem.py). Simplifications: single process (the [nproc > 1] branches that broadcast values are not modelled); floats are exact rationals; [warnings] calls are dropped. |
| `OptionsModel.v` | Model of openmdao/util/options.py (OptionsDictionary, DeprecatedOptionsDictionary) and of DerivOptionsDict (openmdao/core/system.py 33-60). Simplifications: Python values are limited to the types below (no infinities, lists or user objects); warnings and print calls are dropped; descriptions are dropped. |
| `RecordModel.v` | Model of openmdao/util/record_util.py and of the recorders and case readers in openmdao/recorders (base_recorder.py, inmem_recorder.py, sqlite_recorder.py, hdf5_recorder.py, sqlite_reader.py, hdf5_reader.py, case.py). Simplifications: single process (rank is a parameter of the coordinate only); time stamps are opaque values; fnmatch.fnmatchcase is an argument; the SQLite and HDF5 files are dictionaries (pickling copies values). |
| `TransferModel.v` | Model of openmdao/util/array_util.py (evenly_distrib_idxs, to_slice) and of openmdao/core/data_transfer.py (DataTransfer). Simplifications: vectors are lists of values of an arbitrary type; the two vectors of a transfer do not share memory (they never do); pass_by_obj transfers are left out. |
| `VecModel.v` | Model of openmdao/core/vec_wrapper.py: SrcVecWrapper.setup, the accessors, VecWrapper.get_view and SrcVecWrapper.distance_along_vector_to_limit. Simplifications: one process; no complex step (the imaginary vector has the same layout); no unit conversion (never present in a source vector); arrays are flat lists except where the number of dimensions matters. |
| `FdModel.v` | Model of finite difference and complex step: openmdao/core/system.py fd_jacobian 488-797, openmdao/core/component.py apply_nonlinear 554-591, complex_step_jacobian 815-949, openmdao/core/vec_wrapper_complex_step.py, openmdao/components/exec_comp.py linearize 215-284, _TmpDict 287-328, openmdao/core/parallel_fd_group.py 65-115. Numbers are the elements of a field F (exact arithmetic). Not modelled: variables absent from this process (the p_size == 0 branch and get_combined_jac). |
| `LinModel.v` | Model of the linear operators and of the linear solvers: openmdao/core/system.py _sys_apply_linear 799-894, _apply_linear_jac 961-1021, openmdao/core/group.py _get_gs_outputs 339-365, _setup_vectors 505-517 (_do_apply), _sys_apply_linear 838-885, solve_linear 887-959, clear_dparams 961-978, assemble_jacobian 980-1088, openmdao/core/component.py solve_linear 690-723, openmdao/core/vec_wrapper.py _scale_derivatives 970-979, _apply_unit_derivatives 1234-1247, openmdao/components/indep_var_comp.py _sys_apply_linear 64-109, openmdao/components/linear_system.py 60-116, openmdao/solvers/ln_gauss_seidel.py solve 77-236, _norm 238-268, openmdao/solvers/solver_base.py mult 260-299, openmdao/solvers/ln_direct.py solve 83-138. Numbers are the elements of a commutative ring. The derivative vectors du, dr, dp of the whole model are maps from flat positions to numbers; the vector of a subsystem is the view on its own positions. One variable of interest, all of whose systems are relevant; rel_inputs is None; no pass_by_obj or remote variables. The transfers are the entrywise copies and accumulations to which TransferProps (C21, C22) reduce the scatters. |
| `SolveModel.v` | Model of the nonlinear solvers: Component.apply_nonlinear (core/component.py 556-611), NLGaussSeidel (solvers/nl_gauss_seidel.py), Newton (solvers/newton.py) with BackTracking (solvers/backtracking.py), and Brent (solvers/brent.py). Simplifications: printing and metadata are dropped (record_iteration is kept as a trace event); the system's own computations (children_solve_nonlinear, apply_nonlinear, linearize, solve_linear) are function arguments which may raise; vectors hold exact rationals, while norms are extended rationals with infinities and NaN; the two norms are function arguments. A non-finite step length would put a non-finite number in the unknowns: the model stops there ([NonFinite]). |
| `PathModel.v` | Dotted path utilities: openmdao/util/string_util.py lines 8-76. |
| `AllocModel.v` | Processor allocation: openmdao/core/parallel_group.py lines 93-120 (get_req_procs) and 122-255 (_setup_communicators), group.py 1342-1362, system.py 429-437. Modelled: the requirements of a tree of systems, the two allocation algorithms, the list of colors. Not modelled: the communicators themselves (comm.Split), directories, warnings. Process counts are natural numbers; the while loops take fuel. |
| `DoeModel.v` | Design of experiments: openmdao/drivers/fullfactorial_driver.py lines 38-64, latinhypercube_driver.py lines 47-94 and 128-318. Random choices are arguments. Numbers are rationals (numpy.linspace is computed exactly). The Morris-Mitchell criterion mmphi (lines 188-218) is an arbitrary function: only comparisons of its values matter. Not modelled: the scattering of a Latin hypercube to several ranks (_distrib_build_runlist). |
| `ProcModel.v` | Running external commands: openmdao/util/shell_proc.py lines 46-152 and 177-260, openmdao/components/external_code.py lines 103-206 (non-Windows). Times are rational numbers. The operating system is an argument: when each sleep ends, what poll() reports, which files exist and can be opened, whether the executable is found and started. Not modelled: texts of error messages, the signal sent by terminate() and whether the command obeys it. |
| `FileModel.v` | File wrapping: openmdao/util/file_wrap.py lines 34-98, 128-411 and 413-828. A text is a list of (ASCII) characters, a file its list of lines as readlines() returns them (with their newline characters). The rendering of values (_getformat, str) and the parsing of a line into tokens by pyparsing are arguments, as is the reading of the file. Not modelled here: the "columns" delimiter (TokModel.v, BxcModel.v), arrays of mixed type, occurrences that are not integers. |
| `OrderModel.v` | Execution order: openmdao/core/group.py lines 30, 120-162 (add), 381-399 (_setup_communicators, the local subsystems), 1090-1209 (set_order, list_order, list_auto_order, _get_sys_graph, _break_cycles), core/relevance.py lines 123-148 (_setup_sys_graph), util/graph.py lines 11-36 (collapse_nodes) and 70-121 (break_strongly_connected), core/problem.py lines 611-624. Pathnames are lists of names (the Path area relates them to dotted strings; names contain no dots, [valid_name]). networkx's strongly_connected_components and topological_sort are arguments (GraphSpec.v). Not modelled: MPI broadcast of the order, communicators, error messages. |
| `ReqModel.v` | Processor requirements of a whole model, and the derivative mode: openmdao/core/system.py 429-437, core/group.py 1342-1362, core/parallel_group.py 93-120 (both in AllocModel.v), core/parallel_fd_group.py 117-131, drivers/predeterminedruns_driver.py 197-212, core/problem.py 1187-1237 (_mode). Not modelled: components/subproblem.py (the requirements of another problem). |
| `RelModel.v` | Relevance of systems and variables to variables of interest: openmdao/core/relevance.py 15-55, 60-80, 104-126, 150-232. The system graph is sys_graph of OrderModel.v. Sets are lists. nx.dfs_edges is an argument (its edges' heads). abs (to_abs_uname) and prom (to_prom_name) are total functions: Problem.setup checks the names of the variables of interest before (problem.py 590-602). Simplified: variables of interest come as flat lists, the loops over tuples being nested. |
| `NameModel.v` | Promoted names: openmdao/core/group.py 284-337 (_setup_variables), 367-379 (_promoted_name), core/component.py 397-415 (_setup_variables), core/system.py 215-242 (_promoted), 308-334 (_check_promotes). Absolute and promoted names are lists of name parts (the code joins them with dots; parts contain none, C72). A promotion pattern is a predicate on the dotted name: the compiled glob of system.py 389, matching the whole name. Dictionaries are association lists. Not modelled: the variables' metadata, MPI, promotes given as a string (TypeError). |
| `ConnModel.v` | Connections: openmdao/core/group.py 647-693 (_get_explicit_connections), core/problem.py 177-290 (_setup_connections), 2396-2427 (_add_implicit_connections), for the systems and names of NameModel.v. nx.dfs_edges and the order of a set are arguments. src_indices are lists of non-negative indices. Not modelled: the sorting of the result's keys. |
| `EvalModel.v` | Model of openmdao/util/concurrent.py: the master and the workers of concurrent_eval_lb as processes that exchange messages. One step is one step of one process; which process moves is not determined. Messages from the master to a worker arrive in order; the master receives the results in any order. A send does not wait for its receiver. A case is (args, kwargs); [None] stands for a case whose args are None. What a call of the function does is the relation [ev]: it relates a case to the results (retval, err) it may have. |
| `BalModel.v` | Model of the load balanced design of experiments under MPI (openmdao/drivers/predeterminedruns_driver.py: _run_lb, _distrib_lb_build_runlist, _setup_communicators): the master and the worker processes, which are arranged in groups; all processes of a group run the same case. One step is what the master does between two receives, or one action of a worker; which process moves is not determined. Messages between two processes arrive in order, messages of different workers in any order, and a send does not wait. A process is named by the number of its group and its place there; [layout] and [doe_ids] give the ranks. What running a case on a process gives is the relation [ev]. Simplified: the communication between the processes of a group while they run a case is not modelled; _prep_case and the recorders do not raise. |
| `MpModel.v` | Model of the design of experiments over local worker processes (openmdao/drivers/predeterminedruns_driver.py: worker and _run_lb_multiproc): the main process and the workers, with a queue of tasks and a queue of responses. One step is what the main process does between two waits, or one action of a worker; which process moves is not determined. Tasks are taken in the order in which they were put; a response may be received in any order. A put does not wait. What running a case does is the relation [ev]. |
| `ParModel.v` | Model of the parallel design of experiments without load balancing under MPI (openmdao/drivers/predeterminedruns_driver.py: _distrib_build_runlist, _get_case_w_nones, _run_par_doe, _save_case; latinhypercube_driver.py: _distrib_build_runlist; recorders/recording_manager.py: record_iteration). The processes meet in collective operations; an operation on a communicator takes place when all its members wait in it, with the same operation. Which of the possible operations takes place next is not determined. Simplified: the collective operations inside a model, while it runs a case, are not modelled; a fatal failure of a case (an exception other than AnalysisError) in a process is the function [fatal]. |
| `ScipyModel.v` | Model of the constraint handling of openmdao/drivers/scipy_optimizer.py (ScipyOptimizer.run lines 160-193, _confunc, _congradfunc). The metadata of a constraint is [con] of DriverModel.v, with its size; con_cache is the dictionary of constraint values of the last evaluation of the objective (line 253), grad_cache the array of the last evaluation of its gradient (line 335). Simplified: floats are exact rationals. scipy.optimize.minimize is not modelled. |
| `ActiveModel.v` | Model of the active-set screening of openmdao/drivers/pyoptsparse_driver.py (pyOptSparseDriver.run lines 226-282, _gradfunc lines 519-596) and of the loop of Problem._calc_gradient_ln_solver that obeys it (openmdao/core/problem.py, lines 1646-1731). Simplified: floats are exact rationals; the bounds and values pyOptSparse stores for a constraint are lists, with None for an absent bound; the solution of the linear system for a right-hand side of the variable of interest [v] is [sol v i]; the sensitivities are kept as rows, before they are cut into columns for each design variable and scaled. |
| `RsmModel.v` | Model of openmdao/surrogate_models/response_surface.py (ResponseSurface). Numbers are the elements of a commutative ring. Arrays are lists; a two-dimensional array is the list of its rows. Writing to a view writes to the array at an offset. numpy.dual.lstsq is the argument [lstsq]. |
| `MetaModel.v` | Model of the training of openmdao/components/meta_model.py (MetaModel._train lines 283-367, _params_to_inputs 218-244, solve_nonlinear 188-216, linearize 246-281). Floats are exact rationals. A value in the training data is a float, another number (an int, or a numpy float that is not a Python float), or an array given by its flattened entries. Matrices are lists of rows. The surrogates are not modelled: what they are given to train on is returned. |
| `ExprModel.v` | Model of the variable names of openmdao/components/exec_comp.py: var_rgx line 17, _parse_for_vars 19-21, _valid_name 23-33, ExecComp.__init__ 119-166, _compile_exprs 174-180, _UPDict 340-372. A text is a list of ASCII characters (\w is a letter, a digit or an underscore). The keys of _expr_dict are the argument [known]; the iteration orders of the sets of names are arguments. The Python compiler is not modelled: an expression is the text given to it, and a name in it is looked up in _to_colons. |
| `LsysModel.v` | Model of openmdao/components/linear_system.py (LinearSystem). Numbers are the elements of a commutative ring. A vector is a list, an array of two dimensions the list of its rows. scipy's lu_factor keeps the matrix (the argument of lu_factor), and lu_solve is the argument [lu_solve]: matrix, right-hand side, trans. A vector wrapper has an entry only for relevant variables: an option. |
| `DirectModel.v` | Model of openmdao/solvers/ln_direct.py: DirectSolver.__init__ 36-58, solve 83-138, with the flag _jacobian_changed of the system (core/system.py lines 194, 958). A matrix is an element of a type [M]. The system's current linearization is the matrix of its fwd operator; Group.assemble_jacobian gives it in fwd mode and its transpose in rev mode (properties C29, C30). lu_factor keeps the matrix; lu_solve and linalg.solve are the argument [solve]; lu_solve of no factorization and linalg.solve of no matrix are a TypeError. Several solvers can belong to one system (the ln_solver of the group and the one of its Newton solver). |
| `AssembleModel.v` | Model of Group.assemble_jacobian, openmdao/core/group.py lines 980-1088, both for method 'assemble' and for method 'MVP', on the systems of LinModel. The array partials is a map from two positions of du to a number (the array of a group is the window of the group's own positions). sub.pathname, the dictionary to_prom_name, the slices of u_vec and the connections (whose source indices the code does not look at) are given by name. |
| `GradModel.v` | Model of total derivatives by linear solves: openmdao/core/problem.py _calc_gradient_ln_solver 1482-1798, _get_voi_key 1800-1811, openmdao/core/vec_wrapper.py _get_local_idxs 527-567, openmdao/core/relevance.py vars_of_interest 84-103. Numbers are the elements of a ring. One process; the mode is already chosen (C38); indep_list and unknown_list are lists of names; inactives is None (the Active area); scalers are numbers (array scalers: C13). All derivative vectors are laid out like the vector of unknowns (those of a variable of interest hold only its relevant variables). The linear solver, the relevance and the layout are given. The linearization is part of the given solver. |
| `WireModel.v` | Model of the way from a declared variable to delivered data: openmdao/core/component.py (_get_initial_val, _add_variable), openmdao/core/problem.py (completion of the target metadata in setup), openmdao/core/_checks.py (check_connections), openmdao/core/vec_wrapper.py (TgtVecWrapper.setup, _setup_var_meta, _get_flattened_sizes) and openmdao/core/group.py (_get_global_idxs, _setup_data_transfer, _transfer_data). Simplifications: one process (comm.size is 1, nothing is remote); no FileRef values; variables are named by their absolute path everywhere (the code uses the promoted name in the unknowns vector and the path relative to the system in the params vector, both of them one to one); messages are dropped. Of a value only what setup looks at is kept: its type, whether it is differentiable, its shape. |
| `RunModel.v` | Model of running a system tree: Component._sys_solve_nonlinear and _sys_apply_nonlinear (core/component.py 535-608), Group.children_solve_nonlinear and apply_nonlinear (core/group.py 741-819), ParallelGroup's versions (core/parallel_group.py 50-91), RunOnce.solve (solvers/run_once.py 32-54), and the marking of components executed out of order (core/problem.py 401-437 and 628-631). Simplifications: variables are named by their absolute path, each holds one value (storage in vectors is the subject of C23, C24 and C78; the conversion and selection done by a connection is the function [k_conv]); one process; every system is active; recording and metadata are dropped; a component that raises ends the run. A transfer reads unknowns and writes parameters only, so the order of its copies does not matter. |
| `AccessModel.v` | Reading and setting a variable by its name at the top: Problem.__getitem__, Problem.__setitem__. /repo/openmdao/core/problem.py 54-87 (_get_root_var, _set_root_var), 152-178, /repo/openmdao/core/system.py 245-271 (_rec_get_param, _rec_set_param), /repo/openmdao/core/vec_wrapper.py 29-330 (the accessors: _get_pbo, _set_pbo, _get_arr, _set_arr), 1202-1221 (_add_unconnected_var: an unconnected param is passed by object), /repo/openmdao/core/problem.py 2461-2470 (_assign_parameters: a connection belongs to the common ancestor of its ends). A name is the list of its parts. The names and connections are those of NameModel.v and ConnModel.v. A value given by the caller is an object of a heap; a variable stored in a vector holds a copy, an unconnected param holds the object itself. Unknowns passed by object, unit conversion and src_indices of a connected param are not modelled (the value read is the value in the params vector). |
| `InterpModel.v` | Model of the nearest neighbour interpolants and of kriging: /repo/openmdao/surrogate_models/nn_interpolators/nn_base.py 11-53 (NNBase), weighted_interpolator.py 8-110 (WeightedInterpolator), linear_interpolator.py 7-115 (LinearInterpolator), rbf_interpolator.py 9-334 (RBFInterpolator), /repo/openmdao/surrogate_models/kriging.py 156-230 (predict, linearize). Numbers are the elements of a field with a decidable equality and a comparison. Arrays are lists, a two-dimensional array is the list of its rows. One point is predicted at a time (the rows of a batch are treated alike; the batch broadcasting of WeightedInterpolator.gradient is not modelled), so shapes are those of one point. The k-d tree (cKDTree.query), the singular value decomposition (the last row of V), the sparse solver (spsolve) and exp are arguments. Not modelled: the cache of the last query (gradient uses the neighbours of the last predicted point if the points are np.allclose, whatever n was), complex step, the reshaping of the caller's array. |
| `CheckModel.v` | Model of the checks of derivatives: /repo/openmdao/core/problem.py check_partial_derivatives 1814-2120 and _assemble_deriv_data 2488-2703, with the option overrides of System.fd_jacobian (core/system.py 578-586) and Component.complex_step_jacobian (core/component.py 878-886). Components and their vectors are those of LinModel.v: c_params are the connected params in dparams that are not passed by object, c_unks the unknowns. The vectors dunknowns are not scaled (vec_wrapper.py 1004-1008), so _scale_derivatives acts on dresids only. comp.apply_linear is an argument; the default one is apply_jac. Not modelled: text output except its columns and flags, MPI. |
| `RedModel.v` | Model of the vectors of a variable of interest: openmdao/core/vec_wrapper.py SrcVecWrapper.setup 810-835 and TgtVecWrapper.setup 1085-1110 (only relevant variables are put into the vectors), openmdao/core/group.py _setup_data_transfer 1530-1540 (only connections between relevant variables are transferred), openmdao/core/system.py _sys_apply_linear 831-834, _apply_linear_jac 983-1021 (what is missing is skipped). The systems are those of LinModel.v, positions are those of the full vectors. A variable is relevant or not as a whole; keep_u and keep_p tell it by position. |
| `NamelistModel.v` | Fortran namelists: openmdao/util/namelist_util.py, with the grammar of parse_file (lines 359-411) written out as functions on characters. A text is a list of characters; a parser answers the token and the remaining text, or None for a ParseException. The pyparsing semantics that is used: blanks, tabs and line ends before a token are skipped, [a \| b] is the first alternative that matches, Optional and ZeroOrMore are greedy and take nothing back, Combine joins its parts without skipping, oneOf prefers the longer word, searchString finds a match starting at any position, parseString only one at the start. [fshow] is _floatfmt(val) % val, [fread] float(), [of_int] the conversion of an integer by numpy. Not modelled: tabs and escapes inside quoted strings, arrays that mix numbers with other things (an error here), element numbers below one (an error here), arrays of more than two dimensions other than that they are refused. |
| `TotModel.v` | Model of total derivatives by finite differences: openmdao/core/problem.py _calc_gradient_fd 1312-1480, and the handling of names and settings in openmdao/core/system.py fd_jacobian 546-678 (the differences themselves are the model of C26, FdModel.v). Numbers are the elements of a field. One process; the type is 'fd' (not complex step); every settings value is present after the defaults of lines 551-560 and the override of a parameter; scalers are numbers; indices are not negative; a variable with no entries (the p_size == 0 branch) is not modelled. |
| `CtotModel.v` | Model of the check of total derivatives: openmdao/core/problem.py check_total_derivatives 2122-2238 (with calc_gradient 1294-1310 and _assemble_deriv_data, the model of C85), openmdao/core/group.py _get_fd_params 593-623 and _get_fd_unknowns 625-645 of the root, openmdao/util/dict_util.py. Numbers are the elements of a field; one process. The text is not modelled. The names in _desvars, _objs and _cons are plain strings. The linear solver is that of C74 (it is given, with the linearization), the differences are those of C89; the state which differences leave behind is not followed: they restore the unknowns (C26). A block that was never assigned (None, for a variable without entries) is left out of the flat dictionary. |
| `KryModel.v` | Model of the Krylov solver and of the direct solver of a group's linear system: openmdao/solvers/scipy_gmres.py solve 95-180 and _precon 182-236, openmdao/solvers/solver_base.py mult 266-299 (the product of C28), openmdao/core/group.py solve_linear 887-959 with such a solver, openmdao/solvers/ln_direct.py solve 83-138 with jacobian_method 'MVP' after a linearization (its caching is the subject of C62). Numbers are the elements of a commutative ring. scipy's gmres is any procedure which asks for products with the operator and for applications of the preconditioner, one after the other, and returns a vector and a code; what it asks may depend on the answers so far. Its arrays are lists. One key (vectors of None); rel_inputs is None. The monitor, iteration counts and printing are not modelled. |
| `KrigModel.v` | Model of the Kriging surrogate: openmdao/surrogate_models/kriging.py KrigingSurrogate.train 53-112, _calculate_reduced_likelihood_params 114-163, predict 165-204, linearize 206-227, FloatKrigingSurrogate.predict 234-236, and surrogate_model.py SurrogateModel.train/predict 13-21. Floats are the real numbers of the standard library, with its exp and sqrt; arrays are functions of their indices, with the sizes in the state. scipy's svd and minimize are arguments; what minimize asks its callback does not change the state, so only its answer counts, and the likelihood is not modelled. y has one row per sample. The nugget is one number per sample (a scalar nugget is the same for all). |
| `InModel.v` | Model of the comparison of inputs without a source: openmdao/core/problem.py _check_input_diffs 290-398, for the dictionary _input_inputs of _setup_connections (C37). A value is an array with a shape, or an object of a type; == on entries and objects is an argument (for floats it is not reflexive). What is reported are the target and the names which differ; the texts are not modelled, nor the order in which a dictionary's keys are visited beyond that of the model. |
| `SubpModel.v` | Model of SubProblem (openmdao/components/subproblem.py): the checks of setup (163-168, 191-227), solve_nonlinear (233-273), linearize (275-310), _jac_to_flat_dict (util/dict_util.py 4-24), and the evaluation of its residuals, which is inherited (core/component.py 555-591). The wrapped problem is a tree of systems as in RunModel.v with the vectors of its root, which the SubProblem keeps between its calls; its driver is the one that runs the model once. Simplifications: variables hold one value each; a param of the SubProblem that is a dangling name of the wrapped problem is the list of params which setting that name reaches (core/problem.py 72-87, C81); _reraise changes the text of an error only; metadata, MPI and the paths of files are dropped. |
| `CksModel.v` | The checks of the model's graph and linear solvers: Problem._check_solvers (core/problem.py 687-795, with _needs_iteration 2704-2716) and Problem._check_graph (901-952). The tree of systems and the graphs of subsystems are those of OrderModel.v; networkx's strongly_connected_components and dfs_edges are arguments (GraphSpec.v). Simplifications: all systems are active; the texts of the messages are dropped, a message is the path it names and the names it lists; a linear solver is LinearGaussSeidel or a Krylov solver with its maxiter, or DirectSolver, which has none. |
| `MfiModel.v` | Training of a metamodel with several fidelities: openmdao/components/multifi_meta_model.py (_get_name_fi 7-11, __init__ 87-94, add_param and add_output 96-118, _train 120-221), on the data, matrices and writes of MetaModel.v. The training data are a dictionary from names (without 'train:') to lists of values; level 0 is the highest fidelity. As there, a surrogate is the matrices it is given; every output has one. Not modelled: numpy fills rows with nan when the old rows of an output are None; the model raises instead (this needs a failed training of a level that had no points in the one before). |
| `DtrModel.v` | Data transfer between processes: openmdao/core/group.py (_get_global_idxs 1402-1466, _setup_data_transfer 1496-1607, _transfer_data 1627-1635, _get_owning_ranks 1645-1664), openmdao/core/petsc_impl.py (_get_flattened_sizes 189-204 and 299-311, PetscDataTransfer.__init__ 355-391, transfer 416-437). A world is the metadata every process has of the variables in a group's unknowns and params vectors; variables are numbered by their position in these vectors, which is the same in all processes. A PETSc vector is the concatenation of the local arrays of all processes; Scatter.scatter copies (or adds) the entries at corresponding positions of two index sets, in any order. Not modelled: imaginary parts, variables passed by object (PboModel.v), the selection of relevant variables (a variable of interest has vectors, hence a world, of its own). |
| `PboModel.v` | Transfer of variables passed by object between processes: openmdao/core/petsc_impl.py (PetscDataTransfer.transfer 447-485), openmdao/core/group.py (_get_owning_ranks 1637-1668). Processes are numbered 0..n-1 and run concurrently; a state of the network has the remaining program and the memory of each process and the messages under way. A message is sent with a tag; messages with the same sender, receiver and tag arrive in the order in which they were sent (MPI's non-overtaking rule). comm.barrier returns when all processes have called it. Not modelled: the scatter before it (DtrModel.v), a name that is missing in the vectors (a local variable is there). |
| `SpsModel.v` | Sparse Jacobians and failures in the pyOptSparse driver: openmdao/drivers/pyoptsparse_driver.py (run 174-201, _build_sparse 351-428, _objfunc 430-496, _gradfunc 498-600), with the names of relevance.py (_compute_relevant_vars 205-214). A set of indices is the list of what was put into it; [enum] lists a set in the order in which Python iterates it (the same each time). Entries are of any type. Not modelled: the optimizer, printing. |
| `PrfModel.v` | The profiler: openmdao/util/profile.py (start and stop 182-200, _iter_raw_prof_file 202-225, _finalize_profile 227-246, _profile_dec 248-308, _update_counts 310-323, process_profile 325-440, the sums of prof_totals 494-507). Simplified: times are exact (the file has them in single precision); the identifiers of the call paths are natural numbers (the file has them in 32 bits, the table of names in decimal), and a line of the table is the pair of a path and its identifier (so names have no white space). The time stamps, which process_profile does not use, are left out. |
| `RmModel.v` | Model of the recording manager under MPI: openmdao/recorders/recording_manager.py (startup 67-118, _gather_vars 50-65, record_iteration 162-232), with the owning ranks of core/group.py 1637-1670 and the recorders of recorders/base_recorder.py and recorders/inmem_recorder.py (the selection of names and the reading of one vector are those of RecordModel.v). Simplifications: one system with its communicator; no parallel design of experiments (_casecomm is None; C42 deals with it); the metadata of an iteration is its coordinate (time stamp, success and message left out); values are opaque and are not changed after being recorded; a variable that is not local to a process is absent from the process's vectors; metadata and derivatives are left out. The processes of the communicator run record_iteration together: a gather completes when every process calls it. If a process raises an exception before a gather, every other process is counted as waiting. |
| `SmModel.v` | Model of what Problem.setup derives for the metadata of the connected params (core/problem.py): shapes, values and source indices taken from the connection (lines 502-530) and unit conversions (_setup_units, lines 2345-2394). The metadata dictionaries belong to the components and live on from one setup to the next: Component._setup_variables (core/component.py 397-404) hands out the dictionaries made by add_param. Simplifications: numbers are rationals; a value is the list of its entries, with its shape beside it; of the metadata only the keys read or written here are kept; source indices are natural numbers; the check of the connections in between (check_connections, C77) is left out; error messages are represented by the pair of target and source. |
| `DirModel.v` | Model of the working directories of systems: System._setup_dir (core/system.py 471-486), DirContext (util/file_util.py 188-203), and the places where a context is entered: Driver.run_once (core/driver.py 785-786), Group.children_solve_nonlinear (core/group.py 741-759), ParallelGroup.children_solve_nonlinear (core/parallel_group.py 79-91), System._sys_linearize (core/system.py 896-958), LinearGaussSeidel.solve (solvers/ln_gauss_seidel.py 115-198), Newton.solve (solvers/newton.py 184-192), the preconditioner of ScipyGMRES (solvers/scipy_gmres.py 196-231) and PetscKSP (solvers/petsc_ksp.py), Problem.run_once and calc_gradient (core/problem.py 1163-1175, 1297-1310). Simplifications: one process, every system active; directories exist (create_dirs is not modelled), so os.chdir does not fail; components leave the working directory as they find it; a system's directory is a string (not a function of the rank); solvers are lists of what they do to their system, so that any number of iterations is covered; groups with deriv type 'fd' are not modelled; all data are left out. |
| `FrefModel.v` | Model of file variables: FileRef (core/fileref.py 18-93), Component._fileref_setup (core/component.py 440-465), the FileRef part of check_connections (core/_checks.py 32-84), and the transfer of files (core/data_transfer.py 128-134). Simplifications: one process, every system active; the mode of a FileRef (binary or not) is given (_set_meta is not modelled); only variables are kept that are FileRefs or connected to one; the file system is a map from files to contents, reached from a path through a fixed resolution (links, "..", double separators); os.makedirs makes one directory; text files are read with universal newlines and written unchanged, as Python 3 does on Unix, and every content can be decoded; a component reads its file params and then writes all its file unknowns, through open() in binary mode; the transfers to a component are done just before it runs. |
| `VoiModel.v` | Model of the variables of interest of a driver and their groups for parallel derivatives: openmdao/core/driver.py add_desvar 321-368, add_objective 545-574, add_constraint 650-652 and 705-707, _map_voi_indices 186-199, _of_interest 201-222, desvars_of_interest 232, outputs_of_interest 242, parallel_derivs 254-277; openmdao/core/problem.py 588-602 and _check_for_parallel_derivs 2251-2281. Bounds, and the checks of add_constraint on them (C14), are omitted; the scaler, the adder and the indices of a variable are those of the Driver area. Indices are lists (the truth value of a numpy array with several entries is an error); vnames is a list or tuple. [mpi]: the value of MPI, the same for all calls. Subgroups of the root: name, whether the linear solver is a LinearGaussSeidel, its option mode. |
| `CokModel.v` | Model of multi-fidelity co-kriging: openmdao/surrogate_models/multifi_cokriging.py constant_regression 47-55, linear_regression 57-65, squared_exponential_correlation 67-109, l1_cross_distances 112-163, MultiFiCoKriging._build_R 306-319, fit 322-436, rlf 440-526, predict 597-701, _check_list_structure 733-736 and the two surrogates 820-868. Numbers are the elements of a field, with given functions for abs, exp and equality to zero. scipy's cholesky, solve_triangular, qr and inv are arguments; so are the values of theta that the optimizer tries and returns in _max_rlf (579-594). A point is a list of numbers; matrices are functions of their indices. All levels have the same number of features (lines 724-725 compare them from the third level on), X and y of a level the same number of rows, and the values of theta are positive (the checks 704-817); the plain Exceptions of fit are RuntimeErrors here. A callable regression works row by row. |
| `CstrModel.v` | Model of openmdao/components/constraint.py: ConstraintComp.__init__ 58-66, _combined_expr 69-96, _parse_constraint 98-114 (deprecated, still shipped). A text is a list of ASCII characters; the warning of lines 60-63 is left out. ExecComp.__init__ and its run (exec_comp.py lines 108-212) are taken as: the statement is compiled and executed, CstrPy.v. |
| `BdirModel.v` | Model of build_directory, openmdao/util/file_util.py lines 13-59. The file system is a map from absolute paths (lists of names) to directories and files; there are no links, permissions or full disks. The dictionary is the list of its items in iteration order (iteritems, line 39); a value that is not a dictionary is a text (line 48: "assume a string value"). A key is split at its slashes; ".." is resolved without looking at what it leaves. The warning of line 50 is recorded. |
| `FindModel.v` | Model of find_files, find_up and _file_gen, openmdao/util/file_util.py lines 62-187. Texts are lists of characters. What os.walk finds below a start directory is a tree (no links, nothing changes during the walk); posixpath.join, dirname and abspath are modelled on characters as in CPython; os.path.exists and fnmatch are arguments. |
| `ShmModel.v` | Model of the memory of the derivative vectors: System._get_shared_vec_info (openmdao/core/system.py 1212-1247), its use in Group._setup_vectors (core/group.py 440-470) and _create_vecs (565-592) and System._create_views (core/system.py 1071-1076), and the layout of a vector in SrcVecWrapper.setup (core/vec_wrapper.py 809-852) and TgtVecWrapper.setup / _setup_var_meta (1078-1128, 1155-1200). Simplifications: one process (remote variables may still be marked); values are not modelled, only which cells of the shared array a variable gets; views of a parent's entries (params that are not owned) use no memory of their own and are left out. |
| `LcnModel.v` | Model of System.list_connections, openmdao/core/system.py lines 1249-1401. Texts are lists of characters; str.startswith, str.join of three, '{0:<{swid}}' and sorted are modelled on them. Dictionaries are lists in the order of iteration. The metadata of variables (units, promoted name) are functions of the absolute name, as are _probdata.params_dict/unknowns_dict and to_prom_name. The text written is a list of lines, each cut at " -> "; what was written before an error is not kept. |
| `LpmModel.v` | Model of System.list_params (openmdao/core/system.py lines 1502-1565) and System.list_unit_conv (1438-1500). Texts are lists of characters as in LcnModel.v; dictionaries are lists in the order of iteration; what is printed is a list of lines. |
| `ChsModel.v` | Model of checks of Problem.check_setup, openmdao/core/problem.py: _check_dangling_params (lines 797-813), _check_no_connect_comps (854-868), _check_unmarked_pbos (977-991), _check_relevant_pbos (993-1046) and _check_driver_issues (1048-1066). Texts are lists of characters; dictionaries are lists in the order of iteration; a set is the list of its elements and [enum] the order in which Python iterates it. Comparison with `is not 'user'` is comparison of the texts. The names of the types of values are left out of the lines. |
| `DclModel.v` | Model of the declaration of variables in a component: openmdao/core/component.py namecheck_rgx (line 29), _get_initial_val (90-97), _check_val (99-106), _add_variable (108-174), add_param (176-193), add_output (195-215), add_state (217-242), set_var_indices (244-295), _check_varname (297-310). A value is an array of some shape or anything else, differentiable or not (is_differentiable, openmdao/util/type_util.py 27-45); its numbers are left out. A call returns the new state and the exception, if any. Simplified: the copy of the keyword arguments has the entries named below; FileRef._set_meta (C109) is left out; an integer shape is not negative; the value of resid_scaler is a number. |
| `SrlModel.v` | Model of a design of experiments run in one process: openmdao/drivers/ predeterminedruns_driver.py _setup_communicators (lines 130-132), add_response (336-355), get_responses (357-372), _setup (391-406), run (408-429, serial case), _save_case (439), _prep_case (441-449), _try_case (451-477), _run_serial (479-500), with InMemoryRecorder.reset and record_iteration (openmdao/recorders/inmem_recorder.py 46-90) and create_local_meta (openmdao/util/record_util.py 8-41). The vectors of the model are of any type. Setting a design variable, solving, and what a recorder selects from the vectors (C17) are arguments. A message is kept as whether there is one. Recorders other than the one of the responses are left out. |
| `TokModel.v` | Model of the reading of a line by FileParser: openmdao/util/file_wrap.py ToInteger, ToFloat, ToNan, ToInf (lines 100-125), set_delimiters (460-476), transfer_line (552-565), transfer_var (567-606) and _reset_tokens (836-880), with the elements of pyparsing used there: Word, Literal, CaselessLiteral, oneOf (longer words first), Optional, And, MatchFirst, Combine (nothing is skipped inside), OneOrMore, the skipping of the default white space before an element, and the expansion of tabs by parseString. A text is a list of ASCII characters. A number is kept as the text given to int or float. |
| `JsModel.v` | Model of the Jacobians returned by components: openmdao/core/component.py alloc_jacobian (lines 951-992), openmdao/core/system.py _sys_linearize (lines 946-959, the result of linearize with type 'user') and _apply_linear_jac (961-1021, the model of C28, LinModel.v). An array is its shape and its entries by multi-index. Numbers are the elements of a type. Dictionaries are lists of items. Not modelled: complex numbers and values that are neither numbers nor arrays. |
| `VcModel.v` | Model of view_connections, openmdao/util/viewconns.py lines 22-147: the data given to the page (lines 54-120). Texts are lists of characters. Dictionaries are lists of items in the order of iteration. The values of variables are of any type, with the selection of entries and the arithmetic of units as arguments; their formatting, the template, json and the browser are not modelled. [sorted(..., reverse=True)] is applied to distinct names, so that it is the reverse of [sorted]; sets are only sorted. |
| `OpnModel.v` | Model of the opening of a recorded file: openmdao/util/record_util.py is_valid_sqlite3_db (lines 93-116), openmdao/recorders/case_reader.py CaseReader (5-31), case_reader_base.py __init__ (29-36), sqlite_reader.py __init__ and _load (18-59), hdf5_reader.py __init__ and _load (57-84). A file is a list of bytes. What sqlite and HDF5 find in it is given by two functions; both give the metadata (None: no such key) and the keys of the cases. A file that sqlite cannot read raises [sql_error], one that HDF5 cannot read raises IOError (OSError). A file name is always given. |
| `FpeModel.v` | Model of openmdao/solvers/solver_base.py error_wrap_nl (lines 14-66), the decorator of NonLinearSolver.solve in run_once.py (26), nl_gauss_seidel.py (77) and newton.py (117), and of the stack of solvers made by Group.solve_nonlinear (core/group.py 734-739). The entries of a vector are given by their being finite. A solver is its vectors and a list of steps, each an action of its own (a component, an update) or the solver of a subgroup; which steps are taken is part of the actions, hence the list may be any. Python exceptions leave the state as it was when they were raised. |
| `CpxModel.v` | Model of the accessors with complex support: openmdao/core/vec_wrapper.py Accessor.__init__ (27-91), _setup_get_funct (110-182), _setup_set_funct (184-201) and the functions that they choose for local numbers (205-326). The vectors vec and imag_vec are lists over a commutative ring, a variable is a slice of them. Variables passed by object and remote ones are left out, as are values that numpy would have to cast from complex to real. in_complex_step is part of the state. |
| `TrvModel.v` | Model of the tree of systems: openmdao/core/system.py _init_sys_data (lines 368-399, the pathname), openmdao/core/group.py find_subsystem (92-111), subsystems and subgroups (205-249), openmdao/core/problem.py find_subsystem (1117-1132) and print_all_convergence (2429-2459), and print_all_convergence of the solvers: solver_base.py 168-178, scipy_gmres.py 81-93, petsc_ksp.py 220-232, newton.py 101-115 and 270-284 (the second definition in the class replaces the first). A system is its name, the linear and the nonlinear solver if it is a group, and its subsystems in order. Of a solver only iprint and the solvers in it are kept; all systems are local; no solver is in two places. |
| `JtrModel.v` | Model of openmdao/core/problem.py _json_system_tree (lines 2283-2308), on the trees of TrvModel.v. The metadata of the unknowns of a component is of any type and given by its system; json.dumps is left out. _tree_dict(system) loops over subsystems(recurse=True), so it comes to every system below and calls itself for each group of them; [entries] lists the assignments dct[s.name] = ... in the order of that loop. |
| `N2Model.v` | Model of the data of the N2 diagram: openmdao/devtools/partition_tree_n2.py _system_tree_dict (lines 25-85) and get_model_viewer_data (88-155), on the trees of TrvModel.v, in one process. The nodes for the variables of a component are of any type and given by its system. The graph of the components is a list of edges; its strongly connected components with more than one node come from networkx and are an argument. |
| `CkpModel.v` | Model of the checks of co-kriging's arguments: openmdao/surrogate_models/multifi_cokriging.py MultiFiCoKriging._check_list_structure (lines 704-758), _check_params (761-817) and what _max_rlf reads of the bounds (561-576). Numbers are exact rationals. A value of theta, theta0, thetaL or thetaU is a number or a flat array, here the row that array2d makes of it; arrays with several rows are left out. Of X and y only the shapes matter. A list passed by the user is changed in place in the code; here the new lists are returned. |
| `RelnModel.v` | Model of the names of a system's variables in the vectors of its parent: _get_relname_map of openmdao/core/component.py (lines 788-813), core/group.py (1672-1694) and components/subproblem.py (92-116), called in Component._setup_vectors (component.py 503) and Group._setup_vectors (group.py 473), on the trees and dictionaries of NameModel.v. The parent's to_prom_name is its to_prom_uname updated by its to_prom_pname. The unknowns of a SubProblem may have names with dots, so it looks its keys up by their texts. |
| `StatModel.v` | Model of the statistics and the plot of a tree of systems: openmdao/devtools/debug.py num_systems (lines 137-143), num_groups (145-151), num_components (153-159), tree_depth (172-177), and openmdao/devtools/dotgraph.py _write_system_dot (99-115), _sys_dot (124-134), on the trees of TrvModel.v. A line of the file is the node or edge it describes; the shape is any function of a system. Indentation is left out. |
| `BfsModel.v` | Model of the breadth-first search: openmdao/util/graph.py plain_bfs (lines 47-68). Nodes are any type with a decidable equality; G.succ and G.pred are dictionaries, as functions to the nodes adjacent, None for a node which is not in the graph. A set is a list without repetition; the order in which the set of a level is run through is an argument, which may be different for each level. A generator is the values it yields and the exception that ends it; [fuel] bounds the number of levels. |
| `NlbModel.v` | Model of how a namelist is put together: openmdao/util/namelist_util.py __init__ (lines 118-131), add_group (154-165), add_var (167-181), add_newvar (183-194), add_container (196-215), add_comment (217-228), and the name under which a card is written (line 246). Values are of any type; reading the value of a variable of the component is an argument (lines 176-179). An exception ends the building; what is left behind is not kept. |
| `UlibModel.v` | Model of openmdao/units/units.py import_library (lines 722-761), on the tables and the loading of UnitsModel.v. A configuration is its three sections, read: the items of a section in order, names without repetition in a section; factors are exact rationals. Files without one of the sections, or with text that is not a number, are not covered. |
| `MpvModel.v` | Model of the values of design variables and objectives under MPI: openmdao/core/driver.py get_desvars (lines 383-397), _get_distrib_var (399-441) and get_objectives (576-598). The program of a process is a tree of its broadcasts, and the processes run together: a broadcast happens when all are at one with the same root. Values are of any type; taking the entries of the indices, and scaling, are functions of the variable, which may raise. [owner] is _owning_ranks, and a process without a variable raises KeyError. |
| `MfcModel.v` | Model of failing on all processes together: openmdao/core/mpi_wrap.py MultiProcFailCheck (lines 87-106) and any_proc_is_true (108-122). The program of a process is a tree of its collective operations, each with a kind and a contribution; an operation takes place when all processes are at one of the same kind, and everybody gets all contributions. The allgather of the check is of kind 0. [trace] is the text of traceback.format_exc. |
| `RcmModel.v` | Model of the messages for return codes: openmdao/util/shell_proc.py ShellProc.error_message (lines 159-181), and CalledProcessError.__str__ (18-20, after the status). The module signal is the list of its integer attributes in the order of its dictionary (getattr of any other attribute is not equal to a number); os.strerror is a function. |
| `DmpModel.v` | Model of the dump of a system tree: openmdao/core/group.py Group.dump (lines 1211-1340) and openmdao/core/component.py Component.dump (725-786), with sizes=False and dvecs=False. The output is the list of the lines that start a system; of the verbose lines only whether writing them raises. [unks] are the unknowns of a group that are neither passed by object nor remote, [conns] its vec_conns from params to unknowns; texts of solvers are given. |
| `VdpModel.v` | Model of the dump of a vector: openmdao/core/vec_wrapper.py VecWrapper.dump (lines 713-767). A variable has its name, the text of its slice if it has one, the text of its value, and whether it is passed by object or lives on another process; reading the value of a remote variable raises (_remote_access_error, 326-328). The lines are written without their line ends. |
| `BxcModel.v` | Model of reading a box of columns from a file: openmdao/util/file_wrap.py FileParser.transfer_array (lines 672-743) and transfer_2Darray (745-827) with the delimiter "columns"; lines and slices as in FileModel.v. Parsing a text into words is an argument (C118), as are the text of a number inside an array of texts and the number a text is read as on assignment. |
| `PrnModel.v` | Model of the line a solver prints: openmdao/solvers/solver_base.py SolverBase.print_norm (lines 100-166). Texts of numbers are arguments ("%d", "%.9g", str), as is the division res/res0, which raises for Python's own floats when res0 is zero. Levels are natural numbers. Simplified: the text of u_norm becomes part of the format; it has no percent sign, being that of a number. |
| `WrpModel.v` | Model of the choice of what is profiled: openmdao/util/profile.py _obj_iter (lines 49-75), setup (77-166) and wrap_methods (168-180), with Group.subsystems (core/group.py 205-239) and System.subsystems (core/system.py 340-366). Objects are numbers; the state has for each object and method the number of wrappers around it. [isa] and [has] are isinstance and getattr. The solvers a solver holds itself are part of the model, although the code does not visit them. Simplified: whether the output file can be opened is an argument; its name is left out. |

Parts of the code base that are not modelled at all: the PETSc and pyoptsparse
back ends apart from what is listed above, `SubProblem`, the text, CSV and JSON
viewers, co-Kriging, and the checks of `Problem.check_setup` apart from those named in section 2, the
documentation and test tools.

## 4. Findings

Properties that fail for the code as modelled.  Each line says what holds and
what fails; every failure has a theorem with a concrete witness, or a theorem
saying that it always happens.

* **C04** Unit algebra. refuted for number/unit: 1/degC returns a unit instead of raising TypeError; every other operation proved in full (integer exponents).
  Theorems: `C04_number_by_unit_refuted`.
* **C05** Quantity addition and comparison never silently mix offset scales. refuted in general (degC against degK); exact conditions under which comparison, equality and sum are right are proved.
  Theorems: `C05_refuted`.
* **C06** Base-unit reduction preserves the physical quantity. refuted for offset units and for dimensionless units; proved for all other units after any lookup history.
  Theorems: `C06_offset_refuted`, `C06_dimensionless_refuted`.
* **C07** Unit library loading does not depend on definition order. refuted for offset units whose base unit is defined later in the same library; proved for all other libraries, all permutations and all set iteration orders.
  Theorems: `C07_offset_base_refuted`.
* **C08** Unit lookup does not depend on lookup history. refuted for prefixed names whose tail is itself a prefixed name looked up before; proved otherwise.
  Theorems: `C08_refuted`.
* **C09** Design variable scaling round trip. Round trip proved for flat variables with any distinct index list and for whole variables of any shape, scalar or array scalers; refuted for index lists on two-dimensional variables (rows are written, flat entries are read) and on scalar variables (TypeError). Single process, exact rationals.
  Theorems: `C09_matrix_indices_refuted`, `C09_matrix_indices_readback_refuted`, `C09_scalar_indices_refuted`.
* **C10** Scaled bounds describe the same feasible set. Proved for positive scalers; with a negative scaler the stored lower bound exceeds the stored upper bound (refuted, with the exact characterisation).
  Theorems: `C10_negative_scaler_refuted`.
* **C100** The sparse Jacobians handed to pyOptSparse have all nonzero entries. Proved when the targets of the design variable keep their absolute names at the top level and the design variable does not repeat an index. Refuted otherwise: with promoted targets the driver looks up absolute names in a set of promoted ones and drops columns that are not zero.
  Theorems: `C100_promoted_refuted`, `C100_promoted_indices_refuted`, `C100_repeated_refuted`.
* **C101** pyOptSparse is told about every failed evaluation. Function evaluations and gradients after AnalysisError are proved. Refuted for gradients that fail with any other exception: an empty dictionary is returned with the flag of success.
  Theorems: `C101_gradient_failure_refuted`.
* **C102** The profile accounts for every profiled call. Proved for all programs whose profiled calls do not raise. Refuted: after a call that raises, its name stays on the stack, later calls are filed under it and process_profile raises KeyError; the time of the root is too small by the overhead of the outermost calls; with several processes the grand totals are by process instead of by method. Times are exact numbers, not single precision.
  Theorems: `C102_root_refuted`, `C102_grand_refuted`, `C102_raise_path_refuted`, `C102_raise_refuted`.
* **C103** Recording over several processes. Proved for recorder lists of one kind (all serial or all parallel) with no stale names and, for serial ones, world process 0 in the system. False otherwise: mixtures lose variables or raise, systems without world process 0 record nothing, a second setup may raise KeyError.
  Theorems: `C103_mixed_refuted`, `C103_subgroup_refuted`, `C103_restart_refuted`.
* **C104** Metadata derived for connected params. Proved for the first setup of the components, with initial values for flat sources, for repeated setups with the same connections, and for all orders. False: after a setup with other connections old conversions, source indices and shapes remain; initial values with source indices into sources of several axes do not fit, or setup raises.
  Theorems: `C104_units_stale_refuted`, `C104_indices_stale_refuted`, `C104_rows_refuted`, `C104_index_error_refuted`.
* **C105** Components run in the directory of their place in the tree. Proved for trees in which a system with its own directory has no Newton solver or preconditioner and the root has no directory when gradients are computed; the claim is false otherwise (refuted theorems). Directories are assumed to exist; one process; finite differences over groups not modelled.
  Theorems: `C105_gradient_refuted`, `C105_newton_refuted`, `C105_precon_refuted`, `C105_apply_refuted`, `C105_stale_refuted`, `C105_cwd_refuted`.
* **C106** File variables carry the contents of their source. Proved for layouts whose files are separate; the checks of the code do not guarantee that (refuted theorems). Transfers are modelled per component just before it runs; one process.
  Theorems: `C106_shared_refuted`, `C106_alias_refuted`, `C106_clobber_refuted`, `C106_outputs_refuted`, `C106_text_refuted`, `C106_type_error_refuted`.
* **C107** Variables of interest are grouped for parallel derivatives as declared. Holds for design variables always and for outputs when no objective is a constraint; refuted for objectives that are constraints and for the mode check without single_voi_relevance_reduction. vnames is a list; one process's view of MPI.
  Theorems: `C107_both_refuted`, `C107_twice_refuted`, `C107_indices_refuted`, `C107_modes_refuted`.
* **C108** Multi-fidelity co-kriging reproduces the training data of its highest level. Exact arithmetic over any field; decompositions and solves are exact by hypothesis. Interpolation holds when the stored factors are those of the stored theta (theta given, or the optimizer's last evaluation is its result); refuted otherwise, with the exact condition for two points. Checks of argument shapes and bounds (704-817) are not modelled.
  Theorems: `C108_undetermined_refuted`, `C108_cholesky_refuted`, `C108_exact_trend_refuted`, `C108_stale_refuted`, `C108_refit_refuted`, `C108_float_refuted`.
* **C109** Constraint components measure their constraint. Holds for one <= or >= between two arithmetic expressions without comparators (C109_inequality, C109_reading); < and > are told by value < 0, equations by value = 0. False otherwise: the docstring's '<= 0' is wrong for strict inequalities at equality and for equations; double inequalities with different comparators, a missing side and =< are accepted and mean something else; a comparator inside a call is mistaken for the constraint's.
  Theorems: `C109_equality_refuted`, `C109_strict_refuted`, `C109_double_refuted`, `C109_missing_refuted`, `C109_reversed_refuted`, `C109_nested_refuted`.
* **C11** Setting one entry of a design variable changes only that entry. Proved for every valid index except 0; index 0 is tested with "if index:" and behaves as no index (refuted).
  Theorems: `C11_index_zero_refuted`.
* **C110** build_directory makes what the dictionary says. Holds for plain relative keys (C110_result, C110_succeeds, C110_again) and for every outcome as far as safety, confinement and the working directory go. False: the refusal of an absolute key is not atomic, force=0/None counts as true (`force is False`), and relative keys with '..' write outside topdir.
  Theorems: `C110_atomic_refuted`, `C110_force_refuted`, `C110_escape_refuted`.
* **C111** Files found below and above a directory. Holds with the start directory itself subject to the directory filters (by its name as given), and for find_up from plain absolute paths. False: a start whose path does not match dirmatch yields nothing; find_up with a relative path never looks into the working directory or above; with '..' it searches directories not above the start.
  Theorems: `C111_start_refuted`, `C111_up_relative_refuted`, `C111_up_dots_refuted`.
* **C112** Derivative vectors share memory safely. Holds for dunknowns/dresids, and for dparams when params and sources agree on pass_by_obj and size. False when a param passed by object is connected to a source that is not: check_connections lets it pass and the params behind it silently lose cells (C112_params_refuted).
  Theorems: `C112_params_refuted`.
* **C113** The report of connections lists each connection once. Holds for a system and grouped by component, for names without spaces that do not start with '.' or '{'. With var given a connection is listed once for every end among the names found, so twice if a pattern matches both ends; a connected param with units=None raises TypeError. What was written before an error is not modelled.
  Theorems: `C113_once_refuted`, `C113_units_refuted`.
* **C114** Params without source and unit conversions are reported exactly. The lists returned and the conversions are proved exact. The names printed for params with a source outside are not: lstrip removes every leading character that occurs in the path (C114_outside_refuted), so two params can be printed alike; C114_outside_name says exactly when the name is right. A promoted name is printed with one parenthesis too many. unit_conv is taken as given (see the property on unit conversion for its value).
  Theorems: `C114_outside_refuted`.
* **C115** Checks of a setup report exactly what is wrong. The values returned are proved exact. The printed connections are not: _check_relevant_pbos compares absolute names with promoted ones (C115_promoted_refuted) and prints the names without file=out_stream when none is found (C115_stream_refuted). Not modelled: _check_mpi, _check_gmres_under_mpi, _check_mode, _check_no_recorders; _check_graph and _check_ubcs belong to other properties.
  Theorems: `C115_promoted_refuted`, `C115_stream_refuted`.
* **C116** Declared variables are consistent. Names, sizes of variables not passed by object, and the effect of failing calls on the variables are proved for all sequences of calls. False: shape with an integer shape and a value (C116_shape_refuted), units unchecked (C116_units_refuted), objects with a size (C116_object_refuted), values not differentiable (C116_type_refuted), warnings left by a refused call (C116_warn_refuted). The numbers in values and FileRef._set_meta are not modelled.
  Theorems: `C116_shape_refuted`, `C116_units_refuted`, `C116_warn_refuted`, `C116_object_refuted`, `C116_type_refuted`.
* **C117** Responses of a serial design of experiments. Proved for models whose results depend on the case only (each case sets all design variables and no state is carried over). Each further setup leaves one more recorder behind (C117_setup_refuted), and a variable cannot be added as a response by two declarations (C117_auto_refuted). What a recorder selects is C17; parallel runs are C42-C44.
  Theorems: `C117_auto_refuted`, `C117_setup_refuted`.
* **C118** Words of a parsed line. Proved for lines made of words that are whole numbers, special words, or texts that do not begin like one (C118_words_partial). False in general: an integer at the start of a word is cut off, so -3e5 is read as -3 and e5 (C118_split_refuted); everything after a character that is neither a delimiter nor a word character is dropped silently (C118_rest_lost_refuted); a tab as only delimiter gives one field (C118_tab_delimiter_refuted); -Inf is read as plus infinity (C118_minus_inf_refuted); quotes do not protect delimiters, a letter does not delimit, and a parser with columns skips what another parser was given last (C118_delimiters_refuted). The behaviour of pyparsing is taken from its documentation; field 0 or negative and texts beyond ASCII are not modelled; the value of a number is its text (float and int of Python are not modelled).
  Theorems: `C118_rest_lost_refuted`, `C118_tab_delimiter_refuted`, `C118_split_refuted`, `C118_minus_inf_refuted`, `C118_delimiters_refuted`.
* **C119** Shapes of the Jacobians of components. A wrong shape is refused in at least one of the two modes (C119_one_mode; exact conditions in C119_forward and C119_reverse), not in both: forward, a block of one row is added to all entries of the unknown (C119_broadcast_refuted). An array without axes fails with IndexError (C119_no_axes_refuted). The allocated Jacobian is cached and never renewed, so after a setup with other sizes its shapes are wrong (C119_cache_refuted). Finite differences inside _sys_linearize are C26 and C27.
  Theorems: `C119_no_axes_refuted`, `C119_broadcast_refuted`, `C119_cache_refuted`.
* **C120** View of the connections. Proved for systems that contain the sources of all their params, as the root does. A system with a source outside of it raises KeyError although any system is accepted (C120_subsystem_refuted), and the row without source is not the last if a source starts with a capital A to M (C120_bottom_refuted). Formatting, json and the html template are not modelled.
  Theorems: `C120_subsystem_refuted`, `C120_bottom_refuted`.
* **C121** Opening a file of cases. Proved with h5py installed and with the metadata in _parameters and _unknowns. The documented attributes parameters and unknowns are None for every reader (C121_metadata_refuted), and without h5py every path that is not a SQLite file gives RuntimeError (C121_no_h5py_refuted). The libraries are arbitrary functions of the bytes; the error of SQLite is assumed not to be an IOError.
  Theorems: `C121_no_h5py_refuted`, `C121_metadata_refuted`.
* **C122** Floating point errors in a stack of solvers. Proved for vectors whose numbers are arrays, which is always so without MPI. A remote param holds its initial value, and if that is a float the error becomes a TypeError (C122_remote_refuted). C122_readable is for names without quotes.
  Theorems: `C122_remote_refuted`.
* **C123** Variables under complex step. Proved for getting and setting. Filling by index works outside of a complex step (C123_index) and is lost in one, for every variable (C123_index_refuted). Exact arithmetic; by-object and remote variables, and casts from complex to real by numpy, are not modelled.
  Theorems: `C123_index_refuted`.
* **C125** Levels of printing. Proved for groups and for solvers in which the solvers of a Newton solver have no further solvers in them. Newton.print_all_convergence is defined twice; the second definition sets only iprint of its linear solver and line search, so a preconditioner in the linear solver keeps its level (C125_newton_refuted). Solvers shared between groups are not modelled.
  Theorems: `C125_newton_refuted`.
* **C126** The hierarchy as json. True for groups whose subgroups are empty (C126_flat). In general the dictionary of a group has the names of all systems below it (C126_keys), so it does not show the hierarchy as soon as a subgroup has a subsystem of another name than those of the group (C126_nested_refuted). json.dumps is not modelled.
  Theorems: `C126_nested_refuted`.
* **C127** The data of the N2 diagram. All of the statement is proved, given that networkx returns the strongly connected components, that nodes in loops are components, and names without spaces. Missing: the nodes of variables, the connections added for the html file, and runs under MPI.
* **C128** The checks of co-kriging's arguments. The accepted arguments are characterised exactly (C128_level, C128_accepts), and when the optimizer finds its bounds (C128_bounds). A second fit is proved to change nothing under a condition (C128_again) and refuted without it; that a number stands for all features is false for bounds without theta0. Not modelled: arrays with several rows, names of regressions, changes made before an error.
  Theorems: `C128_refit_refuted`, `C128_replicated_refuted`, `C128_start_refuted`, `C128_columns_refuted`.
* **C129** Names of a system's unknowns in its parent's vectors. Proved for components and groups at any depth and for SubProblems of the top group. Refuted for a SubProblem in any group below the top: its view has no unknowns (unless the first name of its path is its own name, which is not covered).
  Theorems: `C129_subproblem_refuted`.
* **C13** Gradients handed to the optimizer are derivatives of the scaled quantities. Proved for scalar scalers in all three modes; refuted for array scalers in each mode and for a variable that is both objective and constraint.
  Theorems: `C13_array_scaler_fwd_refuted`, `C13_array_scaler_rev_refuted`, `C13_array_scaler_fd_refuted`, `C13_double_role_refuted`.
* **C130** Statistics and plot of the tree of systems. Proved for the counts, the plot, and the depth at the root. Refuted for the depth of any group below the root (too large by the number of names in its path) and of a group without subsystems (ValueError). total_var_size and the memory figures of stats are not modelled.
  Theorems: `C130_depth_refuted`.
* **C132** Putting a namelist together. Proved for groups and cards of any sequence of calls, with the exact condition for success. Refuted for the default path of add_container and for the names written of variables in different subtrees.
  Theorems: `C132_no_path_refuted`, `C132_same_name_refuted`.
* **C133** Importing a library of units, and the library that comes with the code. Proved for files with distinct types and names of base units. Refuted: a refused import leaves the base units of the refused file instead of the former library; dag means another mass once ag was looked up; sigma*K**4 is no power per area, Ken no energy, V0 ten times too small. The shipped file is transcribed in UlibData.v; reading of the file by ConfigParser is not modelled.
  Theorems: `C133_refused_refuted`, `C133_prefix_refuted`, `C133_constants_refuted`.
* **C134** Design variables and objectives on several processes. Proved: same dictionary on all processes, and an error of scaling is raised on all. Refuted for every such call on two or more processes: after an index out of range the owner has raised and all others are waiting for its broadcast. get_objectives ignores return_type. Assumes the same variables in the same order on all processes; MPI itself is modelled as matching broadcasts.
  Theorems: `C134_index_refuted`, `C134_array_refuted`.
* **C135** Failing on all processes together. Proved for statements that end, well or not, on every process. Refuted otherwise: with one process failed and one waiting in a collective operation of the statements nobody raises. Operations match by kind; texts of tracebacks are assumed not empty; point to point messages are not modelled.
  Theorems: `C135_waiting_refuted`.
* **C136** Messages for return codes of commands. Proved: success, positive status, and signals whose number no other constant starting with SIG has. Refuted: with such a constant first (SIG_UNBLOCK before SIGHUP in Python 3.12 on Linux) that is named; unnamed signals, numbers from NSIG on, and win32 give no message; CalledProcessError shows ': : '.
  Theorems: `C136_constant_refuted`, `C136_unnamed_refuted`, `C136_colons_refuted`.
* **C137** The dump of a system tree. Proved: every system has its line at its level, and trees with the same dump have the same classes, names and structure (classes without blanks, names without quotes). Refuted for verbose: any tree with a group in which an unknown feeds two params raises TypeError; otherwise verbose does not raise. Texts of the verbose lines, sizes and dvecs are not modelled.
  Theorems: `C137_verbose_refuted`.
* **C138** The dump of a vector. Proved for vectors without remote variables (rows in order, columns aligned; all rows of one length if none is passed by object). Refuted: with a remote variable dump raises RuntimeError and writes nothing. A value whose text has several lines counts as one text.
  Theorems: `C138_remote_refuted`.
* **C139** Reading a box of columns. Proved for boxes inside the file whose rows are all numbers (array and matrix) or all have a text (array). Refuted: one row with a text makes every number of the array a text; a matrix has rows of zeros for lines beyond the end of the file, without an error. Parsing is an argument; texts are those of Python 3 (in Python 2 unicode lines are not of type np.str_).
  Theorems: `C139_mixed_refuted`, `C139_end_refuted`.
* **C14** Option values always satisfy their declaration. Invariant over all histories, up to NaN which passes every bound check (refuted); rejected operations change nothing; locked options are unlocked by the construction of any other dictionary (refuted), otherwise they keep their value.
  Theorems: `C14_nan_refuted`, `C14_locked_option_refuted`.
* **C140** The line a solver prints. Proved for every system, with or without a message, when the norm of the change is not given or not zero. Refuted: a change of exactly zero is tested for truth and left out. That names of systems have no dot and are not empty is a hypothesis.
  Theorems: `C140_zero_refuted`.
* **C141** Which methods are profiled. Proved for the problem, driver, systems, solvers of groups and their managers when no object is at two places (at least one wrapper in any case). Refuted: a solver that two groups share is wrapped twice; solvers held by other solvers (preconditioners, line searches) are not wrapped; setup marks itself as done before it opens the file and checks the type of the top object, so after a failure it can not be repeated.
  Theorems: `C141_shared_refuted`, `C141_retry_refuted`, `C141_inner_refuted`.
* **C15** Deprecated option names are aliases. Indexing, assignment and membership proved for plain dictionaries; get() raises KeyError for every deprecated name (refuted); in derivative options the deprecated name does not update the step size (refuted).
  Theorems: `C15_get_refuted`, `C15_deriv_alias_refuted`, `C15_legacy_read_refuted`.
* **C17** Recorders record exactly the selected variables. False as stated: solvers other than RunOnce put the pathname in the coordinate, so at depth two or more the recorder looks under a wrong key (KeyError, or the selection of another group). Proved for all other groups, with the exact condition.
  Theorems: `C17_nested_solver_refuted`, `C17_wrong_group_refuted`.
* **C18** Recorded iterations are immutable history. False for array variables, whose views are stored: every recorded iteration shows the current value. Proved for values read by copy.
  Theorems: `C18_array_refuted`.
* **C19** Recorded cases can be read back. SQLite: proved except derivatives (case.derivs is always None). HDF5: values proved; success flag, message, time stamp and derivatives are not read back.
  Theorems: `C19_derivs_refuted`, `C19_hdf5_success_refuted`.
* **C21** Data transfer delivers connected values. Proved for all nonempty index lists in range, through slicing, sorting and merging; a connection with no entries makes setup raise IndexError (refuted). Serial implementation.
  Theorems: `C21_empty_refuted`.
* **C25** Step limiting keeps unknowns within bounds. Bounds are always respected for variables that are looked at, and the step is the largest except for an entry sitting on a bound and pointing inside, which gets step 0 (refuted). Variables whose metadata merely contains the key remote or pass_by_obj are skipped (refuted); two-dimensional bounded variables raise ValueError. Exact rationals with infinities and nan.
  Theorems: `C25_stuck_refuted`, `C25_ignored_refuted`.
* **C26** Finite differences are exact on low-degree models and leave no trace. Over every field with 1+1<>0: exact for polynomials of degree 1 (forward, backward) and 2 (central), any number of parameters, outputs and index selections; a component gets all its vectors back. Refuted: after total derivatives of a group the parameters keep the values of the last perturbed run; in binary64 a parameter 1.0 comes back as 0.9999999999999999; an unknown that is itself the stepped variable gets a 1x1 block when no indices were given.
  Theorems: `C26_group_params_refuted`, `C26_float_refuted`, `C26_identity_refuted`.
* **C27** Parallel finite difference covers every column once. For every function and any number of processes at least num_par_fds; all blocks of computed unknowns. Refuted for unknowns which are themselves stepped variables: their identity columns are not exchanged.
  Theorems: `C27_identity_refuted`.
* **C28** Forward and reverse linear operators are transposes. Over every commutative ring, for trees of components, IndepVarComps, finite differenced groups and groups of any depth, Jacobians of the declared shapes, unit conversions and resid_scalers. Fails for blocks of one row (forward accepts, reverse raises), and an IndepVarComp adds to a du that was not zeroed; Jacobians of implicit components without parameters are ignored.
  Theorems: `C28_one_row_refuted`, `C28_no_params_refuted`, `C28_indep_refuted`.
* **C29** Linear Gauss-Seidel solves feed-forward systems in one sweep. Forward: all feed-forward trees, exact inner solvers, any commutative ring. Reverse: the same without resid_scaler; refuted with one (the adjoint solution is scaled in place). Right hand sides under the 1e-15 threshold give zero.
  Theorems: `C29_scaled_refuted`.
* **C30** Direct solver matrix equals the matrix-free operator. Proved for every group: the 'MVP' matrix is the group's linear operator in both modes. Proved for groups without unit conversions, resid_scalers, source indices, finite differenced subgroups, doubly used or self connected sources, with a key for every state: the 'assemble' matrix is the same; its index cache is transparent. False without each of these conditions (refuted theorems): 'assemble' leaves out unit conversions and resid_scalers, broadcasts over source indices, overwrites instead of adding, misses finite differenced subgroups, and fails with KeyError in a subgroup with an outside source.
  Theorems: `assemble_units_refuted`, `assemble_scaler_refuted`, `assemble_state_refuted`, `assemble_key_refuted`, `assemble_indices_refuted`, `assemble_two_params_refuted`, `assemble_self_refuted`, `assemble_fd_group_refuted`, `assemble_outside_refuted`.
* **C31** Residual evaluation does not change explicit outputs. Holds over every commutative ring for any component function; in binary64 it holds bit for bit at fixed points. Refuted in binary64 in general (1.0 to 1e16 comes back as 0.0, infinity as NaN), for outputs passed by object and when the component raises.
  Theorems: `C31_by_object_refuted`, `C31_rounding_refuted`, `C31_raise_refuted`.
* **C32** Fixed-point iteration respects its limits and reports faithfully. Full behaviour for maxiter >= 2 and finite norms, for any system; refuted for maxiter 0 (runs once), maxiter 1 (never reports), convergence in the last iteration (reported as failure), infinite norms (reported as converged).
  Theorems: `C32_maxiter_zero_refuted`, `C32_maxiter_one_refuted`, `C32_last_iteration_refuted`, `C32_infinite_refuted`.
* **C33** Newton iteration respects limits, bounds and options. Iteration limits for every system; stopping rule and reporting for finite norms; bounds respected at every point when subsystems are not solved; options restored when no exception passes. Refuted: exception leaves options changed, convergence in the last iteration, infinite norms, entries on a bound, solve_subsystems, negative alpha, start outside.
  Theorems: `C33_options_refuted`, `C33_last_iteration_refuted`, `C33_infinite_refuted`, `C33_stuck_refuted`, `C33_subsystems_refuted`, `C33_negative_alpha_refuted`, `C33_outside_start_refuted`.
* **C34** set_order only permutes. The list of local subsystems, built during setup, keeps the order the systems were added in (local_order_refuted).
  Theorems: `local_order_refuted`.
* **C37** Every input ends up with at most one source. Proved: at most one source, every chain from an unknown honoured or reported, bad names reported, inputs nothing is connected to get a source or are reported. False as stated: inputs in a cycle, a third input sharing a name, and conflicts met upstream are neither connected nor reported; src_indices can be lost.
  Theorems: `third_input_refuted`, `indices_kept_refuted`, `upstream_indices_refuted`, `input_cycle_refuted`, `upstream_conflict_refuted`.
* **C38** Derivative mode selection. Sizes are those of whole variables: indices of a variable of interest are ignored (mode_indices_refuted). The choice itself is characterised for all inputs.
  Theorems: `mode_indices_refuted`.
* **C39** Relevance never drops a dependency. False for a variable used as both: an input listed as output after the other output loses what lies between (relevant_to_input_refuted). False for an unconnected state of a component on the path (relevant_state_refuted). Proved for every output, and for every input not listed as an output later, for systems, variables of interest and ends of connections.
  Theorems: `relevant_to_input_refuted`, `relevant_state_refuted`.
* **C41** Parallel group processor allocation. Complete behaviour of both allocation algorithms for all requirement lists: exact termination condition, even spread, minima in the sharing branch. Refuted: minima ignored by the round robin, endless loop in the sharing branch, shared buckets exceed a maximum, idle processes, empty group.
  Theorems: `C41_minimum_refuted`, `C41_hang_refuted`, `C41_maximum_refuted`, `C41_unassigned_refuted`, `C41_empty_refuted`.
* **C42** Parallel DOE runs every case exactly once without deadlock. Every case is assigned to exactly one doe (both drivers). Absence of deadlock is false in general: the three _refuted theorems show, for all sizes and all schedules, that the run always hangs when a doe with more than one process is one case short, when a fatal failure happens in a round in which a doe has no case, and with only parallel recorders when a doe is one case short. In all remaining cases par_done / par_failed prove that all processes return after running their cases, or all raise, under every schedule. Collective operations inside the model while a case runs are not modelled.
  Theorems: `par_short_refuted`, `par_fatal_refuted`, `par_recorder_refuted`.
* **C43** Load-balanced DOE records every case exactly once. For all cases, group layouts and completion orders the load balanced run ends; every case dealt out is run by all processes of exactly one group, and recorded exactly once with its own values unless it fails fatally. With a fatal failure the remaining cases are not run and the failed one is not recorded (lb_fatal_refuted). Communication inside a group while it runs a case is not modelled.
  Theorems: `lb_fatal_refuted`.
* **C44** Multiprocess DOE always finishes. Under every schedule of the workers and queues the run ends, every case handed out is run once and recorded once unless it failed fatally, if no worker dies and load_balance is True or no case fails fatally. False as stated: with load_balance=False a fatal case can make the main process wait for ever, and so does an exception while the design variables of a case are set.
  Theorems: `mp_fatal_hang_refuted`, `mp_crash_hang_refuted`.
* **C45** Concurrent evaluation evaluates every case. Under every schedule concurrent_eval_lb evaluates every case exactly once and returns all results, with at least two workers or at least as many workers as cases, and it always ends. False as stated for one worker (only the first case is evaluated), for no worker, and for a case with args None (the master hangs).
  Theorems: `one_worker_refuted`, `no_worker_refuted`, `none_case_refuted`, `order_refuted`.
* **C47** Latin hypercube designs are Latin. Random designs are Latin and every bucket gets one sample. Optimized designs are Latin for at most two generations or two dimensions, or when no cell is exchanged twice; otherwise refuted: perturb reads the old design for every exchange, so two exchanges in one column repeat a level. With one sample (the default) the optimized driver never ends.
  Theorems: `perturb_latin_refuted`, `optimized_is_latin_refuted`.
* **C48** Optimizer constraint functions agree with the declared constraints. For COBYLA and SLSQP with positive scalers, the constraint functions are all non-negative (zero for equalities) exactly when every declared constraint entry is satisfied, and each gradient is the derivative of its function. The full statement is false: every other optimizer silently drops the constraints, and a negative scaler reverses them. The functions are evaluated at the values of the last objective evaluation: _confunc ignores its argument.
  Theorems: `scipy_dropped_refuted`, `scipy_negative_scaler_refuted`.
* **C49** Inactive-constraint screening keeps active constraints. Holds for constraints with one bound (or equal bounds) that are alone in their parallel derivative group. False in general: with two bounds more than two tolerances apart every entry is always skipped, even on or beyond a bound; in a parallel derivative group the last member decides for all; an integer tolerance is a swallowed TypeError that leaves no gradient. Violated equality constraints are the ones whose gradient is dropped.
  Theorems: `active_two_sided_refuted`, `active_on_bound_refuted`, `active_equality_refuted`, `active_group_refuted`, `active_int_refuted`, `active_array_equality_refuted`.
* **C50** Surrogates are trained on the supplied data. Holds, for every history of trainings, when every parameter but the last has float training values. False otherwise: the column index is not advanced after a parameter whose training values are arrays or integers, so its columns are overwritten by the next parameter and the last columns stay zero. A failed training leaves half-written rows that a later warm restart trains on.
  Theorems: `meta_two_arrays_refuted`, `meta_layout_refuted`, `meta_failed_refuted`.
* **C52** Expression components keep distinct variables distinct. For every order of the sets: the search for replacements ends, a replacement has no colon and does not occur in the expressions; when no name with colons is part of a longer word and the replacements are different (in particular when names with colons have no digits) every word of a compiled expression refers to the variable it named. False in general: 'a:b0c' and 'a0b:c' get the same replacement, a name contained in another one is replaced inside it for some set orders, and the exponent of a number is taken for a variable.
  Theorems: `expr_collision_refuted`, `expr_order_refuted`, `expr_literal_refuted`.
* **C53** Linear system component adjoint. Over every commutative ring (for the reverse mode one where a + a = 0 only for a = 0): apply_linear adds the derivative of A x - b in fwd mode and its transpose in rev mode, for every subset of variables that take part. solve_linear solves with the matrix of the last solve_nonlinear, which is another matrix when A has changed since (lsys_stale_refuted).
  Theorems: `lsys_stale_refuted`.
* **C54** Template substitution changes only the addressed field. Proved for every template, delimiter set, row at or after the file start and existing field. A field that does not exist is silently ignored; a row before the first line wraps to the end of the file (refuted). Number formatting is an argument.
  Theorems: `transfer_var_before_start_refuted`.
* **C55** Array substitution fits or fails. The filling is exact for all arrays and ranges; the ValueError for too small arrays is dead code and an extra newline is always appended (both refuted).
  Theorems: `transfer_array_too_small_refuted`, `transfer_array_adds_line_refuted`.
* **C56** Anchor search finds the requested occurrence. Exact without an anchor; from an anchor the anchored line (forward) or the last line of the file (backward) never counts (refuted).
  Theorems: `anchored_line_skipped_refuted`, `backward_ignores_anchor_refuted`.
* **C57** Key lookup reads the requested line. Forward search is exact; backward search is right only when the anchor is in the first line (refuted otherwise). Line parsing by pyparsing is an argument.
  Theorems: `keyvar_backward_refuted`, `keyvar_missing_refuted`.
* **C59** External code outcome reporting. Success and return_code hold in full. The error class follows fail_hard except for an empty command or missing executable (ValueError) and timeouts (always AnalysisError).
  Theorems: `external_error_class_refuted`.
* **C60** Complex step leaves no trace and is exact on quadratics. Over every field: degree at most 2, any nonzero step, any number of variables; parameters and unknowns unchanged (the residual vector is overwritten with zeros, also proved). ExecComp expressions with +, *, -. Refuted for a parameter whose units are converted: it is stepped at the stored value, before conversion.
  Theorems: `check_cs_units_refuted`.
* **C61** Path name utilities are inverse to joining. All paths of non-empty dotless names of any depth, root included. The functions do not check that the child is inside the parent (C61_outside_refuted shows what they return then).
  Theorems: `C61_outside_refuted`.
* **C62** Switching the derivative mode of a direct solver. For every history in which a change of mode, solver or solution method comes with a linearization, every solve gives the solution for its mode; this covers what Problem.calc_gradient and Newton.solve do. False without: a solve in the other mode gives the solution of the old mode, a second solver of the same system has no or an old factorization, and so has a solver whose solution method changes.
  Theorems: `direct_mode_refuted`, `direct_two_solvers_refuted`, `direct_method_refuted`.
* **C63** Bracketing solver ends at the root it found. The state holds the point evaluated last, for every bracketing strategy; refuted for the root at the lower bracket end, where the algorithm evaluates the upper end last.
  Theorems: `C63_root_at_lower_bound_refuted`.
* **C65** Iterated linear Gauss-Seidel converges to a solution. Fixed points are solutions for groups of explicit components (forward) and for all subsystems (reverse); refuted in forward mode for implicit components and nested groups, and the residual test is wrong for unpromoted names.
  Theorems: `C65_implicit_refuted`, `C65_nested_refuted`, `C65_residual_refuted`.
* **C66** check_call reports every unsuccessful command. Holds for commands that end; refuted for commands stopped at their timeout, whose return code None passes the test.
  Theorems: `check_call_timeout_refuted`.
* **C67** Files opened for a command are closed. Holds when every stream file can be opened; refuted otherwise: files opened before the failing one stay open.
  Theorems: `command_files_closed_refuted`.
* **C68** Comment removal keeps the data. Holds when an end-of-line comment character is given, or none at all; with only a full-line comment character each line is cut to its first word (refuted).
  Theorems: `full_line_comments_only_refuted`, `full_line_comments_blank_refuted`.
* **C69** Reading an array reads the addressed fields. Exact when the addressed lines exist; missing rows and fields are left out silently (refuted). Parsing is an argument; the delimiter columns is C139.
  Theorems: `read_array_truncates_refuted`.
* **C70** Reading a matrix reads the addressed block. Exact when all fields exist; short and missing rows become zeros (refuted). Numeric fields only.
  Theorems: `read_2Darray_short_rows_refuted`.
* **C71** Delimiters are exactly the given characters. Exact for delimiters without minus sign, closing bracket and backslash; a minus sign forms a range (refuted).
  Theorems: `minus_delimiter_refuted`, `minus_last_refuted`.
* **C73** Total derivative Jacobian holds exactly the requested derivatives. Holds for requests whose variables have vectors, with non-negative indices and whole parallel groups under LinearGaussSeidel; the array additionally needs lists of names without common members. Each condition is shown to be needed: a name in both lists mixes up rows and columns, a parallel group with another solver gives wrong columns, part of a group is a KeyError, a negative index reads another variable, relevance reduction in the other mode is a KeyError.
  Theorems: `gradient_array_shared_refuted`, `gradient_parallel_group_refuted`, `gradient_part_of_group_refuted`, `gradient_negative_index_refuted`, `gradient_other_mode_refuted`.
* **C74** Forward and reverse total derivatives agree with the chain rule. Both formats; variables with vectors of their own are covered if their vectors suffice (C86). The solver is exact, which is proved for one sweep of LinearGaussSeidel over a group without feedback (C29). The array format needs lists of names without common members, without which it is false (gradient_array_shared_refuted).
  Theorems: `gradient_array_shared_refuted`.
* **C75** Matrix substitution fills each line with its row. Where lines and values exist, row i fills line i and nothing else changes; too few rows are an IndexError. Refuted: rows and entries that do not fit are dropped silently, missing ones leave the text of the template.
  Theorems: `transfer_2Darray_truncates_refuted`, `transfer_2Darray_too_small_refuted`.
* **C76** Reading one field. Holds for lines and fields counted from the start; a line before the start of the file or field zero is read from the end. The parsing of a line into fields (pyparsing) is an argument; the delimiter columns is in C118.
  Theorems: `read_var_wraps_refuted`.
* **C77** Connection checks accept exactly the compatible connections. The accepted connections between vector variables are characterised exactly. Refuted: between variables of equal shape any number of indices is accepted; the key pass_by_obj on the source, even False, switches the shape check off; an int shape keyword that does not fit the value is stored; a target without shape reads indices as row numbers. FileRefs and MPI are not modelled.
  Theorems: `declared_size_refuted`, `completed_rows_refuted`, `accepted_index_count_refuted`, `accepted_key_refuted`.
* **C78** An accepted connection delivers the source entries to the target. Holds for variables with at least one entry and as many indices as the target has. Refuted for accepted connections: too many indices overwrite the next parameter, indices on an object source shift the next parameter away from its data, an index outside the source behind a pass_by_obj key reads uninitialised memory, an object target of a vector source breaks setup. One process; the copying of objects is not modelled.
  Theorems: `delivery_spill_refuted`, `delivery_gap_refuted`, `delivery_junk_refuted`, `delivery_object_target_refuted`.
* **C80** Zero residuals mean that the model is solved. Proved for trees without ParallelGroup. Refuted with one: a connection between children of a ParallelGroup can leave the receiver unsolved with zero residuals, and a component directly below one gets unscaled residuals.
  Theorems: `C80_parallel_group_refuted`, `C80_parallel_scaling_refuted`.
* **C81** Setting a variable by its name and reading it back. Unknowns: full. Unconnected inputs: read-back and exactness proved when every param has at most one incoming link and the name is not the absolute name of a root-owned param; refuted without these; an unconnected input keeps a reference to the caller's object. Unknowns passed by object and unit conversion on reading are not modelled.
  Theorems: `set_get_refuted`, `set_connected_refuted`, `set_shadowed_refuted`.
* **C82** Interpolants reproduce the training data. Exact arithmetic over an ordered field. False for the linear interpolant with several outputs when the plane of one is vertical (linear_outputs_refuted; IndexError when it is not the first, linear_flat_index); proved in all other cases. The radial basis result assumes the sparse solver solves the system. One prediction point at a time.
  Theorems: `linear_outputs_refuted`.
* **C83** Gradients of interpolants are their derivatives. Derivatives as first order parts in dual numbers. False at training points of the weighted interpolant (0/0), for the kernel comp=1 with at most two inputs (sign) and comp=-3; proved for the others. The radial gradient treats neighbours at distance 0 as excluded.
  Theorems: `rbf_kernel_one_refuted`, `rbf_kernel_sqrt_refuted`.
* **C84** A check of partial derivatives compares the component's operator with its residuals. Proved for the forward and reverse Jacobians, and against differences when the stored residuals are current. False for stale residuals (fd_jacobian never evaluates its base point), for complex steps of parameters with unit conversions (evaluated at the unconverted value) and with scaled residuals.
  Theorems: `check_stale_refuted`, `check_cs_units_refuted`, `check_cs_scaled_refuted`.
* **C85** A check of derivatives reports the distances of the right Jacobians. Errors, pairs and components are right. False: overrides meant for the check also replace the component's own settings, so both differences can be the same computation; in the compact table r(fwd-rev) holds fwd-check and the magnitudes of two differences are exchanged; relative errors are nan and unstarred where the difference is zero.
  Theorems: `check_overrides_refuted`, `check_compact_refuted`.
* **C86** Relevance reduction does not change the total derivatives. Proved for exact solvers (and for LinearGaussSeidel on groups without feedback) when the kept variables suffice: nothing that a kept variable depends on, and that is reached, is missing. The variables relevance.py keeps suffice if the unknowns of a component that depend on each other are kept or dropped together and the variables asked for are of interest to the driver. False otherwise: an unconnected state of an implicit component is dropped, which gives wrong derivatives (reduced_state_refuted), and unknowns that are not of interest are returned as zeros (reduced_other_unknown_refuted).
  Theorems: `reduced_state_refuted`, `reduced_other_unknown_refuted`.
* **C87** A written namelist is read back. Proved for names of letters and digits, strings of printable characters without quote, exclamation mark and backslash, integers, floats whose printed form has a point or is non-negative and which float() gives back, numeric arrays, and marked comments that do not end in a slash. False otherwise: the refutations give a deck for each condition. The pyparsing grammar is modelled as an ordered-choice parser that skips blanks; error positions and messages are not.
  Theorems: `namelist_underscore_refuted`, `namelist_negative_exponent_refuted`, `namelist_bool_array_refuted`, `namelist_string_refuted`, `namelist_comment_refuted`, `namelist_title_refuted`, `namelist_continued_refuted`, `namelist_header_refuted`, `namelist_several_refuted`.
* **C88** load_model accounts for every card of a namelist. All decks, rules and variables. namelist_restores is the write, read, load cycle for one group before setup; an array of one element is then loaded as a number (namelist_one_element_refuted).
  Theorems: `namelist_one_element_refuted`.
* **C89** Total derivatives by finite differences. Proved for every request with names listed once, connected independent variables and indices for the unknowns that are independent variables. Refuted otherwise: names listed twice are scaled twice in the dictionary, shared names without indices give a 1.0 block, unconnected variables a KeyError, promoted targets lose their own settings, no independent variable a NameError. Exact field arithmetic; complex step, several processes and variables without entries are not modelled.
  Theorems: `fd_dict_twice_refuted`, `fd_array_shared_refuted`, `fd_unconnected_refuted`, `fd_own_settings_refuted`, `fd_array_empty_refuted`.
* **C90** The check of total derivatives compares solver and differences. Proved for runs with a user-derivative root whose variables have vectors and whose requests satisfy C74 and C89. Refuted otherwise: out_stream=None before the model was run raises AttributeError, a root group with deriv type fd compares differences with differences whatever the solver does, and a source with two targets is listed (and checked) twice. The printed text is not modelled.
  Theorems: `check_total_silent_refuted`, `check_total_fd_root_refuted`, `check_total_repeated_refuted`.
* **C91** GMRES and DirectSolver solve the system's equations through the vectors. Proved for exact arithmetic: convergence means equality, the tolerance of gmres and LU rounding are not modelled. Refuted otherwise: a run which did not converge is returned like one which did unless err_on_maxiter is set, and a value left in a parameter connected from outside enters every product. gmres is any procedure of products and preconditioner applications; its own convergence is an assumption of the derivative theorem. One key of right hand sides, no relevance reduction.
  Theorems: `gmres_unconverged_refuted`, `gmres_not_ready_refuted`.
* **C92** Kriging reproduces its training data and its gradient is the derivative of its prediction. Proved over the real numbers of the standard library (its axioms are listed in section 3), for any svd which decomposes the covariance matrix and any result of minimize. Refuted: samples are not reproduced exactly even without a nugget; points given as integers truncate the correlations and give the mean; a training which fails leaves new data with old coefficients, and later predictions raise no error; samples repeated with different values cannot be reproduced; with several outputs the variance mixes them and may be negative (error reported as zero); with several points the errors form a points-by-points matrix or do not fit, and FloatKrigingSurrogate returns the first point only. Rounding and the likelihood are not modelled.
  Theorems: `kriging_exact_refuted`, `kriging_integers_refuted`, `kriging_failed_training_refuted`, `kriging_repeated_refuted`, `kriging_variance_refuted`, `kriging_points_refuted`.
* **C93** Inputs without a source agree, or setup reports it. Proved for all trees: no report implies equal values and units equal or missing among the inputs fed by a sourceless input, and one setting per name; where no input has two links, no report is equivalent to equal values, equal units and one setting. Refuted: a missing unit is reported against the comment in the source; NaN is reported to differ from itself, so that any unconnected input starting with NaN makes setup fail; equal numbers of different types and inputs linked with src_indices are reported; inputs connected in a circle are never compared; a setting given for one of two inputs only is accepted. Not modelled: the texts of the reports.
  Theorems: `units_none_refuted`, `nan_alone_refuted`, `number_types_refuted`, `partial_inputs_refuted`, `circle_accepted_refuted`, `missing_step_refuted`.
* **C94** A SubProblem behaves like the model it wraps. Proved for all feed-forward wrapped and outer models of components whose outputs depend on their inputs only: acceptance of params, solution after a call, independence of earlier calls (failed ones included), equality with the flat model for params that stand for inputs, derivatives at the solution after a run. Refuted: the residuals of a SubProblem that holds its outputs are not zero and evaluating them loses the outputs, because solve_nonlinear overwrites the residuals the inherited method has stored; linearize sets the params without running, so derivatives at new params are those of a state that is no solution. Not modelled: metadata, MPI, wrapped drivers other than the one that runs the model once.
  Theorems: `C94_stale_refuted`, `C94_residuals_refuted`.
* **C95** The check of linear solvers finds every group that cannot solve its linear system. Proved for all trees, solvers, connections and states: exactly which circles, states and complex-step groups are reported, and that the check completes if states are variables of their components. Refuted: a Krylov solver limited to one iteration in a circle is accepted; a SubProblem's state with a dotted name makes the check raise AttributeError.
  Theorems: `C95_krylov_refuted`, `C95_dotted_refuted`.
* **C97** A multi-fidelity metamodel is trained on each level's own points. Proved for two levels, any number of scalar inputs followed by at most one array input, all outputs and data, and any number of warm restarts. Refuted: with three or more levels every training fails with KeyError; without warm restart a level without points gives the surrogate None for its outputs, or old outputs with no inputs; two array inputs overwrite each other; one level with a warm restart as first training raises AttributeError.
  Theorems: `C97_three_levels_refuted`, `C97_empty_level_refuted`, `C97_no_points_refuted`, `C97_two_arrays_refuted`, `C97_one_level_refuted`.
* **C98** Data transfer between processes moves exactly the connected entries. Forward proved for all worlds in which the processes with a target know whether the source is spread. Backward proved under three conditions on a connection (a target without indices sits with part of a spread source; a source of a target with indices is spread or in one process; all processes know the indices); each is shown necessary by a witness where the derivative is doubled, lost or added at the wrong entries.
  Theorems: `C98_reverse_copies_refuted`, `C98_reverse_lost_refuted`, `C98_reverse_indices_refuted`, `C98_forward_unknown_refuted`.
* **C99** Variables passed by object reach every process, without deadlock. Proved in full for buffered sends: termination, absence of deadlock, delivery and no leftover messages in every interleaving, for any sequence of transfers. Refuted for sends that wait for the receiver, which MPI allows: every transfer that needs a message deadlocks, because all sends come before the barrier and all receives after it.
  Theorems: `C99_synchronous_refuted`.
