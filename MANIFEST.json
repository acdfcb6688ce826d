{
 "claims": [
  {
   "property": "C01",
   "status": "proved",
   "theorems": [
    "C01_convert_units_preserves",
    "C01_connected_parameter_preserves"
   ],
   "note": "floats modelled as exact rationals"
  },
  {
   "property": "C02",
   "status": "proved",
   "theorems": [
    "C02_conversions_compose",
    "C02_conversions_invert"
   ],
   "note": "floats modelled as exact rationals"
  },
  {
   "property": "C03",
   "status": "proved",
   "theorems": [
    "C03_conversion_refused_iff_dimension_differs"
   ],
   "note": "units with nonzero factor"
  },
  {
   "property": "C04",
   "status": "partial",
   "theorems": [
    "C04_multiply",
    "C04_divide",
    "C04_power",
    "C04_multiply_by_number",
    "C04_divide_by_number",
    "C04_number_by_unit_partial",
    "C04_number_by_unit_refuted"
   ],
   "note": "refuted for number/unit: 1/degC returns a unit instead of raising TypeError; every other operation proved in full (integer exponents)"
  },
  {
   "property": "C05",
   "status": "partial",
   "theorems": [
    "C05_comparison_exact_partial",
    "C05_equality_without_offsets",
    "C05_sum_exact_partial",
    "C05_refuted"
   ],
   "note": "refuted in general (degC against degK); exact conditions under which comparison, equality and sum are right are proved"
  },
  {
   "property": "C06",
   "status": "partial",
   "theorems": [
    "C06_in_base_units_partial",
    "C06_offset_refuted",
    "C06_dimensionless_refuted"
   ],
   "note": "refuted for offset units and for dimensionless units; proved for all other units after any lookup history"
  },
  {
   "property": "C07",
   "status": "partial",
   "theorems": [
    "C07_order_independent_partial",
    "C07_loads_iff_definable_partial",
    "C07_table_satisfies_definitions_partial",
    "C07_loading_terminates",
    "C07_offset_base_refuted",
    "C07_redefinition"
   ],
   "note": "refuted for offset units whose base unit is defined later in the same library; proved for all other libraries, all permutations and all set iteration orders"
  },
  {
   "property": "C08",
   "status": "partial",
   "theorems": [
    "C08_found_units_are_stable",
    "C08_defined_units_are_history_independent",
    "C08_history_independent_partial",
    "C08_refuted"
   ],
   "note": "refuted for prefixed names whose tail is itself a prefixed name looked up before; proved otherwise"
  },
  {
   "property": "C09",
   "status": "partial",
   "theorems": [
    "C09_round_trip_partial",
    "C09_read_is_scaled_value",
    "C09_matrix_indices_refuted",
    "C09_matrix_indices_readback_refuted",
    "C09_scalar_indices_refuted"
   ],
   "note": "Round trip proved for flat variables with any distinct index list and for whole variables of any shape, scalar or array scalers; refuted for index lists on two-dimensional variables (rows are written, flat entries are read) and on scalar variables (TypeError). Single process, exact rationals."
  },
  {
   "property": "C10",
   "status": "partial",
   "theorems": [
    "C10_positive_scaler_partial",
    "C10_negative_scaler_swaps",
    "C10_negative_scaler_refuted"
   ],
   "note": "Proved for positive scalers; with a negative scaler the stored lower bound exceeds the stored upper bound (refuted, with the exact characterisation)."
  },
  {
   "property": "C100",
   "status": "partial",
   "theorems": [
    "C100_sparse_partial",
    "C100_promoted_refuted",
    "C100_promoted_indices_refuted",
    "C100_repeated_refuted"
   ],
   "note": "Proved when the targets of the design variable keep their absolute names at the top level and the design variable does not repeat an index. Refuted otherwise: with promoted targets the driver looks up absolute names in a set of promoted ones and drops columns that are not zero."
  },
  {
   "property": "C101",
   "status": "partial",
   "theorems": [
    "C101_gradient",
    "C101_analysis_error",
    "C101_gradient_failure_refuted",
    "C101_objective",
    "C101_objective_failure"
   ],
   "note": "Function evaluations and gradients after AnalysisError are proved. Refuted for gradients that fail with any other exception: an empty dictionary is returned with the flag of success."
  },
  {
   "property": "C102",
   "status": "partial",
   "theorems": [
    "C102_tree_partial",
    "C102_times",
    "C102_root",
    "C102_grand",
    "C102_root_refuted",
    "C102_grand_refuted",
    "C102_raise_path_refuted",
    "C102_raise_refuted"
   ],
   "note": "Proved for all programs whose profiled calls do not raise. Refuted: after a call that raises, its name stays on the stack, later calls are filed under it and process_profile raises KeyError; the time of the root is too small by the overhead of the outermost calls; with several processes the grand totals are by process instead of by method. Times are exact numbers, not single precision."
  },
  {
   "property": "C103",
   "status": "partial",
   "theorems": [
    "C103_serial",
    "C103_parallel",
    "C103_once",
    "C103_mixed_first",
    "C103_mixed_refuted",
    "C103_subgroup_refuted",
    "C103_restart_refuted"
   ],
   "note": "Proved for recorder lists of one kind (all serial or all parallel) with no stale names and, for serial ones, world process 0 in the system. False otherwise: mixtures lose variables or raise, systems without world process 0 record nothing, a second setup may raise KeyError."
  },
  {
   "property": "C104",
   "status": "partial",
   "theorems": [
    "C104_first_setup",
    "C104_repeated_setup",
    "C104_order",
    "C104_units_stale_refuted",
    "C104_indices_stale_refuted",
    "C104_rows_refuted",
    "C104_index_error_refuted"
   ],
   "note": "Proved for the first setup of the components, with initial values for flat sources, for repeated setups with the same connections, and for all orders. False: after a setup with other connections old conversions, source indices and shapes remain; initial values with source indices into sources of several axes do not fit, or setup raises."
  },
  {
   "property": "C105",
   "status": "partial",
   "theorems": [
    "C105_run",
    "C105_all",
    "C105_gradient_refuted",
    "C105_newton_refuted",
    "C105_precon_refuted",
    "C105_apply_refuted",
    "C105_stale_refuted",
    "C105_cwd_refuted"
   ],
   "note": "Proved for trees in which a system with its own directory has no Newton solver or preconditioner and the root has no directory when gradients are computed; the claim is false otherwise (refuted theorems). Directories are assumed to exist; one process; finite differences over groups not modelled."
  },
  {
   "property": "C106",
   "status": "partial",
   "theorems": [
    "C106_setup",
    "C106_setup_error",
    "C106_shared_refuted",
    "C106_types",
    "C106_check",
    "C106_run",
    "C106_text",
    "C106_alias_refuted",
    "C106_clobber_refuted",
    "C106_outputs_refuted",
    "C106_text_refuted",
    "C106_type_error_refuted"
   ],
   "note": "Proved for layouts whose files are separate; the checks of the code do not guarantee that (refuted theorems). Transfers are modelled per component just before it runs; one process."
  },
  {
   "property": "C107",
   "status": "partial",
   "theorems": [
    "C107_accept",
    "C107_groups",
    "C107_order",
    "C107_names",
    "C107_serial",
    "C107_both_refuted",
    "C107_twice_refuted",
    "C107_indices",
    "C107_indices_refuted",
    "C107_requests",
    "C107_modes",
    "C107_modes_refuted"
   ],
   "note": "Holds for design variables always and for outputs when no objective is a constraint; refuted for objectives that are constraints and for the mode check without single_voi_relevance_reduction. vnames is a list; one process's view of MPI."
  },
  {
   "property": "C108",
   "status": "partial",
   "theorems": [
    "C108_nugget",
    "C108_interpolates",
    "C108_mse",
    "C108_least_squares",
    "C108_rejects",
    "C108_undetermined_refuted",
    "C108_cholesky_refuted",
    "C108_exact_trend_refuted",
    "C108_stale_refuted",
    "C108_refit_refuted",
    "C108_float_refuted"
   ],
   "note": "Exact arithmetic over any field; decompositions and solves are exact by hypothesis. Interpolation holds when the stored factors are those of the stored theta (theta given, or the optimizer's last evaluation is its result); refuted otherwise, with the exact condition for two points. Checks of argument shapes and bounds (704-817) are not modelled."
  },
  {
   "property": "C109",
   "status": "partial",
   "theorems": [
    "C109_inequality",
    "C109_reading",
    "C109_equality",
    "C109_equality_refuted",
    "C109_strict_refuted",
    "C109_rejects",
    "C109_double_refuted",
    "C109_missing_refuted",
    "C109_reversed_refuted",
    "C109_nested_refuted"
   ],
   "note": "Holds for one <= or >= between two arithmetic expressions without comparators (C109_inequality, C109_reading); < and > are told by value < 0, equations by value = 0. False otherwise: the docstring's '<= 0' is wrong for strict inequalities at equality and for equations; double inequalities with different comparators, a missing side and =< are accepted and mean something else; a comparator inside a call is mistaken for the constraint's."
  },
  {
   "property": "C11",
   "status": "partial",
   "theorems": [
    "C11_indexed_set_partial",
    "C11_index_zero_is_no_index",
    "C11_index_zero_refuted"
   ],
   "note": "Proved for every valid index except 0; index 0 is tested with \"if index:\" and behaves as no index (refuted)."
  },
  {
   "property": "C110",
   "status": "partial",
   "theorems": [
    "C110_result",
    "C110_cwd",
    "C110_safe",
    "C110_inside",
    "C110_warned",
    "C110_succeeds",
    "C110_again",
    "C110_atomic_refuted",
    "C110_force_refuted",
    "C110_escape_refuted"
   ],
   "note": "Holds for plain relative keys (C110_result, C110_succeeds, C110_again) and for every outcome as far as safety, confinement and the working directory go. False: the refusal of an absolute key is not atomic, force=0/None counts as true (`force is False`), and relative keys with '..' write outside topdir."
  },
  {
   "property": "C111",
   "status": "partial",
   "theorems": [
    "C111_files",
    "C111_once",
    "C111_starts",
    "C111_start_refuted",
    "C111_up",
    "C111_up_start",
    "C111_up_ends",
    "C111_up_relative_refuted",
    "C111_up_dots_refuted"
   ],
   "note": "Holds with the start directory itself subject to the directory filters (by its name as given), and for find_up from plain absolute paths. False: a start whose path does not match dirmatch yields nothing; find_up with a relative path never looks into the working directory or above; with '..' it searches directories not above the start."
  },
  {
   "property": "C112",
   "status": "partial",
   "theorems": [
    "C112_unknowns",
    "C112_params",
    "C112_memory",
    "C112_size",
    "C112_alloc",
    "C112_params_refuted"
   ],
   "note": "Holds for dunknowns/dresids, and for dparams when params and sources agree on pass_by_obj and size. False when a param passed by object is connected to a source that is not: check_connections lets it pass and the params behind it silently lose cells (C112_params_refuted)."
  },
  {
   "property": "C113",
   "status": "partial",
   "theorems": [
    "C113_system",
    "C113_components",
    "C113_variable",
    "C113_once_refuted",
    "C113_units_refuted",
    "C113_cells"
   ],
   "note": "Holds for a system and grouped by component, for names without spaces that do not start with '.' or '{'. With var given a connection is listed once for every end among the names found, so twice if a pattern matches both ends; a connected param with units=None raises TypeError. What was written before an error is not modelled."
  },
  {
   "property": "C114",
   "status": "partial",
   "theorems": [
    "C114_lists",
    "C114_root",
    "C114_unconnected_line",
    "C114_outside_name",
    "C114_outside_refuted",
    "C114_params_lines",
    "C114_conversions",
    "C114_conversion_lines"
   ],
   "note": "The lists returned and the conversions are proved exact. The names printed for params with a source outside are not: lstrip removes every leading character that occurs in the path (C114_outside_refuted), so two params can be printed alike; C114_outside_name says exactly when the name is right. A promoted name is printed with one parenthesis too many. unit_conv is taken as given (see the property on unit conversion for its value)."
  },
  {
   "property": "C115",
   "status": "partial",
   "theorems": [
    "C115_dangling",
    "C115_no_connections",
    "C115_unmarked",
    "C115_relevant",
    "C115_printed",
    "C115_promoted_refuted",
    "C115_stream_refuted",
    "C115_driver"
   ],
   "note": "The values returned are proved exact. The printed connections are not: _check_relevant_pbos compares absolute names with promoted ones (C115_promoted_refuted) and prints the names without file=out_stream when none is found (C115_stream_refuted). Not modelled: _check_mpi, _check_gmres_under_mpi, _check_mode, _check_no_recorders; _check_graph and _check_ubcs belong to other properties."
  },
  {
   "property": "C116",
   "status": "partial",
   "theorems": [
    "C116_valid",
    "C116_names",
    "C116_sizes",
    "C116_kept",
    "C116_shape",
    "C116_shape_refuted",
    "C116_units_refuted",
    "C116_warn_refuted",
    "C116_indices",
    "C116_object_refuted",
    "C116_type_refuted"
   ],
   "note": "Names, sizes of variables not passed by object, and the effect of failing calls on the variables are proved for all sequences of calls. False: shape with an integer shape and a value (C116_shape_refuted), units unchecked (C116_units_refuted), objects with a size (C116_object_refuted), values not differentiable (C116_type_refuted), warnings left by a refused call (C116_warn_refuted). The numbers in values and FileRef._set_meta are not modelled."
  },
  {
   "property": "C117",
   "status": "partial",
   "theorems": [
    "C117_responses",
    "C117_all",
    "C117_rerun",
    "C117_names",
    "C117_auto_refuted",
    "C117_setup_refuted",
    "C117_none"
   ],
   "note": "Proved for models whose results depend on the case only (each case sets all design variables and no state is carried over). Each further setup leaves one more recorder behind (C117_setup_refuted), and a variable cannot be added as a response by two declarations (C117_auto_refuted). What a recorder selects is C17; parallel runs are C42-C44."
  },
  {
   "property": "C118",
   "status": "partial",
   "theorems": [
    "C118_words_partial",
    "C118_field_partial",
    "C118_slice",
    "C118_columns_partial",
    "C118_rest_lost_refuted",
    "C118_tab_delimiter_refuted",
    "C118_split_refuted",
    "C118_minus_inf_refuted",
    "C118_delimiters_refuted"
   ],
   "note": "Proved for lines made of words that are whole numbers, special words, or texts that do not begin like one (C118_words_partial). False in general: an integer at the start of a word is cut off, so -3e5 is read as -3 and e5 (C118_split_refuted); everything after a character that is neither a delimiter nor a word character is dropped silently (C118_rest_lost_refuted); a tab as only delimiter gives one field (C118_tab_delimiter_refuted); -Inf is read as plus infinity (C118_minus_inf_refuted); quotes do not protect delimiters, a letter does not delimit, and a parser with columns skips what another parser was given last (C118_delimiters_refuted). The behaviour of pyparsing is taken from its documentation; field 0 or negative and texts beyond ASCII are not modelled; the value of a number is its text (float and int of Python are not modelled)."
  },
  {
   "property": "C119",
   "status": "partial",
   "theorems": [
    "C119_normalise",
    "C119_no_axes_refuted",
    "C119_items",
    "C119_forward",
    "C119_reverse",
    "C119_one_mode",
    "C119_broadcast_refuted",
    "C119_right",
    "C119_alloc",
    "C119_keys",
    "C119_cache_refuted"
   ],
   "note": "A wrong shape is refused in at least one of the two modes (C119_one_mode; exact conditions in C119_forward and C119_reverse), not in both: forward, a block of one row is added to all entries of the unknown (C119_broadcast_refuted). An array without axes fails with IndexError (C119_no_axes_refuted). The allocated Jacobian is cached and never renewed, so after a setup with other sizes its shapes are wrong (C119_cache_refuted). Finite differences inside _sys_linearize are C26 and C27."
  },
  {
   "property": "C12",
   "status": "proved",
   "theorems": [
    "C12_call_accepted_iff_legal",
    "C12_query_reports_accepted",
    "C12_eq_ineq_partition",
    "C12_linear_nonlinear_partition"
   ],
   "note": "For every sequence of add_constraint calls. Single process."
  },
  {
   "property": "C120",
   "status": "partial",
   "theorems": [
    "C120_rows",
    "C120_once",
    "C120_values",
    "C120_systems",
    "C120_subsystem_refuted",
    "C120_bottom_refuted"
   ],
   "note": "Proved for systems that contain the sources of all their params, as the root does. A system with a source outside of it raises KeyError although any system is accepted (C120_subsystem_refuted), and the row without source is not the last if a source starts with a capital A to M (C120_bottom_refuted). Formatting, json and the html template are not modelled."
  },
  {
   "property": "C121",
   "status": "partial",
   "theorems": [
    "C121_header",
    "C121_open",
    "C121_other",
    "C121_no_h5py_refuted",
    "C121_metadata_refuted"
   ],
   "note": "Proved with h5py installed and with the metadata in _parameters and _unknowns. The documented attributes parameters and unknowns are None for every reader (C121_metadata_refuted), and without h5py every path that is not a SQLite file gives RuntimeError (C121_no_h5py_refuted). The libraries are arbitrary functions of the bytes; the error of SQLite is assumed not to be an IOError."
  },
  {
   "property": "C122",
   "status": "partial",
   "theorems": [
    "C122_listed",
    "C122_names",
    "C122_readable",
    "C122_total",
    "C122_others",
    "C122_stack",
    "C122_remote_refuted"
   ],
   "note": "Proved for vectors whose numbers are arrays, which is always so without MPI. A remote param holds its initial value, and if that is a float the error becomes a TypeError (C122_remote_refuted). C122_readable is for names without quotes."
  },
  {
   "property": "C123",
   "status": "partial",
   "theorems": [
    "C123_get",
    "C123_get_real",
    "C123_set",
    "C123_set_real",
    "C123_index",
    "C123_index_refuted"
   ],
   "note": "Proved for getting and setting. Filling by index works outside of a complex step (C123_index) and is lost in one, for every variable (C123_index_refuted). Exact arithmetic; by-object and remote variables, and casts from complex to real by numpy, are not modelled."
  },
  {
   "property": "C124",
   "status": "proved",
   "theorems": [
    "C124_list",
    "C124_once",
    "C124_find",
    "C124_missing",
    "C124_pathnames"
   ],
   "note": "For trees as Group.add makes them: names without dots that differ within a group, components without subsystems. All systems are local."
  },
  {
   "property": "C125",
   "status": "partial",
   "theorems": [
    "C125_groups",
    "C125_components",
    "C125_errors",
    "C125_solver",
    "C125_newton_refuted"
   ],
   "note": "Proved for groups and for solvers in which the solvers of a Newton solver have no further solvers in them. Newton.print_all_convergence is defined twice; the second definition sets only iprint of its linear solver and line search, so a preconditioner in the linear solver keeps its level (C125_newton_refuted). Solvers shared between groups are not modelled."
  },
  {
   "property": "C126",
   "status": "partial",
   "theorems": [
    "C126_keys",
    "C126_flat",
    "C126_nested_refuted"
   ],
   "note": "True for groups whose subgroups are empty (C126_flat). In general the dictionary of a group has the names of all systems below it (C126_keys), so it does not show the hierarchy as soon as a subgroup has a subsystem of another name than those of the group (C126_nested_refuted). json.dumps is not modelled."
  },
  {
   "property": "C127",
   "status": "partial",
   "theorems": [
    "C127_tree",
    "C127_order",
    "C127_component",
    "C127_arrows"
   ],
   "note": "All of the statement is proved, given that networkx returns the strongly connected components, that nodes in loops are components, and names without spaces. Missing: the nodes of variables, the connections added for the html file, and runs under MPI."
  },
  {
   "property": "C128",
   "status": "partial",
   "theorems": [
    "C128_level",
    "C128_accepts",
    "C128_bounds",
    "C128_again",
    "C128_refit_refuted",
    "C128_replicated_refuted",
    "C128_start_refuted",
    "C128_columns_refuted"
   ],
   "note": "The accepted arguments are characterised exactly (C128_level, C128_accepts), and when the optimizer finds its bounds (C128_bounds). A second fit is proved to change nothing under a condition (C128_again) and refuted without it; that a number stands for all features is false for bounds without theta0. Not modelled: arrays with several rows, names of regressions, changes made before an error."
  },
  {
   "property": "C129",
   "status": "partial",
   "theorems": [
    "C129_map",
    "C129_chain",
    "C129_subproblem",
    "C129_subproblem_refuted"
   ],
   "note": "Proved for components and groups at any depth and for SubProblems of the top group. Refuted for a SubProblem in any group below the top: its view has no unknowns (unless the first name of its path is its own name, which is not covered)."
  },
  {
   "property": "C13",
   "status": "partial",
   "theorems": [
    "C13_scalar_scalers_partial",
    "C13_array_scaler_fwd_refuted",
    "C13_array_scaler_rev_refuted",
    "C13_array_scaler_fd_refuted",
    "C13_double_role_refuted"
   ],
   "note": "Proved for scalar scalers in all three modes; refuted for array scalers in each mode and for a variable that is both objective and constraint."
  },
  {
   "property": "C130",
   "status": "partial",
   "theorems": [
    "C130_count",
    "C130_kinds",
    "C130_depth",
    "C130_depth_refuted",
    "C130_nodes",
    "C130_edges",
    "C130_lines"
   ],
   "note": "Proved for the counts, the plot, and the depth at the root. Refuted for the depth of any group below the root (too large by the number of names in its path) and of a group without subsystems (ValueError). total_var_size and the memory figures of stats are not modelled."
  },
  {
   "property": "C131",
   "status": "proved",
   "theorems": [
    "C131_exact",
    "C131_missing"
   ],
   "note": "For finite graphs whose successors and predecessors agree. The generator is run to its end; a caller that changes the graph between two values is not covered."
  },
  {
   "property": "C132",
   "status": "partial",
   "theorems": [
    "C132_build",
    "C132_no_path_refuted",
    "C132_same_name_refuted"
   ],
   "note": "Proved for groups and cards of any sequence of calls, with the exact condition for success. Refuted for the default path of add_container and for the names written of variables in different subtrees."
  },
  {
   "property": "C133",
   "status": "partial",
   "theorems": [
    "C133_import",
    "C133_base_units",
    "C133_required",
    "C133_refused_refuted",
    "C133_shipped",
    "C133_shipped_units",
    "C133_shipped_convert",
    "C133_prefix_refuted",
    "C133_constants_refuted"
   ],
   "note": "Proved for files with distinct types and names of base units. Refuted: a refused import leaves the base units of the refused file instead of the former library; dag means another mass once ag was looked up; sigma*K**4 is no power per area, Ken no energy, V0 ten times too small. The shipped file is transcribed in UlibData.v; reading of the file by ConfigParser is not modelled."
  },
  {
   "property": "C134",
   "status": "partial",
   "theorems": [
    "C134_agree",
    "C134_objectives",
    "C134_scale",
    "C134_index_refuted",
    "C134_array_refuted"
   ],
   "note": "Proved: same dictionary on all processes, and an error of scaling is raised on all. Refuted for every such call on two or more processes: after an index out of range the owner has raised and all others are waiting for its broadcast. get_objectives ignores return_type. Assumes the same variables in the same order on all processes; MPI itself is modelled as matching broadcasts."
  },
  {
   "property": "C135",
   "status": "partial",
   "theorems": [
    "C135_together",
    "C135_waiting_refuted",
    "C135_alone",
    "C135_any"
   ],
   "note": "Proved for statements that end, well or not, on every process. Refuted otherwise: with one process failed and one waiting in a collective operation of the statements nobody raises. Operations match by kind; texts of tracebacks are assumed not empty; point to point messages are not modelled."
  },
  {
   "property": "C136",
   "status": "partial",
   "theorems": [
    "C136_status",
    "C136_signal",
    "C136_constant_refuted",
    "C136_unnamed_refuted",
    "C136_colons_refuted"
   ],
   "note": "Proved: success, positive status, and signals whose number no other constant starting with SIG has. Refuted: with such a constant first (SIG_UNBLOCK before SIGHUP in Python 3.12 on Linux) that is named; unnamed signals, numbers from NSIG on, and win32 give no message; CalledProcessError shows ': : '."
  },
  {
   "property": "C137",
   "status": "partial",
   "theorems": [
    "C137_lines",
    "C137_shows_tree",
    "C137_verbose",
    "C137_verbose_refuted"
   ],
   "note": "Proved: every system has its line at its level, and trees with the same dump have the same classes, names and structure (classes without blanks, names without quotes). Refuted for verbose: any tree with a group in which an unknown feeds two params raises TypeError; otherwise verbose does not raise. Texts of the verbose lines, sizes and dvecs are not modelled."
  },
  {
   "property": "C138",
   "status": "partial",
   "theorems": [
    "C138_table",
    "C138_aligned",
    "C138_remote_refuted"
   ],
   "note": "Proved for vectors without remote variables (rows in order, columns aligned; all rows of one length if none is passed by object). Refuted: with a remote variable dump raises RuntimeError and writes nothing. A value whose text has several lines counts as one text."
  },
  {
   "property": "C139",
   "status": "partial",
   "theorems": [
    "C139_box",
    "C139_texts",
    "C139_mixed_refuted",
    "C139_matrix",
    "C139_end_refuted"
   ],
   "note": "Proved for boxes inside the file whose rows are all numbers (array and matrix) or all have a text (array). Refuted: one row with a text makes every number of the array a text; a matrix has rows of zeros for lines beyond the end of the file, without an error. Parsing is an argument; texts are those of Python 3 (in Python 2 unicode lines are not of type np.str_)."
  },
  {
   "property": "C14",
   "status": "partial",
   "theorems": [
    "C14_values_satisfy_declaration_partial",
    "C14_nan_refuted",
    "C14_valid_assignment_accepted",
    "C14_rejected_unchanged",
    "C14_locked_option_partial",
    "C14_locked_option_refuted"
   ],
   "note": "Invariant over all histories, up to NaN which passes every bound check (refuted); rejected operations change nothing; locked options are unlocked by the construction of any other dictionary (refuted), otherwise they keep their value."
  },
  {
   "property": "C140",
   "status": "partial",
   "theorems": [
    "C140_line",
    "C140_message",
    "C140_nested",
    "C140_zero_refuted"
   ],
   "note": "Proved for every system, with or without a message, when the norm of the change is not given or not zero. Refuted: a change of exactly zero is tested for truth and left out. That names of systems have no dot and are not empty is a hypothesis."
  },
  {
   "property": "C141",
   "status": "partial",
   "theorems": [
    "C141_all",
    "C141_only",
    "C141_shared_refuted",
    "C141_retry_refuted",
    "C141_inner_refuted"
   ],
   "note": "Proved for the problem, driver, systems, solvers of groups and their managers when no object is at two places (at least one wrapper in any case). Refuted: a solver that two groups share is wrapped twice; solvers held by other solvers (preconditioners, line searches) are not wrapped; setup marks itself as done before it opens the file and checks the type of the top object, so after a failure it can not be repeated."
  },
  {
   "property": "C15",
   "status": "partial",
   "theorems": [
    "C15_alias_partial",
    "C15_get_refuted",
    "C15_deriv_alias_refuted",
    "C15_legacy_force_fd",
    "C15_legacy_read_refuted"
   ],
   "note": "Indexing, assignment and membership proved for plain dictionaries; get() raises KeyError for every deprecated name (refuted); in derivative options the deprecated name does not update the step size (refuted)."
  },
  {
   "property": "C16",
   "status": "proved",
   "theorems": [
    "C16_key_determines_coordinate",
    "C16_key_determines_coordinate_gen"
   ],
   "note": ""
  },
  {
   "property": "C17",
   "status": "partial",
   "theorems": [
    "C17_selected_partial",
    "C17_key_exact",
    "C17_pathname",
    "C17_driver_key",
    "C17_nested_solver_refuted",
    "C17_wrong_group_refuted"
   ],
   "note": "False as stated: solvers other than RunOnce put the pathname in the coordinate, so at depth two or more the recorder looks under a wrong key (KeyError, or the selection of another group). Proved for all other groups, with the exact condition."
  },
  {
   "property": "C18",
   "status": "partial",
   "theorems": [
    "C18_by_value_partial",
    "C18_array_shows_current",
    "C18_array_refuted"
   ],
   "note": "False for array variables, whose views are stored: every recorded iteration shows the current value. Proved for values read by copy."
  },
  {
   "property": "C19",
   "status": "partial",
   "theorems": [
    "C19_sqlite_keys",
    "C19_sqlite_case_partial",
    "C19_sqlite_by_index",
    "C19_sqlite_derivs_lost",
    "C19_derivs_refuted",
    "C19_hdf5_case_partial",
    "C19_hdf5_records",
    "C19_hdf5_success_refuted"
   ],
   "note": "SQLite: proved except derivatives (case.derivs is always None). HDF5: values proved; success flag, message, time stamp and derivatives are not read back."
  },
  {
   "property": "C20",
   "status": "proved",
   "theorems": [
    "C20_covers",
    "C20_no_overlap",
    "C20_even",
    "C20_consecutive",
    "C20_total"
   ],
   "note": ""
  },
  {
   "property": "C21",
   "status": "partial",
   "theorems": [
    "C21_forward_partial",
    "C21_empty_refuted"
   ],
   "note": "Proved for all nonempty index lists in range, through slicing, sorting and merging; a connection with no entries makes setup raise IndexError (refuted). Serial implementation."
  },
  {
   "property": "C22",
   "status": "proved",
   "theorems": [
    "C22_adjoint",
    "C22_accumulates"
   ],
   "note": "Over every commutative ring, nonempty index lists in range (empty ones are rejected, see C21), repeated source indices included. Serial implementation."
  },
  {
   "property": "C23",
   "status": "proved",
   "theorems": [
    "C23_separate_cells",
    "C23_one_owner",
    "C23_inside",
    "C23_declaration_order",
    "C23_range_size"
   ],
   "note": "Histories of any length; numeric, pass-by-object and remote variables; relevance filtering. Source vectors (no unit conversion), one process, no complex step."
  },
  {
   "property": "C24",
   "status": "proved",
   "theorems": [
    "C24_views_alias",
    "C24_tree_views",
    "C24_view_vec",
    "C24_vec_write"
   ],
   "note": "Chains of views of any depth with distinct names in each view; views of consecutive runs of variables always exist. Source vectors, one process."
  },
  {
   "property": "C25",
   "status": "partial",
   "theorems": [
    "C25_step_partial",
    "C25_defined",
    "C25_stuck_refuted",
    "C25_ignored_refuted",
    "C25_two_dim_error",
    "C25_outside_returns"
   ],
   "note": "Bounds are always respected for variables that are looked at, and the step is the largest except for an entry sitting on a bound and pointing inside, which gets step 0 (refuted). Variables whose metadata merely contains the key remote or pass_by_obj are skipped (refuted); two-dimensional bounded variables raise ValueError. Exact rationals with infinities and nan."
  },
  {
   "property": "C26",
   "status": "partial",
   "theorems": [
    "C26_fd_exact",
    "C26_block_shape",
    "C26_component_exact",
    "C26_component_restored",
    "C26_group_exact",
    "C26_inputs_restored_partial",
    "C26_group_params_refuted",
    "C26_float_refuted",
    "C26_identity_partial",
    "C26_identity_refuted"
   ],
   "note": "Over every field with 1+1<>0: exact for polynomials of degree 1 (forward, backward) and 2 (central), any number of parameters, outputs and index selections; a component gets all its vectors back. Refuted: after total derivatives of a group the parameters keep the values of the last perturbed run; in binary64 a parameter 1.0 comes back as 0.9999999999999999; an unknown that is itself the stepped variable gets a 1x1 block when no indices were given."
  },
  {
   "property": "C27",
   "status": "partial",
   "theorems": [
    "C27_columns_once",
    "C27_columns_only",
    "C27_ids",
    "C27_parallel_is_serial_partial",
    "C27_identity_refuted"
   ],
   "note": "For every function and any number of processes at least num_par_fds; all blocks of computed unknowns. Refuted for unknowns which are themselves stepped variables: their identity columns are not exchanged."
  },
  {
   "property": "C28",
   "status": "partial",
   "theorems": [
    "C28_adjoint",
    "C28_product",
    "C28_product_adjoint",
    "C28_one_row_refuted",
    "C28_no_params_refuted",
    "C28_indep_refuted",
    "C28_one_row_is_repeated"
   ],
   "note": "Over every commutative ring, for trees of components, IndepVarComps, finite differenced groups and groups of any depth, Jacobians of the declared shapes, unit conversions and resid_scalers. Fails for blocks of one row (forward accepts, reverse raises), and an IndepVarComp adds to a du that was not zeroed; Jacobians of implicit components without parameters are ignored."
  },
  {
   "property": "C29",
   "status": "partial",
   "theorems": [
    "C29_forward",
    "C29_reverse_partial",
    "C29_frame",
    "C29_small_rhs",
    "C29_scaled_refuted"
   ],
   "note": "Forward: all feed-forward trees, exact inner solvers, any commutative ring. Reverse: the same without resid_scaler; refuted with one (the adjoint solution is scaled in place). Right hand sides under the 1e-15 threshold give zero."
  },
  {
   "property": "C30",
   "status": "partial",
   "theorems": [
    "mvp_operator",
    "assemble_operator_partial",
    "assemble_cached",
    "assemble_units_refuted",
    "assemble_scaler_refuted",
    "assemble_state_refuted",
    "assemble_key_refuted",
    "assemble_indices_refuted",
    "assemble_two_params_refuted",
    "assemble_self_refuted",
    "assemble_fd_group_refuted",
    "assemble_outside_refuted"
   ],
   "note": "Proved for every group: the 'MVP' matrix is the group's linear operator in both modes. Proved for groups without unit conversions, resid_scalers, source indices, finite differenced subgroups, doubly used or self connected sources, with a key for every state: the 'assemble' matrix is the same; its index cache is transparent. False without each of these conditions (refuted theorems): 'assemble' leaves out unit conversions and resid_scalers, broadcasts over source indices, overwrites instead of adding, misses finite differenced subgroups, and fails with KeyError in a subgroup with an outside source."
  },
  {
   "property": "C31",
   "status": "partial",
   "theorems": [
    "C31_exact_partial",
    "C31_float_fixed_point",
    "C31_by_object_refuted",
    "C31_rounding_refuted",
    "C31_raise_refuted"
   ],
   "note": "Holds over every commutative ring for any component function; in binary64 it holds bit for bit at fixed points. Refuted in binary64 in general (1.0 to 1e16 comes back as 0.0, infinity as NaN), for outputs passed by object and when the component raises."
  },
  {
   "property": "C32",
   "status": "partial",
   "theorems": [
    "C32_stops_and_reports_partial",
    "C32_history",
    "C32_limit_partial",
    "C32_nan_is_failure",
    "C32_aitken_range",
    "C32_maxiter_zero_refuted",
    "C32_maxiter_one_refuted",
    "C32_last_iteration_refuted",
    "C32_infinite_refuted"
   ],
   "note": "Full behaviour for maxiter >= 2 and finite norms, for any system; refuted for maxiter 0 (runs once), maxiter 1 (never reports), convergence in the last iteration (reported as failure), infinite norms (reported as converged)."
  },
  {
   "property": "C33",
   "status": "partial",
   "theorems": [
    "C33_limit",
    "C33_stops_and_reports_partial",
    "C33_err_on_maxiter",
    "C33_bounds_partial",
    "C33_options_partial",
    "C33_options_refuted",
    "C33_last_iteration_refuted",
    "C33_infinite_refuted",
    "C33_stuck_refuted",
    "C33_subsystems_refuted",
    "C33_negative_alpha_refuted",
    "C33_outside_start_refuted"
   ],
   "note": "Iteration limits for every system; stopping rule and reporting for finite norms; bounds respected at every point when subsystems are not solved; options restored when no exception passes. Refuted: exception leaves options changed, convergence in the last iteration, infinite norms, entries on a bound, solve_subsystems, negative alpha, start outside."
  },
  {
   "property": "C34",
   "status": "proved",
   "theorems": [
    "set_order_permutes",
    "set_order_keeps_local",
    "local_order_refuted"
   ],
   "note": "The list of local subsystems, built during setup, keeps the order the systems were added in (local_order_refuted)."
  },
  {
   "property": "C35",
   "status": "proved",
   "theorems": [
    "auto_order_follows_data",
    "auto_order_acyclic",
    "auto_order_accepted",
    "specifications_met"
   ],
   "note": "networkx's strongly connected components and topological sort are arguments with specifications; functions meeting them are exhibited."
  },
  {
   "property": "C36",
   "status": "proved",
   "theorems": [
    "name_setup_fails_iff",
    "names_resolve",
    "unknown_names_distinct",
    "patterns_match"
   ],
   "note": "Promotion patterns are predicates on dotted names; metadata, MPI and promotes given as a string are not modelled."
  },
  {
   "property": "C37",
   "status": "partial",
   "theorems": [
    "connection_errors",
    "connections_sound",
    "connections_honoured",
    "unconnected_reported",
    "dfs_tree_spec_met",
    "third_input_refuted",
    "indices_kept_refuted",
    "upstream_indices_refuted",
    "input_cycle_refuted",
    "upstream_conflict_refuted"
   ],
   "note": "Proved: at most one source, every chain from an unknown honoured or reported, bad names reported, inputs nothing is connected to get a source or are reported. False as stated: inputs in a cycle, a third input sharing a name, and conflicts met upstream are neither connected nor reported; src_indices can be lost."
  },
  {
   "property": "C38",
   "status": "partial",
   "theorems": [
    "mode_selected",
    "mode_unknown",
    "mode_indices_refuted"
   ],
   "note": "Sizes are those of whole variables: indices of a variable of interest are ignored (mode_indices_refuted). The choice itself is characterised for all inputs."
  },
  {
   "property": "C39",
   "status": "partial",
   "theorems": [
    "systems_relevant_to_output",
    "systems_relevant_to_input",
    "vars_relevant_to_output",
    "vars_relevant_to_input",
    "relevant_only_on_paths",
    "relevant_to_none",
    "dfs_spec_met",
    "relevant_to_input_refuted",
    "relevant_to_other",
    "relevant_state_refuted"
   ],
   "note": "False for a variable used as both: an input listed as output after the other output loses what lies between (relevant_to_input_refuted). False for an unconnected state of a component on the path (relevant_state_refuted). Proved for every output, and for every input not listed as an output later, for systems, variables of interest and ends of connections."
  },
  {
   "property": "C40",
   "status": "proved",
   "theorems": [
    "requirements_consistent",
    "requirements_cover",
    "driver_requirements",
    "requirements_exact"
   ],
   "note": "Groups, parallel groups, parallel FD groups, components with any consistent pair; SubProblem is not modelled."
  },
  {
   "property": "C41",
   "status": "partial",
   "theorems": [
    "C41_reported",
    "C41_enough_partial",
    "C41_short_partial",
    "C41_short_unlimited",
    "C41_too_small",
    "C41_colors",
    "C41_minimum_refuted",
    "C41_hang_refuted",
    "C41_maximum_refuted",
    "C41_unassigned_refuted",
    "C41_empty_refuted"
   ],
   "note": "Complete behaviour of both allocation algorithms for all requirement lists: exact termination condition, even spread, minima in the sharing branch. Refuted: minima ignored by the round robin, endless loop in the sharing branch, shared buckets exceed a maximum, idle processes, empty group."
  },
  {
   "property": "C42",
   "status": "partial",
   "theorems": [
    "par_assign",
    "par_assign_lhc",
    "par_done",
    "par_failed",
    "par_recorded",
    "par_short_refuted",
    "par_fatal_refuted",
    "par_recorder_refuted"
   ],
   "note": "Every case is assigned to exactly one doe (both drivers). Absence of deadlock is false in general: the three _refuted theorems show, for all sizes and all schedules, that the run always hangs when a doe with more than one process is one case short, when a fatal failure happens in a round in which a doe has no case, and with only parallel recorders when a doe is one case short. In all remaining cases par_done / par_failed prove that all processes return after running their cases, or all raise, under every schedule. Collective operations inside the model while a case runs are not modelled."
  },
  {
   "property": "C43",
   "status": "partial",
   "theorems": [
    "lb_run",
    "lb_all_recorded",
    "lb_same_case",
    "lb_ranks",
    "lb_fatal_refuted"
   ],
   "note": "For all cases, group layouts and completion orders the load balanced run ends; every case dealt out is run by all processes of exactly one group, and recorded exactly once with its own values unless it fails fatally. With a fatal failure the remaining cases are not run and the failed one is not recorded (lb_fatal_refuted). Communication inside a group while it runs a case is not modelled."
  },
  {
   "property": "C44",
   "status": "partial",
   "theorems": [
    "mp_run",
    "mp_all_recorded",
    "mp_fatal_hang_refuted",
    "mp_crash_hang_refuted"
   ],
   "note": "Under every schedule of the workers and queues the run ends, every case handed out is run once and recorded once unless it failed fatally, if no worker dies and load_balance is True or no case fails fatally. False as stated: with load_balance=False a fatal case can make the main process wait for ever, and so does an exception while the design variables of a case are set."
  },
  {
   "property": "C45",
   "status": "partial",
   "theorems": [
    "concurrent_eval_all",
    "concurrent_eval_results",
    "concurrent_eval_ends",
    "serial_eval_all",
    "one_worker_refuted",
    "no_worker_refuted",
    "none_case_refuted",
    "order_refuted"
   ],
   "note": "Under every schedule concurrent_eval_lb evaluates every case exactly once and returns all results, with at least two workers or at least as many workers as cases, and it always ends. False as stated for one worker (only the first case is evaluated), for no worker, and for a case with args None (the master hangs)."
  },
  {
   "property": "C46",
   "status": "proved",
   "theorems": [
    "factorial_runs",
    "factorial_covers",
    "factorial_only_levels",
    "factorial_once",
    "factorial_within_bounds",
    "factorial_bounds_attained",
    "levels_even"
   ],
   "note": "All level counts, variables and scalar or array bounds (arrays at least as long as the variable; shorter ones raise IndexError). Numbers are rationals."
  },
  {
   "property": "C47",
   "status": "partial",
   "theorems": [
    "random_is_latin",
    "perturb_latin_partial",
    "perturb_once_latin",
    "perturb_latin_refuted",
    "single_sample_never_ends",
    "optimized_is_latin_partial",
    "optimized_is_latin_calm_partial",
    "optimized_is_latin_refuted",
    "search_not_worse",
    "is_latin_hypercube_correct",
    "samples_in_buckets",
    "one_sample_per_bucket",
    "buckets_cover"
   ],
   "note": "Random designs are Latin and every bucket gets one sample. Optimized designs are Latin for at most two generations or two dimensions, or when no cell is exchanged twice; otherwise refuted: perturb reads the old design for every exchange, so two exchanges in one column repeat a level. With one sample (the default) the optimized driver never ends."
  },
  {
   "property": "C48",
   "status": "partial",
   "theorems": [
    "scipy_constraints_partial",
    "scipy_declared_partial",
    "scipy_gradient",
    "scipy_dropped_refuted",
    "scipy_negative_scaler_refuted"
   ],
   "note": "For COBYLA and SLSQP with positive scalers, the constraint functions are all non-negative (zero for equalities) exactly when every declared constraint entry is satisfied, and each gradient is the derivative of its function. The full statement is false: every other optimizer silently drops the constraints, and a negative scaler reverses them. The functions are evaluated at the values of the last objective evaluation: _confunc ignores its argument."
  },
  {
   "property": "C49",
   "status": "partial",
   "theorems": [
    "active_screen_partial",
    "active_fwd",
    "active_one_bound",
    "active_two_sided_refuted",
    "active_on_bound_refuted",
    "active_equality_refuted",
    "active_group_refuted",
    "active_int_refuted",
    "active_array_equality_refuted"
   ],
   "note": "Holds for constraints with one bound (or equal bounds) that are alone in their parallel derivative group. False in general: with two bounds more than two tolerances apart every entry is always skipped, even on or beyond a bound; in a parallel derivative group the last member decides for all; an integer tolerance is a swallowed TypeError that leaves no gradient. Violated equality constraints are the ones whose gradient is dropped."
  },
  {
   "property": "C50",
   "status": "partial",
   "theorems": [
    "meta_train_partial",
    "meta_history_partial",
    "meta_layout",
    "meta_jac",
    "meta_two_arrays_refuted",
    "meta_layout_refuted",
    "meta_failed_refuted",
    "meta_stale"
   ],
   "note": "Holds, for every history of trainings, when every parameter but the last has float training values. False otherwise: the column index is not advanced after a parameter whose training values are arrays or integers, so its columns are overwritten by the next parameter and the last columns stay zero. A failed training leaves half-written rows that a later warm restart trains on."
  },
  {
   "property": "C51",
   "status": "proved",
   "theorems": [
    "rsm_gradient",
    "rsm_interpolates"
   ],
   "note": "For every number of inputs and outputs over any commutative ring. numpy.dual.lstsq is an argument; rounding is not modelled."
  },
  {
   "property": "C52",
   "status": "partial",
   "theorems": [
    "expr_names",
    "expr_distinct_partial",
    "expr_refers_partial",
    "expr_collision_refuted",
    "expr_order_refuted",
    "expr_literal_refuted"
   ],
   "note": "For every order of the sets: the search for replacements ends, a replacement has no colon and does not occur in the expressions; when no name with colons is part of a longer word and the replacements are different (in particular when names with colons have no digits) every word of a compiled expression refers to the variable it named. False in general: 'a:b0c' and 'a0b:c' get the same replacement, a name contained in another one is replaced inside it for some set orders, and the exponent of a number is taken for a variable."
  },
  {
   "property": "C53",
   "status": "proved",
   "theorems": [
    "lsys_fwd",
    "lsys_rev",
    "lsys_solve",
    "lsys_stale_refuted"
   ],
   "note": "Over every commutative ring (for the reverse mode one where a + a = 0 only for a = 0): apply_linear adds the derivative of A x - b in fwd mode and its transpose in rev mode, for every subset of variables that take part. solve_linear solves with the matrix of the last solve_nonlinear, which is another matrix when A has changed since (lsys_stale_refuted)."
  },
  {
   "property": "C54",
   "status": "partial",
   "theorems": [
    "layout_unique",
    "transfer_var_only_field",
    "transfer_var_fields",
    "transfer_var_missing_field",
    "transfer_var_row_out_of_range",
    "transfer_var_before_start_refuted",
    "clearline_only_line"
   ],
   "note": "Proved for every template, delimiter set, row at or after the file start and existing field. A field that does not exist is silently ignored; a row before the first line wraps to the end of the file (refuted). Number formatting is an argument."
  },
  {
   "property": "C55",
   "status": "partial",
   "theorems": [
    "fill_in_order",
    "transfer_array_fills_partial",
    "transfer_array_too_small_refuted",
    "transfer_array_adds_line_refuted",
    "transfer_array_never_too_small",
    "transfer_array_no_rows"
   ],
   "note": "The filling is exact for all arrays and ranges; the ValueError for too small arrays is dead code and an extra newline is always appended (both refuted)."
  },
  {
   "property": "C56",
   "status": "partial",
   "theorems": [
    "mark_anchor_forward",
    "mark_anchor_backward",
    "mark_anchor_forward_anchored_partial",
    "mark_anchor_backward_anchored_partial",
    "nth_hit_unique",
    "mark_anchor_zero",
    "anchored_line_skipped_refuted",
    "backward_ignores_anchor_refuted"
   ],
   "note": "Exact without an anchor; from an anchor the anchored line (forward) or the last line of the file (backward) never counts (refuted)."
  },
  {
   "property": "C57",
   "status": "partial",
   "theorems": [
    "keyvar_forward",
    "keyvar_forward_missing",
    "keyvar_backward_partial",
    "keyvar_backward_refuted",
    "keyvar_missing_refuted",
    "keyvar_zero"
   ],
   "note": "Forward search is exact; backward search is right only when the anchor is in the first line (refuted otherwise). Line parsing by pyparsing is an argument."
  },
  {
   "property": "C58",
   "status": "proved",
   "theorems": [
    "wait_bounded",
    "wait_bounded_late_sleeps",
    "endless_is_stopped",
    "zero_timeout_waits",
    "zero_timeout_finds",
    "default_delay"
   ],
   "note": "Clock as rational times of the polls, exact and with late sleeps. Stopping means terminate() is called; whether the command obeys the signal is outside the model."
  },
  {
   "property": "C59",
   "status": "partial",
   "theorems": [
    "external_success",
    "external_return_code",
    "external_return_code_none",
    "external_error_class_partial",
    "external_error_class_fixed",
    "external_error_class_refuted",
    "setup_check_sound"
   ],
   "note": "Success and return_code hold in full. The error class follows fail_hard except for an empty command or missing executable (ValueError) and timeouts (always AnalysisError)."
  },
  {
   "property": "C60",
   "status": "partial",
   "theorems": [
    "C60_component_exact",
    "C60_resids_zeroed",
    "C60_execcomp_exact",
    "check_cs_units_refuted"
   ],
   "note": "Over every field: degree at most 2, any nonzero step, any number of variables; parameters and unknowns unchanged (the residual vector is overwritten with zeros, also proved). ExecComp expressions with +, *, -. Refuted for a parameter whose units are converted: it is stepped at the stored value, before conversion."
  },
  {
   "property": "C61",
   "status": "proved",
   "theorems": [
    "C61_split_join",
    "C61_join_split",
    "C61_text_injective",
    "C61_common_ancestor",
    "C61_common_exists",
    "C61_relative_name",
    "C61_relative_self",
    "C61_nearest_child",
    "C61_outside_refuted"
   ],
   "note": "All paths of non-empty dotless names of any depth, root included. The functions do not check that the child is inside the parent (C61_outside_refuted shows what they return then)."
  },
  {
   "property": "C62",
   "status": "partial",
   "theorems": [
    "direct_mode_partial",
    "direct_sessions",
    "direct_mode_refuted",
    "direct_two_solvers_refuted",
    "direct_method_refuted"
   ],
   "note": "For every history in which a change of mode, solver or solution method comes with a linearization, every solve gives the solution for its mode; this covers what Problem.calc_gradient and Newton.solve do. False without: a solve in the other mode gives the solution of the old mode, a second solver of the same system has no or an old factorization, and so has a solver whose solution method changes."
  },
  {
   "property": "C63",
   "status": "partial",
   "theorems": [
    "C63_last_point_partial",
    "C63_root_at_lower_bound_refuted"
   ],
   "note": "The state holds the point evaluated last, for every bracketing strategy; refuted for the root at the lower bracket end, where the algorithm evaluates the upper end last."
  },
  {
   "property": "C64",
   "status": "proved",
   "theorems": [
    "C64_step_size_follows_type"
   ],
   "note": "All assignment sequences before setup locks the options."
  },
  {
   "property": "C65",
   "status": "partial",
   "theorems": [
    "C65_forward_partial",
    "C65_reverse_partial",
    "C65_residual_partial",
    "C65_implicit_refuted",
    "C65_nested_refuted",
    "C65_residual_refuted"
   ],
   "note": "Fixed points are solutions for groups of explicit components (forward) and for all subsystems (reverse); refuted in forward mode for implicit components and nested groups, and the residual test is wrong for unpromoted names."
  },
  {
   "property": "C66",
   "status": "partial",
   "theorems": [
    "check_call_status",
    "check_call_timeout_refuted"
   ],
   "note": "Holds for commands that end; refuted for commands stopped at their timeout, whose return code None passes the test."
  },
  {
   "property": "C67",
   "status": "partial",
   "theorems": [
    "command_files_closed_partial",
    "command_files_closed_refuted"
   ],
   "note": "Holds when every stream file can be opened; refuted otherwise: files opened before the failing one stay open."
  },
  {
   "property": "C68",
   "status": "partial",
   "theorems": [
    "comments_removed_partial",
    "no_comments_keeps_file",
    "full_line_comments_only_refuted",
    "full_line_comments_blank_refuted"
   ],
   "note": "Holds when an end-of-line comment character is given, or none at all; with only a full-line comment character each line is cut to its first word (refuted)."
  },
  {
   "property": "C69",
   "status": "partial",
   "theorems": [
    "read_array_range_partial",
    "read_array_truncates_refuted",
    "read_array_needs_end"
   ],
   "note": "Exact when the addressed lines exist; missing rows and fields are left out silently (refuted). Parsing is an argument; the delimiter columns is C139."
  },
  {
   "property": "C70",
   "status": "partial",
   "theorems": [
    "read_2Darray_block_partial",
    "read_2Darray_short_rows_refuted"
   ],
   "note": "Exact when all fields exist; short and missing rows become zeros (refuted). Numeric fields only."
  },
  {
   "property": "C71",
   "status": "partial",
   "theorems": [
    "plain_delimiters_partial",
    "minus_delimiter_refuted",
    "minus_last_refuted"
   ],
   "note": "Exact for delimiters without minus sign, closing bracket and backslash; a minus sign forms a range (refuted)."
  },
  {
   "property": "C72",
   "status": "proved",
   "theorems": [
    "add_appends",
    "names_distinct",
    "valid_name_no_dot"
   ],
   "note": "The attributes of a group that are not subsystems are an arbitrary predicate."
  },
  {
   "property": "C73",
   "status": "partial",
   "theorems": [
    "gradient_array_entries_partial",
    "gradient_dict_entries_partial",
    "gradient_array_shared_refuted",
    "gradient_parallel_group_refuted",
    "gradient_part_of_group_refuted",
    "gradient_negative_index_refuted",
    "gradient_other_mode_refuted"
   ],
   "note": "Holds for requests whose variables have vectors, with non-negative indices and whole parallel groups under LinearGaussSeidel; the array additionally needs lists of names without common members. Each condition is shown to be needed: a name in both lists mixes up rows and columns, a parallel group with another solver gives wrong columns, part of a group is a KeyError, a negative index reads another variable, relevance reduction in the other mode is a KeyError."
  },
  {
   "property": "C74",
   "status": "partial",
   "theorems": [
    "modes_give_total_derivatives",
    "modes_give_total_derivatives_dict",
    "feed_forward_total_derivatives",
    "reduced_total_derivatives_partial",
    "gradient_array_shared_refuted"
   ],
   "note": "Both formats; variables with vectors of their own are covered if their vectors suffice (C86). The solver is exact, which is proved for one sweep of LinearGaussSeidel over a group without feedback (C29). The array format needs lists of names without common members, without which it is false (gradient_array_shared_refuted)."
  },
  {
   "property": "C75",
   "status": "partial",
   "theorems": [
    "transfer_2Darray_fills_partial",
    "transfer_2Darray_few_rows",
    "transfer_2Darray_truncates_refuted",
    "transfer_2Darray_too_small_refuted"
   ],
   "note": "Where lines and values exist, row i fills line i and nothing else changes; too few rows are an IndexError. Refuted: rows and entries that do not fit are dropped silently, missing ones leave the text of the template."
  },
  {
   "property": "C76",
   "status": "partial",
   "theorems": [
    "read_var_field",
    "read_var_missing",
    "read_var_no_line",
    "read_var_wraps_refuted"
   ],
   "note": "Holds for lines and fields counted from the start; a line before the start of the file or field zero is read from the end. The parsing of a line into fields (pyparsing) is an argument; the delimiter columns is in C118."
  },
  {
   "property": "C77",
   "status": "partial",
   "theorems": [
    "declared_size_partial",
    "declared_size_refuted",
    "completed_size",
    "completed_rows_refuted",
    "accepted_exactly",
    "compatible_connection_accepted",
    "accepted_connection_compatible_partial",
    "accepted_index_count_refuted",
    "accepted_key_refuted",
    "declared_by_shape"
   ],
   "note": "The accepted connections between vector variables are characterised exactly. Refuted: between variables of equal shape any number of indices is accepted; the key pass_by_obj on the source, even False, switches the shape check off; an int shape keyword that does not fit the value is stored; a target without shape reads indices as row numbers. FileRefs and MPI are not modelled."
  },
  {
   "property": "C78",
   "status": "partial",
   "theorems": [
    "delivery_partial",
    "accepted_can_be_delivered_partial",
    "source_vector_packed",
    "view_packed_in_order",
    "delivery_spill_refuted",
    "delivery_gap_refuted",
    "delivery_junk_refuted",
    "delivery_object_target_refuted"
   ],
   "note": "Holds for variables with at least one entry and as many indices as the target has. Refuted for accepted connections: too many indices overwrite the next parameter, indices on an object source shift the next parameter away from its data, an index outside the source behind a pass_by_obj key reads uninitialised memory, an object target of a vector source breaks setup. One process; the copying of objects is not modelled."
  },
  {
   "property": "C79",
   "status": "proved",
   "theorems": [
    "C79_one_run_solves",
    "C79_run_completes",
    "C79_inputs_kept",
    "C79_result_determined",
    "C79_run_again",
    "C79_solvers",
    "C79_gauss_seidel_one_sweep",
    "C79_order_needed"
   ],
   "note": "For trees whose parallel groups have independent children and whose solvers end with a sweep (RunOnce, NLGaussSeidel without Aitken). C79_order_needed: a connection against the order of execution is not satisfied after one run."
  },
  {
   "property": "C80",
   "status": "partial",
   "theorems": [
    "C80_marked_exactly",
    "C80_residuals_faithful",
    "C80_zero_means_solved",
    "C80_parallel_group_refuted",
    "C80_parallel_scaling_refuted"
   ],
   "note": "Proved for trees without ParallelGroup. Refuted with one: a connection between children of a ParallelGroup can leave the receiver unsolved with zero residuals, and a component directly below one gets unscaled residuals."
  },
  {
   "property": "C81",
   "status": "partial",
   "theorems": [
    "set_unknown",
    "set_input_partial",
    "set_input_aliases",
    "get_errors",
    "set_errors",
    "connected_not_set",
    "set_get_refuted",
    "set_connected_refuted",
    "set_shadowed_refuted"
   ],
   "note": "Unknowns: full. Unconnected inputs: read-back and exactness proved when every param has at most one incoming link and the name is not the absolute name of a root-owned param; refuted without these; an unconnected input keeps a reference to the caller's object. Unknowns passed by object and unit conversion on reading are not modelled."
  },
  {
   "property": "C82",
   "status": "partial",
   "theorems": [
    "weighted_exact_at_data",
    "weighted_within",
    "weighted_too_many",
    "linear_exact_at_data",
    "linear_exact_on_affine",
    "linear_outputs_refuted",
    "linear_flat_index",
    "rbf_exact_at_data"
   ],
   "note": "Exact arithmetic over an ordered field. False for the linear interpolant with several outputs when the plane of one is vertical (linear_outputs_refuted; IndexError when it is not the first, linear_flat_index); proved in all other cases. The radial basis result assumes the sparse solver solves the system. One prediction point at a time."
  },
  {
   "property": "C83",
   "status": "partial",
   "theorems": [
    "weighted_gradient_derivative",
    "weighted_gradient_duals",
    "weighted_gradient_at_data",
    "linear_gradient_slope",
    "linear_flat_gradient",
    "rbf_gradient_derivative",
    "rbf_gradient_duals",
    "kriging_gradient_derivative",
    "rbf_kernel_derivatives",
    "rbf_kernel_one_refuted",
    "rbf_kernel_sqrt_refuted"
   ],
   "note": "Derivatives as first order parts in dual numbers. False at training points of the weighted interpolant (0/0), for the kernel comp=1 with at most two inputs (sign) and comp=-3; proved for the others. The radial gradient treats neighbours at distance 0 as excluded."
  },
  {
   "property": "C84",
   "status": "partial",
   "theorems": [
    "check_reports_operator",
    "check_modes_agree",
    "check_reports_jacobian",
    "check_wrong_shape",
    "check_no_jacobian",
    "check_against_differences",
    "check_stale_refuted",
    "check_cs_units_refuted",
    "check_cs_scaled_refuted",
    "check_cs_no_units"
   ],
   "note": "Proved for the forward and reverse Jacobians, and against differences when the stored residuals are current. False for stale residuals (fd_jacobian never evaluates its base point), for complex steps of parameters with unit conversions (evaluated at the unconverted value) and with scaled residuals."
  },
  {
   "property": "C85",
   "status": "partial",
   "theorems": [
    "check_abs_errors",
    "check_abs_errors_fd",
    "check_rel_errors",
    "check_zero_difference",
    "check_stars",
    "check_pairs",
    "check_skips",
    "check_calls_own",
    "check_overrides_refuted",
    "check_overrides_hide",
    "check_compact_refuted",
    "check_selection",
    "check_selection_fails",
    "check_components"
   ],
   "note": "Errors, pairs and components are right. False: overrides meant for the check also replace the component's own settings, so both differences can be the same computation; in the compact table r(fwd-rev) holds fwd-check and the magnitudes of two differences are exchanged; relative errors are nan and unstarred where the difference is zero."
  },
  {
   "property": "C86",
   "status": "partial",
   "theorems": [
    "reduced_total_derivatives_partial",
    "reduced_sweep_total_derivatives",
    "reduced_keys",
    "reduced_matrix",
    "relevance_suffices_partial",
    "reduced_state_refuted",
    "reduced_other_unknown_refuted"
   ],
   "note": "Proved for exact solvers (and for LinearGaussSeidel on groups without feedback) when the kept variables suffice: nothing that a kept variable depends on, and that is reached, is missing. The variables relevance.py keeps suffice if the unknowns of a component that depend on each other are kept or dropped together and the variables asked for are of interest to the driver. False otherwise: an unconnected state of an implicit component is dropped, which gives wrong derivatives (reduced_state_refuted), and unknowns that are not of interest are returned as zeros (reduced_other_unknown_refuted)."
  },
  {
   "property": "C87",
   "status": "partial",
   "theorems": [
    "namelist_round_trip",
    "namelist_kept",
    "namelist_find_card",
    "namelist_continued_array",
    "namelist_underscore_refuted",
    "namelist_negative_exponent_refuted",
    "namelist_bool_array_refuted",
    "namelist_string_refuted",
    "namelist_comment_refuted",
    "namelist_title_refuted",
    "namelist_continued_refuted",
    "namelist_header_refuted",
    "namelist_several_cards",
    "namelist_several_refuted"
   ],
   "note": "Proved for names of letters and digits, strings of printable characters without quote, exclamation mark and backslash, integers, floats whose printed form has a point or is non-negative and which float() gives back, numeric arrays, and marked comments that do not end in a slash. False otherwise: the refutations give a deck for each condition. The pyparsing grammar is modelled as an ordered-choice parser that skips blanks; error positions and messages are not."
  },
  {
   "property": "C88",
   "status": "proved",
   "theorems": [
    "load_model_accounts",
    "load_model_needs_groups",
    "load_single_group",
    "namelist_restores",
    "namelist_one_element_refuted"
   ],
   "note": "All decks, rules and variables. namelist_restores is the write, read, load cycle for one group before setup; an array of one element is then loaded as a number (namelist_one_element_refuted)."
  },
  {
   "property": "C89",
   "status": "partial",
   "theorems": [
    "fd_array_quotients",
    "fd_dict_quotients",
    "fd_total_exact",
    "fd_agrees_with_solver",
    "fd_dict_twice_refuted",
    "fd_array_shared_refuted",
    "fd_unconnected_refuted",
    "fd_own_settings_refuted",
    "fd_array_empty_refuted"
   ],
   "note": "Proved for every request with names listed once, connected independent variables and indices for the unknowns that are independent variables. Refuted otherwise: names listed twice are scaled twice in the dictionary, shared names without indices give a 1.0 block, unconnected variables a KeyError, promoted targets lose their own settings, no independent variable a NameError. Exact field arithmetic; complex step, several processes and variables without entries are not modelled."
  },
  {
   "property": "C90",
   "status": "partial",
   "theorems": [
    "check_total_compares",
    "check_total_reduced",
    "check_total_linear",
    "check_total_variables",
    "check_total_silent_refuted",
    "check_total_fd_root_refuted",
    "check_total_repeated_refuted"
   ],
   "note": "Proved for runs with a user-derivative root whose variables have vectors and whose requests satisfy C74 and C89. Refuted otherwise: out_stream=None before the model was run raises AttributeError, a root group with deriv type fd compares differences with differences whatever the solver does, and a source with two targets is listed (and checked) twice. The printed text is not modelled."
  },
  {
   "property": "C91",
   "status": "partial",
   "theorems": [
    "gmres_refines",
    "equations_functional",
    "gmres_outcome",
    "gmres_total_derivatives",
    "direct_total_derivatives",
    "gs_preconditioner",
    "group_linear_solves",
    "gmres_unconverged_refuted",
    "gmres_not_ready_refuted"
   ],
   "note": "Proved for exact arithmetic: convergence means equality, the tolerance of gmres and LU rounding are not modelled. Refuted otherwise: a run which did not converge is returned like one which did unless err_on_maxiter is set, and a value left in a parameter connected from outside enters every product. gmres is any procedure of products and preconditioner applications; its own convergence is an assumption of the derivative theorem. One key of right hand sides, no relevance reduction."
  },
  {
   "property": "C92",
   "status": "partial",
   "theorems": [
    "kriging_reproduces",
    "kriging_error_at_samples",
    "kriging_gradient",
    "kriging_constant",
    "kriging_errors",
    "kriging_exact_refuted",
    "kriging_integers_refuted",
    "kriging_failed_training_refuted",
    "kriging_repeated_refuted",
    "kriging_variance_refuted",
    "kriging_points_refuted"
   ],
   "note": "Proved over the real numbers of the standard library (its axioms are listed in section 3), for any svd which decomposes the covariance matrix and any result of minimize. Refuted: samples are not reproduced exactly even without a nugget; points given as integers truncate the correlations and give the mean; a training which fails leaves new data with old coefficients, and later predictions raise no error; samples repeated with different values cannot be reproduced; with several outputs the variance mixes them and may be negative (error reported as zero); with several points the errors form a points-by-points matrix or do not fit, and FloatKrigingSurrogate returns the first point only. Rounding and the likelihood are not modelled."
  },
  {
   "property": "C93",
   "status": "partial",
   "theorems": [
    "inputs_agree",
    "inputs_reported",
    "nan_reported",
    "units_none_refuted",
    "nan_alone_refuted",
    "number_types_refuted",
    "partial_inputs_refuted",
    "circle_accepted_refuted",
    "missing_step_refuted"
   ],
   "note": "Proved for all trees: no report implies equal values and units equal or missing among the inputs fed by a sourceless input, and one setting per name; where no input has two links, no report is equivalent to equal values, equal units and one setting. Refuted: a missing unit is reported against the comment in the source; NaN is reported to differ from itself, so that any unconnected input starting with NaN makes setup fail; equal numbers of different types and inputs linked with src_indices are reported; inputs connected in a circle are never compared; a setting given for one of two inputs only is accepted. Not modelled: the texts of the reports."
  },
  {
   "property": "C94",
   "status": "partial",
   "theorems": [
    "C94_setup_accepts",
    "C94_setup_errors",
    "C94_solves",
    "C94_function",
    "C94_completes",
    "C94_nested_solves",
    "C94_flat",
    "C94_linearize",
    "C94_apply_outcome",
    "C94_stale_refuted",
    "C94_residuals_refuted"
   ],
   "note": "Proved for all feed-forward wrapped and outer models of components whose outputs depend on their inputs only: acceptance of params, solution after a call, independence of earlier calls (failed ones included), equality with the flat model for params that stand for inputs, derivatives at the solution after a run. Refuted: the residuals of a SubProblem that holds its outputs are not zero and evaluating them loses the outputs, because solve_nonlinear overwrites the residuals the inherited method has stored; linearize sets the params without running, so derivatives at new params are those of a state that is no solution. Not modelled: metadata, MPI, wrapped drivers other than the one that runs the model once."
  },
  {
   "property": "C95",
   "status": "partial",
   "theorems": [
    "C95_cycles",
    "C95_states",
    "C95_complex_step",
    "C95_completes",
    "C95_accepted",
    "C95_krylov_refuted",
    "C95_dotted_refuted"
   ],
   "note": "Proved for all trees, solvers, connections and states: exactly which circles, states and complex-step groups are reported, and that the check completes if states are variables of their components. Refuted: a Krylov solver limited to one iteration in a circle is accepted; a SubProblem's state with a dotted name makes the check raise AttributeError."
  },
  {
   "property": "C96",
   "status": "proved",
   "theorems": [
    "C96_cycles",
    "C96_out_of_order",
    "C96_acyclic",
    "C96_all_groups"
   ],
   "note": "For every group of every tree: cycles and out-of-order reports are exact, the automatic order is never reported, the check completes. networkx's functions are arguments with their specifications; the sorting of the report by group name and the printed texts are not modelled."
  },
  {
   "property": "C97",
   "status": "partial",
   "theorems": [
    "C97_two_levels_partial",
    "C97_warm_history_partial",
    "C97_mismatch",
    "C97_three_levels_refuted",
    "C97_empty_level_refuted",
    "C97_no_points_refuted",
    "C97_two_arrays_refuted",
    "C97_one_level_refuted",
    "C97_one_level"
   ],
   "note": "Proved for two levels, any number of scalar inputs followed by at most one array input, all outputs and data, and any number of warm restarts. Refuted: with three or more levels every training fails with KeyError; without warm restart a level without points gives the surrogate None for its outputs, or old outputs with no inputs; two array inputs overwrite each other; one level with a warm restart as first training raises AttributeError."
  },
  {
   "property": "C98",
   "status": "partial",
   "theorems": [
    "C98_forward",
    "C98_reverse_partial",
    "C98_reverse_copies_refuted",
    "C98_reverse_lost_refuted",
    "C98_reverse_indices_refuted",
    "C98_forward_unknown_refuted"
   ],
   "note": "Forward proved for all worlds in which the processes with a target know whether the source is spread. Backward proved under three conditions on a connection (a target without indices sits with part of a spread source; a source of a target with indices is spread or in one process; all processes know the indices); each is shown necessary by a witness where the derivative is doubled, lost or added at the wrong entries."
  },
  {
   "property": "C99",
   "status": "partial",
   "theorems": [
    "C99_delivered",
    "C99_synchronous_refuted"
   ],
   "note": "Proved in full for buffered sends: termination, absence of deadlock, delivery and no leftover messages in every interleaving, for any sequence of transfers. Refuted for sends that wait for the receiver, which MPI allows: every transfer that needs a message deadlocks, because all sends come before the barrier and all receives after it."
  }
 ]
}
