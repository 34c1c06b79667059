{
 "claims": [
  {
   "property": "C01",
   "status": "proved",
   "theorems": [
    "C01_partition_exhaustive",
    "C01_partition_first_last"
   ],
   "note": ""
  },
  {
   "property": "C02",
   "status": "proved",
   "theorems": [
    "C02_generator_paths",
    "C02_scheduler_paths"
   ],
   "note": ""
  },
  {
   "property": "C03",
   "status": "proved",
   "theorems": [
    "C03_number_of_paths"
   ],
   "note": ""
  },
  {
   "property": "C04",
   "status": "proved",
   "theorems": [
    "C04_balanced",
    "C04_skip",
    "C04_skip_empty",
    "C04_fused",
    "C04_fused_scheduler"
   ],
   "note": ""
  },
  {
   "property": "C05",
   "status": "proved",
   "theorems": [
    "C05_memory_counters"
   ],
   "note": ""
  },
  {
   "property": "C06",
   "status": "proved",
   "theorems": [
    "C06_reported_memory",
    "C06_reported_memory_invariant"
   ],
   "note": ""
  },
  {
   "property": "C07",
   "status": "proved",
   "theorems": [
    "C07_memory_is_minimal"
   ],
   "note": ""
  },
  {
   "property": "C08",
   "status": "proved",
   "theorems": [
    "C08_focus_graph",
    "C08_focus_inplace_atomic_refuted"
   ],
   "note": "The atomicity reading of a failing focus_inplace is false of the code and refuted with a witness."
  },
  {
   "property": "C09",
   "status": "proved",
   "theorems": [
    "C09_checked",
    "C09_checked_panics",
    "C09_unchecked",
    "C09_unchecked_panics",
    "C09_same"
   ],
   "note": ""
  },
  {
   "property": "C10",
   "status": "proved",
   "theorems": [
    "C10_manual_accepts"
   ],
   "note": ""
  },
  {
   "property": "C11",
   "status": "proved",
   "theorems": [
    "C11_manual_too_long"
   ],
   "note": "Exact description of the deviation from the documentation: every over-long instruction panics."
  },
  {
   "property": "C12",
   "status": "proved",
   "theorems": [
    "C12_measurable_is_enabled"
   ],
   "note": ""
  },
  {
   "property": "C13",
   "status": "proved",
   "theorems": [
    "C13_construction_panics",
    "C13_mapping",
    "C13_reuse_manual",
    "C13_reuse"
   ],
   "note": ""
  },
  {
   "property": "C14",
   "status": "proved",
   "theorems": [
    "C14_remaining_nodes"
   ],
   "note": "Exact count, and by how much it differs from the number of unmeasured nodes."
  },
  {
   "property": "C15",
   "status": "proved",
   "theorems": [
    "C15_scheduler_consistent"
   ],
   "note": ""
  },
  {
   "property": "C16",
   "status": "proved",
   "theorems": [
    "C16_build_search",
    "C16_build_manual",
    "C16_build_graph"
   ],
   "note": ""
  },
  {
   "property": "C17",
   "status": "proved",
   "theorems": [
    "C17_time_optimal_path"
   ],
   "note": ""
  },
  {
   "property": "C18",
   "status": "proved",
   "theorems": [
    "C18_time_optimal_fastest"
   ],
   "note": ""
  },
  {
   "property": "C19",
   "status": "proved",
   "theorems": [
    "C19_time_optimal_layers"
   ],
   "note": ""
  },
  {
   "property": "C20",
   "status": "proved",
   "theorems": [
    "C20_search_paths"
   ],
   "note": ""
  },
  {
   "property": "C21",
   "status": "proved",
   "theorems": [
    "C21_search_tradeoff"
   ],
   "note": ""
  },
  {
   "property": "C22",
   "status": "proved",
   "theorems": [
    "C22_search_optimal"
   ],
   "note": ""
  },
  {
   "property": "C23",
   "status": "proved",
   "theorems": [
    "C23_search_first"
   ],
   "note": ""
  },
  {
   "property": "C24",
   "status": "proved",
   "theorems": [
    "C24_search_longer",
    "C24_threaded_refuted"
   ],
   "note": "Proved for one thread, with and without accept function; refuted for several threads with two computed executions."
  },
  {
   "property": "C25",
   "status": "proved",
   "theorems": [
    "C25_time_optimal_finishes",
    "C25_search_finishes"
   ],
   "note": ""
  },
  {
   "property": "C26",
   "status": "proved",
   "theorems": [
    "C26_search_returns"
   ],
   "note": ""
  },
  {
   "property": "C27",
   "status": "proved",
   "theorems": [
    "C27_accept_everything",
    "C27_accept_nothing"
   ],
   "note": ""
  },
  {
   "property": "C28",
   "status": "proved",
   "theorems": [
    "C28_repaired_well_formed",
    "C28_malformed_time_optimal",
    "C28_malformed_search",
    "C28_never_measured",
    "C28_search_optimal_refuted"
   ],
   "note": ""
  },
  {
   "property": "C29",
   "status": "proved",
   "theorems": [
    "C29_search_hash_order"
   ],
   "note": ""
  },
  {
   "property": "C30",
   "status": "proved",
   "theorems": [
    "C30_no_nodes"
   ],
   "note": "Run without search, single and multi threaded search, for every spacial graph."
  },
  {
   "property": "C31",
   "status": "proved",
   "theorems": [
    "C31_threaded_valid",
    "C31_threaded_no_panic"
   ],
   "note": ""
  },
  {
   "property": "C32",
   "status": "proved",
   "theorems": [
    "C32_undisturbed",
    "C32_undisturbed_sequential",
    "C32_collected",
    "C32_keep_better",
    "C32_threaded_optimal_refuted",
    "C32_threaded_optimal"
   ],
   "note": "The claim itself is false of the code and refuted with a witness execution; proved for executions in which the tasks that reach an exchange are undisturbed (in particular none reaches one). For all executions: the optima are among the results of the tasks when they end, the loss happens in the merge."
  },
  {
   "property": "C33",
   "status": "proved",
   "theorems": [
    "C33_threaded_first"
   ],
   "note": ""
  },
  {
   "property": "C34",
   "status": "proved",
   "theorems": [
    "C34_tasks_split",
    "C34_tasks_count"
   ],
   "note": "Exact number of tasks; the sweeps of the tasks concatenated are the sweep of the whole tree."
  },
  {
   "property": "C35",
   "status": "proved",
   "theorems": [
    "C35_search_timeout",
    "C35_threaded_late",
    "C35_no_late_start_refuted"
   ],
   "note": "Both halves; the bound of 1001 further iterations per task is sharp; that no task is started after the timeout is refuted."
  },
  {
   "property": "C36",
   "status": "proved",
   "theorems": [
    "C36_spawn_finishes",
    "C36_pool_terminates",
    "C36_pool_progress",
    "C36_threaded_completes"
   ],
   "note": ""
  },
  {
   "property": "C37",
   "status": "proved",
   "theorems": [
    "C37_never_started",
    "C37_not_early",
    "C37_monotone",
    "C37_finishes",
    "C37_drop_starts",
    "C37_drop_returns",
    "C37_no_leak",
    "C37_no_leak_restarted_refuted"
   ],
   "note": "Transition system with clock, spurious wake-ups, several starts. That no thread outlives the timer is proved for at most one start and refuted for two."
  },
  {
   "property": "C38",
   "status": "proved",
   "theorems": [
    "C38_time_optimal",
    "C38_ignores_options",
    "C38_few_threads",
    "C38_default_bound"
   ],
   "note": ""
  },
  {
   "property": "C39",
   "status": "proved",
   "theorems": [
    "C39_inputs",
    "C39_unknown_input",
    "C39_unknown_output",
    "C39_outcome",
    "C39_main_exit"
   ],
   "note": "Codecs and operating system are parameters; also: only the output file is ever changed, interrupted writing leaves a strict prefix of the encoding."
  },
  {
   "property": "C40",
   "status": "proved",
   "theorems": [
    "C40_callback_threads",
    "C40_same_as_run",
    "C40_no_order",
    "C40_raises",
    "C40_threads_no_callback",
    "C40_valid",
    "C40_default_call",
    "C40_below_three_refuted",
    "C40_conversions",
    "C40_accept_func",
    "C40_accept_func_error",
    "C40_accept_func_default"
   ],
   "note": "That two threads do the same as one (the documentation: below 3 no multithreading) is refuted. C40_same_as_run converts the accept function with to_real of the model; that to_real keeps the parameters of a ParametrizedHeavyside is read off its definition and not stated by a theorem (wrong program py_param survives)."
  },
  {
   "property": "C41",
   "status": "proved",
   "theorems": [
    "C41_builtin_parametrized",
    "C41_builtin_not_negative",
    "C41_builtin_cases",
    "C41_builtin_rejects",
    "C41_builtin_accepts_first"
   ],
   "note": "Floating point exact (IEEE binary64, round to nearest even); exp is a parameter with stated conditions."
  },
  {
   "property": "C42",
   "status": "proved",
   "theorems": [
    "C42_graph",
    "C42_graph_panics",
    "C42_graph_extremes",
    "C42_corrections",
    "C42_order"
   ],
   "note": ""
  },
  {
   "property": "C43",
   "status": "proved",
   "theorems": [
    "C43_single_threaded",
    "C43_multi_threaded_refuted"
   ],
   "note": "Single threaded half proved; the multi threaded half is refuted with two interleavings."
  },
  {
   "property": "C44",
   "status": "proved",
   "theorems": [
    "C44_run_valid",
    "C44_run_optimal",
    "C44_run_threaded_time_optimal",
    "C44_main_optimal"
   ],
   "note": "Entry point level, including the timer model and the binary."
  },
  {
   "property": "C45",
   "status": "proved",
   "theorems": [
    "C45_builtin_first"
   ],
   "note": ""
  },
  {
   "property": "C46",
   "status": "proved",
   "theorems": [
    "C46_do_it",
    "C46_possible"
   ],
   "note": ""
  },
  {
   "property": "C47",
   "status": "proved",
   "theorems": [
    "C47_node_run",
    "C47_node_run_possible",
    "C47_node_arrays",
    "C47_density_run",
    "C47_density_run_possible",
    "C47_density_arrays",
    "C47_arguments",
    "C47_densities",
    "C47_node_timeouts",
    "C47_density_timeouts"
   ],
   "note": ""
  },
  {
   "property": "C48",
   "status": "proved",
   "theorems": [
    "C48_arguments",
    "C48_arguments_threads"
   ],
   "note": ""
  },
  {
   "property": "C49",
   "status": "proved",
   "theorems": [
    "C49_search",
    "C49_run",
    "C49_python"
   ],
   "note": ""
  },
  {
   "property": "C50",
   "status": "proved",
   "theorems": [
    "C50_selects"
   ],
   "note": ""
  },
  {
   "property": "C51",
   "status": "proved",
   "theorems": [
    "C51_renamed",
    "C51_renamed_time"
   ],
   "note": ""
  },
  {
   "property": "C52",
   "status": "proved",
   "theorems": [
    "C52_relaxed",
    "C52_relaxed_time"
   ],
   "note": ""
  },
  {
   "property": "C53",
   "status": "proved",
   "theorems": [
    "C53_sequential"
   ],
   "note": ""
  },
  {
   "property": "C54",
   "status": "proved",
   "theorems": [
    "C54_bounds"
   ],
   "note": ""
  },
  {
   "property": "C55",
   "status": "proved",
   "theorems": [
    "C55_earliest"
   ],
   "note": ""
  },
  {
   "property": "C56",
   "status": "proved",
   "theorems": [
    "C56_json",
    "C56_bincode"
   ],
   "note": ""
  },
  {
   "property": "C57",
   "status": "proved",
   "theorems": [
    "C57_graphs",
    "C57_paths"
   ],
   "note": ""
  },
  {
   "property": "C58",
   "status": "proved",
   "theorems": [
    "C58_valid",
    "C58_optimal"
   ],
   "note": ""
  },
  {
   "property": "C59",
   "status": "proved",
   "theorems": [
    "C59_exact",
    "C59_no_panic",
    "C59_reachable"
   ],
   "note": ""
  },
  {
   "property": "C60",
   "status": "proved",
   "theorems": [
    "C60_program",
    "C60_optimal"
   ],
   "note": ""
  },
  {
   "property": "C61",
   "status": "proved",
   "theorems": [
    "C61_benchmark"
   ],
   "note": ""
  },
  {
   "property": "C62",
   "status": "proved",
   "theorems": [
    "C62_passes",
    "C62_split"
   ],
   "note": ""
  },
  {
   "property": "C63",
   "status": "proved",
   "theorems": [
    "C63_search",
    "C63_run",
    "C63_decided"
   ],
   "note": ""
  },
  {
   "property": "C64",
   "status": "proved",
   "theorems": [
    "C64_same_results",
    "C64_no_deadlock",
    "C64_terminates",
    "C64_locks",
    "C64_valid",
    "C64_first",
    "C64_not_optimal"
   ],
   "note": ""
  },
  {
   "property": "C65",
   "status": "proved",
   "theorems": [
    "C65_same_results",
    "C65_valid",
    "C65_first",
    "C65_relaxed"
   ],
   "note": ""
  },
  {
   "property": "C66",
   "status": "proved",
   "theorems": [
    "C66_first",
    "C66_threaded_first_refuted",
    "C66_moves_first_refuted"
   ],
   "note": "The guarantee under the stated condition is proved; the unconditional claim is refuted by a computed execution, also at the level of the locks."
  },
  {
   "property": "C67",
   "status": "proved",
   "theorems": [
    "C67_search",
    "C67_run",
    "C67_moves"
   ],
   "note": ""
  },
  {
   "property": "C68",
   "status": "proved",
   "theorems": [
    "C68_node_run",
    "C68_density_run",
    "C68_mean",
    "C68_possible"
   ],
   "note": ""
  },
  {
   "property": "C69",
   "status": "proved",
   "theorems": [
    "C69_node_file",
    "C69_density_file",
    "C69_readable",
    "C69_nearest",
    "C69_node_names",
    "C69_density_names",
    "C69_names_apart",
    "C69_contract"
   ],
   "note": ""
  },
  {
   "property": "C70",
   "status": "proved",
   "theorems": [
    "C70_nodes",
    "C70_densities_local",
    "C70_densities_cluster",
    "C70_nodes_possible",
    "C70_densities_possible",
    "C70_all_sizes_visible_refuted",
    "C70_names",
    "C70_nodes_found",
    "C70_nodes_found_refuted",
    "C70_densities_found_refuted",
    "C70_node_walltime",
    "C70_density_walltime_refuted"
   ],
   "note": "The claims about the repository's parameters are proved from end to end; that every size is visible, that files for other parameters are found and that density jobs fit into their wall time is refuted."
  },
  {
   "property": "C71",
   "status": "proved",
   "theorems": [
    "C71_node_run",
    "C71_density_run",
    "C71_accuracy",
    "C71_root",
    "C71_zero"
   ],
   "note": ""
  },
  {
   "property": "C72",
   "status": "proved",
   "theorems": [
    "C72_graph",
    "C72_edge",
    "C72_order",
    "C72_every_order",
    "C72_rounds",
    "C72_instance",
    "C72_threshold",
    "C72_words",
    "C72_fraction",
    "C72_index",
    "C72_degree"
   ],
   "note": ""
  },
  {
   "property": "C73",
   "status": "proved",
   "theorems": [
    "C73_execution",
    "C73_known_before",
    "C73_same",
    "C73_run",
    "C73_widget",
    "C73_order_needed",
    "C73_performed",
    "C73_performed_refuted",
    "C73_buffer",
    "C73_buffer_single",
    "C73_buffer_refuted"
   ],
   "note": "The claim about the scheduling library is proved; two claims about the example program as written (performing Y corrections, addressing the buffer) are refuted."
  },
  {
   "property": "C74",
   "status": "proved",
   "theorems": [
    "C74_checked",
    "C74_builds",
    "C74_out_of_range",
    "C74_repeated",
    "C74_release_refuted",
    "C74_builds_converse_refuted"
   ],
   "note": "The first property is false in release builds, refuted with a witness; so is the converse of the agreement of the builds."
  },
  {
   "property": "C75",
   "status": "proved",
   "theorems": [
    "C75_never",
    "C75_value",
    "C75_unlisted",
    "C75_time_optimal",
    "C75_nothing",
    "C75_search",
    "C75_threaded",
    "C75_noticed_refuted"
   ],
   "note": "That a listed qubit with such a neighbour is always noticed is refuted (an interrupted search returns an empty list)."
  },
  {
   "property": "C76",
   "status": "proved",
   "theorems": [
    "C76_beginnings",
    "C76_sweep",
    "C76_search",
    "C76_threaded",
    "C76_memory",
    "C76_growth",
    "C76_any_single",
    "C76_any_threaded",
    "C76_any_time_optimal",
    "C76_estimates"
   ],
   "note": "The upper bounds are for sweeps and searches, the factorial lower bound is for sweeps (searches skip)."
  },
  {
   "property": "C77",
   "status": "proved",
   "theorems": [
    "C77_first_path",
    "C77_first_listed_refuted",
    "C77_order",
    "C77_sorted_refuted"
   ],
   "note": "The agreement is proved; that it is the first path of the list of a complete search, and that the schedules are tried in order of their length, is refuted."
  },
  {
   "property": "C78",
   "status": "proved",
   "theorems": [
    "C78_parts",
    "C78_without_search",
    "C78_leftover_refuted"
   ],
   "note": "That the least memory is always the larger one of the parts' is refuted for graphs with neighbours that are never measured."
  },
  {
   "property": "C79",
   "status": "proved",
   "theorems": [
    "C79_decompositions",
    "C79_pathwidth",
    "C79_all_runs",
    "C79_line",
    "C79_directed_refuted"
   ],
   "note": "That the statement holds for spacial graphs with directed edges as well is refuted."
  },
  {
   "property": "C80",
   "status": "proved",
   "theorems": [
    "C80_lower",
    "C80_area_sharp",
    "C80_complete"
   ],
   "note": ""
  },
  {
   "property": "C81",
   "status": "proved",
   "theorems": [
    "C81_series",
    "C81_without_search",
    "C81_total_order",
    "C81_total_searched",
    "C81_wire",
    "C81_kept_refuted"
   ],
   "note": ""
  },
  {
   "property": "C82",
   "status": "proved",
   "theorems": [
    "C82_causal",
    "C82_whole_test",
    "C82_contract",
    "C82_circuit_order",
    "C82_all_circuits",
    "C82_all_numbers_refuted",
    "C82_rotation_numbers_refuted"
   ],
   "note": "get_order of the crate pauli_tracker is a parameter with a contract, which is shown to be satisfiable. That the test works for arbitrary numbers in the operations is refuted."
  },
  {
   "property": "C83",
   "status": "proved",
   "theorems": [
    "C83_known_results"
   ],
   "note": "The trackers of the crate pauli_tracker are modelled by their meaning (it is not part of the repository)."
  },
  {
   "property": "C84",
   "status": "proved",
   "theorems": [
    "C84_one_qubit",
    "C84_two_qubits",
    "C84_teleportations",
    "C84_rotation",
    "C84_example_program",
    "C84_determined"
   ],
   "note": "Checks what the models assume of the gates of the crate pauli_tracker (not part of the repository) against matrices."
  },
  {
   "property": "C85",
   "status": "proved",
   "theorems": [
    "C85_search",
    "C85_without_search",
    "C85_stronger",
    "C85_stronger_paths",
    "C85_determined",
    "C85_determined_stronger",
    "C85_get_order"
   ],
   "note": ""
  },
  {
   "property": "C86",
   "status": "proved",
   "theorems": [
    "C86_search",
    "C86_without_search",
    "C86_memory_without_search_refuted",
    "C86_fewer_measurements_refuted"
   ],
   "note": ""
  },
  {
   "property": "C87",
   "status": "proved",
   "theorems": [
    "C87_edges",
    "C87_edges_without_search",
    "C87_dependencies",
    "C87_dependencies_memory_refuted"
   ],
   "note": ""
  },
  {
   "property": "C88",
   "status": "proved",
   "theorems": [
    "C88_time",
    "C88_paths",
    "C88_memory_refuted"
   ],
   "note": ""
  },
  {
   "property": "C89",
   "status": "proved",
   "theorems": [
    "C89_bandwidth",
    "C89_bramble"
   ],
   "note": ""
  },
  {
   "property": "C90",
   "status": "proved",
   "theorems": [
    "C90_search",
    "C90_without_search",
    "C90_any_order"
   ],
   "note": ""
  },
  {
   "property": "C91",
   "status": "proved",
   "theorems": [
    "C91_search",
    "C91_without_search",
    "C91_graph",
    "C91_grid",
    "C91_unconnected_refuted"
   ],
   "note": ""
  },
  {
   "property": "C92",
   "status": "proved",
   "theorems": [
    "C92_search",
    "C92_cover",
    "C92_waiting_refuted"
   ],
   "note": ""
  },
  {
   "property": "C93",
   "status": "proved",
   "theorems": [
    "C93_search",
    "C93_downwards_refuted"
   ],
   "note": ""
  },
  {
   "property": "C94",
   "status": "proved",
   "theorems": [
    "C94_matched",
    "C94_threads"
   ],
   "note": ""
  },
  {
   "property": "C95",
   "status": "proved",
   "theorems": [
    "C95_files",
    "C95_program",
    "C95_nothing",
    "C95_release_refuted"
   ],
   "note": ""
  },
  {
   "property": "C96",
   "status": "proved",
   "theorems": [
    "C96_unique",
    "C96_swept",
    "C96_stronger",
    "C96_series",
    "C96_parts",
    "C96_total",
    "C96_independent",
    "C96_parts_exact_refuted"
   ],
   "note": ""
  },
  {
   "property": "C97",
   "status": "proved",
   "theorems": [
    "C97_odd",
    "C97_swept",
    "C97_steps"
   ],
   "note": ""
  }
 ]
}