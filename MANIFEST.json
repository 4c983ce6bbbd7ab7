{
 "claims": [
  {
   "property": "C01",
   "status": "proved",
   "theorems": [
    "vpc_valid_tolerance",
    "vpc_valid_on_terms",
    "vpc_valid_for_integer_points",
    "vpc_valid_at_integer_solution",
    "vpc_unsolved_term_refuted",
    "vpc_integer_leaf_refuted"
   ],
   "note": "4 theorems of the property; parts of the intended behaviour that the code does not have are proved false: vpc_unsolved_term_refuted, vpc_integer_leaf_refuted"
  },
  {
   "property": "C02",
   "status": "proved",
   "theorems": [
    "cut_conversion_exact",
    "cut_conversion_tolerance",
    "cut_conversion_columns",
    "cut_conversion_unordered_refuted",
    "cut_conversion_free_column_refuted"
   ],
   "note": "3 theorems of the property; parts of the intended behaviour that the code does not have are proved false: cut_conversion_unordered_refuted, cut_conversion_free_column_refuted"
  },
  {
   "property": "C03",
   "status": "proved",
   "theorems": [
    "nb_point_faithful",
    "nb_point_exact",
    "nb_given_point_faithful",
    "nb_point_objective",
    "nb_given_point_objective",
    "nb_root_is_origin",
    "nb_point_sorted_refuted",
    "nb_root_ranged_row_refuted"
   ],
   "note": "6 theorems of the property; parts of the intended behaviour that the code does not have are proved false: nb_point_sorted_refuted, nb_root_ranged_row_refuted"
  },
  {
   "property": "C04",
   "status": "proved",
   "theorems": [
    "term_relaxed_tolerance",
    "term_relaxed",
    "ray_objective",
    "term_relaxed_free_refuted"
   ],
   "note": "3 theorems of the property; parts of the intended behaviour that the code does not have are proved false: term_relaxed_free_refuted"
  },
  {
   "property": "C05",
   "status": "proved",
   "theorems": [
    "split_covers",
    "split_failure_keeps_points",
    "no_split_reported_refuted",
    "prepare_twice_refuted",
    "split_choice"
   ],
   "note": "3 theorems of the property; parts of the intended behaviour that the code does not have are proved false: no_split_reported_refuted, prepare_twice_refuted"
  },
  {
   "property": "C06",
   "status": "proved",
   "theorems": [
    "root_bounds_saved",
    "root_side_unique",
    "second_branch_side_refuted",
    "tree_covers",
    "tree_covers_kept",
    "pruned_covered_refuted",
    "kept_dropped_refuted",
    "misjudged_then_save_refuted"
   ],
   "note": "4 theorems of the property; parts of the intended behaviour that the code does not have are proved false: second_branch_side_refuted, pruned_covered_refuted, kept_dropped_refuted, misjudged_then_save_refuted"
  },
  {
   "property": "C07",
   "status": "proved",
   "theorems": [
    "term_box",
    "term_box_exact",
    "small_move_refuted"
   ],
   "note": "2 theorems of the property; parts of the intended behaviour that the code does not have are proved false: small_move_refuted"
  },
  {
   "property": "C08",
   "status": "proved",
   "theorems": [
    "term_solver_rows",
    "term_solver_bounds",
    "term_solver_keeps_points",
    "setup_term_solver",
    "root_cuts_match",
    "objective_check",
    "common_ineqs_refuted",
    "loosening_refuted",
    "objective_sign_refuted"
   ],
   "note": "6 theorems of the property; parts of the intended behaviour that the code does not have are proved false: common_ineqs_refuted, loosening_refuted, objective_sign_refuted"
  },
  {
   "property": "C09",
   "status": "proved",
   "theorems": [
    "setup_sound",
    "setup_complete",
    "setup_sound_bound",
    "setup_equivalent",
    "stronger_point_refuted",
    "infeasible_row_check_refuted",
    "setup_exit"
   ],
   "note": "5 theorems of the property; parts of the intended behaviour that the code does not have are proved false: stronger_point_refuted, infeasible_row_check_refuted"
  },
  {
   "property": "C10",
   "status": "proved",
   "theorems": [
    "collection_shape",
    "collection_needs_optimality"
   ],
   "note": "2 theorems of the property"
  },
  {
   "property": "C11",
   "status": "proved",
   "theorems": [
    "row_compare_sound",
    "row_compare_multiple",
    "row_compare_opposite_refuted",
    "row_compare_scale_refuted"
   ],
   "note": "2 theorems of the property; parts of the intended behaviour that the code does not have are proved false: row_compare_opposite_refuted, row_compare_scale_refuted"
  },
  {
   "property": "C12",
   "status": "proved",
   "theorems": [
    "duplicate_discarded",
    "stronger_duplicate_refuted",
    "added_cut_orthogonal",
    "refused_cut_parallel",
    "no_parallel_cuts",
    "root_duplicates_refuted"
   ],
   "note": "4 theorems of the property; parts of the intended behaviour that the code does not have are proved false: stronger_duplicate_refuted, root_duplicates_refuted"
  },
  {
   "property": "C13",
   "status": "proved",
   "theorems": [
    "remove_small_valid_tolerance",
    "remove_small_valid",
    "remove_small_kept",
    "remove_small_all_refuted",
    "remove_small_valid_refuted"
   ],
   "note": "3 theorems of the property; parts of the intended behaviour that the code does not have are proved false: remove_small_all_refuted, remove_small_valid_refuted"
  },
  {
   "property": "C14",
   "status": "proved",
   "theorems": [
    "clean_cut_accepted",
    "clean_cut_rejected"
   ],
   "note": "2 theorems of the property"
  },
  {
   "property": "C15",
   "status": "proved",
   "theorems": [
    "orthogonality_range",
    "orthogonality_values",
    "overloads_agree",
    "orthogonality_scale",
    "orthogonality_abs_refuted"
   ],
   "note": "4 theorems of the property; parts of the intended behaviour that the code does not have are proved false: orthogonality_abs_refuted"
  },
  {
   "property": "C16",
   "status": "proved",
   "theorems": [
    "set_row_cut_entries",
    "set_row_cut_dense",
    "set_row_cut_renamed",
    "set_row_cut_same_model"
   ],
   "note": "4 theorems of the property"
  },
  {
   "property": "C17",
   "status": "proved",
   "theorems": [
    "bookkeeping_aligned",
    "bookkeeping_in_range",
    "bookkeeping_repeated",
    "bookkeeping_counters_repeated_refuted",
    "bookkeeping_shifted_refuted",
    "bookkeeping_disjunction_refuted"
   ],
   "note": "3 theorems of the property; parts of the intended behaviour that the code does not have are proved false: bookkeeping_counters_repeated_refuted, bookkeeping_shifted_refuted, bookkeeping_disjunction_refuted"
  },
  {
   "property": "C18",
   "status": "proved",
   "theorems": [
    "objectives_accounted",
    "objectives_check_never_aborts",
    "objectives_call",
    "failure_under_own_reason",
    "failure_reasons_refuted"
   ],
   "note": "4 theorems of the property; parts of the intended behaviour that the code does not have are proved false: failure_reasons_refuted"
  },
  {
   "property": "C19",
   "status": "proved",
   "theorems": [
    "cut_limit_value",
    "cut_limit_respected",
    "cut_limit_per_disjunction",
    "cut_limit_total_set",
    "cut_limit_repeated_refuted"
   ],
   "note": "4 theorems of the property; parts of the intended behaviour that the code does not have are proved false: cut_limit_repeated_refuted"
  },
  {
   "property": "C20",
   "status": "proved",
   "theorems": [
    "failure_limit_decision",
    "failure_limit_not_early",
    "failure_limit_monotone",
    "failure_limit_documented_refuted",
    "failure_limit_time_refuted"
   ],
   "note": "3 theorems of the property; parts of the intended behaviour that the code does not have are proved false: failure_limit_documented_refuted, failure_limit_time_refuted"
  },
  {
   "property": "C21",
   "status": "proved",
   "theorems": [
    "one_cut_per_objective",
    "given_cuts_untouched",
    "returned_cuts_inherit",
    "replacement_weakens_refuted",
    "primal_infeasible_never_reported"
   ],
   "note": "4 theorems of the property; parts of the intended behaviour that the code does not have are proved false: replacement_weakens_refuted"
  },
  {
   "property": "C22",
   "status": "proved",
   "theorems": [
    "tight_on_point_restores",
    "later_cuts_tight",
    "last_candidate_refuted",
    "subtract_refuted"
   ],
   "note": "2 theorems of the property; parts of the intended behaviour that the code does not have are proved false: last_candidate_refuted, subtract_refuted"
  },
  {
   "property": "C23",
   "status": "proved",
   "theorems": [
    "exit_reason_meaning",
    "exit_reason_overwritten_refuted",
    "early_exit_stale_refuted"
   ],
   "note": "1 theorem of the property; parts of the intended behaviour that the code does not have are proved false: exit_reason_overwritten_refuted, early_exit_stale_refuted"
  },
  {
   "property": "C24",
   "status": "proved",
   "theorems": [
    "user_disjunction_refuted",
    "user_objectives_refuted",
    "second_call_refuted"
   ],
   "note": "the property is refuted for all inputs; parts of the intended behaviour that the code does not have are proved false: user_disjunction_refuted, user_objectives_refuted, second_call_refuted"
  },
  {
   "property": "C25",
   "status": "proved",
   "theorems": [
    "disciplined_use_is_safe",
    "accessors_live",
    "disjunctions_released",
    "one_owner",
    "copy_refuted",
    "assign_from_owner_refuted",
    "shared_flag_refuted",
    "prlp_refuted",
    "set_own_refuted",
    "interface_life",
    "interface_refuted"
   ],
   "note": "5 theorems of the property; parts of the intended behaviour that the code does not have are proved false: copy_refuted, assign_from_owner_refuted, shared_flag_refuted, prlp_refuted, set_own_refuted, interface_refuted"
  },
  {
   "property": "C26",
   "status": "proved",
   "theorems": [
    "obj_value_min_max",
    "add_disjunction_summary",
    "disjunction_set_summary",
    "prepare_set",
    "set_best_stale_refuted",
    "split_best_refuted"
   ],
   "note": "4 theorems of the property; parts of the intended behaviour that the code does not have are proved false: set_best_stale_refuted, split_best_refuted"
  },
  {
   "property": "C27",
   "status": "proved",
   "theorems": [
    "split_generation",
    "split_generation_covers",
    "common_changes_kept_refuted"
   ],
   "note": "2 theorems of the property; parts of the intended behaviour that the code does not have are proved false: common_changes_kept_refuted"
  },
  {
   "property": "C28",
   "status": "proved",
   "theorems": [
    "stop_size",
    "stop_size_kept",
    "search_goes_on",
    "prepare_after_stop",
    "at_most_max_refuted"
   ],
   "note": "4 theorems of the property; parts of the intended behaviour that the code does not have are proved false: at_most_max_refuted"
  },
  {
   "property": "C29",
   "status": "proved",
   "theorems": [
    "strategy_digits",
    "strategy_total"
   ],
   "note": "2 theorems of the property"
  },
  {
   "property": "C30",
   "status": "proved",
   "theorems": [
    "terms_listed",
    "inequalities_listed",
    "description_determines_terms",
    "printed_numbers",
    "truncated_refuted",
    "split_description",
    "split_again_refuted",
    "tree_description_shallow",
    "tree_description_refuted",
    "large_number_refuted",
    "solution_described"
   ],
   "note": "7 theorems of the property; parts of the intended behaviour that the code does not have are proved false: truncated_refuted, split_again_refuted, tree_description_refuted, large_number_refuted"
  },
  {
   "property": "C31",
   "status": "proved",
   "theorems": [
    "tolerance_trichotomy",
    "tolerance_meaning",
    "infinity_meaning",
    "neg_infinity_symmetric",
    "isNegInfinity_default_characterised",
    "isNegInfinity_default_refuted",
    "tolerance_trichotomy_double_refuted"
   ],
   "note": "5 theorems of the property; parts of the intended behaviour that the code does not have are proved false: isNegInfinity_default_refuted, tolerance_trichotomy_double_refuted"
  },
  {
   "property": "C32",
   "status": "proved",
   "theorems": [
    "computeStats_correct",
    "computeStats_max_refuted",
    "incremental_equals_batch",
    "negative_prev_size_refuted"
   ],
   "note": "2 theorems of the property; parts of the intended behaviour that the code does not have are proved false: computeStats_max_refuted, negative_prev_size_refuted"
  },
  {
   "property": "C33",
   "status": "proved",
   "theorems": [
    "dotProduct_dense_is_sum",
    "dotProduct_sparse_dense_is_sum",
    "dotProduct_sparse_sparse_is_sum",
    "dotProduct_overloads_agree",
    "dotProductNoCompensation_same",
    "dotProduct_sparse_sparse_unsorted_refuted"
   ],
   "note": "5 theorems of the property; parts of the intended behaviour that the code does not have are proved false: dotProduct_sparse_sparse_unsorted_refuted"
  },
  {
   "property": "C34",
   "status": "proved",
   "theorems": [
    "packedSortedVectorSum_correct",
    "packedSortedVectorSum_exact",
    "packedSortedVectorSum_one_zero",
    "packedSortedVectorSum_both_zero_refuted",
    "packedSortedVectorSum_eps_bound_refuted"
   ],
   "note": "3 theorems of the property; parts of the intended behaviour that the code does not have are proved false: packedSortedVectorSum_both_zero_refuted, packedSortedVectorSum_eps_bound_refuted"
  },
  {
   "property": "C35",
   "status": "proved",
   "theorems": [
    "parse_long",
    "numeral_unique",
    "parse_int",
    "parse_int_rejects",
    "parse_int_out_of_range_refuted",
    "parse_double",
    "parse_double_value",
    "parse_double_overflow_refuted"
   ],
   "note": "6 theorems of the property; parts of the intended behaviour that the code does not have are proved false: parse_int_out_of_range_refuted, parse_double_overflow_refuted"
  },
  {
   "property": "C36",
   "status": "proved",
   "theorems": [
    "filename_join",
    "filename_failure",
    "filename_parts",
    "dotted_directory_refuted"
   ],
   "note": "3 theorems of the property; parts of the intended behaviour that the code does not have are proved false: dotted_directory_refuted"
  },
  {
   "property": "C37",
   "status": "proved",
   "theorems": [
    "case_insensitive",
    "case_conversion",
    "underscore_insensitive",
    "vector_conversion"
   ],
   "note": "4 theorems of the property"
  },
  {
   "property": "C38",
   "status": "proved",
   "theorems": [
    "lookup_value",
    "lookup_default",
    "lookup_file",
    "missing_value_refuted",
    "unnamed_instance_refuted",
    "solution_read",
    "solution_two_spaces_refuted"
   ],
   "note": "4 theorems of the property; parts of the intended behaviour that the code does not have are proved false: missing_value_refuted, unnamed_instance_refuted, solution_two_spaces_refuted"
  },
  {
   "property": "C39",
   "status": "proved",
   "theorems": [
    "total_time",
    "value_when_off",
    "limit_reached",
    "independent",
    "unknown_timer",
    "assertion_iff",
    "print_times",
    "print_names_refuted",
    "reregister_refuted"
   ],
   "note": "7 theorems of the property; parts of the intended behaviour that the code does not have are proved false: print_names_refuted, reregister_refuted"
  },
  {
   "property": "C40",
   "status": "proved",
   "theorems": [
    "generate_cuts_brackets",
    "routines_bracket",
    "split_search_refuted",
    "collection_limit_refuted"
   ],
   "note": "2 theorems of the property; parts of the intended behaviour that the code does not have are proved false: split_search_refuted, collection_limit_refuted"
  },
  {
   "property": "C41",
   "status": "proved",
   "theorems": [
    "parameters_present",
    "set_then_get",
    "set_string_total",
    "set_by_name_refuted",
    "names_distinct",
    "read_params",
    "disj_options",
    "disj_options_status_refuted"
   ],
   "note": "6 theorems of the property; parts of the intended behaviour that the code does not have are proved false: set_by_name_refuted, disj_options_status_refuted"
  },
  {
   "property": "C42",
   "status": "proved",
   "theorems": [
    "int_domain",
    "int_set_iff",
    "double_domain",
    "double_set_iff",
    "double_domain_refuted",
    "documented_values_refuted",
    "defaults"
   ],
   "note": "5 theorems of the property; parts of the intended behaviour that the code does not have are proved false: double_domain_refuted, documented_values_refuted"
  },
  {
   "property": "C43",
   "status": "proved",
   "theorems": [
    "temp_options",
    "bb_options",
    "bb_option_list",
    "bb_option_list_repeated_refuted"
   ],
   "note": "3 theorems of the property; parts of the intended behaviour that the code does not have are proved false: bb_option_list_repeated_refuted"
  },
  {
   "property": "C44",
   "status": "proved",
   "theorems": [
    "status_partition",
    "status_superbasic_unclassified",
    "fixed_side",
    "slack_flip"
   ],
   "note": "4 theorems of the property"
  },
  {
   "property": "C45",
   "status": "proved",
   "theorems": [
    "minimise_equivalent",
    "flip_equivalent",
    "initialize_solver",
    "no_objective_refuted"
   ],
   "note": "3 theorems of the property; parts of the intended behaviour that the code does not have are proved false: no_objective_refuted"
  },
  {
   "property": "C46",
   "status": "proved",
   "theorems": [
    "add_to_objective",
    "add_to_objective_mapped",
    "add_nothing",
    "set_constant",
    "tiny_multiplier_refuted",
    "unit_norm_refuted"
   ],
   "note": "4 theorems of the property; parts of the intended behaviour that the code does not have are proved false: tiny_multiplier_refuted, unit_norm_refuted"
  },
  {
   "property": "C47",
   "status": "proved",
   "theorems": [
    "candidate_list",
    "candidate_list_infeasible",
    "default_merit_positive",
    "merit_estimate",
    "nonpositive_values_refuted",
    "fixed_order",
    "fixed_order_path",
    "fixed_order_no_abort",
    "general_integers_refuted",
    "infeasible_node_refuted",
    "best_branch",
    "better_branch_after_solution",
    "better_branch_before_solution",
    "documented_merit",
    "choose_variable_best",
    "choose_variable_codes",
    "stale_second_refuted",
    "best_refuted",
    "strong_branching_outcome",
    "forced_way_feasible",
    "infeasible_side_estimate",
    "infeasible_side_refuted"
   ],
   "note": "16 theorems of the property; parts of the intended behaviour that the code does not have are proved false: nonpositive_values_refuted, general_integers_refuted, infeasible_node_refuted, stale_second_refuted, best_refuted, infeasible_side_refuted"
  },
  {
   "property": "C48",
   "status": "proved",
   "theorems": [
    "bfs_strict_weak_order",
    "bfs_prefers_shallow",
    "bfs_explores_by_depth"
   ],
   "note": "3 theorems of the property"
  },
  {
   "property": "C49",
   "status": "proved",
   "theorems": [
    "sort_orders",
    "activity_orders",
    "nan_key_refuted",
    "ray_order_refuted",
    "ray_order_limits",
    "ray_update"
   ],
   "note": "4 theorems of the property; parts of the intended behaviour that the code does not have are proved false: nan_key_refuted, ray_order_refuted"
  },
  {
   "property": "C50",
   "status": "proved",
   "theorems": [
    "sparse_exact",
    "no_pool",
    "dense_exact_iff",
    "dense_truncates_refuted",
    "direction_lost_refuted",
    "column_cuts_refuted"
   ],
   "note": "3 theorems of the property; parts of the intended behaviour that the code does not have are proved false: dense_truncates_refuted, direction_lost_refuted, column_cuts_refuted"
  },
  {
   "property": "C51",
   "status": "proved",
   "theorems": [
    "cleaning_keeps_integer_points",
    "giving_up_is_justified",
    "bounds_never_loosened",
    "cleaning_report",
    "repeated_cleaning_keeps_integer_points",
    "maximisation_refuted",
    "stale_solution_refuted",
    "stale_count_refuted",
    "branching_bound_lost_refuted"
   ],
   "note": "5 theorems of the property; parts of the intended behaviour that the code does not have are proved false: maximisation_refuted, stale_solution_refuted, stale_count_refuted, branching_bound_lost_refuted"
  },
  {
   "property": "C52",
   "status": "proved",
   "theorems": [
    "best_over_runs",
    "first_and_all_runs",
    "average_over_runs",
    "average_reused_refuted",
    "runs_planned",
    "all_cuts_number_refuted",
    "entries_joined"
   ],
   "note": "5 theorems of the property; parts of the intended behaviour that the code does not have are proved false: average_reused_refuted, all_cuts_number_refuted"
  },
  {
   "property": "C53",
   "status": "proved",
   "theorems": [
    "square_same_points",
    "square_no_other_points",
    "square_same_objective",
    "integrality_marked",
    "integrality_refuted",
    "more_columns_refuted",
    "fewer_columns_refuted",
    "cuts_not_renamed_refuted"
   ],
   "note": "4 theorems of the property; parts of the intended behaviour that the code does not have are proved false: integrality_refuted, more_columns_refuted, fewer_columns_refuted, cuts_not_renamed_refuted"
  },
  {
   "property": "C54",
   "status": "proved",
   "theorems": [
    "apply_cuts_value",
    "apply_cuts_infinity",
    "get_obj_value",
    "get_obj_value_nocuts",
    "infeasible_refuted",
    "guards_refuted"
   ],
   "note": "4 theorems of the property; parts of the intended behaviour that the code does not have are proved false: infeasible_refuted, guards_refuted"
  },
  {
   "property": "C55",
   "status": "proved",
   "theorems": [
    "produced_cut_valid",
    "loaded_solution_ok",
    "split_call_valid",
    "tree_call_valid"
   ],
   "note": "4 theorems of the property"
  },
  {
   "property": "C56",
   "status": "proved",
   "theorems": [
    "nonbasic_variables",
    "nonbasic_index",
    "original_rows",
    "term_tableau",
    "nonbasic_objective",
    "reduced_costs_checked",
    "problem_data_abort",
    "instance_epsilon",
    "still_nonbasic_entry_refuted",
    "explicit_zero_refuted"
   ],
   "note": "8 theorems of the property; parts of the intended behaviour that the code does not have are proved false: still_nonbasic_entry_refuted, explicit_zero_refuted"
  },
  {
   "property": "C57",
   "status": "proved",
   "theorems": [
    "caller_kept",
    "caller_changed_refuted"
   ],
   "note": "1 theorem of the property; parts of the intended behaviour that the code does not have are proved false: caller_changed_refuted"
  },
  {
   "property": "C58",
   "status": "proved",
   "theorems": [
    "load_arrays_effect",
    "load_arrays_faithful",
    "fixed_binary_refuted",
    "offset_refuted",
    "semi_integer_refuted"
   ],
   "note": "2 theorems of the property; parts of the intended behaviour that the code does not have are proved false: fixed_binary_refuted, offset_refuted, semi_integer_refuted"
  },
  {
   "property": "C59",
   "status": "proved",
   "theorems": [
    "point_candidates",
    "schedule_entries",
    "schedule_keeps_region",
    "schedule_shape",
    "budgets",
    "schedule_defined",
    "last_point_refuted",
    "best_point_refuted",
    "no_point_refuted"
   ],
   "note": "6 theorems of the property; parts of the intended behaviour that the code does not have are proved false: last_point_refuted, best_point_refuted, no_point_refuted"
  },
  {
   "property": "C60",
   "status": "proved",
   "theorems": [
    "point_objective_nb",
    "point_objective_structural",
    "point_objective_structural_value",
    "structural_point_refuted",
    "post_objective_nb",
    "post_objective_stale_refuted",
    "bilinear_procedure"
   ],
   "note": "5 theorems of the property; parts of the intended behaviour that the code does not have are proved false: structural_point_refuted, post_objective_stale_refuted"
  },
  {
   "property": "C61",
   "status": "proved",
   "theorems": [
    "apply_exact",
    "session_preserves",
    "session_bound",
    "reload_refuted",
    "applied_once_refuted",
    "split_rounds_valid"
   ],
   "note": "4 theorems of the property; parts of the intended behaviour that the code does not have are proved false: reload_refuted, applied_once_refuted"
  },
  {
   "property": "C62",
   "status": "proved",
   "theorems": [
    "solver_contents",
    "rounds_valid",
    "reported_bounds",
    "reported_counts",
    "reported_disjunctive_bounds",
    "stopping",
    "round_start",
    "round_start_refuted",
    "limit_refuted",
    "disjunctive_bound_refuted"
   ],
   "note": "7 theorems of the property; parts of the intended behaviour that the code does not have are proved false: round_start_refuted, limit_refuted, disjunctive_bound_refuted"
  },
  {
   "property": "C63",
   "status": "proved",
   "theorems": [
    "density_is_support",
    "active_iff",
    "violated_count",
    "violated_none",
    "min_max_support_refuted",
    "merge_sums",
    "run_statistics_true",
    "update_adds",
    "gmic_update_adds",
    "merge_active",
    "run_attempts",
    "repeated_counts",
    "repeated_stale_refuted",
    "repeated_average_refuted",
    "preset_disjunction_refuted",
    "custom_none_refuted",
    "custom_shares",
    "custom_share_zero_refuted",
    "one_disjunction",
    "disjunction_average_refuted",
    "one_per_round"
   ],
   "note": "14 theorems of the property; parts of the intended behaviour that the code does not have are proved false: min_max_support_refuted, repeated_stale_refuted, repeated_average_refuted, preset_disjunction_refuted, custom_none_refuted, custom_share_zero_refuted, disjunction_average_refuted"
  },
  {
   "property": "C64",
   "status": "proved",
   "theorems": [
    "columns",
    "duplicate_names",
    "category_labels",
    "line_readable",
    "comma_refuted",
    "gap_closed",
    "gap_of_run",
    "no_gap_refuted",
    "frac_is_distance",
    "column_statistics",
    "row_statistics",
    "density_share",
    "density_overflow_refuted",
    "row_printed",
    "cut_columns",
    "one_sided_columns_refuted",
    "no_runs_refuted",
    "sizes_of_instance"
   ],
   "note": "13 theorems of the property; parts of the intended behaviour that the code does not have are proved false: comma_refuted, no_gap_refuted, density_overflow_refuted, one_sided_columns_refuted, no_runs_refuted"
  },
  {
   "property": "C65",
   "status": "proved",
   "theorems": [
    "spelling",
    "operands_ignored",
    "end_of_options",
    "int_option",
    "int_option_wraps_refuted",
    "double_option",
    "string_option",
    "last_wins",
    "all_accepted",
    "any_rejected",
    "toggle_option",
    "best_bound_off_refuted",
    "heuristics_presolve_refuted",
    "strategy_option",
    "unbuilt_solver_refuted",
    "preprocess_option",
    "temp_option",
    "temp_negative_refuted",
    "tikz_option",
    "help_stops",
    "missing_value",
    "start_needs_file",
    "start_value_given",
    "start_value_read",
    "start_value_other",
    "start_value_missing_refuted",
    "start_help"
   ],
   "note": "21 theorems of the property; parts of the intended behaviour that the code does not have are proved false: int_option_wraps_refuted, best_bound_off_refuted, heuristics_presolve_refuted, unbuilt_solver_refuted, temp_negative_refuted, start_value_missing_refuted"
  },
  {
   "property": "C66",
   "status": "proved",
   "theorems": [
    "hot_answer",
    "hot_always",
    "hot_disabled",
    "hot_extends",
    "hot_counts",
    "hot_counter",
    "hot_solves",
    "hot_protocol",
    "hot_bounds",
    "hot_solved",
    "hot_mark",
    "hot_mark_zero",
    "probe_split_restores",
    "probe_run_restores",
    "probe_clean_restores",
    "strong_restores",
    "strong_judges",
    "strong_copies_refuted",
    "check_true",
    "check_answer",
    "check_exit",
    "check_no_exit",
    "check_bounds",
    "check_effort",
    "check_deadline",
    "check_factorization",
    "check_cleans",
    "check_clean_why",
    "check_clean_needed",
    "check_effort_refuted",
    "check_factorization_refuted",
    "check_deadline_refuted",
    "check_dual_infeasible_refuted",
    "enable_clp",
    "enable_other",
    "failures_bounded",
    "disabled_for_good",
    "failures_bounded_refuted",
    "fresh_counter_refuted",
    "hot_mark_refuted"
   ],
   "note": "32 theorems of the property; parts of the intended behaviour that the code does not have are proved false: strong_copies_refuted, check_effort_refuted, check_factorization_refuted, check_deadline_refuted, check_dual_infeasible_refuted, failures_bounded_refuted, fresh_counter_refuted, hot_mark_refuted"
  },
  {
   "property": "C67",
   "status": "proved",
   "theorems": [
    "gurobi_settings",
    "cplex_settings",
    "cbc_settings",
    "cbc_options_refuted",
    "other_options_ignored",
    "solver_chosen",
    "negative_strategy_refuted",
    "user_cuts_run",
    "seeds",
    "seeds_refuted",
    "gurobi_handed",
    "gurobi_handed_refuted",
    "cplex_handed",
    "copy_files",
    "no_file_left_refuted",
    "extension",
    "extension_refuted",
    "cut_check",
    "valid_cuts_pass",
    "gurobi_cut_check",
    "gurobi_cut_check_refuted"
   ],
   "note": "14 theorems of the property; parts of the intended behaviour that the code does not have are proved false: cbc_options_refuted, negative_strategy_refuted, seeds_refuted, gurobi_handed_refuted, no_file_left_refuted, extension_refuted, gurobi_cut_check_refuted"
  },
  {
   "property": "C68",
   "status": "proved",
   "theorems": [
    "gurobi_passes",
    "gurobi_best_solution",
    "gurobi_cuts_added",
    "gurobi_cuts_added_refuted",
    "gurobi_no_pass",
    "gurobi_one_pass",
    "gurobi_one_pass_refuted",
    "gurobi_more_passes",
    "gurobi_order",
    "gurobi_reported",
    "gurobi_statuses",
    "gurobi_solution_value",
    "cplex_passes",
    "cplex_incumbent",
    "cplex_incumbent_refuted",
    "cplex_last_pass",
    "cplex_last_pass_refuted",
    "cplex_first_pass",
    "cplex_order",
    "cplex_reported",
    "cplex_statuses",
    "cplex_no_solution_refuted",
    "cbc_run",
    "cbc_run_refuted",
    "cbc_rounds",
    "cbc_reported",
    "cbc_reported_refuted",
    "cbc_file_refuted"
   ],
   "note": "20 theorems of the property; parts of the intended behaviour that the code does not have are proved false: gurobi_cuts_added_refuted, gurobi_one_pass_refuted, cplex_incumbent_refuted, cplex_last_pass_refuted, cplex_no_solution_refuted, cbc_run_refuted, cbc_reported_refuted, cbc_file_refuted"
  },
  {
   "property": "C69",
   "status": "proved",
   "theorems": [
    "min_form_same",
    "cleaned_problem",
    "tests_run",
    "tests_skipped_refuted",
    "nothing_changed",
    "no_presolver_refuted",
    "start_solution_refuted",
    "cleaned_file",
    "presolved_file",
    "temporary_left_refuted",
    "columns_front",
    "columns_refuted",
    "labels",
    "labels_refuted",
    "no_log",
    "bounds_tightened",
    "change_unnoticed_refuted"
   ],
   "note": "10 theorems of the property; parts of the intended behaviour that the code does not have are proved false: tests_skipped_refuted, no_presolver_refuted, start_solution_refuted, temporary_left_refuted, columns_refuted, labels_refuted, change_unnoticed_refuted"
  },
  {
   "property": "C70",
   "status": "proved",
   "theorems": [
    "start_agrees",
    "exit_code",
    "stops_early",
    "integral_start",
    "goes_on",
    "only_grows",
    "log_of_runs",
    "tolerance_refuted",
    "reference_value",
    "reference_optimal",
    "reference_options_refuted",
    "reference_constant_refuted",
    "early_total_time_refuted",
    "unfinished_line_refuted",
    "header_missing_refuted",
    "mixed_modes_refuted",
    "early_preprocessing_row_refuted",
    "concurrent_runs_refuted",
    "option_count_refuted"
   ],
   "note": "9 theorems of the property; parts of the intended behaviour that the code does not have are proved false: tolerance_refuted, reference_options_refuted, reference_constant_refuted, early_total_time_refuted, unfinished_line_refuted, header_missing_refuted, mixed_modes_refuted, early_preprocessing_row_refuted, concurrent_runs_refuted, option_count_refuted"
  },
  {
   "property": "C71",
   "status": "proved",
   "theorems": [
    "search_settings",
    "settings_total",
    "nothing_requested",
    "preparation_outcome",
    "success_covers",
    "failed_leaves_terms_refuted",
    "prepare_again_refuted",
    "hot_start_refuted",
    "compare_five_refuted",
    "choose_ignored_refuted",
    "special_flag_refuted",
    "special_flag",
    "other_solver_refuted",
    "traced_success_refuted",
    "drawing_options",
    "trees_requested",
    "small_numbers_refuted",
    "set_reason_spec",
    "set_success_refuted"
   ],
   "note": "9 theorems of the property; parts of the intended behaviour that the code does not have are proved false: failed_leaves_terms_refuted, prepare_again_refuted, hot_start_refuted, compare_five_refuted, choose_ignored_refuted, special_flag_refuted, other_solver_refuted, traced_success_refuted, small_numbers_refuted, set_success_refuted"
  },
  {
   "property": "C72",
   "status": "proved",
   "theorems": [
    "rounds_end",
    "result_determined",
    "rounds_history",
    "returned_bound",
    "returned_exact",
    "returns",
    "nonpositive_target",
    "round_limit_refuted",
    "number_of_rounds_refuted",
    "bound_met_refuted"
   ],
   "note": "7 theorems of the property; parts of the intended behaviour that the code does not have are proved false: round_limit_refuted, number_of_rounds_refuted, bound_met_refuted"
  },
  {
   "property": "C73",
   "status": "proved",
   "theorems": [
    "same_rounds",
    "file_lines",
    "times_add_up",
    "density_range_refuted",
    "timers_ready",
    "file_name",
    "file_name_refuted"
   ],
   "note": "5 theorems of the property; parts of the intended behaviour that the code does not have are proved false: density_range_refuted, file_name_refuted"
  },
  {
   "property": "C74",
   "status": "proved",
   "theorems": [
    "accepted_solution",
    "rows_never_matter",
    "rows_checked_refuted",
    "created_iff",
    "leftover_point",
    "infeasible_recorded_integer_refuted",
    "saved_is_announced",
    "saved_improves",
    "improving_saved_iff",
    "improving_solution_lost_refuted",
    "nothing_saved_refuted"
   ],
   "note": "7 theorems of the property; parts of the intended behaviour that the code does not have are proved false: rows_checked_refuted, infeasible_recorded_integer_refuted, improving_solution_lost_refuted, nothing_saved_refuted"
  },
  {
   "property": "C75",
   "status": "proved",
   "theorems": [
    "plot_shows_search",
    "picture_shows_search",
    "stale_leaves_refuted",
    "strong_branching_refuted",
    "caption_says",
    "caption_leafs_refuted",
    "finished_search_marked"
   ],
   "note": "4 theorems of the property; parts of the intended behaviour that the code does not have are proved false: stale_leaves_refuted, strong_branching_refuted, caption_leafs_refuted"
  },
  {
   "property": "C76",
   "status": "proved",
   "theorems": [
    "norm1_condition",
    "norm1_never_small",
    "norm2_condition",
    "no_condition",
    "svd_fails",
    "small_basis_refuted",
    "no_rows_refuted"
   ],
   "note": "5 theorems of the property; parts of the intended behaviour that the code does not have are proved false: small_basis_refuted, no_rows_refuted"
  },
  {
   "property": "C77",
   "status": "proved",
   "theorems": [
    "convert_faithful",
    "constant_refuted",
    "infinite_bound_refuted",
    "ranged_row_refuted",
    "no_nonzeros_refuted",
    "failing_query",
    "no_types_refuted",
    "semicontinuous_refuted"
   ],
   "note": "2 theorems of the property; parts of the intended behaviour that the code does not have are proved false: constant_refuted, infinite_bound_refuted, ranged_row_refuted, no_nonzeros_refuted, no_types_refuted, semicontinuous_refuted"
  },
  {
   "property": "C78",
   "status": "proved",
   "theorems": [
    "report_lines",
    "no_disjunction_refuted",
    "small_values_refuted",
    "vpc_only_refuted",
    "table_rows",
    "wide_value_refuted"
   ],
   "note": "2 theorems of the property; parts of the intended behaviour that the code does not have are proved false: no_disjunction_refuted, small_values_refuted, vpc_only_refuted, wide_value_refuted"
  },
  {
   "property": "C79",
   "status": "proved",
   "theorems": [
    "splits_setup",
    "tree_setup",
    "failed_tree_added_refuted",
    "other_modes",
    "custom_never_cuts_refuted",
    "records_kept",
    "cuts_fix_solution",
    "custom_ends_program_refuted",
    "no_bounds_refuted",
    "largest_bound_refuted"
   ],
   "note": "5 theorems of the property; parts of the intended behaviour that the code does not have are proved false: failed_tree_added_refuted, custom_never_cuts_refuted, custom_ends_program_refuted, no_bounds_refuted, largest_bound_refuted"
  },
  {
   "property": "C80",
   "status": "proved",
   "theorems": [
    "resolve_operations",
    "resolve_retries",
    "resolve_code",
    "resolve_time",
    "setup_solves",
    "setup_reason",
    "run_time",
    "limit_once",
    "one_objective_refuted",
    "finite_value_refuted",
    "default_refuted",
    "default_limits",
    "own_limit_refuted",
    "negative_no_limit",
    "infeasible_unknown"
   ],
   "note": "11 theorems of the property; parts of the intended behaviour that the code does not have are proved false: one_objective_refuted, finite_value_refuted, default_refuted, own_limit_refuted"
  },
  {
   "property": "C81",
   "status": "proved",
   "theorems": [
    "node_table_reads",
    "node_table_bounds",
    "node_table_aligned",
    "node_table_misaligned_refuted",
    "node_table_joined_refuted"
   ],
   "note": "3 theorems of the property; parts of the intended behaviour that the code does not have are proved false: node_table_misaligned_refuted, node_table_joined_refuted"
  },
  {
   "property": "C82",
   "status": "proved",
   "theorems": [
    "printed",
    "prints_nothing",
    "header_matches_row",
    "comma_refuted",
    "constants_refuted",
    "read_back_refuted",
    "precision_refuted",
    "terms_sort"
   ],
   "note": "4 theorems of the property; parts of the intended behaviour that the code does not have are proved false: comma_refuted, constants_refuted, read_back_refuted, precision_refuted"
  },
  {
   "property": "C83",
   "status": "proved",
   "theorems": [
    "never_undefined",
    "copy_equal",
    "copy_same",
    "assign_equal",
    "terms_equal",
    "term_assign_equal",
    "setup_as_new",
    "set_copy_equal",
    "set_assign_equal",
    "add_equal",
    "add_values",
    "independent",
    "independent_for_ever",
    "sets_independent",
    "not_shared",
    "bases_released",
    "careful_released",
    "set_dropped_refuted",
    "ids_stay",
    "lookup",
    "negative_index_refuted",
    "rounds_refuted",
    "rounds_new_refuted"
   ],
   "note": "19 theorems of the property; parts of the intended behaviour that the code does not have are proved false: set_dropped_refuted, negative_index_refuted, rounds_refuted, rounds_new_refuted"
  },
  {
   "property": "C84",
   "status": "proved",
   "theorems": [
    "never_undefined",
    "independent",
    "handed_out_stays",
    "copy_equal",
    "assign_equal",
    "new_handler",
    "solver_set",
    "released",
    "second_solver_refuted",
    "copy_of_new_refuted",
    "other_class_refuted",
    "tree_handlers",
    "prlp_copy_refuted"
   ],
   "note": "9 theorems of the property; parts of the intended behaviour that the code does not have are proved false: second_solver_refuted, copy_of_new_refuted, other_class_refuted, prlp_copy_refuted"
  },
  {
   "property": "C85",
   "status": "proved",
   "theorems": [
    "limits_last",
    "messages",
    "loud_again_refuted",
    "special_options",
    "branching_option",
    "tree_solver",
    "prepared_twice_refuted",
    "other_option_refuted",
    "never_undefined",
    "other_class_refuted",
    "library_load",
    "same_as_command_line",
    "errors_accepted_refuted",
    "no_extension_refuted"
   ],
   "note": "8 theorems of the property; parts of the intended behaviour that the code does not have are proved false: loud_again_refuted, prepared_twice_refuted, other_option_refuted, other_class_refuted, errors_accepted_refuted, no_extension_refuted"
  },
  {
   "property": "C86",
   "status": "proved",
   "theorems": [
    "vector_told",
    "vectors_told",
    "array_told",
    "infinite_refuted",
    "separator_refuted",
    "matrix_told",
    "statistics_told"
   ],
   "note": "5 theorems of the property; parts of the intended behaviour that the code does not have are proved false: infinite_refuted, separator_refuted"
  },
  {
   "property": "C87",
   "status": "proved",
   "theorems": [
    "as_values",
    "never_undefined",
    "no_leak",
    "copy_answers_alike",
    "trust_has_no_effect",
    "search_uses_settings",
    "candidates_counted",
    "branched_until_trusted",
    "shadow_mode_unused",
    "after_infeasible_refuted",
    "lower_strong_refuted",
    "pseudocosts_refuted"
   ],
   "note": "9 theorems of the property; parts of the intended behaviour that the code does not have are proved false: after_infeasible_refuted, lower_strong_refuted, pseudocosts_refuted"
  },
  {
   "property": "C88",
   "status": "proved",
   "theorems": [
    "scaled_same",
    "defined_iff",
    "balanced",
    "too_big_refuted",
    "idempotent_refuted",
    "no_tolerance_refuted",
    "row_norm",
    "by_columns_refuted"
   ],
   "note": "4 theorems of the property; parts of the intended behaviour that the code does not have are proved false: too_big_refuted, idempotent_refuted, no_tolerance_refuted, by_columns_refuted"
  },
  {
   "property": "C89",
   "status": "proved",
   "theorems": [
    "nearly_valid_on_terms",
    "cleaning_costs",
    "error_bound",
    "produced_cut_nearly_valid",
    "exact_case",
    "split_call_nearly_valid",
    "tree_call_nearly_valid",
    "exact_validity_refuted"
   ],
   "note": "7 theorems of the property; parts of the intended behaviour that the code does not have are proved false: exact_validity_refuted"
  },
  {
   "property": "C90",
   "status": "proved",
   "theorems": [
    "objective_cut_exact",
    "objective_cut_refuted",
    "call_keeps",
    "main_keeps_point",
    "main_same_problem",
    "optimum_closes_gap"
   ],
   "note": "5 theorems of the property; parts of the intended behaviour that the code does not have are proved false: objective_cut_refuted"
  },
  {
   "property": "C91",
   "status": "proved",
   "theorems": [
    "files_after",
    "files_exit",
    "set_picture_refuted",
    "negative_flips",
    "negative_drawing_refuted",
    "no_values",
    "plot_file"
   ],
   "note": "5 theorems of the property; parts of the intended behaviour that the code does not have are proved false: set_picture_refuted, negative_drawing_refuted"
  },
  {
   "property": "C92",
   "status": "proved",
   "theorems": [
    "term_exact",
    "root_exact",
    "check_symmetric",
    "checks_agree",
    "wrong_sign_refuted",
    "checks_differ_refuted",
    "second_chance_refuted"
   ],
   "note": "4 theorems of the property; parts of the intended behaviour that the code does not have are proved false: wrong_sign_refuted, checks_differ_refuted, second_chance_refuted"
  }
 ]
}