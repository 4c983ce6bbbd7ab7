# What `Print Assumptions` lists for each theorem

Generated from the build (`Print Assumptions` follows every theorem in its file too).
"closed" = *Closed under the global context*, i.e. no axiom at all.

777 theorems, 759 closed.

## C01_CutValidity
closed: `vpc_valid_tolerance`, `vpc_valid_on_terms`, `vpc_valid_for_integer_points`, `vpc_valid_at_integer_solution`, `vpc_unsolved_term_refuted`, `vpc_integer_leaf_refuted`

## C02_CutConversion
closed: `cut_conversion_exact`, `cut_conversion_tolerance`, `cut_conversion_columns`, `cut_conversion_unordered_refuted`, `cut_conversion_free_column_refuted`

## C03_NBCoordinates
closed: `nb_point_faithful`, `nb_point_exact`, `nb_given_point_faithful`, `nb_point_objective`, `nb_given_point_objective`, `nb_root_is_origin`, `nb_point_sorted_refuted`, `nb_root_ranged_row_refuted`

## C04_TermRelaxed
closed: `term_relaxed_tolerance`, `term_relaxed`, `ray_objective`, `term_relaxed_free_refuted`

## C05_Split
closed: `split_covers`, `split_failure_keeps_points`, `no_split_reported_refuted`, `prepare_twice_refuted`, `split_choice`

## C06_RootBounds
closed: `root_bounds_saved`, `root_side_unique`, `second_branch_side_refuted`

## C06_tree_coverage
closed: `tree_covers`, `tree_covers_kept`, `pruned_covered_refuted`, `kept_dropped_refuted`, `misjudged_then_save_refuted`

## C07_term_boxes
closed: `term_box`, `term_box_exact`, `small_move_refuted`

## C08_TermSolver
closed: `term_solver_rows`, `term_solver_bounds`, `term_solver_keeps_points`, `setup_term_solver`, `root_cuts_match`, `objective_check`, `common_ineqs_refuted`, `loosening_refuted`, `objective_sign_refuted`

## C09_PRLPSetup
closed: `setup_sound`, `setup_complete`, `setup_sound_bound`, `setup_equivalent`, `stronger_point_refuted`, `infeasible_row_check_refuted`, `setup_exit`

## C10_CollectionShape
closed: `collection_shape`, `collection_needs_optimality`

## C11_RowCompare
closed: `row_compare_sound`, `row_compare_multiple`, `row_compare_opposite_refuted`, `row_compare_scale_refuted`

## C12_Duplicates
closed: `duplicate_discarded`, `stronger_duplicate_refuted`, `added_cut_orthogonal`, `refused_cut_parallel`, `no_parallel_cuts`, `root_duplicates_refuted`

## C13_RemoveSmall
closed: `remove_small_valid_tolerance`, `remove_small_valid`, `remove_small_kept`, `remove_small_all_refuted`, `remove_small_valid_refuted`

## C14_CleanCut
closed: `clean_cut_accepted`, `clean_cut_rejected`

## C15_Orthogonality
`orthogonality_range`: `ClassicalDedekindReals.sig_not_dec`, `ClassicalDedekindReals.sig_forall_dec`, `FunctionalExtensionality.functional_extensionality_dep`

`orthogonality_values`: `ClassicalDedekindReals.sig_not_dec`, `ClassicalDedekindReals.sig_forall_dec`, `FunctionalExtensionality.functional_extensionality_dep`

`overloads_agree`: `ClassicalDedekindReals.sig_not_dec`, `ClassicalDedekindReals.sig_forall_dec`, `FunctionalExtensionality.functional_extensionality_dep`

`orthogonality_scale`: `ClassicalDedekindReals.sig_not_dec`, `ClassicalDedekindReals.sig_forall_dec`, `FunctionalExtensionality.functional_extensionality_dep`

`orthogonality_abs_refuted`: `ClassicalDedekindReals.sig_not_dec`, `ClassicalDedekindReals.sig_forall_dec`, `FunctionalExtensionality.functional_extensionality_dep`

## C16_SetRowCut
closed: `set_row_cut_entries`, `set_row_cut_dense`, `set_row_cut_renamed`, `set_row_cut_same_model`

## C17_Bookkeeping
closed: `bookkeeping_aligned`, `bookkeeping_in_range`, `bookkeeping_repeated`, `bookkeeping_counters_repeated_refuted`, `bookkeeping_shifted_refuted`, `bookkeeping_disjunction_refuted`

## C18_Objectives
closed: `objectives_accounted`, `objectives_check_never_aborts`, `objectives_call`, `failure_under_own_reason`, `failure_reasons_refuted`

## C19_CutLimit
closed: `cut_limit_value`, `cut_limit_respected`, `cut_limit_per_disjunction`, `cut_limit_total_set`, `cut_limit_repeated_refuted`

## C20_FailureLimit
closed: `failure_limit_decision`, `failure_limit_not_early`, `failure_limit_monotone`, `failure_limit_documented_refuted`, `failure_limit_time_refuted`

## C21_OneCut
closed: `one_cut_per_objective`, `given_cuts_untouched`, `returned_cuts_inherit`, `replacement_weakens_refuted`, `primal_infeasible_never_reported`

## C22_TightOnPoint
closed: `tight_on_point_restores`, `later_cuts_tight`, `last_candidate_refuted`, `subtract_refuted`

## C23_ExitReason
closed: `exit_reason_meaning`, `exit_reason_overwritten_refuted`, `early_exit_stale_refuted`

## C24_UserInput
closed: `user_disjunction_refuted`, `user_objectives_refuted`, `second_call_refuted`

## C25_Ownership
closed: `disciplined_use_is_safe`, `accessors_live`, `disjunctions_released`, `one_owner`, `copy_refuted`, `assign_from_owner_refuted`, `shared_flag_refuted`, `prlp_refuted`, `set_own_refuted`, `interface_life`, `interface_refuted`

## C26_DisjObj
closed: `obj_value_min_max`, `add_disjunction_summary`, `disjunction_set_summary`, `prepare_set`, `set_best_stale_refuted`, `split_best_refuted`

## C27_SplitSet
closed: `split_generation`, `split_generation_covers`, `common_changes_kept_refuted`

## C28_tree_size
closed: `stop_size`, `stop_size_kept`, `search_goes_on`, `prepare_after_stop`, `at_most_max_refuted`

## C29_strategy_digits
closed: `strategy_digits`, `strategy_total`

## C30_Names
closed: `terms_listed`, `inequalities_listed`, `description_determines_terms`, `printed_numbers`, `truncated_refuted`, `split_description`, `split_again_refuted`, `tree_description_shallow`, `tree_description_refuted`, `large_number_refuted`

## C30_TreeNames
closed: `solution_described`

## C31_Tolerance
closed: `tolerance_trichotomy`, `tolerance_meaning`, `infinity_meaning`, `neg_infinity_symmetric`, `isNegInfinity_default_characterised`, `isNegInfinity_default_refuted`, `tolerance_trichotomy_double_refuted`

## C32_Stats
`computeStats_correct`: `ClassicalDedekindReals.sig_not_dec`, `ClassicalDedekindReals.sig_forall_dec`, `FunctionalExtensionality.functional_extensionality_dep`

`computeStats_max_refuted`: `ClassicalDedekindReals.sig_not_dec`, `ClassicalDedekindReals.sig_forall_dec`, `FunctionalExtensionality.functional_extensionality_dep`

`incremental_equals_batch`: `ClassicalDedekindReals.sig_not_dec`, `ClassicalDedekindReals.sig_forall_dec`, `FunctionalExtensionality.functional_extensionality_dep`

`negative_prev_size_refuted`: `ClassicalDedekindReals.sig_not_dec`, `ClassicalDedekindReals.sig_forall_dec`, `FunctionalExtensionality.functional_extensionality_dep`

## C33_DotProducts
closed: `dotProduct_dense_is_sum`, `dotProduct_sparse_dense_is_sum`, `dotProduct_sparse_sparse_is_sum`, `dotProduct_overloads_agree`, `dotProductNoCompensation_same`, `dotProduct_sparse_sparse_unsorted_refuted`

## C34_PackedSum
closed: `packedSortedVectorSum_correct`, `packedSortedVectorSum_exact`, `packedSortedVectorSum_one_zero`, `packedSortedVectorSum_both_zero_refuted`, `packedSortedVectorSum_eps_bound_refuted`

## C35_NumberParsing
closed: `parse_long`, `numeral_unique`, `parse_int`, `parse_int_rejects`, `parse_int_out_of_range_refuted`, `parse_double`, `parse_double_value`, `parse_double_overflow_refuted`

## C36_FileNames
closed: `filename_join`, `filename_failure`, `filename_parts`, `dotted_directory_refuted`

## C37_CaseConversion
closed: `case_insensitive`, `case_conversion`, `underscore_insensitive`, `vector_conversion`

## C38_ReadFiles
closed: `lookup_value`, `lookup_default`, `lookup_file`, `missing_value_refuted`, `unnamed_instance_refuted`, `solution_read`, `solution_two_spaces_refuted`

## C39_Timers
closed: `total_time`, `value_when_off`, `limit_reached`, `independent`, `unknown_timer`, `assertion_iff`, `print_times`, `print_names_refuted`, `reregister_refuted`

## C40_TimerBrackets
closed: `generate_cuts_brackets`, `routines_bracket`, `split_search_refuted`, `collection_limit_refuted`

## C41_SetByName
closed: `parameters_present`, `set_then_get`, `set_string_total`, `set_by_name_refuted`, `names_distinct`, `read_params`, `disj_options`, `disj_options_status_refuted`

## C42_Domains
closed: `int_domain`, `int_set_iff`, `double_domain`, `double_set_iff`, `double_domain_refuted`, `documented_values_refuted`, `defaults`

## C43_OptionBits
closed: `temp_options`, `bb_options`, `bb_option_list`, `bb_option_list_repeated_refuted`

## C44_BasisStatus
closed: `status_partition`, `status_superbasic_unclassified`, `fixed_side`, `slack_flip`

## C45_Minimisation
closed: `minimise_equivalent`, `flip_equivalent`, `initialize_solver`, `no_objective_refuted`

## C46_ObjectiveUpdate
closed: `add_to_objective`, `add_to_objective_mapped`, `add_nothing`, `set_constant`, `tiny_multiplier_refuted`, `unit_norm_refuted`

## C47_CandidateList
closed: `candidate_list`, `candidate_list_infeasible`, `default_merit_positive`, `merit_estimate`, `nonpositive_values_refuted`

## C47_FixedOrder
closed: `fixed_order`, `fixed_order_path`, `fixed_order_no_abort`, `general_integers_refuted`, `infeasible_node_refuted`

## C47_StrongBranching
closed: `best_branch`, `better_branch_after_solution`, `better_branch_before_solution`, `documented_merit`, `choose_variable_best`, `choose_variable_codes`, `stale_second_refuted`, `best_refuted`, `strong_branching_outcome`, `forced_way_feasible`, `infeasible_side_estimate`, `infeasible_side_refuted`

## C48_NodeOrder
closed: `bfs_strict_weak_order`, `bfs_prefers_shallow`, `bfs_explores_by_depth`

## C49_SortOrders
closed: `sort_orders`, `activity_orders`, `nan_key_refuted`, `ray_order_refuted`, `ray_order_limits`, `ray_update`

## C50_CutFormats
closed: `sparse_exact`, `no_pool`, `dense_exact_iff`, `dense_truncates_refuted`, `direction_lost_refuted`, `column_cuts_refuted`

## C51_Cleaning
closed: `cleaning_keeps_integer_points`, `giving_up_is_justified`, `bounds_never_loosened`, `cleaning_report`, `repeated_cleaning_keeps_integer_points`, `maximisation_refuted`, `stale_solution_refuted`, `stale_count_refuted`, `branching_bound_lost_refuted`

## C52_BBInfo
closed: `best_over_runs`, `first_and_all_runs`, `average_over_runs`, `average_reused_refuted`, `runs_planned`, `all_cuts_number_refuted`, `entries_joined`

## C53_Permutation
closed: `square_same_points`, `square_no_other_points`, `square_same_objective`, `integrality_marked`, `integrality_refuted`, `more_columns_refuted`, `fewer_columns_refuted`, `cuts_not_renamed_refuted`

## C54_ApplyCuts
closed: `apply_cuts_value`, `apply_cuts_infinity`, `get_obj_value`, `get_obj_value_nocuts`, `infeasible_refuted`, `guards_refuted`

## C55_end_to_end
closed: `produced_cut_valid`, `loaded_solution_ok`, `split_call_valid`, `tree_call_valid`

## C56_ProblemData
closed: `nonbasic_variables`, `nonbasic_index`, `original_rows`, `term_tableau`, `nonbasic_objective`, `reduced_costs_checked`, `problem_data_abort`, `instance_epsilon`, `still_nonbasic_entry_refuted`, `explicit_zero_refuted`

## C57_CallerSolver
closed: `caller_kept`, `caller_changed_refuted`

## C58_LoadArrays
closed: `load_arrays_effect`, `load_arrays_faithful`, `fixed_binary_refuted`, `offset_refuted`, `semi_integer_refuted`

## C59_PointCandidates
closed: `point_candidates`

## C59_Schedule
closed: `schedule_entries`, `schedule_keeps_region`, `schedule_shape`, `budgets`, `schedule_defined`, `last_point_refuted`, `best_point_refuted`, `no_point_refuted`

## C60_Bilinear
closed: `point_objective_nb`, `point_objective_structural`, `point_objective_structural_value`, `structural_point_refuted`, `post_objective_nb`, `post_objective_stale_refuted`, `bilinear_procedure`

## C61_Library
closed: `apply_exact`, `session_preserves`, `session_bound`, `reload_refuted`, `applied_once_refuted`, `split_rounds_valid`

## C62_MainRounds
closed: `solver_contents`, `rounds_valid`, `reported_bounds`, `reported_counts`, `reported_disjunctive_bounds`, `stopping`, `round_start`, `round_start_refuted`, `limit_refuted`, `disjunctive_bound_refuted`

## C63_CutStatistics
closed: `density_is_support`, `active_iff`, `violated_count`, `violated_none`, `min_max_support_refuted`, `merge_sums`, `run_statistics_true`, `update_adds`, `gmic_update_adds`, `merge_active`, `run_attempts`, `repeated_counts`, `repeated_stale_refuted`, `repeated_average_refuted`, `preset_disjunction_refuted`, `custom_none_refuted`, `custom_shares`, `custom_share_zero_refuted`, `one_disjunction`, `disjunction_average_refuted`, `one_per_round`

## C64_LogRow
closed: `columns`, `duplicate_names`, `category_labels`, `line_readable`, `comma_refuted`, `gap_closed`, `gap_of_run`, `no_gap_refuted`, `frac_is_distance`, `column_statistics`, `row_statistics`, `density_share`, `density_overflow_refuted`, `row_printed`, `cut_columns`, `one_sided_columns_refuted`, `no_runs_refuted`

## C64_Sizes
closed: `sizes_of_instance`

## C65_CommandLine
closed: `spelling`, `operands_ignored`, `end_of_options`, `int_option`, `int_option_wraps_refuted`, `double_option`, `string_option`, `last_wins`, `all_accepted`, `any_rejected`, `toggle_option`, `best_bound_off_refuted`, `heuristics_presolve_refuted`, `strategy_option`, `unbuilt_solver_refuted`, `preprocess_option`, `temp_option`, `temp_negative_refuted`, `tikz_option`, `help_stops`, `missing_value`, `start_needs_file`, `start_value_given`, `start_value_read`, `start_value_other`, `start_value_missing_refuted`, `start_help`

## C66_Resolving
closed: `hot_answer`, `hot_always`, `hot_disabled`, `hot_extends`, `hot_counts`, `hot_counter`, `hot_solves`, `hot_protocol`, `hot_bounds`, `hot_solved`, `hot_mark`, `hot_mark_zero`, `probe_split_restores`, `probe_run_restores`, `probe_clean_restores`, `strong_restores`, `strong_judges`, `strong_copies_refuted`, `check_true`, `check_answer`, `check_exit`, `check_no_exit`, `check_bounds`, `check_effort`, `check_deadline`, `check_factorization`, `check_cleans`, `check_clean_why`, `check_clean_needed`, `check_effort_refuted`, `check_factorization_refuted`, `check_deadline_refuted`, `check_dual_infeasible_refuted`, `enable_clp`, `enable_other`, `failures_bounded`, `disabled_for_good`, `failures_bounded_refuted`, `fresh_counter_refuted`, `hot_mark_refuted`

## C67_DriverSettings
closed: `gurobi_settings`, `cplex_settings`, `cbc_settings`, `cbc_options_refuted`, `other_options_ignored`, `solver_chosen`, `negative_strategy_refuted`, `user_cuts_run`, `seeds`, `seeds_refuted`, `gurobi_handed`, `gurobi_handed_refuted`, `cplex_handed`, `copy_files`, `no_file_left_refuted`, `extension`, `extension_refuted`, `cut_check`, `valid_cuts_pass`, `gurobi_cut_check`, `gurobi_cut_check_refuted`

## C68_DriverReports
closed: `gurobi_passes`, `gurobi_best_solution`, `gurobi_cuts_added`, `gurobi_cuts_added_refuted`, `gurobi_no_pass`, `gurobi_one_pass`, `gurobi_one_pass_refuted`, `gurobi_more_passes`, `gurobi_order`, `gurobi_reported`, `gurobi_statuses`, `gurobi_solution_value`, `cplex_passes`, `cplex_incumbent`, `cplex_incumbent_refuted`, `cplex_last_pass`, `cplex_last_pass_refuted`, `cplex_first_pass`, `cplex_order`, `cplex_reported`, `cplex_statuses`, `cplex_no_solution_refuted`, `cbc_run`, `cbc_run_refuted`, `cbc_rounds`, `cbc_reported`, `cbc_reported_refuted`, `cbc_file_refuted`

## C69_Preprocess
closed: `min_form_same`, `cleaned_problem`, `tests_run`, `tests_skipped_refuted`, `nothing_changed`, `no_presolver_refuted`, `start_solution_refuted`, `cleaned_file`, `presolved_file`, `temporary_left_refuted`, `columns_front`, `columns_refuted`, `labels`, `labels_refuted`, `no_log`, `bounds_tightened`, `change_unnoticed_refuted`

## C70_Program
closed: `start_agrees`, `exit_code`, `stops_early`, `integral_start`, `goes_on`, `only_grows`, `log_of_runs`, `tolerance_refuted`, `reference_value`, `reference_optimal`, `reference_options_refuted`, `reference_constant_refuted`, `early_total_time_refuted`, `unfinished_line_refuted`, `header_missing_refuted`, `mixed_modes_refuted`, `early_preprocessing_row_refuted`, `concurrent_runs_refuted`, `option_count_refuted`

## C71_PartialTree
closed: `search_settings`, `settings_total`, `nothing_requested`, `preparation_outcome`, `success_covers`, `failed_leaves_terms_refuted`, `prepare_again_refuted`, `hot_start_refuted`, `compare_five_refuted`, `choose_ignored_refuted`, `special_flag_refuted`, `special_flag`, `other_solver_refuted`, `traced_success_refuted`, `drawing_options`, `trees_requested`, `small_numbers_refuted`, `set_reason_spec`, `set_success_refuted`

## C72_GomoryRounds
closed: `rounds_end`, `result_determined`, `rounds_history`, `returned_bound`, `returned_exact`, `returns`, `nonpositive_target`, `round_limit_refuted`, `number_of_rounds_refuted`, `bound_met_refuted`

## C73_CutRounds
closed: `same_rounds`, `file_lines`, `times_add_up`, `density_range_refuted`, `timers_ready`, `file_name`, `file_name_refuted`

## C74_Incumbent
closed: `accepted_solution`, `rows_never_matter`, `rows_checked_refuted`, `created_iff`, `leftover_point`, `infeasible_recorded_integer_refuted`, `saved_is_announced`, `saved_improves`, `improving_saved_iff`, `improving_solution_lost_refuted`, `nothing_saved_refuted`

## C75_TreeDrawing
closed: `plot_shows_search`, `picture_shows_search`, `stale_leaves_refuted`, `strong_branching_refuted`, `caption_says`, `caption_leafs_refuted`, `finished_search_marked`

## C76_ConditionNumber
`norm1_condition`: `ClassicalDedekindReals.sig_forall_dec`, `FunctionalExtensionality.functional_extensionality_dep`

`norm1_never_small`: `ClassicalDedekindReals.sig_forall_dec`, `FunctionalExtensionality.functional_extensionality_dep`

`norm2_condition`: `ClassicalDedekindReals.sig_not_dec`, `ClassicalDedekindReals.sig_forall_dec`, `FunctionalExtensionality.functional_extensionality_dep`

`no_condition`: `ClassicalDedekindReals.sig_forall_dec`, `FunctionalExtensionality.functional_extensionality_dep`

`svd_fails`: `ClassicalDedekindReals.sig_forall_dec`, `FunctionalExtensionality.functional_extensionality_dep`

`small_basis_refuted`: `ClassicalDedekindReals.sig_forall_dec`, `FunctionalExtensionality.functional_extensionality_dep`

`no_rows_refuted`: `ClassicalDedekindReals.sig_forall_dec`, `FunctionalExtensionality.functional_extensionality_dep`

## C77_ConvertCplex
closed: `convert_faithful`, `constant_refuted`, `infinite_bound_refuted`, `ranged_row_refuted`, `no_nonzeros_refuted`, `failing_query`, `no_types_refuted`, `semicontinuous_refuted`

## C78_Report
closed: `report_lines`, `no_disjunction_refuted`, `small_values_refuted`, `vpc_only_refuted`, `table_rows`, `wide_value_refuted`

## C79_CustomRound
closed: `splits_setup`, `tree_setup`, `failed_tree_added_refuted`, `other_modes`, `custom_never_cuts_refuted`, `records_kept`, `cuts_fix_solution`, `custom_ends_program_refuted`, `no_bounds_refuted`, `largest_bound_refuted`

## C80_PRLPSolve
closed: `resolve_operations`, `resolve_retries`, `resolve_code`, `resolve_time`, `setup_solves`, `setup_reason`, `run_time`, `limit_once`, `one_objective_refuted`, `finite_value_refuted`, `default_refuted`, `default_limits`, `own_limit_refuted`, `negative_no_limit`, `infeasible_unknown`

## C81_NodeTable
closed: `node_table_reads`, `node_table_bounds`, `node_table_aligned`, `node_table_misaligned_refuted`, `node_table_joined_refuted`

## C82_PrintParams
closed: `printed`, `prints_nothing`, `header_matches_row`, `comma_refuted`, `constants_refuted`, `read_back_refuted`, `precision_refuted`, `terms_sort`

## C83_Copies
closed: `never_undefined`, `copy_equal`, `copy_same`, `assign_equal`, `terms_equal`, `term_assign_equal`, `setup_as_new`, `set_copy_equal`, `set_assign_equal`, `add_equal`, `add_values`, `independent`, `independent_for_ever`, `sets_independent`, `not_shared`, `bases_released`, `careful_released`, `set_dropped_refuted`, `ids_stay`, `lookup`, `negative_index_refuted`, `rounds_refuted`, `rounds_new_refuted`

## C84_Handlers
closed: `never_undefined`, `independent`, `handed_out_stays`, `copy_equal`, `assign_equal`, `new_handler`, `solver_set`, `released`, `second_solver_refuted`, `copy_of_new_refuted`, `other_class_refuted`, `tree_handlers`, `prlp_copy_refuted`

## C85_Settings
closed: `limits_last`, `messages`, `loud_again_refuted`, `special_options`, `branching_option`, `tree_solver`, `prepared_twice_refuted`, `other_option_refuted`, `never_undefined`, `other_class_refuted`, `library_load`, `same_as_command_line`, `errors_accepted_refuted`, `no_extension_refuted`

## C86_PrintVectors
closed: `vector_told`, `vectors_told`, `array_told`, `infinite_refuted`, `separator_refuted`, `matrix_told`, `statistics_told`

## C87_Choosers
closed: `as_values`, `never_undefined`, `no_leak`, `copy_answers_alike`, `trust_has_no_effect`, `search_uses_settings`, `candidates_counted`, `branched_until_trusted`, `shadow_mode_unused`, `after_infeasible_refuted`, `lower_strong_refuted`, `pseudocosts_refuted`

## C88_ScaleCut
closed: `scaled_same`, `defined_iff`, `balanced`, `too_big_refuted`, `idempotent_refuted`, `no_tolerance_refuted`

`row_norm`: `ClassicalDedekindReals.sig_not_dec`, `ClassicalDedekindReals.sig_forall_dec`, `FunctionalExtensionality.functional_extensionality_dep`

`by_columns_refuted`: `ClassicalDedekindReals.sig_not_dec`, `ClassicalDedekindReals.sig_forall_dec`, `FunctionalExtensionality.functional_extensionality_dep`

## C89_Tolerances
closed: `nearly_valid_on_terms`, `cleaning_costs`, `error_bound`, `produced_cut_nearly_valid`, `exact_case`, `split_call_nearly_valid`, `tree_call_nearly_valid`, `exact_validity_refuted`

## C90_MainEndToEnd
closed: `objective_cut_exact`, `objective_cut_refuted`, `call_keeps`, `main_keeps_point`, `main_same_problem`, `optimum_closes_gap`

## C91_TreeFiles
closed: `files_after`, `files_exit`, `set_picture_refuted`, `negative_flips`, `negative_drawing_refuted`, `no_values`, `plot_file`

## C92_ObjectiveCheck
closed: `term_exact`, `root_exact`, `check_symmetric`, `checks_agree`, `wrong_sign_refuted`, `checks_differ_refuted`, `second_chance_refuted`

