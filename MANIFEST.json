{
 "claims": [
  {
   "property": "C01",
   "status": "proved",
   "theorems": [
    "C01_search_sublist_bm_first_occurrence",
    "C01_is_sublist_bm_iff"
   ],
   "note": ""
  },
  {
   "property": "C02",
   "status": "proved",
   "theorems": [
    "C02_all_occurrences"
   ],
   "note": ""
  },
  {
   "property": "C03",
   "status": "proved",
   "theorems": [
    "C03_partitions",
    "C03_partitions_error"
   ],
   "note": ""
  },
  {
   "property": "C04",
   "status": "proved",
   "theorems": [
    "C04_longest_common_sublists"
   ],
   "note": ""
  },
  {
   "property": "C05",
   "status": "proved",
   "theorems": [
    "C05_deep_flatten",
    "C05_enumerate_reversed",
    "C05_iterate_self_product"
   ],
   "note": ""
  },
  {
   "property": "C06",
   "status": "proved",
   "theorems": [
    "C06_shuffle_together"
   ],
   "note": ""
  },
  {
   "property": "C07",
   "status": "proved",
   "theorems": [
    "C07_all_splits",
    "C07_all_splits_error"
   ],
   "note": ""
  },
  {
   "property": "C08",
   "status": "proved",
   "theorems": [
    "C08_length_of_common_subsequence_maximal"
   ],
   "note": ""
  },
  {
   "property": "C09",
   "status": "proved",
   "theorems": [
    "C09_lcs_with_backtrace"
   ],
   "note": ""
  },
  {
   "property": "C10",
   "status": "proved",
   "theorems": [
    "C10_levenshtein_distance"
   ],
   "note": ""
  },
  {
   "property": "C11",
   "status": "proved",
   "theorems": [
    "C11_levenshtein_operations",
    "C11_diverges_on_long_input"
   ],
   "note": ""
  },
  {
   "property": "C12",
   "status": "proved",
   "theorems": [
    "C12_operations_order",
    "C12_not_monotone_witness"
   ],
   "note": "Exact arrangement proved; witness that it is not sequence order (edits.reverse() runs inside the loop)."
  },
  {
   "property": "C13",
   "status": "proved",
   "theorems": [
    "C13_cost",
    "C13_returns",
    "C13_unit_insertions",
    "C13_not_cheapest_witness",
    "C13_operations_witness"
   ],
   "note": "Exact meaning of the cost for every weighting; witnesses that it is not the cheapest script (matrix borders ignore the costs) and that the operations may not fit (a substitution cheaper than the minimum of the neighbours is taken for a match)."
  },
  {
   "property": "C14",
   "status": "proved",
   "theorems": [
    "C14_prime_factors",
    "C14_zero_diverges",
    "C14_terminates",
    "C14_negative",
    "C14_beyond_float_precision"
   ],
   "note": "Includes the rounding of the float quotient; the bound 2^53 is exactly where the claim starts to fail (witness 2^54+2 proved)."
  },
  {
   "property": "C15",
   "status": "proved",
   "theorems": [
    "C15_dice",
    "C15_jaccard",
    "C15_overlap",
    "C15_overlap_error",
    "C15_values"
   ],
   "note": ""
  },
  {
   "property": "C16",
   "status": "proved",
   "theorems": [
    "C16_getitem_last_assigned",
    "C16_inverse_all_ever_assigned",
    "C16_inverse_exact_without_reassignment"
   ],
   "note": "The inverse view keeps stale keys after re-assignment; shown in an Example."
  },
  {
   "property": "C17",
   "status": "proved",
   "theorems": [
    "C17_streaming_statistics",
    "C17_third_and_fourth_moment"
   ],
   "note": ""
  },
  {
   "property": "C18",
   "status": "proved",
   "theorems": [
    "C18_push_and_merge_histories",
    "C18_standard_deviation",
    "C18_private_third_moment_wraps"
   ],
   "note": "The private third moment is wrong after merging a larger into a smaller object (unsigned wrap-around); not observable through the API. Witness proved."
  },
  {
   "property": "C19",
   "status": "proved",
   "theorems": [
    "C19_samples_replay_the_generator",
    "C19_constructor"
   ],
   "note": ""
  },
  {
   "property": "C20",
   "status": "proved",
   "theorems": [
    "C20_primitive_repeat_type",
    "C20_empty_diverges"
   ],
   "note": ""
  },
  {
   "property": "C21",
   "status": "proved",
   "theorems": [
    "C21_is_tandem_array",
    "C21_empty_type_diverges"
   ],
   "note": ""
  },
  {
   "property": "C22",
   "status": "proved",
   "theorems": [
    "C22_maximal_runs",
    "C22_maximal_runs_of_types",
    "C22_sound_and_covering",
    "C22_non_primitive_witness"
   ],
   "note": "For a non-primitive repeat type the runs are not maximal (aa in aaaa, witness), so the maximality statement carries the hypothesis primitive; soundness and coverage are proved for every non-empty type."
  },
  {
   "property": "C23",
   "status": "proved",
   "theorems": [
    "C23_super_maximal_repeats"
   ],
   "note": ""
  },
  {
   "property": "C24",
   "status": "proved",
   "theorems": [
    "C24_reported_repeats",
    "C24_no_pair_missed",
    "C24_objects",
    "C24_left_maximality_witness",
    "C24_terminator_in_sequence_crashes",
    "C24_empty_sequence_crashes"
   ],
   "note": "Exact characterisation (suffix tree insertion verified); witness that left-maximality fails (`v not in word` compares a list with symbols); crash with '$' in the sequence proved."
  },
  {
   "property": "C25",
   "status": "proved",
   "theorems": [
    "C25_simple_log_round_trip",
    "C25_empty_trace_rejected"
   ],
   "note": ""
  },
  {
   "property": "C26",
   "status": "proved",
   "theorems": [
    "C26_dict_round_trip",
    "C26_only_transition_ids_lost",
    "C26_emptied_trace",
    "C26_transition_id_refuted"
   ],
   "note": "Round trip proved exactly up to transition ids; the _refuted theorem shows these are lost."
  },
  {
   "property": "C27",
   "status": "proved",
   "theorems": [
    "C27_filter_activities"
   ],
   "note": ""
  },
  {
   "property": "C28",
   "status": "proved",
   "theorems": [
    "C28_cut_traces",
    "C28_start_activity_refuted"
   ],
   "note": "Exact behaviour proved; the _refuted theorem records where the stronger reading fails."
  },
  {
   "property": "C29",
   "status": "proved",
   "theorems": [
    "C29_keep_first_occurence"
   ],
   "note": ""
  },
  {
   "property": "C30",
   "status": "proved",
   "theorems": [
    "C30_count_events",
    "C30_activity_set",
    "C30_activity_supports",
    "C30_start_activities",
    "C30_end_activities",
    "C30_emptied_trace_crashes"
   ],
   "note": ""
  },
  {
   "property": "C31",
   "status": "proved",
   "theorems": [
    "C31_count_follows"
   ],
   "note": ""
  },
  {
   "property": "C32",
   "status": "proved",
   "theorems": [
    "C32_train_test_partition",
    "C32_proportion_out_of_range",
    "C32_test_size",
    "C32_k_folds",
    "C32_k_out_of_range"
   ],
   "note": ""
  },
  {
   "property": "C33",
   "status": "proved",
   "theorems": [
    "C33_join_successive",
    "C33_join_succeeds"
   ],
   "note": ""
  },
  {
   "property": "C34",
   "status": "proved",
   "theorems": [
    "C34_log_equality",
    "C34_ids_ignored_refuted"
   ],
   "note": "Exact behaviour proved; the _refuted theorem records where the stronger reading fails."
  },
  {
   "property": "C35",
   "status": "proved",
   "theorems": [
    "C35_probability_checked",
    "C35_constructors",
    "C35_add_activity",
    "C35_remove_events",
    "C35_swap_events",
    "C35_swap_steps",
    "C35_probability_zero",
    "C35_combined"
   ],
   "note": ""
  },
  {
   "property": "C36",
   "status": "proved",
   "theorems": [
    "C36_execute",
    "C36_matches"
   ],
   "note": ""
  },
  {
   "property": "C37",
   "status": "proved",
   "theorems": [
    "C37_directly_follows_counts",
    "C37_counts_accumulate"
   ],
   "note": ""
  },
  {
   "property": "C38",
   "status": "proved",
   "theorems": [
    "C38_consistent",
    "C38_add_node",
    "C38_add_count",
    "C38_remove_edge",
    "C38_remove_node",
    "C38_copy"
   ],
   "note": ""
  },
  {
   "property": "C39",
   "status": "proved",
   "theorems": [
    "C39_reachability_kept",
    "C39_new_counts",
    "C39_unknown_activity"
   ],
   "note": ""
  },
  {
   "property": "C40",
   "status": "proved",
   "theorems": [
    "C40_shortest_path",
    "C40_same_activity",
    "C40_unknown_start",
    "C40_shortest_path_to_one_of"
   ],
   "note": ""
  },
  {
   "property": "C41",
   "status": "proved",
   "theorems": [
    "C41_reachable",
    "C41_reaching"
   ],
   "note": ""
  },
  {
   "property": "C42",
   "status": "proved",
   "theorems": [
    "C42_components",
    "C42_largest_component"
   ],
   "note": ""
  },
  {
   "property": "C43",
   "status": "proved",
   "theorems": [
    "C43_absolute",
    "C43_local",
    "C43_local_keep_one"
   ],
   "note": ""
  },
  {
   "property": "C44",
   "status": "proved",
   "theorems": [
    "C44_rename_to_fresh",
    "C44_rename_to_itself_refuted",
    "C44_rename_onto_existing_refuted"
   ],
   "note": "The two _refuted theorems show what happens outside the fresh-name case."
  },
  {
   "property": "C45",
   "status": "proved",
   "theorems": [
    "C45_disjoint_join",
    "C45_join_overwrites",
    "C45_sum_of_counts_refuted"
   ],
   "note": "Exact behaviour proved; C45_sum_of_counts_refuted refutes the reading that counts are added and shows the double registration."
  },
  {
   "property": "C46",
   "status": "proved",
   "theorems": [
    "C46_strongly_connected_components",
    "C46_components_in_topological_order"
   ],
   "note": ""
  },
  {
   "property": "C47",
   "status": "proved",
   "theorems": [
    "C47_edges_after_history",
    "C47_adjacent_nodes",
    "C47_adjacent_list"
   ],
   "note": ""
  },
  {
   "property": "C48",
   "status": "proved",
   "theorems": [
    "C48_nodes_are_the_prefixes",
    "C48_counts",
    "C48_node_ids",
    "C48_children_sorted",
    "C48_level_order",
    "C48_leaves"
   ],
   "note": ""
  },
  {
   "property": "C49",
   "status": "proved",
   "theorems": [
    "C49_states",
    "C49_last_step_wins",
    "C49_transitions",
    "C49_replay",
    "C49_representations"
   ],
   "note": ""
  },
  {
   "property": "C50",
   "status": "proved",
   "theorems": [
    "C50_tokens_non_negative",
    "C50_step",
    "C50_step_error"
   ],
   "note": ""
  },
  {
   "property": "C51",
   "status": "proved",
   "theorems": [
    "C51_fires_iff_enabled",
    "C51_effect",
    "C51_raises",
    "C51_not_atomic"
   ],
   "note": "The docstring does not say the net is unchanged on failure; C51_not_atomic shows it is not."
  },
  {
   "property": "C52",
   "status": "proved",
   "theorems": [
    "C52_is_workflow_net",
    "C52_transform",
    "C52_result_is_workflow_net"
   ],
   "note": ""
  },
  {
   "property": "C53",
   "status": "proved",
   "theorems": [
    "C53_make_id_unique",
    "C53_free_id_kept"
   ],
   "note": ""
  },
  {
   "property": "C54",
   "status": "proved",
   "theorems": [
    "C54_multiprocess",
    "C54_threading",
    "C54_empty_list",
    "C54_multiprocess_finishes",
    "C54_threading_finishes"
   ],
   "note": "Workers, queues and the main program as an interleaving semantics; schedules are arguments; termination and deadlock freedom proved with a bound on the schedule length. The ray engine is the subject of C129."
  },
  {
   "property": "C55",
   "status": "proved",
   "theorems": [
    "C55_multiprocess_map",
    "C55_multiprocess_map_filter",
    "C55_multiprocess_map_reduce",
    "C55_threading_map",
    "C55_threading_map_filter",
    "C55_threading_map_reduce",
    "C55_multiprocess_finishes",
    "C55_threading_finishes"
   ],
   "note": "Invariant over all interleavings; permutation of the multiset of results."
  },
  {
   "property": "C56",
   "status": "proved",
   "theorems": [
    "C56_multiprocess_map",
    "C56_multiprocess_map_filter",
    "C56_multiprocess_map_reduce",
    "C56_stop_iteration_truncates"
   ],
   "note": "The StopIteration loss in the multiprocess map is stated exactly in C56_stop_iteration_truncates."
  },
  {
   "property": "C57",
   "status": "proved",
   "theorems": [
    "C57_clustering",
    "C57_distinct_medoids",
    "C57_number_of_clusters"
   ],
   "note": "Exact rationals instead of floats; termination by a rank measure on column sums."
  },
  {
   "property": "C58",
   "status": "proved",
   "theorems": [
    "C58_decode",
    "C58_partition",
    "C58_empty"
   ],
   "note": ""
  },
  {
   "property": "C59",
   "status": "proved",
   "theorems": [
    "C59_unique_ids",
    "C59_features_match",
    "C59_unique_values",
    "C59_attribute_names",
    "C59_add_instance",
    "C59_remove_attribute",
    "C59_add_attribute",
    "C59_reused_name",
    "C59_shared_instances",
    "C59_copy"
   ],
   "note": "Instances are heap objects, so sharing between datasets is visible. C59_reused_name and C59_shared_instances state exactly how the guarantees fail outside their hypotheses."
  },
  {
   "property": "C60",
   "status": "proved",
   "theorems": [
    "C60_subdataset",
    "C60_split",
    "C60_split_bad_proportion",
    "C60_split_float",
    "C60_split_float_empty",
    "C60_random_subset",
    "C60_group_by"
   ],
   "note": "Float rounding of the split index in binary64 (SpecFloat): C60_split_float_empty exhibits the lost guarantee of a non-empty test set."
  },
  {
   "property": "C61",
   "status": "proved",
   "theorems": [
    "C61_label_encoding",
    "C61_one_hot",
    "C61_min_max_scaling",
    "C61_min_max_undefined"
   ],
   "note": "Min-max scaling in exact rationals. Colliding one-hot column names lose information (Example C61_column_clash)."
  },
  {
   "property": "C62",
   "status": "proved",
   "theorems": [
    "C62_remove_noise",
    "C62_add_noise",
    "C62_swap_noise",
    "C62_noise_dataset",
    "C62_noise_in_turn",
    "C62_removed_events",
    "C62_added_events",
    "C62_swapped_events"
   ],
   "note": "Random numbers are arguments."
  },
  {
   "property": "C63",
   "status": "proved",
   "theorems": [
    "C63_cached",
    "C63_exception_not_cached",
    "C63_evaluates",
    "C63_no_interference",
    "C63_collision",
    "C63_no_key",
    "C63_incomplete_file",
    "C63_killed_before"
   ],
   "note": "Pickle is a parameter assumed to load what it dumps and to reject incomplete files; concurrent processes are the subject of C132."
  },
  {
   "property": "C64",
   "status": "proved",
   "theorems": [
    "C64_statistics",
    "C64_counts",
    "C64_fic_file",
    "C64_fic_counts_reversed",
    "C64_fic_counts_witness",
    "C64_fic_empty",
    "C64_dat_file",
    "C64_dat_same_code"
   ],
   "note": "Restated with the exact order of the 'ac' line (reverse of 'ab'), with a witness; number printing not modelled."
  },
  {
   "property": "C65",
   "status": "proved",
   "theorems": [
    "C65_proper",
    "C65_flatten",
    "C65_only_leaves",
    "C65_edges_lost",
    "C65_self_nested",
    "C65_unknown_node",
    "C65_dict_round_trip",
    "C65_reserved_attribute_witness",
    "C65_equality"
   ],
   "note": "Restated exactly: high-level edges can be lost; reserved attribute names break the dictionary round trip (witness)."
  },
  {
   "property": "C66",
   "status": "proved",
   "theorems": [
    "C66_find_primitive_tandem_repeats"
   ],
   "note": ""
  },
  {
   "property": "C67",
   "status": "proved",
   "theorems": [
    "C67_constructor",
    "C67_is_maximal",
    "C67_number_of_repeats_witness"
   ],
   "note": "Exact acceptance condition and is_maximal; witness that too large a count is accepted."
  },
  {
   "property": "C68",
   "status": "proved",
   "theorems": [
    "C68_super_maximal",
    "C68_near_super_maximal"
   ],
   "note": ""
  },
  {
   "property": "C69",
   "status": "proved",
   "theorems": [
    "C69_repeats_over_log",
    "C69_inside_traces_twice"
   ],
   "note": ""
  },
  {
   "property": "C70",
   "status": "proved",
   "theorems": [
    "C70_derive_durations",
    "C70_succeeds"
   ],
   "note": ""
  },
  {
   "property": "C71",
   "status": "proved",
   "theorems": [
    "C71_allowed_starts",
    "C71_allowed_ends"
   ],
   "note": ""
  },
  {
   "property": "C72",
   "status": "proved",
   "theorems": [
    "C72_generated_traces",
    "C72_every_walk",
    "C72_failures"
   ],
   "note": ""
  },
  {
   "property": "C73",
   "status": "proved",
   "theorems": [
    "C73_eventually_follows",
    "C73_empty_trace"
   ],
   "note": ""
  },
  {
   "property": "C74",
   "status": "proved",
   "theorems": [
    "C74_equality"
   ],
   "note": "In this model drawings are compared by nodes and edges; C122 shows when their texts agree."
  },
  {
   "property": "C75",
   "status": "proved",
   "theorems": [
    "C75_select_nodes",
    "C75_sources_and_sinks"
   ],
   "note": ""
  },
  {
   "property": "C76",
   "status": "proved",
   "theorems": [
    "C76_exact",
    "C76_error",
    "C76_safe_marking",
    "C76_unsafe_markings"
   ],
   "note": "C76_unsafe_markings shows both deviations from the documented meaning outside safe markings."
  },
  {
   "property": "C77",
   "status": "proved",
   "theorems": [
    "C77_copy",
    "C77_guards_not_rebound"
   ],
   "note": ""
  },
  {
   "property": "C78",
   "status": "proved",
   "theorems": [
    "C78_one_hot",
    "C78_clusters",
    "C78_labels"
   ],
   "note": "External clustering algorithms are function arguments."
  },
  {
   "property": "C79",
   "status": "proved",
   "theorems": [
    "C79_clusters",
    "C79_distance",
    "C79_no_edges"
   ],
   "note": "fuzzy=False path; counts related to the log through C37."
  },
  {
   "property": "C80",
   "status": "proved",
   "theorems": [
    "C80_memberships",
    "C80_underflow",
    "C80_last_round",
    "C80_one_cluster",
    "C80_ends"
   ],
   "note": "exp is an arbitrary positive weight function over exact rationals, except in C80_ends, where it is the exponential function over real numbers. A coefficient that is not positive, rounding and NaN are left out."
  },
  {
   "property": "C81",
   "status": "proved",
   "theorems": [
    "C81_to_dataframe",
    "C81_create_from_pandas",
    "C81_dataframe_roundtrip"
   ],
   "note": "pandas' column type conversion is not modelled."
  },
  {
   "property": "C82",
   "status": "proved",
   "theorems": [
    "C82_select_attributes",
    "C82_remove_one_valued",
    "C82_transform_copy"
   ],
   "note": ""
  },
  {
   "property": "C83",
   "status": "proved",
   "theorems": [
    "C83_comparisons",
    "C83_none",
    "C83_truth",
    "C83_all_of"
   ],
   "note": "Numbers are rational."
  },
  {
   "property": "C84",
   "status": "proved",
   "theorems": [
    "C84_class_count",
    "C84_category_count",
    "C84_category_and_class_count",
    "C84_set_of_classes",
    "C84_subdataset"
   ],
   "note": "Exact counts, including the two surprises: attributes added later are only counted for later instances, and asking for an unknown label enters it into the set of classes. C84_example_late_attribute shows the undercount."
  },
  {
   "property": "C85",
   "status": "proved",
   "theorems": [
    "C85_labels",
    "C85_sequence_symbols",
    "C85_multiset_classes",
    "C85_subdataset",
    "C85_replaced_sequence_witness"
   ],
   "note": "C85_replaced_sequence_witness shows the stale symbol set."
  },
  {
   "property": "C86",
   "status": "proved",
   "theorems": [
    "C86_unique_sequences",
    "C86_by_frequency"
   ],
   "note": ""
  },
  {
   "property": "C87",
   "status": "proved",
   "theorems": [
    "C87_discretization",
    "C87_one_interval",
    "C87_undefined"
   ],
   "note": "Numbers are exact rationals instead of floats; str of a number is an argument."
  },
  {
   "property": "C88",
   "status": "proved",
   "theorems": [
    "C88_trained_bins",
    "C88_untrained"
   ],
   "note": "The bins are arbitrary here; their training (pandas.qcut) is the subject of C134. C88_example shows a value below all bins labelled with the last bin, although the comment in the code only speaks of larger values."
  },
  {
   "property": "C89",
   "status": "proved",
   "theorems": [
    "C89_get_marking",
    "C89_set_marking",
    "C89_set_marking_fails",
    "C89_set_marking_loop",
    "C89_matches_marking",
    "C89_roundtrip"
   ],
   "note": "Includes the state of the net after a failing set_marking."
  },
  {
   "property": "C90",
   "status": "proved",
   "theorems": [
    "C90_structure",
    "C90_complete",
    "C90_runs",
    "C90_runs_kept",
    "C90_runs_new",
    "C90_merged_witness",
    "C90_tokens_witness"
   ],
   "note": "C90_runs_kept and C90_runs_new are the two directions of the simulation; C90_runs links runs to force_transition; C90_merged_witness and C90_tokens_witness show that the two conditions cannot be dropped."
  },
  {
   "property": "C91",
   "status": "proved",
   "theorems": [
    "C91_values",
    "C91_table_invisible",
    "C91_increasing",
    "C91_kraft",
    "C91_kraft_fails_witness"
   ],
   "note": "Doubles are real numbers and the loop runs with fuel (C91_values: enough fuel exists). Uses the axioms of the standard library's real numbers."
  },
  {
   "property": "C92",
   "status": "proved",
   "theorems": [
    "C92_binomial",
    "C92_compositions",
    "C92_multinomial"
   ],
   "note": "lgamma and betaln are arguments of which lgamma(1) = 0, lgamma(x+1) = lgamma(x) + ln x and betaln(a,b) = lgamma(a) + lgamma(b) - lgamma(a+b) are assumed; ex_gamma shows that such functions exist."
  },
  {
   "property": "C93",
   "status": "proved",
   "theorems": [
    "C93_sequential",
    "C93_nonnegative"
   ],
   "note": "Same assumption on lgamma as in C92."
  },
  {
   "property": "C94",
   "status": "proved",
   "theorems": [
    "C94_cached_lgamma",
    "C94_sum_of_logs",
    "C94_real_numbers"
   ],
   "note": "10**shift is real arithmetic in the model; the overflow of C ints is not modelled."
  },
  {
   "property": "C95",
   "status": "proved",
   "theorems": [
    "C95_constructor",
    "C95_made",
    "C95_markings",
    "C95_copy",
    "C95_prune",
    "C95_prune_words"
   ],
   "note": "made lists the ways a pattern can come about; unshared excludes patterns whose net objects are shared with other patterns (prune changes objects in place)."
  },
  {
   "property": "C96",
   "status": "proved",
   "theorems": [
    "C96_errors",
    "C96_repetition",
    "C96_sequence",
    "C96_plain",
    "C96_nesting_witness"
   ],
   "note": "C96_nesting_witness: sequence(a, sequence(b, c)) fails where sequence(sequence(a, b), c) works."
  },
  {
   "property": "C97",
   "status": "proved",
   "theorems": [
    "C97_sequence",
    "C97_choice",
    "C97_parallel",
    "C97_repetition",
    "C97_nested",
    "C97_sequence_witness",
    "C97_repetition_witness"
   ],
   "note": "C97_sequence_witness and C97_repetition_witness show that the side conditions cannot be dropped."
  },
  {
   "property": "C98",
   "status": "proved",
   "theorems": [
    "C98_no_words",
    "C98_arrives",
    "C98_mutex_witness"
   ],
   "note": "Restated as the exact behaviour of the code; that the patterns do not exclude one another is shown by C98_mutex_witness."
  },
  {
   "property": "C99",
   "status": "proved",
   "theorems": [
    "C99_errors",
    "C99_result",
    "C99_plain",
    "C99_words",
    "C99_repetition_witness",
    "C99_lost_place_witness"
   ],
   "note": "C99_repetition_witness and C99_lost_place_witness show what happens when place ids carry apostrophes."
  },
  {
   "property": "C100",
   "status": "proved",
   "theorems": [
    "C100_table",
    "C100_errors",
    "C100_wrong_column_witness"
   ],
   "note": "Restated: cells can be in wrong columns for logs with different attributes (C100_wrong_column_witness)."
  },
  {
   "property": "C101",
   "status": "proved",
   "theorems": [
    "C101_cases",
    "C101_errors",
    "C101_round_trip",
    "C101_merged_witness"
   ],
   "note": "Types of columns are not modelled; identifier says which names a namedtuple keeps."
  },
  {
   "property": "C102",
   "status": "proved",
   "theorems": [
    "C102_activities",
    "C102_empty_trace",
    "C102_not_uniform_witness"
   ],
   "note": "Numbers are exact. The min, max and mean columns of continuous attributes are the subject of C131."
  },
  {
   "property": "C103",
   "status": "proved",
   "theorems": [
    "C103_variants",
    "C103_names",
    "C103_names_witness",
    "C103_trace_statistics"
   ],
   "note": "C103_names_witness: two variants with the same name."
  },
  {
   "property": "C104",
   "status": "proved",
   "theorems": [
    "C104_text",
    "C104_injective",
    "C104_line_break_witness"
   ],
   "note": "C104_line_break_witness: two logs with the same file."
  },
  {
   "property": "C105",
   "status": "proved",
   "theorems": [
    "C105_documents",
    "C105_text",
    "C105_round_trip",
    "C105_blanks",
    "C105_no_attributes",
    "C105_any_text",
    "C105_equality",
    "C105_equality_witness",
    "C105_stable",
    "C105_stable_witness"
   ],
   "note": "Restated: writing twice can give another text (C105_stable_witness) and equality depends on the order of iteration (C105_equality_witness). Text is a sequence of 8-bit characters; str(v) is a parameter."
  },
  {
   "property": "C106",
   "status": "proved",
   "theorems": [
    "C106_classes",
    "C106_labels",
    "C106_multisets",
    "C106_sequences",
    "C106_other_separator",
    "C106_no_labels",
    "C106_no_multiset_classes",
    "C106_no_attributes",
    "C106_only_labels",
    "C106_only_multisets",
    "C106_only_sequences",
    "C106_sparse_witness",
    "C106_label_files",
    "C106_multiset_files",
    "C106_unknown_label"
   ],
   "note": "Restated: with the default separator sequences are not read back (C106_other_separator). Negative counts in a file are not modelled."
  },
  {
   "property": "C107",
   "status": "proved",
   "theorems": [
    "C107_export",
    "C107_round_trip",
    "C107_runs",
    "C107_namesake_witness",
    "C107_one_sided_witness"
   ],
   "note": "Restated: what is lost is part of the theorems; C107_namesake_witness and C107_one_sided_witness show the lost arcs."
  },
  {
   "property": "C108",
   "status": "proved",
   "theorems": [
    "C108_import",
    "C108_errors",
    "C108_runs",
    "C108_weight_witness"
   ],
   "note": "Restated: weights are ignored (C108_weight_witness)."
  },
  {
   "property": "C109",
   "status": "proved",
   "theorems": [
    "C109_export",
    "C109_import",
    "C109_errors",
    "C109_round_trip",
    "C109_round_trip_empty",
    "C109_stable",
    "C109_equality_witness"
   ],
   "note": "Restated: equality fails after a round trip (C109_equality_witness). None as activity name is not modelled."
  },
  {
   "property": "C110",
   "status": "proved",
   "theorems": [
    "C110_text",
    "C110_kept",
    "C110_order",
    "C110_labels",
    "C110_label_witness",
    "C110_dropped_witness"
   ],
   "note": "Restated: miners with fewer points are left out (C110_dropped_witness) and labels can meet ints (C110_label_witness). Values are rational numbers."
  },
  {
   "property": "C111",
   "status": "proved",
   "theorems": [
    "C111_figures",
    "C111_dodge",
    "C111_styles",
    "C111_names",
    "C111_color_witness",
    "C111_index_witness",
    "C111_names_witness"
   ],
   "note": "Restated: C111_color_witness, C111_index_witness and C111_names_witness show wrong colors, a wrong x axis and an overwritten file."
  },
  {
   "property": "C112",
   "status": "proved",
   "theorems": [
    "C112_convert",
    "C112_shared",
    "C112_remove_witness",
    "C112_copy"
   ],
   "note": "Restated: the attributes are shared, not copied (C112_shared, C112_remove_witness)."
  },
  {
   "property": "C113",
   "status": "proved",
   "theorems": [
    "C113_bar",
    "C113_monotone",
    "C113_errors",
    "C113_loop",
    "C113_beyond_witness"
   ],
   "note": "Restated for iteration <= total; C113_beyond_witness shows the bar beyond the total. The formatting of the percentage is an argument."
  },
  {
   "property": "C114",
   "status": "proved",
   "theorems": [
    "C114_heard",
    "C114_restored",
    "C114_overlap_witness"
   ],
   "note": "C114_overlap_witness shows overlapping blocks."
  },
  {
   "property": "C115",
   "status": "proved",
   "theorems": [
    "C115_outcome",
    "C115_once",
    "C115_in_time",
    "C115_stops",
    "C115_endless",
    "C115_cancelled",
    "C115_race_witness",
    "C115_catch_witness"
   ],
   "note": "Restated: C115_race_witness and C115_catch_witness show a lost result, an interrupt after the call and a function that runs on. The interrupt is raised at the next step of the main thread."
  },
  {
   "property": "C116",
   "status": "proved",
   "theorems": [
    "C116_blocks",
    "C116_show",
    "C116_other_figure_witness",
    "C116_save_witness"
   ],
   "note": "Restated: C116_other_figure_witness and C116_save_witness show a wrong figure closed or shown and a log file left open. What pyplot does is described in Model/Plots.v."
  },
  {
   "property": "C117",
   "status": "proved",
   "theorems": [
    "C117_get_axes",
    "C117_list",
    "C117_errors"
   ],
   "note": "plt.subplots is modelled with its squeezing of dimensions."
  },
  {
   "property": "C118",
   "status": "proved",
   "theorems": [
    "C118_value",
    "C118_ascending",
    "C118_descending",
    "C118_total",
    "C118_errors",
    "C118_bins"
   ],
   "note": "The arguments of ax.bar and the number of bins; the square root is exact. Restated: empty collections raise."
  },
  {
   "property": "C119",
   "status": "proved",
   "theorems": [
    "C119_plot",
    "C119_annotate",
    "C119_default",
    "C119_constant",
    "C119_errors"
   ],
   "note": "Restated: the documentation says that the default threshold is the middle of the colormap; it is the middle between its lower end and the largest value (C119_default). Values are rational numbers."
  },
  {
   "property": "C120",
   "status": "proved",
   "theorems": [
    "C120_order",
    "C120_sorted",
    "C120_two_witness"
   ],
   "note": "C120_two_witness shows two objects of the class."
  },
  {
   "property": "C121",
   "status": "proved",
   "theorems": [
    "C121_threshold",
    "C121_monotone",
    "C121_grey",
    "C121_errors"
   ],
   "note": "Real numbers in place of floats; uses the axioms of the standard library's real numbers."
  },
  {
   "property": "C122",
   "status": "proved",
   "theorems": [
    "C122_equality",
    "C122_same",
    "C122_colon_witness",
    "C122_quote_witness"
   ],
   "note": "Restated: C122_colon_witness and C122_quote_witness show different graphs that are equal. Model/Dot.v describes the text that graphviz 0.20 writes; characters have 8 bits; nodes have their default colors."
  },
  {
   "property": "C123",
   "status": "proved",
   "theorems": [
    "C123_statements",
    "C123_weights",
    "C123_colon_witness"
   ],
   "note": "Widths are exact quotients; the printing of floats is an argument. C123_colon_witness shows the wrong node."
  },
  {
   "property": "C124",
   "status": "proved",
   "theorems": [
    "C124_rows",
    "C124_reachable",
    "C124_loop_witness",
    "C124_drawing",
    "C124_options"
   ],
   "note": "Restated: C124_loop_witness shows activities without a row."
  },
  {
   "property": "C125",
   "status": "proved",
   "theorems": [
    "C125_drawing",
    "C125_sequences",
    "C125_error"
   ],
   "note": "The order of the states and the printing of states and events are arguments."
  },
  {
   "property": "C126",
   "status": "proved",
   "theorems": [
    "C126_drawing"
   ],
   "note": "The printing of symbols is an argument."
  },
  {
   "property": "C127",
   "status": "proved",
   "theorems": [
    "C127_nodes",
    "C127_edges",
    "C127_text",
    "C127_colon_witness"
   ],
   "note": "C127_colon_witness shows an edge at a node that is not a place."
  },
  {
   "property": "C128",
   "status": "proved",
   "theorems": [
    "C128_rows",
    "C128_errors",
    "C128_drawing",
    "C128_drawing_errors"
   ],
   "note": "Random choices are an argument; averages are exact."
  },
  {
   "property": "C129",
   "status": "proved",
   "theorems": [
    "C129_map",
    "C129_map_filter",
    "C129_map_reduce",
    "C129_finishes"
   ],
   "note": "ray is modelled as a store of objects and tasks that run in any order; lost workers and pickling are not modelled."
  },
  {
   "property": "C130",
   "status": "proved",
   "theorems": [
    "C130_nodes",
    "C130_descendants",
    "C130_edges",
    "C130_terminator",
    "C130_objects"
   ],
   "note": "Nodes are values of a tree; edges are printed in the order of the tree."
  },
  {
   "property": "C131",
   "status": "proved",
   "theorems": [
    "C131_attributes",
    "C131_unknown"
   ],
   "note": "A cell is turned into a number by a function that is an argument; types of pandas columns are not modelled."
  },
  {
   "property": "C132",
   "status": "proved",
   "theorems": [
    "C132_file",
    "C132_calls",
    "C132_later",
    "C132_finishes",
    "C132_alone",
    "C132_wrong_result_witness",
    "C132_mixture_witness",
    "C132_killed_calls",
    "C132_killed_file",
    "C132_killed_last",
    "C132_killed_finishes",
    "C132_any_function",
    "C132_killed_witness"
   ],
   "note": "The _witness theorems show what goes wrong when calls overlap or a process is killed while it writes."
  },
  {
   "property": "C133",
   "status": "proved",
   "theorems": [
    "C133_equal_sized"
   ],
   "note": "Exact numbers; the quantiles of Python's statistics module are modelled."
  },
  {
   "property": "C134",
   "status": "proved",
   "theorems": [
    "C134_bins",
    "C134_training_data",
    "C134_equal_sized",
    "C134_rounding_witness"
   ],
   "note": "pandas.qcut is modelled after its documentation with the rounding as an argument; attributes with a single value and less than one bin are left open. The _witness theorem shows what the rounding does to the sizes."
  },
  {
   "property": "C135",
   "status": "proved",
   "theorems": [
    "C135_contents",
    "C135_by_id",
    "C135_by_label",
    "C135_by_ends",
    "C135_parallel_edges",
    "C135_remove",
    "C135_neighbours"
   ],
   "note": "A call that raises leaves the graph as it is; node labels do not count for equality (as in the code)."
  },
  {
   "property": "C136",
   "status": "proved",
   "theorems": [
    "C136_edit",
    "C136_derive",
    "C136_join",
    "C136_same_event_witness"
   ],
   "note": "One counter gives addresses of all kinds of objects; the _witness theorem shows that the condition about dictionaries is needed."
  },
  {
   "property": "C137",
   "status": "proved",
   "theorems": [
    "C137_copy",
    "C137_no_common",
    "C137_independent",
    "C137_derive",
    "C137_join"
   ],
   "note": "Edits are the methods and noise generators of C136; assigning to fields of events directly is not an edit."
  },
  {
   "property": "C138",
   "status": "proved",
   "theorems": [
    "C138_split",
    "C138_folds",
    "C138_independent",
    "C138_original",
    "C138_empty_traces_witness"
   ],
   "note": "The exact effect of noise on the traces of the other log is left open (only that no other traces change)."
  },
  {
   "property": "C139",
   "status": "proved",
   "theorems": [
    "C139_reread",
    "C139_independent",
    "C139_derive"
   ],
   "note": "to_dict followed by create_from_dict in one process, without a file in between."
  },
  {
   "property": "C140",
   "status": "proved",
   "theorems": [
    "C140_text",
    "C140_errors"
   ],
   "note": "The image of a figure is an argument; base64.b64encode is modelled by its specification in RFC 4648."
  },
  {
   "property": "C141",
   "status": "proved",
   "theorems": [
    "C141_elapsed",
    "C141_not_negative",
    "C141_negative_witness"
   ],
   "note": "The clock is an argument."
  },
  {
   "property": "C142",
   "status": "proved",
   "theorems": [
    "C142_values",
    "C142_numbers",
    "C142_bounds_witness"
   ],
   "note": "Values are None, numbers and booleans."
  },
  {
   "property": "C143",
   "status": "proved",
   "theorems": [
    "C143_label_encoding",
    "C143_min_max_scaling",
    "C143_one_hot",
    "C143_discretization",
    "C143_trained_bins",
    "C143_noise",
    "C143_copy",
    "C143_agrees"
   ],
   "note": ""
  },
  {
   "property": "C144",
   "status": "proved",
   "theorems": [
    "C144_levenshtein",
    "C144_levenshtein_defined",
    "C144_levenshtein_overflow_witness",
    "C144_common_subsequence",
    "C144_common_sublists",
    "C144_directly_follows_counts"
   ],
   "note": ""
  },
  {
   "property": "C145",
   "status": "proved",
   "theorems": [
    "C145_colors",
    "C145_equality",
    "C145_copy",
    "C145_white",
    "C145_raises"
   ],
   "note": "Colors are strings and live beside the graph of Dfg.v, one pair per node object. Joined graphs share no edge, as in the other theorems about graphs."
  },
  {
   "property": "C146",
   "status": "proved",
   "theorems": [
    "C146_state",
    "C146_marking",
    "C146_lines"
   ],
   "note": "Strings have 8 bit characters; the text of a variable's value is a parameter."
  },
  {
   "property": "C147",
   "status": "proved",
   "theorems": [
    "C147_log",
    "C147_id_witness"
   ],
   "note": "Strings have 8 bit characters; str of ids is a parameter."
  },
  {
   "property": "C148",
   "status": "proved",
   "theorems": [
    "C148_import",
    "C148_trace_attributes",
    "C148_event_attributes",
    "C148_edits",
    "C148_derive",
    "C148_join",
    "C148_export"
   ],
   "note": "Values of attributes are immutable. For durations and joins, no two traces of the pm4py log may have the same dictionary of attributes."
  },
  {
   "property": "C149",
   "status": "proved",
   "theorems": [
    "C149_create",
    "C149_equal",
    "C149_raises",
    "C149_equivalence",
    "C149_hash",
    "C149_traces",
    "C149_reread",
    "C149_reread_trace"
   ],
   "note": "Values of attributes are equal to themselves (no NaN). Python prefers the comparison method of a subclass."
  }
 ]
}