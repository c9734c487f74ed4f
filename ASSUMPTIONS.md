# What `Print Assumptions` lists for each theorem

Generated by `tools/mkassump.py` from the compiled theories.

## Closed under the global context (no axiom)

* `C01_labels_in_range` (PropsApi.v)
* `C02_cut_exact` (PropsApi.v)
* `C02_overflow_refuted` (PropsApi.v)
* `C03_refuted` (PropsApi.v)
* `C03_every_graph_refuted` (PropsSafe.v)
* `C03_two_parts_null_refuted` (PropsTwo.v)
* `C05_null_options_refuted` (PropsApi.v)
* `C06_best_of` (PropsApi.v)
* `C07_no_success_partial` (PropsApi.v)
* `C07_refuted` (PropsApi.v)
* `C08_ignored_refuted` (PropsApi.v)
* `C10_multilevel_partitioner_refuted` (PropsRandom.v)
* `C10_label_ranges` (PropsRecursive.v)
* `C10_exact` (PropsRecursive.v)
* `C12_partition_vertices` (PropsRecursive.v)
* `C13_induced_named` (PropsMore.v)
* `C13_induced` (PropsRecursive.v)
* `C13_inherits` (PropsRecursive.v)
* `C14_map_back` (PropsRecursive.v)
* `C14_whole_graph` (PropsRecursive.v)
* `C15_vertex_weight_preserved` (PropsCoarsen.v)
* `C16_parallel_edges_summed` (PropsCoarsen.v)
* `C17_contraction_valid` (PropsCoarsen.v)
* `C18_projection_preserves` (PropsCoarsen.v)
* `C19_projection_rebuilds_boundary` (PropsCoarsen.v)
* `C19_stale_border_refuted` (PropsCoarsen.v)
* `C20_groups_are_adjacent_pairs` (PropsCoarsen.v)
* `C20_self_loop_refuted` (PropsCoarsen.v)
* `C21_pairs_within_limit` (PropsCoarsen.v)
* `C21_sentinel_refuted` (PropsCoarsen.v)
* `C21_wraparound_refuted` (PropsCoarsen.v)
* `C22_matching_is_maximal` (PropsCoarsen.v)
* `C23_heaviest_available_edge` (PropsCoarsen.v)
* `C24_groups_invert_map` (PropsCoarsen.v)
* `C24_every_map_is_a_grouping` (PropsCoarsen.v)
* `C24_out_of_range_refuted` (PropsCoarsen.v)
* `C25_weights_follow_history` (PropsData.v)
* `C25_double_assign_refuted` (PropsData.v)
* `C26_from_labels_exact` (PropsData.v)
* `C26_out_of_range_is_UB` (PropsData.v)
* `C26_cut_overflow_refuted` (PropsData.v)
* `C27_fresh_connectivity_exact` (PropsData.v)
* `C28_connectivity_follows_moves` (PropsData.v)
* `C28_self_loop_refuted` (PropsData.v)
* `C29_verify_accepts_partial` (PropsData.v)
* `C29_isolated_refuted` (PropsData.v)
* `C31_never_worse_partial` (PropsData.v)
* `C31_asymmetric_limits_refuted` (PropsData.v)
* `C31_one_iteration_refuted` (PropsData.v)
* `C32_each_vertex_once` (PropsData.v)
* `C32_queues_and_labels` (PropsData.v)
* `C33_bfs_bisection` (PropsBisect.v)
* `C33_total_with_weights` (PropsBisect.v)
* `C33_missing_weights_refuted` (PropsBisect.v)
* `C34_weighted_refuted` (PropsBisect.v)
* `C35_best_is_kept_partial` (PropsBisect.v)
* `C35_exact_rule` (PropsBisect.v)
* `C35_asymmetric_refuted` (PropsBisect.v)
* `C36_refuted` (PropsTarget.v)
* `C37_refuted` (PropsTarget.v)
* `C38_ratio_infinite` (PropsMore.v)
* `C38_ratio_nan_refuted` (PropsMore.v)
* `C38_vertex_number` (PropsMultilevel.v)
* `C38_edge_ratio` (PropsMultilevel.v)
* `C38_ratio_checked` (PropsMultilevel.v)
* `C38_composite` (PropsMultilevel.v)
* `C39_totals_and_flags` (PropsData.v)
* `C40_two_step_builds` (PropsCoarsen.v)
* `C40_missing_edge_refuted` (PropsCoarsen.v)
* `C41_one_step_builds` (PropsCoarsen.v)
* `C41_over_capacity_refuted` (PropsCoarsen.v)
* `C42_grid` (PropsUtil.v)
* `C42_default_weights` (PropsUtil.v)
* `C43_iteration_enumerates` (PropsData.v)
* `C43_index_partial` (PropsData.v)
* `C43_index_refuted` (PropsData.v)
* `C43_random_order_permutes_partial` (PropsData.v)
* `C43_degree_order_partial` (PropsData.v)
* `C43_offset_set_refuted` (PropsData.v)
* `C44_tracker_is_a_set` (PropsData.v)
* `C45_accumulates` (PropsUtil.v)
* `C45_rejects_unknown` (PropsUtil.v)
* `C45_timed_process` (PropsUtil.v)
* `C46_is_balanced_exact` (PropsData.v)
* `C46_max_imbalance_exact` (PropsData.v)
* `C46_most_overweight` (PropsData.v)
* `C47_random_bisection` (PropsBisect.v)
* `C47_overflow_refuted` (PropsBisect.v)
* `C47_exchange_rule` (PropsSwap.v)
* `C47_missed_exchange_refuted` (PropsSwap.v)
* `C49_decides` (PropsValid.v)
* `C49_accepts_only` (PropsValid.v)
* `C49_accepts_symmetric` (PropsValid.v)
* `C49_simple_symmetric` (PropsValid.v)
* `C49_multigraph_refuted` (PropsValid.v)
* `C50_levels_valid` (PropsMultilevel.v)
* `C50_library_descends` (PropsMultilevel.v)
* `C53_bisection_tree` (PropsTree.v)
* `C53_call` (PropsTree.v)
* `C54_null_edge_weights` (PropsNull.v)
* `C54_null_vertex_weights` (PropsNull.v)
* `C54_null_weights` (PropsNull.v)
* `C54_exception_occurs` (PropsNull.v)
* `C55_coarse_weights_bounded` (PropsBalance.v)
* `C57_larger_refuted` (PropsSmall.v)
* `C59_matching_builder` (PropsBuild.v)
* `C59_self_match_refuted` (PropsBuild.v)
* `C60_connectivity_builder` (PropsBuild.v)
* `C62_heavy_refuted` (PropsEmpty.v)
* `C63_timing_transparent` (PropsTimed.v)
* `C63_times_printed` (PropsTimed.v)
* `C64_cuts_compose` (PropsCuts.v)
* `C64_more_is_no_worse` (PropsCuts.v)
* `C65_range` (PropsRandom.v)
* `C65_handles_share` (PropsRandom.v)
* `C65_draws` (PropsRandom.v)
* `C66_greedy_growing` (PropsGrow.v)
* `C66_left_connected` (PropsGrow.v)
* `C66_balancing_rule` (PropsSwap.v)
* `C67_refinement_is_fm` (PropsPass.v)
* `C70_random_matching` (PropsMatch.v)
* `C70_heavy_matching` (PropsMatch.v)
* `C72_no_single_move_helps` (PropsLocal.v)
* `C73_edge_weight_unit` (PropsScale.v)
* `C73_unit_refuted` (PropsScale.v)
* `C74_refuted` (PropsFrac.v)

## Axioms of the standard library: `ClassicalDedekindReals.sig_forall_dec`, `ClassicalDedekindReals.sig_not_dec`, `Classical_Prop.classic`, `FunctionalExtensionality.functional_extensionality_dep`

* `C03_failures_partial` (PropsApi.v)
* `C03_two_parts` (PropsApi.v)
* `C03_up_to_eight_parts` (PropsEight.v)
* `C03_four_parts` (PropsFour.v)
* `C03_eight_parts` (PropsFour.v)
* `C03_every_graph_partial` (PropsSafe.v)
* `C03_three_parts` (PropsThree.v)
* `C03_two_parts_every_graph_partial` (PropsTwo.v)
* `C03_two_parts_null` (PropsTwo.v)
* `C04_one_part_refuted` (PropsApi.v)
* `C05_defaults_work` (PropsDefault.v)
* `C09_terminates` (PropsApi.v)
* `C09_terminates_every_call` (PropsCalls.v)
* `C09_terminates_every_graph` (PropsSafe.v)
* `C11_bisection_targets` (PropsTarget.v)
* `C11_succeeds` (PropsTarget.v)
* `C11_recursion` (PropsTarget.v)
* `C11_overflow_refuted` (PropsTarget.v)
* `C30_refinement_exact` (PropsData.v)
* `C31_never_worse_even` (PropsBisect.v)
* `C34_balancing_improves_partial` (PropsBisect.v)
* `C35_best_is_kept_even` (PropsBisect.v)
* `C36_uniform_accepted` (PropsTarget.v)
* `C36_uniform_targets` (PropsTarget.v)
* `C36_default_tolerance` (PropsTarget.v)
* `C37_rejects_exactly` (PropsTarget.v)
* `C37_real_sum` (PropsTarget.v)
* `C37_accepted_targets` (PropsTarget.v)
* `C38_ratio_exact` (PropsMore.v)
* `C38_edge_ratio_095` (PropsMultilevel.v)
* `C46_imbalance_value` (PropsImb.v)
* `C46_max_imbalance_value` (PropsImb.v)
* `C48_any_components` (PropsMultilevel.v)
* `C48_library` (PropsMultilevel.v)
* `C51_refinement_keeps_quality` (PropsQuality.v)
* `C51_library` (PropsQuality.v)
* `C52_random_fm` (PropsQuality.v)
* `C54_null_two_parts` (PropsTwo.v)
* `C56_balanced_with_room` (PropsBalance.v)
* `C57_small_graphs_even` (PropsSmall.v)
* `C58_imbalance_bounded` (PropsPow.v)
* `C61_depth` (PropsDepth.v)
* `C61_recursion_depth` (PropsDepth.v)
* `C62_three_parts` (PropsEight.v)
* `C62_two_parts` (PropsEmpty.v)
* `C62_four_parts` (PropsEmpty.v)
* `C67_library_refiner` (PropsPass.v)
* `C68_multilevel_bisection` (PropsVcycle.v)
* `C69_whole_call` (PropsWhole.v)
* `C71_imbalance_bounded_any` (PropsAny.v)
* `C72_refinement_local_optimum` (PropsLocal.v)
* `C74_weights_give_fractions` (PropsFrac.v)
* `C75_grids_partition` (PropsGrid.v)
* `C76_every_call` (PropsCalls.v)
* `C77_plainest_call` (PropsPlain.v)
* `C78_weighted_call` (PropsWeighted.v)
