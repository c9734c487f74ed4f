{
 "claims": [
  {
   "property": "C01",
   "status": "proved",
   "theorems": [
    "C01_labels_in_range"
   ],
   "note": "Every valid CSR input (no symmetry, weight or size hypothesis), k >= 2, every option record with numGlobalCuts >= 1 and every random stream, for calls that return."
  },
  {
   "property": "C02",
   "status": "proved",
   "theorems": [
    "C02_cut_exact",
    "C02_overflow_refuted"
   ],
   "note": "Symmetric graphs whose directed edge weight fits 32 bits; refuted companion without that proviso."
  },
  {
   "property": "C03",
   "status": "partial",
   "theorems": [
    "C03_failures_partial",
    "C03_two_parts",
    "C03_refuted",
    "C03_up_to_eight_parts",
    "C03_four_parts",
    "C03_eight_parts",
    "C03_every_graph_partial",
    "C03_every_graph_refuted",
    "C03_three_parts",
    "C03_two_parts_every_graph_partial",
    "C03_two_parts_null",
    "C03_two_parts_null_refuted"
   ],
   "note": "Every valid CSR input (directed, self loops, any weights): the call returns 1 or hits one of four kinds of undefined behaviour, never an out-of-bounds access, an exception or non-termination (C03_every_graph_partial); all four occur (C03_refuted, C03_every_graph_refuted). Undirected graphs: only two kinds; none for k = 2 with weights given. With vertex weights given, the call for three (four) parts always succeeds when the weights are not all one, no vertex exceeds a quarter (third) of the total and the total is at least 100 (C03_three_parts, C03_four_parts); for every number of parts from two to eight it always succeeds when the total is at least 4000, no vertex exceeds a twenty-fifth of it, from three parts on the weights are not all one and from five parts on none is one (C03_up_to_eight_parts, C03_eight_parts). Two parts of every graph with a vertex, directed or not (C03_two_parts_every_graph_partial): only a sum of priorities above 2^31 - 1, a self loop, or, without vertex weights and with at most 20 vertices or no edge, the read of the missing weights; so an undirected graph without weights, with more than 20 vertices and an edge always succeeds (C03_two_parts_null; both conditions are needed: C03_two_parts_null_refuted)."
  },
  {
   "property": "C04",
   "status": "partial",
   "theorems": [
    "C04_one_part_refuted"
   ],
   "note": "Refuted for every input: the call fails converting an infinite bound (1/log2(1)); nothing positive holds."
  },
  {
   "property": "C05",
   "status": "partial",
   "theorems": [
    "C05_null_options_refuted",
    "C05_defaults_work"
   ],
   "note": "Refuted: NULL options always return 0."
  },
  {
   "property": "C06",
   "status": "proved",
   "theorems": [
    "C06_best_of"
   ],
   "note": ""
  },
  {
   "property": "C07",
   "status": "partial",
   "theorems": [
    "C07_no_success_partial",
    "C07_refuted"
   ],
   "note": "Success is never reported; refuted that 0 is returned (an exception escapes / out-of-bounds read)."
  },
  {
   "property": "C08",
   "status": "partial",
   "theorems": [
    "C08_ignored_refuted"
   ],
   "note": "Refuted: the call is independent of these options, for every input."
  },
  {
   "property": "C09",
   "status": "proved",
   "theorems": [
    "C09_terminates",
    "C09_terminates_every_call",
    "C09_terminates_every_graph"
   ],
   "note": "Every valid CSR input with sizes and k below 2^32 for every stream of random choices (k >= 2 and options given); C09_terminates_every_call adds k = 0, k = 1 and null options."
  },
  {
   "property": "C10",
   "status": "proved",
   "theorems": [
    "C10_multilevel_partitioner_refuted",
    "C10_label_ranges",
    "C10_exact"
   ],
   "note": "Any bisector returning complete two-way labels; every k >= 2."
  },
  {
   "property": "C11",
   "status": "proved",
   "theorems": [
    "C11_bisection_targets",
    "C11_succeeds",
    "C11_recursion",
    "C11_overflow_refuted"
   ],
   "note": "Every k >= 2 and target vector within limits; assumes of std::log2 only log2_spec; side limits summing to 2^32 or more are undefined behaviour (refuted companion)."
  },
  {
   "property": "C12",
   "status": "proved",
   "theorems": [
    "C12_partition_vertices"
   ],
   "note": ""
  },
  {
   "property": "C13",
   "status": "proved",
   "theorems": [
    "C13_induced_named",
    "C13_induced",
    "C13_inherits"
   ],
   "note": ""
  },
  {
   "property": "C14",
   "status": "proved",
   "theorems": [
    "C14_map_back",
    "C14_whole_graph"
   ],
   "note": "Subgraphs and the identity wrapper."
  },
  {
   "property": "C15",
   "status": "proved",
   "theorems": [
    "C15_vertex_weight_preserved"
   ],
   "note": "Every grouping; exact when the total vertex weight fits 32 bits, mod 2^32 otherwise."
  },
  {
   "property": "C16",
   "status": "proved",
   "theorems": [
    "C16_parallel_edges_summed"
   ],
   "note": "Symmetric graphs whose directed edge weight fits 32 bits, every grouping."
  },
  {
   "property": "C17",
   "status": "proved",
   "theorems": [
    "C17_contraction_valid"
   ],
   "note": ""
  },
  {
   "property": "C18",
   "status": "proved",
   "theorems": [
    "C18_projection_preserves"
   ],
   "note": "Any k, any connectivity whose border covers the cut vertices."
  },
  {
   "property": "C19",
   "status": "proved",
   "theorems": [
    "C19_projection_rebuilds_boundary",
    "C19_stale_border_refuted"
   ],
   "note": "Equality with the rebuilt connectivity; refuted for a stale border."
  },
  {
   "property": "C20",
   "status": "proved",
   "theorems": [
    "C20_groups_are_adjacent_pairs",
    "C20_self_loop_refuted"
   ],
   "note": "All three aggregators, every stream; loop-free graphs, refuted with self loops."
  },
  {
   "property": "C21",
   "status": "proved",
   "theorems": [
    "C21_pairs_within_limit",
    "C21_sentinel_refuted",
    "C21_wraparound_refuted"
   ],
   "note": "Within the stated range; C21_sentinel_refuted and C21_wraparound_refuted show that the limit is exceeded beyond it."
  },
  {
   "property": "C22",
   "status": "proved",
   "theorems": [
    "C22_matching_is_maximal"
   ],
   "note": "All three aggregators, every stream, every limit."
  },
  {
   "property": "C23",
   "status": "proved",
   "theorems": [
    "C23_heaviest_available_edge"
   ],
   "note": "For every partial matching and visited vertex; total vertex weight below 2^32-1."
  },
  {
   "property": "C24",
   "status": "proved",
   "theorems": [
    "C24_groups_invert_map",
    "C24_every_map_is_a_grouping",
    "C24_out_of_range_refuted"
   ],
   "note": ""
  },
  {
   "property": "C25",
   "status": "proved",
   "theorems": [
    "C25_weights_follow_history",
    "C25_double_assign_refuted"
   ],
   "note": "Full, for every legal history (an assign needs an unassigned vertex; the refuted companion shows why)."
  },
  {
   "property": "C26",
   "status": "proved",
   "theorems": [
    "C26_from_labels_exact",
    "C26_out_of_range_is_UB",
    "C26_cut_overflow_refuted"
   ],
   "note": "Exact under 32-bit total edge weight; refuted without."
  },
  {
   "property": "C27",
   "status": "proved",
   "theorems": [
    "C27_fresh_connectivity_exact"
   ],
   "note": ""
  },
  {
   "property": "C28",
   "status": "proved",
   "theorems": [
    "C28_connectivity_follows_moves",
    "C28_self_loop_refuted"
   ],
   "note": "For loop-free symmetric graphs whose directed edge weight fits 32 bits; refuted for self loops."
  },
  {
   "property": "C29",
   "status": "partial",
   "theorems": [
    "C29_verify_accepts_partial",
    "C29_isolated_refuted"
   ],
   "note": "Holds when every vertex has positive incident edge weight; refuted for isolated vertices."
  },
  {
   "property": "C30",
   "status": "proved",
   "theorems": [
    "C30_refinement_exact"
   ],
   "note": "Every choice sequence; also shows FM never fails."
  },
  {
   "property": "C31",
   "status": "partial",
   "theorems": [
    "C31_never_worse_even",
    "C31_never_worse_partial",
    "C31_asymmetric_limits_refuted",
    "C31_one_iteration_refuted"
   ],
   "note": "Proved for two equal targets (even_target) and for limits monotone in the balance metric; refuted for asymmetric limits."
  },
  {
   "property": "C32",
   "status": "proved",
   "theorems": [
    "C32_each_vertex_once",
    "C32_queues_and_labels"
   ],
   "note": ""
  },
  {
   "property": "C33",
   "status": "proved",
   "theorems": [
    "C33_bfs_bisection",
    "C33_total_with_weights",
    "C33_missing_weights_refuted"
   ],
   "note": "Every non-empty graph lighter than 2^32; the only failure is the read of an absent weight array, exhibited by the refuted companion."
  },
  {
   "property": "C34",
   "status": "partial",
   "theorems": [
    "C34_balancing_improves_partial",
    "C34_weighted_refuted"
   ],
   "note": "Proved for unit-weight graphs with a weight array; refuted for weighted graphs (swapped routines)."
  },
  {
   "property": "C35",
   "status": "partial",
   "theorems": [
    "C35_best_is_kept_partial",
    "C35_best_is_kept_even",
    "C35_exact_rule",
    "C35_asymmetric_refuted"
   ],
   "note": "Proved for two equal targets and any bisector, and under 'separated' in general; refuted for asymmetric maxima. C35_exact_rule: for any targets, which candidate replaces which."
  },
  {
   "property": "C36",
   "status": "proved",
   "theorems": [
    "C36_uniform_accepted",
    "C36_uniform_targets",
    "C36_default_tolerance",
    "C36_refuted"
   ],
   "note": "All k < 2^32, totals < 2^32, tolerances 0..2^20; binary64 arithmetic; refuted companion: targets can all be 0 (k = n = 49)."
  },
  {
   "property": "C37",
   "status": "partial",
   "theorems": [
    "C37_rejects_exactly",
    "C37_real_sum",
    "C37_accepted_targets",
    "C37_refuted"
   ],
   "note": "Exact for two or more finite fractions, also in terms of the real sum; refuted for NaN and for a single fraction."
  },
  {
   "property": "C38",
   "status": "proved",
   "theorems": [
    "C38_ratio_exact",
    "C38_ratio_infinite",
    "C38_ratio_nan_refuted",
    "C38_vertex_number",
    "C38_edge_ratio_095",
    "C38_edge_ratio",
    "C38_ratio_checked",
    "C38_composite"
   ],
   "note": "All three criteria for every input; the 0.95 edge ratio is proved equivalent to the exact rational comparison 19*ne(fine) < 20*ne(coarse)."
  },
  {
   "property": "C39",
   "status": "proved",
   "theorems": [
    "C39_totals_and_flags"
   ],
   "note": ""
  },
  {
   "property": "C40",
   "status": "proved",
   "theorems": [
    "C40_two_step_builds",
    "C40_missing_edge_refuted"
   ],
   "note": ""
  },
  {
   "property": "C41",
   "status": "proved",
   "theorems": [
    "C41_one_step_builds",
    "C41_over_capacity_refuted"
   ],
   "note": ""
  },
  {
   "property": "C42",
   "status": "proved",
   "theorems": [
    "C42_grid",
    "C42_default_weights"
   ],
   "note": "All x,y,z>=1 with 6xyz < 2^32. sl::Random::fillWithRange is external: weights are arbitrary in [min,max+1] (the code passes max+1 for edges) and [min,max] for vertices."
  },
  {
   "property": "C43",
   "status": "partial",
   "theorems": [
    "C43_iteration_enumerates",
    "C43_index_partial",
    "C43_index_refuted",
    "C43_random_order_permutes_partial",
    "C43_degree_order_partial",
    "C43_offset_set_refuted"
   ],
   "note": "Iteration proved in full; indexing and permuted sets only for sets starting at 0, refuted otherwise."
  },
  {
   "property": "C44",
   "status": "proved",
   "theorems": [
    "C44_tracker_is_a_set"
   ],
   "note": ""
  },
  {
   "property": "C45",
   "status": "proved",
   "theorems": [
    "C45_accumulates",
    "C45_rejects_unknown",
    "C45_timed_process"
   ],
   "note": "The sum is the double sum in report order; a report that throws leaves the state unchanged."
  },
  {
   "property": "C46",
   "status": "proved",
   "theorems": [
    "C46_is_balanced_exact",
    "C46_max_imbalance_exact",
    "C46_most_overweight",
    "C46_imbalance_value",
    "C46_max_imbalance_value"
   ],
   "note": ""
  },
  {
   "property": "C47",
   "status": "proved",
   "theorems": [
    "C47_random_bisection",
    "C47_overflow_refuted",
    "C47_exchange_rule",
    "C47_missed_exchange_refuted"
   ],
   "note": "Within the stated range; the refuted companion shows the signed overflow beyond it. C47_exchange_rule: exactly when and what is exchanged; C47_missed_exchange_refuted: without the room hypothesis an exchange that would help is missed (signed offset compared as unsigned)."
  },
  {
   "property": "C48",
   "status": "proved",
   "theorems": [
    "C48_any_components",
    "C48_library"
   ],
   "note": "Any components (C48_any_components); the library's components meet the hypotheses (C48_library), the only failure being the NoWeights read of C33."
  },
  {
   "property": "C49",
   "status": "proved",
   "theorems": [
    "C49_decides",
    "C49_accepts_only",
    "C49_accepts_symmetric",
    "C49_simple_symmetric",
    "C49_multigraph_refuted"
   ],
   "note": "Exact characterisation. _multigraph_refuted shows that with parallel edges acceptance does not mean symmetry and symmetry does not mean acceptance (outside the property's claim)."
  },
  {
   "property": "C50",
   "status": "proved",
   "theorems": [
    "C50_levels_valid",
    "C50_library_descends"
   ],
   "note": "Every chain of coarsenings; the library's aggregators deliver coarsenings."
  },
  {
   "property": "C51",
   "status": "proved",
   "theorems": [
    "C51_refinement_keeps_quality",
    "C51_library"
   ],
   "note": "For targets with equal sides (even_target, the targets recursive bisection by two uses up to rounding); C31 shows that the comparison can fail for unequal maxima."
  },
  {
   "property": "C52",
   "status": "proved",
   "theorems": [
    "C52_random_fm"
   ],
   "note": "Success and exactness for every target of moderate size; the comparison for targets with equal sides."
  },
  {
   "property": "C53",
   "status": "proved",
   "theorems": [
    "C53_bisection_tree",
    "C53_call"
   ],
   "note": "For any bisector giving two labels (C53_bisection_tree) and for the API call (C53_call)."
  },
  {
   "property": "C54",
   "status": "proved",
   "theorems": [
    "C54_null_edge_weights",
    "C54_null_vertex_weights",
    "C54_null_weights",
    "C54_exception_occurs",
    "C54_null_two_parts"
   ],
   "note": "C54_null_edge_weights is unconditional; C54_null_vertex_weights has the exception in its statement and C54_exception_occurs shows that it happens. C54_null_two_parts removes the exception for two parts of a graph, directed or not, with more than 20 vertices and an edge."
  },
  {
   "property": "C55",
   "status": "proved",
   "theorems": [
    "C55_coarse_weights_bounded"
   ],
   "note": "C55_coarse_weights_bounded ranges over hierarchies of any depth."
  },
  {
   "property": "C56",
   "status": "proved",
   "theorems": [
    "C56_balanced_with_room"
   ],
   "note": "C56_balanced_with_room; complements C34 and C21, which show that without room the limits can be exceeded."
  },
  {
   "property": "C57",
   "status": "proved",
   "theorems": [
    "C57_small_graphs_even",
    "C57_larger_refuted"
   ],
   "note": "C57_small_graphs_even; C57_larger_refuted shows that a cycle of thirty vertices in two parts gets 14 and 16, so the bound in the claim is needed."
  },
  {
   "property": "C58",
   "status": "proved",
   "theorems": [
    "C58_imbalance_bounded"
   ],
   "note": "C58_imbalance_bounded. The tolerance of the options is not respected (C08, C57_larger_refuted); this is the guarantee that is left."
  },
  {
   "property": "C59",
   "status": "proved",
   "theorems": [
    "C59_matching_builder",
    "C59_self_match_refuted"
   ],
   "note": "C59_matching_builder; C59_self_match_refuted is the boundary of its hypothesis."
  },
  {
   "property": "C60",
   "status": "proved",
   "theorems": [
    "C60_connectivity_builder"
   ],
   "note": "C60_connectivity_builder."
  },
  {
   "property": "C61",
   "status": "proved",
   "theorems": [
    "C61_depth",
    "C61_recursion_depth"
   ],
   "note": "C61_depth, C61_recursion_depth."
  },
  {
   "property": "C62",
   "status": "proved",
   "theorems": [
    "C62_three_parts",
    "C62_two_parts",
    "C62_four_parts",
    "C62_heavy_refuted"
   ],
   "note": "C62_two_parts, C62_three_parts, C62_four_parts; C62_heavy_refuted shows that a bound on the heaviest vertex is needed."
  },
  {
   "property": "C63",
   "status": "proved",
   "theorems": [
    "C63_timing_transparent",
    "C63_times_printed"
   ],
   "note": "C63_timing_transparent (no hypotheses), C63_times_printed."
  },
  {
   "property": "C64",
   "status": "proved",
   "theorems": [
    "C64_cuts_compose",
    "C64_more_is_no_worse"
   ],
   "note": "C64_cuts_compose (an equation between programs, no hypotheses on the input), C64_more_is_no_worse."
  },
  {
   "property": "C65",
   "status": "proved",
   "theorems": [
    "C65_range",
    "C65_handles_share",
    "C65_draws"
   ],
   "note": "C65_range, C65_handles_share, C65_draws. std::mt19937 is modelled in full (C65_standard: the check value of the C++ standard); what solidutils makes of the numbers is an arbitrary function of the state of the engine."
  },
  {
   "property": "C66",
   "status": "proved",
   "theorems": [
    "C66_greedy_growing",
    "C66_left_connected",
    "C66_balancing_rule"
   ],
   "note": "C66_greedy_growing, C66_left_connected (hypothesis: the directed edge weights add up to less than 2^31 - 1, so the queue's int32_t keys do not wrap). C66_balancing_rule: when the balancing step adds a vertex."
  },
  {
   "property": "C67",
   "status": "proved",
   "theorems": [
    "C67_refinement_is_fm",
    "C67_library_refiner"
   ],
   "note": "C67_refinement_is_fm (relation `passes`, which mentions no queue, visit marks or connectivity data), C67_library_refiner (with the limits of the library computed exactly from the float expression)."
  },
  {
   "property": "C68",
   "status": "proved",
   "theorems": [
    "C68_multilevel_bisection"
   ],
   "note": "C68_multilevel_bisection: the labels returned are in the relation `vcycle`, which mentions no random stream, queue, connectivity data or array builder; it states the weight limit and the stopping criteria as integers (the float expressions of the code are proved equal). Which pairs are made at each level is stated too, by scheme (relations of C70)."
  },
  {
   "property": "C69",
   "status": "proved",
   "theorems": [
    "C69_whole_call"
   ],
   "note": "C69_whole_call (relation `partitioned`, built from `vcycle` of C68, `induced` of C13 and the target functions of C11)."
  },
  {
   "property": "C70",
   "status": "proved",
   "theorems": [
    "C70_random_matching",
    "C70_heavy_matching"
   ],
   "note": "C70_random_matching, C70_heavy_matching: the aggregation returned is in the relation `random_matching` / `heavy_matching` (visits in order, pairs as a list, groups by pairs and smallest vertex). C68 and C69 use the same relations."
  },
  {
   "property": "C71",
   "status": "proved",
   "theorems": [
    "C71_imbalance_bounded_any"
   ],
   "note": "C71_imbalance_bounded_any. C58 has a sharper bound where k is a power of two."
  },
  {
   "property": "C72",
   "status": "proved",
   "theorems": [
    "C72_refinement_local_optimum",
    "C72_no_single_move_helps"
   ],
   "note": "C72_refinement_local_optimum, C72_no_single_move_helps."
  },
  {
   "property": "C73",
   "status": "proved",
   "theorems": [
    "C73_edge_weight_unit",
    "C73_unit_refuted"
   ],
   "note": "C73_edge_weight_unit for the whole call; C73_unit_refuted: under scheme 1, all weights 1 against all weights 2 can give different labels, so the restriction is needed."
  },
  {
   "property": "C74",
   "status": "proved",
   "theorems": [
    "C74_weights_give_fractions",
    "C74_refuted"
   ],
   "note": "C74_weights_give_fractions; C74_refuted: with sum 0 the fractions are NaN, and with a sum that overflows they exceed 1."
  },
  {
   "property": "C75",
   "status": "proved",
   "theorems": [
    "C75_grids_partition"
   ],
   "note": "C75_grids_partition composes C42 with C01, C02, C03, C58 and C62 and proves that a grid is connected: one theorem with no hypothesis on the graph but the generator's own arguments."
  },
  {
   "property": "C76",
   "status": "proved",
   "theorems": [
    "C76_every_call"
   ],
   "note": "C76_every_call is one classification of all the outcomes; it composes C01, C03, C04, C05, C06 and C07 and closes the gaps between them (no cuts asked for, one part without cuts). C76_nonvacuous exhibits the outcomes; the remaining undefined behaviours are exhibited under C03 (the findings are listed there)."
  },
  {
   "property": "C77",
   "status": "proved",
   "theorems": [
    "C77_plainest_call"
   ],
   "note": "C77_plainest_call is stated on the caller's arrays alone (neighbours, crossing, part_size: no notion of the model but the call itself). It composes C03_two_parts_null with C01, C02, C58 and C62."
  },
  {
   "property": "C78",
   "status": "proved",
   "theorems": [
    "C78_weighted_call"
   ],
   "note": "C78_weighted_call is stated on the caller's arrays alone (entries, between, cut_weight, weight_of: no notion of the model but the call itself). It composes C03_up_to_eight_parts with C01, C02, C62 and C71."
  }
 ]
}