{
 "C25": [
  "proved",
  "Full, for every legal history (an assign needs an unassigned vertex; the refuted companion shows why)."
 ],
 "C26": [
  "proved",
  "Exact under 32-bit total edge weight; refuted without."
 ],
 "C27": [
  "proved",
  ""
 ],
 "C28": [
  "proved",
  "For loop-free symmetric graphs whose directed edge weight fits 32 bits; refuted for self loops."
 ],
 "C29": [
  "partial",
  "Holds when every vertex has positive incident edge weight; refuted for isolated vertices."
 ],
 "C30": [
  "proved",
  "Every choice sequence; also shows FM never fails."
 ],
 "C31": [
  "partial",
  "Proved for two equal targets (even_target) and for limits monotone in the balance metric; refuted for asymmetric limits."
 ],
 "C32": [
  "proved",
  ""
 ],
 "C39": [
  "proved",
  ""
 ],
 "C43": [
  "partial",
  "Iteration proved in full; indexing and permuted sets only for sets starting at 0, refuted otherwise."
 ],
 "C44": [
  "proved",
  ""
 ],
 "C46": [
  "proved",
  ""
 ],
 "C15": [
  "proved",
  "Every grouping; exact when the total vertex weight fits 32 bits, mod 2^32 otherwise."
 ],
 "C16": [
  "proved",
  "Symmetric graphs whose directed edge weight fits 32 bits, every grouping."
 ],
 "C17": [
  "proved",
  ""
 ],
 "C18": [
  "proved",
  "Any k, any connectivity whose border covers the cut vertices."
 ],
 "C19": [
  "proved",
  "Equality with the rebuilt connectivity; refuted for a stale border."
 ],
 "C20": [
  "proved",
  "All three aggregators, every stream; loop-free graphs, refuted with self loops."
 ],
 "C21": [
  "proved",
  "Within the stated range; C21_sentinel_refuted and C21_wraparound_refuted show that the limit is exceeded beyond it."
 ],
 "C22": [
  "proved",
  "All three aggregators, every stream, every limit."
 ],
 "C23": [
  "proved",
  "For every partial matching and visited vertex; total vertex weight below 2^32-1."
 ],
 "C24": [
  "proved",
  ""
 ],
 "C40": [
  "proved",
  ""
 ],
 "C41": [
  "proved",
  ""
 ],
 "C33": [
  "proved",
  "Every non-empty graph lighter than 2^32; the only failure is the read of an absent weight array, exhibited by the refuted companion."
 ],
 "C34": [
  "partial",
  "Proved for unit-weight graphs with a weight array; refuted for weighted graphs (swapped routines)."
 ],
 "C35": [
  "partial",
  "Proved for two equal targets and any bisector, and under 'separated' in general; refuted for asymmetric maxima. C35_exact_rule: for any targets, which candidate replaces which."
 ],
 "C47": [
  "proved",
  "Within the stated range; the refuted companion shows the signed overflow beyond it. C47_exchange_rule: exactly when and what is exchanged; C47_missed_exchange_refuted: without the room hypothesis an exchange that would help is missed (signed offset compared as unsigned)."
 ],
 "C38": [
  "proved",
  "All three criteria for every input; the 0.95 edge ratio is proved equivalent to the exact rational comparison 19*ne(fine) < 20*ne(coarse)."
 ],
 "C48": [
  "proved",
  "Any components (C48_any_components); the library's components meet the hypotheses (C48_library), the only failure being the NoWeights read of C33."
 ],
 "C50": [
  "proved",
  "Every chain of coarsenings; the library's aggregators deliver coarsenings."
 ],
 "C10": [
  "proved",
  "Any bisector returning complete two-way labels; every k >= 2."
 ],
 "C12": [
  "proved",
  ""
 ],
 "C13": [
  "proved",
  ""
 ],
 "C14": [
  "proved",
  "Subgraphs and the identity wrapper."
 ],
 "C11": [
  "proved",
  "Every k >= 2 and target vector within limits; assumes of std::log2 only log2_spec; side limits summing to 2^32 or more are undefined behaviour (refuted companion)."
 ],
 "C36": [
  "proved",
  "All k < 2^32, totals < 2^32, tolerances 0..2^20; binary64 arithmetic; refuted companion: targets can all be 0 (k = n = 49)."
 ],
 "C37": [
  "partial",
  "Exact for two or more finite fractions, also in terms of the real sum; refuted for NaN and for a single fraction."
 ],
 "C01": [
  "proved",
  "Every valid CSR input (no symmetry, weight or size hypothesis), k >= 2, every option record with numGlobalCuts >= 1 and every random stream, for calls that return."
 ],
 "C02": [
  "proved",
  "Symmetric graphs whose directed edge weight fits 32 bits; refuted companion without that proviso."
 ],
 "C03": [
  "partial",
  "Every valid CSR input (directed, self loops, any weights): the call returns 1 or hits one of four kinds of undefined behaviour, never an out-of-bounds access, an exception or non-termination (C03_every_graph_partial); all four occur (C03_refuted, C03_every_graph_refuted). Undirected graphs: only two kinds; none for k = 2 with weights given. With vertex weights given, the call for three (four) parts always succeeds when the weights are not all one, no vertex exceeds a quarter (third) of the total and the total is at least 100 (C03_three_parts, C03_four_parts); for every number of parts from two to eight it always succeeds when the total is at least 4000, no vertex exceeds a twenty-fifth of it, from three parts on the weights are not all one and from five parts on none is one (C03_up_to_eight_parts, C03_eight_parts). Two parts of every graph with a vertex, directed or not (C03_two_parts_every_graph_partial): only a sum of priorities above 2^31 - 1, a self loop, or, without vertex weights and with at most 20 vertices or no edge, the read of the missing weights; so an undirected graph without weights, with more than 20 vertices and an edge always succeeds (C03_two_parts_null; both conditions are needed: C03_two_parts_null_refuted)."
 ],
 "C04": [
  "partial",
  "Refuted for every input: the call fails converting an infinite bound (1/log2(1)); nothing positive holds."
 ],
 "C05": [
  "partial",
  "Refuted: NULL options always return 0."
 ],
 "C06": [
  "proved",
  ""
 ],
 "C07": [
  "partial",
  "Success is never reported; refuted that 0 is returned (an exception escapes / out-of-bounds read)."
 ],
 "C08": [
  "partial",
  "Refuted: the call is independent of these options, for every input."
 ],
 "C09": [
  "proved",
  "Every valid CSR input with sizes and k below 2^32 for every stream of random choices (k >= 2 and options given); C09_terminates_every_call adds k = 0, k = 1 and null options."
 ],
 "C42": [
  "proved",
  "All x,y,z>=1 with 6xyz < 2^32. sl::Random::fillWithRange is external: weights are arbitrary in [min,max+1] (the code passes max+1 for edges) and [min,max] for vertices."
 ],
 "C45": [
  "proved",
  "The sum is the double sum in report order; a report that throws leaves the state unchanged."
 ],
 "C49": [
  "proved",
  "Exact characterisation. _multigraph_refuted shows that with parallel edges acceptance does not mean symmetry and symmetry does not mean acceptance (outside the property's claim)."
 ],
 "C51": [
  "proved",
  "For targets with equal sides (even_target, the targets recursive bisection by two uses up to rounding); C31 shows that the comparison can fail for unequal maxima."
 ],
 "C52": [
  "proved",
  "Success and exactness for every target of moderate size; the comparison for targets with equal sides."
 ],
 "C53": [
  "proved",
  "For any bisector giving two labels (C53_bisection_tree) and for the API call (C53_call)."
 ],
 "C54": [
  "proved",
  "C54_null_edge_weights is unconditional; C54_null_vertex_weights has the exception in its statement and C54_exception_occurs shows that it happens. C54_null_two_parts removes the exception for two parts of a graph, directed or not, with more than 20 vertices and an edge."
 ],
 "C55": [
  "proved",
  "C55_coarse_weights_bounded ranges over hierarchies of any depth."
 ],
 "C56": [
  "proved",
  "C56_balanced_with_room; complements C34 and C21, which show that without room the limits can be exceeded."
 ],
 "C57": [
  "proved",
  "C57_small_graphs_even; C57_larger_refuted shows that a cycle of thirty vertices in two parts gets 14 and 16, so the bound in the claim is needed."
 ],
 "C58": [
  "proved",
  "C58_imbalance_bounded. The tolerance of the options is not respected (C08, C57_larger_refuted); this is the guarantee that is left."
 ],
 "C59": [
  "proved",
  "C59_matching_builder; C59_self_match_refuted is the boundary of its hypothesis."
 ],
 "C60": [
  "proved",
  "C60_connectivity_builder."
 ],
 "C61": [
  "proved",
  "C61_depth, C61_recursion_depth."
 ],
 "C62": [
  "proved",
  "C62_two_parts, C62_three_parts, C62_four_parts; C62_heavy_refuted shows that a bound on the heaviest vertex is needed."
 ],
 "C63": [
  "proved",
  "C63_timing_transparent (no hypotheses), C63_times_printed."
 ],
 "C64": [
  "proved",
  "C64_cuts_compose (an equation between programs, no hypotheses on the input), C64_more_is_no_worse."
 ],
 "C65": [
  "proved",
  "C65_range, C65_handles_share, C65_draws. std::mt19937 is modelled in full (C65_standard: the check value of the C++ standard); what solidutils makes of the numbers is an arbitrary function of the state of the engine."
 ],
 "C66": [
  "proved",
  "C66_greedy_growing, C66_left_connected (hypothesis: the directed edge weights add up to less than 2^31 - 1, so the queue's int32_t keys do not wrap). C66_balancing_rule: when the balancing step adds a vertex."
 ],
 "C67": [
  "proved",
  "C67_refinement_is_fm (relation `passes`, which mentions no queue, visit marks or connectivity data), C67_library_refiner (with the limits of the library computed exactly from the float expression)."
 ],
 "C68": [
  "proved",
  "C68_multilevel_bisection: the labels returned are in the relation `vcycle`, which mentions no random stream, queue, connectivity data or array builder; it states the weight limit and the stopping criteria as integers (the float expressions of the code are proved equal). Which pairs are made at each level is stated too, by scheme (relations of C70)."
 ],
 "C69": [
  "proved",
  "C69_whole_call (relation `partitioned`, built from `vcycle` of C68, `induced` of C13 and the target functions of C11)."
 ],
 "C70": [
  "proved",
  "C70_random_matching, C70_heavy_matching: the aggregation returned is in the relation `random_matching` / `heavy_matching` (visits in order, pairs as a list, groups by pairs and smallest vertex). C68 and C69 use the same relations."
 ],
 "C71": [
  "proved",
  "C71_imbalance_bounded_any. C58 has a sharper bound where k is a power of two."
 ],
 "C72": [
  "proved",
  "C72_refinement_local_optimum, C72_no_single_move_helps."
 ],
 "C73": [
  "proved",
  "C73_edge_weight_unit for the whole call; C73_unit_refuted: under scheme 1, all weights 1 against all weights 2 can give different labels, so the restriction is needed."
 ],
 "C74": [
  "proved",
  "C74_weights_give_fractions; C74_refuted: with sum 0 the fractions are NaN, and with a sum that overflows they exceed 1."
 ],
 "C75": [
  "proved",
  "C75_grids_partition composes C42 with C01, C02, C03, C58 and C62 and proves that a grid is connected: one theorem with no hypothesis on the graph but the generator's own arguments."
 ],
 "C76": [
  "proved",
  "C76_every_call is one classification of all the outcomes; it composes C01, C03, C04, C05, C06 and C07 and closes the gaps between them (no cuts asked for, one part without cuts). C76_nonvacuous exhibits the outcomes; the remaining undefined behaviours are exhibited under C03 (the findings are listed there)."
 ],
 "C77": [
  "proved",
  "C77_plainest_call is stated on the caller's arrays alone (neighbours, crossing, part_size: no notion of the model but the call itself). It composes C03_two_parts_null with C01, C02, C58 and C62."
 ],
 "C78": [
  "proved",
  "C78_weighted_call is stated on the caller's arrays alone (entries, between, cut_weight, weight_of: no notion of the model but the call itself). It composes C03_up_to_eight_parts with C01, C02, C62 and C71."
 ]
}