{"id": "C01", "title": "Every label written by the top-level call is a real partition", "statement": "Whenever POROS_PartGraphRecursive returns 1 with at least one global cut, all numVertices entries of partitionAssignment have been written and each lies in [0, numPartitions).", "quantifier": "every valid CSR graph, every numPartitions >= 2, every option record, every outcome of the random engine, every tie-break of the priority queues", "why_tests_cant": "A bad label needs one particular graph, seed and tie-break; a test sees a handful of them.", "anchors": ["src/Poros.cpp: POROS_PartGraphRecursive", "src/partition/RecursiveBisectionPartitioner.cpp: recurse", "src/partition/Partitioning.cpp: output"]}
{"id": "C02", "title": "Reported cut is the cut of the reported labels", "statement": "Whenever POROS_PartGraphRecursive returns 1, *totalCutEdgeWeight is exactly the total weight of undirected edges whose endpoints got different labels, provided the total directed edge weight fits in 32 bits; without that proviso it can be wrong.", "quantifier": "every valid undirected graph, weights, k >= 2, options, random stream", "why_tests_cant": "The cut value travels through coarsening, projection and incremental refinement; agreement must hold on every path.", "anchors": ["src/Poros.cpp: POROS_PartGraphRecursive", "src/partition/Partitioning.cpp: recalcCutEdgeWeight"]}
{"id": "C03", "title": "The top-level call is memory safe on every valid graph", "statement": "For every non-empty valid graph and 2 <= numPartitions <= numVertices the call returns 1 without reading out of bounds, reading uninitialised memory or an out-of-range float conversion.", "quantifier": "every valid graph, with and without weight arrays, every k, every random stream", "why_tests_cant": "Out-of-bounds reads happen only for particular sizes (e.g. odd vertex counts without a weight array) and may go unnoticed when they do.", "anchors": ["src/Poros.cpp: POROS_PartGraphRecursive", "src/partition/BFSBisector.cpp: bfsWeightBalance, bfsUnitBalance", "src/partition/RecursiveBisectionPartitioner.cpp"]}
{"id": "C04", "title": "One partition is the trivial partition", "statement": "With numPartitions = 1 the call returns 1, every label is 0 and the cut is 0.", "quantifier": "every valid graph and option record", "why_tests_cant": "Tests exercise k=2,4,...; the k=1 case divides by log2(1).", "anchors": ["src/Poros.cpp: POROS_PartGraphRecursive", "src/partition/RecursiveBisectionPartitioner.cpp: execute, recurse"]}
{"id": "C05", "title": "Null options mean defaults", "statement": "Calling with options == NULL behaves as calling with POROS_defaultOptions() (poros.h: 'This may be null when the defaults are desired').", "quantifier": "every graph and k", "why_tests_cant": "The documented contract quantifies over every call.", "anchors": ["include/poros.h", "src/Poros.cpp: POROS_PartGraphRecursive", "src/Poros.cpp: POROS_defaultOptions"]}
{"id": "C06", "title": "Best of numGlobalCuts is returned", "statement": "With numGlobalCuts = m >= 1 the output is the first of the m complete partitionings with the smallest cut: labels and cut come from the same run, and no run had a smaller cut; with m <= 0 nothing is written although success is reported.", "quantifier": "every m, every sequence of partitioning results", "why_tests_cant": "Needs all sequences of run results, including ties and improvements late in the sequence.", "anchors": ["src/Poros.cpp: POROS_PartGraphRecursive"]}
{"id": "C07", "title": "Errors are reported by returning 0", "statement": "An invalid aggregationScheme or numPartitions = 0 makes the call return 0 (poros.h: 'return 1 on success, 0 if an error occurs').", "quantifier": "every option record and graph", "why_tests_cant": "The failing path is an exception crossing a C boundary; one must rule it out for every invalid option.", "anchors": ["src/Poros.cpp: POROS_PartGraphRecursive", "src/aggregation/AggregatorFactory.cpp: make", "src/partition/TargetPartitioning.cpp"]}
{"id": "C08", "title": "Balance options influence the result", "statement": "imbalanceTolerance, targetPartitionFractions and refinementIterations given by the caller are honoured.", "quantifier": "every pair of option records that differ only in these fields", "why_tests_cant": "Showing an option is (not) honoured requires comparing all pairs of runs.", "anchors": ["src/Poros.cpp: POROS_PartGraphRecursive", "src/PorosParameters.cpp", "src/partition/PartitionParameters.cpp"]}
{"id": "C09", "title": "The call always terminates", "statement": "Coarsening, refinement and recursive bisection terminate for every graph and every random stream: coarsening strictly shrinks the number of edges, each refinement pass moves each vertex at most once, recursion halves the number of parts.", "quantifier": "every graph, k, random stream", "why_tests_cant": "Non-termination cannot be observed by a finite test.", "anchors": ["src/partition/MultilevelBisector.cpp: recurse", "src/partition/FMRefiner.cpp: refine", "src/partition/RecursiveBisectionPartitioner.cpp: recurse"]}
{"id": "C10", "title": "Recursive bisection hands out disjoint label ranges", "statement": "Whatever two-way partitioner is plugged in, recursive bisection into k >= 2 parts assigns every vertex exactly one label in [0,k); the vertices put on the left of the top bisection get labels below floor(k/2) and those on the right get labels at least floor(k/2).", "quantifier": "every bisector returning labels in {0,1}, every graph, every k >= 2", "why_tests_cant": "k and the shape of the recursion tree are unbounded.", "anchors": ["src/partition/RecursiveBisectionPartitioner.cpp: execute, recurse, mapPartitioning"]}
{"id": "C11", "title": "Bisection targets add up", "statement": "In recursive bisection each side's target weight is the sum of the target weights of the parts it will be split into, and its maximum is never below its target.", "quantifier": "every k >= 2, every target vector", "why_tests_cant": "Quantifies over every target vector and depth.", "anchors": ["src/partition/RecursiveBisectionPartitioner.cpp: recurse"]}
{"id": "C12", "title": "Extracted subgraphs partition the vertices", "statement": "Extracting the subgraphs of a k-way partitioning yields k graphs whose super-vertex maps together list every parent vertex exactly once, in increasing order, each in the subgraph of its part.", "quantifier": "every graph, k, partitioning", "why_tests_cant": "All label vectors must be covered.", "anchors": ["src/graph/SubgraphExtractor.cpp: partitions", "src/graph/Subgraph.cpp"]}
{"id": "C13", "title": "Extracted subgraphs are induced", "statement": "The edges of subgraph p are exactly the parent edges with both ends in p, with the same multiplicities, order and weights; vertex weights are those of the super vertices; symmetric parents give symmetric subgraphs.", "quantifier": "every graph, partitioning", "why_tests_cant": "Quantifies over all graphs and all label vectors; off-by-one prefix errors show on few.", "anchors": ["src/graph/SubgraphExtractor.cpp: partitions", "src/graph/TwoStepGraphBuilder.cpp"]}
{"id": "C14", "title": "Mapping a partitioning back touches only its own vertices", "statement": "Writing a (sub)graph's partitioning to the parent's label array sets label[super(v)] = label(v) + offset for each of its vertices and leaves every other entry unchanged.", "quantifier": "every subgraph, partitioning, offset, output array", "why_tests_cant": "Frame conditions are about everything not touched.", "anchors": ["src/graph/Subgraph.cpp: mapPartitioning", "src/graph/MappedGraphWrapper.cpp: mapPartitioning"]}
{"id": "C15", "title": "Contraction preserves vertex weight", "statement": "Each coarse vertex weighs the sum of the vertices grouped into it and the coarse graph's total vertex weight equals the fine graph's.", "quantifier": "every graph and every grouping of its vertices", "why_tests_cant": "Quantifies over groupings and sizes.", "anchors": ["src/aggregation/SummationContractor.cpp: contractGraph", "src/graph/OneStepGraphBuilder.cpp"]}
{"id": "C16", "title": "Contraction sums parallel edges exactly", "statement": "The coarse edge between two different groups weighs the sum of the fine edges between them; there is at most one coarse edge per ordered pair, no self loop, and the coarse total edge weight is the total weight of inter-group fine edges.", "quantifier": "every graph and grouping", "why_tests_cant": "The hash table reset and the slot swap go wrong only on particular neighbour patterns.", "anchors": ["src/aggregation/SummationContractor.cpp: contractGraph", "src/graph/OneStepGraphBuilder.hpp: addEdge, finishVertex"]}
{"id": "C17", "title": "Contraction of a valid graph is a valid graph", "statement": "If the fine graph is well-formed and symmetric then so is the coarse graph: prefix array monotone, destinations in range, W(a,b) = W(b,a).", "quantifier": "every graph and grouping", "why_tests_cant": "Same.", "anchors": ["src/aggregation/SummationContractor.cpp", "src/graph/OneStepGraphBuilder.cpp"]}
{"id": "C18", "title": "Projection preserves cut and part weights", "statement": "Projecting a partitioning of the coarse graph to the fine graph gives every fine vertex the label of its group, keeps the part weights and keeps the cut, which is again exactly the fine cut.", "quantifier": "every graph, grouping, coarse partitioning", "why_tests_cant": "Must hold for all partitionings of all contractions.", "anchors": ["src/multilevel/DiscreteCoarseGraph.cpp: project"]}
{"id": "C19", "title": "Projection rebuilds boundary data exactly", "statement": "The internal/external connectivity of every fine vertex and the border set after projection equal what recomputation from scratch would give, although only vertices of border groups are recomputed.", "quantifier": "every graph, grouping, coarse partitioning with correct connectivity", "why_tests_cant": "The skipped vertices are correct only by an argument about all interior groups.", "anchors": ["src/multilevel/DiscreteCoarseGraph.cpp: project, fillInConnectivity"]}
{"id": "C20", "title": "Matchings are matchings of adjacent vertices", "statement": "Random and heavy-edge matching put every vertex in exactly one group; groups have one or two vertices and the two vertices of a pair are adjacent.", "quantifier": "every loop-free graph, every permutation, weight limit", "why_tests_cant": "Quantifies over every visit order.", "anchors": ["src/aggregation/RandomMatchingAggregator.cpp", "src/aggregation/HeavyEdgeMatchingAggregator.cpp", "src/aggregation/MatchedAggregationBuilder.cpp"]}
{"id": "C21", "title": "Matching respects the weight limit", "statement": "No pair is formed whose combined vertex weight exceeds the maximum the caller set.", "quantifier": "every loop-free graph whose total vertex weight is below 2^32 - 1 (weights are 32-bit and 2^32 - 1 means 'no limit'), every limit, every visit order, all three aggregators", "why_tests_cant": "Depends on 32-bit wrap-around and on the sentinel value.", "anchors": ["src/aggregation/AggregationParameters.hpp: isAllowedVertexWeight", "src/aggregation/RandomMatchingAggregator.cpp", "src/aggregation/HeavyEdgeMatchingAggregator.cpp"]}
{"id": "C22", "title": "Matching is maximal", "statement": "After aggregation no two adjacent vertices are both left single unless their combined weight is over the limit.", "quantifier": "every graph, limit, visit order", "why_tests_cant": "Maximality is a statement about all remaining edges under all orders.", "anchors": ["src/aggregation/RandomMatchingAggregator.cpp", "src/aggregation/HeavyEdgeMatchingAggregator.cpp"]}
{"id": "C23", "title": "Heavy-edge matching picks a heaviest available edge", "statement": "When heavy-edge matching visits an unmatched vertex it pairs it with an unmatched, allowed neighbour of maximal edge weight, and with none only if no unmatched neighbour is allowed.", "quantifier": "every graph, partial matching, visited vertex", "why_tests_cant": "All neighbourhoods and partial matchings.", "anchors": ["src/aggregation/HeavyEdgeMatchingAggregator.cpp"]}
{"id": "C24", "title": "Aggregation groups invert the coarse map", "statement": "Group c of an Aggregation lists exactly the fine vertices mapped to c, each once, in increasing order.", "quantifier": "every coarse map", "why_tests_cant": "All maps.", "anchors": ["src/aggregation/Aggregation.cpp", "src/aggregation/VertexGrouping.hpp"]}
{"id": "C25", "title": "Part weights follow any history of moves", "statement": "After any sequence of assign, unassign and move operations on a partitioning, the weight of part p is the sum of the weights of the vertices currently in p (mod 2^32).", "quantifier": "every operation history", "why_tests_cant": "Histories are unbounded.", "anchors": ["src/partition/Partitioning.hpp: assign, unassign, move", "src/partition/Partitioning.cpp"]}
{"id": "C26", "title": "A partitioning built from labels is exact", "statement": "Building a partitioning from a label vector gives the exact part weights, vertex counts and cut; out-of-range labels are outside the contract (out-of-bounds write).", "quantifier": "every graph, label vector", "why_tests_cant": "All label vectors.", "anchors": ["src/partition/Partitioning.cpp: Partitioning, recalcCutEdgeWeight, calcVertexCounts"]}
{"id": "C27", "title": "Connectivity built from a partitioning is exact", "statement": "TwoWayConnectivityBuilder gives for each vertex the weight of its edges inside and across the cut, and a border containing exactly the vertices with an edge of positive weight across or with no internal weight.", "quantifier": "every graph and two-way partitioning", "why_tests_cant": "All partitionings.", "anchors": ["src/partition/TwoWayConnectivityBuilder.cpp", "src/partition/TwoWayConnectivity.hpp"]}
{"id": "C28", "title": "Connectivity stays exact under any sequence of moves", "statement": "Moving vertices one after another and updating the neighbours keeps internal/external connectivity of every vertex equal to recomputation, the border contains every vertex with positive external weight, and the gain of each move is the exact change of the cut.", "quantifier": "every history of moves on every loop-free symmetric graph", "why_tests_cant": "Unbounded histories.", "anchors": ["src/partition/TwoWayConnectivity.hpp: move, updateNeighbor, getVertexDelta", "src/partition/TwoWayConnectivity.cpp: verify"]}
{"id": "C29", "title": "Incremental border equals rebuilt border", "statement": "After any sequence of moves verify() accepts, i.e. the border equals the border computed from scratch.", "quantifier": "every history of moves", "why_tests_cant": "Only vertices without positive-weight edges show the difference.", "anchors": ["src/partition/TwoWayConnectivity.cpp: verify, shouldBeInBorder", "src/partition/TwoWayConnectivity.hpp: updateBorderStatus"]}
{"id": "C30", "title": "FM refinement keeps the cut exact", "statement": "After FM refinement the cut stored in the partitioning is the exact cut of its labels and the connectivity data is exact for it.", "quantifier": "every loop-free symmetric graph, starting partition, targets, tie-breaking", "why_tests_cant": "Moves and rollbacks are data dependent and unbounded.", "anchors": ["src/partition/FMRefiner.cpp: refine, move"]}
{"id": "C31", "title": "FM refinement never makes things worse", "statement": "FM refinement never returns a partitioning that is worse than its input: the result either has a strictly better balance metric, or no larger cut and no worse balance, (lexicographically never worse).", "quantifier": "every graph, starting partition, targets, tie-breaking", "why_tests_cant": "All runs.", "anchors": ["src/partition/FMRefiner.cpp: refine"]}
{"id": "C32", "title": "FM touches each vertex at most once per pass", "statement": "Within one pass FM moves each vertex at most once (apart from rollback), only takes vertices out of the queue of the side they are on, and both queues only hold unvisited border vertices.", "quantifier": "every run", "why_tests_cant": "All runs and tie-breaks.", "anchors": ["src/partition/FMRefiner.cpp: refine, move, pickSide", "src/util/VisitTracker.hpp"]}
{"id": "C33", "title": "BFS growing gives a valid bisection", "statement": "BFS bisection of a non-empty graph labels every vertex 0 or 1, part weights and cut are exact, and the grown (left) side does not exceed its maximum by the growing phase.", "quantifier": "every graph, target, random stream", "why_tests_cant": "All seeds and tie-breaks.", "anchors": ["src/partition/BFSBisector.cpp"]}
{"id": "C34", "title": "BFS balancing step respects the limits", "statement": "The final balancing step of BFS bisection never pushes the left side over its maximum unless this improves the worse of the two relative loads, for weighted and unweighted graphs alike.", "quantifier": "every graph, target, random stream", "why_tests_cant": "Only graphs whose right side stays overweight reach this step.", "anchors": ["src/partition/BFSBisector.cpp: bfsUnitBalance, bfsWeightBalance, execute"]}
{"id": "C35", "title": "Best of several bisections is kept", "statement": "MultiBisector returns one of its candidates; if some candidate is balanced the result is a balanced candidate of smallest cut among the balanced ones, otherwise one of best balance.", "quantifier": "every number of candidates and sequence of candidates", "why_tests_cant": "All sequences of candidates.", "anchors": ["src/partition/MultiBisector.cpp: execute"]}
{"id": "C36", "title": "Target weights are consistent", "statement": "For every number of parts, total weight and tolerance, each maximum is at least the corresponding target, the targets sum to at most the total weight (up to rounding below k) and uniform fractions are never rejected.", "quantifier": "every k >= 1, weight, tolerance >= 0", "why_tests_cant": "Floating point rounding over all k and weights.", "anchors": ["src/partition/TargetPartitioning.cpp", "src/partition/PartitionParameters.cpp"]}
{"id": "C37", "title": "Invalid fractions are rejected", "statement": "Constructing a target from fractions throws exactly when some fraction is outside [0,1] or the sum is outside [0.9999,1.0001].", "quantifier": "every fraction vector", "why_tests_cant": "All double vectors, including NaN.", "anchors": ["src/partition/TargetPartitioning.cpp"]}
{"id": "C38", "title": "Stopping criteria decide as documented", "statement": "The vertex-number criterion stops exactly when the coarse graph has at most N vertices; the edge-ratio criterion stops when coarse/fine edges exceed the ratio, when the coarse graph has no edges; the composite stops exactly when one of its members does. A finite ratio is accepted, unchanged, exactly if it lies strictly between 0 and 1, and rejected with a runtime error otherwise.", "quantifier": "every level and pair of graphs, every list of criteria", "why_tests_cant": "All lists and sizes.", "anchors": ["src/multilevel/EdgeRatioStoppingCriteria.cpp", "src/multilevel/VertexNumberStoppingCriteria.cpp", "src/multilevel/CompositeStoppingCriteria.cpp"]}
{"id": "C39", "title": "Graph totals and unit flags are exact", "statement": "A graph built from CSR arrays reports total vertex/edge weight equal to the sums mod 2^32, and reports unit weights exactly when every weight is 1; missing arrays mean weight 1.", "quantifier": "every CSR input", "why_tests_cant": "All weight vectors.", "anchors": ["src/graph/Graph.cpp: Graph"]}
{"id": "C40", "title": "Two-step builder builds the described graph", "statement": "For any interleaving of edge insertions consistent with the announced counts, TwoStepGraphBuilder yields a graph in which vertex v has exactly the edges added to v, in insertion order, and the weights set for it.", "quantifier": "every count vector and every insertion interleaving", "why_tests_cant": "All interleavings.", "anchors": ["src/graph/TwoStepGraphBuilder.cpp", "src/graph/TwoStepGraphBuilder.hpp"]}
{"id": "C41", "title": "One-step builder builds the described graph", "statement": "For any sequence of addEdge/finishVertex calls within capacity, OneStepGraphBuilder yields a loop-free graph in which vertex v has one edge per distinct other destination added, with the sum of the weights, and the exact totals.", "quantifier": "every call sequence", "why_tests_cant": "All call histories.", "anchors": ["src/graph/OneStepGraphBuilder.cpp", "src/graph/OneStepGraphBuilder.hpp"]}
{"id": "C42", "title": "Grid generator builds the 3-D grid", "statement": "The grid generator's graph has x*y*z vertices, an edge between two vertices exactly when their coordinates differ by one in one dimension, symmetric weights, and as many edges as announced. Unless told otherwise vertices weigh 1 and edges 1 or 2.", "quantifier": "every x,y,z >= 1 and weight range", "why_tests_cant": "All sizes.", "anchors": ["src/graph/GridGraphGenerator.cpp"]}
{"id": "C43", "title": "Vertex sets enumerate what they say", "statement": "Iterating a vertex set [begin,end) yields each vertex once; indexing s[i] gives the i-th vertex of the iteration; permuted sets yield a permutation of the set.", "quantifier": "every begin, end, permutation", "why_tests_cant": "All ranges.", "anchors": ["src/graph/VertexSet.hpp", "src/graph/PermutedVertexSet.hpp", "src/graph/RandomOrderVertexSet.cpp", "src/graph/DegreeSortedVertexSet.cpp"]}
{"id": "C44", "title": "Visit tracker behaves as a set", "statement": "After any sequence of visit/unvisit/clear operations hasVisited(v) is true exactly when v was visited since it was last unvisited or the tracker cleared.", "quantifier": "every history", "why_tests_cant": "Unbounded histories.", "anchors": ["src/util/VisitTracker.hpp"]}
{"id": "C45", "title": "Time keeper accumulates per category", "statement": "After any sequence of reports the time listed for a category is the sum of the times reported for it; unknown categories are rejected and change nothing.", "quantifier": "every history of reports", "why_tests_cant": "Unbounded histories.", "anchors": ["src/util/TimeKeeper.cpp"]}
{"id": "C46", "title": "Balance analysis is exact", "statement": "isBalanced holds exactly when every part weight is at most its maximum; the reported maximum imbalance is the largest of the parts' imbalances and 0.", "quantifier": "every partitioning and target", "why_tests_cant": "All weight vectors.", "anchors": ["src/partition/PartitioningAnalyzer.cpp"]}
{"id": "C47", "title": "Random bisection gives a valid bisection", "statement": "Random bisection labels every vertex 0 or 1, its part weights and cut are exact, the left side never exceeds its maximum, and when the swap phase exchanges two vertices both sides end up within their maxima, provided these together leave room for the whole graph. The swap exchanges a heaviest right vertex for the lightest left vertex with which the left side fits, and, when that right vertex does not fit on the left by itself, it happens whenever some left vertex brings both sides within their maxima.", "quantifier": "every undirected graph whose directed edge weight fits 32 bits and every target such that the total vertex weight and limits are below 2^30 (the code computes with signed 32-bit differences), every random stream", "why_tests_cant": "All permutations.", "anchors": ["src/partition/RandomBisector.cpp"]}
{"id": "C48", "title": "Multilevel bisection is correct for any components", "statement": "For any aggregator producing groupings, any initial bisector producing valid bisections and any refiner preserving validity, the multilevel bisector returns a valid bisection of the input graph with exact weights and cut.", "quantifier": "every graph, aggregator, bisector, refiner", "why_tests_cant": "Quantifies over plugged-in components and levels.", "anchors": ["src/partition/MultilevelBisector.cpp"]}
{"id": "C49", "title": "Debug graph validation is sound", "statement": "Graph::isValid accepts a graph only if its totals are right, all destinations are vertices and every edge has a reverse edge; it accepts every symmetric graph without parallel edges whose totals are right.", "quantifier": "every graph", "why_tests_cant": "All graphs.", "anchors": ["src/graph/Graph.cpp: isValid"]}
{"id": "C50", "title": "Coarsening keeps every level valid", "statement": "Every graph of the multilevel hierarchy is well-formed, symmetric, loop-free, has the same total vertex weight as the input and cut values on it equal cut values of the projected partitioning on the input.", "quantifier": "every graph, seed, number of levels", "why_tests_cant": "Unbounded number of levels.", "anchors": ["src/partition/MultilevelBisector.cpp: recurse", "src/multilevel/DiscreteCoarseGraph.cpp"]}
{"id": "C51", "title": "Refinement on the way back never makes a bisection worse", "statement": "Whatever aggregation scheme and initial bisector are used, the bisection multilevel bisection with FM returns is no worse than the bisection of the coarsest graph it started from, read as a bisection of the input: if that one was within the maximum weights so is the result, and its cut is not larger; otherwise the result is within the maxima, or its imbalance is smaller, or neither its imbalance nor its cut is larger.", "quantifier": "every undirected graph, scheme, initial bisector, even target, number of levels and seed", "why_tests_cant": "Needs a chain of comparisons over an unbounded number of levels, each of arbitrary move histories.", "anchors": ["src/partition/MultilevelBisector.cpp: recurse", "src/partition/FMRefiner.cpp", "src/multilevel/DiscreteCoarseGraph.cpp"]}
{"id": "C52", "title": "Random bisection with refinement", "statement": "Random bisection followed by FM refinement always delivers a bisection with exact weights and cut that is no worse than the random bisection it started from.", "quantifier": "every undirected graph, target below 2^30, number of refinement iterations, seed", "why_tests_cant": "All permutations and move histories.", "anchors": ["src/partition/RandomFMBisector.cpp", "src/partition/RandomBisector.cpp", "src/partition/FMRefiner.cpp"]}
{"id": "C53", "title": "A k-way partitioning is the tree of its bisections", "statement": "A k-way partitioning made by recursive bisection consists of exactly k-1 bisections, each of the subgraph induced by one side of the bisection above it; a vertex's label is read off the sides it falls on, the first half of the labels going to side 0, and the edge cut is the sum of the cuts of these bisections. The cut the API reports is that sum.", "quantifier": "every graph, number of parts, bisector, seed", "why_tests_cant": "All recursion trees of any depth.", "anchors": ["src/partition/RecursiveBisectionPartitioner.cpp: recurse, execute", "src/graph/SubgraphExtractor.cpp", "src/Poros.cpp: POROS_PartGraphRecursive"]}
{"id": "C54", "title": "Absent weights stand for weights of one", "statement": "Passing NULL for the edge weights has exactly the effect of passing an array of ones: same return value, labels, cut, failures. Passing NULL for the vertex weights has the effect of passing ones, unless the call reads through the absent array (the undefined behaviour described under C03 and C33).", "quantifier": "every CSR input (valid or not), number of parts, options, seed", "why_tests_cant": "Two runs of the whole library must be compared for every input.", "anchors": ["src/Poros.cpp: POROS_PartGraphRecursive", "src/graph/Graph.hpp: hasUnitVertexWeight, hasUnitEdgeWeight", "src/graph/GraphHandle.cpp"]}
{"id": "C55", "title": "Coarsening never makes a vertex heavier than the limit and at most halves the graph", "statement": "However many times a graph is coarsened, no vertex of any coarse graph weighs more than the larger of the limit given to the aggregator and the heaviest vertex of the original graph, the total vertex weight is unchanged, and each coarsening step leaves at least half of the vertices.", "quantifier": "every graph without self loops, both aggregation schemes, every limit, any number of levels, every random choice", "why_tests_cant": "The number of levels and the random order are unbounded.", "anchors": ["src/multilevel/DiscreteCoarseGraph.hpp", "src/aggregation/RandomMatchingAggregator.cpp: aggregate", "src/aggregation/SHEMRMAggregator.cpp: aggregate", "src/aggregation/SummationContractor.cpp: contract"]}
{"id": "C56", "title": "Multilevel bisection is balanced when the limits leave room for the heaviest vertex", "statement": "If the limit of each side exceeds its target by at least the heaviest vertex less one, and by at least 3/40 of the total weight less one (the heaviest vertex coarsening may make; not needed for graphs that are not coarsened), multilevel bisection with the library's parameters succeeds and both sides are within their limits.", "quantifier": "every undirected graph of representable weight, both aggregation schemes, every pair of equal targets, every random choice", "why_tests_cant": "It is a guarantee over all graphs and random choices; a test sees one seed.", "anchors": ["src/partition/MultilevelBisector.cpp: execute, recurse", "src/partition/BFSBisector.cpp: execute", "src/partition/MultiBisector.cpp: execute", "src/partition/FMRefiner.cpp: refine"]}
{"id": "C57", "title": "Small graphs of unit weight are divided evenly", "statement": "For an undirected graph of at most 20 vertices, all of weight one, and a number of parts (at least two) that divides the number of vertices, a call with valid options succeeds and gives every part exactly the same number of vertices.", "quantifier": "every undirected graph of up to 20 vertices (any edges and edge weights), every dividing number of parts, both schemes, any number of cuts, every seed", "why_tests_cant": "There are astronomically many graphs on twenty vertices and random streams.", "anchors": ["include/poros.h: POROS_PartGraphRecursive", "src/Poros.cpp: POROS_PartGraphRecursive", "src/partition/RecursiveBisectionPartitioner.cpp: execute"]}
{"id": "C58", "title": "The imbalance of a power-of-two partitioning is bounded", "statement": "When the number of parts k is a power of two 2^j and the graph weighs T >= 2k in total, no part of a successful call weighs more than its fair share T/k plus T/60 plus 2k plus j times the larger of the heaviest vertex and 3T/40.", "quantifier": "every undirected graph of representable weight, every number of parts that is a power of two, both schemes, any number of cuts, every seed", "why_tests_cant": "A test can only measure the imbalance of particular graphs and seeds.", "anchors": ["include/poros.h: POROS_PartGraphRecursive", "src/Poros.cpp: POROS_PartGraphRecursive", "src/partition/RecursiveBisectionPartitioner.cpp: execute", "src/partition/TargetPartitioning.cpp: TargetPartitioning"]}
{"id": "C59", "title": "The matching builder records exactly the matches it is given", "statement": "For any sequence of match and next-unmatched calls on a builder for n vertices in which every vertex is matched at most once and with another vertex: a vertex is reported matched exactly if it was matched, the next unmatched vertex is the smallest one left, and the aggregation built has one group for each match and each unmatched vertex, two vertices share a group exactly if they were matched with each other, and groups are numbered in the order of their smallest vertices. Matching a vertex with itself is accepted but building then reads uninitialised memory.", "quantifier": "every n and every sequence of calls", "why_tests_cant": "Tests run a few call sequences.", "anchors": ["src/aggregation/MatchedAggregationBuilder.cpp: match, isMatched, getNextUnmatchedVertex, build"]}
{"id": "C60", "title": "The connectivity builder holds the last values it is given", "statement": "For any sequence of calls that set the internal or external connectivity of vertices, in any order and any number of times: if every vertex was given both, the finished connectivity holds the last values, a vertex is in the border exactly if its external value is positive or its internal value is 0, and its delta is internal minus external; if a value was left out, finishing reads uninitialised memory.", "quantifier": "every number of vertices and every sequence of calls", "why_tests_cant": "Tests run a few call sequences.", "anchors": ["src/partition/TwoWayConnectivityBuilder.cpp: begin, setInternalConnectivity, setExternalConnectivity, finish", "src/partition/TwoWayConnectivity.cpp: getVertexDelta, isInBorder"]}
{"id": "C61", "title": "The multilevel hierarchy has logarithmic depth and linear size", "statement": "Bisecting an undirected graph with m < 2^32 directed edges makes at most 433 coarser graphs; d > 0 coarser graphs are made only if (20/19)^(d-1) <= m; and all graphs of the hierarchy together have at most 21*m directed edges. The recursion never goes deeper than that.", "quantifier": "every undirected graph, both aggregation schemes, every weight limit, every initial bisector and refiner, every seed", "why_tests_cant": "A test measures the depth for particular graphs.", "anchors": ["src/partition/MultilevelBisector.cpp: execute, recurse", "src/multilevel/EdgeRatioStoppingCriteria.cpp: shouldStop", "src/multilevel/VertexNumberStoppingCriteria.cpp: shouldStop"]}
{"id": "C62", "title": "No part is left empty", "statement": "A successful call for 2 parts on an undirected graph of total weight T >= 100 without a vertex heavier than 2T/5 leaves no part empty and gives each at least (T-84)/12; for 3 parts, T >= 2000 and no vertex heavier than T/16, at least (T-1760)/80; for 4 parts, T >= 2000 and no vertex heavier than T/20, at least (T-1900)/120. Without such a bound it is false: four vertices weighing 90, 2, 2, 90 in three parts leave a part empty.", "quantifier": "every undirected graph of representable weight within the bounds, both schemes, any number of cuts, every seed", "why_tests_cant": "A test sees the parts of particular graphs and seeds.", "anchors": ["include/poros.h: POROS_PartGraphRecursive", "src/Poros.cpp: POROS_PartGraphRecursive", "src/partition/RecursiveBisectionPartitioner.cpp: execute"]}
{"id": "C63", "title": "Timing does not change the result, and the printed times are complete", "statement": "For every input and whatever the clock reads, the call with its time keeper and timing wrappers returns the same value, labels, cut and failures, and consumes the same random numbers, as the call without them. If times are printed, they are the eight categories in order, each the sum of its timers' readings; every reading is used once; the total is reported once and last; initial partitioning is reported numGlobalCuts * (k-1) times; coarsening, aggregation, contraction, projection, refinement and uncoarsening equally often. Nothing is printed if it was not asked for.", "quantifier": "every input, option, seed and sequence of clock readings", "why_tests_cant": "Tests do not control the clock, and compare few runs.", "anchors": ["src/Poros.cpp: POROS_PartGraphRecursive", "src/partition/MultilevelBisector.cpp: execute, recurse", "src/partition/TimedBisector.cpp: execute", "src/partition/TimedTwoWayRefiner.cpp: refine", "src/aggregation/TimedAggregator.cpp: aggregate", "src/aggregation/TimedContractor.cpp: contract", "src/util/TimedProcess.cpp: reportTime", "src/util/TimeKeeper.cpp: reportTime, times"]}
{"id": "C64", "title": "More cuts are never worse, and calls for cuts compose", "statement": "A call for c+d global cuts (c, d >= 1) does what a call for c cuts followed by a call for d cuts with the next random numbers does, and returns the better of the two results, the first if their cuts are equal; this includes the failures and the random numbers used. So with the same seed, asking for more cuts never gives a larger cut, and the same labels if the cut is equal.", "quantifier": "every input, all options, every seed, every c and d", "why_tests_cant": "A test compares the cuts of a few runs.", "anchors": ["src/Poros.cpp: POROS_PartGraphRecursive", "include/poros.h: numGlobalCuts"]}
{"id": "C65", "title": "Random engine handles share one reproducible stream", "statement": "Numbers drawn lie between min() and max() for every seed and every number of draws before. In any history of makes, copies, setSeed and requests through handles, a request gets what an engine of its own would give that had been made with the seed last given to that engine by any handle and had served the requests made since through any of its handles; other engines have no influence. Seeds count modulo 2^32.", "quantifier": "every seed, every history of calls, any number of engines and handles", "why_tests_cant": "Tests compare the first numbers of two engines.", "anchors": ["src/util/SimpleRandomEngine.hpp: min, max, operator(), randInRange", "src/util/SimpleRandomEngine.cpp: fillWithPerm, setSeed", "src/util/RandomEngineHandle.hpp: RandomEngineHandle, setSeed", "src/util/RandomEngineFactory.cpp: make"]}
{"id": "C66", "title": "BFS bisection grows its region greedily, and connectedly", "statement": "BFS bisection considers vertices one by one, each at most once, starting with the random seed, while the left side is below its target. Each later vertex is one most strongly connected (by edge weight) to the left side among those not considered yet, and is taken exactly if it fits within the left maximum. The result is this region, plus one vertex not considered so far exactly when there is one, the right side is over its maximum, and one vertex more (counted as weight 1) leaves the left side relatively lighter than the right side was. So on a connected graph with unit vertex weights and maxima that cover the total, the left side is connected.", "quantifier": "every valid graph whose total weights fit, every two-way target, every random choice", "why_tests_cant": "Tests look at the cut of one bisection.", "anchors": ["src/partition/BFSBisector.cpp: execute, bfsPriorityMove"]}
{"id": "C67", "title": "Refinement is Fiduccia-Mattheyses", "statement": "Refining a bisection does at most the given number of passes. A pass moves vertices one by one to the other side, each at most once and only while it has an edge across; a vertex without edges counts as movable (with gain 0) until it has been moved once in the whole refinement. The vertex moved has the largest gain (what the move takes off the cut) of its side; a side over its maximum that can give a vertex away gives first, side 0 before side 1, and otherwise no vertex at all has a larger gain. The best labels so far are replaced after a move exactly if the new ones are over a maximum but less imbalanced, or have a smaller cut and are within the maxima or no more imbalanced. A pass ends when nothing is movable or after max(n/100, 25) (at most the given number) moves without success, and its result is the best labels; refinement ends after a pass without success.", "quantifier": "every undirected graph with positive edge weights that fit, isolated vertices included, every bisection and target, every random choice, any number of passes", "why_tests_cant": "Tests look at the cut after refinement of one small graph.", "anchors": ["src/partition/FMRefiner.cpp: refine, pickSide, move"]}
{"id": "C68", "title": "Multilevel bisection does what it says", "statement": "Bisecting a graph with the library's multilevel bisector: while the graph has more than 20 vertices, has edges and has at least 5% fewer edges than the next finer one, its vertices are grouped into adjacent pairs of at most 3/40 of the total weight and single vertices, no two of which could be paired; every group becomes a vertex, vertex and parallel edge weights being added; the merged graph is bisected the same way, its labels are given to the vertices of the groups and refined by at most 8 passes (C67). The coarsest graph gets the best of 8 regions grown greedily from random seeds (C66): a later candidate replaces an earlier one exactly if it is less imbalanced while the earlier one is over a maximum, or is within the maxima and has a smaller cut while the earlier one is within them too.", "quantifier": "every undirected graph with positive edge weights that fit, every two-way target, both aggregation schemes, every random choice", "why_tests_cant": "Tests run the bisector on one grid and look at the cut.", "anchors": ["src/partition/MultilevelBisector.cpp: execute, recurse", "src/partition/MultiBisector.cpp: execute", "src/multilevel/DiscreteCoarseGraph.cpp"]}
{"id": "C69", "title": "The call is recursive multilevel bisection", "statement": "A successful call for k parts makes as many partitionings as cuts were asked for and returns the first with the smallest cut, with that cut. Each partitioning bisects the graph by multilevel bisection (C68); with two labels each side gets one, with more side 0 gets the first half (rounded down) of the labels and side 1 the rest, and each side with more than one label is partitioned the same way as the graph it induces.", "quantifier": "every undirected graph with positive edge weights that fit, every k >= 2, every number of cuts, aggregation scheme and random choice", "why_tests_cant": "Tests look at ranges and balance for a few grids.", "anchors": ["src/Poros.cpp: POROS_PartGraphRecursive", "src/partition/RecursiveBisectionPartitioner.cpp: recurse"]}
{"id": "C70", "title": "What a matching makes", "statement": "Random matching visits all vertices in some order and pairs each one that is still single, along the first stored edge that leads to a single vertex and makes a pair of at most the weight limit; a vertex with no such edge stays single for the moment. Sorted heavy edge matching visits them by increasing degree and takes the heaviest such edge, the first of equal ones; where the graph has only edges of weight 1 it is random matching. The groups are exactly the pairs and the vertices left over, numbered from 0 in the order of their smallest vertex.", "quantifier": "every loopless graph whose vertex weights fit, every weight limit and random choice", "why_tests_cant": "Tests look at one grid and count the groups; which pairs are made for which order ranges over all graphs.", "anchors": ["src/aggregation/RandomMatchingAggregator.cpp: aggregate", "src/aggregation/HeavyEdgeMatchingAggregator.cpp: aggregate", "src/aggregation/SHEMRMAggregator.cpp: aggregate", "src/aggregation/MatchedAggregationBuilder.cpp: match, build"]}
{"id": "C71", "title": "Imbalance is bounded for every number of parts", "statement": "Whenever the call returns, for any number of parts k, no part is heavier than its fair share of the total vertex weight by more than 1/49 of the total, plus twice the number of parts (rounding), plus ceil(log2 k) + 1 times W, where W bounds the heaviest vertex and 3/40 of the total.", "quantifier": "every undirected graph, k from 2 up to half the total weight, options, log2 implementation and random choice", "why_tests_cant": "A test measures the imbalance of one run; a worst case over graphs, part counts and choices needs induction over the bisection tree.", "anchors": ["src/Poros.cpp: POROS_PartGraphRecursive", "src/partition/RecursiveBisectionPartitioner.cpp: recurse", "src/partition/FMRefiner.cpp: refine", "src/partition/BFSBisector.cpp: execute", "src/partition/TargetPartitioning.cpp"]}
{"id": "C72", "title": "Refinement stops at a local optimum", "statement": "FM refinement of a bisection into equal halves that is within its weight limits stays within them, and unless every permitted pass reduced the cut, the result is a local optimum: whenever moving one vertex would reduce the cut, some vertex whose move would reduce it at least as much would make a side too heavy.", "quantifier": "every undirected graph with positive edge weights, start within the limits, iteration and move limits, and random choice", "why_tests_cant": "Local optimality quantifies over all single moves of all results.", "anchors": ["src/partition/FMRefiner.cpp: refine", "src/partition/TwoWayConnectivity.hpp", "src/partition/PartitioningAnalyzer.cpp"]}
{"id": "C73", "title": "The unit of the edge weights does not matter", "statement": "Multiplying all edge weights by the same positive factor (as long as their sum still fits the weight type) gives the same labels, the same return value, the same failures and the same use of random numbers, and a cut multiplied by that factor. Under the default aggregation scheme this holds for graphs without edges of weight 1; graphs whose edge weights are all 1 are treated differently there.", "quantifier": "every undirected graph, factor, number of parts, options and random seed", "why_tests_cant": "A relation between pairs of executions of the whole algorithm over all graphs and seeds.", "anchors": ["src/Poros.cpp: POROS_PartGraphRecursive", "src/partition/RecursiveBisectionPartitioner.cpp", "src/partition/MultilevelBisector.cpp", "src/partition/FMRefiner.cpp", "src/partition/BFSBisector.cpp", "src/aggregation/SHEMRMAggregator.cpp"]}
{"id": "C74", "title": "Targets given as weights", "statement": "A target partitioning built from target weights and limits keeps both unchanged and reports for every part the fraction weight/total, up to rounding (2^-48), whenever the weights have a positive sum that fits the weight type.", "quantifier": "every number of parts and every vector of weights", "why_tests_cant": "Rounding errors over all weight vectors.", "anchors": ["src/partition/TargetPartitioning.cpp: calcFractions"]}
{"id": "C75", "title": "Generated grids can be partitioned", "statement": "Handing the arrays of a grid of any size made by the grid generator to the call for two parts succeeds and writes label 0 or 1 for every vertex and the exact cut. If the vertices together weigh at least 100 and none weighs more than two fifths of the whole, each side gets at least one vertex and about a twelfth of the weight, no side gets more than half the weight plus a sixtieth, 4 and the larger of the heaviest vertex and 3/40 of the weight (rounded up), and with positive edge weights the cut is positive.", "quantifier": "every grid extent, every range of weights (within 32 bits), every random draw of the weights, every option set with a known scheme, every choice stream", "why_tests_cant": "All grids, all weights and all random streams; a test partitions a few grids.", "anchors": ["src/graph/GridGraphGenerator.cpp", "src/Poros.cpp"]}
{"id": "C76", "title": "What a call can do", "statement": "For every graph in well-formed CSR form, every number of parts and every options argument, exactly the following can happen. Without options 0 is returned, nothing is written and no random number is drawn. With an unknown scheme an exception escapes. With a known scheme no parts at all reads out of bounds and one part with at least one cut converts an infinite number to an integer, and one part without cuts does that or nothing. With a known scheme, at least one part and no cuts asked for, if anything is returned it is 1 and nothing is written. Otherwise a call that returns returns 1 and writes the cut and one label below the number of parts for every vertex; the only ways for it not to return are the empty random range, an unweighted side, a sum of priorities above 2^31 - 1 and, if a vertex lists itself as neighbour, a read of uninitialised memory. The call never fails to end.", "quantifier": "every valid CSR input with sizes below 2^32, every number of parts below 2^32 (0 and 1 included), every options argument (null included), every choice stream", "why_tests_cant": "All inputs, option values and random streams at once; tests exercise a few combinations.", "anchors": ["src/Poros.cpp", "include/poros.h"]}
{"id": "C77", "title": "The plainest call works", "statement": "Take an undirected graph without self loops (every edge listed from both ends, equally often) with at least 100 vertices and an edge, give neither vertex nor edge weights, ask for two parts with a known scheme and at least one cut. The call returns 1; every vertex gets label 0 or 1; the cut returned is the number of edges that join the two parts; each part has at least n/12 - 7 vertices and at most about n/2 + n/60 + 3n/40 + 5.", "quantifier": "every such graph of any size below 2^32 - 1 vertices and 2^32 adjacency entries (parallel edges allowed), every option set with a known scheme, every choice stream", "why_tests_cant": "All graphs and all random streams; a test partitions a few graphs.", "anchors": ["src/Poros.cpp", "include/poros.h", "src/partition/MultilevelBisector.cpp"]}
{"id": "C78", "title": "Weighted graphs into up to eight parts", "statement": "Take an undirected graph without self loops whose arrays give vertex weights and edge weights (from u to v the same weight as from v to u, all edge weights counted from both ends below 2^32). Let T, the sum of the vertex weights, be at least 4000 and below 2^32 - 1, and let no vertex weigh more than T/25. Ask for k parts, 2 to 8, with a known scheme and at least one cut; for three parts or more not all weights are 1, for five or more none is. The call returns 1; every vertex gets a label below k; the cut returned is the weight of the edges that join different labels; no part weighs more than T/k + T/49 + 2k + (ceil(log2 k) + 1) * (3T/40 + 1); and with up to four parts none is empty.", "quantifier": "every such graph of any size below 2^32 vertices and adjacency entries (parallel edges allowed), every weight array of that kind, every option set with a known scheme, every choice stream", "why_tests_cant": "All graphs, all weights and all random streams; a test partitions a few graphs.", "anchors": ["src/Poros.cpp", "include/poros.h", "src/partition/RecursiveBisectionPartitioner.cpp"]}
