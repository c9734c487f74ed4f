#!/usr/bin/env python3
# Generates /verif/properties.jsonl.  P(id, title, statement, quantifier, why, anchors)
import json
out=[]
def P(i,title,st,q,why,*anchors):
    out.append(dict(id=i,title=title,statement=st,quantifier=q,why_tests_cant=why,anchors=list(anchors)))
API="src/Poros.cpp: POROS_PartGraphRecursive"
P("C01","Every label written by the top-level call is a real partition",
 "Whenever POROS_PartGraphRecursive returns 1 with at least one global cut, all numVertices entries of partitionAssignment have been written and each lies in [0, numPartitions).",
 "every valid CSR graph, every numPartitions >= 2, every option record, every outcome of the random engine, every tie-break of the priority queues",
 "A bad label needs one particular graph, seed and tie-break; a test sees a handful of them.",
 API,"src/partition/RecursiveBisectionPartitioner.cpp: recurse","src/partition/Partitioning.cpp: output")
P("C02","Reported cut is the cut of the reported labels",
 "Whenever POROS_PartGraphRecursive returns 1, *totalCutEdgeWeight is exactly the total weight of undirected edges whose endpoints got different labels, provided the total directed edge weight fits in 32 bits; without that proviso it can be wrong.",
 "every valid undirected graph, weights, k >= 2, options, random stream",
 "The cut value travels through coarsening, projection and incremental refinement; agreement must hold on every path.",
 API,"src/partition/Partitioning.cpp: recalcCutEdgeWeight")
P("C03","The top-level call is memory safe on every valid graph",
 "For every non-empty valid graph and 2 <= numPartitions <= numVertices the call returns 1 without reading out of bounds, reading uninitialised memory or an out-of-range float conversion.",
 "every valid graph, with and without weight arrays, every k, every random stream",
 "Out-of-bounds reads happen only for particular sizes (e.g. odd vertex counts without a weight array) and may go unnoticed when they do.",
 API,"src/partition/BFSBisector.cpp: bfsWeightBalance, bfsUnitBalance","src/partition/RecursiveBisectionPartitioner.cpp")
P("C04","One partition is the trivial partition",
 "With numPartitions = 1 the call returns 1, every label is 0 and the cut is 0.",
 "every valid graph and option record","Tests exercise k=2,4,...; the k=1 case divides by log2(1).",
 API,"src/partition/RecursiveBisectionPartitioner.cpp: execute, recurse")
P("C05","Null options mean defaults",
 "Calling with options == NULL behaves as calling with POROS_defaultOptions() (poros.h: 'This may be null when the defaults are desired').",
 "every graph and k","The documented contract quantifies over every call.",
 "include/poros.h",API,"src/Poros.cpp: POROS_defaultOptions")
P("C06","Best of numGlobalCuts is returned",
 "With numGlobalCuts = m >= 1 the output is the first of the m complete partitionings with the smallest cut: labels and cut come from the same run, and no run had a smaller cut; with m <= 0 nothing is written although success is reported.",
 "every m, every sequence of partitioning results","Needs all sequences of run results, including ties and improvements late in the sequence.",
 API)
P("C07","Errors are reported by returning 0",
 "An invalid aggregationScheme or numPartitions = 0 makes the call return 0 (poros.h: 'return 1 on success, 0 if an error occurs').",
 "every option record and graph","The failing path is an exception crossing a C boundary; one must rule it out for every invalid option.",
 API,"src/aggregation/AggregatorFactory.cpp: make","src/partition/TargetPartitioning.cpp")
P("C08","Balance options influence the result",
 "imbalanceTolerance, targetPartitionFractions and refinementIterations given by the caller are honoured.",
 "every pair of option records that differ only in these fields","Showing an option is (not) honoured requires comparing all pairs of runs.",
 API,"src/PorosParameters.cpp","src/partition/PartitionParameters.cpp")
P("C09","The call always terminates",
 "Coarsening, refinement and recursive bisection terminate for every graph and every random stream: coarsening strictly shrinks the number of edges, each refinement pass moves each vertex at most once, recursion halves the number of parts.",
 "every graph, k, random stream","Non-termination cannot be observed by a finite test.",
 "src/partition/MultilevelBisector.cpp: recurse","src/partition/FMRefiner.cpp: refine","src/partition/RecursiveBisectionPartitioner.cpp: recurse")
P("C10","Recursive bisection hands out disjoint label ranges",
 "Whatever two-way partitioner is plugged in, recursive bisection into k >= 2 parts assigns every vertex exactly one label in [0,k); the vertices put on the left of the top bisection get labels below floor(k/2) and those on the right get labels at least floor(k/2).",
 "every bisector returning labels in {0,1}, every graph, every k >= 2","k and the shape of the recursion tree are unbounded.",
 "src/partition/RecursiveBisectionPartitioner.cpp: execute, recurse, mapPartitioning")
P("C11","Bisection targets add up",
 "In recursive bisection each side's target weight is the sum of the target weights of the parts it will be split into, and its maximum is never below its target.",
 "every k >= 2, every target vector","Quantifies over every target vector and depth.",
 "src/partition/RecursiveBisectionPartitioner.cpp: recurse")
P("C12","Extracted subgraphs partition the vertices",
 "Extracting the subgraphs of a k-way partitioning yields k graphs whose super-vertex maps together list every parent vertex exactly once, in increasing order, each in the subgraph of its part.",
 "every graph, k, partitioning","All label vectors must be covered.",
 "src/graph/SubgraphExtractor.cpp: partitions","src/graph/Subgraph.cpp")
P("C13","Extracted subgraphs are induced",
 "The edges of subgraph p are exactly the parent edges with both ends in p, with the same multiplicities, order and weights; vertex weights are those of the super vertices; symmetric parents give symmetric subgraphs.",
 "every graph, partitioning","Quantifies over all graphs and all label vectors; off-by-one prefix errors show on few.",
 "src/graph/SubgraphExtractor.cpp: partitions","src/graph/TwoStepGraphBuilder.cpp")
P("C14","Mapping a partitioning back touches only its own vertices",
 "Writing a (sub)graph's partitioning to the parent's label array sets label[super(v)] = label(v) + offset for each of its vertices and leaves every other entry unchanged.",
 "every subgraph, partitioning, offset, output array","Frame conditions are about everything not touched.",
 "src/graph/Subgraph.cpp: mapPartitioning","src/graph/MappedGraphWrapper.cpp: mapPartitioning")
P("C15","Contraction preserves vertex weight",
 "Each coarse vertex weighs the sum of the vertices grouped into it and the coarse graph's total vertex weight equals the fine graph's.",
 "every graph and every grouping of its vertices","Quantifies over groupings and sizes.",
 "src/aggregation/SummationContractor.cpp: contractGraph","src/graph/OneStepGraphBuilder.cpp")
P("C16","Contraction sums parallel edges exactly",
 "The coarse edge between two different groups weighs the sum of the fine edges between them; there is at most one coarse edge per ordered pair, no self loop, and the coarse total edge weight is the total weight of inter-group fine edges.",
 "every graph and grouping","The hash table reset and the slot swap go wrong only on particular neighbour patterns.",
 "src/aggregation/SummationContractor.cpp: contractGraph","src/graph/OneStepGraphBuilder.hpp: addEdge, finishVertex")
P("C17","Contraction of a valid graph is a valid graph",
 "If the fine graph is well-formed and symmetric then so is the coarse graph: prefix array monotone, destinations in range, W(a,b) = W(b,a).",
 "every graph and grouping","Same.",
 "src/aggregation/SummationContractor.cpp","src/graph/OneStepGraphBuilder.cpp")
P("C18","Projection preserves cut and part weights",
 "Projecting a partitioning of the coarse graph to the fine graph gives every fine vertex the label of its group, keeps the part weights and keeps the cut, which is again exactly the fine cut.",
 "every graph, grouping, coarse partitioning","Must hold for all partitionings of all contractions.",
 "src/multilevel/DiscreteCoarseGraph.cpp: project")
P("C19","Projection rebuilds boundary data exactly",
 "The internal/external connectivity of every fine vertex and the border set after projection equal what recomputation from scratch would give, although only vertices of border groups are recomputed.",
 "every graph, grouping, coarse partitioning with correct connectivity","The skipped vertices are correct only by an argument about all interior groups.",
 "src/multilevel/DiscreteCoarseGraph.cpp: project, fillInConnectivity")
P("C20","Matchings are matchings of adjacent vertices",
 "Random and heavy-edge matching put every vertex in exactly one group; groups have one or two vertices and the two vertices of a pair are adjacent.",
 "every loop-free graph, every permutation, weight limit","Quantifies over every visit order.",
 "src/aggregation/RandomMatchingAggregator.cpp","src/aggregation/HeavyEdgeMatchingAggregator.cpp","src/aggregation/MatchedAggregationBuilder.cpp")
P("C21","Matching respects the weight limit",
 "No pair is formed whose combined vertex weight exceeds the maximum the caller set.",
 "every loop-free graph whose total vertex weight is below 2^32 - 1 (weights are 32-bit and 2^32 - 1 means 'no limit'), every limit, every visit order, all three aggregators","Depends on 32-bit wrap-around and on the sentinel value.",
 "src/aggregation/AggregationParameters.hpp: isAllowedVertexWeight","src/aggregation/RandomMatchingAggregator.cpp","src/aggregation/HeavyEdgeMatchingAggregator.cpp")
P("C22","Matching is maximal",
 "After aggregation no two adjacent vertices are both left single unless their combined weight is over the limit.",
 "every graph, limit, visit order","Maximality is a statement about all remaining edges under all orders.",
 "src/aggregation/RandomMatchingAggregator.cpp","src/aggregation/HeavyEdgeMatchingAggregator.cpp")
P("C23","Heavy-edge matching picks a heaviest available edge",
 "When heavy-edge matching visits an unmatched vertex it pairs it with an unmatched, allowed neighbour of maximal edge weight, and with none only if no unmatched neighbour is allowed.",
 "every graph, partial matching, visited vertex","All neighbourhoods and partial matchings.",
 "src/aggregation/HeavyEdgeMatchingAggregator.cpp")
P("C24","Aggregation groups invert the coarse map",
 "Group c of an Aggregation lists exactly the fine vertices mapped to c, each once, in increasing order.",
 "every coarse map","All maps.",
 "src/aggregation/Aggregation.cpp","src/aggregation/VertexGrouping.hpp")
P("C25","Part weights follow any history of moves",
 "After any sequence of assign, unassign and move operations on a partitioning, the weight of part p is the sum of the weights of the vertices currently in p (mod 2^32).",
 "every operation history","Histories are unbounded.",
 "src/partition/Partitioning.hpp: assign, unassign, move","src/partition/Partitioning.cpp")
P("C26","A partitioning built from labels is exact",
 "Building a partitioning from a label vector gives the exact part weights, vertex counts and cut; out-of-range labels are outside the contract (out-of-bounds write).",
 "every graph, label vector","All label vectors.",
 "src/partition/Partitioning.cpp: Partitioning, recalcCutEdgeWeight, calcVertexCounts")
P("C27","Connectivity built from a partitioning is exact",
 "TwoWayConnectivityBuilder gives for each vertex the weight of its edges inside and across the cut, and a border containing exactly the vertices with an edge of positive weight across or with no internal weight.",
 "every graph and two-way partitioning","All partitionings.",
 "src/partition/TwoWayConnectivityBuilder.cpp","src/partition/TwoWayConnectivity.hpp")
P("C28","Connectivity stays exact under any sequence of moves",
 "Moving vertices one after another and updating the neighbours keeps internal/external connectivity of every vertex equal to recomputation, the border contains every vertex with positive external weight, and the gain of each move is the exact change of the cut.",
 "every history of moves on every loop-free symmetric graph","Unbounded histories.",
 "src/partition/TwoWayConnectivity.hpp: move, updateNeighbor, getVertexDelta","src/partition/TwoWayConnectivity.cpp: verify")
P("C29","Incremental border equals rebuilt border",
 "After any sequence of moves verify() accepts, i.e. the border equals the border computed from scratch.",
 "every history of moves","Only vertices without positive-weight edges show the difference.",
 "src/partition/TwoWayConnectivity.cpp: verify, shouldBeInBorder","src/partition/TwoWayConnectivity.hpp: updateBorderStatus")
P("C30","FM refinement keeps the cut exact",
 "After FM refinement the cut stored in the partitioning is the exact cut of its labels and the connectivity data is exact for it.",
 "every loop-free symmetric graph, starting partition, targets, tie-breaking","Moves and rollbacks are data dependent and unbounded.",
 "src/partition/FMRefiner.cpp: refine, move")
P("C31","FM refinement never makes things worse",
 "FM refinement never returns a partitioning that is worse than its input: the result either has a strictly better balance metric, or no larger cut and no worse balance, (lexicographically never worse).",
 "every graph, starting partition, targets, tie-breaking","All runs.",
 "src/partition/FMRefiner.cpp: refine")
P("C32","FM touches each vertex at most once per pass",
 "Within one pass FM moves each vertex at most once (apart from rollback), only takes vertices out of the queue of the side they are on, and both queues only hold unvisited border vertices.",
 "every run","All runs and tie-breaks.",
 "src/partition/FMRefiner.cpp: refine, move, pickSide","src/util/VisitTracker.hpp")
P("C33","BFS growing gives a valid bisection",
 "BFS bisection of a non-empty graph labels every vertex 0 or 1, part weights and cut are exact, and the grown (left) side does not exceed its maximum by the growing phase.",
 "every graph, target, random stream","All seeds and tie-breaks.",
 "src/partition/BFSBisector.cpp")
P("C34","BFS balancing step respects the limits",
 "The final balancing step of BFS bisection never pushes the left side over its maximum unless this improves the worse of the two relative loads, for weighted and unweighted graphs alike.",
 "every graph, target, random stream","Only graphs whose right side stays overweight reach this step.",
 "src/partition/BFSBisector.cpp: bfsUnitBalance, bfsWeightBalance, execute")
P("C35","Best of several bisections is kept",
 "MultiBisector returns one of its candidates; if some candidate is balanced the result is a balanced candidate of smallest cut among the balanced ones, otherwise one of best balance.",
 "every number of candidates and sequence of candidates","All sequences of candidates.",
 "src/partition/MultiBisector.cpp: execute")
P("C36","Target weights are consistent",
 "For every number of parts, total weight and tolerance, each maximum is at least the corresponding target, the targets sum to at most the total weight (up to rounding below k) and uniform fractions are never rejected.",
 "every k >= 1, weight, tolerance >= 0","Floating point rounding over all k and weights.",
 "src/partition/TargetPartitioning.cpp","src/partition/PartitionParameters.cpp")
P("C37","Invalid fractions are rejected",
 "Constructing a target from fractions throws exactly when some fraction is outside [0,1] or the sum is outside [0.9999,1.0001].",
 "every fraction vector","All double vectors, including NaN.",
 "src/partition/TargetPartitioning.cpp")
P("C38","Stopping criteria decide as documented",
 "The vertex-number criterion stops exactly when the coarse graph has at most N vertices; the edge-ratio criterion stops when coarse/fine edges exceed the ratio, when the coarse graph has no edges; the composite stops exactly when one of its members does. A finite ratio is accepted, unchanged, exactly if it lies strictly between 0 and 1, and rejected with a runtime error otherwise.",
 "every level and pair of graphs, every list of criteria","All lists and sizes.",
 "src/multilevel/EdgeRatioStoppingCriteria.cpp","src/multilevel/VertexNumberStoppingCriteria.cpp","src/multilevel/CompositeStoppingCriteria.cpp")
P("C39","Graph totals and unit flags are exact",
 "A graph built from CSR arrays reports total vertex/edge weight equal to the sums mod 2^32, and reports unit weights exactly when every weight is 1; missing arrays mean weight 1.",
 "every CSR input","All weight vectors.",
 "src/graph/Graph.cpp: Graph")
P("C40","Two-step builder builds the described graph",
 "For any interleaving of edge insertions consistent with the announced counts, TwoStepGraphBuilder yields a graph in which vertex v has exactly the edges added to v, in insertion order, and the weights set for it.",
 "every count vector and every insertion interleaving","All interleavings.",
 "src/graph/TwoStepGraphBuilder.cpp","src/graph/TwoStepGraphBuilder.hpp")
P("C41","One-step builder builds the described graph",
 "For any sequence of addEdge/finishVertex calls within capacity, OneStepGraphBuilder yields a loop-free graph in which vertex v has one edge per distinct other destination added, with the sum of the weights, and the exact totals.",
 "every call sequence","All call histories.",
 "src/graph/OneStepGraphBuilder.cpp","src/graph/OneStepGraphBuilder.hpp")
P("C42","Grid generator builds the 3-D grid",
 "The grid generator's graph has x*y*z vertices, an edge between two vertices exactly when their coordinates differ by one in one dimension, symmetric weights, and as many edges as announced. Unless told otherwise vertices weigh 1 and edges 1 or 2.",
 "every x,y,z >= 1 and weight range","All sizes.",
 "src/graph/GridGraphGenerator.cpp")
P("C43","Vertex sets enumerate what they say",
 "Iterating a vertex set [begin,end) yields each vertex once; indexing s[i] gives the i-th vertex of the iteration; permuted sets yield a permutation of the set.",
 "every begin, end, permutation","All ranges.",
 "src/graph/VertexSet.hpp","src/graph/PermutedVertexSet.hpp","src/graph/RandomOrderVertexSet.cpp","src/graph/DegreeSortedVertexSet.cpp")
P("C44","Visit tracker behaves as a set",
 "After any sequence of visit/unvisit/clear operations hasVisited(v) is true exactly when v was visited since it was last unvisited or the tracker cleared.",
 "every history","Unbounded histories.",
 "src/util/VisitTracker.hpp")
P("C45","Time keeper accumulates per category",
 "After any sequence of reports the time listed for a category is the sum of the times reported for it; unknown categories are rejected and change nothing.",
 "every history of reports","Unbounded histories.",
 "src/util/TimeKeeper.cpp")
P("C46","Balance analysis is exact",
 "isBalanced holds exactly when every part weight is at most its maximum; the reported maximum imbalance is the largest of the parts' imbalances and 0.",
 "every partitioning and target","All weight vectors.",
 "src/partition/PartitioningAnalyzer.cpp")
P("C47","Random bisection gives a valid bisection",
 "Random bisection labels every vertex 0 or 1, its part weights and cut are exact, the left side never exceeds its maximum, and when the swap phase exchanges two vertices both sides end up within their maxima, provided these together leave room for the whole graph. The swap exchanges a heaviest right vertex for the lightest left vertex with which the left side fits, and, when that right vertex does not fit on the left by itself, it happens whenever some left vertex brings both sides within their maxima.",
 "every undirected graph whose directed edge weight fits 32 bits and every target such that the total vertex weight and limits are below 2^30 (the code computes with signed 32-bit differences), every random stream","All permutations.",
 "src/partition/RandomBisector.cpp")
P("C48","Multilevel bisection is correct for any components",
 "For any aggregator producing groupings, any initial bisector producing valid bisections and any refiner preserving validity, the multilevel bisector returns a valid bisection of the input graph with exact weights and cut.",
 "every graph, aggregator, bisector, refiner","Quantifies over plugged-in components and levels.",
 "src/partition/MultilevelBisector.cpp")
P("C49","Debug graph validation is sound",
 "Graph::isValid accepts a graph only if its totals are right, all destinations are vertices and every edge has a reverse edge; it accepts every symmetric graph without parallel edges whose totals are right.",
 "every graph","All graphs.",
 "src/graph/Graph.cpp: isValid")
P("C50","Coarsening keeps every level valid",
 "Every graph of the multilevel hierarchy is well-formed, symmetric, loop-free, has the same total vertex weight as the input and cut values on it equal cut values of the projected partitioning on the input.",
 "every graph, seed, number of levels","Unbounded number of levels.",
 "src/partition/MultilevelBisector.cpp: recurse","src/multilevel/DiscreteCoarseGraph.cpp")
P("C51","Refinement on the way back never makes a bisection worse",
 "Whatever aggregation scheme and initial bisector are used, the bisection multilevel bisection with FM returns is no worse than the bisection of the coarsest graph it started from, read as a bisection of the input: if that one was within the maximum weights so is the result, and its cut is not larger; otherwise the result is within the maxima, or its imbalance is smaller, or neither its imbalance nor its cut is larger.",
 "every undirected graph, scheme, initial bisector, even target, number of levels and seed","Needs a chain of comparisons over an unbounded number of levels, each of arbitrary move histories.",
 "src/partition/MultilevelBisector.cpp: recurse","src/partition/FMRefiner.cpp","src/multilevel/DiscreteCoarseGraph.cpp")
P("C52","Random bisection with refinement",
 "Random bisection followed by FM refinement always delivers a bisection with exact weights and cut that is no worse than the random bisection it started from.",
 "every undirected graph, target below 2^30, number of refinement iterations, seed","All permutations and move histories.",
 "src/partition/RandomFMBisector.cpp","src/partition/RandomBisector.cpp","src/partition/FMRefiner.cpp")
P("C53","A k-way partitioning is the tree of its bisections",
 "A k-way partitioning made by recursive bisection consists of exactly k-1 bisections, each of the subgraph induced by one side of the bisection above it; a vertex's label is read off the sides it falls on, the first half of the labels going to side 0, and the edge cut is the sum of the cuts of these bisections. The cut the API reports is that sum.",
 "every graph, number of parts, bisector, seed","All recursion trees of any depth.",
 "src/partition/RecursiveBisectionPartitioner.cpp: recurse, execute","src/graph/SubgraphExtractor.cpp","src/Poros.cpp: POROS_PartGraphRecursive")
P("C54","Absent weights stand for weights of one",
 "Passing NULL for the edge weights has exactly the effect of passing an array of ones: same return value, labels, cut, failures. Passing NULL for the vertex weights has the effect of passing ones, unless the call reads through the absent array (the undefined behaviour described under C03 and C33).",
 "every CSR input (valid or not), number of parts, options, seed","Two runs of the whole library must be compared for every input.",
 "src/Poros.cpp: POROS_PartGraphRecursive","src/graph/Graph.hpp: hasUnitVertexWeight, hasUnitEdgeWeight","src/graph/GraphHandle.cpp")
P("C55","Coarsening never makes a vertex heavier than the limit and at most halves the graph",
 "However many times a graph is coarsened, no vertex of any coarse graph weighs more than the larger of the limit given to the aggregator and the heaviest vertex of the original graph, the total vertex weight is unchanged, and each coarsening step leaves at least half of the vertices.",
 "every graph without self loops, both aggregation schemes, every limit, any number of levels, every random choice","The number of levels and the random order are unbounded.",
 "src/multilevel/DiscreteCoarseGraph.hpp","src/aggregation/RandomMatchingAggregator.cpp: aggregate","src/aggregation/SHEMRMAggregator.cpp: aggregate","src/aggregation/SummationContractor.cpp: contract")
P("C56","Multilevel bisection is balanced when the limits leave room for the heaviest vertex",
 "If the limit of each side exceeds its target by at least the heaviest vertex less one, and by at least 3/40 of the total weight less one (the heaviest vertex coarsening may make; not needed for graphs that are not coarsened), multilevel bisection with the library's parameters succeeds and both sides are within their limits.",
 "every undirected graph of representable weight, both aggregation schemes, every pair of equal targets, every random choice","It is a guarantee over all graphs and random choices; a test sees one seed.",
 "src/partition/MultilevelBisector.cpp: execute, recurse","src/partition/BFSBisector.cpp: execute","src/partition/MultiBisector.cpp: execute","src/partition/FMRefiner.cpp: refine")
P("C57","Small graphs of unit weight are divided evenly",
 "For an undirected graph of at most 20 vertices, all of weight one, and a number of parts (at least two) that divides the number of vertices, a call with valid options succeeds and gives every part exactly the same number of vertices.",
 "every undirected graph of up to 20 vertices (any edges and edge weights), every dividing number of parts, both schemes, any number of cuts, every seed","There are astronomically many graphs on twenty vertices and random streams.",
 "include/poros.h: POROS_PartGraphRecursive","src/Poros.cpp: POROS_PartGraphRecursive","src/partition/RecursiveBisectionPartitioner.cpp: execute")
P("C58","The imbalance of a power-of-two partitioning is bounded",
 "When the number of parts k is a power of two 2^j and the graph weighs T >= 2k in total, no part of a successful call weighs more than its fair share T/k plus T/60 plus 2k plus j times the larger of the heaviest vertex and 3T/40.",
 "every undirected graph of representable weight, every number of parts that is a power of two, both schemes, any number of cuts, every seed","A test can only measure the imbalance of particular graphs and seeds.",
 "include/poros.h: POROS_PartGraphRecursive","src/Poros.cpp: POROS_PartGraphRecursive","src/partition/RecursiveBisectionPartitioner.cpp: execute","src/partition/TargetPartitioning.cpp: TargetPartitioning")
P("C59","The matching builder records exactly the matches it is given",
 "For any sequence of match and next-unmatched calls on a builder for n vertices in which every vertex is matched at most once and with another vertex: a vertex is reported matched exactly if it was matched, the next unmatched vertex is the smallest one left, and the aggregation built has one group for each match and each unmatched vertex, two vertices share a group exactly if they were matched with each other, and groups are numbered in the order of their smallest vertices. Matching a vertex with itself is accepted but building then reads uninitialised memory.",
 "every n and every sequence of calls","Tests run a few call sequences.",
 "src/aggregation/MatchedAggregationBuilder.cpp: match, isMatched, getNextUnmatchedVertex, build")
P("C60","The connectivity builder holds the last values it is given",
 "For any sequence of calls that set the internal or external connectivity of vertices, in any order and any number of times: if every vertex was given both, the finished connectivity holds the last values, a vertex is in the border exactly if its external value is positive or its internal value is 0, and its delta is internal minus external; if a value was left out, finishing reads uninitialised memory.",
 "every number of vertices and every sequence of calls","Tests run a few call sequences.",
 "src/partition/TwoWayConnectivityBuilder.cpp: begin, setInternalConnectivity, setExternalConnectivity, finish","src/partition/TwoWayConnectivity.cpp: getVertexDelta, isInBorder")
P("C61","The multilevel hierarchy has logarithmic depth and linear size",
 "Bisecting an undirected graph with m < 2^32 directed edges makes at most 433 coarser graphs; d > 0 coarser graphs are made only if (20/19)^(d-1) <= m; and all graphs of the hierarchy together have at most 21*m directed edges. The recursion never goes deeper than that.",
 "every undirected graph, both aggregation schemes, every weight limit, every initial bisector and refiner, every seed","A test measures the depth for particular graphs.",
 "src/partition/MultilevelBisector.cpp: execute, recurse","src/multilevel/EdgeRatioStoppingCriteria.cpp: shouldStop","src/multilevel/VertexNumberStoppingCriteria.cpp: shouldStop")
P("C62","No part is left empty",
 "A successful call for 2 parts on an undirected graph of total weight T >= 100 without a vertex heavier than 2T/5 leaves no part empty and gives each at least (T-84)/12; for 3 parts, T >= 2000 and no vertex heavier than T/16, at least (T-1760)/80; for 4 parts, T >= 2000 and no vertex heavier than T/20, at least (T-1900)/120. Without such a bound it is false: four vertices weighing 90, 2, 2, 90 in three parts leave a part empty.",
 "every undirected graph of representable weight within the bounds, both schemes, any number of cuts, every seed","A test sees the parts of particular graphs and seeds.",
 "include/poros.h: POROS_PartGraphRecursive","src/Poros.cpp: POROS_PartGraphRecursive","src/partition/RecursiveBisectionPartitioner.cpp: execute")
P("C63","Timing does not change the result, and the printed times are complete",
 "For every input and whatever the clock reads, the call with its time keeper and timing wrappers returns the same value, labels, cut and failures, and consumes the same random numbers, as the call without them. If times are printed, they are the eight categories in order, each the sum of its timers' readings; every reading is used once; the total is reported once and last; initial partitioning is reported numGlobalCuts * (k-1) times; coarsening, aggregation, contraction, projection, refinement and uncoarsening equally often. Nothing is printed if it was not asked for.",
 "every input, option, seed and sequence of clock readings","Tests do not control the clock, and compare few runs.",
 "src/Poros.cpp: POROS_PartGraphRecursive","src/partition/MultilevelBisector.cpp: execute, recurse","src/partition/TimedBisector.cpp: execute","src/partition/TimedTwoWayRefiner.cpp: refine","src/aggregation/TimedAggregator.cpp: aggregate","src/aggregation/TimedContractor.cpp: contract","src/util/TimedProcess.cpp: reportTime","src/util/TimeKeeper.cpp: reportTime, times")
P("C64","More cuts are never worse, and calls for cuts compose",
 "A call for c+d global cuts (c, d >= 1) does what a call for c cuts followed by a call for d cuts with the next random numbers does, and returns the better of the two results, the first if their cuts are equal; this includes the failures and the random numbers used. So with the same seed, asking for more cuts never gives a larger cut, and the same labels if the cut is equal.",
 "every input, all options, every seed, every c and d","A test compares the cuts of a few runs.",
 "src/Poros.cpp: POROS_PartGraphRecursive","include/poros.h: numGlobalCuts")
P("C65","Random engine handles share one reproducible stream",
 "Numbers drawn lie between min() and max() for every seed and every number of draws before. In any history of makes, copies, setSeed and requests through handles, a request gets what an engine of its own would give that had been made with the seed last given to that engine by any handle and had served the requests made since through any of its handles; other engines have no influence. Seeds count modulo 2^32.",
 "every seed, every history of calls, any number of engines and handles","Tests compare the first numbers of two engines.",
 "src/util/SimpleRandomEngine.hpp: min, max, operator(), randInRange","src/util/SimpleRandomEngine.cpp: fillWithPerm, setSeed","src/util/RandomEngineHandle.hpp: RandomEngineHandle, setSeed","src/util/RandomEngineFactory.cpp: make")
P("C66","BFS bisection grows its region greedily, and connectedly",
 "BFS bisection considers vertices one by one, each at most once, starting with the random seed, while the left side is below its target. Each later vertex is one most strongly connected (by edge weight) to the left side among those not considered yet, and is taken exactly if it fits within the left maximum. The result is this region, plus one vertex not considered so far exactly when there is one, the right side is over its maximum, and one vertex more (counted as weight 1) leaves the left side relatively lighter than the right side was. So on a connected graph with unit vertex weights and maxima that cover the total, the left side is connected.",
 "every valid graph whose total weights fit, every two-way target, every random choice","Tests look at the cut of one bisection.",
 "src/partition/BFSBisector.cpp: execute, bfsPriorityMove")
P("C67","Refinement is Fiduccia-Mattheyses",
 "Refining a bisection does at most the given number of passes. A pass moves vertices one by one to the other side, each at most once and only while it has an edge across; a vertex without edges counts as movable (with gain 0) until it has been moved once in the whole refinement. The vertex moved has the largest gain (what the move takes off the cut) of its side; a side over its maximum that can give a vertex away gives first, side 0 before side 1, and otherwise no vertex at all has a larger gain. The best labels so far are replaced after a move exactly if the new ones are over a maximum but less imbalanced, or have a smaller cut and are within the maxima or no more imbalanced. A pass ends when nothing is movable or after max(n/100, 25) (at most the given number) moves without success, and its result is the best labels; refinement ends after a pass without success.",
 "every undirected graph with positive edge weights that fit, isolated vertices included, every bisection and target, every random choice, any number of passes","Tests look at the cut after refinement of one small graph.",
 "src/partition/FMRefiner.cpp: refine, pickSide, move")
P("C68","Multilevel bisection does what it says",
 "Bisecting a graph with the library's multilevel bisector: while the graph has more than 20 vertices, has edges and has at least 5% fewer edges than the next finer one, its vertices are grouped into adjacent pairs of at most 3/40 of the total weight and single vertices, no two of which could be paired; every group becomes a vertex, vertex and parallel edge weights being added; the merged graph is bisected the same way, its labels are given to the vertices of the groups and refined by at most 8 passes (C67). The coarsest graph gets the best of 8 regions grown greedily from random seeds (C66): a later candidate replaces an earlier one exactly if it is less imbalanced while the earlier one is over a maximum, or is within the maxima and has a smaller cut while the earlier one is within them too.",
 "every undirected graph with positive edge weights that fit, every two-way target, both aggregation schemes, every random choice","Tests run the bisector on one grid and look at the cut.",
 "src/partition/MultilevelBisector.cpp: execute, recurse","src/partition/MultiBisector.cpp: execute","src/multilevel/DiscreteCoarseGraph.cpp")
P("C69","The call is recursive multilevel bisection",
 "A successful call for k parts makes as many partitionings as cuts were asked for and returns the first with the smallest cut, with that cut. Each partitioning bisects the graph by multilevel bisection (C68); with two labels each side gets one, with more side 0 gets the first half (rounded down) of the labels and side 1 the rest, and each side with more than one label is partitioned the same way as the graph it induces.",
 "every undirected graph with positive edge weights that fit, every k >= 2, every number of cuts, aggregation scheme and random choice","Tests look at ranges and balance for a few grids.",
 "src/Poros.cpp: POROS_PartGraphRecursive","src/partition/RecursiveBisectionPartitioner.cpp: recurse")
P("C70","What a matching makes",
 "Random matching visits all vertices in some order and pairs each one that is still single, along the first stored edge that leads to a single vertex and makes a pair of at most the weight limit; a vertex with no such edge stays single for the moment. Sorted heavy edge matching visits them by increasing degree and takes the heaviest such edge, the first of equal ones; where the graph has only edges of weight 1 it is random matching. The groups are exactly the pairs and the vertices left over, numbered from 0 in the order of their smallest vertex.",
 "every loopless graph whose vertex weights fit, every weight limit and random choice","Tests look at one grid and count the groups; which pairs are made for which order ranges over all graphs.",
 "src/aggregation/RandomMatchingAggregator.cpp: aggregate","src/aggregation/HeavyEdgeMatchingAggregator.cpp: aggregate","src/aggregation/SHEMRMAggregator.cpp: aggregate","src/aggregation/MatchedAggregationBuilder.cpp: match, build")
P("C71","Imbalance is bounded for every number of parts",
 "Whenever the call returns, for any number of parts k, no part is heavier than its fair share of the total vertex weight by more than 1/49 of the total, plus twice the number of parts (rounding), plus ceil(log2 k) + 1 times W, where W bounds the heaviest vertex and 3/40 of the total.",
 "every undirected graph, k from 2 up to half the total weight, options, log2 implementation and random choice","A test measures the imbalance of one run; a worst case over graphs, part counts and choices needs induction over the bisection tree.",
 "src/Poros.cpp: POROS_PartGraphRecursive","src/partition/RecursiveBisectionPartitioner.cpp: recurse","src/partition/FMRefiner.cpp: refine","src/partition/BFSBisector.cpp: execute","src/partition/TargetPartitioning.cpp")
P("C72","Refinement stops at a local optimum",
 "FM refinement of a bisection into equal halves that is within its weight limits stays within them, and unless every permitted pass reduced the cut, the result is a local optimum: whenever moving one vertex would reduce the cut, some vertex whose move would reduce it at least as much would make a side too heavy.",
 "every undirected graph with positive edge weights, start within the limits, iteration and move limits, and random choice","Local optimality quantifies over all single moves of all results.",
 "src/partition/FMRefiner.cpp: refine","src/partition/TwoWayConnectivity.hpp","src/partition/PartitioningAnalyzer.cpp")
P("C73","The unit of the edge weights does not matter",
 "Multiplying all edge weights by the same positive factor (as long as their sum still fits the weight type) gives the same labels, the same return value, the same failures and the same use of random numbers, and a cut multiplied by that factor. Under the default aggregation scheme this holds for graphs without edges of weight 1; graphs whose edge weights are all 1 are treated differently there.",
 "every undirected graph, factor, number of parts, options and random seed","A relation between pairs of executions of the whole algorithm over all graphs and seeds.",
 "src/Poros.cpp: POROS_PartGraphRecursive","src/partition/RecursiveBisectionPartitioner.cpp","src/partition/MultilevelBisector.cpp","src/partition/FMRefiner.cpp","src/partition/BFSBisector.cpp","src/aggregation/SHEMRMAggregator.cpp")
P("C74","Targets given as weights",
 "A target partitioning built from target weights and limits keeps both unchanged and reports for every part the fraction weight/total, up to rounding (2^-48), whenever the weights have a positive sum that fits the weight type.",
 "every number of parts and every vector of weights","Rounding errors over all weight vectors.",
 "src/partition/TargetPartitioning.cpp: calcFractions")
P("C75","Generated grids can be partitioned",
 "Handing the arrays of a grid of any size made by the grid generator to the call for two parts succeeds and writes label 0 or 1 for every vertex and the exact cut. If the vertices together weigh at least 100 and none weighs more than two fifths of the whole, each side gets at least one vertex and about a twelfth of the weight, no side gets more than half the weight plus a sixtieth, 4 and the larger of the heaviest vertex and 3/40 of the weight (rounded up), and with positive edge weights the cut is positive.",
 "every grid extent, every range of weights (within 32 bits), every random draw of the weights, every option set with a known scheme, every choice stream","All grids, all weights and all random streams; a test partitions a few grids.",
 "src/graph/GridGraphGenerator.cpp","src/Poros.cpp")
P("C76","What a call can do",
 "For every graph in well-formed CSR form, every number of parts and every options argument, exactly the following can happen. Without options 0 is returned, nothing is written and no random number is drawn. With an unknown scheme an exception escapes. With a known scheme no parts at all reads out of bounds and one part with at least one cut converts an infinite number to an integer, and one part without cuts does that or nothing. With a known scheme, at least one part and no cuts asked for, if anything is returned it is 1 and nothing is written. Otherwise a call that returns returns 1 and writes the cut and one label below the number of parts for every vertex; the only ways for it not to return are the empty random range, an unweighted side, a sum of priorities above 2^31 - 1 and, if a vertex lists itself as neighbour, a read of uninitialised memory. The call never fails to end.",
 "every valid CSR input with sizes below 2^32, every number of parts below 2^32 (0 and 1 included), every options argument (null included), every choice stream","All inputs, option values and random streams at once; tests exercise a few combinations.",
 "src/Poros.cpp","include/poros.h")
P("C77","The plainest call works",
 "Take an undirected graph without self loops (every edge listed from both ends, equally often) with at least 100 vertices and an edge, give neither vertex nor edge weights, ask for two parts with a known scheme and at least one cut. The call returns 1; every vertex gets label 0 or 1; the cut returned is the number of edges that join the two parts; each part has at least n/12 - 7 vertices and at most about n/2 + n/60 + 3n/40 + 5.",
 "every such graph of any size below 2^32 - 1 vertices and 2^32 adjacency entries (parallel edges allowed), every option set with a known scheme, every choice stream","All graphs and all random streams; a test partitions a few graphs.",
 "src/Poros.cpp","include/poros.h","src/partition/MultilevelBisector.cpp")
P("C78","Weighted graphs into up to eight parts",
 "Take an undirected graph without self loops whose arrays give vertex weights and edge weights (from u to v the same weight as from v to u, all edge weights counted from both ends below 2^32). Let T, the sum of the vertex weights, be at least 4000 and below 2^32 - 1, and let no vertex weigh more than T/25. Ask for k parts, 2 to 8, with a known scheme and at least one cut; for three parts or more not all weights are 1, for five or more none is. The call returns 1; every vertex gets a label below k; the cut returned is the weight of the edges that join different labels; no part weighs more than T/k + T/49 + 2k + (ceil(log2 k) + 1) * (3T/40 + 1); and with up to four parts none is empty.",
 "every such graph of any size below 2^32 vertices and adjacency entries (parallel edges allowed), every weight array of that kind, every option set with a known scheme, every choice stream","All graphs, all weights and all random streams; a test partitions a few graphs.",
 "src/Poros.cpp","include/poros.h","src/partition/RecursiveBisectionPartitioner.cpp")
with open('/verif/properties.jsonl','w') as f:
    for o in out: f.write(json.dumps(o)+"\n")
print(len(out))
