# A formal model of dlasalle/poros in Rocq (Coq 8.16.1)

## 1. What is modelled

The model is executable: `part_graph_recursive` (ModelApi.v) is one function from the C API down to
the last loop of the library, and is run by `vm_compute` on concrete graphs in the examples and
refutations.  Every definition in a `Model*.v` file cites the lines of /repo it models.

| file in rocq/theories | models (all under /repo/src, and /repo/include/poros.h) |
|---|---|
| `Base.v` | outcomes (`Ok`, `Fail (UB reason)`, `Fail (Throw e)`, `Fail OutOfFuel`), choice streams, checked arrays, uint32/int32 arithmetic |
| `F64.v` | binary64 arithmetic of the C++ `double` (stdlib `SpecFloat`: executable and axiom-free), the `double -> uint32_t` cast with its undefined behaviour |
| `ModelGraph.v` | `graph/Graph`, `Vertex`, `Edge`, `EdgeSet`, `VertexSet`, `PermutedVertexSet`, `RandomOrderVertexSet`, `DegreeSortedVertexSet`, `Graph::isValid` |
| `ModelBuilders.v` | `graph/OneStepGraphBuilder`, `graph/TwoStepGraphBuilder` |
| `ModelPartition.v` | `partition/Partitioning`, `Partition`, `PartitioningInformation`, `TargetPartitioning`, `PartitionParameters`, `PartitioningAnalyzer` |
| `ModelConn.v` | `partition/TwoWayConnectivity`, `TwoWayConnectivityBuilder`, `util/VertexQueue`, `util/VisitTracker` |
| `ModelFM.v` | `partition/FMRefiner`, `TwoWayRefinerFactory` |
| `ModelAgg.v` | `aggregation/*`: `MatchedAggregationBuilder`, `Aggregation`, `VertexGroup(ing)`, `RandomMatchingAggregator`, `HeavyEdgeMatchingAggregator`, `SHEMRMAggregator`, `AggregatorFactory`, `ContractorFactory`, `SummationContractor` |
| `ModelMultilevel.v` | `multilevel/*` (stopping criteria, `DiscreteCoarseGraph`), `partition/MultilevelBisector` |
| `ModelBisect.v` | `partition/BFSBisector`, `RandomBisector`, `RandomFMBisector`, `MultiBisector`, `BisectorFactory` |
| `ModelRecursive.v` | `graph/SubgraphExtractor`, `Subgraph`, `MappedGraphWrapper`, `partition/RecursiveBisectionPartitioner` |
| `ModelApi.v` | `Poros.cpp`, `PorosParameters`: `POROS_defaultOptions`, `POROS_PartGraphRecursive` |
| `ModelTimed.v` | the call once more with its timing: `TimedAggregator`, `TimedContractor`, `TimedBisector`, `TimedTwoWayRefiner`, the timers of `MultilevelBisector` and `Poros.cpp` |
| `ModelRandom.v` | `util/SimpleRandomEngine` (with std::mt19937), `RandomEngine`, `RandomEngineHandle`, `RandomEngineFactory`; `partition/MultilevelPartitioner` |
| `ModelUtil.v` | `util/TimeKeeper`, `TimedProcess`, `graph/GridGraphGenerator` |
| `Spec.v` | the independent vocabulary of the statements: arcs of a CSR graph, cut, part weight, symmetry, ... |
| `Logic.v`, `Sums.v`, `*Facts.v`, `Safe*.v` | lemmas |
| `Props*.v` | the property theorems, each with `Print Assumptions`, an example that meets its hypotheses, and refutations |

### Abstractions

* Indices (`vtx_type`, `adj_type`, `pid_type`) are `nat` without wrap-around; the theorems about
  calls assume that the number of vertices, directed edges and parts is below 2^32.  `NULL_VTX`,
  `NULL_PID`, `NULL_ADJ` are `None`.
* Weights are `Z` with an explicit `mod 2^32` at every unsigned operation; an `int32_t` result out
  of range is undefined behaviour.
* Undefined behaviour is an outcome, never silently a value: an index outside an array, a read of a
  never-written cell of `sl::Array(n)`, an iterator range whose end precedes its begin, a read of
  an absent weight array, an out-of-range `double -> uint32_t` cast, signed overflow, a broken
  container contract, `random in an empty range`.
* Loops without a syntactic bound run on fuel; `OutOfFuel` is a failure and C09 proves that it never
  happens.
* Random numbers, random permutations and orders left open by containers are read from a stream of
  naturals; theorems quantify over all streams, so over every seed and more.
* `std::log2` is a parameter `lg : nat -> f64`.  Theorems that need to know something of it take the
  hypothesis `log2_spec lg` (0 for 1; for k >= 2 a finite double not below 1); the examples
  use `floor_log2`, which meets it.
* A C++ `double` operation is one binary64 operation rounded to nearest, ties to even: no extended
  precision, no fused multiply-add, no fast-math (the CMake files ask for none).
* `ASSERT_*` and `DEBUG_MESSAGE` are debug-only and not part of the release behaviour.
* `solidutils` is an empty submodule in the checkout.  Assumed of it: `sl::Array(n)` is
  uninitialised and `sl::Array(n,v)` filled; `prefixSumExclusive` is the exclusive prefix sum;
  `Random::fillWithPerm` yields some permutation and `fillWithRange(min,max)` arbitrary values of
  [min,max]; `Sort::fixedKeysRandom` some permutation sorted by key; `FixedPriorityQueue` (used
  through `VertexQueue`) is a max-queue with unspecified order among equal keys for which adding a
  present element, and removing or updating an absent one, is undefined; `FixedSet` a set in
  unspecified order.

### Not modelled

Memory exhaustion, the text of messages, the wall clock (in
`ModelTimed.v` the timers read arbitrary doubles; C63 shows that leaving them out elsewhere loses
nothing), the link
between the numbers of the engine (`ModelRandom.v`) and the choices of the call (an arbitrary stream),
which is made by `solidutils`, `GraphHandle`, `IAllocatedData`, the interfaces (`I*.hpp`: the
virtual calls are modelled by their one implementation, or by a function parameter where a theorem
quantifies over components), the test programs and CMake.  There are no threads and no persistent
state.

## 2. Trusted base

* The Coq 8.16.1 kernel, including `vm_compute` (used for examples and refutations).
* `Print Assumptions` stands below every property theorem; `ASSUMPTIONS.md` (generated by
  `tools/mkassump.py`) lists its output for each.  Most theorems are closed.  Those that relate
  binary64 arithmetic to the reals (through Flocq) use exactly these four axioms of the standard
  library: `ClassicalDedekindReals.sig_not_dec`, `ClassicalDedekindReals.sig_forall_dec`,
  `FunctionalExtensionality.functional_extensionality_dep`, `Classical_Prop.classic`.
  There are no axioms, functors, module types or admitted proofs of our own.
* The reading of the C++ in the `Model*.v` files and the contracts listed above.

## 3. What the statements look like

* A claim about a run is `part_graph_recursive lg prefix adj vw ew k (Some o) s = Ok (r, s') -> ...`
  for all arguments and every stream `s`; or `exists r s', ... = Ok (r, s')` where success is part
  of the claim.  `wpm m E Q` says: from every stream, `m` either returns a value in `Q` or fails
  with a failure in `E` (`never`: it cannot fail; `anyf`: nothing is said about failures).
* Histories are lists of operations; claims about them are proved by induction over the list.
* A suffix `_refuted` marks a proved counterexample: the code does not do what the English claim
  says.  `_partial` marks a theorem that proves part of a claim.  The manifest marks as `partial`
  each property whose English claim does not hold in full, and says what does hold.
* Theorems were tested against edited models (see `seeded/LOG.jsonl`): each line names the edited
  definition, the edit, the claim it breaks, the theorems that then fail and the ones tightened
  because they did not.

## 4. Defects found in the code (each is a theorem or an executed witness)

1. `numPartitions = 1`: an infinite bound is cast to `uint32_t` (C04).
2. `options = NULL`: the call returns 0 although the header calls it optional (C05).
3. An unknown aggregation scheme lets a C++ exception escape through the C interface; `k = 0` reads
   out of bounds; `numGlobalCuts <= 0` returns success and writes nothing (C06, C07).
4. Target fractions, the imbalance tolerance and the number of refinement passes given in the
   options are ignored (C08).
5. Vertex weights `NULL`: an odd cycle of 3 in 2 parts, or a cycle of 30 in 4 parts, dereferences the
   absent array (C03, C33, C54).  The same happens one level further down when the weights given
   are all ones.
6. `k` close to the number of vertices: an empty part is bisected, and a vertex is chosen from an
   empty range (C03; cycle of 49 in 49 parts).
7. Self loops: uninitialised memory is read when matching (C03, C20); connectivity is not kept
   exact (C28).
8. Weights near 2^31: signed overflow in refinement (C03); near 2^32 the total, the cut and the
   matching limit wrap around (C02, C21, C26).
9. Isolated vertices are dropped from the border (C29).
10. Swapped routines in BFS balancing move weight the wrong way for weighted graphs (C34).
11. With unequal limits the refiner and the best-of-several choice can prefer the worse bisection
    (C31, C35).
12. `VertexSet::operator[]` ignores the begin of the set (C43).
13. Fractions containing NaN, and a single fraction, are not validated (C37).
14. A part can be left empty by a successful call (C62).
15. The k-way `MultilevelPartitioner` is a stub that labels no vertex (C10).
16. Balance is not kept: a cycle of 30 unit vertices in 2 parts is split 14/16 against a tolerance of
    3% (C57); C56 and C58 say what is guaranteed instead.

## 5. Properties: plan, status, theorems

| id | property | how it is modelled and proved | status and theorems |
|---|---|---|---|
@@ROWS@@
