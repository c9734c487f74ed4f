(** * ModelUtil: src/graph/GridGraphGenerator.cpp and src/util/{TimeKeeper,TimedProcess}.cpp. *)
From Verif Require Import Base F64 ModelGraph.

(** ** Grid generator *)
(** GridGraphGenerator.cpp:64-67 Grid::numVertices (uint32 products) *)
Definition grid_num_vertices (nx ny nz : nat) : nat :=
  Z.to_nat (u32 (Z.of_nat nx * Z.of_nat ny * Z.of_nat nz)).
(** GridGraphGenerator.cpp:69-74 Grid::numEdges (uint32 arithmetic, also for nx = 0) *)
Definition grid_num_edges (nx ny nz : nat) : nat :=
  let x := Z.of_nat nx in let y := Z.of_nat ny in let z := Z.of_nat nz in
  Z.to_nat (u32 (((x - 1) * (y * z) + (y - 1) * (x * z) + (z - 1) * (x * y)) * 2)).
(** GridGraphGenerator.cpp:91-101 Grid::get.  No wrap-around is modelled: the callers stay below
    numVertices. *)
Definition grid_get (nx ny : nat) (x y z : nat) : nat := (z * ny + y) * nx + x.

(** sl::Random::fillWithRange(ptr, n, lo, hi, rng): n arbitrary values of [lo, hi].  The library is
    not part of the checkout; both ends are taken as possible, so if the real upper end is exclusive
    the model only has more runs. *)
Definition fill_with_range (n : nat) (lo hi : Z) : M (list Z) :=
  mfold (fun l _ => do! i := choose_below (Z.to_nat (hi - lo + 1)) in ret (l ++ [(lo + Z.of_nat i)%Z])) [] (seq 0 n).

(** The locals of generate() (GridGraphGenerator.cpp:159-176); sl::Array(n) is uninitialised. *)
Record grid_state := mkGS {
  gs_prefix : list (option nat); gs_adj : list (option nat); gs_ew : list (option Z);
  gs_edge : nat; gs_vertex : nat
}.
(** GridGraphGenerator.cpp:185-187 and the five similar places: place one edge *)
Definition grid_put (src : list Z) (st : grid_state) (dest widx : nat) : outcome grid_state :=
  let! a := wri (gs_adj st) (gs_edge st) dest in
  let! w := rd src widx in
  let! e := wri (gs_ew st) (gs_edge st) w in
  Ok (mkGS (gs_prefix st) a e (S (gs_edge st)) (gs_vertex st)).
Definition when {A} (b : bool) (f : A -> outcome A) (s : A) : outcome A := if b then f s else Ok s.
(** GridGraphGenerator.cpp:182-228: the loop body *)
Definition grid_vertex (nx ny nz : nat) (src : list Z) (st : grid_state) (x y z : nat) : outcome grid_state :=
  let source := grid_get nx ny x y z in
  let! st := when (Nat.ltb 0 x) (fun st => let dest := grid_get nx ny (x - 1) y z in grid_put src st dest (dest * 3)) st in
  let! st := when (Nat.ltb x (nx - 1)) (fun st => let dest := grid_get nx ny (x + 1) y z in grid_put src st dest (source * 3)) st in
  let! st := when (Nat.ltb 0 y) (fun st => let dest := grid_get nx ny x (y - 1) z in grid_put src st dest (dest * 3 + 1)) st in
  let! st := when (Nat.ltb y (ny - 1)) (fun st => let dest := grid_get nx ny x (y + 1) z in grid_put src st dest (source * 3 + 1)) st in
  let! st := when (Nat.ltb 0 z) (fun st => let dest := grid_get nx ny x y (z - 1) in grid_put src st dest (dest * 3 + 2)) st in
  let! st := when (Nat.ltb z (nz - 1)) (fun st => let dest := grid_get nx ny x y (z + 1) in grid_put src st dest (source * 3 + 2)) st in
  let! p := wri (gs_prefix st) (S (gs_vertex st)) (gs_edge st) in
  Ok (mkGS p (gs_adj st) (gs_ew st) (gs_edge st) (S (gs_vertex st))).
(** GridGraphGenerator.cpp:179-231: the three nested loops *)
Definition grid_fill (nx ny nz : nat) (src : list Z) (st : grid_state) : outcome grid_state :=
  ofold (fun st z => ofold (fun st y => ofold (fun st x => grid_vertex nx ny nz src st x y z)
    st (seq 0 nx)) st (seq 0 ny)) st (seq 0 nz).

(** GridGraphGenerator.cpp:115-151: the ranges set by setRandomVertexWeight / setRandomEdgeWeight *)
Record grid_weights := mkGW { gw_vmin : Z; gw_vmax : Z; gw_emin : Z; gw_emax : Z }.
Definition grid_default_weights : grid_weights := mkGW 1 1 1 1.
(** GridGraphGenerator.cpp:154-241 generate().  [numVertices*3] is a 32-bit product. *)
Definition grid_generate (nx ny nz : nat) (r : grid_weights) : M graph :=
  let n := grid_num_vertices nx ny nz in
  let m := grid_num_edges nx ny nz in
  do! src := fill_with_range (Z.to_nat (u32 (Z.of_nat n * 3))) (gw_emin r) (u32 (gw_emax r + 1)) in
  do! pre0 := lift (wri (alloc (S n)) 0 0) in
  do! st := lift (grid_fill nx ny nz src (mkGS pre0 (alloc m) (alloc m) 0 0)) in
  do! vw := fill_with_range n (gw_vmin r) (gw_vmax r) in
  do! pre := lift (frozen (gs_prefix st)) in
  do! adj := lift (frozen (gs_adj st)) in
  do! ew := lift (frozen (gs_ew st)) in
  lift (graph_make pre adj vw ew).

(** ** Time keeper *)
(** TimeKeeper.hpp:41-51 the categories; TimeKeeper.cpp:45-54 the names *)
Inductive time_name := TotalTime | CoarseningTime | AggregationTime | ContractionTime
  | InitialPartitioningTime | UncoarseningTime | RefinementTime | ProjectionTime.
Definition tk_names : list time_name := [TotalTime; CoarseningTime; AggregationTime; ContractionTime;
  InitialPartitioningTime; UncoarseningTime; RefinementTime; ProjectionTime].
Definition NUM_TIME_CATEGORIES : nat := 8.
(** TimeKeeper.cpp:43-58 constructor: the state is the vector m_times *)
Definition tk_new : list f64 := replicate NUM_TIME_CATEGORIES f_zero.
(** TimeKeeper.cpp:66-76 reportTime: the state afterwards and the exception, if any *)
Definition tk_report (ts : list f64) (key : nat) (seconds : f64) : list f64 * option exn :=
  if Nat.leb (length ts) key then (ts, Some RuntimeError)
  else (<[key := fadd (nth key ts f_zero) seconds]> ts, None).
(** TimeKeeper.cpp:78-88 times() *)
Definition tk_times (ts : list f64) : outcome (list (time_name * f64)) :=
  ofold (fun l i => let! nm := rd tk_names i in let! t := rd ts i in Ok (l ++ [(nm, t)])) [] (seq 0 (length ts)).
(** TimedProcess.cpp:62-69 reportTime: nothing without a time keeper *)
Definition tp_report (tk : option (list f64)) (key : nat) (seconds : f64) : option (list f64) * option exn :=
  match tk with
  | None => (None, None)
  | Some ts => let r := tk_report ts key seconds in (Some (fst r), snd r)
  end.
