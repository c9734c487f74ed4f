(** * ModelGraph: src/graph/Graph.{hpp,cpp}, VertexSet, PermutedVertexSet. *)
From Verif Require Import Base.

(** src/graph/Graph.hpp:354-366 (members of class Graph).  Vertex and edge indices are
    [nat]; weights are [Z] in [0, 2^32).  An absent weight array is []. *)
Record graph := mkGraph {
  g_prefix : list nat;      (* m_edgePrefix *)
  g_adj : list nat;         (* m_edgeList *)
  g_vw : list Z;            (* m_vertexWeight *)
  g_ew : list Z;            (* m_edgeWeight *)
  g_tvw : Z;                (* m_totalVertexWeight *)
  g_tew : Z;                (* m_totalEdgeWeight *)
  g_uvw : bool;             (* m_unitVertexWeight *)
  g_uew : bool              (* m_unitEdgeWeight *)
}.

(** Graph.hpp:121-137 numVertices / numEdges; Graph.cpp:89-90 *)
Definition nv (g : graph) : nat := length (g_prefix g) - 1.
Definition ne (g : graph) : nat := length (g_adj g).

(** Graph.cpp:101-109, 121-129: wrapping sum and "is any weight not 1" *)
Definition sum_u32 (l : list Z) : Z := fold_left (fun s w => u32 (s + w)) l 0%Z.
Definition all_one (l : list Z) : bool := fold_left (fun b w => if (w =? 1)%Z then b else false) l true.

(** Graph.cpp:82-133, the four-argument constructor.  The loops read m_vertexWeight[v]
    for v < m_numVertices and m_edgeWeight[e] for e < m_numEdges: arrays of another
    size are out of contract and reported as out-of-bounds (or, if longer, cut). *)
Definition graph_make (prefix adj : list nat) (vw ew : list Z) : outcome graph :=
  if Nat.eqb (length prefix) 0 then Fail (UB OutOfBounds) else
  let n := length prefix - 1 in
  let m := length adj in
  let! vt := (if Nat.eqb n 0 then Ok (0%Z, true)
              else if Nat.eqb (length vw) 0 then Ok (u32 (Z.of_nat n), true)
              else if Nat.ltb (length vw) n then Fail (UB OutOfBounds)
              else Ok (sum_u32 (take n vw), all_one (take n vw))) in
  let! et := (if Nat.eqb m 0 then Ok (0%Z, true)
              else if Nat.eqb (length ew) 0 then Ok (u32 (Z.of_nat m), true)
              else if Nat.ltb (length ew) m then Fail (UB OutOfBounds)
              else Ok (sum_u32 (take m ew), all_one (take m ew))) in
  Ok (mkGraph prefix adj vw ew (fst vt) (fst et) (snd vt) (snd et)).

(** Graph.cpp:65-80 (six-argument constructor) with emptyIfNull, Graph.cpp:47-58:
    [None] is a null pointer. *)
Definition graph_of_csr (prefix adj : list nat) (vw ew : option (list Z)) : outcome graph :=
  graph_make prefix adj (default [] vw) (default [] ew).

(** Graph.hpp:233-238 edgesOf + EdgeSet.hpp:40-120 iteration: the edge indices of v.
    The iterator compares with [!=], so a decreasing prefix runs out of bounds. *)
Definition edge_range (g : graph) (v : nat) : outcome (list nat) :=
  let! b := rd (g_prefix g) v in
  let! e := rd (g_prefix g) (S v) in
  if Nat.ltb e b then Fail (UB BadRange) else Ok (range b e).

(** Graph.hpp:247-251 degreeOf (uint32 subtraction; a decreasing prefix would wrap and
    is reported as BadRange) *)
Definition degree (g : graph) (v : nat) : outcome nat :=
  let! b := rd (g_prefix g) v in
  let! e := rd (g_prefix g) (S v) in
  if Nat.ltb e b then Fail (UB BadRange) else Ok (e - b).

(** Graph.hpp:260-264 destinationOf *)
Definition dst (g : graph) (e : nat) : outcome nat := rd (g_adj g) e.

Definition rd_weight (l : list Z) (i : nat) : outcome Z :=
  match l with [] => Fail (UB NoWeights) | _ => rd l i end.

(** Graph.hpp:273-285 weightOf<HAS_EDGE_WEIGHT>(Edge) *)
Definition ewt (has : bool) (g : graph) (e : nat) : outcome Z :=
  if has then rd_weight (g_ew g) e else Ok 1%Z.

(** Graph.hpp:294-305 weightOf<HAS_VERTEX_WEIGHT>(Vertex) *)
Definition vwt (has : bool) (g : graph) (v : nat) : outcome Z :=
  if has then rd_weight (g_vw g) v else Ok 1%Z.

(** The pervasive idiom "g->hasUnitVertexWeight() ? weightOf<false> : weightOf<true>"
    (Partitioning.hpp:282, 307, 337) and the template dispatch on the unit flags. *)
Definition has_vw (g : graph) : bool := negb (g_uvw g).
Definition has_ew (g : graph) : bool := negb (g_uew g).

(** for (Edge e : g->edgesOf(v)) body *)
Definition for_edges {S} (g : graph) (v : nat) (body : S -> nat -> outcome S) (s : S) : outcome S :=
  let! es := edge_range g v in ofold body s es.
Definition for_edges_m {S} (g : graph) (v : nat) (body : S -> nat -> M S) (s : S) : M S :=
  do! es := lift (edge_range g v) in mfold body s es.

(** for (Vertex v : g->vertices()) body *)
Definition for_vertices {S} (g : graph) (body : S -> nat -> outcome S) (s : S) : outcome S :=
  ofold body s (seq 0 (nv g)).

(** Graph.cpp:185-254 isValid (debug builds).  [Ok false] is a rejected graph. *)
Definition first_reverse (g : graph) (v : nat) (fs : list nat) : outcome (option nat) :=
  (fix go fs := match fs with
   | [] => Ok None
   | f :: fs' => let! d := dst g f in if Nat.eqb v d then Ok (Some f) else go fs'
   end) fs.
(* Graph.cpp:229-246: body of the symmetry check for one edge *)
Definition edge_symmetric (g : graph) (v e : nat) : outcome bool :=
  let! u := dst g e in
  let! fs := edge_range g u in
  let! r := first_reverse g v fs in
  match r with
  | None => Ok false
  | Some f => if g_uew g then Ok true else
      let! we := ewt true g e in
      let! wf := ewt true g f in
      Ok (we =? wf)%Z
  end.
Definition oall {A} (p : A -> outcome bool) (l : list A) : outcome bool :=
  ofold (fun (b : bool) a => if b then p a else Ok false) true l.
Definition is_valid (g : graph) : outcome bool :=
  let! vs := ofold (fun s v => let! w := vwt (has_vw g) g v in Ok (u32 (s + w))) 0%Z (seq 0 (nv g)) in
  if negb (vs =? g_tvw g)%Z then Ok false else
  let! dsts := oall (fun e => let! d := dst g e in Ok (Nat.ltb d (nv g))) (seq 0 (ne g)) in
  if negb dsts then Ok false else
  let! es := ofold (fun s e => let! w := ewt (has_ew g) g e in Ok (u32 (s + w))) 0%Z (seq 0 (ne g)) in
  if negb (es =? g_tew g)%Z then Ok false else
  oall (fun v => let! r := edge_range g v in oall (edge_symmetric g v) r) (seq 0 (nv g)).

(** src/graph/VertexSet.hpp:93-157: half-open range, iteration order and operator[] *)
Record vertex_set := mkVS { vs_begin : nat; vs_end : nat }.
Definition vs_iter (s : vertex_set) : list nat := range (vs_begin s) (vs_end s).  (* begin/end, ++ *)
Definition vs_size (s : vertex_set) : nat := vs_end s - vs_begin s.
Definition vs_index (s : vertex_set) (i : nat) : nat := i.                        (* operator[]: 152-156 *)

(** src/graph/RandomOrderVertexSet.cpp:40-51: a permutation of 0..size-1 (the set's begin
    is ignored); sl fillWithPerm is modelled by an arbitrary permutation. *)
Definition random_order (s : vertex_set) : M (list nat) := choose_perm (seq 0 (vs_size s)).

(** Stable insertion sort by key; sl::Sort::fixedKeysRandom is modelled as an arbitrary
    permutation followed by a stable sort, i.e. any permutation sorted by key. *)
Fixpoint insert_by (key : nat -> nat) (x : nat) (l : list nat) : list nat :=
  match l with
  | [] => [x]
  | y :: l' => if Nat.leb (key x) (key y) then x :: l else y :: insert_by key x l'
  end.
Definition sort_by (key : nat -> nat) (l : list nat) : list nat := foldr (insert_by key) [] l.

(** src/graph/DegreeSortedVertexSet.cpp:59-75 ascendingRandom: degrees[] has size()
    entries but is indexed with vertex.index *)
Definition degree_sorted_random (s : vertex_set) (g : graph) : M (list nat) :=
  do! degs := lift (ofold (fun (a : list (option nat)) v =>
                 let! d := degree g v in wri a v d) (alloc (vs_size s)) (vs_iter s)) in
  do! degs' := lift (frozen degs) in
  do! p := choose_perm (seq 0 (vs_size s)) in
  ret (sort_by (fun v => default 0 (degs' !! v)) p).

(** DegreeSortedVertexSet.cpp:42-57 ascending: sl::Sort::fixedKeys, tie order
    unspecified, hence the same model. *)
Definition degree_sorted (s : vertex_set) (g : graph) : M (list nat) := degree_sorted_random s g.
