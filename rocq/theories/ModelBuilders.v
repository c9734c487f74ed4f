(** * ModelBuilders: src/graph/OneStepGraphBuilder.{hpp,cpp}, TwoStepGraphBuilder.{hpp,cpp}. *)
From Verif Require Import Base ModelGraph.

(** sl::VectorMath::prefixSumExclusive(begin, end), contract (library absent from the
    checkout): in place, out[i] = in[0] + ... + in[i-1]. *)
Fixpoint prefix_sum_from (s : nat) (l : list nat) : list nat :=
  match l with [] => [] | x :: l' => s :: prefix_sum_from (s + x) l' end.
Definition prefix_sum_exclusive (l : list nat) : list nat := prefix_sum_from 0 l.

(** ** One-step builder (OneStepGraphBuilder.hpp:126-139) *)
Record osb := mkOsb {
  os_nv : nat;                      (* m_numVertices *)
  os_ne : nat;                      (* m_numEdges, includes the self-loop slot *)
  os_prefix : list (option nat);    (* m_edgePrefix *)
  os_adj : list (option nat);       (* m_edgeList *)
  os_vw : list (option Z);          (* m_vertexWeight *)
  os_ew : list (option Z);          (* m_edgeWeight *)
  os_tvw : Z;
  os_tew : Z;
  os_ht : list (option nat)         (* m_htable; None = NULL_ADJ *)
}.

(** OneStepGraphBuilder.cpp:44-64 *)
Definition os_new (numVertices maxNumEdges : nat) : outcome osb :=
  let! pre := wri (alloc (S numVertices)) 0 0 in
  let! ht := wr (replicate (S numVertices) None) 0 (Some 0) in
  let! adj := wri (alloc (S maxNumEdges)) 0 0 in
  let! ew := wri (alloc (S maxNumEdges)) 0 0%Z in
  Ok (mkOsb 0 1 pre adj (alloc numVertices) ew 0%Z 0%Z ht).

(** OneStepGraphBuilder.hpp:65-80 *)
Definition os_add_edge (b : osb) (dest : nat) (wgt : Z) : outcome osb :=
  let! idx := rd (os_ht b) dest in
  match idx with
  | None =>
    let! ht := wr (os_ht b) dest (Some (os_ne b)) in
    let! adj := wri (os_adj b) (os_ne b) dest in
    let! ew := wri (os_ew b) (os_ne b) wgt in
    Ok (mkOsb (os_nv b) (S (os_ne b)) (os_prefix b) adj (os_vw b) ew
              (os_tvw b) (u32 (os_tew b + wgt)) ht)
  | Some i =>
    let! old := rdi (os_ew b) i in
    let! ew := wri (os_ew b) i (u32 (old + wgt)) in
    Ok (mkOsb (os_nv b) (os_ne b) (os_prefix b) (os_adj b) (os_vw b) ew
              (os_tvw b) (u32 (os_tew b + wgt)) (os_ht b))
  end.

(** OneStepGraphBuilder.hpp:88-117 *)
Definition os_finish_vertex (b : osb) (vertexWeight : Z) : outcome osb :=
  let thisVtx := os_nv b in
  let numVertices := S (os_nv b) in
  let! firstEdge := rdi (os_prefix b) thisVtx in
  let! ht := ofold (fun ht j => let! u := rdi (os_adj b) j in wr ht u None)
                   (os_ht b) (range firstEdge (os_ne b)) in
  let lastEdge := os_ne b - 1 in
  let! w0 := rdi (os_ew b) firstEdge in
  let tew := u32 (os_tew b - w0) in
  let! dl := rdi (os_adj b) lastEdge in
  let! adj := wri (os_adj b) firstEdge dl in
  let! wl := rdi (os_ew b) lastEdge in
  let! ew := wri (os_ew b) firstEdge wl in
  let tvw := u32 (os_tvw b + vertexWeight) in
  let! vw := wri (os_vw b) thisVtx vertexWeight in
  let! pre := wri (os_prefix b) numVertices lastEdge in
  let! ht := wr ht numVertices (Some lastEdge) in
  let! adj := wri adj lastEdge numVertices in
  let! ew := wri ew lastEdge 0%Z in
  Ok (mkOsb numVertices (os_ne b) pre adj vw ew tvw tew ht).

(** OneStepGraphBuilder.cpp:72-93.  Reading cells never written (fewer vertices finished
    than announced) is reported here rather than at the first later read. *)
Definition os_finish (b : osb) : outcome graph :=
  let n := os_ne b - 1 in
  let! pre := frozen (os_prefix b) in
  let! adj := frozen (take n (os_adj b)) in
  let! vw := frozen (os_vw b) in
  let! ew := frozen (take n (os_ew b)) in
  Ok (mkGraph pre adj vw ew (os_tvw b) (os_tew b) false false).

(** ** Two-step builder (TwoStepGraphBuilder.hpp:184-193).  m_phase only feeds
    assertions and is not modelled. *)
Record tsb := mkTsb {
  ts_nv : nat;
  ts_ne : nat;
  ts_uvw : bool;
  ts_uew : bool;
  ts_prefix : list nat;             (* allocated with value 0: always initialised *)
  ts_adj : list (option nat);
  ts_vw : list (option Z);
  ts_ew : list (option Z)
}.

(** TwoStepGraphBuilder.cpp:43-55, 66-84, 86-96: configure and begin the vertex phase *)
Definition ts_begin_vertex (numVertices : nat) (unitVW unitEW : bool) : tsb :=
  mkTsb numVertices 0 unitVW unitEW (replicate (S numVertices) 0) []
        (if unitVW then [] else alloc numVertices) [].

(** TwoStepGraphBuilder.hpp:114-122 *)
Definition ts_set_num_edges (b : tsb) (v numEdges : nat) : outcome tsb :=
  let! p := wr (ts_prefix b) v numEdges in
  Ok (mkTsb (ts_nv b) (ts_ne b) (ts_uvw b) (ts_uew b) p (ts_adj b) (ts_vw b) (ts_ew b)).

(** TwoStepGraphBuilder.hpp:130-139 *)
Definition ts_inc_num_edges (b : tsb) (v : nat) : outcome tsb :=
  let! c := rd (ts_prefix b) v in
  let! p := wr (ts_prefix b) v (S c) in
  Ok (mkTsb (ts_nv b) (ts_ne b) (ts_uvw b) (ts_uew b) p (ts_adj b) (ts_vw b) (ts_ew b)).

(** TwoStepGraphBuilder.hpp:148-156 *)
Definition ts_set_vertex_weight (b : tsb) (v : nat) (w : Z) : outcome tsb :=
  let! vw := wri (ts_vw b) v w in
  Ok (mkTsb (ts_nv b) (ts_ne b) (ts_uvw b) (ts_uew b) (ts_prefix b) (ts_adj b) vw (ts_ew b)).

(** TwoStepGraphBuilder.cpp:108-111: for (v = n; v > 0; --v) prefix[v] = prefix[v-1] *)
Definition ts_shift (n : nat) (p : list nat) : outcome (list nat) :=
  ofold (fun p v => let! x := rd p (v - 1) in wr p v x) p (rev (seq 1 n)).

(** TwoStepGraphBuilder.cpp:99-119 *)
Definition ts_begin_edge (b : tsb) : outcome tsb :=
  let p := prefix_sum_exclusive (ts_prefix b) in
  let! m := rd p (ts_nv b) in
  let! p' := ts_shift (ts_nv b) p in
  Ok (mkTsb (ts_nv b) m (ts_uvw b) (ts_uew b) p' (alloc m) (ts_vw b)
            (if ts_uew b then ts_ew b else alloc m)).

(** TwoStepGraphBuilder.hpp:166-181 *)
Definition ts_add_edge (b : tsb) (v dest : nat) (w : Z) : outcome tsb :=
  let! index := rd (ts_prefix b) (S v) in
  let! p := wr (ts_prefix b) (S v) (S index) in
  let! adj := wri (ts_adj b) index dest in
  let! ew := (if ts_uew b then Ok (ts_ew b) else wri (ts_ew b) index w) in
  Ok (mkTsb (ts_nv b) (ts_ne b) (ts_uvw b) (ts_uew b) p adj (ts_vw b) ew).

(** TwoStepGraphBuilder.cpp:122-137 (the graph constructor recomputes totals and flags) *)
Definition ts_finish (b : tsb) : outcome graph :=
  let! adj := frozen (ts_adj b) in
  let! vw := frozen (ts_vw b) in
  let! ew := frozen (ts_ew b) in
  graph_make (ts_prefix b) adj vw ew.
