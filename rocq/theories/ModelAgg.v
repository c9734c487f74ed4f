(** * ModelAgg: src/aggregation/*: matchings, Aggregation, SummationContractor. *)
From Verif Require Import Base ModelGraph ModelBuilders.

(** ** MatchedAggregationBuilder.hpp:113-115; m_match, None = NULL_VTX *)
Notation matching := (list (option nat)).
Definition mb_new (n : nat) : matching := replicate n None.                 (* .cpp:42-48 *)
Definition mb_is_matched (m : matching) (v : nat) : outcome bool :=         (* .hpp:70-76 *)
  let! x := rd m v in Ok (bool_decide (is_Some x)).
Definition mb_match (m : matching) (a b : nat) : outcome matching :=        (* .hpp:85-96 *)
  let! m := wr m a (Some b) in wr m b (Some a).
(** .hpp:104-111 getNextUnmatched: the first unmatched index at or after the cursor *)
Fixpoint mb_next_unmatched (fuel : nat) (m : matching) (cur : nat) : nat :=
  match fuel with
  | 0 => cur
  | S fuel' => match m !! cur with
               | Some (Some _) => mb_next_unmatched fuel' m (S cur)
               | _ => cur
               end
  end.
Definition mb_get_next_unmatched (m : matching) (cur : nat) : nat :=
  mb_next_unmatched (length m) m cur.

(** ** AggregationParameters.hpp:61-66, .cpp:38-52.  NULL_WGT = unset maximum. *)
Definition is_allowed_vertex_weight (maxW w : Z) : bool := (w =? NULL_WGT)%Z || (w <=? maxW)%Z.

(** ** Aggregation.hpp:151-156 *)
Record aggregation := mkAgg {
  a_num_coarse : nat;
  a_cmap : list nat;
  a_prefix : list nat;
  a_fine : list nat
}.

(** Aggregation.cpp:41-60 *)
Definition agg_count (cmap : list nat) (nc : nat) : outcome (list nat) :=
  ofold (fun p c => let! x := rd p (S c) in wr p (S c) (S x)) (replicate (S nc) 0) cmap.
Definition agg_fill (cmap : list nat) (prefix : list nat) : outcome (list nat * list (option nat)) :=
  ofold (fun pf v =>
    let! c := rd cmap v in
    let! i := rd (fst pf) (S c) in
    let! f := wri (snd pf) i v in
    let! p := wr (fst pf) (S c) (S i) in
    Ok (p, f)) (prefix, alloc (length cmap)) (seq 0 (length cmap)).
Definition agg_make (cmap : list nat) (nc : nat) : outcome aggregation :=
  let! counts := agg_count cmap nc in
  let! pf := agg_fill cmap (prefix_sum_exclusive counts) in
  let! fine := frozen (snd pf) in
  Ok (mkAgg nc cmap (fst pf) fine).

(** VertexGrouping.hpp:52-57 + VertexGroup.hpp:100-128: the c-th group *)
Definition agg_group (a : aggregation) (c : nat) : outcome (list nat) :=
  let! b := rd (a_prefix a) c in
  let! e := rd (a_prefix a) (S c) in
  if Nat.ltb e b then Fail (UB BadRange) else
  if Nat.ltb (length (a_fine a)) e then Fail (UB OutOfBounds) else
  Ok (take (e - b) (drop b (a_fine a))).

(** MatchedAggregationBuilder.cpp:55-74 *)
Definition mb_cmap (m : matching) : outcome (list (option nat) * nat) :=
  ofold (fun st v =>
    let! u := rd m v in
    match u with
    | None => let! c := wri (fst st) v (snd st) in Ok (c, S (snd st))
    | Some u => if Nat.ltb v u then
                  let! c := wri (fst st) v (snd st) in
                  let! c := wri c u (snd st) in
                  Ok (c, S (snd st))
                else Ok st
    end) (alloc (length m), 0) (seq 0 (length m)).
(** The constructor reads every cmap cell: an unwritten one is an uninitialised read. *)
Definition mb_build (m : matching) : outcome aggregation :=
  let! r := mb_cmap m in
  let! cmap := frozen (fst r) in
  agg_make cmap (snd r).

(** ** RandomMatchingAggregator.cpp:42-76 firstMatch.  The `break` leaves the loop at the
    first acceptable neighbour: the search returns it. *)
Fixpoint first_allowed (g : graph) (maxW vw : Z) (m : matching) (es : list nat) : outcome (option nat) :=
  match es with
  | [] => Ok None
  | e :: es' =>
    let! u := dst g e in
    let! uw := vwt (has_vw g) g u in
    let! mt := mb_is_matched m u in
    if negb mt && is_allowed_vertex_weight maxW (u32 (vw + uw)) then Ok (Some u)
    else first_allowed g maxW vw m es'
  end.
Definition rm_visit (g : graph) (maxW : Z) (m : matching) (v : nat) : outcome matching :=
  let! mt := mb_is_matched m v in
  if mt then Ok m else
  let! vw := vwt (has_vw g) g v in
  let! es := edge_range g v in
  let! r := first_allowed g maxW vw m es in
  match r with None => Ok m | Some u => mb_match m v u end.

(** RandomMatchingAggregator.cpp:102-118 *)
Definition rm_matching (maxW : Z) (g : graph) : M matching :=
  do! perm := random_order (mkVS 0 (nv g)) in
  lift (ofold (rm_visit g maxW) (mb_new (nv g)) perm).
Definition rm_aggregate (maxW : Z) (g : graph) : M aggregation :=
  do! m := rm_matching maxW g in
  lift (mb_build m).

(** ** HeavyEdgeMatchingAggregator.cpp:46-78 shem: (max, maxPriority) over the edges.
    The edge weight is always read with HAS_EDGE_WEIGHTS = true. *)
Definition heaviest (g : graph) (maxW vw : Z) (m : matching) (es : list nat) : outcome (option nat * Z) :=
  ofold (fun best e =>
    let! u := dst g e in
    let! uw := vwt (has_vw g) g u in
    let! mt := mb_is_matched m u in
    if negb mt && is_allowed_vertex_weight maxW (u32 (vw + uw)) then
      let! pr := ewt true g e in
      Ok (if bool_decide (fst best = None) || (snd best <? pr)%Z then (Some u, pr) else best)
    else Ok best) (None, 0%Z) es.
Definition shem_visit (g : graph) (maxW : Z) (m : matching) (v : nat) : outcome matching :=
  let! mt := mb_is_matched m v in
  if mt then Ok m else
  let! vw := vwt (has_vw g) g v in
  let! es := edge_range g v in
  let! r := heaviest g maxW vw m es in
  match fst r with None => Ok m | Some u => mb_match m v u end.

(** HeavyEdgeMatchingAggregator.cpp:103-120 *)
Definition shem_matching (maxW : Z) (g : graph) : M matching :=
  do! perm := degree_sorted_random (mkVS 0 (nv g)) g in
  lift (ofold (shem_visit g maxW) (mb_new (nv g)) perm).
Definition shem_aggregate (maxW : Z) (g : graph) : M aggregation :=
  do! m := shem_matching maxW g in
  lift (mb_build m).

(** SHEMRMAggregator.cpp:51-60 *)
Definition shemrm_aggregate (maxW : Z) (g : graph) : M aggregation :=
  if g_uew g then rm_aggregate maxW g else shem_aggregate maxW g.

(** IAggregator.hpp: aggregate(params, graph).  TimedAggregator.cpp only adds timing. *)
Definition aggregator := Z -> graph -> M aggregation.

(** AggregatorFactory.cpp:45-60 *)
Definition aggregator_make (scheme : Z) : outcome aggregator :=
  if (scheme =? 0)%Z then Ok rm_aggregate
  else if (scheme =? 1)%Z then Ok shemrm_aggregate
  else Fail (Throw RuntimeError).

(** ** SummationContractor.cpp:51-82, 106-123 *)
Definition contract_vertex (g : graph) (a : aggregation) (st : osb * Z) (v : nat) : outcome (osb * Z) :=
  let! w := vwt (has_vw g) g v in
  let! b := for_edges g v (fun b e =>
      let! u := dst g e in
      let! cu := rd (a_cmap a) u in
      let! ew := ewt (has_ew g) g e in
      os_add_edge b cu ew) (fst st) in
  Ok (b, u32 (snd st + w)).
Definition contract_group (g : graph) (a : aggregation) (b : osb) (c : nat) : outcome osb :=
  let! grp := agg_group a c in
  let! st := ofold (contract_vertex g a) (b, 0%Z) grp in
  os_finish_vertex (fst st) (snd st).
Definition contract (g : graph) (a : aggregation) : outcome graph :=
  let! b0 := os_new (a_num_coarse a) (ne g) in
  let! b := ofold (contract_group g a) b0 (seq 0 (a_num_coarse a)) in
  os_finish b.
