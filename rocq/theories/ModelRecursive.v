(** * ModelRecursive: src/graph/SubgraphExtractor.cpp, Subgraph.cpp, MappedGraphWrapper.cpp,
    src/partition/RecursiveBisectionPartitioner.cpp. *)
From Verif Require Import Base F64 ModelGraph ModelBuilders ModelPartition ModelMultilevel.

(** Subgraph.hpp:115-117 *)
Record subgraph := mkSub { sg_super : list nat; sg_graph : graph }.

(** IMappedGraph: a wrapped whole graph (identity map, MappedGraphWrapper) or a Subgraph *)
Inductive mapped := MWrap (g : graph) | MSub (s : subgraph).
Definition m_graph (m : mapped) : graph := match m with MWrap g => g | MSub s => sg_graph s end.
Definition m_super (m : mapped) (v : nat) : outcome nat :=
  match m with MWrap _ => Ok v | MSub s => rd (sg_super s) v end.

(** Subgraph.cpp:79-90 and MappedGraphWrapper.cpp:58-67.  [labels] is the caller's label
    array, possibly not yet written everywhere. *)
Definition map_partitioning (m : mapped) (p : part) (offset : nat) (labels : list (option nat))
    : outcome (list (option nat)) :=
  for_vertices (m_graph m) (fun labels v =>
    let! a := get_assignment p v in
    let! i := pw_index a in
    let! s := m_super m v in
    wri labels s (i + offset)) labels.

(** ** SubgraphExtractor.cpp:100-191 *)
(* 116-130 *)
Definition sub_builders (g : graph) (counts : list nat) : list tsb :=
  (fun c => ts_begin_vertex c (g_uvw g) (g_uew g)) <$> counts.
(* 132-147: super-maps and sub-map *)
Record maps := mkMaps { mp_counts : list nat; mp_super : list (list (option nat)); mp_sub : list (option nat) }.
Definition sub_map_step (p : part) (labels : option (list nat)) (m : maps) (v : nat) : outcome maps :=
  let! a := get_assignment p v in
  let! i := pw_index a in
  let! subV := rd (mp_counts m) i in
  let! counts := wr (mp_counts m) i (S subV) in
  let! sm := rd (mp_super m) i in
  let! l := (match labels with Some ls => rd ls v | None => Ok v end) in
  let! sm := wri sm subV l in
  let! supers := wr (mp_super m) i sm in
  let! sub := wri (mp_sub m) v subV in
  Ok (mkMaps counts supers sub).
Definition sub_maps (g : graph) (p : part) (labels : option (list nat)) (counts : list nat) : outcome maps :=
  for_vertices g (sub_map_step p labels)
    (mkMaps (replicate (length counts) 0) (alloc <$> counts) (alloc (nv g))).
(** builders[pid].op(...) *)
Definition with_builder (bs : list tsb) (a : option nat) (f : tsb -> outcome tsb) : outcome (list tsb) :=
  let! i := pw_index a in
  let! b := rd bs i in
  let! b := f b in
  wr bs i b.
(* 47-65 fillVertexWeights *)
Definition sub_fill_vw (g : graph) (p : part) (sub : list (option nat)) (bs : list tsb) : outcome (list tsb) :=
  for_vertices g (fun bs v =>
    let! subV := rdi sub v in
    let! a := get_assignment p v in
    let! w := vwt true g v in
    with_builder bs a (fun b => ts_set_vertex_weight b subV w)) bs.
(* 154-168 *)
Definition sub_count_edges (g : graph) (p : part) (sub : list (option nat)) (bs : list tsb) : outcome (list tsb) :=
  for_vertices g (fun bs v =>
    let! subV := rdi sub v in
    let! a := get_assignment p v in
    for_edges g v (fun bs e =>
      let! u := dst g e in
      let! b := get_assignment p u in
      if decide (a = b) then with_builder bs a (fun b => ts_inc_num_edges b subV) else Ok bs) bs) bs.
(* 68-91 fillEdges *)
Definition sub_fill_edges (g : graph) (p : part) (sub : list (option nat)) (bs : list tsb) : outcome (list tsb) :=
  for_vertices g (fun bs v =>
    let! subV := rdi sub v in
    let! a := get_assignment p v in
    for_edges g v (fun bs e =>
      let! u := dst g e in
      let! b := get_assignment p u in
      if decide (a = b) then
        let! subU := rdi sub u in
        let! w := ewt (has_ew g) g e in
        with_builder bs a (fun b => ts_add_edge b subV subU w)
      else Ok bs) bs) bs.
Fixpoint omap_list {A B} (f : A -> outcome B) (l : list A) : outcome (list B) :=
  match l with
  | [] => Ok []
  | a :: l' => let! b := f a in let! bs := omap_list f l' in Ok (b :: bs)
  end.
(* 100-191 *)
Definition sub_partitions (g : graph) (p : part) (labels : option (list nat)) : outcome (list subgraph) :=
  let! counts := calc_vertex_counts p in
  let bs := sub_builders g counts in
  let! m := sub_maps g p labels counts in
  let! bs := (if g_uvw g then Ok bs else sub_fill_vw g p (mp_sub m) bs) in
  let! bs := sub_count_edges g p (mp_sub m) bs in
  let! bs := omap_list ts_begin_edge bs in
  let! bs := sub_fill_edges g p (mp_sub m) bs in
  let! gs := omap_list ts_finish bs in
  let! supers := omap_list frozen (mp_super m) in
  Ok (zip_with mkSub supers gs).

(** RecursiveBisectionPartitioner.cpp:63: toleranceFactor = 1.0 / std::log2(k).  std::log2 is
    not modelled bit for bit: it is an arbitrary function from k to a double; theorems that
    need something of it say so (see [log2_spec] in TargetFacts.v). *)
Definition tolerance_factor (log2 : nat -> f64) (k : nat) : f64 := fdiv f_one (log2 k).

(** ** RecursiveBisectionPartitioner.cpp:65-78: targets of the two sides.
    [tolf] is toleranceFactor.
    maxBisectWeights[half] += target + (excess * factor): uint32 += double. *)
Record bis_targets := mkBT { bt_tgt : list Z; bt_max : list Z }.
Definition half_of (k pid : nat) : nat := if Nat.leb (k / 2) pid then 1 else 0.
Definition bis_step (t : target) (k : nat) (tolf : f64) (b : bis_targets) (pid : nat) : outcome bis_targets :=
  let h := half_of k pid in
  let! tw := rd (t_wgt t) pid in
  let! ex := max_excess t pid in
  let! t0 := rd (bt_tgt b) h in
  let! m0 := rd (bt_max b) h in
  let! m' := f_to_u32 (fadd (f_of_Z m0) (fadd (f_of_Z tw) (fmul (f_of_Z ex) tolf))) in
  let! tgt := wr (bt_tgt b) h (u32 (t0 + tw)) in
  let! mx := wr (bt_max b) h m' in
  Ok (mkBT tgt mx).
Definition bisect_target (t : target) (tolf : f64) : outcome target :=
  let k := t_np t in
  let! b := ofold (bis_step t k tolf) (mkBT [0%Z; 0%Z] [0%Z; 0%Z]) (seq 0 k) in
  Ok (target_of_weights (bt_tgt b) (bt_max b)).

(** RecursiveBisectionPartitioner.cpp:66-81: parts per side [c0; c1] and prefix *)
Definition half_sizes (k : nat) : nat * nat :=
  (length (filter (fun p => half_of k p = 0) (seq 0 k)),
   length (filter (fun p => half_of k p = 1) (seq 0 k))).

(** 125-134 sub-target of a half *)
Definition sub_target (t : target) (off cnt : nat) : outcome target :=
  if Nat.ltb (length (t_wgt t)) (off + cnt) || Nat.ltb (length (t_max t)) (off + cnt)
  then Fail (UB OutOfBounds)
  else Ok (target_of_weights (take cnt (drop off (t_wgt t))) (take cnt (drop off (t_max t)))).

Section Recursive.
  Variable log2 : nat -> f64.   (* std::log2 *)
  Variable bis : bisector.

  (** RecursiveBisectionPartitioner.cpp:48-141.  Fuel bounds the depth (C09). *)
  Fixpoint rb_recurse (fuel : nat) (t : target) (m : mapped) (offset : nat)
      (labels : list (option nat)) : M (list (option nat)) :=
    match fuel with
    | 0 => mfail OutOfFuel
    | S fuel' =>
      let k := t_np t in
      let g := m_graph m in
      do! bt := lift (bisect_target t (tolerance_factor log2 k)) in
      do! p := bis bt g in
      do! labels := lift (map_partitioning m p offset labels) in
      if Nat.ltb 2 k then
        do! subs := lift (sub_partitions g p
                       (match m with MWrap _ => None | MSub s => Some (sg_super s) end)) in
        let '(c0, c1) := half_sizes k in
        mfold (fun labels h =>
          let cnt := if Nat.eqb h 0 then c0 else c1 in
          let off := if Nat.eqb h 0 then 0 else c0 in
          if Nat.ltb 1 cnt then
            do! t' := lift (sub_target t off cnt) in
            do! s := lift (rd subs h) in
            rb_recurse fuel' t' (MSub s) (offset + off) labels
          else ret labels) labels (seq 0 (length subs))
      else ret labels
    end.

  (** RecursiveBisectionPartitioner.cpp:163-176 (recalcCutEdgeWeight repeats the
      constructor's computation) *)
  Definition rb_execute (t : target) (g : graph) : M part :=
    do! labels := rb_recurse (S (t_np t)) t (MWrap g) 0 (alloc (nv g)) in
    do! labels := lift (frozen labels) in
    do! p := lift (part_of_labels (t_np t) g labels) in
    lift (recalc_cut g p).
End Recursive.
