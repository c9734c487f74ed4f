(** * ModelMultilevel: src/multilevel/*, src/partition/MultilevelBisector.cpp. *)
From Verif Require Import Base F64 ModelGraph ModelBuilders ModelPartition ModelConn ModelFM ModelAgg.

(** ** Stopping criteria: shouldStop(level, fine, coarse); a null graph is None. *)
Definition criteria := nat -> option graph -> option graph -> outcome bool.

(** VertexNumberStoppingCriteria.cpp:49-55 (a null coarse graph is dereferenced) *)
Definition vertex_number_stop (numVertices : nat) : criteria := fun _ _ coarse =>
  match coarse with
  | None => Fail (UB OutOfBounds)
  | Some c => Ok (Nat.leb (nv c) numVertices)
  end.

(** EdgeRatioStoppingCriteria.cpp:43-51 *)
Definition edge_ratio_make (ratio : f64) : outcome f64 :=
  if fle ratio f_zero || fge ratio f_one then Fail (Throw RuntimeError) else Ok ratio.

(** EdgeRatioStoppingCriteria.cpp:58-90 *)
Definition edge_ratio_stop (ratio : f64) : criteria := fun level fine coarse =>
  if Nat.ltb 0 level && bool_decide (fine = None) then Fail (Throw RuntimeError) else
  match coarse with
  | None => Fail (Throw RuntimeError)
  | Some c =>
    if Nat.eqb (ne c) 0 then Ok true else
    match fine with
    | None => Ok false
    | Some f => if Nat.eqb (ne f) 0 then Ok true
                else Ok (fgt (fdiv (f_of_nat (ne c)) (f_of_nat (ne f))) ratio)
    end
  end.

(** CompositeStoppingCriteria.cpp:56-68 *)
Fixpoint composite_stop (cs : list criteria) : criteria := fun level fine coarse =>
  match cs with
  | [] => Ok false
  | c :: cs' => let! b := c level fine coarse in
                if b then Ok true else composite_stop cs' level fine coarse
  end.

(** ** DiscreteCoarseGraph.hpp / .cpp:117-125 *)
Record coarse_graph := mkCG { cg_fine : graph; cg_coarse : graph; cg_cmap : list nat }.
Definition coarse_make (g : graph) (a : aggregation) : outcome coarse_graph :=
  let! c := contract g a in
  if Nat.eqb (length (a_cmap a)) (nv g) then Ok (mkCG g c (a_cmap a)) else Fail (UB OutOfBounds).

(** DiscreteCoarseGraph.cpp:152-158 *)
Definition project_labels (cg : coarse_graph) (cp : part) : outcome part :=
  for_vertices (cg_fine cg) (fun p v =>
    let! c := rd (cg_cmap cg) v in
    let! w := get_assignment cp c in
    let! i := pw_index w in
    part_assign (cg_fine cg) p v i) (part_new (length (p_pw cp)) (cg_fine cg)).

(** DiscreteCoarseGraph.cpp:62-108 fillInConnectivity, one vertex *)
Definition project_vertex (cg : coarse_graph) (fp : part) (cc : conn) (v : nat) : outcome (Z * Z) :=
  let g := cg_fine cg in
  let! c := rd (cg_cmap cg) v in
  let! inb := is_in_border cc c in
  if inb then vertex_connectivity g fp v
  else if has_ew g then
    let! s := for_edges g v (fun s e => let! w := ewt true g e in Ok (u32 (s + w))) 0%Z in
    Ok (s, 0%Z)
  else let! d := degree g v in Ok (u32 (Z.of_nat d), 0%Z).
Definition project_conn (cg : coarse_graph) (fp : part) (cc : conn) : outcome conn :=
  let! b := for_vertices (cg_fine cg) (fun b v =>
      let! ie := project_vertex cg fp cc v in
      let! b := cb_set_int b v (fst ie) in
      cb_set_ext b v (snd ie)) (cb_begin (nv (cg_fine cg))) in
  cb_finish b.

(** DiscreteCoarseGraph.cpp:140-176 *)
Definition project (cg : coarse_graph) (cc : conn) (cp : part) : outcome (conn * part) :=
  let! fp := project_labels cg cp in
  let! fc := project_conn cg fp cc in
  Ok (fc, set_cut fp (p_cut cp)).

(** ** IBisector.hpp: execute(target, graph).  TimedBisector.cpp only adds timing. *)
Definition bisector := target -> graph -> M part.

(** MultilevelBisector.cpp:97-150.  Fuel bounds the number of levels (C09). *)
Fixpoint ml_recurse (agg : aggregator) (init : bisector) (ref : refiner) (stop : criteria)
    (maxW : Z) (t : target) (fuel : nat) (level : nat) (parent : option graph) (g : graph)
    : M (conn * part) :=
  do! b := lift (stop level parent (Some g)) in
  if b then
    do! p := init t g in
    do! c := lift (from_partitioning g p) in
    ret (c, p)
  else
    match fuel with
    | 0 => mfail OutOfFuel
    | S fuel' =>
      do! a := agg maxW g in
      do! cg := lift (coarse_make g a) in
      do! cp := ml_recurse agg init ref stop maxW t fuel' (S level) (Some g) (cg_coarse cg) in
      do! fp := lift (project cg (fst cp) (snd cp)) in
      ref g t (fst fp) (snd fp)
    end.

(** MultilevelBisector.cpp:67-90: 20 vertices, edge ratio 0.95, maximum vertex weight
    (wgt_type)((1.5 * W) / 20) *)
Definition ml_criteria : outcome criteria :=
  let! r := edge_ratio_make f_0_95 in
  Ok (composite_stop [vertex_number_stop 20; edge_ratio_stop r]).
Definition ml_max_weight (g : graph) : outcome Z :=
  f_to_u32 (fdiv (fmul f_1_5 (f_of_Z (g_tvw g))) (f_of_Z 20)).
Definition ml_execute (agg : aggregator) (init : bisector) (ref : refiner) : bisector := fun t g =>
  do! stop := lift ml_criteria in
  do! maxW := lift (ml_max_weight g) in
  do! r := ml_recurse agg init ref stop maxW t (S (ne g)) 0 None g in
  ret (snd r).
