(** * ModelBisect: src/partition/BFSBisector.cpp, RandomBisector.cpp, RandomFMBisector.cpp,
    MultiBisector.cpp, BisectorFactory.cpp, TwoWayRefinerFactory.cpp. *)
From Verif Require Import Base F64 ModelGraph ModelPartition ModelConn ModelFM ModelAgg ModelMultilevel.

(** ** BFSBisector.cpp:44-71 bfsPriorityMove; fuel = number of queued vertices (C09) *)
Definition bfs_update_neighbors (g : graph) (v : nat) (q : queue) : outcome queue :=
  for_edges g v (fun q e =>
    let! u := dst g e in
    let! c := q_contains q u in
    if c then let! w := ewt (has_ew g) g e in q_update_by_delta q w u else Ok q) q.
Fixpoint bfs_priority_move (g : graph) (t : target) (fuel : nat) (q : queue) (p : part)
    : M (queue * part) :=
  if Nat.eqb (q_size q) 0 then ret (q, p) else
  do! w0 := lift (get_weight p 0) in
  do! tw := lift (rd (t_wgt t) 0) in
  if negb (w0 <? tw)%Z then ret (q, p) else
  match fuel with
  | 0 => mfail OutOfFuel
  | S fuel' =>
    do! r := q_pop q in
    let v := fst r in
    let q := snd r in
    do! vw := lift (vwt (has_vw g) g v) in
    do! mx := lift (rd (t_max t) 0) in
    if (u32 (vw + w0) <=? mx)%Z then
      do! p := lift (part_move g p v 0) in
      do! q := lift (bfs_update_neighbors g v q) in
      bfs_priority_move g t fuel' q p
    else bfs_priority_move g t fuel' q p
  end.

(** BFSBisector.cpp:93-94, 111-112: newWeight / (double)max0 < w1 / (double)max1 *)
Definition balance_improves (t : target) (p : part) (newWeight : Z) : outcome bool :=
  let! m0 := rd (t_max t) 0 in
  let! w1 := get_weight p 1 in
  let! m1 := rd (t_max t) 1 in
  Ok (flt (fdiv (f_of_Z newWeight) (f_of_Z m0)) (fdiv (f_of_Z w1) (f_of_Z m1))).

(** BFSBisector.cpp:74-99 bfsWeightBalance.  The queue key is the weight converted to
    int32_t; pop yields the largest. *)
Fixpoint bfs_weight_balance_loop (g : graph) (t : target) (fuel : nat) (q : queue) (p : part) : M part :=
  if Nat.eqb (q_size q) 0 then ret p else
  match fuel with
  | 0 => mfail OutOfFuel
  | S fuel' =>
    do! r := q_pop q in
    do! w := lift (vwt true g (fst r)) in
    do! w0 := lift (get_weight p 0) in
    do! b := lift (balance_improves t p (u32 (w + w0))) in
    if b then lift (part_move g p (fst r) 0) else bfs_weight_balance_loop g t fuel' (snd r) p
  end.
Definition bfs_weight_balance (g : graph) (t : target) (remaining : list nat) (p : part) : M part :=
  do! q := lift (ofold (fun q v => let! w := vwt true g v in q_add q (i32_of_u32 w) v)
                       (q_new (nv g)) remaining) in
  bfs_weight_balance_loop g t (nv g) q p.

(** BFSBisector.cpp:101-117 bfsUnitBalance *)
Fixpoint bfs_unit_balance (g : graph) (t : target) (remaining : list nat) (p : part) : outcome part :=
  match remaining with
  | [] => Ok p
  | v :: rest =>
    let! w0 := get_weight p 0 in
    let! b := balance_improves t p (u32 (1 + w0)) in
    if b then part_move g p v 0 else bfs_unit_balance g t rest p
  end.

(** BFSBisector.cpp:146-192 *)
Definition bfs_from (seed : nat) : bisector := fun t g =>
  let p := part_new (t_np t) g in
  do! q := lift (q_add (q_new (nv g)) 1%Z seed) in
  do! q := lift (ofold (fun q v => if Nat.eqb v seed then Ok q else q_add q 0%Z v) q (seq 0 (nv g))) in
  do! p := lift (assign_all g p 1) in
  do! r := bfs_priority_move g t (nv g) q p in
  let q := fst r in
  let p := snd r in
  do! w1 := lift (get_weight p 1) in
  do! m1 := lift (rd (t_max t) 1) in
  do! p := (if (m1 <? w1)%Z then
              do! rem := q_remaining q in
              if g_uvw g then bfs_weight_balance g t rem p
              else lift (bfs_unit_balance g t rem p)
            else ret p) in
  lift (recalc_cut g p).

(** BFSBisector.cpp:136-144.  randInRange(0, n-1); for n = 0 the bound wraps and the seed
    is not a vertex: queue.add(seed) is out of bounds.  Reported as EmptyRange. *)
Definition bfs_execute : bisector := fun t g =>
  do! seed := choose_below (nv g) in
  bfs_from seed t g.

(** ** RandomBisector.cpp:171-198 fillLeft *)
Fixpoint fill_left (g : graph) (t : target) (vs : list nat) (p : part) : outcome part :=
  match vs with
  | [] => Ok p
  | v :: vs' =>
    let! w0 := get_weight p 0 in
    let! vw := vwt (has_vw g) g v in
    let! m0 := rd (t_max t) 0 in
    if (m0 <? u32 (w0 + vw))%Z then Ok p else
    let! bal := calc_max_imbalance g t p in
    let! p1 := part_move g p v 0 in
    let! bal1 := calc_max_imbalance g t p1 in
    if flt bal bal1 then part_move g p1 v 1 else fill_left g t vs' p1
  end.

(** RandomBisector.cpp:85-114: the left and right vertices with weights, each sorted by
    weight (std::sort: order of equal weights unspecified) *)
Fixpoint insert_w (x : nat * Z) (l : list (nat * Z)) : list (nat * Z) :=
  match l with
  | [] => [x]
  | y :: l' => if (snd x <=? snd y)%Z then x :: l else y :: insert_w x l'
  end.
Definition sort_w (l : list (nat * Z)) : list (nat * Z) := foldr insert_w [] l.
Definition fill_pairs (g : graph) (p : part) : outcome (list (nat * Z) * list (nat * Z)) :=
  for_vertices g (fun lr v =>
    let! w := vwt (has_vw g) g v in
    let! a := get_assignment p v in
    Ok (if decide (a = Some 0) then (fst lr ++ [(v, w)], snd lr) else (fst lr, (v, w) :: snd lr)))
    ([], []).

(** std::lower_bound over vertex_struct::operator<(wgt_type): the int32_t offset is
    converted to uint32_t.  Index of the first element not less than it. *)
Fixpoint lower_bound (l : list (nat * Z)) (x : Z) : nat :=
  match l with
  | [] => 0
  | y :: l' => if (snd y <? x)%Z then S (lower_bound l' x) else 0
  end.

(** RandomBisector.cpp:124-168 swapBalanceRight *)
Definition swap_balance_right (g : graph) (t : target) (p : part) : M part :=
  do! lr := lift (fill_pairs g p) in
  do! ls := choose_perm (fst lr) in
  do! rs := choose_perm (snd lr) in
  let ls := sort_w ls in
  let rs := sort_w rs in
  do! m0 := lift (rd (t_max t) 0) in
  do! m1 := lift (rd (t_max t) 1) in
  do! w0 := lift (get_weight p 0) in
  do! w1 := lift (get_weight p 1) in
  let minDelta := i32_of_u32 (u32 (w1 - m1)) in
  let maxDelta := i32_of_u32 (u32 (m0 - w0)) in
  match last (ls ++ rs) with
  | None => mfail (UB OutOfBounds)
  | Some (rv, rw) =>
    let weight := i32_of_u32 rw in
    do! minOffset := lift (i32 (weight - maxDelta)) in
    do! maxOffset := lift (i32 (weight - minDelta)) in
    let lower := lower_bound ls (u32 minOffset) in
    let upper := lower_bound ls (u32 maxOffset) in
    if Nat.ltb lower upper then
      do! p := lift (part_move g p rv 0) in
      do! lv := lift (rd ls lower) in
      lift (part_move g p (fst lv) 1)
    else ret p
  end.

(** RandomBisector.cpp:224-257 *)
Definition random_execute : bisector := fun t g =>
  do! p := lift (assign_all g (part_new 2 g) 1) in
  do! vs := random_order (mkVS 0 (nv g)) in
  do! p := lift (fill_left g t vs p) in
  do! w1 := lift (get_weight p 1) in
  do! m1 := lift (rd (t_max t) 1) in
  do! p := (if (m1 <? w1)%Z then swap_balance_right g t p else ret p) in
  lift (recalc_cut g p).

(** RandomFMBisector.cpp:41-72 *)
Definition random_fm_execute (maxIters : Z) : bisector := fun t g =>
  do! p := random_execute t g in
  do! c := lift (from_partitioning g p) in
  do! r := fm_refine maxIters 1000 g t c p in
  ret (snd r).

(** ** MultiBisector.cpp:67-105 *)
Record multi_best := mkBest { mb_part : part; mb_cut : Z; mb_bal : f64; mb_found : bool }.
Definition multi_accept (first : bool) (best : multi_best) (balance : f64) (isBalanced : bool) (cut : Z) : bool :=
  first || (negb (mb_found best) && flt balance (mb_bal best))
        || (mb_found best && isBalanced && (cut <? mb_cut best)%Z).
Definition multi_consider (t : target) (g : graph) (b : nat) (best : multi_best) (p : part)
    : outcome multi_best :=
  let! balance := calc_max_imbalance g t p in
  let! isb := is_balanced t p in
  Ok (if multi_accept (Nat.eqb b 0) best balance isb (p_cut p)
      then mkBest p (p_cut p) balance (mb_found best || isb)
      else best).
Definition multi_execute (numBisections : Z) (bis : bisector) : bisector := fun t g =>
  do! r := mfold (fun best b =>
      do! p := bis t g in
      lift (multi_consider t g b best p))
    (mkBest (part_new 2 g) 0%Z f_zero false) (seq 0 (Z.to_nat numBisections)) in
  ret (mb_part r).

(** BisectorFactory.cpp:42-58: RANDOM_BISECTION = 0, BFS_BISECTION = 1 *)
Definition bisector_make (scheme : Z) (numBisections : Z) : outcome bisector :=
  if (scheme =? 0)%Z then Ok (multi_execute numBisections random_execute)
  else if (scheme =? 1)%Z then Ok (multi_execute numBisections bfs_execute)
  else Fail (Throw RuntimeError).

(** TwoWayRefinerFactory.cpp:42-54: FM_TWOWAY_REFINEMENT = 0 *)
Definition refiner_make (scheme : Z) : outcome refiner :=
  if (scheme =? 0)%Z then Ok (fm_refine 8 150) else Fail (Throw RuntimeError).
