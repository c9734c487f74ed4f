(** * ModelPartition: src/partition/Partitioning.{hpp,cpp}, TargetPartitioning.{hpp,cpp},
    PartitionParameters.cpp, PartitioningAnalyzer.{hpp,cpp}. *)
From Verif Require Import Base F64 ModelGraph.

(** Partitioning.hpp:442-448.  Labels are [option nat]; [None] is NULL_PID.  The graph
    pointer is passed to the operations that use it. *)
Record part := mkPart {
  p_cut : Z;                   (* m_cutEdgeWeight *)
  p_pw : list Z;               (* m_partitionWeight *)
  p_where : list (option nat)  (* m_assignment *)
}.

(** Partitioning.cpp:85-94 *)
Definition part_new (numParts : nat) (g : graph) : part :=
  mkPart 0%Z (replicate numParts 0%Z) (replicate (nv g) None).

(** m_partitionWeight[pid]: NULL_PID is never a valid index *)
Definition pw_index (p : option nat) : outcome nat :=
  match p with Some i => Ok i | None => Fail (UB OutOfBounds) end.
Definition add_pw (pw : list Z) (p : option nat) (d : Z) : outcome (list Z) :=
  let! i := pw_index p in
  let! w := rd pw i in
  wr pw i (u32 (w + d)).

(** Partitioning.hpp:350-356, 366-372 getAssignment *)
Definition get_assignment (p : part) (v : nat) : outcome (option nat) := rd (p_where p) v.

(** Partitioning.hpp:396-401 getWeight; 212-216 operator[] *)
Definition get_weight (p : part) (i : nat) : outcome Z := rd (p_pw p) i.

(** Partitioning.cpp:43-55 sumPartitionWeight *)
Definition sum_partition_weight (g : graph) (wh : list (option nat)) (pw : list Z) : outcome (list Z) :=
  for_vertices g (fun pw v =>
    let! p := rd wh v in
    let! w := vwt (has_vw g) g v in
    add_pw pw p w) pw.

(** Partitioning.cpp:57-77 sumCutEdgeWeight *)
Definition sum_cut (g : graph) (wh : list (option nat)) : outcome Z :=
  let! t := for_vertices g (fun t v =>
    let! home := rd wh v in
    for_edges g v (fun t e =>
      let! u := dst g e in
      let! other := rd wh u in
      if decide (other = home) then Ok t else
        let! w := ewt (has_ew g) g e in Ok (u32 (t + w))) t) 0%Z in
  Ok (t / 2)%Z.

(** Partitioning.cpp:97-120 *)
Definition part_of_labels (numParts : nat) (g : graph) (labels : list nat) : outcome part :=
  let wh := Some <$> labels in
  let! pw := sum_partition_weight g wh (replicate numParts 0%Z) in
  let! c := sum_cut g wh in
  Ok (mkPart c pw wh).

(** Partitioning.cpp:149-156 *)
Definition recalc_cut (g : graph) (p : part) : outcome part :=
  let! c := sum_cut g (p_where p) in
  Ok (mkPart c (p_pw p) (p_where p)).

(** Partitioning.cpp:138-146 *)
Definition calc_vertex_counts (p : part) : outcome (list nat) :=
  ofold (fun cs w =>
    let! i := pw_index w in
    let! c := rd cs i in
    wr cs i (S c)) (replicate (length (p_pw p)) 0) (p_where p).

(** Partitioning.cpp:159-178 *)
Definition assign_all (g : graph) (p : part) (i : nat) : outcome part :=
  let! pw := wr (replicate (length (p_pw p)) 0%Z) i (g_tvw g) in
  Ok (mkPart 0%Z pw (replicate (length (p_where p)) (Some i))).

(** Partitioning.cpp:181-191 *)
Definition unassign_all (p : part) : part :=
  mkPart (p_cut p) (replicate (length (p_pw p)) 0%Z) (replicate (length (p_where p)) None).

(** Partitioning.hpp:224-240 *)
Definition set_cut (p : part) (w : Z) : part := mkPart w (p_pw p) (p_where p).
Definition add_cut (p : part) (d : Z) : part := mkPart (u32 (p_cut p + d)) (p_pw p) (p_where p).

(** Partitioning.hpp:272-287 assign *)
Definition part_assign (g : graph) (p : part) (v i : nat) : outcome part :=
  let! w := vwt (has_vw g) g v in
  let! pw := add_pw (p_pw p) (Some i) w in
  let! wh := wr (p_where p) v (Some i) in
  Ok (mkPart (p_cut p) pw wh).

(** Partitioning.hpp:296-317 move *)
Definition part_move (g : graph) (p : part) (v i : nat) : outcome part :=
  let! w := vwt (has_vw g) g v in
  let! cur := rd (p_where p) v in
  let! pw := add_pw (p_pw p) cur (- w)%Z in
  let! pw := add_pw pw (Some i) w in
  let! wh := wr (p_where p) v (Some i) in
  Ok (mkPart (p_cut p) pw wh).

(** Partitioning.hpp:326-340 unassign *)
Definition part_unassign (g : graph) (p : part) (v : nat) : outcome part :=
  let! cur := rd (p_where p) v in
  let! w := vwt (has_vw g) g v in
  let! pw := add_pw (p_pw p) cur (- w)%Z in
  let! wh := wr (p_where p) v None in
  Ok (mkPart (p_cut p) pw wh).

(** Partitioning.hpp:411-417 getFraction *)
Definition get_fraction (g : graph) (p : part) (i : nat) : outcome f64 :=
  let! w := rd (p_pw p) i in
  Ok (fdiv (f_of_Z w) (f_of_Z (g_tvw g))).

(** Partitioning.cpp:194-204 output: what the caller's buffers contain afterwards *)
Definition part_output (p : part) : Z * list (option nat) := (p_cut p, p_where p).

(** ** TargetPartitioning.hpp:206-210 *)
Record target := mkTarget {
  t_frac : list f64;
  t_wgt : list Z;
  t_max : list Z
}.
Definition t_np (t : target) : nat := length (t_wgt t).

(** TargetPartitioning.cpp:63-77 *)
Fixpoint calc_target_weight (total : Z) (fr : list f64) : outcome (list Z) :=
  match fr with
  | [] => Ok []
  | f :: fr' =>
    let! w := f_to_u32 (fmul f (f_of_Z total)) in
    let! r := calc_target_weight total fr' in
    Ok (w :: r)
  end.
(** TargetPartitioning.cpp:80-91: fractions[part] * (1.0+tol) * total, left associative *)
Fixpoint calc_max_weight (total : Z) (tol : f64) (fr : list f64) : outcome (list Z) :=
  match fr with
  | [] => Ok []
  | f :: fr' =>
    let! w := f_to_u32 (fmul (fmul f (fadd f_one tol)) (f_of_Z total)) in
    let! r := calc_max_weight total tol fr' in
    Ok (w :: r)
  end.
(** TargetPartitioning.cpp:93-107 *)
Definition calc_fractions (tw : list Z) : list f64 :=
  let total := sum_u32 tw in
  let inv := fdiv f_one (f_of_Z total) in
  (fun w => fmul (f_of_Z w) inv) <$> tw.

Definition min_fraction_sum : f64 := fsub f_one f_0_0001.   (* TargetPartitioning.cpp:50 *)
Definition max_fraction_sum : f64 := fadd f_one f_0_0001.   (* TargetPartitioning.cpp:51 *)

(** TargetPartitioning.cpp:130-163.  The exception message reads fractions [0] and [1]:
    with fewer than two parts this is an out-of-bounds read of the array. *)
Definition throw_fractions {A} (fr : list f64) : outcome A :=
  if Nat.ltb (length fr) 2 then Fail (UB OutOfBounds) else Fail (Throw InvalidPartitionFractions).
Fixpoint check_fractions (all fr : list f64) (s : f64) : outcome f64 :=
  match fr with
  | [] => Ok s
  | f :: fr' => if flt f f_zero || fgt f f_one then throw_fractions all
                else check_fractions all fr' (fadd s f)
  end.
Definition target_of_fractions (total : Z) (tol : f64) (fr : list f64) : outcome target :=
  let! s := check_fractions fr fr f_zero in
  if flt s min_fraction_sum || fgt s max_fraction_sum then throw_fractions fr else
  let! tw := calc_target_weight total fr in
  let! tm := calc_max_weight total tol fr in
  Ok (mkTarget fr tw tm).

(** TargetPartitioning.cpp:119-127: uniform *)
Definition target_uniform (numParts : nat) (total : Z) (tol : f64) : outcome target :=
  target_of_fractions total tol (replicate numParts (fdiv f_one (f_of_nat numParts))).

(** TargetPartitioning.cpp:166-176 *)
Definition target_of_weights (tw tm : list Z) : target := mkTarget (calc_fractions tw) tw tm.

(** TargetPartitioning.hpp:185-192 getMaxExcessWeight *)
Definition max_excess (t : target) (i : nat) : outcome Z :=
  let! m := rd (t_max t) i in
  let! w := rd (t_wgt t) i in
  Ok (u32 (m - w)).

(** PartitionParameters.cpp:43-54 *)
Definition default_tolerance : f64 := f_0_03.
Definition default_fractions (numParts : nat) : list f64 :=
  replicate numParts (fdiv f_one (f_of_nat numParts)).

(** ** PartitioningAnalyzer.hpp:83-120, PartitioningAnalyzer.cpp:46-93 *)
Definition get_imbalance (g : graph) (t : target) (p : part) (i : nat) : outcome f64 :=
  let! tf := rd (t_frac t) i in
  let! fr := get_fraction g p i in
  Ok (fsub (fdiv fr tf) f_one).
Definition find_max (g : graph) (t : target) (p : part) : outcome (nat * f64) :=
  ofold (fun mx i =>
    let! f := get_imbalance g t p i in
    Ok (if fgt f (snd mx) then (i, f) else mx)) (0, f_zero) (seq 0 (length (p_pw p))).
Definition calc_max_imbalance (g : graph) (t : target) (p : part) : outcome f64 :=
  let! r := find_max g t p in Ok (snd r).
Definition find_most_overweight (g : graph) (t : target) (p : part) : outcome nat :=
  let! r := find_max g t p in Ok (fst r).
Definition is_overweight (t : target) (p : part) (i : nat) : outcome bool :=
  let! m := rd (t_max t) i in
  let! w := rd (p_pw p) i in
  Ok (m <? w)%Z.
(** PartitioningAnalyzer.hpp:112-120: [balanced && !isOverWeight(...)] short-circuits *)
Definition is_balanced (t : target) (p : part) : outcome bool :=
  ofold (fun (b : bool) i => if b then let! o := is_overweight t p i in Ok (negb o) else Ok false)
        true (seq 0 (length (p_pw p))).
