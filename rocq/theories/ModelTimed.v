(** * ModelTimed: the call with its time keeper: src/Poros.cpp, partition/MultilevelBisector.cpp,
    partition/TimedBisector.cpp, partition/TimedTwoWayRefiner.cpp, aggregation/TimedAggregator.cpp,
    aggregation/TimedContractor.cpp, util/TimedProcess.cpp.

    The other model files leave the timing out; here the same functions are modelled with it.  The
    clock is not modelled: what the successive timers read (sl::Timer::poll) is an arbitrary list of
    doubles. *)
From Verif Require Import Base F64 ModelGraph ModelPartition ModelConn ModelFM ModelAgg ModelMultilevel ModelBisect ModelRecursive ModelApi ModelUtil.

(** The readings to come, and the state of the time keeper (TimeKeeper.hpp: m_times). *)
Record clk := mkClk { ck_readings : list f64; ck_times : list f64 }.
Definition TM (A : Type) := clk -> M (A * clk).
Definition tret {A} (a : A) : TM A := fun c => ret (a, c).
Definition tlift {A} (m : M A) : TM A := fun c => do! a := m in ret (a, c).
Definition tbind {A B} (m : TM A) (k : A -> TM B) : TM B := fun c => do! x := m c in k (fst x) (snd x).
Notation "'time!' x ':=' m 'in' k" := (tbind m (fun x => k))
  (at level 200, x pattern, m at level 100, k at level 200, format "'[v' 'time!'  x  ':='  m  'in' '/' k ']'") : out_scope.
Fixpoint tfold {A B} (f : B -> A -> TM B) (b : B) (l : list A) : TM B :=
  match l with [] => tret b | a :: l' => time! b' := f b a in tfold f b' l' end.

(** TimeKeeper.hpp:41-51 *)
Definition TOTAL := 0. Definition COARSENING := 1. Definition AGGREGATION := 2. Definition CONTRACTION := 3.
Definition INITIAL_PARTITIONING := 4. Definition UNCOARSENING := 5. Definition REFINEMENT := 6. Definition PROJECTION := 7.
(** tmr.stop(); reportTime(category, tmr.poll()) with the time keeper set (TimedProcess.cpp:62-69,
    TimeKeeper.cpp:66-76) *)
Definition report (category : nat) : TM unit := fun c =>
  let r := tk_report (ck_times c) category (hd f_zero (ck_readings c)) in
  match snd r with
  | Some e => mfail (Throw e)
  | None => ret (tt, mkClk (tl (ck_readings c)) (fst r))
  end.

(** TimedAggregator.cpp:52-66 *)
Definition timed_aggregate (agg : aggregator) (maxW : Z) (g : graph) : TM aggregation :=
  time! a := tlift (agg maxW g) in
  time! _ := report AGGREGATION in tret a.
(** TimedContractor.cpp:51-65 (not used by the call) *)
Definition timed_contract (g : graph) (a : aggregation) : TM graph :=
  time! c := tlift (lift (contract g a)) in
  time! _ := report CONTRACTION in tret c.
(** TimedBisector.cpp:52-66 *)
Definition timed_bisect (bis : bisector) (t : target) (g : graph) : TM part :=
  time! p := tlift (bis t g) in
  time! _ := report INITIAL_PARTITIONING in tret p.
(** TimedTwoWayRefiner.cpp:53-66 *)
Definition timed_refine (ref : refiner) (g : graph) (t : target) (c : conn) (p : part) : TM (conn * part) :=
  time! r := tlift (ref g t c p) in
  time! _ := report REFINEMENT in tret r.

(** MultilevelBisector.cpp:97-150 *)
Fixpoint tml_recurse (agg : aggregator) (init : bisector) (ref : refiner) (stop : criteria)
    (maxW : Z) (t : target) (fuel : nat) (level : nat) (parent : option graph) (g : graph)
    : TM (conn * part) :=
  time! b := tlift (lift (stop level parent (Some g))) in
  if b then
    time! p := timed_bisect init t g in
    time! c := tlift (lift (from_partitioning g p)) in
    tret (c, p)
  else
    match fuel with
    | 0 => tlift (mfail OutOfFuel)
    | S fuel' =>
      time! a := timed_aggregate agg maxW g in
      time! cg := tlift (lift (coarse_make g a)) in
      time! _ := report CONTRACTION in
      time! _ := report COARSENING in
      time! cp := tml_recurse agg init ref stop maxW t fuel' (S level) (Some g) (cg_coarse cg) in
      time! fp := tlift (lift (project cg (fst cp) (snd cp))) in
      time! _ := report PROJECTION in
      time! r := timed_refine ref g t (fst fp) (snd fp) in
      time! _ := report UNCOARSENING in
      tret r
    end.
(** MultilevelBisector.cpp:67-90 *)
Definition tml_execute (agg : aggregator) (init : bisector) (ref : refiner) (t : target) (g : graph) : TM part :=
  time! stop := tlift (lift ml_criteria) in
  time! maxW := tlift (lift (ml_max_weight g)) in
  time! r := tml_recurse agg init ref stop maxW t (S (ne g)) 0 None g in
  tret (snd r).

Section TimedRecursive.
  Variable log2 : nat -> f64.   (* std::log2 *)
  Variable bis : target -> graph -> TM part.
  (** RecursiveBisectionPartitioner.cpp:48-141 *)
  Fixpoint trb_recurse (fuel : nat) (t : target) (m : mapped) (offset : nat)
      (labels : list (option nat)) : TM (list (option nat)) :=
    match fuel with
    | 0 => tlift (mfail OutOfFuel)
    | S fuel' =>
      let k := t_np t in
      let g := m_graph m in
      time! bt := tlift (lift (bisect_target t (tolerance_factor log2 k))) in
      time! p := bis bt g in
      time! labels := tlift (lift (map_partitioning m p offset labels)) in
      if Nat.ltb 2 k then
        time! subs := tlift (lift (sub_partitions g p
                       (match m with MWrap _ => None | MSub s => Some (sg_super s) end))) in
        let '(c0, c1) := half_sizes k in
        tfold (fun labels h =>
          let cnt := if Nat.eqb h 0 then c0 else c1 in
          let off := if Nat.eqb h 0 then 0 else c0 in
          if Nat.ltb 1 cnt then
            time! t' := tlift (lift (sub_target t off cnt)) in
            time! s := tlift (lift (rd subs h)) in
            trb_recurse fuel' t' (MSub s) (offset + off) labels
          else tret labels) labels (seq 0 (length subs))
      else tret labels
    end.
  (** RecursiveBisectionPartitioner.cpp:163-176 *)
  Definition trb_execute (t : target) (g : graph) : TM part :=
    time! labels := trb_recurse (S (t_np t)) t (MWrap g) 0 (alloc (nv g)) in
    time! labels := tlift (lift (frozen labels)) in
    time! p := tlift (lift (part_of_labels (t_np t) g labels)) in
    tlift (lift (recalc_cut g p)).
End TimedRecursive.

(** Poros.cpp:79-144 with the time keeper.  [readings]: what the timers will read.  Result: what the
    call leaves behind, and the lines it prints (None if it prints nothing). *)
Definition timed_components (scheme : Z) : outcome (target -> graph -> TM part) :=
  let! agg := aggregator_make scheme in
  let! bis := bisector_make 1 8 in
  let! ref := refiner_make 0 in
  Ok (tml_execute agg bis ref).
Definition timed_call (log2 : nat -> f64) (prefix adj : list nat) (vw ew : option (list Z))
    (numParts : nat) (opts : option options) (readings : list f64) : M (call_result * option (list (time_name * f64))) :=
  match opts with
  | None => ret (mkResult 0 None None, None)
  | Some o =>
    do! r := (time! numEdges := tlift (lift (rd prefix (length prefix - 1))) in
      time! g := tlift (lift (if Nat.ltb (length adj) numEdges then Fail (UB OutOfBounds)
                              else graph_of_csr prefix (take numEdges adj) vw ew)) in
      time! bis := tlift (lift (timed_components (o_scheme o))) in
      time! t := tlift (lift (target_of_fractions (g_tvw g) default_tolerance (default_fractions numParts))) in
      time! best := tfold (fun st (_ : nat) =>
           time! p := trb_execute log2 bis t g in
           tret (keep_best st p)) None (seq 0 (Z.to_nat (o_num_cuts o))) in
      time! _ := report TOTAL in
      tret (mkResult 1 (fst <$> best) (snd <$> best))) (mkClk readings tk_new) in
    if o_output_times o then
      do! lines := lift (tk_times (ck_times (snd r))) in
      ret (fst r, Some lines)
    else ret (fst r, None)
  end.
