(** * ModelApi: include/poros.h, src/Poros.cpp, src/PorosParameters.cpp. *)
From Verif Require Import Base F64 ModelGraph ModelPartition ModelFM ModelAgg ModelMultilevel
  ModelBisect ModelRecursive.

(** poros.h:79-131 poros_options_struct.  A null targetPartitionFractions is None. *)
Record options := mkOptions {
  o_tolerance : f64;
  o_fractions : option (list f64);
  o_seed : Z;
  o_ref_iters : Z;
  o_scheme : Z;
  o_output_times : bool;
  o_num_cuts : Z
}.

(** Poros.cpp:61-76 POROS_defaultOptions *)
Definition default_options : options := mkOptions f_0_03 None 0 8 1 false 1.

(** What a call leaves behind: the return value, and the caller's two output locations
    ([None] = not written by the call). *)
Record call_result := mkResult {
  r_ret : Z;
  r_cut : option Z;
  r_labels : option (list (option nat))
}.

(** Poros.cpp:119-130: numGlobalCuts runs, keep the first and every strictly better one *)
Definition keep_best (st : option (Z * list (option nat))) (p : part)
    : option (Z * list (option nat)) :=
  match st with
  | None => Some (part_output p)
  | Some (bestCut, _) => if (p_cut p <? bestCut)%Z then Some (part_output p) else st
  end.

Section Api.
  Variable log2 : nat -> f64.   (* std::log2 *)

  (** Poros.cpp:91-118 components used for every run *)
  Definition api_bisector (scheme : Z) : outcome bisector :=
    let! agg := aggregator_make scheme in
    let! bis := bisector_make 1 8 in
    let! ref := refiner_make 0 in
    Ok (ml_execute agg bis ref).

  (** Poros.cpp:79-144.  PorosParameters (PorosParameters.cpp:41-47) takes only the seed
      (= the choice stream) and the aggregation scheme from the options. *)
  Definition part_graph_recursive (prefix adj : list nat) (vw ew : option (list Z))
      (numParts : nat) (opts : option options) : M call_result :=
    match opts with
    | None => ret (mkResult 0 None None)
    | Some o =>
      do! numEdges := lift (rd prefix (length prefix - 1)) in
      do! g := lift (if Nat.ltb (length adj) numEdges then Fail (UB OutOfBounds)
                     else graph_of_csr prefix (take numEdges adj) vw ew) in
      do! bis := lift (api_bisector (o_scheme o)) in
      do! t := lift (target_of_fractions (g_tvw g) default_tolerance (default_fractions numParts)) in
      do! best := mfold (fun st (_ : nat) =>
           do! p := rb_execute log2 bis t g in
           ret (keep_best st p)) None (seq 0 (Z.to_nat (o_num_cuts o))) in
      ret (mkResult 1 (fst <$> best) (snd <$> best))
    end.
End Api.
