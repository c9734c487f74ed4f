(** * ModelFM: src/partition/FMRefiner.cpp. *)
From Verif Require Import Base F64 ModelGraph ModelPartition ModelConn.

(** State threaded through a refinement pass. *)
Record fm := mkFm {
  fm_part : part;
  fm_conn : conn;
  fm_q0 : queue;
  fm_q1 : queue;
  fm_vis : list bool
}.

Definition fm_q (s : fm) (i : nat) : queue := if Nat.eqb i 0 then fm_q0 s else fm_q1 s.
(** pqs[home]: std::array of two; NULL_PID or a label >= 2 is out of bounds *)
Definition set_q (s : fm) (i : option nat) (f : queue -> outcome queue) : outcome fm :=
  match i with
  | Some 0 => let! q := f (fm_q0 s) in Ok (mkFm (fm_part s) (fm_conn s) q (fm_q1 s) (fm_vis s))
  | Some 1 => let! q := f (fm_q1 s) in Ok (mkFm (fm_part s) (fm_conn s) (fm_q0 s) q (fm_vis s))
  | _ => Fail (UB OutOfBounds)
  end.

(** -connectivity->getVertexDelta(u): int32 negation *)
Definition neg_delta (c : conn) (u : nat) : outcome Z :=
  let! d := vertex_delta c u in i32 (- d).

(** FMRefiner.cpp:62-96.  The two peeks of the tie-break are taken independently of the
    following pop (a superset of the real behaviours). *)
Definition pick_side (t : target) (s : fm) : M nat :=
  do! o0 := lift (is_overweight t (fm_part s) 0) in
  if o0 && negb (Nat.eqb (q_size (fm_q0 s)) 0) then ret 0 else
  do! o1 := lift (is_overweight t (fm_part s) 1) in
  if o1 && negb (Nat.eqb (q_size (fm_q1 s)) 0) then ret 1 else
  if Nat.eqb (q_size (fm_q0 s)) 0 then ret 1 else
  if Nat.eqb (q_size (fm_q1 s)) 0 then ret 0 else
  do! m0 := lift (q_max (fm_q0 s)) in
  do! m1 := lift (q_max (fm_q1 s)) in
  if (m1 <? m0)%Z then ret 0 else
  if (m0 <? m1)%Z then ret 1 else
  do! v0 := q_peek (fm_q0 s) in
  do! v1 := q_peek (fm_q1 s) in
  ret ((v0 + v1) mod 2).

(** FMRefiner.cpp:120-142, one neighbour.  [track] is pqs != nullptr. *)
Definition fm_neighbor (g : graph) (track : bool) (to : nat) (s : fm) (e : nat) : outcome fm :=
  let! u := dst g e in
  let! home := get_assignment (fm_part s) u in
  let! w := ewt (has_ew g) g e in
  let! r := update_neighbor (fm_conn s) u w (get_direction (Some to) home) in
  let s := mkFm (fm_part s) (fst r) (fm_q0 s) (fm_q1 s) (fm_vis s) in
  if track then
    let! vis := vt_has (fm_vis s) u in
    if vis then Ok s else
    match snd r with
    | BorderAdded => let! k := neg_delta (fm_conn s) u in set_q s home (fun q => q_add q k u)
    | BorderRemoved => set_q s home (fun q => q_remove q u)
    | BorderStillIn => let! k := neg_delta (fm_conn s) u in set_q s home (fun q => q_update q k u)
    | BorderStillOut => Ok s
    end
  else Ok s.

(** FMRefiner.cpp:99-143 *)
Definition fm_move (g : graph) (track : bool) (v to : nat) (s : fm) : outcome fm :=
  let! delta := vertex_delta (fm_conn s) v in
  let! c := conn_move (fm_conn s) v in
  let! p := part_move g (fm_part s) v to in
  let p := add_cut p delta in
  for_edges g v (fm_neighbor g track to) (mkFm p (fst c) (fm_q0 s) (fm_q1 s) (fm_vis s)).

(** FMRefiner.cpp:199-203 fill the queues from the border *)
Definition fm_fill (s : fm) : M fm :=
  do! vs := border_order (fm_conn s) in
  lift (ofold (fun s v =>
    let! side := get_assignment (fm_part s) v in
    let! k := neg_delta (fm_conn s) v in
    set_q s side (fun q => q_add q k v)) s vs).

(** FMRefiner.cpp:212-246.  [moves] is newest first; fuel is the number of vertices that
    can still be popped (C09 shows it never runs out). *)
Record pass := mkPass {
  ps_fm : fm; ps_best_cut : Z; ps_best_bal : f64; ps_moves : list nat; ps_num_moved : nat
}.
(* FMRefiner.cpp:235-237 *)
Definition fm_accept (isBalanced : bool) (balance bestBalance : f64) (cut bestCut : Z) : bool :=
  (negb isBalanced && flt balance bestBalance)
  || ((cut <? bestCut)%Z && (isBalanced || fle balance bestBalance)).
Definition fm_step (g : graph) (t : target) (ps : pass) : M pass :=
  do! from := pick_side t (ps_fm ps) in
  let to := if Nat.eqb from 0 then 1 else 0 in
  do! r := q_pop (fm_q (ps_fm ps) from) in
  let v := fst r in
  do! s := lift (set_q (ps_fm ps) (Some from) (fun _ => Ok (snd r))) in
  do! vis := lift (vt_visit (fm_vis s) v) in
  let s := mkFm (fm_part s) (fm_conn s) (fm_q0 s) (fm_q1 s) vis in
  do! s := lift (fm_move g true v to s) in
  let cut := p_cut (fm_part s) in
  do! bal := lift (calc_max_imbalance g t (fm_part s)) in
  do! isb := lift (is_balanced t (fm_part s)) in
  ret (if fm_accept isb bal (ps_best_bal ps) cut (ps_best_cut ps)
       then mkPass s cut bal [] (S (ps_num_moved ps))
       else mkPass s (ps_best_cut ps) (ps_best_bal ps) (v :: ps_moves ps) (S (ps_num_moved ps))).
Definition queues_empty (s : fm) : bool :=
  Nat.eqb (q_size (fm_q0 s)) 0 && Nat.eqb (q_size (fm_q1 s)) 0.
Fixpoint fm_loop (g : graph) (t : target) (maxBad : Z) (fuel : nat) (ps : pass) : M pass :=
  if queues_empty (ps_fm ps) || negb (Z.of_nat (length (ps_moves ps)) <? maxBad)%Z then ret ps else
  match fuel with
  | 0 => mfail OutOfFuel
  | S fuel' => do! ps' := fm_step g t ps in fm_loop g t maxBad fuel' ps'
  end.

(** FMRefiner.cpp:253-265 undo (newest first; from ^ 1 on labels 0/1) *)
Definition fm_undo (g : graph) (moves : list nat) (s : fm) : outcome fm :=
  ofold (fun s v =>
    let! w := get_assignment (fm_part s) v in
    let! from := pw_index w in
    fm_move g false v (if Nat.eqb from 0 then 1 else 0) s) s moves.

(** FMRefiner.cpp:184-186 *)
Definition max_bad_moves (maxMoves : Z) (n : nat) : outcome Z :=
  let! f := f_to_u32 (fmul (f_of_nat n) f_0_01) in
  Ok (Z.min maxMoves (Z.max f 25)).

(** FMRefiner.cpp:188-282; [iters] remaining refinement iterations *)
Fixpoint fm_iters (g : graph) (t : target) (maxBad : Z) (iters : nat) (s : fm) : M fm :=
  match iters with
  | 0 => ret s
  | S iters' =>
    do! s := fm_fill s in
    let cut := p_cut (fm_part s) in
    do! bal := lift (calc_max_imbalance g t (fm_part s)) in
    do! ps := fm_loop g t maxBad (nv g) (mkPass s cut bal [] 0) in
    do! s := lift (fm_undo g (ps_moves ps) (ps_fm ps)) in
    if Nat.eqb (ps_num_moved ps) (length (ps_moves ps)) then ret s else
    fm_iters g t maxBad iters'
      (match iters' with
       | 0 => s
       | S _ => mkFm (fm_part s) (fm_conn s) (q_clear (fm_q0 s)) (q_clear (fm_q1 s)) (vt_clear (fm_vis s))
       end)
  end.

(** FMRefiner.cpp:153-160, 168-284.  A negative iteration count means no iteration. *)
Definition fm_refine (maxIters : Z) (maxMoves : Z)
    (g : graph) (t : target) (c : conn) (p : part) : M (conn * part) :=
  do! maxBad := lift (max_bad_moves maxMoves (nv g)) in
  do! s := fm_iters g t maxBad (Z.to_nat maxIters)
             (mkFm p c (q_new (nv g)) (q_new (nv g)) (vt_new (nv g))) in
  ret (fm_conn s, fm_part s).

(** ITwoWayRefiner.hpp:  void refine(target, connectivity, partitioning, graph) *)
Definition refiner := graph -> target -> conn -> part -> M (conn * part).
