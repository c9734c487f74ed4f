(** * ModelConn: src/partition/TwoWayConnectivity.{hpp,cpp}, TwoWayConnectivityBuilder,
    src/util/VertexQueue.hpp, src/util/VisitTracker.hpp. *)
From Verif Require Import Base F64 ModelGraph ModelPartition.

(** TwoWayConnectivity.hpp:63-67, 306-308.  m_border (sl::FixedSet) is a membership
    vector; its iteration order is unspecified (see [border_order]). *)
Record conn := mkConn {
  c_int : list Z;
  c_ext : list Z;
  c_border : list bool
}.

Inductive border_status := BorderAdded | BorderRemoved | BorderStillIn | BorderStillOut.

(** TwoWayConnectivity.cpp:55-59 *)
Definition should_be_in_border (i e : Z) : bool := (0 <? e)%Z || (i =? 0)%Z.

(** TwoWayConnectivity.cpp:131-142 *)
Definition conn_make (is es : list Z) : conn :=
  mkConn is es (zip_with should_be_in_border is es).

(** TwoWayConnectivity.cpp:61-85 setupConnections, inner loop *)
Definition vertex_connectivity (g : graph) (p : part) (v : nat) : outcome (Z * Z) :=
  let! home := get_assignment p v in
  for_edges g v (fun pr e =>
    let! u := dst g e in
    let! other := get_assignment p u in
    let! w := ewt (has_ew g) g e in
    Ok (if decide (other = home) then (u32 (fst pr + w), snd pr)
        else (fst pr, u32 (snd pr + w)))) (0%Z, 0%Z).

(** TwoWayConnectivity.cpp:109-123 *)
Definition from_partitioning (g : graph) (p : part) : outcome conn :=
  let! r := for_vertices g (fun ie v =>
      let! pr := vertex_connectivity g p v in
      let! is := wri (fst ie) v (fst pr) in
      let! es := wri (snd ie) v (snd pr) in
      Ok (is, es)) (alloc (nv g), alloc (nv g)) in
  let! is := frozen (fst r) in
  let! es := frozen (snd r) in
  Ok (conn_make is es).

(** TwoWayConnectivity.hpp:78-83: -(int((a ^ b) << 1) - 1) on labels 0/1 *)
Definition get_direction (a b : option nat) : Z := if decide (a = b) then 1%Z else (-1)%Z.

(** TwoWayConnectivity.hpp:327-348 *)
Definition update_border (c : conn) (v : nat) : outcome (conn * border_status) :=
  let! inb := rd (c_border c) v in
  let! e := rd (c_ext c) v in
  if inb then
    if (e =? 0)%Z then
      let! b := wr (c_border c) v false in Ok (mkConn (c_int c) (c_ext c) b, BorderRemoved)
    else Ok (c, BorderStillIn)
  else
    if (0 <? e)%Z then
      let! b := wr (c_border c) v true in Ok (mkConn (c_int c) (c_ext c) b, BorderAdded)
    else Ok (c, BorderStillOut).

(** TwoWayConnectivity.hpp:163-172 *)
Definition conn_move (c : conn) (v : nat) : outcome (conn * border_status) :=
  let! i := rd (c_int c) v in
  let! e := rd (c_ext c) v in
  let! is := wr (c_int c) v e in
  let! es := wr (c_ext c) v i in
  update_border (mkConn is es (c_border c)) v.

(** TwoWayConnectivity.hpp:184-200: flow * edgeWeight is uint32 arithmetic *)
Definition update_neighbor (c : conn) (u : nat) (w dir : Z) : outcome (conn * border_status) :=
  let! i := rd (c_int c) u in
  let! e := rd (c_ext c) u in
  let! is := wr (c_int c) u (u32 (i + dir * w)) in
  let! es := wr (c_ext c) u (u32 (e - dir * w)) in
  update_border (mkConn is es (c_border c)) u.

(** TwoWayConnectivity.hpp:226-232 *)
Definition vertex_delta (c : conn) (v : nat) : outcome Z :=
  let! i := rd (c_int c) v in
  let! e := rd (c_ext c) v in
  i32 (i32_of_u32 i - i32_of_u32 e).

(** TwoWayConnectivity.hpp:256-260 *)
Definition is_in_border (c : conn) (v : nat) : outcome bool := rd (c_border c) v.

(** sl::FixedSet iteration: every member once, unspecified order *)
Definition members (b : list bool) : list nat :=
  filter (fun v => b !! v = Some true) (seq 0 (length b)).
Definition border_order (c : conn) : M (list nat) := choose_perm (members (c_border c)).

(** TwoWayConnectivity.cpp:161-204 verify (a border size mismatch alone is only logged) *)
Definition conn_verify (g : graph) (p : part) (c : conn) : outcome bool :=
  let! base := from_partitioning g p in
  let! in_base := oall (fun v => rd (c_border base) v) (members (c_border c)) in
  let! in_this := oall (fun v => rd (c_border c) v) (members (c_border base)) in
  let! same := ofold (fun (b : bool) v =>
      let! e := rd (c_ext c) v in let! e' := rd (c_ext base) v in
      let! i := rd (c_int c) v in let! i' := rd (c_int base) v in
      Ok (b && (e =? e')%Z && (i =? i')%Z)) true (seq 0 (nv g)) in
  Ok (in_base && in_this && same).

(** ** TwoWayConnectivityBuilder.hpp:40-94 *)
Record conn_builder := mkCB { cb_int : list (option Z); cb_ext : list (option Z) }.
Definition cb_begin (n : nat) : conn_builder := mkCB (alloc n) (alloc n).        (* .cpp:53-57 *)
Definition cb_set_int (b : conn_builder) (v : nat) (w : Z) : outcome conn_builder :=
  let! l := wri (cb_int b) v w in Ok (mkCB l (cb_ext b)).                        (* .hpp:63-69 *)
Definition cb_set_ext (b : conn_builder) (v : nat) (w : Z) : outcome conn_builder :=
  let! l := wri (cb_ext b) v w in Ok (mkCB (cb_int b) l).                        (* .hpp:77-83 *)
Definition cb_finish (b : conn_builder) : outcome conn :=                        (* .cpp:60-63 *)
  let! is := frozen (cb_int b) in
  let! es := frozen (cb_ext b) in
  Ok (conn_make is es).

(** ** VertexQueue (util/VertexQueue.hpp:38-200) over sl::FixedPriorityQueue<int32_t, vtx>.
    Library contract (absent): a max-queue over vertices [0,n) with one key per vertex;
    which of several maximal elements is on top is unspecified.  [None] = not queued. *)
Notation queue := (list (option Z)).
Definition q_new (n : nat) : queue := replicate n None.
Definition q_contains (q : queue) (v : nat) : outcome bool :=
  let! k := rd q v in Ok (bool_decide (is_Some k)).
Definition q_add (q : queue) (key : Z) (v : nat) : outcome queue :=
  let! k := rd q v in
  match k with Some _ => Fail (UB ContainerContract) | None => wr q v (Some key) end.
Definition q_remove (q : queue) (v : nat) : outcome queue :=
  let! k := rd q v in
  match k with None => Fail (UB ContainerContract) | Some _ => wr q v None end.
Definition q_update (q : queue) (key : Z) (v : nat) : outcome queue :=
  let! k := rd q v in
  match k with None => Fail (UB ContainerContract) | Some _ => wr q v (Some key) end.
(** updateByDelta: the addition happens inside the library on int32 keys; it only affects
    the pop order, and is modelled as two's complement addition. *)
Definition wrap_i32 (z : Z) : Z := i32_of_u32 (u32 z).
Definition q_update_by_delta (q : queue) (d : Z) (v : nat) : outcome queue :=
  let! k := rd q v in
  match k with None => Fail (UB ContainerContract) | Some k => wr q v (Some (wrap_i32 (k + d))) end.
Definition q_members (q : queue) : list nat :=
  filter (fun v => is_Some (default None (q !! v))) (seq 0 (length q)).
Definition q_size (q : queue) : nat := length (q_members q).
Definition q_key (q : queue) (v : nat) : Z := default 0%Z (default None (q !! v)).
Definition q_max (q : queue) : outcome Z :=
  match q_members q with
  | [] => Fail (UB ContainerContract)
  | v :: vs => Ok (fold_left (fun m u => Z.max m (q_key q u)) vs (q_key q v))
  end.
(** The elements that may be on top. *)
Definition q_tops (q : queue) : list nat :=
  match q_max q with
  | Ok m => filter (fun v => q_key q v = m) (q_members q)
  | Fail _ => []
  end.
Definition q_peek (q : queue) : M nat :=
  if Nat.eqb (q_size q) 0 then mfail (UB ContainerContract) else choose_from (q_tops q).
Definition q_pop (q : queue) : M (nat * queue) :=
  do! v := q_peek q in
  do! q' := lift (q_remove q v) in
  ret (v, q').
Definition q_clear (q : queue) : queue := replicate (length q) None.
(** remaining(): the queued vertices, unspecified order *)
Definition q_remaining (q : queue) : M (list nat) := choose_perm (q_members q).

(** ** VisitTracker (util/VisitTracker.hpp:44-114) *)
Definition vt_new (n : nat) : list bool := replicate n false.                     (* 52-57 *)
Definition vt_visit (t : list bool) (i : nat) : outcome (list bool) := wr t i true.    (* 64-68 *)
Definition vt_unvisit (t : list bool) (i : nat) : outcome (list bool) := wr t i false. (* 75-79 *)
Definition vt_has (t : list bool) (i : nat) : outcome bool := rd t i.             (* 88-92 *)
Definition vt_clear (t : list bool) : list bool := replicate (length t) false.    (* 97-100 *)
