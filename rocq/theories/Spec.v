(** * Spec: the vocabulary in which the properties are stated.

    Nothing here refers to the algorithms: only to the CSR arrays of a graph and to label
    functions.  A missing weight array ([]) means that every weight is 1. *)
From Verif Require Import Base F64 ModelGraph ModelPartition ModelConn ModelAgg.

(** Sum of [f] over a list. *)
Fixpoint sumf {A} (f : A -> Z) (l : list A) : Z :=
  match l with [] => 0%Z | a :: l' => (f a + sumf f l')%Z end.
(** Sum over the vertices 0..n-1. *)
Notation sumn n f := (sumf f (seq 0 n)).

Definition wgt_at (l : list Z) (i : nat) : Z := match l with [] => 1%Z | _ => nth i l 0%Z end.
Definition pre_at (g : graph) (v : nat) : nat := nth v (g_prefix g) 0.

(** The directed edges leaving u as (destination, weight), in storage order. *)
Definition out (g : graph) (u : nat) : list (nat * Z) :=
  (fun e => (nth e (g_adj g) 0, wgt_at (g_ew g) e)) <$> seq (pre_at g u) (pre_at g (S u) - pre_at g u).
Definition vweight (g : graph) (v : nat) : Z := wgt_at (g_vw g) v.

(** Total weight of the directed edges from u to v (parallel edges add up). *)
Definition W (g : graph) (u v : nat) : Z := sumf (fun a => if decide (fst a = v) then snd a else 0%Z) (out g u).

(** Structural validity of the CSR arrays, flags and totals. *)
Record wf_graph (g : graph) : Prop := {
  wf_len : length (g_prefix g) = S (nv g);
  wf_first : pre_at g 0 = 0;
  wf_mono : forall v, v < nv g -> pre_at g v <= pre_at g (S v);
  wf_last : pre_at g (nv g) = ne g;
  wf_dst : forall e, e < ne g -> nth e (g_adj g) 0 < nv g;
  wf_vw_len : g_vw g = [] \/ length (g_vw g) = nv g;
  wf_ew_len : g_ew g = [] \/ length (g_ew g) = ne g;
  wf_vw_range : forall v, (0 <= vweight g v < W32)%Z;
  wf_ew_range : forall e, (0 <= wgt_at (g_ew g) e < W32)%Z;
  wf_uvw_t : g_uvw g = true -> forall v, v < nv g -> vweight g v = 1%Z;
  wf_uvw_f : g_uvw g = false -> length (g_vw g) = nv g;
  wf_uew_t : g_uew g = true -> forall e, e < ne g -> wgt_at (g_ew g) e = 1%Z;
  wf_uew_f : g_uew g = false -> length (g_ew g) = ne g;
  wf_tvw : g_tvw g = u32 (sumn (nv g) (vweight g));
  wf_tew : g_tew g = u32 (sumn (nv g) (fun u => sumf snd (out g u)))
}.

(** Undirected: the weight from u to v equals the weight from v to u. *)
Definition symmetric (g : graph) : Prop :=
  forall u v, u < nv g -> v < nv g -> W g u v = W g v u.
Definition loopless (g : graph) : Prop :=
  forall u v w, u < nv g -> (v, w) ∈ out g u -> v <> u.

(** Total weight counted in each direction; it fits in wgt_type. *)
Definition total_edge_weight (g : graph) : Z := sumn (nv g) (fun u => sumf snd (out g u)).
Definition fits (g : graph) : Prop := (total_edge_weight g < W32)%Z.

(** The weight of the undirected edges {u,v}, v < u, whose ends have different labels. *)
Definition edge_cut {L} `{EqDecision L} (g : graph) (lab : nat -> L) : Z :=
  sumn (nv g) (fun u => sumf (fun v => if decide (lab u = lab v) then 0%Z else W g u v) (seq 0 u)).

(** Weight of the vertices with a given label. *)
Definition label_weight {L} `{EqDecision L} (g : graph) (lab : nat -> L) (p : L) : Z :=
  sumn (nv g) (fun v => if decide (lab v = p) then vweight g v else 0%Z).

(** Weight of v's edges to its own / to the other side. *)
Definition internal {L} `{EqDecision L} (g : graph) (lab : nat -> L) (v : nat) : Z :=
  sumf (fun a => if decide (lab (fst a) = lab v) then snd a else 0%Z) (out g v).
Definition external {L} `{EqDecision L} (g : graph) (lab : nat -> L) (v : nat) : Z :=
  sumf (fun a => if decide (lab (fst a) = lab v) then 0%Z else snd a) (out g v).

(** The arrays a caller of the C interface must pass for an n-vertex graph (poros.h:205-222):
    prefix has n+1 entries from 0, non-decreasing, the last being the number of directed
    edges; destinations are vertices; weight arrays are absent or complete. *)
Record valid_csr (n : nat) (prefix adj : list nat) (vw ew : option (list Z)) : Prop := {
  vc_len : length prefix = S n;
  vc_first : nth 0 prefix 0 = 0;
  vc_mono : forall v, v < n -> nth v prefix 0 <= nth (S v) prefix 0;
  vc_last : nth n prefix 0 = length adj;
  vc_dst : Forall (fun d => d < n) adj;
  vc_vw : forall l, vw = Some l -> length l = n /\ Forall (fun w => (0 <= w < W32)%Z) l;
  vc_ew : forall l, ew = Some l -> length l = length adj /\ Forall (fun w => (0 <= w < W32)%Z) l
}.

(** ** Partitionings *)
(** The label of v in a label array ([None] = NULL_PID / unassigned). *)
Definition lab (p : part) (v : nat) : option nat := nth v (p_where p) None.

(** Every vertex of the n-vertex graph has one of the labels 0..k-1. *)
Definition labels_ok (k n : nat) (wh : list (option nat)) : Prop :=
  length wh = n /\ forall v, v < n -> exists i, i < k /\ wh !! v = Some (Some i).

(** The stored weight of each of the k parts is the weight of its vertices (mod 2^32). *)
Definition weights_exact (k : nat) (g : graph) (p : part) : Prop :=
  length (p_pw p) = k /\ forall i, i < k -> p_pw p !! i = Some (u32 (label_weight g (lab p) (Some i))).

(** A complete k-way partitioning with exact part weights ... *)
Definition valid_part (k : nat) (g : graph) (p : part) : Prop :=
  labels_ok k (nv g) (p_where p) /\ weights_exact k g p.
(** ... and exact cut. *)
Definition exact_part (k : nat) (g : graph) (p : part) : Prop :=
  valid_part k g p /\ p_cut p = edge_cut g (lab p).

(** ** Connectivity data of a two-way partitioning: exact sums ... *)
Definition conn_exact (g : graph) (f : nat -> option nat) (c : conn) : Prop :=
  length (c_int c) = nv g /\ length (c_ext c) = nv g /\ length (c_border c) = nv g /\
  forall v, v < nv g -> c_int c !! v = Some (internal g f v) /\ c_ext c !! v = Some (external g f v).
(** ... and border exactly the vertices with weight across the cut, among the vertices with
    any incident weight (for the others the code leaves the membership to history). *)
Definition border_exact (g : graph) (f : nat -> option nat) (c : conn) : Prop :=
  forall v, v < nv g -> (0 < sumf snd (out g v))%Z -> (c_border c !! v = Some true <-> (0 < external g f v)%Z).
(** What a freshly built border contains. *)
Definition border_fresh (g : graph) (f : nat -> option nat) (c : conn) : Prop :=
  forall v, v < nv g -> (c_border c !! v = Some true <-> (0 < external g f v)%Z \/ internal g f v = 0%Z).

(** ** Coarsening *)
(** An aggregation of n vertices: every vertex is mapped to one of the coarse vertices, and
    group c lists exactly the vertices mapped to c, in increasing order. *)
Definition grouping (n : nat) (a : aggregation) : Prop :=
  length (a_cmap a) = n /\ Forall (fun c => c < a_num_coarse a) (a_cmap a) /\
  forall c, c < a_num_coarse a -> agg_group a c = Ok (filter (fun v => a_cmap a !! v = Some c) (seq 0 n)).
(** Two vertices in the same group. *)
Definition together (a : aggregation) (v w : nat) : Prop :=
  exists c, a_cmap a !! v = Some c /\ a_cmap a !! w = Some c.
Definition adjacent (g : graph) (v w : nat) : Prop := exists x, (w, x) ∈ out g v \/ (v, x) ∈ out g w.

(** Weight of the directed edges from the vertices labelled c to those labelled d. *)
Definition between {L} `{EqDecision L} (g : graph) (f : nat -> L) (c d : L) : Z :=
  sumn (nv g) (fun u => sumn (nv g) (fun v => if decide (f u = c /\ f v = d) then W g u v else 0%Z)).
(** The coarse vertex of v, and the group labelling of the fine graph. *)
Definition group_of (a : aggregation) (v : nat) : nat := nth v (a_cmap a) 0.
