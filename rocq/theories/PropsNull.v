(** * PropsNull: absent weight arrays stand for weights of one (C54). *)
From Coq Require Import ZArith.
From Verif Require Import Base F64 ModelGraph ModelApi Spec Logic NullFacts Examples PropsTarget PropsApi.
#[local] Arguments seq : simpl nomatch.

(** NULL edge weights: the call does exactly what it does with an array of ones (of at least
    the length the call reads), whatever the other arguments, including its failures. *)
Theorem C54_null_edge_weights : forall lg prefix adj vw k opts s N, length adj <= N ->
  part_graph_recursive lg prefix adj vw None k opts s = part_graph_recursive lg prefix adj vw (Some (replicate N 1%Z)) k opts s.
Proof.
  intros lg prefix adj vw k [o|] s N HN; [|done]. rewrite !call_shape.
  destruct (rd prefix (length prefix - 1)) as [m|]; [|done]. 
  destruct (Nat.ltb (length adj) m); [done|]. pose proof (csr_ew prefix (take m adj) vw N) as HC. rewrite take_length in HC. specialize (HC ltac:(lia)).
  destruct (graph_of_csr prefix (take m adj) vw None) as [g|f].
  - destruct HC as (g' & -> & H1 & H2). apply le_both; by apply after_agree.
  - rewrite HC. done.
Qed.
Print Assumptions C54_null_edge_weights.
(** NULL vertex weights: the same, unless the call reads the absent array (C03, C33). *)
Theorem C54_null_vertex_weights : forall lg prefix adj ew k opts s N, length prefix - 1 <= N ->
  part_graph_recursive lg prefix adj None ew k opts s = Fail (UB NoWeights) \/
  part_graph_recursive lg prefix adj None ew k opts s = part_graph_recursive lg prefix adj (Some (replicate N 1%Z)) ew k opts s.
Proof.
  intros lg prefix adj ew k [o|] s N HN; [|by right]. rewrite !call_shape.
  destruct (rd prefix (length prefix - 1)) as [m|]; [|by right].
  destruct (Nat.ltb (length adj) m); [by right|]. pose proof (csr_vw prefix (take m adj) ew N HN) as HC.
  destruct (graph_of_csr prefix (take m adj) None ew) as [g|f].
  - destruct HC as (g' & -> & H1). exact (after_agree lg g g' k o H1 s).
  - rewrite HC. by right.
Qed.
Print Assumptions C54_null_vertex_weights.
(** Together: a call with both arrays absent that returns has the result of the call with ones. *)
Theorem C54_null_weights : forall lg prefix adj k opts s r s' N M, length prefix - 1 <= N -> length adj <= M ->
  part_graph_recursive lg prefix adj None None k opts s = Ok (r, s') ->
  part_graph_recursive lg prefix adj (Some (replicate N 1%Z)) (Some (replicate M 1%Z)) k opts s = Ok (r, s').
Proof.
  intros lg prefix adj k opts s r s' N M HN HM E. destruct (C54_null_vertex_weights lg prefix adj None k opts s N HN) as [E'|E'].
  - rewrite E in E'. discriminate.
  - rewrite <- C54_null_edge_weights by done. rewrite <- E'. exact E.
Qed.
Print Assumptions C54_null_weights.
Example C54_nonvacuous : exists r s', part_graph_recursive floor_log2 (ring_prefix 24) (ring_adj 24) None None 2 (Some some_options) [] = Ok (r, s') /\ exists c, r_cut r = Some c /\ (2 <= c)%Z.
Proof. eexists _, _. split; [vm_compute; reflexivity|]. eexists. split; [reflexivity|]. vm_compute. discriminate. Qed.
(** The exception is real: a cycle of three vertices in two parts. *)
Theorem C54_exception_occurs : exists s r s', part_graph_recursive floor_log2 (ring_prefix 3) (ring_adj 3) None None 2 (Some default_options) s = Fail (UB NoWeights) /\
  part_graph_recursive floor_log2 (ring_prefix 3) (ring_adj 3) (Some [1; 1; 1]%Z) None 2 (Some default_options) s = Ok (r, s').
Proof. exists []. eexists _, _. split; vm_compute; reflexivity. Qed.
Print Assumptions C54_exception_occurs.
