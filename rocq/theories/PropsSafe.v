(** * PropsSafe: the top-level call on EVERY valid CSR input - C03 and C09 without assuming that
    the graph is undirected (asymmetric adjacency, self loops, any 32-bit weights). *)
From Coq Require Import ZArith Reals Floats.SpecFloat Psatz.
From Verif Require Import Base F64 ModelGraph ModelBuilders ModelPartition ModelConn ModelFM ModelAgg ModelMultilevel ModelBisect ModelRecursive ModelApi
  Spec Logic Sums GraphFacts Examples FloatFacts FloatUse BisectFacts MultilevelFacts SubFacts RecFacts LabelFacts TargetFacts PropsTarget ApiFacts PropsApi
  SafeFM SafeML SafeApi.
Local Open Scope nat_scope.
Local Close Scope R_scope.

Lemma call_safe (E : failure -> Prop) lg n prefix adj vw ew k o s g : E (UB SignedOverflow) -> E (UB EmptyRange) -> E (UB NoWeights) ->
  log2_spec lg -> valid_csr n prefix adj vw ew ->
  graph_of_csr prefix adj vw ew = Ok g -> loopless g \/ E (UB Uninit) -> (Z.of_nat n < 2 ^ 32)%Z -> (Z.of_nat (length adj) < 2 ^ 32)%Z ->
  2 <= k -> (Z.of_nat k < 2 ^ 32)%Z -> (o_scheme o = 0 \/ o_scheme o = 1)%Z ->
  match part_graph_recursive lg prefix adj vw ew k (Some o) s with
  | Ok (r, _) => r_ret r = 1%Z
  | Fail f => E f
  end.
Proof.
  intros HE1 HE2 HE3 Hlg HC Eg Hlo Hn Hne Hk Hk2 Ho.
  destruct (graph_of_csr_ok _ _ _ _ _ HC) as (g' & Eg' & Hwf & _ & Hadj & _ & _ & Hnv & Ht & _). rewrite Eg in Eg'. injection Eg' as <-.
  assert (exists bis, api_bisector (o_scheme o) = Ok bis) as [bis Eb].
  { unfold api_bisector, aggregator_make. destruct Ho as [-> | ->]; cbn; eauto. }
  destruct (api_target k (g_tvw g) Hk Hk2) as (t & Et & Hnp & Hs & H1 & H2).
  { rewrite (wf_tvw _ Hwf). unfold u32. apply Z.mod_pos_bound. done. }
  rewrite (call_eq _ _ _ _ _ _ _ _ HC). rewrite Eg, Eb. unfold mbindM, lift. cbn [obind fst snd]. rewrite Et. cbn [obind fst snd].
  assert (HI : safe_inv E t g).
  { split; [done|done|unfold ne; by rewrite Hadj|by rewrite Hnv|done| |]; by rewrite Hnp. }
  assert (HW : wpm (mfold (fun st (_ : nat) => do! p := rb_execute lg bis t g in ret (keep_best st p)) None (seq 0 (Z.to_nat (o_num_cuts o)))) E (fun _ => True)).
  { apply (mfold_inv (fun _ => True)); [done|]. intros a st _ _. eapply wpm_bind; [|intros p _; by apply wpm_ret].
    eapply wpm_post; [eapply rb_execute_wp; [by eapply safe_handed|exact HI|done|lia]|]. intros; exact I. }
  specialize (HW s). unfold mbindM in HW. destruct (mfold _ None _ s) as [[best s1]|f]; cbn in *; [done|exact HW].
Qed.

(** ** C03 on every valid CSR input: no out-of-bounds access, no exception, no non-termination;
    only these four kinds of undefined behaviour, and without self loops only three. *)
Theorem C03_every_graph_partial : forall lg n prefix adj vw ew k o s, log2_spec lg -> valid_csr n prefix adj vw ew ->
  (Z.of_nat n < 2 ^ 32)%Z -> (Z.of_nat (length adj) < 2 ^ 32)%Z ->
  2 <= k -> (Z.of_nat k < 2 ^ 32)%Z -> (o_scheme o = 0 \/ o_scheme o = 1)%Z ->
  match part_graph_recursive lg prefix adj vw ew k (Some o) s with
  | Ok (r, _) => r_ret r = 1%Z
  | Fail f => f = UB EmptyRange \/ f = UB NoWeights \/ f = UB SignedOverflow \/
      (f = UB Uninit /\ exists v i, nth v prefix 0 <= i < nth (S v) prefix 0 /\ adj !! i = Some v)
  end.
Proof.
  intros lg n prefix adj vw ew k o s Hlg HC Hn Hne Hk Hk2 Ho.
  destruct (graph_of_csr_ok _ _ _ _ _ HC) as (g & Eg & Hwf & Hp & Hadj & _ & _ & Hnv & Ht & _).
  refine (call_safe (fun f => f = UB EmptyRange \/ f = UB NoWeights \/ f = UB SignedOverflow \/
      (f = UB Uninit /\ exists v i, nth v prefix 0 <= i < nth (S v) prefix 0 /\ adj !! i = Some v)) lg n prefix adj vw ew k o s g _ _ _ Hlg HC Eg _ Hn Hne Hk Hk2 Ho);
    [tauto..|].
  destruct (decide (Exists (fun v => Exists (fun i => adj !! i = Some v) (seq (nth v prefix 0) (nth (S v) prefix 0 - nth v prefix 0))) (seq 0 n))) as [H|H].
  - right. right. right. right. split; [done|]. apply Exists_exists in H as (v & _ & H). apply Exists_exists in H as (i & Hi & H).
    apply elem_of_seq in Hi. exists v, i. split; [lia|done].
  - left. intros u v w Hu Hin ->. apply H. apply Exists_exists. exists u. split; [apply elem_of_seq; lia|]. apply Exists_exists.
    unfold out, pre_at in Hin. apply elem_of_list_fmap in Hin as (e & [= He _] & Hs). rewrite Hp in Hs. rewrite Hadj in He. exists e. split; [done|].
    apply elem_of_seq in Hs.
    assert (e < length adj).
    { rewrite <- Hadj. apply (edge_in_range g Hwf u e Hu). apply elem_of_seq. unfold pre_at. rewrite Hp. lia. }
    rewrite He. by apply list_lookup_lookup_total_lt || (rewrite nth_lookup; destruct (lookup_lt_is_Some_2 adj e ltac:(done)) as [x ->]; done).
Qed.
Print Assumptions C03_every_graph_partial.
(** Both new failures occur: 60 vertices whose only edges are self loops, and a ring of 60
    vertices whose edges alternate between weight 1 and weight 2^31. *)
Definition ring_alternating (n : nat) : list Z := seq 0 n ≫= (fun i => if Nat.even i then [1; 2147483648]%Z else [2147483648; 1]%Z).
Theorem C03_every_graph_refuted :
  (valid_csr 60 (seq 0 61) (seq 0 60) (Some (replicate 60 2%Z)) None /\
   part_graph_recursive floor_log2 (seq 0 61) (seq 0 60) (Some (replicate 60 2%Z)) None 2 (Some some_options) [] = Fail (UB Uninit)) /\
  (valid_csr 60 (ring_prefix 60) (ring_adj 60) (Some (replicate 60 2%Z)) (Some (ring_alternating 60)) /\
   part_graph_recursive floor_log2 (ring_prefix 60) (ring_adj 60) (Some (replicate 60 2%Z)) (Some (ring_alternating 60)) 2 (Some some_options) [] = Fail (UB SignedOverflow)).
Proof. split; (split; [apply csrb_sound; vm_compute; reflexivity|vm_compute; reflexivity]). Qed.
Print Assumptions C03_every_graph_refuted.
(** A directed graph (a cycle of 60 vertices, no reverse edges) and a graph with a self loop
    that are partitioned without failure. *)
Example C03_every_graph_nonvacuous :
  (valid_csr 60 (seq 0 61) (seq 1 59 ++ [0]) (Some (replicate 60 2%Z)) None /\
   exists r s', part_graph_recursive floor_log2 (seq 0 61) (seq 1 59 ++ [0]) (Some (replicate 60 2%Z)) None 2 (Some some_options) [3; 1; 4] = Ok (r, s')) /\
  (valid_csr 4 [0; 1; 3; 5; 7] [1; 0; 2; 1; 3; 3; 2] (Some (replicate 4 2%Z)) None /\
   exists r s', part_graph_recursive floor_log2 [0; 1; 3; 5; 7] [1; 0; 2; 1; 3; 3; 2] (Some (replicate 4 2%Z)) None 2 (Some some_options) [3; 1; 4] = Ok (r, s')).
Proof. split; (split; [apply csrb_sound; vm_compute; reflexivity|]); eexists _, _; vm_compute; reflexivity. Qed.

(** ** C09 on every valid CSR input: every call ends, for every scheme, number of cuts, number
    of parts (at least 2) and stream of random choices. *)
Theorem C09_terminates_every_graph : forall lg n prefix adj vw ew k o s, log2_spec lg -> valid_csr n prefix adj vw ew ->
  (Z.of_nat n < 2 ^ 32)%Z -> (Z.of_nat (length adj) < 2 ^ 32)%Z ->
  2 <= k -> (Z.of_nat k < 2 ^ 32)%Z -> part_graph_recursive lg prefix adj vw ew k (Some o) s <> Fail OutOfFuel.
Proof.
  intros lg n prefix adj vw ew k o s Hlg HC Hn Hne Hk Hk2 E.
  destruct (decide (o_scheme o = 0 \/ o_scheme o = 1)%Z) as [Ho|Ho].
  - pose proof (C03_every_graph_partial lg n prefix adj vw ew k o s Hlg HC Hn Hne Hk Hk2 Ho) as H. rewrite E in H.
    destruct H as [H|[H|[H|[H _]]]]; done.
  - rewrite (proj1 C07_refuted lg n) in E; [done|done| |]; tauto.
Qed.
Print Assumptions C09_terminates_every_graph.
