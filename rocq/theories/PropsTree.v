(** * PropsTree: a k-way partitioning is the tree of its bisections (C53).

    [tree lg bis t g l ps s s'] (TreeFacts.v) describes recursive bisection without its
    bookkeeping: bisect g; if one side gets more than one label, do the same with the subgraph
    induced by that side; the labels of side 0 come first.  ps lists the bisections made. *)
From Coq Require Import ZArith.
From Verif Require Import Base F64 ModelGraph ModelPartition ModelMultilevel ModelRecursive ModelApi Spec Logic Sums GraphFacts PartFacts
  SubFacts RecFacts BisectFacts TargetFacts LabelFacts ApiFacts TreeFacts Examples PropsMultilevel PropsRecursive PropsTarget PropsApi.
#[local] Arguments seq : simpl nomatch.

Lemma rb_execute_tree lg bis t g s P s' : wf_graph g -> 2 <= t_np t ->
  (forall t' tol bt g' cs p cs', bisect_target t' tol = Ok bt -> wf_graph g' -> bis bt g' cs = Ok (p, cs') -> two_labels g' p) ->
  rb_execute lg bis t g s = Ok (P, s') ->
  exists l ps, tree lg bis t g l ps s s' /\ (forall v, v < nv g -> lab P v = Some (l v)) /\ valid_part (t_np t) g P /\
    (symmetric g -> fits g -> exact_part (t_np t) g P).
Proof.
  intros Hwf Hk Hb E. rewrite rb_execute_eq in E. apply mbind_inv in E as (ls & s1 & E1 & E2). apply lift_inv in E2 as [E2 ->].
  destruct (rb_recurse_tree lg bis Hb (nv g) (S (t_np t)) t (MWrap g) 0 (alloc (nv g)) s ls s1 Hk (wrap_ok g Hwf)) as (l & ps & HT & L1 & L2 & L3).
  - unfold alloc. by rewrite replicate_length.
  - done.
  - cbn [m_graph] in HT. pose proof (tree_bound _ _ _ _ _ _ _ _ HT) as HB.
    assert (L3' : forall v, v < nv g -> ls !! v = Some (Some (l v))). { intros v Hv. apply (L3 v v). cbn. by rewrite lookup_seq_lt. }
    pose proof (rb_finish_wp anyf t g ls (alloc (nv g)) Hwf) as HF. rewrite E2 in HF. cbn [wpo] in HF.
    destruct HF as (Hw & Hv & Hx).
    { split; [done|]. split; [done|]. intros x Hx. cbn in Hx. apply elem_of_seq in Hx. exists (l x). split; [apply L3'; lia|]. specialize (HB x). lia. }
    exists l, ps. split; [done|]. split; [|done]. intros v Hvv. unfold lab. rewrite Hw. apply nth_lt_eq. by apply L3'.
Qed.

(** For any bisector that labels with 0 and 1: a k-way partitioning is a tree of k - 1
    bisections, each of the subgraph induced by a side of the one above, and its cut is the sum
    of theirs. *)
Theorem C53_bisection_tree : forall lg (bis : bisector) t g s P s', wf_graph g -> 2 <= t_np t ->
  (forall t' g' cs p cs', wf_graph g' -> bis t' g' cs = Ok (p, cs') -> length (p_pw p) = 2 /\ labels_ok 2 (nv g') (p_where p)) ->
  rb_execute lg bis t g s = Ok (P, s') ->
  exists l ps, tree lg bis t g l ps s s' /\ length ps = t_np t - 1 /\ (forall v, v < nv g -> lab P v = Some (l v) /\ l v < t_np t) /\
    (symmetric g -> edge_cut g (lab P) = sumf (fun gp => edge_cut (fst gp) (lab (snd gp))) ps).
Proof.
  intros lg bis t g s P s' Hwf Hk Hb E.
  destruct (rb_execute_tree lg bis t g s P s' Hwf Hk) as (l & ps & HT & HL & _); [|done|].
  { intros t' tol bt g' cs p cs' _ Hg Ep. by eapply Hb. }
  exists l, ps. split; [done|]. split; [by eapply tree_count|]. split.
  - intros v Hv. split; [by apply HL|]. by eapply tree_bound.
  - intros Hs. rewrite <- (tree_cut _ _ _ _ _ _ _ _ HT Hwf Hs). unfold edge_cut. apply sumf_ext. intros u Hu%elem_of_seq. apply sumf_ext. intros v Hv%elem_of_seq.
    rewrite !HL by lia. destruct (decide (l u = l v)) as [El|El].
    + rewrite decide_True by congruence. done.
    + rewrite decide_False by congruence. done.
Qed.
Print Assumptions C53_bisection_tree.

(** The call: the cut it reports is the sum of the cuts of k - 1 bisections, whose labels it
    returns. *)
Theorem C53_call : forall lg n prefix adj vw ew k o s r s' g, valid_csr n prefix adj vw ew -> 2 <= k -> (1 <= o_num_cuts o)%Z ->
  graph_of_csr prefix adj vw ew = Ok g -> symmetric g -> fits g ->
  part_graph_recursive lg prefix adj vw ew k (Some o) s = Ok (r, s') ->
  exists bis t l ps s1 s2, setup prefix adj vw ew k (o_scheme o) g bis t /\ tree lg bis t g l ps s1 s2 /\ length ps = k - 1 /\
    r_labels r = Some ((fun v => Some (l v)) <$> seq 0 n) /\
    r_cut r = Some (sumf (fun gp => edge_cut (fst gp) (lab (snd gp))) ps).
Proof.
  intros lg n prefix adj vw ew k o s r s' g HC Hk Hm Eg0 Hs Hf E.
  destruct (call_runs _ _ _ _ _ _ _ _ _ _ _ HC E) as (g1 & bis & t & Ps & HS & Hnp & HR & HL & ->). pose proof HS as (Eg & Eb & Et).
  rewrite Eg0 in Eg. injection Eg as <-.
  destruct (graph_of_csr_ok _ _ _ _ _ HC) as (g' & Eg' & Hwf & _ & _ & _ & _ & Hn & _). rewrite Eg0 in Eg'. injection Eg' as <-.
  pose proof (keep_best_first Ps) as HB. destruct (fold_left keep_best Ps None) as [b|]; [|subst Ps; cbn in HL; lia].
  destruct HB as (P & (i & Hi & _) & ->).
  assert (exists s1 s2, rb_execute lg bis t g s1 = Ok (P, s2)) as (s1 & s2 & EP).
  { clear -HR Hi. revert i Hi. induction HR as [|s Q s1 Ps s' HQ _ IH]; intros [|i] Hi; try done.
    - injection Hi as ->. eauto.
    - by eapply IH. }
  destruct (rb_execute_tree lg bis t g s1 P s2 Hwf ltac:(lia)) as (l & ps & HT & HLl & Hv & Hx); [|done|].
  { intros t' tol bt g'' cs p cs' Hbt _ Ep. pose proof (api_bisector_lab _ _ bt g'' Eb (tw_wgt _ (bisect_target_two _ _ _ Hbt))) as HW.
    exact (wpm_elim _ _ _ _ _ _ HW Ep). }
  exists bis, t, l, ps, s1, s2. split; [done|]. split; [done|]. split; [rewrite <- Hnp; by eapply tree_count|].
  cbn [r_labels r_cut part_output fst snd fmap option_fmap option_map]. split.
  - f_equal. apply list_eq. intros v. rewrite list_lookup_fmap. destruct Hv as [[Hlen _] _]. destruct (decide (v < n)) as [Hvn|Hvn].
    + rewrite lookup_seq_lt by done. cbn. rewrite <- (HLl v) by lia. unfold lab. apply lookup_nth. lia.
    + rewrite !lookup_ge_None_2; [done|rewrite seq_length; lia|lia].
  - f_equal. destruct (Hx Hs Hf) as [_ Hc]. rewrite <- (tree_cut _ _ _ _ _ _ _ _ HT Hwf Hs). rewrite Hc.
    unfold edge_cut. apply sumf_ext. intros u Hu%elem_of_seq. apply sumf_ext. intros v Hvv%elem_of_seq.
    rewrite !HLl by lia. destruct (decide (l u = l v)) as [El|El].
    + rewrite decide_True by congruence. done.
    + rewrite decide_False by congruence. done.
Qed.
Print Assumptions C53_call.
(** A cycle of 24 vertices in five parts: four bisections. *)
Example C53_nonvacuous : wf_graph (ring 24) /\ symmetric (ring 24) /\
  exists P s', rb_execute (fun _ => f_one) halver (target_of_weights [10; 10; 9; 9; 10] [10; 10; 10; 10; 11])%Z (ring 24) [] = Ok (P, s') /\
    edge_cut (ring 24) (lab P) = 5%Z.
Proof.
  split; [apply ring24|]. split; [apply ring24|]. eexists _, _. split; [vm_compute; reflexivity|]. vm_compute. reflexivity.
Qed.
Example C53_call_nonvacuous : valid_csr 30 (ring_prefix 30) (ring_adj 30) (Some (replicate 30 2%Z)) None /\
  exists r s', part_graph_recursive floor_log2 (ring_prefix 30) (ring_adj 30) (Some (replicate 30 2%Z)) None 4 (Some some_options) [] = Ok (r, s') /\ exists c, r_cut r = Some c /\ (4 <= c)%Z.
Proof.
  split; [apply csrb_sound; vm_compute; reflexivity|]. eexists _, _. split; [vm_compute; reflexivity|]. eexists. split; [reflexivity|]. vm_compute. discriminate.
Qed.
