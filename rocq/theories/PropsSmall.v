(** * PropsSmall: the library divides small graphs evenly (C57). *)
From Coq Require Import ZArith.
From Verif Require Import Base F64 ModelGraph ModelPartition ModelAgg ModelMultilevel ModelBisect ModelRecursive ModelApi Spec Logic Sums GraphFacts BisectFacts MultilevelFacts
  Examples RecFacts TargetFacts LabelFacts ApiFacts TreeFacts PropsTarget PropsApi PropsTree BalanceFacts SmallFacts.
#[local] Arguments seq : simpl nomatch.

(** ** C57: graphs of at most twenty vertices of weight one (weights given as ones or absent),
    and a number of parts that divides the number of vertices: the call succeeds and every part
    gets exactly the same number of vertices. *)
Theorem C57_small_graphs_even : forall lg n prefix adj vw ew k o s g, log2_spec lg -> valid_csr n prefix adj vw ew ->
  graph_of_csr prefix adj vw ew = Ok g -> undirected g -> 1 <= n <= 20 -> (forall v, v < n -> vweight g v = 1%Z) ->
  (Z.of_nat (length adj) < 2 ^ 32)%Z -> 2 <= k -> n mod k = 0 ->
  (o_scheme o = 0 \/ o_scheme o = 1)%Z -> (1 <= o_num_cuts o)%Z ->
  exists r s' labels, part_graph_recursive lg prefix adj vw ew k (Some o) s = Ok (r, s') /\ r_ret r = 1%Z /\ r_labels r = Some labels /\
    length labels = n /\ forall i, i < k -> length (filter (fun v => labels !! v = Some (Some i)) (seq 0 n)) = n / k.
Proof.
  intros lg n prefix adj vw ew k o s g Hlg HC Eg Hud Hn Hone Hne Hk Hmod Ho Hcuts.
  destruct (graph_of_csr_ok _ _ _ _ _ HC) as (g' & Eg' & Hwf & _ & Hadj & Hv & _ & Hnv & Ht & _). rewrite Eg in Eg'. injection Eg' as <-.
  assert (exists bis, api_bisector (o_scheme o) = Ok bis) as [bis Eb].
  { unfold api_bisector, aggregator_make. destruct Ho as [-> | ->]; cbn; eauto. }
  assert (Hsum : sumn (nv g) (vweight g) = Z.of_nat n) by (rewrite unit_sum; [by rewrite Hnv|intros v Hlt; apply Hone; lia]).
  assert (HT : g_tvw g = Z.of_nat n) by (rewrite (wf_tvw _ Hwf), Hsum; apply u32_small; unfold W32; lia).
  pose proof (Nat.div_mod n k ltac:(lia)) as HD. rewrite Hmod, Nat.add_0_r in HD. set (c := n / k) in *.
  assert (Hc : 1 <= c) by (destruct c; [rewrite Nat.mul_0_r in HD; lia|lia]). assert (Hk2 : k <= 20) by nia.
  assert (Hk3 : (Z.of_nat k < 4294967296)%Z) by lia. destruct (api_target k (g_tvw g) Hk Hk3) as (t & Et & Hnp & Hs & H1 & H2); [rewrite HT; unfold W32; lia|].
  rewrite HT in Et. destruct (small_target_of n k t ltac:(lia) ltac:(lia) Hmod Et) as [Ew Em]. fold c in Ew, Em.
  assert (HI : small_inv c t g).
  { constructor; [done|unfold ne; by rewrite Hadj|intros v Hlt; apply Hone; lia|rewrite Hnv, Hnp; done|done|lia|by rewrite Hnp|by rewrite Hnp]. }
  pose proof (small_handed lg Hlg (o_scheme o) bis Eb c) as HH.
  assert (HW : wpm (mfold (fun st (_ : nat) => do! p := rb_execute lg bis t g in ret (keep_best st p)) None (seq 0 (Z.to_nat (o_num_cuts o)))) never (fun _ => True)).
  { apply (mfold_inv (fun _ => True)); [done|]. intros a st _ _. eapply wpm_bind; [|intros p _; by apply wpm_ret].
    eapply wpm_post; [eapply rb_execute_wp; [exact HH|done|done|lia]|]. intros; exact I. }
  assert (exists r s', part_graph_recursive lg prefix adj vw ew k (Some o) s = Ok (r, s')) as (r & s' & E).
  { rewrite (call_eq _ _ _ _ _ _ _ _ HC). rewrite Eg, Eb. unfold mbindM, lift. cbn [obind fst snd]. rewrite HT, Et. cbn [obind fst snd].
    specialize (HW s). unfold mbindM in HW. destruct (mfold _ None _ s) as [[best s1]|f]; cbn in *; [eauto|done]. }
  exists r, s'.
  destruct (call_runs _ _ _ _ _ _ _ _ _ _ _ HC E) as (g1 & bis1 & t1 & Ps & (Eg1 & Eb1 & Et1) & _ & HR & HL & ->).
  rewrite Eg in Eg1. injection Eg1 as <-. rewrite Eb in Eb1. injection Eb1 as <-. rewrite HT, Et in Et1. injection Et1 as <-.
  set (good := fun P => length (p_where P) = n /\ forall i, i < k -> length (filter (fun v => p_where P !! v = Some (Some i)) (seq 0 n)) = c).
  assert (HG : wpm (rb_execute lg bis t g) anyf good).
  { intros cs. destruct (rb_execute lg bis t g cs) as [[P cs']|f] eqn:Er; [|done]. cbn [wpo fst].
    destruct (rb_execute_tree lg bis t g cs P cs' Hwf ltac:(lia)) as (l & ps & HTr & HLab & [[HPl _] _] & _); [|done|].
    { intros t' tol bt gg cs1 p cs1' Ebt Hwg Ep. pose proof (bisect_target_two _ _ _ Ebt) as Htw.
      exact (wpm_elim _ _ _ _ _ _ (api_bisector_lab (o_scheme o) bis bt gg Eb (tw_wgt _ Htw)) Ep). }
    split; [by rewrite HPl|]. intros i Hi. pose proof (small_tree lg Hlg (o_scheme o) bis Eb c t g l ps cs cs' HTr HI i ltac:(lia)) as HP.
    apply Nat2Z.inj. rewrite <- HP. unfold in_part. rewrite <- (Z.mul_1_l (Z.of_nat _)), <- sumf_const, sumf_filter, Hnv. apply sumf_ext. intros v Hlt%elem_of_seq.
    assert (Hvl : p_where P !! v = Some (Some (l v))).
    { rewrite <- (HLab v ltac:(lia)). unfold lab. apply lookup_nth. lia. }
    rewrite Hvl. repeat case_decide; congruence. }
  pose proof (runs_all _ _ _ _ _ HG HR) as HF. pose proof (keep_best_first Ps) as HB.
  destruct (fold_left keep_best Ps None) as [b|]; [|subst Ps; cbn in HL; lia].
  destruct HB as (P & (i & Hi & _) & ->). rewrite Forall_lookup in HF. destruct (HF i P Hi) as [G1 G2].
  exists (p_where P). split; [exact E|]. split; [done|]. split; [done|]. split; [done|]. exact G2.
Qed.
Print Assumptions C57_small_graphs_even.
(** A cycle of twenty vertices in five parts, weights absent. *)
Example C57_nonvacuous : exists g, valid_csr 20 (ring_prefix 20) (ring_adj 20) None None /\ graph_of_csr (ring_prefix 20) (ring_adj 20) None None = Ok g /\ undirected g /\ (forall v, v < 20 -> vweight g v = 1%Z) /\ exists r s', part_graph_recursive floor_log2 (ring_prefix 20) (ring_adj 20) None None 5 (Some some_options) [] = Ok (r, s') /\ r_cut r = Some 5%Z.
Proof.
  assert (HC : valid_csr 20 (ring_prefix 20) (ring_adj 20) None None) by (apply csrb_sound; vm_compute; reflexivity).
  destruct (graph_of_csr_ok _ _ _ _ _ HC) as (g & Eg & Hwf & _). exists g. split; [done|]. split; [done|].
  assert (g = the_graph (ring_prefix 20) (ring_adj 20) None None) as -> by (unfold the_graph; by rewrite Eg).
  split; [split; [done|apply symb_sound; vm_compute; reflexivity|apply looplessb_sound; vm_compute; reflexivity|eapply fits_compute; vm_compute; reflexivity]|].
  split; [intros v _; unfold vweight, the_graph; rewrite Eg; destruct (graph_of_csr_ok _ _ _ _ _ HC) as (g' & Eg' & _ & _ & _ & Hv & _); rewrite Eg in Eg'; injection Eg' as <-; rewrite Hv; done|].
  eexists _, _. split; [vm_compute; reflexivity|]. vm_compute. reflexivity.
Qed.
(** Larger graphs of unit weight are not always divided evenly, even when
    they could be: a cycle of thirty vertices in two parts gets fourteen
    vertices in one part and sixteen in the other. *)
Theorem C57_larger_refuted : let vw := Some (replicate 30 1%Z) in valid_csr 30 (ring_prefix 30) (ring_adj 30) vw None /\
  exists o r s' w, part_graph_recursive floor_log2 (ring_prefix 30) (ring_adj 30) vw None 2 (Some o) [] = Ok (r, s') /\ r_labels r = Some w /\
    length (filter (fun v => w !! v = Some (Some 0)) (seq 0 30)) = 14 /\ length (filter (fun v => w !! v = Some (Some 1)) (seq 0 30)) = 16.
Proof.
  intros vw. split; [apply csrb_sound; vm_compute; reflexivity|]. exists some_options.
  eexists _, _, _. split; [vm_compute; reflexivity|]. split; [reflexivity|]. split; vm_compute; reflexivity.
Qed.
Print Assumptions C57_larger_refuted.
