(** * PropsTwo: two parts of EVERY valid CSR input, with and without weights (C03, C54, C62). *)
From Coq Require Import ZArith Reals Floats.SpecFloat Psatz.
From Verif Require Import Base F64 ModelGraph ModelBuilders ModelPartition ModelConn ModelFM ModelAgg ModelMultilevel ModelBisect ModelRecursive ModelApi
  Spec Logic Sums GraphFacts Examples AggFacts ContractFacts ProjectFacts FloatFacts FloatUse BisectFacts MultilevelFacts SubFacts RecFacts LabelFacts TargetFacts PropsTarget ApiFacts PropsApi
  SafeFM SafeML SafeApi PropsSafe PropsNull.
Local Open Scope nat_scope.
Local Close Scope R_scope.

(** A graph that is coarsened before it is bisected: its weight array is not read where one is
    not given, because the graphs the builder makes have one. *)
Section Big.
  Context (g : graph) (Hwf : wf_graph g) (Hne : (Z.of_nat (ne g) < W32)%Z) (Hnv : (Z.of_nat (nv g) < W32)%Z) (Hbig : 20 < nv g) (Hed : 0 < ne g).
  Context (E : failure -> Prop) (HE : E (UB SignedOverflow)) (Hloops : loopless g \/ E (UB Uninit)).
  Context (t : target) (Ht : two_way t).
  Lemma first_level : composite_stop [vertex_number_stop 20; edge_ratio_stop f_0_95] 0 None (Some g) = Ok false.
  Proof.
    cbn [composite_stop]. unfold vertex_number_stop. cbn [obind].
    destruct (Nat.leb_spec (nv g) 20); [lia|]. unfold edge_ratio_stop. cbn [Nat.ltb Nat.leb andb]. destruct (Nat.eqb_spec (ne g) 0); [lia|]. reflexivity.
  Qed.
  Lemma big_execute scheme agg nb it mv : aggregator_make scheme = Ok agg -> (1 <= nb)%Z ->
    wpm (ml_execute agg (multi_execute nb bfs_execute) (fm_refine it mv) t g) E (two_labels g).
  Proof.
    intros Hagg Hnb. destruct (ml_max_weight_ok g) as (mw & Emw & _).
    { rewrite (wf_tvw _ Hwf). unfold u32. apply Z.mod_pos_bound. done. }
    unfold ml_execute. rewrite ml_criteria_eq. apply wpm_liftk. rewrite Emw. apply wpm_liftk.
    eapply wpm_bind with (P := fun r => two_labels g (snd r)); [|intros r Hr; by apply wpm_ret].
    cbn [ml_recurse]. rewrite first_level. apply wpm_liftk.
    eapply wpm_bind with (P := coarsening (nv g)).
    { destruct Hloops as [Hl|Hl]; [by eapply aggregator_make_wp|by eapply aggregator_weak]. }
    intros a Hco. pose proof Hco as [Hg Hle]. destruct (coarse_make_ok g a Hwf Hg) as (cg & Ecg & Hcg). rewrite Ecg. apply wpm_liftk. cbn [cg_coarse].
    assert (Hpos : 0 < nv cg) by (rewrite (co_nv _ _ _ Hcg); pose proof (group_lt g a Hg 0 ltac:(lia)); lia).
    assert (HCE : ne cg <= ne g) by (exact (coarse_edges g a cg Hwf Hg Hcg)).
    assert (HS : slevel cg E cg).
    { constructor; [apply Hcg|lia|lia|done|left; apply Hcg|]. intros f (_ & Hu & _). assert (g_uvw cg = false) by apply Hcg. congruence. }
    eapply wpm_bind.
    - eapply (ml_recurse_safe cg); try done. all: try (split; [|done]). all: try lia. rewrite (co_nv _ _ _ Hcg). lia.
    - intros [cc cp] (HX & HC). cbn [fst snd] in *.
      eapply wpm_bind; [apply wpm_lift; apply (project_safe g Hwf a Hg cg Hcg); [done|apply HC]|].
      intros [fc fp] (P1 & P2). cbn [fst snd] in *. destruct (max_bad_moves_ok mv (nv g) ltac:(lia)) as [mb Hmb].
      eapply wpm_post; [eapply fm_refine_safe; eauto; [by rewrite (tw_frac t Ht)|by rewrite (tw_max t Ht)]|]. intros r Hr. apply Hr.
  Qed.
End Big.

(** Any property of failures that contains the ones listed. *)
Lemma two_parts_safe (E : failure -> Prop) lg n prefix adj vw ew o s g : E (UB SignedOverflow) -> (vw = None -> n <= 20 \/ length adj = 0 -> E (UB NoWeights)) ->
  log2_spec lg -> valid_csr n prefix adj vw ew -> 0 < n ->
  graph_of_csr prefix adj vw ew = Ok g -> loopless g \/ E (UB Uninit) -> (Z.of_nat n < 2 ^ 32)%Z -> (Z.of_nat (length adj) < 2 ^ 32)%Z ->
  (o_scheme o = 0 \/ o_scheme o = 1)%Z ->
  match part_graph_recursive lg prefix adj vw ew 2 (Some o) s with
  | Ok (r, _) => r_ret r = 1%Z
  | Fail f => E f
  end.
Proof.
  intros HE1 HE3 Hlg HC Hn0 Eg Hlo Hn Hne Ho.
  destruct (graph_of_csr_ok _ _ _ _ _ HC) as (g' & Eg' & Hwf & _ & Hadj & Hvw & _ & Hnv & Ht & _). rewrite Eg in Eg'. injection Eg' as <-.
  assert (exists bis, api_bisector (o_scheme o) = Ok bis) as [bis Eb].
  { unfold api_bisector, aggregator_make. destruct Ho as [-> | ->]; cbn; eauto. }
  destruct (api_target 2 (g_tvw g) ltac:(lia) ltac:(done)) as (t & Et & Hnp & Hs & H1 & H2).
  { rewrite (wf_tvw _ Hwf). unfold u32. apply Z.mod_pos_bound. done. }
  rewrite (call_eq _ _ _ _ _ _ _ _ HC). rewrite Eg, Eb. unfold mbindM, lift. cbn [obind fst snd]. rewrite Et. cbn [obind fst snd]. clear Et.
  assert (Hne' : ne g = length adj) by (unfold ne; by rewrite Hadj).
  assert (HD : handed_down lg bis E (fun t' g' => sane t' /\ (total (take (t_np t' / 2) (t_max t')) < W32)%Z /\
      (total (drop (t_np t' / 2) (t_max t')) < W32)%Z /\ g' = g /\ t_np t' = 2)).
  { split.
    - intros t' g' (Hs' & Hlo' & Hhi' & -> & Hnp') Hk.
      destruct (C11_succeeds lg t' Hlg Hk Hs' Hlo' Hhi') as [bt Ebt]. rewrite Ebt. cbn.
      pose proof (bisect_target_two _ _ _ Ebt) as Htw.
      unfold api_bisector in Eb. destruct (aggregator_make (o_scheme o)) as [agg|] eqn:Ea; [|done]. cbn in Eb. injection Eb as <-.
      destruct (decide (vw = None /\ (20 < n /\ 0 < length adj))) as [(Hv & Hb1 & Hb2)|Hsm].
      + eapply big_execute; try done; try lia; [by rewrite Hne'|by rewrite Hnv].
      + eapply ml_execute_safe; try done; try lia; [by rewrite Hne'|by rewrite Hnv|]. constructor; try done; try lia.
        intros f (-> & _ & Hv). apply HE3.
        * rewrite Hvw in Hv. destruct vw as [l|]; [|done]. cbn in Hv. destruct (vc_vw _ _ _ _ _ HC l eq_refl) as [Hl _]. subst l. cbn in Hl. lia.
        * destruct (le_lt_dec n 20); [by left|right]. destruct (length adj) eqn:El; [done|]. exfalso. apply Hsm.
          split; [|split; lia]. rewrite Hvw in Hv. destruct vw as [l0|]; [|done]. cbn in Hv. destruct (vc_vw _ _ _ _ _ HC l0 eq_refl) as [Hl _]. subst l0. cbn in Hl. lia.
    - intros t' g' p i sg (_ & _ & _ & _ & Hnp') Hk. lia. }
  assert (HW : wpm (mfold (fun st (_ : nat) => do! p := rb_execute lg bis t g in ret (keep_best st p)) None (seq 0 (Z.to_nat (o_num_cuts o)))) E (fun _ => True)).
  { apply (mfold_inv (fun _ => True)); [done|]. intros a st _ _. eapply wpm_bind; [|intros p _; by apply wpm_ret].
    eapply wpm_post; [eapply rb_execute_wp; [exact HD| |done|lia]|intros; exact I]. cbv beta. split; [exact Hs|]. replace (t_np t) with 2 by (symmetry; exact Hnp). exact (conj H1 (conj H2 (conj eq_refl eq_refl))). }
  specialize (HW s). unfold mbindM in HW. destruct (mfold _ None _ s) as [[best s1]|f]; cbn in *; [done|exact HW].
Qed.

(** ** C03: two parts of every valid CSR input that has a vertex *)
Theorem C03_two_parts_every_graph_partial : forall lg n prefix adj vw ew o s, log2_spec lg -> valid_csr n prefix adj vw ew -> 0 < n ->
  (Z.of_nat n < 2 ^ 32)%Z -> (Z.of_nat (length adj) < 2 ^ 32)%Z -> (o_scheme o = 0 \/ o_scheme o = 1)%Z ->
  match part_graph_recursive lg prefix adj vw ew 2 (Some o) s with
  | Ok (r, _) => r_ret r = 1%Z
  | Fail f => (f = UB NoWeights /\ vw = None /\ (n <= 20 \/ length adj = 0)) \/ f = UB SignedOverflow \/
      (f = UB Uninit /\ exists v i, nth v prefix 0 <= i < nth (S v) prefix 0 /\ adj !! i = Some v)
  end.
Proof.
  intros lg n prefix adj vw ew o s Hlg HC Hn0 Hn Hne Ho.
  destruct (graph_of_csr_ok _ _ _ _ _ HC) as (g & Eg & Hwf & Hp & Hadj & _ & _ & Hnv & Ht & _).
  refine (two_parts_safe (fun f => (f = UB NoWeights /\ vw = None /\ (n <= 20 \/ length adj = 0)) \/ f = UB SignedOverflow \/
      (f = UB Uninit /\ exists v i, nth v prefix 0 <= i < nth (S v) prefix 0 /\ adj !! i = Some v)) lg n prefix adj vw ew o s g _ _ Hlg HC Hn0 Eg _ Hn Hne Ho);
    [tauto|tauto|].
  destruct (decide (Exists (fun v => Exists (fun i => adj !! i = Some v) (seq (nth v prefix 0) (nth (S v) prefix 0 - nth v prefix 0))) (seq 0 n))) as [H|H].
  - right. right. right. split; [done|]. apply Exists_exists in H as (v & _ & H). apply Exists_exists in H as (i & Hi & H).
    apply elem_of_seq in Hi. exists v, i. split; [lia|done].
  - left. intros u v w Hu Hin ->. apply H. apply Exists_exists. exists u. split; [apply elem_of_seq; lia|]. apply Exists_exists.
    unfold out, pre_at in Hin. apply elem_of_list_fmap in Hin as (e & [= He _] & Hs). rewrite Hp in Hs. rewrite Hadj in He. exists e. split; [done|].
    apply elem_of_seq in Hs.
    assert (e < length adj).
    { rewrite <- Hadj. apply (edge_in_range g Hwf u e Hu). apply elem_of_seq. unfold pre_at. rewrite Hp. lia. }
    rewrite He. by apply list_lookup_lookup_total_lt || (rewrite nth_lookup; destruct (lookup_lt_is_Some_2 adj e ltac:(done)) as [x ->]; done).
Qed.
Print Assumptions C03_two_parts_every_graph_partial.
(** Without vertex weights: an undirected graph with more than 20 vertices and an edge. *)
Theorem C03_two_parts_null : forall lg n prefix adj ew o s g, log2_spec lg -> valid_csr n prefix adj None ew -> 20 < n -> adj <> [] ->
  graph_of_csr prefix adj None ew = Ok g -> undirected g -> (Z.of_nat n < 2 ^ 32)%Z -> (Z.of_nat (length adj) < 2 ^ 32)%Z ->
  (o_scheme o = 0 \/ o_scheme o = 1)%Z ->
  exists r s', part_graph_recursive lg prefix adj None ew 2 (Some o) s = Ok (r, s') /\ r_ret r = 1%Z.
Proof.
  intros lg n prefix adj ew o s g Hlg HC Hn20 Had Eg Hud Hn Hne Ho.
  pose proof (C03_two_parts_every_graph_partial lg n prefix adj None ew o s Hlg HC ltac:(lia) Hn Hne Ho) as H1.
  pose proof (C03_failures_partial lg n prefix adj None ew 2 o s g Hlg HC Eg Hud Hn Hne ltac:(lia) ltac:(done) Ho) as H2.
  destruct (part_graph_recursive lg prefix adj None ew 2 (Some o) s) as [[r s']|f]; [eauto|].
  exfalso. destruct H1 as [(-> & _ & [H|H])|H1]; [lia|by destruct adj|]. destruct H1 as [->|[-> _]]; destruct H2; done.
Qed.
Print Assumptions C03_two_parts_null.
(** Both conditions are needed: 21 vertices without edges (and, in C03_refuted, three vertices). *)
Theorem C03_two_parts_null_refuted :
  valid_csr 21 (replicate 22 0) [] None None /\
  part_graph_recursive floor_log2 (replicate 22 0) [] None None 2 (Some default_options) [] = Fail (UB NoWeights).
Proof. split; [apply csrb_sound; vm_compute; reflexivity|vm_compute; reflexivity]. Qed.
Print Assumptions C03_two_parts_null_refuted.

(** ** C54: for two parts of such a graph, directed or not, absent vertex weights are ones, full stop *)
Theorem C54_null_two_parts : forall lg n prefix adj ew o s N, log2_spec lg -> valid_csr n prefix adj None ew -> 20 < n -> adj <> [] ->
  (Z.of_nat n < 2 ^ 32)%Z -> (Z.of_nat (length adj) < 2 ^ 32)%Z -> (o_scheme o = 0 \/ o_scheme o = 1)%Z -> n <= N ->
  part_graph_recursive lg prefix adj None ew 2 (Some o) s = part_graph_recursive lg prefix adj (Some (replicate N 1%Z)) ew 2 (Some o) s.
Proof.
  intros lg n prefix adj ew o s N Hlg HC Hn20 Had Hn Hne Ho HN.
  pose proof (C03_two_parts_every_graph_partial lg n prefix adj None ew o s Hlg HC ltac:(lia) Hn Hne Ho) as H1.
  destruct (C54_null_vertex_weights lg prefix adj ew 2 (Some o) s N) as [H|H]; [|rewrite H in H1|exact H].
  - rewrite (vc_len _ _ _ _ _ HC). lia.
  - exfalso. destruct H1 as [(_ & _ & [H1|H1])|[H1|[H1 _]]]; [lia|by destruct adj|done|done].
Qed.
Print Assumptions C54_null_two_parts.
Example C54_null_two_parts_nonvacuous : valid_csr 24 (ring_prefix 24) (ring_adj 24) None None /\
  (exists g, graph_of_csr (ring_prefix 24) (ring_adj 24) None None = Ok g /\ undirected g) /\
  exists r s', part_graph_recursive floor_log2 (ring_prefix 24) (ring_adj 24) None None 2 (Some some_options) [3; 1; 4; 1; 5] = Ok (r, s') /\ r_cut r = Some 2%Z /\
    part_graph_recursive floor_log2 (ring_prefix 24) (ring_adj 24) (Some (replicate 24 1%Z)) None 2 (Some some_options) [3; 1; 4; 1; 5] = Ok (r, s').
Proof.
  assert (HC : valid_csr 24 (ring_prefix 24) (ring_adj 24) None None) by (apply csrb_sound; vm_compute; reflexivity).
  split; [exact HC|]. split.
  - destruct (graph_of_csr_ok _ _ _ _ _ HC) as (g & Eg & Hwf & _). exists g. split; [done|].
    assert (g = the_graph (ring_prefix 24) (ring_adj 24) None None) as -> by (unfold the_graph; by rewrite Eg).
    split; [done|apply symb_sound; vm_compute; reflexivity|apply looplessb_sound; vm_compute; reflexivity|eapply fits_compute; vm_compute; reflexivity].
  - eexists _, _. split; [vm_compute; reflexivity|]. split; vm_compute; reflexivity.
Qed.
