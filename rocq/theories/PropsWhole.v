(** * PropsWhole: the whole call, described without random streams (C69): recursive bisection, each
    bisection a multilevel bisection (C68), and the first best of the runs. *)
From Verif Require Import Base F64 ModelGraph ModelPartition ModelConn ModelFM ModelAgg ModelMultilevel ModelBisect ModelRecursive ModelApi Spec Logic Sums
  GraphFacts PartFacts SubFacts RecFacts BisectFacts TargetFacts LabelFacts ApiFacts MultilevelFacts TreeFacts PropsBisect PropsGrow PropsPass PropsVcycle Examples
  PropsMultilevel PropsRecursive PropsTarget PropsApi PropsTree.
#[local] Arguments seq : simpl nomatch.

(** ** Specification *)
(** Multilevel bisection with the library's limit of 3/40 of the weight per vertex. *)
Definition bisected (scheme : Z) (g : graph) (t : target) (L : labels) : Prop :=
  length L = nv g /\ vcycle scheme t (3 * sumn (nv g) (vweight g) / 40) None g L.
(** The vertices of g get the labels l: bisect g; one label per side if there are two.  Otherwise
    side 0 has the first half of the labels (rounded down) and side 1 the others, and each side with
    more than one label is partitioned the same way, as a graph of its own. *)
Inductive partitioned (lg : nat -> f64) (scheme : Z) : target -> graph -> (nat -> nat) -> Prop :=
| part_two t g bt L l : t_np t = 2 ->
    bisect_target t (tolerance_factor lg (t_np t)) = Ok bt -> bisected scheme g bt L ->
    (forall v, v < nv g -> at_ L v = Some (l v)) -> partitioned lg scheme t g l
| part_three t g bt L t1 g1 l l1 : t_np t = 3 ->
    bisect_target t (tolerance_factor lg (t_np t)) = Ok bt -> bisected scheme g bt L ->
    induced g (at_ L) 1 g1 -> sub_target t 1 2 = Ok t1 -> partitioned lg scheme t1 g1 l1 ->
    (forall v, v < nv g -> at_ L v = Some 0 -> l v = 0) ->
    (forall j v, members (nv g) (at_ L) 1 !! j = Some v -> l v = 1 + l1 j) -> partitioned lg scheme t g l
| part_more t g bt L t0 t1 g0 g1 l l0 l1 : 3 < t_np t ->
    bisect_target t (tolerance_factor lg (t_np t)) = Ok bt -> bisected scheme g bt L ->
    induced g (at_ L) 0 g0 -> sub_target t 0 (t_np t / 2) = Ok t0 -> partitioned lg scheme t0 g0 l0 ->
    induced g (at_ L) 1 g1 -> sub_target t (t_np t / 2) (t_np t - t_np t / 2) = Ok t1 -> partitioned lg scheme t1 g1 l1 ->
    (forall j v, members (nv g) (at_ L) 0 !! j = Some v -> l v = l0 j) ->
    (forall j v, members (nv g) (at_ L) 1 !! j = Some v -> l v = t_np t / 2 + l1 j) -> partitioned lg scheme t g l.

(** ** Proof *)
(** What the call needs of the graph; a subgraph may be empty. *)
Record niceish (g : graph) : Prop := {
  ni_ud : undirected g;
  ni_w : (sumn (nv g) (vweight g) < NULL_WGT)%Z;
  ni_ew : (total_edge_weight g < H32 - 1)%Z;
  ni_pos : forall u a, u < nv g -> a ∈ out g u -> (0 < snd a)%Z;
  ni_nv : (Z.of_nat (nv g) < W32)%Z;
  ni_ne : (Z.of_nat (ne g) < W32)%Z
}.
Lemma niceish_sub g f i sg : niceish g -> induced g f i sg -> niceish sg.
Proof.
  intros [[Hwf Hs Hl Hf] Hw He Hp Hnv Hne] HI. constructor.
  - constructor; [apply HI|by eapply induced_symmetric|by eapply induced_loopless|by eapply induced_fits].
  - rewrite (induced_vsum g f i sg HI). eapply Z.le_lt_trans; [|exact Hw]. apply sumn_le. intros v Hv. pose proof (wf_vw_range g Hwf v). case_decide; lia.
  - pose proof (induced_total g Hwf f i sg HI). lia.
  - intros j a Hj Ha. rewrite (in_nv _ _ _ _ HI) in Hj. destruct (lookup_lt_is_Some_2 _ _ Hj) as [v Hv].
    assert (Hin : (nth (fst a) (members (nv g) f i) 0, snd a) ∈ filter (fun a => f (fst a) = Some i) (out g v)).
    { rewrite <- (in_out _ _ _ _ HI j v Hv). apply elem_of_list_fmap. by exists a. }
    apply elem_of_list_filter in Hin as [_ Hin]. apply (Hp v _ ltac:(by eapply members_inv) Hin).
  - pose proof (induced_nv g f i sg HI). lia.
  - pose proof (induced_ne g Hwf f i sg HI). lia.
Qed.
Lemma exec_nonempty agg ref t g s p s' : ml_execute agg (multi_execute 8 bfs_execute) ref t g s = Ok (p, s') -> 0 < nv g.
Proof.
  intros E. destruct (decide (nv g = 0)) as [H0|]; [|lia]. exfalso. unfold ml_execute in E. rewrite ml_criteria_eq in E.
  apply mbind_inv in E as (st & s1 & E1 & E). injection E1 as <- <-. apply mbind_inv in E as (mw & s2 & E1 & E). apply mbind_inv in E as (r & s3 & E2 & _).
  cbn [ml_recurse] in E2. apply mbind_inv in E2 as (b & s4 & E3 & E2). apply lift_inv in E3 as [E3 ->]. unfold vertex_number_stop in E3. rewrite H0 in E3. cbn in E3. injection E3 as <-.
  apply mbind_inv in E2 as (q & s5 & E3 & _). unfold multi_execute in E3. apply mbind_inv in E3 as (q' & s6 & E3 & _).
  change (seq 0 (Z.to_nat 8)) with (0 :: seq 1 7) in E3. cbn [mfold] in E3. apply mbind_inv in E3 as (b & s7 & E3 & _). apply mbind_inv in E3 as (q'' & s8 & E3 & _).
  unfold bfs_execute in E3. apply mbind_inv in E3 as (sd & s9 & E3 & _). rewrite H0 in E3. by destruct s2.
Qed.
Lemma api_bisects scheme bis bt g s p s' : api_bisector scheme = Ok bis -> two_way bt -> niceish g -> two_labels g p -> bis bt g s = Ok (p, s') -> bisected scheme g bt (p_where p).
Proof.
  intros Hb Ht [[Hwf Hs Hl Hf] Hw He Hp Hnv Hne] [_ HL] E. unfold api_bisector in Hb. destruct (aggregator_make scheme) as [agg|] eqn:Ea; [|done]. injection Hb as <-.
  split; [apply HL|]. eapply (C68_multilevel_bisection scheme agg bt g s p s'); try done. by eapply exec_nonempty.
Qed.
Lemma tree_partitioned lg scheme bis t g l ps s s' : api_bisector scheme = Ok bis -> tree lg bis t g l ps s s' -> niceish g -> partitioned lg scheme t g l.
Proof.
  intros Hb HT. induction HT as [t g bt p l s s' Hk Hbt Ep HTl HLl|t g bt p t1 g1 l l1 ps s s1 s2 Hk Hbt Ep HTl Hi1 Ht1 _ IH1 HA HB|
    t g bt p t0 t1 g0 g1 l l0 l1 ps0 ps1 s s1 s2 s3 Hk Hbt Ep HTl Hi0 Ht0 _ IH0 Hi1 Ht1 _ IH1 HA HB]; intros HN.
  all: assert (HBi : bisected scheme g bt (p_where p)) by (eapply (api_bisects scheme bis bt g); try done; by eapply bisect_target_two).
  - by eapply (part_two _ _ t g bt (p_where p)).
  - eapply (part_three _ _ t g bt (p_where p) t1 g1 l l1); try done. apply IH1. by eapply niceish_sub.
  - eapply (part_more _ _ t g bt (p_where p) t0 t1 g0 g1 l l0 l1); try done; [apply IH0|apply IH1]; by eapply niceish_sub.
Qed.

(** ** C69 *)
Theorem C69_whole_call : forall lg n prefix adj vw ew k o s r s' g, valid_csr n prefix adj vw ew -> 2 <= k -> (1 <= o_num_cuts o)%Z ->
  graph_of_csr prefix adj vw ew = Ok g ->
  (* undirected, weights positive and small enough *)
  symmetric g -> loopless g -> (forall u a, u < nv g -> a ∈ out g u -> (0 < snd a)%Z) ->
  (Z.of_nat (nv g) < W32)%Z -> (Z.of_nat (ne g) < W32)%Z -> (sumn (nv g) (vweight g) < NULL_WGT)%Z -> (total_edge_weight g < H32 - 1)%Z ->
  part_graph_recursive lg prefix adj vw ew k (Some o) s = Ok (r, s') ->
  exists t ls, target_of_fractions (g_tvw g) default_tolerance (default_fractions k) = Ok t /\ t_np t = k /\
    (* one partitioning for every cut asked for ... *)
    Z.of_nat (length ls) = o_num_cuts o /\ (forall l, l ∈ ls -> partitioned lg (o_scheme o) t g l) /\
    (* ... of which the first with the smallest cut is returned *)
    exists i l, ls !! i = Some l /\
      (forall j l', ls !! j = Some l' -> (edge_cut g l <= edge_cut g l')%Z /\ (j < i -> (edge_cut g l < edge_cut g l')%Z)) /\
      r_labels r = Some ((fun v => Some (l v)) <$> seq 0 n) /\ r_cut r = Some (edge_cut g l).
Proof.
  intros lg n prefix adj vw ew k o s r s' g HC Hk Hm Eg0 Hs Hl Hpos Hnv Hne Hw He E.
  destruct (call_runs _ _ _ _ _ _ _ _ _ _ _ HC E) as (g1 & bis & t & Ps & HS & Hnp & HR & HL & ->). pose proof HS as (Eg & Eb & Et).
  rewrite Eg0 in Eg. injection Eg as <-.
  destruct (graph_of_csr_ok _ _ _ _ _ HC) as (g' & Eg' & Hwf & _ & _ & _ & _ & Hn & _). rewrite Eg0 in Eg'. injection Eg' as <-.
  assert (Hf : fits g) by (unfold fits, H32, W32 in *; lia).
  assert (HN : niceish g) by (by repeat (constructor; try done)).
  exists t.
  assert (exists ls, Forall2 (fun P l => partitioned lg (o_scheme o) t g l /\ p_where P = (fun v => Some (l v)) <$> seq 0 n /\ p_cut P = edge_cut g l) Ps ls) as [ls H2].
  { clear HL E. induction HR as [|s P s1 Ps s' EP _ [ls IH]]; [by exists []|].
    destruct (rb_execute_tree lg bis t g s P s1 Hwf ltac:(lia)) as (l & ps & HT & HLl & Hv & Hx); [|done|].
    { intros t' tol bt g'' cs p cs' Hbt _ Ep. pose proof (api_bisector_lab _ _ bt g'' Eb (tw_wgt _ (bisect_target_two _ _ _ Hbt))) as HW.
      exact (wpm_elim _ _ _ _ _ _ HW Ep). }
    exists (l :: ls). constructor; [|done]. split; [by eapply tree_partitioned|]. split.
    - apply list_eq. intros v. rewrite list_lookup_fmap. destruct Hv as [[Hlen _] _]. destruct (decide (v < n)) as [Hvn|Hvn].
      + rewrite lookup_seq_lt by done. cbn. rewrite <- (HLl v) by lia. unfold lab. apply lookup_nth. lia.
      + rewrite !lookup_ge_None_2; [done|rewrite seq_length; lia|lia].
    - destruct (Hx Hs Hf) as [_ Hc]. rewrite Hc.
      unfold edge_cut. apply sumf_ext. intros u Hu%elem_of_seq. apply sumf_ext. intros v Hvv%elem_of_seq.
      rewrite !HLl by lia. destruct (decide (l u = l v)) as [El|El].
      + rewrite decide_True by congruence. done.
      + rewrite decide_False by congruence. done. }
  exists ls. split; [done|]. split; [done|]. pose proof (Forall2_length _ _ _ H2) as HLs. split; [lia|]. split.
  { intros l Hl'. apply elem_of_list_lookup in Hl' as [i Hi]. destruct (Forall2_lookup_r _ _ _ _ _ H2 Hi) as (P & _ & HP & _). done. }
  pose proof (keep_best_first Ps) as HB. destruct (fold_left keep_best Ps None) as [b|]; [|subst Ps; cbn in HL; lia].
  destruct HB as (P & (i & Hi & HB1 & HB2) & ->). destruct (Forall2_lookup_l _ _ _ _ _ H2 Hi) as (l & Hli & HP & HPw & HPc).
  exists i, l. split; [done|]. split.
  - intros j l' Hj. destruct (Forall2_lookup_r _ _ _ _ _ H2 Hj) as (Q & Hq & _ & _ & HQ). rewrite <- HPc, <- HQ. split; [by eapply HB1|]. intros Hlt. by eapply HB2.
  - cbn [r_labels r_cut part_output fst snd fmap option_fmap option_map]. rewrite HPw, HPc. done.
Qed.
Print Assumptions C69_whole_call.
(** A cycle of 30 vertices of weight 2 in four parts. *)
Example C69_nonvacuous : exists g, graph_of_csr (ring_prefix 30) (ring_adj 30) (Some (replicate 30 2%Z)) None = Ok g /\
  valid_csr 30 (ring_prefix 30) (ring_adj 30) (Some (replicate 30 2%Z)) None /\ symmetric g /\ loopless g /\ (forall u a, u < nv g -> a ∈ out g u -> (0 < snd a)%Z) /\
  (sumn (nv g) (vweight g) < NULL_WGT)%Z /\ (total_edge_weight g < H32 - 1)%Z /\
  exists r s', part_graph_recursive floor_log2 (ring_prefix 30) (ring_adj 30) (Some (replicate 30 2%Z)) None 4 (Some some_options) [] = Ok (r, s').
Proof.
  destruct (graph_of_csr (ring_prefix 30) (ring_adj 30) (Some (replicate 30 2%Z)) None) as [g|f] eqn:E; [|vm_compute in E; discriminate]. exists g. vm_compute in E. injection E as <-. split; [done|].
  split; [apply csrb_sound; vm_compute; reflexivity|]. split; [apply symb_sound; vm_compute; reflexivity|]. split; [apply looplessb_sound; vm_compute; reflexivity|].
  split; [apply posb_sound; vm_compute; reflexivity|]. split; [vm_compute; reflexivity|]. split; [vm_compute; reflexivity|]. eexists _, _. vm_compute. reflexivity.
Qed.
