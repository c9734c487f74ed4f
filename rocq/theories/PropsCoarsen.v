(** * PropsCoarsen: property theorems about aggregation, contraction, projection and the
    graph builders (C15-C24, C40, C41).  Vocabulary: Spec.v; histories of builder calls:
    TwoStepFacts.v, OneStepFacts.v. *)
From Verif Require Import Base F64 ModelGraph ModelBuilders ModelPartition ModelConn ModelAgg ModelMultilevel Spec Logic Sums
  GraphFacts PartFacts ConnFacts BucketFacts AggFacts BuilderFacts ContractFacts ProjectFacts TwoStepFacts OneStepFacts Examples.
#[local] Arguments seq : simpl nomatch.

(** ** C24: the groups of an aggregation invert the coarse map. *)
Theorem C24_groups_invert_map : forall cmap nc, Forall (fun c => c < nc) cmap ->
  exists a, agg_make cmap nc = Ok a /\ a_num_coarse a = nc /\ a_cmap a = cmap /\
    forall c, c < nc -> agg_group a c = Ok (filter (fun v => cmap !! v = Some c) (seq 0 (length cmap))).
Proof. exact agg_make_ok. Qed.
Print Assumptions C24_groups_invert_map.
(** ... hence is a [grouping] in the sense of Spec.v: the contraction theorems below apply
    to every coarse map, not only to those made by the matchings. *)
Theorem C24_every_map_is_a_grouping : forall cmap nc, Forall (fun c => c < nc) cmap ->
  exists a, agg_make cmap nc = Ok a /\ grouping (length cmap) a /\ a_cmap a = cmap /\ a_num_coarse a = nc.
Proof.
  intros cmap nc H. destruct (agg_make_ok cmap nc H) as (a & E & N & C & G). exists a. split; [done|]. split; [|done].
  unfold grouping. rewrite N, C. split; [done|]. split; [done|]. exact G.
Qed.
Print Assumptions C24_every_map_is_a_grouping.
Example C24_nonvacuous : Forall (fun c => c < 3) [2; 0; 2; 1; 0; 2] /\
  exists a, agg_make [2; 0; 2; 1; 0; 2] 3 = Ok a /\ agg_group a 2 = Ok [0; 2; 5].
Proof. split; [repeat constructor|]. eexists. split; [vm_compute; reflexivity|]. reflexivity. Qed.
(** A coarse vertex outside the announced range is an out-of-bounds access. *)
Theorem C24_out_of_range_refuted : exists cmap nc, agg_make cmap nc = Fail (UB OutOfBounds).
Proof. exists [0; 2], 2. vm_compute. reflexivity. Qed.
Print Assumptions C24_out_of_range_refuted.

(** ** C20, C22: the matchings.  [agg] is any of the three aggregators of the library
    (random matching; heavy-edge matching, on graphs with an edge weight array; and the
    combination used by default). *)
Inductive library_aggregator : graph -> aggregator -> Prop :=
  | lib_rm g : library_aggregator g rm_aggregate
  | lib_shem g : length (g_ew g) = ne g -> library_aggregator g shem_aggregate
  | lib_shemrm g : library_aggregator g shemrm_aggregate.
Lemma library_result g agg maxW s : library_aggregator g agg -> wf_graph g -> loopless g ->
  exists a s', agg maxW g s = Ok (a, s') /\ agg_result g maxW a.
Proof.
  intros H Hwf Hl. destruct H.
  - apply wpm_never. by apply rm_aggregate_wp.
  - apply wpm_never. by apply shem_aggregate_wp.
  - apply wpm_never. by apply shemrm_aggregate_wp.
Qed.
Theorem C20_groups_are_adjacent_pairs : forall g agg maxW s, library_aggregator g agg -> wf_graph g -> loopless g ->
  exists a s', agg maxW g s = Ok (a, s') /\ grouping (nv g) a /\
    (forall c, c < a_num_coarse a -> exists v,
        agg_group a c = Ok [v] \/ exists w, agg_group a c = Ok [v; w] /\ v <> w /\ adjacent g v w) /\
    (forall v w, together a v w -> v <> w -> adjacent g v w).
Proof.
  intros g agg maxW s H Hwf Hl. destruct (library_result g agg maxW s H Hwf Hl) as (a & s' & E & R).
  exists a, s'. split; [done|]. split; [apply R|]. split; [apply R|apply R].
Qed.
Print Assumptions C20_groups_are_adjacent_pairs.
Theorem C22_matching_is_maximal : forall g agg maxW s, library_aggregator g agg -> wf_graph g -> loopless g ->
  exists a s', agg maxW g s = Ok (a, s') /\
    forall v w, v < nv g -> w < nv g -> v <> w -> adjacent g v w ->
      (forall x, together a v x -> x = v) -> (forall x, together a w x -> x = w) ->
      (maxW < vweight g v + vweight g w)%Z.
Proof.
  intros g agg maxW s H Hwf Hl. destruct (library_result g agg maxW s H Hwf Hl) as (a & s' & E & R).
  exists a, s'. split; [done|]. intros v w Hv Hw Hn Ha. by apply (ar_max _ _ _ R).
Qed.
Print Assumptions C22_matching_is_maximal.
Example C20_C22_nonvacuous : wf_graph ex /\ loopless ex /\ length (g_ew ex) = ne ex /\
  exists a s', shem_aggregate 100 ex [1; 1; 0; 0] = Ok (a, s') /\ agg_group a 0 = Ok [0; 1] /\ agg_group a 1 = Ok [2; 3].
Proof. split; [exact ex_wf|]. split; [exact ex_loopless|]. split; [reflexivity|].
  eexists _, _. split; [vm_compute; reflexivity|]. split; reflexivity. Qed.
(** With a self loop a vertex can be matched with itself; its coarse number is then never
    written and read uninitialised. *)
Definition loop1 : graph := the_graph [0; 1] [0] None None.
Theorem C20_self_loop_refuted : exists g, wf_graph g /\ symmetric g /\ forall s, rm_aggregate NULL_WGT g s = Fail (UB Uninit).
Proof.
  exists loop1. split; [apply (the_graph_wf 1); reflexivity|]. split; [apply symb_sound; reflexivity|].
  intros s. unfold rm_aggregate, rm_matching, random_order. change (seq 0 (vs_size (mkVS 0 (nv loop1)))) with [0].
  pose proof (wpm_choose_perm [0] never s) as H. unfold mbindM. destruct (choose_perm [0] s) as [[l s']|f]; [|done].
  simpl in H. apply Permutation_singleton_r in H as ->. vm_compute. reflexivity.
Qed.
Print Assumptions C20_self_loop_refuted.

(** ** C21: combined weights respect the limit, as long as the whole graph weighs less than
    the sentinel 2^32-1. *)
Theorem C21_pairs_within_limit : forall g agg maxW s, library_aggregator g agg -> wf_graph g -> loopless g ->
  (sumn (nv g) (vweight g) < NULL_WGT)%Z ->
  exists a s', agg maxW g s = Ok (a, s') /\
    forall v w, together a v w -> v <> w -> (vweight g v + vweight g w <= maxW)%Z.
Proof.
  intros g agg maxW s H Hwf Hl Hs. destruct (library_result g agg maxW s H Hwf Hl) as (a & s' & E & R).
  exists a, s'. split; [done|]. intros v w. eapply result_weight; eauto.
Qed.
Print Assumptions C21_pairs_within_limit.
Example C21_nonvacuous : (sumn (nv ex) (vweight ex) < NULL_WGT)%Z /\
  exists a s', shemrm_aggregate 4 ex [1; 1; 0; 0] = Ok (a, s') /\ together a 0 1 /\ a_num_coarse a = 3.
Proof. split; [vm_compute; reflexivity|]. eexists _, _. split; [vm_compute; reflexivity|]. split; [|reflexivity]. exists 0. split; reflexivity. Qed.
(** A pair of total weight exactly 2^32-1 is always accepted, whatever the limit ... *)
Definition huge (a b : Z) : graph := the_graph [0; 1; 2] [1; 0] (Some [a; b]) None.
Theorem C21_sentinel_refuted : exists g maxW s a s', wf_graph g /\ loopless g /\
  rm_aggregate maxW g s = Ok (a, s') /\ together a 0 1 /\ (maxW < vweight g 0 + vweight g 1)%Z.
Proof.
  exists (huge 2147483648 2147483647), 10%Z, []. eexists _, _. split; [apply (the_graph_wf 2); reflexivity|].
  split; [apply looplessb_sound; reflexivity|]. split; [vm_compute; reflexivity|]. split; [exists 0; split; reflexivity|]. vm_compute. reflexivity.
Qed.
Print Assumptions C21_sentinel_refuted.
(** ... and a pair whose sum wraps around 2^32 is compared with the wrapped sum. *)
Theorem C21_wraparound_refuted : exists g maxW s a s', wf_graph g /\ loopless g /\
  rm_aggregate maxW g s = Ok (a, s') /\ together a 0 1 /\ (W32 < vweight g 0 + vweight g 1)%Z /\ maxW = 10%Z.
Proof.
  exists (huge 2147483648 2147483650), 10%Z, []. eexists _, _. split; [apply (the_graph_wf 2); reflexivity|].
  split; [apply looplessb_sound; reflexivity|]. split; [vm_compute; reflexivity|]. split; [exists 0; split; reflexivity|].
  split; [vm_compute; reflexivity|reflexivity].
Qed.
Print Assumptions C21_wraparound_refuted.

(** ** C23: a visit of heavy-edge matching.  [m] is the partial matching built so far:
    [m !! v = Some (Some u)] if v is paired with u, [Some None] if v is unmatched. *)
(** u, reached by an edge of weight w, is an available partner of v. *)
Definition available (g : graph) (maxW : Z) (m : matching) (v u : nat) (w : Z) : Prop :=
  (u, w) ∈ out g v /\ m !! u = Some None /\ (vweight g v + vweight g u <= maxW)%Z.
Lemma available_cand g maxW m v u w : wf_graph g -> loopless g -> v < nv g -> (sumn (nv g) (vweight g) < NULL_WGT)%Z ->
  cand g maxW m v (u, w) <-> available g maxW m v u w.
Proof.
  intros Hwf Hl Hv Hs. unfold cand, available. cbn [fst].
  enough ((u, w) ∈ out g v -> is_allowed_vertex_weight maxW (u32 (vweight g v + vweight g u)) = true <->
    (vweight g v + vweight g u <= maxW)%Z) by tauto.
  intros Ho. assert (Hu : u < nv g) by (apply (out_dst g Hwf v (u, w) Hv Ho)).
  assert (Hn : v <> u). { intros <-. exact (Hl v v w Hv Ho eq_refl). }
  assert (vweight g v + vweight g u <= sumn (nv g) (vweight g))%Z.
  { rewrite (sumn_split _ _ v) by done.
    pose proof (sumn_elem_le (nv g) (fun x => if decide (x = v) then 0 else vweight g x)%Z u) as H2.
    cbv beta in H2. destruct (decide (u = v)); [done|].
    apply Zplus_le_compat_l. apply H2; [|done]. intros x _. pose proof (wf_vw_range g Hwf x). destruct (decide (x = v)); lia. }
  pose proof (wf_vw_range g Hwf v). pose proof (wf_vw_range g Hwf u).
  rewrite u32_small by (unfold NULL_WGT, W32 in *; lia). unfold is_allowed_vertex_weight.
  rewrite orb_true_iff, Z.eqb_eq, Z.leb_le. unfold NULL_WGT in *. lia.
Qed.

Theorem C23_heaviest_available_edge : forall g maxW m v, wf_graph g -> loopless g -> length (g_ew g) = ne g ->
  (sumn (nv g) (vweight g) < NULL_WGT)%Z -> matching_ok (nv g) m -> v < nv g ->
  exists m', shem_visit g maxW m v = Ok m' /\
    (m !! v <> Some None -> m' = m) /\
    (m !! v = Some None ->
      (m' = m /\ forall u w, ~ available g maxW m v u w) \/
      (exists u w, available g maxW m v u w /\ (forall u' w', available g maxW m v u' w' -> (w' <= w)%Z) /\
         m' !! v = Some (Some u) /\ m' !! u = Some (Some v) /\ forall x, x <> v -> x <> u -> m' !! x = m !! x)).
Proof.
  intros g maxW m v Hwf Hl He Hs Hm Hv. destruct (shem_visit_ok g Hwf maxW m v Hl He Hm Hv) as (m' & E & H).
  exists m'. split; [done|]. split.
  - intros Hn. destruct H as [[-> _]|[H _]]; [done|]. done.
  - intros Hn. destruct H as [[-> H]|[_ (u & w & Hc & Hmax & ->)]].
    + left. split; [done|]. intros u w Ha. apply (H Hn (u, w)). by apply available_cand.
    + right. exists u, w. assert (Ha : available g maxW m v u w) by (by apply available_cand). split; [done|]. split.
      { intros u' w' Ha'. apply (Hmax (u', w')). by apply available_cand. }
      assert (Hvu : v <> u). { intros <-. apply (Hl v v w Hv); [apply Ha|done]. }
      destruct Ha as (_ & Hu & _). apply lookup_lt_Some in Hu. destruct Hm as [Hm _].
      split; [rewrite list_lookup_insert_ne by done; apply list_lookup_insert; lia|].
      split; [apply list_lookup_insert; rewrite insert_length; lia|].
      intros x H1 H2. rewrite !list_lookup_insert_ne by done. done.
Qed.
Print Assumptions C23_heaviest_available_edge.
Example C23_nonvacuous : wf_graph ex /\ loopless ex /\ length (g_ew ex) = ne ex /\ (sumn (nv ex) (vweight ex) < NULL_WGT)%Z /\
  matching_ok (nv ex) (mb_new 4) /\ available ex 100 (mb_new 4) 0 1 5 /\ available ex 100 (mb_new 4) 0 3 2.
Proof. split; [exact ex_wf|]. split; [exact ex_loopless|]. split; [reflexivity|]. split; [vm_compute; reflexivity|].
  split; [apply matching_new|]. split; (split; [vm_compute; set_solver|split; [reflexivity|vm_compute; discriminate]]). Qed.

(** ** C15-C17: contraction, for every grouping of the vertices. *)
Theorem C15_vertex_weight_preserved : forall g a, wf_graph g -> grouping (nv g) a ->
  exists cg, contract g a = Ok cg /\ nv cg = a_num_coarse a /\
    (forall c, c < nv cg -> vweight cg c = u32 (label_weight g (group_of a) c)) /\
    g_tvw cg = g_tvw g /\
    ((sumn (nv g) (vweight g) < W32)%Z ->
      (forall c, c < nv cg -> vweight cg c = label_weight g (group_of a) c) /\
      sumn (nv cg) (vweight cg) = sumn (nv g) (vweight g)).
Proof.
  intros g a Hwf Hg. destruct (contract_ok g a Hwf Hg) as (cg & E & Hc). exists cg. split; [done|].
  split; [apply Hc|]. split; [apply Hc|]. split; [by eapply coarse_tvw|]. intros Hs. split; [|by eapply coarse_vsum].
  intros c Hlt. rewrite (co_vw _ _ _ Hc c Hlt). apply u32_small. unfold label_weight.
  assert (H : (0 <= sumn (nv g) (fun v => if decide (group_of a v = c) then vweight g v else 0) <= sumn (nv g) (vweight g))%Z).
  { split.
    - apply sumf_nonneg. intros v _. pose proof (wf_vw_range g Hwf v). destruct (decide _); lia.
    - apply sumf_le. intros v _. pose proof (wf_vw_range g Hwf v). destruct (decide _); lia. }
  lia.
Qed.
Print Assumptions C15_vertex_weight_preserved.
(** The grouping {0,1} | {2,3} of the example cycle. *)
Definition ex_agg : aggregation := mkAgg 2 [0; 0; 1; 1] [0; 2; 4] [0; 1; 2; 3].
Lemma ex_agg_grouping : grouping (nv ex) ex_agg.
Proof.
  rewrite ex_nv. split; [reflexivity|]. split; [repeat constructor|]. intros c Hc. simpl in Hc.
  destruct c as [|[|c]]; [reflexivity|reflexivity|lia].
Qed.
Example C15_nonvacuous : wf_graph ex /\ grouping (nv ex) ex_agg /\ label_weight ex (group_of ex_agg) 1 = 5%Z.
Proof. split; [exact ex_wf|]. split; [exact ex_agg_grouping|reflexivity]. Qed.

Theorem C16_parallel_edges_summed : forall g a, wf_graph g -> symmetric g -> fits g -> grouping (nv g) a ->
  exists cg, contract g a = Ok cg /\ nv cg = a_num_coarse a /\
    (forall c d, c < nv cg -> d < nv cg -> d <> c -> W cg c d = between g (group_of a) c d) /\
    (forall c d, c < nv cg -> (d ∈ fst <$> out cg c <->
       d <> c /\ exists u v x, u < nv g /\ group_of a u = c /\ (v, x) ∈ out g u /\ group_of a v = d)) /\
    (forall c, c < nv cg -> NoDup (fst <$> out cg c)) /\
    loopless cg /\
    total_edge_weight cg = (2 * edge_cut g (group_of a))%Z /\ g_tew cg = (2 * edge_cut g (group_of a))%Z.
Proof.
  intros g a Hwf Hs Hf Hg. destruct (contract_ok g a Hwf Hg) as (cg & E & Hc). exists cg. split; [done|].
  split; [apply Hc|]. split; [intros c d; by eapply coarse_W_fits|]. split; [apply Hc|]. split; [apply Hc|]. split; [apply Hc|].
  pose proof (coarse_total g Hwf a Hg cg Hc Hf Hs) as HT. split; [done|].
  pose proof (coarse_fits g Hwf a Hg cg Hc Hf Hs) as HF. unfold fits in HF. rewrite HT in HF.
  pose proof (edge_cut_nonneg g Hwf (group_of a)).
  destruct (co_tew _ _ _ Hc) as [->|]; [|done]. apply u32_small. lia.
Qed.
Print Assumptions C16_parallel_edges_summed.
Example C16_nonvacuous : wf_graph ex /\ symmetric ex /\ fits ex /\ grouping (nv ex) ex_agg /\
  between ex (group_of ex_agg) 0 1 = 3%Z /\ edge_cut ex (group_of ex_agg) = 3%Z.
Proof. split; [exact ex_wf|]. split; [exact ex_sym|]. split; [exact ex_fits|]. split; [exact ex_agg_grouping|]. split; vm_compute; reflexivity. Qed.

Theorem C17_contraction_valid : forall g a, wf_graph g -> grouping (nv g) a ->
  exists cg, contract g a = Ok cg /\ wf_graph cg /\ loopless cg /\ (symmetric g -> symmetric cg) /\ (symmetric g -> fits g -> fits cg).
Proof.
  intros g a Hwf Hg. destruct (contract_ok g a Hwf Hg) as (cg & E & Hc). exists cg. split; [done|].
  split; [apply Hc|]. split; [apply Hc|]. split; [by eapply coarse_symmetric|]. intros H1 H2. by eapply coarse_fits.
Qed.
Print Assumptions C17_contraction_valid.
Example C17_nonvacuous : wf_graph ex /\ symmetric ex /\ grouping (nv ex) ex_agg /\
  exists cg, contract ex ex_agg = Ok cg /\ nv cg = 2 /\ ne cg = 2.
Proof. split; [exact ex_wf|]. split; [exact ex_sym|]. split; [exact ex_agg_grouping|]. eexists. split; [vm_compute; reflexivity|]. split; reflexivity. Qed.

(** ** C18, C19: projection of a partitioning of the contracted graph.  The connectivity
    handed in may be any whose border contains every coarse vertex with weight across. *)
Theorem C18_projection_preserves : forall g a k cg, wf_graph g -> symmetric g -> fits g -> grouping (nv g) a ->
  coarse_make g a = Ok cg ->
  forall cp cc, exact_part k (cg_coarse cg) cp -> length (c_border cc) = nv (cg_coarse cg) ->
    (forall c, c < nv (cg_coarse cg) -> (0 < external (cg_coarse cg) (lab cp) c)%Z -> c_border cc !! c = Some true) ->
  exists fc fp, project cg cc cp = Ok (fc, fp) /\
    (forall v, v < nv g -> lab fp v = lab cp (group_of a v)) /\
    exact_part k g fp /\ p_pw fp = p_pw cp /\ p_cut fp = p_cut cp /\ p_cut fp = edge_cut g (lab fp).
Proof.
  intros g a k cg0 Hwf Hs Hf Hg E cp cc. destruct (coarse_make_ok g a Hwf Hg) as (cg & E' & Hc). rewrite E in E'. injection E' as ->.
  cbn [cg_coarse]. intros Hcp Hb HB. pose proof (project_wp g Hwf Hs Hf a Hg cg Hc k cp Hcp cc Hb HB never) as H.
  apply wpo_never in H as ([fc fp] & E2 & H1 & H2 & H3 & H4 & H5 & H6). cbn [fst snd] in *.
  exists fc, fp. split; [done|]. split.
  { intros v Hv. specialize (H4 v Hv). unfold lab. destruct H3 as [[[HL _] _] _].
    rewrite (lookup_nth _ _ None) in H4 by lia. symmetry in H4. symmetry. by apply nth_lt_eq. }
  split; [done|]. split; [done|]. split; [done|]. apply H3.
Qed.
Print Assumptions C18_projection_preserves.
Theorem C19_projection_rebuilds_boundary : forall g a k cg, wf_graph g -> symmetric g -> fits g -> grouping (nv g) a ->
  coarse_make g a = Ok cg ->
  forall cp cc, exact_part k (cg_coarse cg) cp -> length (c_border cc) = nv (cg_coarse cg) ->
    (forall c, c < nv (cg_coarse cg) -> (0 < external (cg_coarse cg) (lab cp) c)%Z -> c_border cc !! c = Some true) ->
  exists fc fp, project cg cc cp = Ok (fc, fp) /\
    (exists rebuilt, from_partitioning g fp = Ok rebuilt /\ c_int fc = c_int rebuilt /\ c_ext fc = c_ext rebuilt /\ c_border fc = c_border rebuilt) /\
    forall v, v < nv g -> c_int fc !! v = Some (internal g (lab fp) v) /\ c_ext fc !! v = Some (external g (lab fp) v) /\
      (c_border fc !! v = Some true <-> (0 < external g (lab fp) v)%Z \/ internal g (lab fp) v = 0%Z).
Proof.
  intros g a k cg0 Hwf Hs Hf Hg E cp cc. destruct (coarse_make_ok g a Hwf Hg) as (cg & E' & Hc). rewrite E in E'. injection E' as ->.
  cbn [cg_coarse]. intros Hcp Hb HB. pose proof (project_wp g Hwf Hs Hf a Hg cg Hc k cp Hcp cc Hb HB never) as H.
  apply wpo_never in H as ([fc fp] & E2 & (L1 & L2 & L3 & H1) & H2 & H3 & H4 & H5 & H6). cbn [fst snd] in *.
  exists fc, fp. split; [done|]. split.
  - pose proof (from_partitioning_wp g Hwf Hf never fp ltac:(apply H3)) as HR.
    apply wpo_never in HR as (c & Ec & (R1 & R2 & R3 & HRc) & HRb). exists c. split; [done|].
    assert (EX : forall A (l l' : list A), length l = nv g -> length l' = nv g -> (forall v, v < nv g -> l !! v = l' !! v) -> l = l').
    { clear. intros A l l' H1 H2 H. apply list_eq. intros v. destruct (decide (v < nv g)); [auto|].
      rewrite !lookup_ge_None_2 by lia. done. }
    split; [|split].
    + apply EX; [done..|]. intros v Hv. rewrite (proj1 (H1 v Hv)), (proj1 (HRc v Hv)). done.
    + apply EX; [done..|]. intros v Hv. rewrite (proj2 (H1 v Hv)), (proj2 (HRc v Hv)). done.
    + apply EX; [done..|]. intros v Hv. pose proof (H2 v Hv) as A. rewrite <- (HRb v Hv) in A.
      destruct (lookup_lt_is_Some_2 (c_border fc) v ltac:(lia)) as [x Hx].
      destruct (lookup_lt_is_Some_2 (c_border c) v ltac:(lia)) as [y Hy]. rewrite Hx, Hy in *.
      destruct x, y; try done; [destruct (proj1 A eq_refl)|destruct (proj2 A eq_refl)]; done.
  - intros v Hv. split; [apply H1; done|]. split; [apply H1; done|]. by apply H2.
Qed.
Print Assumptions C19_projection_rebuilds_boundary.
Example C18_C19_nonvacuous : exists cg cp cc, coarse_make ex ex_agg = Ok cg /\ exact_part 2 (cg_coarse cg) cp /\
  from_partitioning (cg_coarse cg) cp = Ok cc /\ length (c_border cc) = nv (cg_coarse cg) /\
  (forall c, c < nv (cg_coarse cg) -> (0 < external (cg_coarse cg) (lab cp) c)%Z -> c_border cc !! c = Some true) /\ p_cut cp = 3%Z.
Proof.
  eexists. exists (mkPart 3 [3; 5]%Z [Some 0; Some 1]). eexists. split; [vm_compute; reflexivity|]. cbn [cg_coarse].
  split; [apply exactb_sound; vm_compute; reflexivity|]. split; [vm_compute; reflexivity|]. split; [reflexivity|].
  split; [|reflexivity]. intros c Hc _. change (c < 2) in Hc. destruct c as [|[|c]]; [reflexivity|reflexivity|lia].
Qed.
(** If the border handed in misses a coarse vertex with weight across, the rebuilt data is wrong. *)
Theorem C19_stale_border_refuted : exists g a cg cp cc fc fp, wf_graph g /\ symmetric g /\ fits g /\ grouping (nv g) a /\
  coarse_make g a = Ok cg /\ exact_part 2 (cg_coarse cg) cp /\ length (c_border cc) = nv (cg_coarse cg) /\
  project cg cc cp = Ok (fc, fp) /\ exists v, v < nv g /\ c_ext fc !! v <> Some (external g (lab fp) v).
Proof.
  exists ex, ex_agg. eexists. exists (mkPart 3 [3; 5]%Z [Some 0; Some 1]), (mkConn [0; 0]%Z [3; 3]%Z [false; false]). eexists _, _.
  split; [exact ex_wf|]. split; [exact ex_sym|]. split; [exact ex_fits|]. split; [exact ex_agg_grouping|].
  split; [vm_compute; reflexivity|]. split; [apply exactb_sound; vm_compute; reflexivity|]. split; [reflexivity|].
  split; [vm_compute; reflexivity|]. exists 0. split; [vm_compute; lia|]. vm_compute. discriminate.
Qed.
Print Assumptions C19_stale_border_refuted.

(** ** C40: two-step builder.  [vs]: announcements, increments and weights, in any order;
    [es]: addEdge(v, destination, weight) calls, in any interleaving. *)
Theorem C40_two_step_builds : forall n uvw uew vs es,
  Forall (vcall_ok n uvw) vs ->
  (uvw = false -> forall v, v < n -> is_Some (set_weight vs v)) ->
  Forall (fun c => fst c < n /\ fst (snd c) < n /\ (0 <= snd (snd c) < W32)%Z) es ->
  (forall v, v < n -> length (inserted es v) = announced vs v) ->
  exists g, run_two_step n uvw uew vs es = Ok g /\ wf_graph g /\ nv g = n /\
    (forall v, v < n -> out g v = (fun a => (fst a, if uew then 1%Z else snd a)) <$> inserted es v) /\
    (forall v, v < n -> vweight g v = if uvw then 1%Z else default 0%Z (set_weight vs v)).
Proof. exact two_step_ok. Qed.
Print Assumptions C40_two_step_builds.
Definition ex_vs : list vcall := [IncNum 2; SetNum 0 7; SetWgt 1 4; SetNum 0 2; IncNum 1; SetWgt 0 1; SetWgt 2 9; SetWgt 1 3]%Z.
Definition ex_es : list (nat * arc) := [(0, (1, 5%Z)); (2, (0, 6%Z)); (1, (0, 5%Z)); (0, (2, 6%Z))].
Example C40_nonvacuous : Forall (vcall_ok 3 false) ex_vs /\ (forall v, v < 3 -> is_Some (set_weight ex_vs v)) /\
  Forall (fun c => fst c < 3 /\ fst (snd c) < 3 /\ (0 <= snd (snd c) < W32)%Z) ex_es /\
  (forall v, v < 3 -> length (inserted ex_es v) = announced ex_vs v).
Proof.
  split; [unfold ex_vs; repeat (apply List.Forall_cons || apply List.Forall_nil); cbn; unfold W32; repeat split; lia|]. split; [intros v Hv; destruct v as [|[|[|v]]]; [eexists; reflexivity..|lia]|].
  split; [unfold ex_es; repeat (apply List.Forall_cons || apply List.Forall_nil); cbn; unfold W32; repeat split; lia|]. intros v Hv; destruct v as [|[|[|v]]]; [reflexivity..|lia].
Qed.
(** Fewer insertions than announced leave cells unwritten. *)
Theorem C40_missing_edge_refuted : run_two_step 2 true false [SetNum 0 1; SetNum 1 1] [(0, (1, 5%Z))] = Fail (UB Uninit).
Proof. vm_compute. reflexivity. Qed.
Print Assumptions C40_missing_edge_refuted.

(** ** C41: one-step builder.  [calls]: for each vertex in turn the addEdge calls and the
    weight given to finishVertex; within the announced number of edges. *)
Theorem C41_one_step_builds : forall n maxE calls, length calls = n ->
  Forall (fun c => Forall (fun a => fst a < n /\ (0 <= snd a < W32)%Z) (fst c) /\ (0 <= snd c < W32)%Z) calls ->
  nsum (fun v => length (others v (adds calls v))) n <= maxE ->
  exists g, run_one_step n maxE calls = Ok g /\ wf_graph g /\ nv g = n /\ loopless g /\
    forall v, v < n ->
      NoDup (fst <$> out g v) /\
      (forall u, u ∈ fst <$> out g v <-> u <> v /\ u ∈ fst <$> adds calls v) /\
      (forall u, u <> v -> W g v u = u32 (sumf (fun a => if decide (fst a = u) then snd a else 0%Z) (adds calls v))) /\
      vweight g v = nth v (snd <$> calls) 0%Z.
Proof.
  intros n maxE calls Hl HF Hc. destruct (run_one_step_ok n maxE calls Hl HF Hc) as (g & E & B). exists g. split; [done|].
  split; [apply B|]. split; [apply B|]. pose proof (bu_nv _ _ _ _ B) as Hn. split.
  { intros v u w Hv Ho ->. rewrite Hn in Hv. destruct (bu_row _ _ _ _ B v Hv) as [_ H _ _].
    apply (proj1 (H v)); [|done]. apply elem_of_list_fmap. exists (v, w). done. }
  intros v Hv. pose proof (bu_row _ _ _ _ B v Hv) as R. split; [apply R|]. split; [apply R|]. split.
  - intros u Hu. rewrite (built_W _ _ _ _ v u B Hv). destruct (decide (u = v)); [done|]. done.
  - symmetry. apply nth_lt_eq. apply (bu_vw _ _ _ _ B v Hv).
Qed.
Print Assumptions C41_one_step_builds.
Definition ex_calls : list (list arc * Z) := [([(1, 2%Z); (0, 9%Z); (1, 3%Z); (2, 1%Z)], 4%Z); ([(0, 5%Z)], 1%Z); ([(2, 7%Z); (0, 1%Z)], 2%Z)].
Example C41_nonvacuous : length ex_calls = 3 /\
  Forall (fun c => Forall (fun a => fst a < 3 /\ (0 <= snd a < W32)%Z) (fst c) /\ (0 <= snd c < W32)%Z) ex_calls /\
  nsum (fun v => length (others v (adds ex_calls v))) 3 <= 4 /\
  exists g, run_one_step 3 4 ex_calls = Ok g /\ out g 0 = [(2, 1%Z); (1, 5%Z)].
Proof. split; [reflexivity|]. split; [unfold ex_calls; repeat (apply List.Forall_cons || apply List.Forall_nil); cbn; unfold W32; repeat split; repeat (apply List.Forall_cons || apply List.Forall_nil); cbn; lia|]. split; [vm_compute; lia|]. eexists. split; [vm_compute; reflexivity|]. reflexivity. Qed.
(** Too small a capacity is an out-of-bounds write. *)
Theorem C41_over_capacity_refuted : run_one_step 3 1 ex_calls = Fail (UB OutOfBounds).
Proof. vm_compute. reflexivity. Qed.
Print Assumptions C41_over_capacity_refuted.
