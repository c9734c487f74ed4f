(** * PropsBalance: coarse vertices stay light (C55); balance is guaranteed when the limits leave
    room for the heaviest vertex (C56). *)
From Coq Require Import ZArith.
From Verif Require Import Base F64 ModelGraph ModelBuilders ModelPartition ModelConn ModelFM ModelAgg ModelMultilevel ModelBisect Spec Logic Sums
  GraphFacts MiscFacts EvenFacts BisectFacts AggFacts ContractFacts ProjectFacts MultilevelFacts Examples PropsBisect PropsMultilevel PropsQuality BalanceFacts.
#[local] Arguments seq : simpl nomatch.

(** ** C55.  [hierarchy agg maxW g0 d g]: g is a graph d contractions below g0, each contracting
    an aggregation the aggregator may return for the graph above it. *)
Inductive hierarchy (agg : aggregator) (maxW : Z) (g0 : graph) : nat -> graph -> Prop :=
  | h_top : hierarchy agg maxW g0 0 g0
  | h_down d g s a s' cg : hierarchy agg maxW g0 d g -> agg maxW g s = Ok (a, s') -> contract g a = Ok cg ->
      hierarchy agg maxW g0 (S d) cg.
Definition heaviest_below (b : Z) (g : graph) : Prop := forall v, v < nv g -> (vweight g v <= b)%Z.
Lemma make_result scheme agg maxW g s a s' : aggregator_make scheme = Ok agg -> wf_graph g -> loopless g -> agg maxW g s = Ok (a, s') -> agg_result g maxW a.
Proof.
  intros Hagg Hwf Hl E. assert (HA : wpm (agg maxW g) never (agg_result g maxW)).
  { unfold aggregator_make in Hagg. destruct (scheme =? 0)%Z; [|destruct (scheme =? 1)%Z; [|done]]; injection Hagg as <-; [by apply rm_aggregate_wp|by apply shemrm_aggregate_wp]. }
  exact (wpm_elim _ _ _ _ _ _ HA E).
Qed.
Theorem C55_coarse_weights_bounded : forall scheme agg maxW g0 d g b, aggregator_make scheme = Ok agg -> wf_graph g0 -> loopless g0 ->
  (sumn (nv g0) (vweight g0) < NULL_WGT)%Z -> hierarchy agg maxW g0 d g ->
  (maxW <= b)%Z -> heaviest_below b g0 ->
  heaviest_below b g /\ sumn (nv g) (vweight g) = sumn (nv g0) (vweight g0) /\ nv g <= nv g0 <= 2 ^ d * nv g.
Proof.
  intros scheme agg maxW g0 d g b Hagg Hwf Hl HT HH Hb HW.
  enough ((wf_graph g /\ loopless g) /\ heaviest_below b g /\ sumn (nv g) (vweight g) = sumn (nv g0) (vweight g0) /\ nv g <= nv g0 <= 2 ^ d * nv g) by tauto.
  induction HH as [|d g s a s' cg HH ((IW & IL) & IH & IS & IN) E1 E2].
  - split; [done|]. split; [done|]. split; [done|]. simpl. lia.
  - pose proof (make_result _ _ _ _ _ _ _ Hagg IW IL E1) as Ha. pose proof (ar_grouping _ _ _ Ha) as HG.
    destruct (contract_ok g a IW HG) as (cg' & E' & Hc). rewrite E2 in E'. injection E' as <-.
    assert (HT' : (sumn (nv g) (vweight g) < NULL_WGT)%Z) by (rewrite IS; done).
    split; [split; apply Hc|]. split; [by eapply (contract_weights g a cg maxW b)|]. split.
    + rewrite <- IS. apply (coarse_vsum g IW a HG cg Hc). assert (HN : (NULL_WGT < W32)%Z) by (vm_compute; reflexivity). lia.
    + pose proof (contract_half g a maxW Ha) as H2. pose proof (proj2 (result_coarsening g maxW a Ha)) as H1.
      rewrite (co_nv _ _ _ Hc). rewrite Nat.pow_succ_r'. split; [lia|]. etrans; [apply IN|]. nia.
Qed.
Print Assumptions C55_coarse_weights_bounded.
(** Two levels of a cycle of 24 vertices with weights 1 to 3, limit 6: pairs are made. *)
Example C55_nonvacuous : wf_graph (ring 24) /\ loopless (ring 24) /\ (sumn (nv (ring 24)) (vweight (ring 24)) < NULL_WGT)%Z /\ heaviest_below 6 (ring 24) /\
  exists g, hierarchy shemrm_aggregate 6 (ring 24) 1 g /\ nv g < 24 /\ vweight g 0 = 4%Z.
Proof.
  split; [apply ring24|]. split; [apply ring24|]. split; [vm_compute; reflexivity|]. split.
  - intros v Hv. do 24 (destruct v as [|v]; [vm_compute; discriminate|]). change (nv (ring 24)) with 24 in Hv. lia.
  - eexists. split; [|split]; [eapply (h_down _ _ _ _ _ []); [apply h_top|vm_compute; reflexivity|vm_compute; reflexivity]| |].
    + vm_compute. lia.
    + vm_compute. reflexivity.
Qed.

(** ** C56: if every vertex weighs at most one more than the limit of the left side exceeds its
    target (and so does 3/40 of the total weight, the heaviest vertex coarsening makes, unless the
    graph has at most 20 vertices or no edges and is not coarsened), and the other side can take what the target leaves, multilevel
    bisection always succeeds and both sides are within their limits. *)
Theorem C56_balanced_with_room : forall g0 t scheme agg s,
  undirected g0 -> (Z.of_nat (ne g0) < W32)%Z -> (Z.of_nat (nv g0) < W32)%Z -> 0 < nv g0 ->
  (sumn (nv g0) (vweight g0) < NULL_WGT)%Z -> even_target t -> (0 <= max_of t 0 < W32)%Z -> (0 < target_of t 0)%Z ->
  aggregator_make scheme = Ok agg ->
  let slack := (max_of t 0 - target_of t 0)%Z in
  heaviest_below (slack + 1) g0 -> nv g0 <= 20 \/ ne g0 = 0 \/ (3 * sumn (nv g0) (vweight g0) <= 40 * (slack + 1))%Z ->
  (sumn (nv g0) (vweight g0) <= target_of t 0 + max_of t 1)%Z ->
  exists p s', ml_execute agg (multi_execute 8 bfs_execute) (fm_refine 8 150) t g0 s = Ok (p, s') /\ exact_part 2 g0 p /\
    (side_weight g0 (p_where p) 0 <= max_of t 0)%Z /\ (side_weight g0 (p_where p) 1 <= max_of t 1)%Z.
Proof.
  intros g0 t scheme agg s H0 Hne Hnv Hn HT He Hm Ht0 Hagg slack Hroom Hlim Htot.
  pose proof (even_two_way t He) as Ht. apply even_target_even in He. 
  assert (Hm1 : (0 <= max_of t 1)%Z).
  { destruct He as (f & m & _ & E & _). unfold max_of in *. rewrite E in *. exact (proj1 Hm). }
  assert (Hl : light g0) by (unfold light; assert (HN : (NULL_WGT < W32)%Z) by (vm_compute; reflexivity); lia).
  assert (Hmon : forall g cm, level g0 g cm -> limits_monotone g t).
  { intros g cm HL. pose proof (level_inv _ _ _ H0 HL) as HLo. apply even_monotone; [apply HLo|by eapply level_light|done]. }
  pose proof (library_balanced g0 H0 Hne Hnv Hn HT t Hmon Ht Hm Hm1 Ht0 Hroom Htot Hlim scheme agg 8 8 150 never Hagg ltac:(lia)) as HP.
  apply (wpm_never _ _ s) in HP. destruct HP as (p & s' & E & HX & HF). exists p, s'. split; [done|]. split; [done|].
  pose proof (proj1 HX) as HV. destruct (valid_pw g0 p 0 HV ltac:(lia)) as [_ E0]. destruct (valid_pw g0 p 1 HV ltac:(lia)) as [_ E1].
  rewrite (light_u32 g0 _ _ (ud_wf _ H0) Hl) in E0. rewrite (light_u32 g0 _ _ (ud_wf _ H0) Hl) in E1. unfold pw in *.
  change (side_weight g0 (p_where p) 0) with (label_weight g0 (lab p) (Some 0)). change (side_weight g0 (p_where p) 1) with (label_weight g0 (lab p) (Some 1)).
  rewrite <- E0, <- E1. exact HF.
Qed.
Print Assumptions C56_balanced_with_room.
(** The cycle of 24 vertices of total weight 48, targets 24, limits 27: coarsened, and balanced
    whatever the random choices. *)
Definition ex56_t : target := target_of_weights [24; 24]%Z [27; 27]%Z.
Lemma C56_meets : undirected (ring 24) /\ (Z.of_nat (ne (ring 24)) < W32)%Z /\ (Z.of_nat (nv (ring 24)) < W32)%Z /\ 0 < nv (ring 24) /\
  (sumn (nv (ring 24)) (vweight (ring 24)) < NULL_WGT)%Z /\ even_target ex56_t /\ (0 <= max_of ex56_t 0 < W32)%Z /\ (0 < target_of ex56_t 0)%Z /\
  heaviest_below (max_of ex56_t 0 - target_of ex56_t 0 + 1) (ring 24) /\
  (3 * sumn (nv (ring 24)) (vweight (ring 24)) <= 40 * (max_of ex56_t 0 - target_of ex56_t 0 + 1))%Z /\
  (sumn (nv (ring 24)) (vweight (ring 24)) <= target_of ex56_t 0 + max_of ex56_t 1)%Z.
Proof.
  split; [exact ring24|]. split; [vm_compute; reflexivity|]. split; [vm_compute; reflexivity|]. split; [vm_compute; lia|].
  split; [vm_compute; reflexivity|]. split; [apply et_weights; reflexivity|]. split; [vm_compute; split; [discriminate|reflexivity]|].
  split; [vm_compute; reflexivity|]. split; [|split; vm_compute; discriminate].
  intros v Hv. do 24 (destruct v as [|v]; [vm_compute; discriminate|]). change (nv (ring 24)) with 24 in Hv. lia.
Qed.
Example C56_nonvacuous : forall s, exists p s', ml_execute shemrm_aggregate (multi_execute 8 bfs_execute) (fm_refine 8 150) ex56_t (ring 24) s = Ok (p, s') /\
  (side_weight (ring 24) (p_where p) 0 <= 27)%Z /\ (side_weight (ring 24) (p_where p) 1 <= 27)%Z.
Proof.
  intros s. destruct C56_meets as (A1 & A2 & A3 & A4 & A5 & A6 & A7 & A8 & A9 & A10 & A11).
  destruct (C56_balanced_with_room (ring 24) ex56_t 1 shemrm_aggregate s A1 A2 A3 A4 A5 A6 A7 A8 eq_refl A9 (or_intror (or_intror A10)) A11) as (p & s' & E & _ & H0 & H1).
  exists p, s'. split; [exact E|]. split; [exact H0|exact H1].
Qed.
