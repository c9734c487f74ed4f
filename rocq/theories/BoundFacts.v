(** * BoundFacts: how unbalanced a bisection can get, whatever the limits (C58, C03). *)
From Coq Require Import ZArith.
From Verif Require Import Base F64 ModelGraph ModelBuilders ModelPartition ModelConn ModelFM ModelAgg ModelMultilevel ModelBisect Spec Logic Sums
  GraphFacts PartFacts ConnFacts FloatOrder FMFacts MiscFacts FloatUse BisectFacts EvenFacts BucketFacts AggFacts BuilderFacts ContractFacts ProjectFacts
  MultilevelFacts PropsBisect QualityFacts BalanceFacts.

(** ** Growing: no side exceeds the limit by more than a vertex *)
Definition pw_below (b : Z) (l : list Z) : Prop := (nth 0 l 0 <= b)%Z /\ (nth 1 l 0 <= b)%Z.
Lemma bfs_over g (Hwf : wf_graph g) (Hl : light g) t (Ht : two_way t) m W : (0 <= max_of t 0 <= m)%Z -> (target_of t 0 <= max_of t 0)%Z -> (0 <= W)%Z ->
  weights_below W g -> (sumn (nv g) (vweight g) <= target_of t 0 + m)%Z -> 0 < nv g ->
  wpm (bfs_execute t g) (no_weights g) (fun p => valid_part 2 g p /\ (symmetric g -> fits g -> exact_part 2 g p) /\ pw_below (m + W) (p_pw p)).
Proof.
  intros Hm0 Htm HW0 HW Htot Hn. eapply wpm_post; [apply (bfs_execute_wp g Hwf t Ht Hn)|]. intros p [HV HX (q & p1 & HG & HS & HC)].
  split; [done|]. split; [done|]. pose proof (gi_valid _ _ _ _ HG) as HV1.
  destruct (grown_of g t q p1 Hwf Hl (proj1 Hm0) HG HS) as ([Hlab Hmax Hstop] & E0 & E1). pose proof (two_sum g p1 HV1) as HT.
  destruct (valid_pw g p 0 HV ltac:(lia)) as [_ F0]. destruct (valid_pw g p 1 HV ltac:(lia)) as [_ F1].
  rewrite (light_u32 g _ _ Hwf Hl) in F0. rewrite (light_u32 g _ _ Hwf Hl) in F1.
  unfold pw_below. change (nth 0 (p_pw p) 0%Z) with (pw p 0). change (nth 1 (p_pw p) 0%Z) with (pw p 1). rewrite F0, F1.
  change (label_weight g (lab p) (Some 0)) with (side_weight g (p_where p) 0). change (label_weight g (lab p) (Some 1)) with (side_weight g (p_where p) 1).
  assert (HR : (side_weight g (p_where p1) 1 <= m + W)%Z).
  { destruct Hstop as [Hs|Hs]; [lia|].
    destruct (decide (Exists (fun v => p_where p1 !! v = Some (Some 1)) (seq 0 (nv g)))) as [(v & Hv%elem_of_seq & Hv1)%Exists_exists|Hno].
    - specialize (Hs v ltac:(lia) Hv1). specialize (HW v ltac:(lia)). lia.
    - assert (side_weight g (p_where p1) 1 = 0)%Z as ->; [|lia]. apply sumf_zero. intros v Hv.
      destruct (decide (nth v (p_where p1) None = Some 1)) as [E|]; [|done]. exfalso. apply Hno. apply Exists_exists. exists v. split; [done|].
      apply elem_of_seq in Hv. rewrite <- E. apply lookup_nth. rewrite (proj1 Hlab). lia. }
  destruct HC as [[_ ->]|[_ (p2 & H2 & HB)]]; [lia|]. rewrite !H2. destruct HB as [->|(v & Hv & Hv1 & Hw & _)]; [lia|].
  assert (HLW : forall i, side_weight g (p_where p2) i = label_weight g (upd (lab p1) v (Some 0)) (Some i)).
  { intros i. apply label_weight_ext. intros u Hu'. rewrite Hw. unfold upd, lab.
    destruct (decide (u = v)) as [->|Hne].
    - rewrite nth_lookup, list_lookup_insert; [done|]. rewrite (proj1 Hlab). lia.
    - rewrite !nth_lookup, list_lookup_insert_ne by done. done. }
  assert (Hlv : lab p1 v = Some 1) by (unfold lab; rewrite nth_lookup, Hv1; done).
  pose proof (wf_vw_range _ Hwf v). specialize (HW v Hv).
  rewrite !HLW, !label_weight_upd, Hlv by done. change (label_weight g (lab p1) (Some 0)) with (side_weight g (p_where p1) 0).
  change (label_weight g (lab p1) (Some 1)) with (side_weight g (p_where p1) 1). repeat (case_decide; try congruence); lia.
Qed.

(** ** Refinement: with two equal targets the heavier side never grows *)
Lemma even_heavier g t p p' b b' : wf_graph g -> light g -> even t -> valid_part 2 g p -> valid_part 2 g p' ->
  calc_max_imbalance g t p = Ok b -> calc_max_imbalance g t p' = Ok b' -> fle b' b = true ->
  forall M, pw_below M (p_pw p) -> pw_below M (p_pw p').
Proof.
  intros Hwf Hl (f & m & Hf & Hm & Hn) HV HV' Hb Hb' Hle M HM.
  destruct (two_weights g p Hwf Hl HV) as (a0 & a1 & EP & A0 & A1 & AS).
  destruct (two_weights g p' Hwf Hl HV') as (c0 & c1 & EP' & C0 & C1 & CS).
  assert (HT : (g_tvw g < W32)%Z) by (rewrite (wf_tvw g Hwf); unfold u32; apply Z.mod_pos_bound; reflexivity).
  unfold pw_below in *. rewrite EP in HM. rewrite EP'. cbn in *.
  destruct (Z_le_gt_dec c0 M) as [H0|H0]; [destruct (Z_le_gt_dec c1 M) as [H1|H1]; [done|]|]; exfalso.
  all: assert (HX : exists i w, p_pw p' !! i = Some w /\ i < 2 /\ (M < w)%Z /\ (0 <= w <= g_tvw g)%Z)
    by first [exists 1, c1; rewrite EP'; split; [reflexivity|lia]|exists 0, c0; rewrite EP'; split; [reflexivity|lia]].
  all: destruct HX as (i & w & Hw & Hi & Hmw & Hwr); assert (HT1 : (1 <= g_tvw g < W32)%Z) by lia.
  all: destruct (max_imbalance_spec _ _ _ _ Hb) as (_ & Nb & Hcase & _); destruct (max_imbalance_spec _ _ _ _ Hb') as (_ & Nb' & _ & Hall).
  all: destruct (Hall i ltac:(rewrite EP'; simpl; lia)) as (x & Hx & Hlx); rewrite (imb_is g t p' f m i w Hf Hm Hw Hi) in Hx.
  all: injection Hx as <-; specialize (Hlx (imb_nan _ _ _ Hwr HT1 Hn)).
  all: assert (HS : flt b b' = true).
  1,3: eapply flt_le_trans; [exact Nb'| |exact Hlx]; destruct Hcase as [->|(j & Hj & Hjb)]; [apply imb_pos; try done; lia|].
  1,2: assert (Ha : exists a, p_pw p !! j = Some a /\ (0 <= a)%Z /\ (a <= M)%Z)
     by (rewrite EP in *; destruct j as [|[|j]]; simpl in *; [exists a0|exists a1|lia]; (split; [reflexivity|lia])).
  1,2: destruct Ha as (a & Ha & HA0 & HA1); rewrite (imb_is g t p f m j a Hf Hm Ha ltac:(rewrite EP in Hj; simpl in Hj; lia)) in Hjb.
  1,2: injection Hjb as <-; apply imb_sep; try done; lia.
  all: apply flt_nle in Hle; try done; congruence.
Qed.
Lemma even_no_worse g t p p' M : wf_graph g -> light g -> even t -> valid_part 2 g p -> valid_part 2 g p' -> (max_of t 0 <= M)%Z -> no_worse g t p p' ->
  pw_below M (p_pw p) -> pw_below M (p_pw p').
Proof.
  intros Hwf Hl He HV HV' HM [HB HN] HP. destruct He as (f & m & Hf & Hm & Hh). unfold max_of in HM. rewrite Hm in HM. cbn in HM.
  assert (HBal : balanced t p' -> pw_below M (p_pw p')).
  { intros H. pose proof (proj1 (proj2 HV')) as HL. split; (etrans; [apply H; lia|]); rewrite Hm; cbn; lia. }
  destruct (is_balanced_ok t p) as (x & _ & HD); [rewrite Hm; destruct HV as [_ [-> _]]; simpl; lia|].
  destruct x; [apply HBal, HB; exact (proj1 HD eq_refl)|]. destruct HN as [H|(b & b' & Hb & Hb' & Hor)]; [intros H; discriminate (proj2 HD H)|by apply HBal|].
  eapply (even_heavier g t p p' b b'); try done; [exists f, m; done|]. destruct Hor as [H|[H _]]; [|done]. by apply flt_le.
Qed.

Section Library.
  Context (g0 : graph) (Hg0 : undirected g0) (Hne : (Z.of_nat (ne g0) < W32)%Z) (Hnv : (Z.of_nat (nv g0) < W32)%Z) (Hn0 : 0 < nv g0).
  Context (Hsum : (sumn (nv g0) (vweight g0) < NULL_WGT)%Z) (t : target) (He : even t) (Ht : two_way t) (m W : Z).
  Context (Hm : (0 <= max_of t 0 <= m)%Z) (Htm : (target_of t 0 <= max_of t 0)%Z) (Htot : (sumn (nv g0) (vweight g0) <= target_of t 0 + m)%Z).
  Context (HW : weights_below W g0) (Hlim : nv g0 <= 20 \/ ne g0 = 0 \/ (3 * sumn (nv g0) (vweight g0) <= 40 * W)%Z).
  Lemma library_over scheme agg n it mv : aggregator_make scheme = Ok agg -> (1 <= n)%Z ->
    wpm (ml_execute agg (multi_execute n bfs_execute) (fm_refine it mv) t g0) (no_weights g0) (fun p => exact_part 2 g0 p /\ pw_below (m + W) (p_pw p)).
  Proof.
    intros Hagg Hn. assert (Hli : light g0) by (unfold light; assert (HN : (NULL_WGT < W32)%Z) by (vm_compute; reflexivity); lia).
    destruct (ml_max_weight_ok g0) as (mw & Emw & Hmw).
    { rewrite (wf_tvw _ (ud_wf _ Hg0)). apply u32_range. }
    assert (Htf : 2 <= length (t_frac t)) by (rewrite (tw_frac t Ht); done). assert (Htx : 2 <= length (t_max t)) by (rewrite (tw_max t Ht); done).
    assert (Hpos : (0 <= sumn (nv g0) (vweight g0))%Z) by (apply sumf_nonneg; intros v _; apply (wf_vw_range _ (ud_wf _ Hg0))).
    assert (HW0 : (0 <= W)%Z).
    { etrans; [|apply (HW 0 Hn0)]. apply (wf_vw_range _ (ud_wf _ Hg0)). }
    assert (HTW : g_tvw g0 = sumn (nv g0) (vweight g0)) by (rewrite (wf_tvw _ (ud_wf _ Hg0)), u32_small; [done|]; unfold light in Hli; lia).
    assert (Hml : nv g0 <= 20 \/ ne g0 = 0 \/ (mw <= W)%Z).
    { destruct Hlim as [?|[?|Hlm]]; [by left|by right; left|right; right]. destruct (Z_lt_le_dec W W32) as [HWs|HWb]; [|lia].
      eapply (ml_max_weight_le g0 mw W); [|lia| |done]; rewrite HTW; [unfold light in Hli; lia|done]. }
    apply (ml_execute_carry g0 Hg0 Hne _ _ _ t mw _ (weights_below W) (pw_below (m + W))); [| | |done|done].
    - intros g cm HL HR Hbig Hbig2. pose proof (level_inv _ _ _ Hg0 HL) as HLo. pose proof (lo_ud _ _ _ HLo) as [Hwf Hs Hl Hf].
      destruct Hml as [Hml|[Hml|Hml]]; [pose proof (lo_nv _ _ _ HLo); lia|pose proof (lo_ne _ _ _ HLo); lia|].
      assert (HT : (sumn (nv g) (vweight g) < NULL_WGT)%Z) by (rewrite (lo_vsum _ _ _ HLo Hli); done).
      assert (HA : wpm (agg mw g) (no_weights g0) (agg_result g mw)).
      { unfold aggregator_make in Hagg. destruct (scheme =? 0)%Z; [|destruct (scheme =? 1)%Z; [|done]]; injection Hagg as <-; (eapply wpm_mono; [first [by apply rm_aggregate_wp|by apply shemrm_aggregate_wp]|done|done]). }
      eapply wpm_post; [exact HA|]. intros a Ha. split; [by eapply result_coarsening|]. intros cg Hcg. by eapply contract_weights.
    - intros g cm HL HR. pose proof (level_inv _ _ _ Hg0 HL) as HLo. pose proof (lo_ud _ _ _ HLo) as [Hwf Hs Hl Hf].
      apply multi_execute_wp; try done; [|intros p [Hp _]; apply Hp].
      eapply wpm_mono; [apply (bfs_over g Hwf (level_light _ _ _ Hg0 HL Hli) t Ht m W Hm Htm HW0 HR)| |].
      + rewrite (lo_vsum _ _ _ HLo Hli). done.
      + by eapply level_nonempty.
      + intros f (Hf1 & Hf2 & Hf3). destruct (level_shape g0 g cm Hg0 HL) as [->|Hx]; [done|congruence].
      + intros p (H1 & H2 & H3). split; [by apply H2|]. exact H3.
    - intros g cm c p HL Hgd HQ. pose proof (level_inv _ _ _ Hg0 HL) as HLo. pose proof (lo_ud _ _ _ HLo) as [Hwf Hs Hl Hf].
      pose proof (level_light _ _ _ Hg0 HL Hli) as Hlg.
      eapply wpm_post; [eapply (refine_keeps g0 Hg0 Hnv it mv t Ht); [exact HL|by apply even_monotone|done]|].
      intros r [R1 R2]. split; [done|]. eapply (even_no_worse g t p (snd r)); try done; [apply Hgd|apply R1|lia].
  Qed.
End Library.
