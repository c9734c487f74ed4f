(** * BalanceFacts: when the limits leave room for the heaviest vertex, multilevel bisection is
    balanced (C55, C56). *)
From Coq Require Import ZArith.
From Verif Require Import Base F64 ModelGraph ModelBuilders ModelPartition ModelConn ModelFM ModelAgg ModelMultilevel ModelBisect Spec Logic Sums
  GraphFacts PartFacts ConnFacts FMFacts MiscFacts FloatUse BisectFacts EvenFacts BucketFacts AggFacts BuilderFacts ContractFacts ProjectFacts
  MultilevelFacts PropsBisect QualityFacts.

(** ** Growing with room *)
  Lemma two_sum g p : valid_part 2 g p -> (side_weight g (p_where p) 0 + side_weight g (p_where p) 1 = sumn (nv g) (vweight g))%Z.
  Proof.
    intros [Hlab _]. unfold side_weight, label_weight. rewrite <- sumf_add. apply sumf_ext. intros v Hv%elem_of_seq.
    destruct (proj2 Hlab v ltac:(lia)) as (a & Ha & E). rewrite (nth_lt_eq _ _ _ _ E). destruct a as [|[|a]]; [| |lia].
    - rewrite decide_True, decide_False by done. lia.
    - rewrite decide_False, decide_True by done. lia.
  Qed.
Section Room.
  Context (g : graph) (Hwf : wf_graph g) (Hl : light g) (t : target) (Ht : two_way t) (Hm0 : (0 <= max_of t 0)%Z).
  Context (Hroom : forall v, v < nv g -> (target_of t 0 + vweight g v <= max_of t 0 + 1)%Z).
  Context (Htot : (sumn (nv g) (vweight g) <= target_of t 0 + max_of t 1)%Z) (Hm1 : (0 <= max_of t 1)%Z).
  Definition within (p : part) : Prop := (pw p 0 <= max_of t 0)%Z /\ (pw p 1 <= max_of t 1)%Z.
  Lemma grown_within q p : grow_inv g t q p -> stopped t q p -> within p.
  Proof.
    intros HI HS. destruct (grown_of g t q p Hwf Hl Hm0 HI HS) as ([Hlab Hmax Hstop] & E0 & E1). pose proof (two_sum g p (gi_valid _ _ _ _ HI)) as HT.
    unfold within. rewrite E0, E1. split; [done|]. destruct Hstop as [Hs|Hs]; [lia|].
    destruct (decide (side_weight g (p_where p) 0 < target_of t 0)%Z) as [Hlt|]; [|lia].
    (* nothing remains on the right *)
    assert (side_weight g (p_where p) 1 = 0)%Z as ->; [|done]. apply sumf_zero. intros v Hv%elem_of_seq.
    destruct (decide (nth v (p_where p) None = Some 1)) as [E|]; [|done]. exfalso.
    assert (Hv' : p_where p !! v = Some (Some 1)). { rewrite <- E. apply lookup_nth. rewrite (proj1 Hlab). lia. }
    specialize (Hs v ltac:(lia) Hv'). specialize (Hroom v ltac:(lia)). lia.
  Qed.
  Lemma bfs_from_room E seed : seed < nv g -> wpm (bfs_from seed t g) E (fun p => valid_part 2 g p /\ (symmetric g -> fits g -> exact_part 2 g p) /\ within p).
  Proof.
    intros Hs. unfold bfs_from.
    assert (Hq := bfs_queue_wp g E seed Hs).
    eapply (wpm_bind _ _ _ (fun q => wpo (ofold (fun q v => if Nat.eqb v seed then Ok q else q_add q 0%Z v) q (seq 0 (nv g))) E
      (fun q => length q = nv g /\ forall v, v < nv g -> exists k, q !! v = Some (Some k)))).
    { apply wpm_lift. destruct (q_add (q_new (nv g)) 1 seed); simpl in *; done. }
    intros q0 H0. eapply wpm_bind; [apply wpm_lift; exact H0|]. clear Hq q0 H0. intros q [HL HQ].
    eapply wpm_bind; [apply wpm_lift; apply (assign_all_wp g Hwf 2)|].
    { simpl. rewrite replicate_length. unfold t_np. apply Ht. } { simpl. apply replicate_length. } { lia. }
    intros p (_ & Hw & Hlab & Hwx).
    assert (HV : valid_part 2 g p) by (split; done).
    assert (HI : grow_inv g t q p).
    { constructor; try done.
      - intros v k Hv. rewrite Hw. apply lookup_replicate. split; [done|]. rewrite <- HL. eapply lookup_lt_Some; eauto.
      - intros Hm. destruct (valid_pw g p 0 HV ltac:(lia)) as [_ ->].
        replace (label_weight g (lab p) (Some 0)) with 0%Z; [rewrite u32_0; done|]. symmetry. apply sumf_zero.
        intros v Hv%elem_of_seq. rewrite lab_labw, Hw. unfold labw. rewrite nth_lookup, lookup_replicate_2 by lia. done.
      - intros _ v Hv _. left. by apply HQ. }
    eapply wpm_bind; [apply (grow_wp g Hwf t Ht E (nv g) q p HI)|].
    { rewrite <- HL. apply q_size_le. }
    intros [q1 p1] [HI1 HS1]. cbn [fst snd] in *. pose proof (grown_within q1 p1 HI1 HS1) as HW. pose proof (gi_valid _ _ _ _ HI1) as HV1.
    destruct (valid_pw g p1 1 HV1 ltac:(lia)) as [-> _]. apply wpm_liftk. rewrite (tmax_rd t Ht) by lia. apply wpm_liftk.
    destruct (Z.ltb_spec (nth 1 (t_max t) 0%Z) (pw p1 1%nat)) as [Hov|Hok]; [destruct HW as [_ HW]; unfold max_of in HW; lia|].
    eapply (wpm_bind _ _ _ (fun p => p = p1)); [by apply wpm_ret|]. intros p2 ->. apply wpm_lift.
    eapply wpo_post; [apply (recalc_cut_all _ 2 g p1 Hwf HV1)|]. intros p3 (HV3 & Hw3 & Hp3 & HX3). split; [done|]. split; [done|].
    unfold within, pw. rewrite Hp3. exact HW.
  Qed.
  Lemma bfs_room E : 0 < nv g -> wpm (bfs_execute t g) E (fun p => valid_part 2 g p /\ (symmetric g -> fits g -> exact_part 2 g p) /\ within p).
  Proof.
    intros Hn. unfold bfs_execute. eapply (wpm_bind _ _ _ (fun s => s < nv g)); [apply wpm_choose_below; [lia|done]|]. intros seed Hs. by apply bfs_from_room.
  Qed.
End Room.

(** ** A recursion that carries an invariant of the graphs and of the part weights *)
Section Carry.
  Context (g0 : graph) (Hg0 : undirected g0) (Hne : (Z.of_nat (ne g0) < W32)%Z).
  Context (agg : aggregator) (init : bisector) (ref : refiner) (t : target) (maxW : Z) (E : failure -> Prop).
  Context (R : graph -> Prop) (Q : list Z -> Prop).
  Context (Hagg : forall g cm, level g0 g cm -> R g -> 20 < nv g -> 0 < ne g ->
    wpm (agg maxW g) E (fun a => coarsening (nv g) a /\ forall cg, contract g a = Ok cg -> R cg)).
  Context (Hinit : forall g cm, level g0 g cm -> R g -> wpm (init t g) E (fun p => exact_part 2 g p /\ Q (p_pw p))).
  Context (Href : forall g cm c p, level g0 g cm -> ml_good g (c, p) -> Q (p_pw p) -> wpm (ref g t c p) E (fun r => ml_good g r /\ Q (p_pw (snd r)))).
  Let stop : criteria := composite_stop [vertex_number_stop 20; edge_ratio_stop f_0_95].
  Lemma carry_stop fuel lvl parent g : enough_fuel fuel lvl parent g -> (Z.of_nat (ne g) < W32)%Z ->
    exists b, stop lvl parent (Some g) = Ok b /\ (b = false -> ne g < fuel /\ 20 < nv g /\ 0 < ne g).
  Proof.
    intros HF Hb. unfold stop. cbn [composite_stop]. unfold vertex_number_stop. cbn [obind].
    destruct (Nat.leb_spec (nv g) 20); [exists true; done|]. unfold edge_ratio_stop.
    assert (Hnt : (Nat.ltb 0 lvl && bool_decide (parent = None)) = false).
    { destruct parent as [f|]; [rewrite bool_decide_false by done; apply andb_false_r|]. destruct HF as [-> _]. done. }
    rewrite Hnt. destruct (Nat.eqb_spec (ne g) 0); [exists true; done|].
    destruct parent as [f|]; simpl in HF.
    - destruct HF as [HF1 HF2]. destruct (Nat.eqb_spec (ne f) 0) as [Hz|Hz]; [exists true; done|].
      destruct (fgt (fdiv (f_of_nat (ne g)) (f_of_nat (ne f))) f_0_95) eqn:Er; cbn [obind]; [exists true; done|].
      exists false. split; [done|]. intros _. pose proof (ratio_shrinks (ne g) (ne f) Hb HF2 ltac:(lia) Er). lia.
    - exists false. split; [done|]. intros _. lia.
  Qed.
  Lemma ml_recurse_carry fuel : forall lvl parent g cm, level g0 g cm -> R g -> enough_fuel fuel lvl parent g ->
    wpm (ml_recurse agg init ref stop maxW t fuel lvl parent g) E (fun r => ml_good g r /\ Q (p_pw (snd r))).
  Proof.
    induction fuel as [|fuel IH]; intros lvl parent g cm HL HR HF.
    all: pose proof (level_inv _ _ _ Hg0 HL) as HLo; pose proof (lo_ud _ _ _ HLo) as [Hwf Hs Hl Hf]; pose proof (lo_ne _ _ _ HLo) as HN.
    all: destruct (carry_stop _ lvl parent g HF ltac:(lia)) as (b & Eb & Hb); cbn [ml_recurse]; rewrite Eb; apply wpm_liftk.
    all: destruct b; [eapply wpm_bind; [by eapply Hinit|]; intros p [Hp HQ];
      eapply wpm_bind; [apply wpm_lift; apply (from_partitioning_wp g Hwf Hf E p); apply Hp|]; intros c [Hc1 Hc2];
      apply wpm_ret; split; [|done]; split; [done|]; split; [done|]; by apply fresh_exact|].
    - destruct (Hb eq_refl). lia.
    - destruct (Hb eq_refl) as (Hb1 & Hb2 & Hb3). eapply wpm_bind; [by eapply Hagg|]. intros a [Hco HRc]. pose proof (proj1 Hco) as Ha.
      destruct (coarse_make_ok g a Hwf Ha) as (cg & Ecg & Hcg). rewrite Ecg. apply wpm_liftk. cbn [cg_coarse].
      assert (Econ : contract g a = Ok cg).
      { destruct (contract_ok g a Hwf Ha) as (cg' & E' & _). unfold coarse_make in Ecg. rewrite E' in Ecg. cbn [obind] in Ecg.
        destruct (Nat.eqb _ _); [|done]. injection Ecg as <-. done. }
      eapply wpm_bind; [apply (IH (S lvl) (Some g) cg _ (level_down _ _ _ _ _ HL Hco Econ) (HRc cg Econ))|].
      { simpl. split; lia. }
      intros [cc cp] ((HX & HC & HB) & HQ). cbn [fst snd] in *.
      eapply wpm_bind; [apply wpm_lift; apply (project_wp g Hwf Hs Hf a Ha cg Hcg 2 cp HX cc)|].
      + apply HC.
      + intros c Hlt Hext. apply (HB c Hlt); [|done]. rewrite <- (int_ext_total cg (lab cp) c).
        pose proof (internal_nonneg cg (co_wf _ _ _ Hcg) (lab cp) c Hlt). lia.
      + intros [fc fp] (P1 & P2 & P3 & _ & P5 & P6). cbn [fst snd] in *. eapply Href; [done| |congruence]. split; [done|]. split; [done|]. by apply fresh_exact.
  Qed.
  Lemma ml_execute_carry : R g0 -> ml_max_weight g0 = Ok maxW -> wpm (ml_execute agg init ref t g0) E (fun p => exact_part 2 g0 p /\ Q (p_pw p)).
  Proof.
    intros HR EM. unfold ml_execute. rewrite ml_criteria_eq. apply wpm_liftk.
    rewrite EM. apply wpm_liftk. eapply wpm_bind; [apply (ml_recurse_carry _ 0 None g0 _ (level_top g0) HR)|].
    - split; [done|]. lia.
    - intros r [Hr HQ]. apply wpm_ret. split; [apply Hr|done].
  Qed.
End Carry.

(** ** Coarse vertex weights *)
Definition weights_below (b : Z) (g : graph) : Prop := forall v, v < nv g -> (vweight g v <= b)%Z.
Lemma contract_weights g a cg maxW b : wf_graph g -> (sumn (nv g) (vweight g) < NULL_WGT)%Z -> agg_result g maxW a -> contract g a = Ok cg ->
  (maxW <= b)%Z -> weights_below b g -> weights_below b cg.
Proof.
  intros Hwf HT Ha Hc Hb HW c Hlt. pose proof (ar_grouping _ _ _ Ha) as HG.
  destruct (contract_ok g a Hwf HG) as (cg' & E' & Hco). rewrite Hc in E'. injection E' as <-.
  rewrite (co_vw _ _ _ Hco) by done. rewrite (co_nv _ _ _ Hco) in Hlt.
  assert (HL : label_weight g (group_of a) c = sumf (vweight g) (filter (fun v => a_cmap a !! v = Some c) (seq 0 (nv g)))).
  { rewrite sumf_filter. unfold label_weight, sumn. apply sumf_ext. intros v Hv%elem_of_seq.
    rewrite (cmap_look _ _ HG) by lia. destruct (decide (group_of a v = c)), (decide (Some (group_of a v) = Some c)); congruence. }
  pose proof (label_weight_bounds g (group_of a) c Hwf) as HB. assert (HNW : (NULL_WGT < W32)%Z) by (vm_compute; reflexivity). rewrite u32_small by lia. rewrite HL.
  destruct (ar_size _ _ _ Ha c Hlt) as (v & [H|(w & H & Hvw & _)]); rewrite (proj2 (proj2 HG) c Hlt) in H; injection H as H.
  - assert (Hin : v ∈ filter (fun v => a_cmap a !! v = Some c) (seq 0 (nv g))) by (rewrite H; set_solver).
    rewrite H. change (vweight g v + 0 <= b)%Z. apply elem_of_list_filter in Hin as [_ Hin%elem_of_seq]. specialize (HW v ltac:(lia)). lia.
  - assert (Hv : v ∈ filter (fun v => a_cmap a !! v = Some c) (seq 0 (nv g))) by (rewrite H; set_solver).
    assert (Hw : w ∈ filter (fun v => a_cmap a !! v = Some c) (seq 0 (nv g))) by (rewrite H; set_solver).
    rewrite H. change (vweight g v + (vweight g w + 0) <= b)%Z. apply elem_of_list_filter in Hv as [Hv _]. apply elem_of_list_filter in Hw as [Hw _].
    pose proof (result_weight g maxW a v w Hwf HT Ha ltac:(by exists c) Hvw). lia.
Qed.
(** Groups of at most two: at least half as many coarse vertices. *)
Lemma contract_half g a maxW : agg_result g maxW a -> nv g <= 2 * a_num_coarse a.
Proof.
  intros Ha. pose proof (ar_grouping _ _ _ Ha) as HG.
  assert (H : length (seq 0 (a_num_coarse a) ≫= fun c => filter (fun v => a_cmap a !! v = Some c) (seq 0 (nv g))) <= 2 * a_num_coarse a).
  { assert (forall l, Forall (fun c => c < a_num_coarse a) l -> length (l ≫= fun c => filter (fun v => a_cmap a !! v = Some c) (seq 0 (nv g))) <= 2 * length l) as H.
    { intros l Hl. induction Hl as [|c l Hc Hl IH]; [done|]. cbn [mbind list_bind length]. rewrite app_length.
      assert (length (filter (fun v => a_cmap a !! v = Some c) (seq 0 (nv g))) <= 2); [|change (list_bind _ _ ?f l) with (l ≫= f) in *; lia].
      destruct (ar_size _ _ _ Ha c Hc) as (v & [H|(w & H & _)]); rewrite (proj2 (proj2 HG) c Hc) in H; injection H as ->; simpl; lia. }
    specialize (H (seq 0 (a_num_coarse a))). rewrite seq_length in H. apply H. apply Forall_forall. intros c Hc%elem_of_seq. lia. }
  etrans; [|exact H]. rewrite <- (seq_length (nv g) 0) at 1. apply submseteq_length. apply NoDup_submseteq; [apply NoDup_seq|].
  intros v Hv. apply elem_of_list_bind. exists (group_of a v). pose proof (proj1 (elem_of_seq _ _ _) Hv) as Hv'.
  split; [apply elem_of_list_filter; split; [apply (cmap_look _ _ HG); lia|done]|].
  apply elem_of_seq. pose proof (cmap_look _ _ HG v ltac:(lia)) as Hc. pose proof (proj1 (Forall_lookup _ _) (proj1 (proj2 HG)) v _ Hc). simpl in *. lia.
Qed.

(** ** The weight limit of multilevel bisection, in integers *)
From Coq Require Import Reals Lra.
From Flocq Require Import Core.
From Verif Require Import FloatFacts.
Lemma ml_max_weight_le g w b : (0 <= g_tvw g < W32)%Z -> (0 <= b < W32)%Z -> (3 * g_tvw g <= 40 * b)%Z -> ml_max_weight g = Ok w -> (w <= b)%Z.
Proof.
  intros Hr Hb H3. unfold ml_max_weight. pose proof (IZR_W32 _ Hr) as [B0 B1]. pose proof (IZR_W32 _ Hb) as [C0 C1]. rewrite W32_R in *.
  pose proof (f_of_Z_R _ (W32_lt_53 _ Hr)) as Hx.
  pose proof (mul_R _ _ _ _ r15_R Hx) as Hm. rewrite r15_val in Hm.
  set (a := (3 / 2 * IZR (g_tvw g))%R) in *.
  apply IZR_le in H3. rewrite !mult_IZR in H3.
  assert (0 <= a <= IZR 8589934592)%R as Ha by (unfold a; split; lra).
  specialize (Hm ltac:(apply (no_overflow _ 8589934592); [simpl; lia|apply Rabs_le; lra])).
  assert (0 <= rnd a <= IZR 8589934592)%R as HA.
  { split; [apply (rnd_ge_int _ 0); [simpl; lia|lra]|apply rnd_le_int; [simpl; lia|lra]]. }
  assert (rnd a <= 20 * IZR b)%R as HA2.
  { replace (20 * IZR b)%R with (IZR (20 * b)) by (rewrite mult_IZR; done). apply rnd_le_int; [unfold W32 in *; simpl; lia|]. rewrite mult_IZR. unfold a. lra. }
  pose proof (div_R _ _ _ _ Hm (f_of_Z_R 20 ltac:(simpl; lia)) ltac:(lra)) as Hd.
  assert (0 <= rnd a / 20 <= IZR 4294967295)%R as HB by (split; lra).
  specialize (Hd ltac:(apply (no_overflow _ 4294967295); [simpl; lia|apply Rabs_le; lra])).
  assert (0 <= rnd (rnd a / 20))%R as H0 by (apply (rnd_ge_int _ 0); [simpl; lia|lra]).
  assert (rnd (rnd a / 20) < IZR W32)%R as H1.
  { apply Rle_lt_trans with (IZR 4294967295); [apply rnd_le_int; [simpl; lia|lra]|apply IZR_lt; reflexivity]. }
  assert (rnd (rnd a / 20) <= IZR b)%R as H2 by (apply rnd_le_int; [unfold W32 in *; simpl; lia|lra]).
  rewrite (f_to_u32_R _ _ Hd H0 H1). injection 1 as <-. apply le_IZR. apply Rle_trans with (2 := H2). apply Zfloor_lb.
Qed.

Lemma refine_keeps g0 (Hg0 : undirected g0) (Hnv : (Z.of_nat (nv g0) < W32)%Z) it mv t (Ht : two_way t) E g cm c p : level g0 g cm -> limits_monotone g t -> ml_good g (c, p) ->
  wpm (fm_refine it mv g t c p) E (fun r => ml_good g r /\ no_worse g t p (snd r)).
Proof.
  intros HL Hmon (H1 & H2 & H3). cbn [fst snd] in *. pose proof (tw_frac t Ht) as Htf. pose proof (tw_max t Ht) as Htm.
  pose proof (level_inv _ _ _ Hg0 HL) as HLo. pose proof (lo_ud _ _ _ HLo) as [Hwf Hs Hl Hf]. pose proof (lo_nv _ _ _ HLo).
  destruct (max_bad_moves_ok mv (nv g) ltac:(lia)) as [mb Hmb].
  eapply wpm_post; [apply (fm_refine_wp g Hwf Hs Hl Hf t ltac:(lia) ltac:(lia) E it mv c p mb); done|].
  intros r (A & B & C & D). split; [done|]. apply no_worse_rtc; try done; try lia.
Qed.
Section Library.
  Context (g0 : graph) (Hg0 : undirected g0) (Hne : (Z.of_nat (ne g0) < W32)%Z) (Hnv : (Z.of_nat (nv g0) < W32)%Z) (Hn0 : 0 < nv g0).
  Context (Hsum : (sumn (nv g0) (vweight g0) < NULL_WGT)%Z) (t : target) (Hmon : forall g cm, level g0 g cm -> limits_monotone g t) (Ht : two_way t) (Hm : (0 <= max_of t 0 < W32)%Z) (Hm1 : (0 <= max_of t 1)%Z) (Ht0 : (0 < target_of t 0)%Z).
  Let slack := (max_of t 0 - target_of t 0 + 1)%Z.
  Context (Hroom : weights_below slack g0) (Htot : (sumn (nv g0) (vweight g0) <= target_of t 0 + max_of t 1)%Z).
  Context (Hlim : nv g0 <= 20 \/ ne g0 = 0 \/ (3 * sumn (nv g0) (vweight g0) <= 40 * slack)%Z).
  Let fits_pw (l : list Z) : Prop := (nth 0 l 0 <= max_of t 0)%Z /\ (nth 1 l 0 <= max_of t 1)%Z.
  Lemma fits_balanced p : length (p_pw p) = 2 -> balanced t p <-> fits_pw (p_pw p).
  Proof.
    intros HL. unfold balanced, fits_pw, max_of. rewrite HL. split.
    - intros H. split; apply H; lia.
    - intros [H0 H1] [|[|i]] Hi; [done|done|lia].
  Qed.
  Lemma light0 : light g0.
  Proof. unfold light. pose proof Hsum. assert (NULL_WGT < W32)%Z by (vm_compute; reflexivity). lia. Qed.
  Lemma library_balanced scheme agg n it mv E : aggregator_make scheme = Ok agg -> (1 <= n)%Z ->
    wpm (ml_execute agg (multi_execute n bfs_execute) (fm_refine it mv) t g0) E (fun p => exact_part 2 g0 p /\ fits_pw (p_pw p)).
  Proof.
    intros Hagg Hn. pose proof light0 as Hli. destruct (ml_max_weight_ok g0) as (mw & Emw & Hmw).
    { rewrite (wf_tvw _ (ud_wf _ Hg0)). apply u32_range. }
    assert (Htf : 2 <= length (t_frac t)) by (rewrite (tw_frac t Ht); done). assert (Htm : 2 <= length (t_max t)) by (rewrite (tw_max t Ht); done).
    assert (Hpos : (0 <= sumn (nv g0) (vweight g0))%Z) by (apply sumf_nonneg; intros v _; apply (wf_vw_range _ (ud_wf _ Hg0))).
    assert (Hs0 : (0 <= slack)%Z).
    { etrans; [|apply (Hroom 0 Hn0)]. apply (wf_vw_range _ (ud_wf _ Hg0)). }
    assert (Hml : nv g0 <= 20 \/ ne g0 = 0 \/ (mw <= slack)%Z).
    { destruct Hlim as [?|[?|Hlm]]; [by left|by right; left|right; right]. eapply (ml_max_weight_le g0 mw slack); [| | |done].
      - rewrite (wf_tvw _ (ud_wf _ Hg0)). apply u32_range.
      - unfold slack in *. lia.
      - rewrite (wf_tvw _ (ud_wf _ Hg0)), u32_small; [done|]. unfold light in Hli. lia. }
    apply (ml_execute_carry g0 Hg0 Hne _ _ _ t mw E (weights_below slack) fits_pw); [| | |done|done].
    - intros g cm HL HR Hbig Hbig2. pose proof (level_inv _ _ _ Hg0 HL) as HLo. pose proof (lo_ud _ _ _ HLo) as [Hwf Hs Hl Hf].
      destruct Hml as [Hml|[Hml|Hml]]; [pose proof (lo_nv _ _ _ HLo); lia|pose proof (lo_ne _ _ _ HLo); lia|].
      assert (HT : (sumn (nv g) (vweight g) < NULL_WGT)%Z) by (rewrite (lo_vsum _ _ _ HLo Hli); done).
      assert (HA : wpm (agg mw g) E (agg_result g mw)).
      { unfold aggregator_make in Hagg. destruct (scheme =? 0)%Z; [|destruct (scheme =? 1)%Z; [|done]]; injection Hagg as <-; (eapply wpm_mono; [first [by apply rm_aggregate_wp|by apply shemrm_aggregate_wp]|done|done]). }
      eapply wpm_post; [exact HA|]. intros a Ha. split; [by eapply result_coarsening|]. intros cg Hcg. by eapply contract_weights.
    - intros g cm HL HR. pose proof (level_inv _ _ _ Hg0 HL) as HLo. pose proof (lo_ud _ _ _ HLo) as [Hwf Hs Hl Hf].
      apply multi_execute_wp; try done; [|intros p [Hp _]; apply Hp].
      eapply wpm_post; [apply (bfs_room g Hwf (level_light _ _ _ Hg0 HL Hli) t Ht (proj1 Hm))|].
      + intros v Hv. specialize (HR v Hv). unfold slack in HR. lia.
      + rewrite (lo_vsum _ _ _ HLo Hli). done.
      + done.
      + by eapply level_nonempty.
      + intros p (H1 & H2 & H3). split; [by apply H2|]. exact H3.
    - intros g cm c p HL Hgd HQ. eapply wpm_post; [eapply (refine_keeps g0 Hg0 Hnv it mv t Ht); [exact HL|by eapply Hmon|done]|].
      intros r [R1 [R2 _]]. split; [done|]. apply fits_balanced; [apply R1|]. apply R2. apply fits_balanced; [apply Hgd|done].
  Qed.
End Library.
