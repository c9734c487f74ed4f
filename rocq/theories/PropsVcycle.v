(** * PropsVcycle: multilevel bisection as a whole (C68): what it computes, described without
    random streams, queues, connectivity data or arrays being filled. *)
From Verif Require Import Base F64 ModelGraph ModelPartition ModelConn ModelFM ModelAgg ModelMultilevel ModelBisect Spec Logic Sums
  GraphFacts PartFacts ConnFacts FMFacts AggFacts ContractFacts ProjectFacts FloatUse BisectFacts MultiFacts MultilevelFacts TreeFacts
  PropsBisect PropsCoarsen PropsMatch PropsGrow PropsPass LimitFacts PropsMultilevel Examples.
#[local] Arguments seq : simpl nomatch.

(** ** Specification *)
(** The group of v. *)
Definition grp_of (cm : list nat) (v : nat) : nat := nth v cm 0.
(** [cm] puts the vertices of g into k groups: single vertices and adjacent pairs of at most
    weight maxW; no two single vertices could be paired. *)
Record paired (g : graph) (maxW : Z) (cm : list nat) (k : nat) : Prop := {
  pd_len : length cm = nv g;
  pd_lt : forall v, v < nv g -> grp_of cm v < k;
  pd_onto : forall c, c < k -> exists v, v < nv g /\ grp_of cm v = c;
  pd_two : forall u v w, u < nv g -> v < nv g -> w < nv g -> grp_of cm u = grp_of cm v -> grp_of cm v = grp_of cm w -> u = v \/ v = w \/ u = w;
  pd_adj : forall v w, v < nv g -> w < nv g -> v <> w -> grp_of cm v = grp_of cm w -> adjacent g v w /\ (vweight g v + vweight g w <= maxW)%Z;
  pd_max : forall v w, v < nv g -> w < nv g -> v <> w -> adjacent g v w ->
    (forall x, x < nv g -> grp_of cm x = grp_of cm v -> x = v) -> (forall x, x < nv g -> grp_of cm x = grp_of cm w -> x = w) ->
    (maxW < vweight g v + vweight g w)%Z
}.
(** How the pairs are found (C70): scheme 0 visits the vertices in any order and takes the first edge
    possible; scheme 1 does so where all edges weigh 1 ([g_uew]), and else visits them by degree and
    takes the heaviest edge possible. *)
Definition by_scheme (scheme : Z) (g : graph) (maxW : Z) (cm : list nat) (k : nat) : Prop :=
  if decide (scheme = 0%Z \/ g_uew g = true) then random_matching g maxW cm k else heavy_matching g maxW cm k.
(** cg is g with every group made one vertex: weights are added, and so are parallel edges. *)
Record merged (g : graph) (cm : list nat) (k : nat) (cg : graph) : Prop := {
  mg_valid : wf_graph cg;
  mg_nv : nv cg = k;
  mg_uew : g_uew cg = false;
  mg_vw : forall c, c < k -> vweight cg c = label_weight g (grp_of cm) c;
  mg_nodup : forall c, c < k -> NoDup (fst <$> out cg c);
  mg_edge : forall c d, c < k -> (d ∈ fst <$> out cg c <->
     d <> c /\ exists u v x, u < nv g /\ grp_of cm u = c /\ (v, x) ∈ out g u /\ grp_of cm v = d);
  mg_W : forall c d, c < k -> d < k -> c <> d -> W cg c d = between g (grp_of cm) c d
}.
(** Coarsening stops: few vertices, no edges, or less than 5% fewer edges than before. *)
Definition coarse_enough (finer : option nat) (g : graph) : Prop :=
  nv g <= 20 \/ ne g = 0 \/ exists m, finer = Some m /\ 19 * m < 20 * ne g.
(** A region grown greedily from a seed (C66), and at most one more vertex if the rest is too heavy. *)
Definition grown_region (g : graph) (t : target) (L : labels) : Prop :=
  exists seed h, seed < nv g /\ greedy g t seed h /\
    ((target_of t 0 <= region_weight g h)%Z \/ length h = nv g) /\
    (L = region_labels (nv g) h \/
     (max_of t 1 < side_weight g (region_labels (nv g) h) 1)%Z /\
     exists v, v < nv g /\ v ∉ taken h /\ L = <[v := Some 0]> (region_labels (nv g) h)).
(** A later candidate replaces the kept one: less imbalanced while the kept one is not within the
    maxima, and within the maxima with a smaller cut otherwise. *)
Definition replaces (g : graph) (t : target) (L' L : labels) : Prop :=
  exists b b', imbalance g t L b /\ imbalance g t L' b' /\
    (~ within g t L /\ flt b' b = true \/
     within g t L /\ within g t L' /\ (edge_cut g (at_ L') < edge_cut g (at_ L))%Z).
Inductive kept (g : graph) (t : target) : list labels -> labels -> Prop :=
| kept_first L : kept g t [L] L
| kept_next Ls L L' (r : bool) : kept g t Ls L -> (r = true <-> replaces g t L' L) -> kept g t (Ls ++ [L']) (if r then L' else L).
Definition initial (g : graph) (t : target) (L : labels) : Prop :=
  exists Ls, length Ls = 8 /\ (forall L', L' ∈ Ls -> grown_region g t L') /\ kept g t Ls L.
(** The labels of the groups, given to their vertices. *)
Definition pulled (cm : list nat) (L : labels) : labels := (fun c => nth c L None) <$> cm.
(** Multilevel bisection with at most weight maxW per vertex: bisect, if coarse enough; otherwise
    pair, merge, bisect the merged graph the same way, and refine with at most 8 passes. *)
Inductive vcycle (scheme : Z) (t : target) (maxW : Z) : option nat -> graph -> labels -> Prop :=
| vc_bottom finer g L : coarse_enough finer g -> initial g t L -> vcycle scheme t maxW finer g L
| vc_level finer g cm k cg Lc L : ~ coarse_enough finer g ->
    paired g maxW cm k -> by_scheme scheme g maxW cm k -> merged g cm k cg -> vcycle scheme t maxW (Some (ne g)) cg Lc ->
    passes g t (Z.min 150 (Z.max (Z.of_nat (nv g) / 100) 25)) 8 (no_edges g) (pulled cm Lc) L ->
    vcycle scheme t maxW finer g L.

(** ** Proof *)
(** What all graphs of the hierarchy satisfy. *)
Record nice (g : graph) : Prop := {
  nc_ud : undirected g;
  nc_some : 0 < nv g;
  nc_w : (sumn (nv g) (vweight g) < NULL_WGT)%Z;
  nc_ew : (total_edge_weight g < H32 - 1)%Z;
  nc_pos : forall u a, u < nv g -> a ∈ out g u -> (0 < snd a)%Z;
  nc_nv : (Z.of_nat (nv g) < W32)%Z;
  nc_ne : (Z.of_nat (ne g) < W32)%Z
}.
Lemma nice_light g : nice g -> light g.
Proof. intros H. pose proof (nc_w g H). unfold light, NULL_WGT, W32 in *. lia. Qed.
Lemma W_edge g u v x : wf_graph g -> u < nv g -> (v, x) ∈ out g u -> (x <= W g u v)%Z.
Proof.
  intros Hwf Hu Hx. unfold W. etrans; [|apply (sumf_elem_le (fun a => if decide (fst a = v) then snd a else 0%Z) _ (v, x)); [|exact Hx]].
  - cbn [fst snd]. rewrite decide_True by done. done.
  - intros b Hb. apply (out_wgt g Hwf u b Hu) in Hb. case_decide; lia.
Qed.
Lemma nodup_W g u v x : NoDup (fst <$> out g u) -> (v, x) ∈ out g u -> W g u v = x.
Proof.
  unfold W. generalize (out g u). intros l HD Hx. apply elem_of_list_split in Hx as (l1 & l2 & ->).
  rewrite fmap_app, fmap_cons in HD. cbn [fst] in HD. apply NoDup_app in HD as (_ & H1 & [H2 _]%NoDup_cons).
  rewrite sumf_app, sumf_cons. cbn [fst snd]. rewrite decide_True by done.
  rewrite (sumf_zero _ l1), (sumf_zero _ l2); [lia| |].
  - intros b Hb. rewrite decide_False; [done|]. intros <-. apply H2. by apply elem_of_list_fmap_1.
  - intros b Hb. rewrite decide_False; [done|]. intros <-. apply (H1 (fst b)); [by apply elem_of_list_fmap_1|by left].
Qed.
Lemma between_edge g (f : nat -> nat) u v x : wf_graph g -> u < nv g -> (v, x) ∈ out g u -> (x <= between g f (f u) (f v))%Z.
Proof.
  intros Hwf Hu Hx. pose proof (out_dst g Hwf u (v, x) Hu Hx) as Hv. cbn [fst] in Hv.
  assert (Hpos : forall a b, a < nv g -> (0 <= W g a b)%Z) by (intros a b Ha; by eapply proj1, W_range).
  etrans; [apply (W_edge g u v x Hwf Hu Hx)|]. unfold between.
  etrans; [|apply (sumf_elem_le (fun u0 => sumn (nv g) (fun v0 => if decide (f u0 = f u /\ f v0 = f v) then W g u0 v0 else 0%Z)) _ u)].
  - etrans; [|apply (sumf_elem_le (fun v0 => if decide (f u = f u /\ f v0 = f v) then W g u v0 else 0%Z) _ v)].
    + rewrite decide_True by done. done.
    + intros b Hb%elem_of_seq. case_decide; [apply Hpos; lia|done].
    + apply elem_of_seq. lia.
  - intros b Hb%elem_of_seq. apply sumf_nonneg. intros c Hc. case_decide; [apply Hpos; lia|done].
  - apply elem_of_seq. lia.
Qed.
Lemma nice_down g a cg : nice g -> coarsening (nv g) a -> coarse_of g a cg -> nice cg.
Proof.
  intros HN [Hg Hle] Hc. pose proof HN as [[Hwf Hs Hl Hf] H0 Hw He Hp Hnv Hne]. constructor.
  - constructor; [apply Hc|by eapply coarse_symmetric|apply Hc|by eapply coarse_fits].
  - rewrite (co_nv _ _ _ Hc). pose proof (group_lt g a Hg 0 H0). lia.
  - rewrite (coarse_vsum g Hwf a Hg cg Hc); [done|]. by apply nice_light.
  - rewrite (coarse_total g Hwf a Hg cg Hc Hf Hs). pose proof (edge_cut_le_total g Hwf (group_of a) Hs). lia.
  - intros c [d x] Hcc Hx. cbn [snd]. rewrite <- (nodup_W cg c d x (co_nodup _ _ _ Hc c Hcc) Hx).
    assert (Hd : d ∈ fst <$> out cg c) by (apply elem_of_list_fmap; exists (d, x); done).
    pose proof (out_dst cg (co_wf _ _ _ Hc) c (d, x) Hcc Hx) as Hdn. cbn [fst] in Hdn.
    apply (co_edge _ _ _ Hc c d Hcc) in Hd as [Hdc (u & v & y & Hu & <- & Hy & <-)].
    rewrite (coarse_W_fits g Hwf a Hg cg Hc) by done. eapply Z.lt_le_trans; [exact (Hp u (v, y) Hu Hy)|]. by apply between_edge.
  - rewrite (co_nv _ _ _ Hc). lia.
  - pose proof (coarse_edges g a cg Hwf Hg Hc). lia.
Qed.
Lemma paired_of g maxW a : nice g -> agg_result g maxW a -> paired g maxW (a_cmap a) (a_num_coarse a).
Proof.
  intros HN R. pose proof (ud_wf _ (nc_ud _ HN)) as Hwf. pose proof (ar_grouping _ _ _ R) as (HL & HF & HG).
  assert (Hat : forall v, v < nv g -> a_cmap a !! v = Some (grp_of (a_cmap a) v)) by (intros v Hv; apply lookup_nth; lia).
  assert (Htg : forall v w, v < nv g -> w < nv g -> grp_of (a_cmap a) v = grp_of (a_cmap a) w -> together a v w).
  { intros v w Hv Hw E. exists (grp_of (a_cmap a) v). rewrite (Hat v), (Hat w) by done. by rewrite E. }
  assert (Hgt : forall v w, together a v w -> v < nv g /\ w < nv g /\ grp_of (a_cmap a) v = grp_of (a_cmap a) w).
  { intros v w (c & Hv & Hw). pose proof (lookup_lt_Some _ _ _ Hv). pose proof (lookup_lt_Some _ _ _ Hw). rewrite HL in *.
    rewrite Hat in Hv, Hw by done. split; [done|]. split; [done|]. congruence. }
  assert (Hlt : forall v, v < nv g -> grp_of (a_cmap a) v < a_num_coarse a).
  { intros v Hv. eapply (Forall_lookup_1 (fun c => c < a_num_coarse a)); [exact HF|]. by apply Hat. }
  assert (Hmem : forall c l, c < a_num_coarse a -> agg_group a c = Ok l -> forall v, v ∈ l <-> v < nv g /\ grp_of (a_cmap a) v = c).
  { intros c l Hc E v. rewrite HG in E by done. injection E as <-. rewrite elem_of_list_filter, elem_of_seq. split.
    - intros [E1 E2]. rewrite Hat in E1 by lia. split; [lia|congruence].
    - intros [E1 <-]. split; [by apply Hat|lia]. }
  constructor.
  - done.
  - done.
  - intros c Hc. destruct (ar_size _ _ _ R c Hc) as (v & [E|(w & E & _)]); exists v; apply (Hmem c _ Hc E); by left.
  - intros u v w Hu Hv Hw E1 E2. pose proof (Hlt u Hu) as Hc. destruct (ar_size _ _ _ R _ Hc) as (x & [E|(y & E & _)]).
    all: assert (HM := Hmem _ _ Hc E); assert (Mu : u ∈ _) by (apply HM; done); assert (Mv : v ∈ _) by (apply HM; done); assert (Mw : w ∈ _) by (apply HM; split; [done|congruence]).
    + apply elem_of_list_singleton in Mu, Mv. left. congruence.
    + rewrite !elem_of_cons, elem_of_nil in Mu, Mv, Mw. destruct Mu as [Mu|[Mu|[]]], Mv as [Mv|[Mv|[]]], Mw as [Mw|[Mw|[]]]; subst; tauto.
  - intros v w Hv Hw Hne E. pose proof (Htg v w Hv Hw E) as T. split; [by apply (ar_adj _ _ _ R)|]. apply (result_weight g maxW a v w Hwf (nc_w _ HN) R T Hne).
  - intros v w Hv Hw Hne Ha H1 H2. apply (ar_max _ _ _ R v w Hv Hw Ha Hne).
    + intros x (T1 & T2 & T3)%Hgt. by apply H1.
    + intros x (T1 & T2 & T3)%Hgt. by apply H2.
Qed.
Lemma merged_of g a cg : nice g -> grouping (nv g) a -> coarse_of g a cg -> merged g (a_cmap a) (a_num_coarse a) cg.
Proof.
  intros HN Hg Hc. pose proof HN as [[Hwf Hs Hl Hf] H0 Hw He Hp Hnv Hne]. pose proof (co_nv _ _ _ Hc) as En. constructor.
  - apply Hc. - done. - apply Hc.
  - intros c Hcc. rewrite (co_vw _ _ _ Hc) by lia. apply (light_u32 g (group_of a) c Hwf). by apply nice_light.
  - intros c Hcc. apply Hc. lia.
  - intros c d Hcc. apply (co_edge _ _ _ Hc). lia.
  - intros c d H1 H2 H3. apply (coarse_W_fits g Hwf a Hg cg Hc); [done|lia|lia|done].
Qed.
(** Stopping *)
Lemma stop_spec lvl finer g b : (Z.of_nat (ne g) < W32)%Z -> (forall f, finer = Some f -> (Z.of_nat (ne f) < W32)%Z) -> (forall f, finer = Some f -> ne g <= ne f) ->
  composite_stop [vertex_number_stop 20; edge_ratio_stop f_0_95] lvl finer (Some g) = Ok b -> b = true <-> coarse_enough (ne <$> finer) g.
Proof.
  intros Hg Hf Hle. cbn [composite_stop]. unfold vertex_number_stop. cbn [obind]. unfold coarse_enough. destruct (Nat.leb_spec (nv g) 20) as [H20|H20].
  { intros [= <-]. tauto. }
  unfold edge_ratio_stop. destruct (Nat.ltb 0 lvl && bool_decide (finer = None)); [done|]. destruct (Nat.eqb_spec (ne g) 0) as [Hz|Hz]; cbn [obind].
  { intros [= <-]. tauto. }
  destruct finer as [f|].
  - specialize (Hle f eq_refl). specialize (Hf f eq_refl). destruct (Nat.eqb_spec (ne f) 0) as [Hfz|Hfz]; [lia|]. cbn [obind].
    pose proof (ratio_exact (ne g) (ne f) Hg Hf ltac:(lia)) as HR. destruct (fgt _ _).
    + intros [= <-]. split; [|done]. intros _. right; right. exists (ne f). split; [done|]. by apply HR.
    + intros [= <-]. split; [done|]. intros [?|[?|(m & [= <-] & Hm)]]; [lia|lia|]. by apply HR.
  - cbn [obind]. intros [= <-]. split; [done|]. intros [?|[?|(m & ? & _)]]; [lia|lia|done].
Qed.
(** The best of several *)
Lemma multi_kept g t n bis (Q : labels -> Prop) : wf_graph g -> symmetric g -> loopless g -> fits g -> light g -> 2 <= length (t_frac t) -> 2 <= length (t_max t) -> 1 <= n ->
  wpm (bis t g) anyf (fun p => exact_part 2 g p /\ Q (p_where p)) ->
  wpm (multi_execute (Z.of_nat n) bis t g) anyf (fun p => exact_part 2 g p /\ exists Ls, length Ls = n /\ (forall L, L ∈ Ls -> Q L) /\ kept g t Ls (p_where p)).
Proof.
  intros Hwf Hs Hl Hf Hli Htf Htm Hn HB. unfold multi_execute. rewrite Nat2Z.id.
  eapply wpm_bind; [apply (mfold_seq_wp (fun k b => (k = 0 -> mb_found b = false) /\ (k <> 0 -> exact_part 2 g (mb_part b) /\
     mb_cut b = p_cut (mb_part b) /\ calc_max_imbalance g t (mb_part b) = Ok (mb_bal b) /\ (mb_found b = true <-> within g t (p_where (mb_part b))) /\
     exists Ls, length Ls = k /\ (forall L, L ∈ Ls -> Q L) /\ kept g t Ls (p_where (mb_part b)))))|].
  - done.
  - intros i b Hi [HI0 HI]. eapply wpm_bind; [exact HB|]. intros p [Hp HQ]. apply wpm_lift. unfold multi_consider.
    pose proof (proj1 (proj2 (proj1 Hp))) as HLp.
    destruct (calc_max_imbalance_ok g t p ltac:(lia)) as [x Ex]. rewrite Ex. cbn [obind].
    destruct (is_balanced_ok t p ltac:(lia)) as (y & Ey & _). rewrite Ey. cbn [obind].
    pose proof (within_b g Hwf Hli t Htm p y Hp Ey) as HW.
    split; [done|]. intros _. unfold multi_accept. destruct (Nat.eqb_spec i 0) as [->|Hi0].
    + cbn [orb mb_part mb_cut mb_bal mb_found]. rewrite (HI0 eq_refl). cbn [orb]. split; [done|]. split; [done|]. split; [done|]. split; [done|].
      exists [p_where p]. split; [done|]. split; [intros L ->%elem_of_list_singleton; done|]. constructor.
    + specialize (HI Hi0) as (I1 & I2 & I3 & I4 & Ls & L1 & L2 & L3). cbn [orb].
      set (r := (negb (mb_found b) && flt x (mb_bal b)) || (mb_found b && y && (p_cut p <? mb_cut b)%Z)).
      assert (Hr : r = true <-> replaces g t (p_where p) (p_where (mb_part b))).
      { unfold r. rewrite orb_true_iff, !andb_true_iff, negb_true_iff, Z.ltb_lt, HW, I2.
        assert (Hfb : mb_found b = false <-> ~ within g t (p_where (mb_part b))) by (rewrite <- I4; destruct (mb_found b); split; done || (by intros []) || done).
        rewrite I4, Hfb. rewrite (proj2 Hp), (proj2 I1). split.
        - intros Hc. exists (mb_bal b), x. split; [by exists (mb_part b)|]. split; [by exists p|]. tauto.
        - intros (c & c' & (q & Hq & Eq & Ei) & (q' & Hq' & Eq' & Ei') & Hc).
          rewrite (exact_part_inj 2 g q (mb_part b) Hq I1 Eq) in Ei. rewrite (exact_part_inj 2 g q' p Hq' Hp Eq') in Ei'.
          rewrite I3 in Ei. rewrite Ex in Ei'. injection Ei as <-. injection Ei' as <-. unfold at_ in Hc. tauto. }
      assert (HK : exists Ls', length Ls' = S i /\ (forall L, L ∈ Ls' -> Q L) /\ kept g t Ls' (if r then p_where p else p_where (mb_part b))).
      { exists (Ls ++ [p_where p]). split; [rewrite app_length; cbn; lia|]. split; [|by constructor].
        intros L [HL| ->%elem_of_list_singleton]%elem_of_app; auto. }
      destruct r eqn:Er; cbn [mb_part mb_cut mb_bal mb_found].
      * split; [done|]. split; [done|]. split; [done|]. split; [|done].
        apply proj1 in Hr. specialize (Hr eq_refl). rewrite orb_true_iff, HW, I4. split; [|tauto]. intros [Hb|Hb]; [|done].
        destruct Hr as (_ & _ & _ & _ & [[? _]|(_ & ? & _)]); done.
      * done.
  - intros b [_ Hb]. apply wpm_ret. specialize (Hb ltac:(lia)). tauto.
Qed.

Lemma initial_wp g t : nice g -> two_way t -> wpm (multi_execute 8 bfs_execute t g) anyf (fun p => exact_part 2 g p /\ initial g t (p_where p)).
Proof.
  intros HN Ht. pose proof HN as [[Hwf Hs Hl Hf] H0 Hw He Hp Hnv Hne]. pose proof (nice_light g HN) as Hli.
  assert (Htf : 2 <= length (t_frac t)) by (rewrite (tw_frac t Ht); done). assert (Htm : 2 <= length (t_max t)) by (rewrite (tw_max t Ht); done).
  apply (multi_kept g t 8 bfs_execute (grown_region g t)); try done; [lia|].
  intros s. pose proof (bfs_execute_wp g Hwf t Ht H0 s) as H1. destruct (bfs_execute t g s) as [[p s']|] eqn:E; [|done].
  split; [by apply H1|]. exact (C66_greedy_growing g t s p s' Hwf Hli He Ht E).
Qed.
Lemma pulled_of g a (L : labels) L' : grouping (nv g) a -> length L' = nv g -> (forall v, v < nv g -> L' !! v = L !! group_of a v) ->
  (forall c, c < a_num_coarse a -> is_Some (L !! c)) -> L' = pulled (a_cmap a) L.
Proof.
  intros Hg HL HE Hsome. pose proof Hg as (Hlen & _). apply list_eq. intros v. unfold pulled. rewrite list_lookup_fmap. destruct (decide (v < nv g)) as [Hv|Hv].
  - rewrite HE, (cmap_look g a Hg v Hv) by done. cbn. destruct (Hsome (group_of a v) (group_lt g a Hg v Hv)) as [x Hx]. rewrite Hx. f_equal. symmetry. by apply nth_lt_eq.
  - rewrite !lookup_ge_None_2 by lia. done.
Qed.
Section Vcycle.
  Context (scheme : Z) (agg : aggregator) (Hagg : aggregator_make scheme = Ok agg) (t : target) (Ht : two_way t) (maxW : Z).
  Local Notation stop := (composite_stop [vertex_number_stop 20; edge_ratio_stop f_0_95]).
  Lemma agg_wp g : wf_graph g -> loopless g -> (sumn (nv g) (vweight g) < NULL_WGT)%Z ->
    wpm (agg maxW g) anyf (fun a => agg_result g maxW a /\ by_scheme scheme g maxW (a_cmap a) (a_num_coarse a)).
  Proof.
    intros Hwf Hl Hs. apply (wpm_conj _ anyf anyf); cycle 1.
    { pose proof Hagg as H. unfold aggregator_make in H. unfold by_scheme. destruct (Z.eqb_spec scheme 0) as [->|Hne]; [|destruct (scheme =? 1)%Z; [|done]]; injection H as <-.
      - destruct (decide _) as [_|Hd]; [|tauto]. eapply wpm_mono; [by apply rm_exact|done|done].
      - unfold shemrm_aggregate. destruct (g_uew g) eqn:E.
        + destruct (decide _) as [_|Hd]; [|tauto]. eapply wpm_mono; [by apply rm_exact|done|done].
        + destruct (decide _) as [[?|?]|_]; [done|done|]. eapply wpm_mono; [apply shem_exact; [done..|by apply wf_uew_f]|done|done]. }
    pose proof Hagg as H. unfold aggregator_make in H. destruct (scheme =? 0)%Z; [|destruct (scheme =? 1)%Z; [|done]]; injection H as <-.
    - eapply wpm_mono; [by apply rm_aggregate_wp|done|done].
    - eapply wpm_mono; [by apply shemrm_aggregate_wp|done|done].
  Qed.
  Lemma vcycle_wp fuel : forall lvl parent g, nice g -> (forall f, parent = Some f -> (Z.of_nat (ne f) < W32)%Z /\ ne g <= ne f) ->
    wpm (ml_recurse agg (multi_execute 8 bfs_execute) (fm_refine 8 150) stop maxW t fuel lvl parent g) anyf
      (fun r => ml_good g r /\ vcycle scheme t maxW (ne <$> parent) g (p_where (snd r))).
  Proof.
    assert (Htf : 2 <= length (t_frac t)) by (rewrite (tw_frac t Ht); done). assert (Htm : 2 <= length (t_max t)) by (rewrite (tw_max t Ht); done).
    induction fuel as [|fuel IH]; intros lvl parent g HN HP.
    all: pose proof HN as [[Hwf Hs Hl Hf] H0 Hw He Hp Hnv Hne]; pose proof (nice_light g HN) as Hli; cbn [ml_recurse].
    all: destruct (stop lvl parent (Some g)) as [b|] eqn:Eb; [|by intros s]; apply wpm_liftk.
    all: pose proof (stop_spec lvl parent g b Hne (fun f E => proj1 (HP f E)) (fun f E => proj2 (HP f E)) Eb) as Hstop.
    all: destruct b; [eapply wpm_bind; [by apply initial_wp|]; intros p [Hx Hi];
      eapply wpm_bind; [apply wpm_lift; apply (from_partitioning_wp g Hwf Hf anyf p); apply Hx|]; intros c [Hc1 Hc2];
      apply wpm_ret; split; [split; [done|]; split; [done|]; by apply fresh_exact|apply vc_bottom; [by apply Hstop|done]]|].
    - by intros s.
    - eapply wpm_bind; [by apply agg_wp|]. intros a [Ha HS]. pose proof (result_coarsening g maxW a Ha) as Hco. pose proof (proj1 Hco) as Hg.
      destruct (coarse_make_ok g a Hwf Hg) as (cg & Ecg & Hcg). rewrite Ecg. apply wpm_liftk. cbn [cg_coarse].
      eapply wpm_bind; [apply (IH (S lvl) (Some g) cg (nice_down g a cg HN Hco Hcg))|].
      { intros f [= <-]. split; [done|]. by apply (coarse_edges g a cg). }
      intros [cc cp] [(HX & HC & HB) HV]. cbn [fst snd] in *.
      eapply wpm_bind; [apply wpm_lift; apply (project_wp g Hwf Hs Hf a Hg cg Hcg 2 cp HX cc)|].
      + apply HC.
      + intros c Hlt Hext. apply (HB c Hlt); [|done]. rewrite <- (int_ext_total cg (lab cp) c).
        pose proof (internal_nonneg cg (co_wf _ _ _ Hcg) (lab cp) c Hlt). lia.
      + intros [fc fp] (P1 & P2 & P3 & P4 & _). cbn [fst snd] in *.
        intros s. pose proof (fm_good anyf 8 150 g t fc fp (nc_ud _ HN) Hnv Htf Htm ltac:(split; [done|]; split; [done|]; by apply fresh_exact) s) as HG.
        destruct (fm_refine 8 150 g t fc fp s) as [[[c' p'] s']|] eqn:E; [|done]. split; [done|]. cbn [snd].
        eapply (vc_level _ _ _ _ _ (a_cmap a) (a_num_coarse a) cg (p_where cp)).
        * intros Hc. by apply Hstop in Hc.
        * by apply paired_of.
        * exact HS.
        * by apply merged_of.
        * exact HV.
        * rewrite <- (pulled_of g a (p_where cp) (p_where fp) Hg (proj1 (proj1 (proj1 P3))) P4).
          -- eapply (C67_library_refiner g t (fm_refine 8 150) fc fp s c' p' s'); try done.
          -- intros c Hc. apply lookup_lt_is_Some_2. rewrite (proj1 (proj1 (proj1 HX))), (co_nv _ _ _ Hcg). done.
  Qed.
End Vcycle.

(** ** C68 *)
Theorem C68_multilevel_bisection : forall scheme agg t g s p s', aggregator_make scheme = Ok agg -> two_way t ->
  (* undirected, not empty, weights positive and small enough *)
  wf_graph g -> symmetric g -> loopless g -> 0 < nv g -> (Z.of_nat (nv g) < W32)%Z -> (Z.of_nat (ne g) < W32)%Z ->
  (forall u a, u < nv g -> a ∈ out g u -> (0 < snd a)%Z) ->
  (sumn (nv g) (vweight g) < NULL_WGT)%Z -> (total_edge_weight g < H32 - 1)%Z ->
  ml_execute agg (multi_execute 8 bfs_execute) (fm_refine 8 150) t g s = Ok (p, s') ->
  vcycle scheme t (3 * sumn (nv g) (vweight g) / 40) None g (p_where p).
Proof.
  intros scheme agg t g s p s' Ha Ht Hwf Hs Hl H0 Hnv Hne Hp Hw He E. unfold ml_execute in E. rewrite ml_criteria_eq in E.
  apply mbind_inv in E as (st & s1 & E1 & E). injection E1 as <- <-. 
  assert (HT : g_tvw g = sumn (nv g) (vweight g)).
  { rewrite (wf_tvw g Hwf). apply u32_small. split; [|unfold NULL_WGT, W32 in *; lia]. apply sumf_nonneg. intros v _. apply (wf_vw_range g Hwf). }
  rewrite ml_max_weight_eq in E by (rewrite (wf_tvw g Hwf); apply Z.mod_pos_bound; done). rewrite HT in E.
  apply mbind_inv in E as (mw & s2 & E1 & E). injection E1 as <- <-. apply mbind_inv in E as (r & s3 & E1 & E). injection E as <- <-.
  assert (HN : nice g).
  { constructor; try done. constructor; try done. unfold fits. unfold H32, W32 in *. lia. }
  refine (proj2 (wpm_elim _ anyf _ _ _ _ (vcycle_wp scheme agg Ha t Ht (3 * sumn (nv g) (vweight g) / 40) (S (ne g)) 0 None g HN _) E1)). done.
Qed.
Print Assumptions C68_multilevel_bisection.
Lemma posb_sound g : forallb (fun u => forallb (fun a => 0 <? snd a)%Z (out g u)) (seq 0 (nv g)) = true -> forall u a, u < nv g -> a ∈ out g u -> (0 < snd a)%Z.
Proof.
  intros H u a Hu Ha. rewrite forallb_forall in H. specialize (H u ltac:(apply in_seq; lia)). rewrite forallb_forall in H. specialize (H a). rewrite <- elem_of_list_In, Z.ltb_lt in H. auto.
Qed.
(** A cycle of 24 vertices: coarsened once, then bisected, then refined. *)
Example C68_nonvacuous : two_way ex33_t' /\ wf_graph (ring 24) /\ symmetric (ring 24) /\ loopless (ring 24) /\ nv (ring 24) = 24 /\ ne (ring 24) = 48 /\
  (forall u a, u < nv (ring 24) -> a ∈ out (ring 24) u -> (0 < snd a)%Z) /\
  (sumn (nv (ring 24)) (vweight (ring 24)) < NULL_WGT)%Z /\ (total_edge_weight (ring 24) < H32 - 1)%Z /\ ~ coarse_enough None (ring 24) /\
  exists p s', ml_execute shemrm_aggregate (multi_execute 8 bfs_execute) (fm_refine 8 150) ex33_t' (ring 24) [] = Ok (p, s') /\ p_cut p = 2%Z.
Proof.
  split; [split; reflexivity|]. pose proof ring24 as [H1 H2 H3 H4]. split; [done|]. split; [done|]. split; [done|]. split; [reflexivity|]. split; [vm_compute; reflexivity|].
  split; [apply posb_sound; vm_compute; reflexivity|]. split; [vm_compute; reflexivity|]. split; [vm_compute; reflexivity|]. split.
  { unfold coarse_enough. replace (nv (ring 24)) with 24 by reflexivity. replace (ne (ring 24)) with 48 by (vm_compute; reflexivity). intros [?|[?|(m & ? & _)]]; [lia|lia|done]. }
  eexists _, _. split; [vm_compute; reflexivity|]. vm_compute. reflexivity.
Qed.
