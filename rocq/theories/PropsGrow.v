(** * PropsGrow: BFS bisection grows its region greedily (C66).  A history lists the vertices in the
    order they were considered, each with whether it was taken into the region. *)
From Verif Require Import Base F64 ModelGraph ModelPartition ModelConn ModelBisect Spec Logic Sums GraphFacts PartFacts FMFacts BisectFacts TreeFacts PropsBisect Examples.
#[local] Arguments seq : simpl nomatch.

Notation history := (list (nat * bool)).
(** The region after a history. *)
Definition taken (h : history) : list nat := fst <$> filter (fun x => snd x = true) h.
(** Weight of the edges from the vertices in S to v. *)
Definition toward (g : graph) (S : list nat) (v : nat) : Z := sumf (fun u => W g u v) S.
Definition region_weight (g : graph) (h : history) : Z := sumf (vweight g) (taken h).
Record greedy (g : graph) (t : target) (seed : nat) (h : history) : Prop := {
  (* every vertex is considered at most once *)
  gd_nodup : NoDup (fst <$> h);
  gd_range : forall x, x ∈ h -> fst x < nv g;
  (* the seed is the first *)
  gd_first : forall x, h !! 0 = Some x -> fst x = seed;
  gd_step : forall i v b, h !! i = Some (v, b) ->
    (* as long as the region is below its target ... *)
    (region_weight g (take i h) < target_of t 0)%Z /\
    (* ... the next is one most strongly connected to the region among those not considered yet ... *)
    (0 < i -> forall u, u < nv g -> u ∉ (fst <$> take i h) -> (toward g (taken (take i h)) u <= toward g (taken (take i h)) v)%Z) /\
    (* ... and is taken exactly if it fits *)
    (b = true <-> (vweight g v + region_weight g (take i h) <= max_of t 0)%Z);
}.
(** The labels after growing: the region is part 0. *)
Definition region_labels (n : nat) (h : history) : list (option nat) := (fun v => Some (if decide (v ∈ taken h) then 0 else 1)) <$> seq 0 n.

(** ** Lemmas *)
Lemma taken_snoc h v b : taken (h ++ [(v, b)]) = taken h ++ (if b then [v] else []).
Proof. unfold taken. rewrite filter_app, fmap_app. f_equal. rewrite filter_cons. cbn [snd]. by destruct b. Qed.
Lemma taken_in h v : v ∈ taken h -> v ∈ fst <$> h.
Proof. unfold taken. intros (x & -> & Hx)%elem_of_list_fmap. apply elem_of_list_filter in Hx as [_ Hx]. by apply elem_of_list_fmap_1. Qed.
Lemma taken_nodup h : NoDup (fst <$> h) -> NoDup (taken h).
Proof.
  unfold taken. induction h as [|[v b] h IH]; [done|]. rewrite fmap_cons, filter_cons. cbn [fst snd]. intros [Hn HD]%NoDup_cons. destruct (decide (b = true)); [|auto].
  rewrite fmap_cons. cbn [fst]. apply NoDup_cons. split; [|auto]. intros Hin. apply Hn. by apply taken_in.
Qed.
(** Summing over a set of vertices. *)
Lemma sum_set n (f : nat -> Z) l : NoDup l -> (forall v, v ∈ l -> v < n) -> sumn n (fun v => if decide (v ∈ l) then f v else 0%Z) = sumf f l.
Proof.
  induction l as [|a l IH]; intros HD Hl.
  - rewrite sumf_nil. apply sumf_zero. intros v _. by rewrite decide_False by apply not_elem_of_nil.
  - apply NoDup_cons in HD as [Ha HD]. rewrite sumf_cons, <- IH; [|done|intros v Hv; apply Hl; by right].
    pose proof (sumn_update n (fun v => if decide (v ∈ a :: l) then f v else 0%Z) (fun v => if decide (v ∈ l) then f v else 0%Z) a ltac:(apply Hl; by left)) as E. cbv beta in E.
    rewrite (decide_True (P := a ∈ a :: l)), (decide_False (P := a ∈ l)) in E by (done || by left). assert (HE := E). clear E. enough (forall u, u < n -> u <> a -> (if decide (u ∈ a :: l) then f u else 0%Z) = (if decide (u ∈ l) then f u else 0%Z)) as H0 by (specialize (HE H0); lia).
    intros u Hu Hn. destruct (decide (u ∈ l)); [by rewrite decide_True by (by right)|]. rewrite decide_False; [done|]. intros [?|?]%elem_of_cons; done.
Qed.
Lemma sum_set_le n (f : nat -> Z) l : NoDup l -> (forall v, v ∈ l -> v < n) -> (forall v, v < n -> (0 <= f v)%Z) -> (sumf f l <= sumn n f)%Z.
Proof.
  intros HD Hl Hf. rewrite <- (sum_set n f l HD Hl). apply sumn_le. intros v Hv. specialize (Hf v Hv). case_decide; lia.
Qed.

Section Grow.
  Context (g : graph) (Hwf : wf_graph g) (Hli : light g) (Hew : (total_edge_weight g < H32 - 1)%Z) (t : target) (Ht : two_way t) (seed : nat) (Hseed : seed < nv g).
  Local Notation n := (nv g).
  Lemma W_range u v : u < n -> (0 <= W g u v <= sumf snd (out g u))%Z.
  Proof.
    intros Hu. unfold W. split.
    - apply sumf_nonneg. intros a Ha. apply (out_wgt g Hwf u a Hu) in Ha. case_decide; lia.
    - apply sumf_le. intros a Ha. apply (out_wgt g Hwf u a Hu) in Ha. case_decide; lia.
  Qed.
  Lemma toward_range S u : NoDup S -> (forall v, v ∈ S -> v < n) -> (0 <= toward g S u <= total_edge_weight g)%Z.
  Proof.
    intros HD HS. split; [apply sumf_nonneg; intros v Hv; by apply W_range, HS|]. etrans; [apply (sum_set_le n (fun m => W g m u) S HD HS)|].
    - intros v Hv. by apply W_range.
    - apply sumn_le. intros v Hv. by apply W_range.
  Qed.
  Lemma wrap_small z : (0 <= z < H32)%Z -> wrap_i32 z = z.
  Proof.
    intros Hz. unfold wrap_i32. rewrite (u32_small z), ConnFacts.i32_of_u32_small; [done|lia|]. destruct Hz as [H1 H2]. split; [done|]. eapply Z.lt_le_trans; [exact H2|]. by vm_compute.
  Qed.
  Definition raised (v : nat) (pre : list (nat * Z)) (q q' : queue) : Prop := length q' = length q /\
    forall u, u < n -> q' !! u = (fun o => (fun k => (k + sumf (fun a => if decide (fst a = u) then snd a else 0) pre)%Z) <$> o) <$> (q !! u).
  Lemma upd_wp v q : v < n -> length q = n -> (forall u k, u < n -> q !! u = Some (Some k) -> (0 <= k /\ k + W g v u < H32)%Z) ->
    wpo (bfs_update_neighbors g v q) anyf (raised v (out g v) q).
  Proof.
    intros Hv HL Hk. unfold bfs_update_neighbors. apply (for_edges_wp g Hwf v (fun pre q' => raised v pre q q')); [done| |].
    - split; [done|]. intros u Hu. destruct (q !! u) as [[k|]|]; cbn; [|done|done]. do 2 f_equal. rewrite sumf_nil. lia.
    - intros pre e a post q' Hpost (He & Hd & Hw & _ & Hlt & Hwr) [HL' HQ]. rewrite Hd. cbn [obind]. unfold q_contains.
      destruct (lookup_lt_is_Some_2 q' (fst a) ltac:(lia)) as [x Hx]. rewrite (rd_ok _ _ _ Hx). cbn [obind]. pose proof (HQ (fst a) Hlt) as Hx'. rewrite Hx in Hx'.
      assert (Hother : forall u, u <> fst a -> sumf (fun a => if decide (fst a = u) then snd a else 0%Z) (pre ++ [a]) = sumf (fun a => if decide (fst a = u) then snd a else 0%Z) pre).
      { intros u Hu. rewrite sumf_snoc, decide_False by congruence. lia. }
      destruct x as [k'|].
      + rewrite bool_decide_true by eauto. rewrite Hw. cbn [obind]. unfold q_update_by_delta. rewrite (rd_ok _ _ _ Hx). cbn [obind]. rewrite wr_ok by lia. cbn [wpo].
        split; [by rewrite insert_length|]. intros u Hu. destruct (decide (u = fst a)) as [->|Hn].
        * rewrite list_lookup_insert by lia. destruct (q !! fst a) as [[k|]|] eqn:Eq; try done. cbn in Hx' |- *. injection Hx' as Hx'. do 2 f_equal.
          rewrite sumf_snoc, decide_True by done. destruct (Hk _ _ Hlt Eq) as [K0 K1].
          assert (HW : W g v (fst a) = (sumf (fun a0 => if decide (fst a0 = fst a) then snd a0 else 0%Z) pre + snd a + sumf (fun a0 => if decide (fst a0 = fst a) then snd a0 else 0%Z) post)%Z).
          { unfold W. rewrite Hpost, sumf_app, sumf_cons, decide_True by done. lia. }
          assert (H0 : forall l, (forall x, x ∈ l -> x ∈ out g v) -> (0 <= sumf (fun a0 => if decide (fst a0 = fst a) then snd a0 else 0%Z) l)%Z).
          { intros l Hl. apply sumf_nonneg. intros x Hx0. pose proof (out_wgt g Hwf v x Hv (Hl x Hx0)). case_decide; lia. }
          assert (P1 := H0 pre ltac:(intros x Hx0; rewrite Hpost; apply elem_of_app; by left)).
          assert (P2 := H0 post ltac:(intros x Hx0; rewrite Hpost; apply elem_of_app; right; by right)).
          rewrite wrap_small; lia.
        * rewrite list_lookup_insert_ne, HQ, Hother by done. done.
      + rewrite bool_decide_false by (intros [? ?]; done). cbn [wpo]. split; [done|]. intros u Hu. destruct (decide (u = fst a)) as [->|Hn].
        * rewrite Hx. destruct (q !! fst a) as [[k|]|]; done.
        * rewrite HQ, Hother by done. done.
  Qed.

  (** *** Growing *)
  Record sofar (h : history) (q : queue) (p : part) : Prop := {
    sf_greedy : greedy g t seed h;
    sf_valid : valid_part 2 g p;
    sf_labels : p_where p = region_labels n h;
    sf_len : length q = n;
    sf_keys : forall u, u < n -> q !! u = Some (if decide (u ∈ fst <$> h) then None else Some (toward g (taken h) u + (if decide (u = seed) then 1 else 0))%Z)
  }.
  Lemma sf_region h q p : sofar h q p -> pw p 0 = region_weight g h.
  Proof.
    intros [HG HV HLb _ _]. destruct (valid_pw g p 0 HV ltac:(lia)) as [_ ->]. rewrite (light_u32 g _ _ Hwf Hli). unfold region_weight.
    rewrite <- (sum_set n (vweight g) (taken h)).
    - unfold label_weight. apply sumn_ext. intros v Hv. unfold lab. rewrite HLb. unfold region_labels. rewrite nth_lookup, list_lookup_fmap, lookup_seq_lt by done. cbn.
      destruct (decide (v ∈ taken h)); case_decide; done.
    - apply taken_nodup, HG.
    - intros v Hv. apply taken_in in Hv. apply elem_of_list_fmap in Hv as (x & -> & Hx). by apply (gd_range _ _ _ _ HG).
  Qed.
  Lemma greedy_snoc h v b : greedy g t seed h -> v ∉ fst <$> h -> v < n -> (h = [] -> v = seed) -> (region_weight g h < target_of t 0)%Z ->
    (h <> [] -> forall u, u < n -> u ∉ fst <$> h -> (toward g (taken h) u <= toward g (taken h) v)%Z) ->
    (b = true <-> (vweight g v + region_weight g h <= max_of t 0)%Z) -> greedy g t seed (h ++ [(v, b)]).
  Proof.
    intros [A B C D] Hn Hv Hf Hw Hg Hb. constructor.
    - rewrite fmap_app. apply NoDup_app. split; [done|]. split; [|apply NoDup_singleton]. intros x Hx Hx'. apply elem_of_list_singleton in Hx'. subst x. done.
    - intros x [Hx|Hx%elem_of_list_singleton]%elem_of_app; [auto|by subst x].
    - intros x Hx. destruct h as [|y h]; [injection Hx as <-; by apply Hf|]. apply C. exact Hx.
    - intros i w c Hi. apply lookup_app_Some in Hi as [Hi|[Hi Hi']].
      + pose proof (lookup_lt_Some _ _ _ Hi). rewrite take_app_le by lia. by apply D.
      + destruct (i - length h) as [|j] eqn:E; [|by destruct j]. cbn in Hi'. inversion Hi'; subst w c. assert (i = length h) as -> by lia. rewrite take_app. split; [done|].
        split; [|done]. intros H0. apply Hg. intros ->. cbn in H0. lia.
  Qed.
  Lemma labels_take h v : v ∉ taken h -> v < n -> region_labels n (h ++ [(v, true)]) = <[v := Some 0]> (region_labels n h).
  Proof.
    intros Hn Hv. unfold region_labels. apply list_eq. intros u. rewrite list_lookup_fmap. destruct (decide (u < n)) as [Hu|Hu].
    - rewrite lookup_seq_lt by done. cbn. rewrite taken_snoc. destruct (decide (u = v)) as [->|Hne].
      + rewrite list_lookup_insert by (rewrite fmap_length, seq_length; done). rewrite decide_True; [done|]. apply elem_of_app. right. by left.
      + rewrite list_lookup_insert_ne, list_lookup_fmap, lookup_seq_lt by done. cbn. do 2 f_equal.
        destruct (decide (u ∈ taken h)) as [Hin|Hin]; [by rewrite decide_True by (apply elem_of_app; by left)|].
        rewrite decide_False; [done|]. apply not_elem_of_app; split; [done|by rewrite elem_of_list_singleton].
    - rewrite !lookup_ge_None_2; [done|rewrite insert_length, fmap_length, seq_length; lia|rewrite seq_length; lia].
  Qed.
  Lemma labels_skip h v : region_labels n (h ++ [(v, false)]) = region_labels n h.
  Proof. unfold region_labels. rewrite taken_snoc, app_nil_r. done. Qed.
  Lemma grow_greedy fuel : forall h q p, sofar h q p ->
    wpm (bfs_priority_move g t fuel q p) anyf (fun r => exists h', sofar h' (fst r) (snd r) /\
      ((target_of t 0 <= region_weight g h')%Z \/ length h' = n)).
  Proof.
    assert (Hend : forall h q p, sofar h q p -> q_size q = 0 -> length h = n).
    { intros h q p [HG _ _ HL HK] Hz. rewrite q_size_zero in Hz. rewrite <- (fmap_length fst h), <- (seq_length n 0). apply Permutation_length. apply NoDup_Permutation.
      - apply HG. - apply NoDup_ListNoDup, seq_NoDup.
      - intros v. rewrite elem_of_seq. split.
        + intros (x & -> & Hx)%elem_of_list_fmap. apply (gd_range _ _ _ _ HG) in Hx. lia.
        + intros Hv. destruct (decide (v ∈ fst <$> h)) as [|Hn]; [done|]. exfalso. eapply (Hz v). rewrite HK by lia. by rewrite decide_False. }
    induction fuel as [|fuel IH]; intros h q p HI; cbn [bfs_priority_move].
    all: destruct (Nat.eqb_spec (q_size q) 0) as [Hz|Hz]; [apply wpm_ret; exists h; split; [done|]; right; by eapply Hend|].
    all: destruct (valid_pw g p 0 (sf_valid _ _ _ HI) ltac:(lia)) as [-> _]; apply wpm_liftk; rewrite (twgt_rd t Ht) by lia; apply wpm_liftk; rewrite (sf_region _ _ _ HI).
    all: fold (target_of t 0); destruct (Z.ltb_spec (region_weight g h) (target_of t 0)) as [Hlt|Hge]; cbn [negb]; [|apply wpm_ret; exists h; split; [done|by left]].
    { by intros s. }
    eapply wpm_bind; [by apply q_pop_wp|]. intros [v q'] (Hq' & k & Hv & Hmax). cbn [fst snd] in *. subst q'.
    pose proof HI as [HG HV HLb HL HK]. assert (Hvn : v < n) by (rewrite <- HL; by eapply lookup_lt_Some).
    pose proof (HK v Hvn) as Hkv. rewrite Hv in Hkv. destruct (decide (v ∈ fst <$> h)) as [|Hnew]; [done|]. injection Hkv as Hkv.
    assert (HS : forall u, u ∈ taken h -> u < n).
    { intros u Hu. apply taken_in in Hu. apply elem_of_list_fmap in Hu as (x & -> & Hx). by apply (gd_range _ _ _ _ HG). }
    assert (HDt : NoDup (taken h)) by (apply taken_nodup, HG).
    assert (Hvt : v ∉ taken h) by (intros Hin; by apply Hnew, taken_in).
    assert (Hfirst : h = [] -> v = seed).
    { intros ->. destruct (decide (v = seed)) as [|Hne]; [done|exfalso]. pose proof (HK seed Hseed) as HKs.
      rewrite (decide_False (P := seed ∈ fst <$> [])) in HKs by apply not_elem_of_nil. rewrite (decide_True (P := seed = seed)) in HKs by done.
      pose proof (Hmax seed _ HKs) as M. unfold toward, taken in M, Hkv. rewrite filter_nil, fmap_nil, !sumf_nil in *. lia. }
    assert (Hin : h <> [] -> seed ∈ fst <$> h).
    { intros Hne. destruct h as [|x h0]; [done|]. rewrite <- (gd_first _ _ _ _ HG x eq_refl). by left. }
    assert (Hbest : h <> [] -> forall u, u < n -> u ∉ fst <$> h -> (toward g (taken h) u <= toward g (taken h) v)%Z).
    { intros Hne u Hu Hun. specialize (Hin Hne). assert (M := Hmax u). rewrite HK, decide_False in M by done. specialize (M _ eq_refl).
      rewrite (decide_False (P := u = seed)) in M by congruence. rewrite (decide_False (P := v = seed)) in Hkv by congruence. lia. }
    rewrite (vwt_ok g Hwf) by done. apply wpm_liftk. rewrite (tmax_rd t Ht) by lia. apply wpm_liftk. fold (max_of t 0).
    assert (Hsmall : u32 (vweight g v + region_weight g h) = (vweight g v + region_weight g h)%Z).
    { apply u32_small. unfold light in Hli. split; [apply Z.add_nonneg_nonneg; [apply (wf_vw_range g Hwf v)|apply sumf_nonneg; intros; apply (wf_vw_range g Hwf)]|].
      assert (HB := sum_set_le n (vweight g) (v :: taken h) ltac:(apply NoDup_cons; done)). unfold region_weight. rewrite sumf_cons in HB.
      eapply Z.le_lt_trans; [apply HB|exact Hli]; [intros u [->|Hu]%elem_of_cons; auto|intros u Hu; apply (wf_vw_range g Hwf)]. }
    rewrite Hsmall. destruct (Z.leb_spec (vweight g v + region_weight g h) (max_of t 0)) as [Hfit|Hno].
    - assert (Hp1 : p_where p !! v = Some (Some 1)).
      { rewrite HLb. unfold region_labels. rewrite list_lookup_fmap, lookup_seq_lt by done. cbn. by rewrite decide_False. }
      eapply wpm_bind; [apply wpm_lift; apply (move_valid g Hwf anyf p v 1 0 HV Hp1); lia|]. intros p' [HV' Hw'].
      eapply wpm_bind; [apply wpm_lift, upd_wp; [done|by rewrite insert_length|]|].
      { intros u k' Hu Hk'. destruct (decide (u = v)) as [->|Hne]; [rewrite list_lookup_insert in Hk' by lia; done|]. rewrite list_lookup_insert_ne, HK in Hk' by done.
        destruct (decide (u ∈ fst <$> h)); [done|]. injection Hk' as <-. pose proof (toward_range (taken h) u HDt HS) as T0.
        assert (T1 := toward_range (v :: taken h) u ltac:(apply NoDup_cons; done) ltac:(intros x [->|Hx]%elem_of_cons; auto)).
        unfold toward in T1 |- *. rewrite sumf_cons in T1. cbv beta in T1. unfold toward in T0. destruct (decide (u = seed)); lia. }
      intros q' [HL' HQ]. rewrite insert_length in HL'. eapply wpm_post; [apply (IH (h ++ [(v, true)]))|done].
      constructor; [apply greedy_snoc; try done|done|by rewrite Hw', HLb, labels_take|lia|].
      intros u Hu. rewrite HQ by done. rewrite fmap_app. cbn [fmap list_fmap fst]. destruct (decide (u = v)) as [->|Hne].
      + rewrite list_lookup_insert by lia. cbn. rewrite decide_True; [done|]. apply elem_of_app. right. by left.
      + rewrite list_lookup_insert_ne, HK by done. cbn. destruct (decide (u ∈ fst <$> h)) as [Hi|Hi].
        * rewrite decide_True; [done|]. apply elem_of_app. by left.
        * rewrite (decide_False (P := u ∈ (fst <$> h) ++ _)); [|apply not_elem_of_app; split; [done|by rewrite elem_of_list_singleton]]. cbn. do 2 f_equal. rewrite taken_snoc. unfold toward. rewrite sumf_snoc. fold (W g v u). lia.
    - eapply wpm_post; [apply (IH (h ++ [(v, false)]))|done].
      constructor; [apply greedy_snoc; try done; split; [done|lia]|done|by rewrite labels_skip|by rewrite insert_length|].
      intros u Hu. rewrite fmap_app. cbn [fmap list_fmap fst]. destruct (decide (u = v)) as [->|Hne].
      + rewrite list_lookup_insert by lia. rewrite decide_True; [done|]. apply elem_of_app. right. by left.
      + rewrite list_lookup_insert_ne, HK by done. destruct (decide (u ∈ fst <$> h)) as [Hi|Hi].
        * rewrite decide_True; [done|]. apply elem_of_app. by left.
        * rewrite (decide_False (P := u ∈ (fst <$> h) ++ _)); [|apply not_elem_of_app; split; [done|by rewrite elem_of_list_singleton]]. by rewrite taken_snoc, app_nil_r.
  Qed.
  (** The initial queue. *)
  Lemma queue_init E : wpo (let! q := q_add (q_new n) 1%Z seed in
         ofold (fun q v => if Nat.eqb v seed then Ok q else q_add q 0%Z v) q (seq 0 n)) E
      (fun q => length q = n /\ forall v, v < n -> q !! v = Some (Some (if decide (v = seed) then 1 else 0)%Z)).
  Proof.
    unfold q_add at 1, q_new. rewrite (rd_ok _ _ None) by (apply lookup_replicate; done). cbn [obind].
    rewrite wr_ok by (rewrite replicate_length; done). cbn [obind].
    eapply wpo_post; [apply (ofold_seq_wp (fun m q => length q = n /\ q !! seed = Some (Some 1%Z) /\
       forall v, v < n -> v <> seed -> q !! v = Some (if decide (v < m) then Some 0%Z else None)))|].
    - split; [rewrite insert_length; apply replicate_length|]. split; [apply list_lookup_insert; rewrite replicate_length; done|].
      intros v Hv Hn. rewrite list_lookup_insert_ne by done. destruct (decide (v < 0)); [lia|]. apply lookup_replicate; done.
    - intros m q Hm (HL & Hk & HM). destruct (Nat.eqb_spec m seed) as [->|Hne].
      + simpl. split; [done|]. split; [done|]. intros v Hv Hn. rewrite HM by done.
        destruct (decide (v < seed)), (decide (v < S seed)); try done; lia.
      + unfold q_add. rewrite (rd_ok _ _ None). 2: { rewrite HM by lia. destruct (decide (m < m)); [lia|done]. }
        cbn [obind]. rewrite wr_ok by lia. simpl. split; [by rewrite insert_length|]. split; [by rewrite list_lookup_insert_ne|].
        intros v Hv Hn. destruct (decide (v = m)) as [->|Hvm].
        * rewrite list_lookup_insert by lia. destruct (decide (m < S m)); [done|lia].
        * rewrite list_lookup_insert_ne, HM by done. destruct (decide (v < m)), (decide (v < S m)); try done; lia.
    - intros q (HL & Hk & HM). split; [done|]. intros v Hv. destruct (decide (v = seed)) as [->|Hn]; [done|]. rewrite HM by done.
      destruct (decide (v < n)); [done|lia].
  Qed.
  Definition outcome_of (h : history) (p : part) : Prop :=
    p_where p = region_labels n h \/
    (max_of t 1 < side_weight g (region_labels n h) 1)%Z /\ exists v, v < n /\ v ∉ taken h /\ p_where p = <[v := Some 0]> (region_labels n h).
  Lemma bfs_from_greedy : wpm (bfs_from seed t g) anyf (fun p => exists h, greedy g t seed h /\
    ((target_of t 0 <= region_weight g h)%Z \/ length h = n) /\ outcome_of h p).
  Proof.
    unfold bfs_from.
    assert (Hq := queue_init anyf).
    eapply (wpm_bind _ _ _ (fun q => wpo (ofold (fun q v => if Nat.eqb v seed then Ok q else q_add q 0%Z v) q (seq 0 n)) anyf
      (fun q => length q = n /\ forall v, v < n -> q !! v = Some (Some (if decide (v = seed) then 1 else 0)%Z)))).
    { apply wpm_lift. destruct (q_add (q_new n) 1 seed); simpl in *; done. }
    intros q0 H0. eapply wpm_bind; [apply wpm_lift; exact H0|]. clear Hq q0 H0. intros q [HL HQ].
    eapply wpm_bind; [apply wpm_lift; apply (assign_all_wp g Hwf 2)|].
    { simpl. rewrite replicate_length. unfold t_np. apply Ht. } { simpl. apply replicate_length. } { lia. }
    intros p (_ & Hw & Hlab & Hwx).
    assert (HV : valid_part 2 g p) by (split; done).
    assert (HI : sofar [] q p).
    { constructor; try done.
      - constructor; [apply NoDup_nil_2|intros x Hx; by apply not_elem_of_nil in Hx|intros x Hx; by rewrite lookup_nil in Hx|intros i v b Hx; by rewrite lookup_nil in Hx].
      - rewrite Hw. unfold region_labels. apply list_eq. intros v. rewrite list_lookup_fmap. destruct (decide (v < n)).
        + rewrite lookup_replicate_2, lookup_seq_lt by done. cbn. by rewrite decide_False by apply not_elem_of_nil.
        + rewrite !lookup_ge_None_2; [done|rewrite seq_length; lia|rewrite replicate_length; lia]. }
    eapply wpm_bind; [apply (grow_greedy n [] q p HI)|].
    intros [q1 p1] (h & HI1 & HS1). cbn [fst snd] in *. pose proof HI1 as [HG1 HV1 HW1 HL1 HK1].
    destruct (valid_pw g p1 1 HV1 ltac:(lia)) as [-> E1]. rewrite (light_u32 g _ _ Hwf Hli) in E1. apply wpm_liftk. rewrite (tmax_rd t Ht) by lia. apply wpm_liftk.
    assert (ES : pw p1 1 = side_weight g (region_labels n h) 1) by (rewrite <- HW1; exact E1).
    eapply (wpm_bind _ _ _ (fun p2 => valid_part 2 g p2 /\ outcome_of h p2)).
    - fold (max_of t 1). destruct (Z.ltb_spec (max_of t 1) (pw p1 1%nat)) as [Hov|Hok]; [|apply wpm_ret; split; [done|by left]].
      eapply wpm_bind; [apply wpm_choose_perm|]. intros rem Hrem.
      assert (HF : Forall (fun v => p_where p1 !! v = Some (Some 1)) rem).
      { apply Forall_forall. intros v Hv. rewrite Hrem in Hv. apply q_members_spec in Hv as [k Hk].
        assert (Hvn : v < n) by (rewrite <- HL1; by eapply lookup_lt_Some). rewrite HK1 in Hk by done. destruct (decide (v ∈ fst <$> h)) as [|Hn]; [done|].
        rewrite HW1. unfold region_labels. rewrite list_lookup_fmap, lookup_seq_lt by done. cbn. rewrite decide_False; [done|]. intros Hin. by apply Hn, taken_in. }
      assert (Hstep : forall nw p2, valid_part 2 g p2 /\ balance_step g t nw p1 p2 -> valid_part 2 g p2 /\ outcome_of h p2).
      { intros nw p2 [HV2 HB]. split; [done|]. destruct HB as [->|(v & Hv & Hv1 & Hw2 & _)]; [by left|]. right. rewrite <- ES. split; [done|]. exists v. split; [done|].
        rewrite <- HW1. split; [|done]. intros Hin. rewrite HW1 in Hv1. unfold region_labels in Hv1. rewrite list_lookup_fmap, lookup_seq_lt in Hv1 by done. cbn in Hv1.
        rewrite decide_True in Hv1; done. }
      destruct (g_uvw g) eqn:Hu.
      + destruct (wf_vw_len g Hwf) as [Hnil|Hlen].
        * destruct rem as [|v rem].
          { assert (HO : outcome_of h p1) by (by left). unfold bfs_weight_balance. apply wpm_liftk.
            assert (Hz : q_size (q_new n) = 0). { apply q_size_zero. intros v k Hv. apply lookup_replicate in Hv as [? _]. done. }
            destruct n as [|n'] eqn:En; cbn [bfs_weight_balance_loop]; rewrite Hz; simpl; apply wpm_ret; (split; [done|exact HO]). }
          unfold bfs_weight_balance. simpl. unfold vwt, rd_weight. rewrite Hnil. intros cs. done.
        * eapply wpm_post; [apply (weight_balance_wp g Hwf t Ht anyf p1 rem Hlen HV1)|apply Hstep]; [|done].
          rewrite Hrem. apply NoDup_filter, NoDup_seq.
      + apply wpm_lift. eapply wpo_post; [apply (unit_balance_wp g Hwf t Ht anyf p1 rem HV1 HF)|apply Hstep].
    - intros p2 [HV2 HB]. apply wpm_lift.
      eapply wpo_post; [apply (recalc_cut_all _ 2 g p2 Hwf HV2)|]. intros p3 (HV3 & Hw3 & Hp3 & HX3). exists h. split; [done|]. split; [done|].
      unfold outcome_of. rewrite Hw3. exact HB.
  Qed.
End Grow.

(** ** C66 *)
Theorem C66_greedy_growing : forall g t s p s', wf_graph g -> light g -> (total_edge_weight g < H32 - 1)%Z -> two_way t ->
  bfs_execute t g s = Ok (p, s') ->
  exists seed h, seed < nv g /\ greedy g t seed h /\
    ((target_of t 0 <= region_weight g h)%Z \/ length h = nv g) /\
    (p_where p = region_labels (nv g) h \/
     (max_of t 1 < side_weight g (region_labels (nv g) h) 1)%Z /\
     exists v, v < nv g /\ v ∉ taken h /\ p_where p = <[v := Some 0]> (region_labels (nv g) h)).
Proof.
  intros g t s p s' Hwf Hli Hew Ht E. unfold bfs_execute in E. apply mbind_inv in E as (seed & s1 & E1 & E2).
  assert (Hs : seed < nv g).
  { destruct (Nat.eq_dec (nv g) 0) as [E0|E0]; [rewrite E0 in E1; by destruct s|].
    pose proof (wpm_choose_below (nv g) anyf (fun v => v < nv g) ltac:(lia) ltac:(done) s) as H0. rewrite E1 in H0. exact H0. }
  pose proof (bfs_from_greedy g Hwf Hli Hew t Ht seed Hs s1) as H0. rewrite E2 in H0. destruct H0 as (h & A & B & C). exists seed, h. done.
Qed.
Print Assumptions C66_greedy_growing.

(** ** Consequence: with unit vertex weights, the left side of a connected graph is connected *)
(** A path from a to v whose vertices all satisfy S. *)
Inductive path_in (g : graph) (S : nat -> Prop) (a : nat) : nat -> Prop :=
| path_start : S a -> path_in g S a a
| path_step u v x : path_in g S a u -> (v, x) ∈ out g u -> S v -> path_in g S a v.
Lemma sumf_pos {A} (f : A -> Z) l : (0 < sumf f l)%Z -> exists a, a ∈ l /\ (0 < f a)%Z.
Proof.
  induction l as [|a l IH]; [rewrite sumf_nil; lia|]. rewrite sumf_cons. intros Hs. destruct (Z.lt_ge_cases 0 (f a)) as [|Hl]; [exists a; split; [by left|done]|].
  destruct (IH ltac:(lia)) as (b & Hb & Hp). exists b. split; [by right|done].
Qed.
Lemma sumf_ge {A} (f : A -> Z) l a : (forall x, x ∈ l -> (0 <= f x)%Z) -> a ∈ l -> (f a <= sumf f l)%Z.
Proof.
  induction l as [|b l IH]; intros Hf Ha; [by apply not_elem_of_nil in Ha|]. rewrite sumf_cons. assert (H0 := sumf_nonneg f l ltac:(intros x Hx; apply Hf; by right)).
  apply elem_of_cons in Ha as [->|Ha]; [lia|]. specialize (IH ltac:(intros x Hx; apply Hf; by right) Ha). assert (H1 := Hf b ltac:(by left)). lia.
Qed.
Lemma crossing g (S : nat -> Prop) `{forall v, Decision (S v)} a v : path_in g (fun _ => True) a v -> S a -> ~ S v -> exists u w x, S u /\ ~ S w /\ (w, x) ∈ out g u.
Proof.
  induction 1 as [|u v x HP IH Hx _]; intros Ha Hn; [done|]. destruct (decide (S u)) as [Hu|Hu]; [by exists u, v, x|]. by apply IH.
Qed.
Theorem C66_left_connected : forall g t s p s', wf_graph g -> light g -> (total_edge_weight g < H32 - 1)%Z -> two_way t ->
  (* connected, edge weights positive, vertex weights one *)
  (forall u v, u < nv g -> v < nv g -> path_in g (fun _ => True) u v) ->
  (forall u a, u < nv g -> a ∈ out g u -> (0 < snd a)%Z) ->
  (forall v, v < nv g -> vweight g v = 1%Z) ->
  (* the left target is within its maximum, and the right maximum covers the rest *)
  (target_of t 0 <= max_of t 0)%Z -> (0 <= max_of t 1)%Z -> (Z.of_nat (nv g) <= target_of t 0 + max_of t 1)%Z ->
  bfs_execute t g s = Ok (p, s') ->
  exists seed, seed < nv g /\ forall v, lab p v = Some 0 -> path_in g (fun u => lab p u = Some 0) seed v.
Proof.
  intros g t s p s' Hwf Hli Hew Ht Hcon Hpos Hone Htm Hm1 Hcov E.
  destruct (C66_greedy_growing g t s p s' Hwf Hli Hew Ht E) as (seed & h & Hs & HG & Hstop & Hout). exists seed. split; [done|].
  assert (HR : forall v, v ∈ fst <$> h -> v < nv g) by (intros v (x & -> & Hx)%elem_of_list_fmap; by apply (gd_range _ _ _ _ HG)).
  assert (Hall : forall i v b, h !! i = Some (v, b) -> b = true).
  { intros i v b Hi. destruct (gd_step _ _ _ _ HG i v b Hi) as (A & _ & B). apply B. rewrite Hone; [lia|]. apply HR. apply elem_of_list_fmap. exists (v, b). split; [done|].
    by eapply elem_of_list_lookup_2. }
  assert (Htk : forall k, taken (take k h) = fst <$> take k h).
  { intros k. unfold taken. f_equal. assert (HF : Forall (fun x => snd x = true) (take k h)).
    { apply Forall_lookup. intros i [v b] Hi. apply lookup_take_Some in Hi as [Hi _]. by apply (Hall i v b). }
    induction HF as [|x l Hx HF IH]; [done|]. by rewrite filter_cons_True, IH. }
  assert (Htk' : taken h = fst <$> h) by (rewrite <- (take_ge h (length h)) by lia; apply Htk).
  assert (Hlen : length (taken h) <= nv g).
  { rewrite Htk'. rewrite <- (seq_length (nv g) 0). apply submseteq_length, NoDup_submseteq; [apply HG|]. intros v Hv. apply elem_of_seq. apply HR in Hv. lia. }
  assert (Hrw : region_weight g h = Z.of_nat (length (taken h))).
  { unfold region_weight. rewrite Htk'. clear -Hone HR. induction h as [|x h IH]; [done|]. rewrite fmap_cons, sumf_cons. cbn [length]. rewrite IH, Hone; [lia| |].
    - apply HR. by left. - intros v Hv. apply HR. by right. }
  assert (Hlab : forall v, lab p v = Some 0 <-> v ∈ taken h).
  { assert (p_where p = region_labels (nv g) h) as EL.
    { destruct Hout as [|[Hov _]]; [done|]. exfalso.
      assert (Hside : (side_weight g (region_labels (nv g) h) 1 = Z.of_nat (nv g) - region_weight g h)%Z).
      { assert (EQ : (side_weight g (region_labels (nv g) h) 1 + region_weight g h = Z.of_nat (nv g))%Z); [|lia].
        unfold region_weight. rewrite <- (sum_set (nv g) (vweight g) (taken h)); [|apply taken_nodup, HG|intros v Hv; apply HR; by apply taken_in].
        unfold side_weight, label_weight. unfold sumn. rewrite <- sumf_add. transitivity (sumn (nv g) (fun _ => 1%Z)).
        - apply sumn_ext. intros v Hv. unfold region_labels. rewrite nth_lookup, list_lookup_fmap, lookup_seq_lt by done. cbn.
          destruct (decide (v ∈ taken h)); case_decide; try congruence; rewrite Hone by done; lia.
        - unfold sumn. rewrite sumf_const, seq_length. lia. }
      destruct Hstop as [Hst|Hst]; [lia|]. rewrite Htk', fmap_length in Hrw. lia. }
    intros v. unfold lab. rewrite EL. unfold region_labels. rewrite nth_lookup, list_lookup_fmap. destruct (decide (v < nv g)) as [Hv|Hv].
    - rewrite lookup_seq_lt by done. cbn. destruct (decide (v ∈ taken h)); [done|]. split; done.
    - rewrite (lookup_ge_None_2 (seq 0 (nv g))) by (rewrite seq_length; lia). cbn. split; [done|]. intros Hin. destruct Hv. apply HR. by apply taken_in. }
  assert (Hgo : forall i v b, h !! i = Some (v, b) -> path_in g (fun u => lab p u = Some 0) seed v).
  { intros i. induction (lt_wf i) as [i _ IH]. intros v b Hi.
    assert (Hvin : forall j u c, h !! j = Some (u, c) -> u ∈ fst <$> h).
    { intros j u c Hj. apply elem_of_list_fmap. exists (u, c). split; [done|]. by eapply elem_of_list_lookup_2. }
    assert (Hv0 : lab p v = Some 0) by (apply Hlab; rewrite Htk'; by eapply Hvin).
    destruct (decide (i = 0)) as [->|Hi0].
    { pose proof (gd_first _ _ _ _ HG _ Hi) as Ef. cbn in Ef. subst v. by apply path_start. }
    destruct (gd_step _ _ _ _ HG i v b Hi) as (_ & Hbest & _). specialize (Hbest ltac:(lia)). rewrite Htk in Hbest.
    set (S := fst <$> take i h) in *.
    assert (HSin : forall u, u ∈ S -> exists j c, j < i /\ h !! j = Some (u, c)).
    { intros u (x & -> & Hx)%elem_of_list_fmap. apply elem_of_list_lookup in Hx as [j Hj]. apply lookup_take_Some in Hj as [Hj Hlt]. exists j, (snd x). split; [done|]. by destruct x. }
    assert (HvS : v ∉ S).
    { intros (j & c & Hlt & Hj)%HSin. assert (i = j); [|lia]. eapply (NoDup_lookup _ i j v (gd_nodup _ _ _ _ HG)); rewrite list_lookup_fmap, ?Hi, ?Hj; done. }
    assert (HsS : seed ∈ S).
    { pose proof (lookup_lt_Some _ _ _ Hi) as Hl. destruct h as [|x h0]; [cbn in Hl; lia|]. rewrite <- (gd_first _ _ _ _ HG x eq_refl). unfold S. destruct i as [|i]; [done|]. by left. }
    assert (Hvn : v < nv g) by (apply HR; by eapply Hvin).
    destruct (crossing g (fun u => u ∈ S) seed v (Hcon seed v Hs Hvn) HsS HvS) as (u & w & x & Hu & Hw & Hx).
    assert (Hun : u < nv g) by (apply HSin in Hu as (j & c & _ & Hj); apply HR; by eapply Hvin).
    pose proof (out_dst g Hwf u (w, x) Hun Hx) as Hwn. cbn [fst] in Hwn.
    assert (Hpu : (0 < toward g S w)%Z).
    { eapply Z.lt_le_trans; [|apply (sumf_ge (fun u => W g u w) S u)]; [| |done].
      - eapply Z.lt_le_trans; [|apply (sumf_ge _ (out g u) (w, x))]; [| |done].
        + cbn [fst snd]. rewrite decide_True by done. by apply (Hpos u (w, x)).
        + intros a Ha. apply (out_wgt g Hwf u a Hun) in Ha. case_decide; lia.
      - intros y Hy. apply HSin in Hy as (j & c & _ & Hj). assert (Hy' : y < nv g) by (apply HR; by eapply Hvin). eapply proj1, W_range; eassumption. }
    assert (Hpv : (0 < toward g S v)%Z) by (eapply Z.lt_le_trans; [exact Hpu|by apply Hbest]).
    apply sumf_pos in Hpv as (u' & Hu' & HW). apply sumf_pos in HW as ([v' x'] & Hin & Hp). cbn [fst snd] in Hp. destruct (decide (v' = v)) as [->|]; [|lia].
    destruct (HSin u' Hu') as (j & c & Hlt & Hj). eapply path_step; [by eapply (IH j Hlt u' c)|exact Hin|done]. }
  intros v Hv%Hlab. rewrite Htk' in Hv. apply elem_of_list_fmap in Hv as ([v' b] & -> & Hx). apply elem_of_list_lookup in Hx as [i Hi]. by eapply Hgo.
Qed.
Print Assumptions C66_left_connected.

(** A cycle of 8 vertices with unit weights. *)
Definition cycle8 : graph := the_graph ((fun v => 2 * v) <$> seq 0 9) (seq 0 8 ≫= fun v => [(v + 7) mod 8; (v + 1) mod 8]) None None.
Lemma cycle8_wf : wf_graph cycle8. Proof. apply (the_graph_wf 8). vm_compute. reflexivity. Qed.
Definition halves8 : target := target_of_weights [4; 4]%Z [4; 4]%Z.
Lemma cycle8_next : forall u, u < 8 -> exists x, ((u + 1) mod 8, x) ∈ out cycle8 u /\ forall a, a ∈ out cycle8 u -> (0 < snd a)%Z.
Proof.
  intros u Hu. exists 1%Z. do 8 (destruct u as [|u]; [split; [right; left|intros a [->|[->|Ha%not_elem_of_nil]%elem_of_cons]%elem_of_cons; done]|]). lia.
Qed.
Lemma cycle8_path u k : u < 8 -> path_in cycle8 (fun _ => True) u ((u + k) mod 8).
Proof.
  intros Hu. induction k as [|k IH].
  - rewrite Nat.add_0_r, Nat.mod_small by done. by apply path_start.
  - destruct (cycle8_next ((u + k) mod 8) (Nat.mod_upper_bound _ 8 ltac:(lia))) as (x & Hx & _).
    replace ((u + S k) mod 8) with (((u + k) mod 8 + 1) mod 8) by (rewrite Nat.add_mod_idemp_l by lia; f_equal; lia). by eapply path_step.
Qed.
Example C66_nonvacuous : wf_graph cycle8 /\ light cycle8 /\ (total_edge_weight cycle8 < H32 - 1)%Z /\ two_way halves8 /\
  (forall u v, u < nv cycle8 -> v < nv cycle8 -> path_in cycle8 (fun _ => True) u v) /\
  (forall u a, u < nv cycle8 -> a ∈ out cycle8 u -> (0 < snd a)%Z) /\ (forall v, v < nv cycle8 -> vweight cycle8 v = 1%Z) /\
  (target_of halves8 0 <= max_of halves8 0)%Z /\ (0 <= max_of halves8 1)%Z /\ (Z.of_nat (nv cycle8) <= target_of halves8 0 + max_of halves8 1)%Z /\
  exists p s', bfs_execute halves8 cycle8 [6; 0; 1; 0] = Ok (p, s') /\ p_where p = [Some 0; Some 0; Some 1; Some 1; Some 1; Some 1; Some 0; Some 0].
Proof.
  split; [exact cycle8_wf|]. split; [vm_compute; reflexivity|]. split; [vm_compute; reflexivity|]. split; [split; reflexivity|]. change (nv cycle8) with 8.
  split; [|split; [|split; [|split; [|split; [|split]]]]].
  - intros u v Hu Hv. replace v with ((u + (8 + v - u)) mod 8); [by apply cycle8_path|]. replace (u + (8 + v - u)) with (v + 1 * 8) by lia.
    rewrite Nat.mod_add by lia. by apply Nat.mod_small.
  - intros u a Hu. destruct (cycle8_next u Hu) as (x & _ & Ha). apply Ha.
  - intros v _. reflexivity.
  - vm_compute. discriminate.
  - vm_compute. discriminate.
  - vm_compute. discriminate.
  - eexists _, _. split; [vm_compute; reflexivity|]. reflexivity.
Qed.
