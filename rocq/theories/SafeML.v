(** * SafeML: aggregation, projection and multilevel bisection on EVERY well-formed graph. *)
From Verif Require Import Base F64 ModelGraph ModelBuilders ModelPartition ModelConn ModelFM ModelAgg ModelMultilevel ModelBisect Spec Logic Sums
  GraphFacts PartFacts ConnFacts FMFacts MiscFacts AggFacts BuilderFacts ContractFacts ProjectFacts FloatUse BisectFacts MultilevelFacts RecFacts LabelFacts.
From Verif Require Import SafeFM.

(** ** Matchings in the presence of self loops: a vertex may be matched with itself, and then the
    vertex map is read before it is written. *)
Definition wmatching (n : nat) (m : matching) : Prop :=
  length m = n /\ forall a b, m !! a = Some (Some b) -> m !! b = Some (Some a).
Lemma wmatch n m v u : wmatching n m -> m !! v = Some None -> m !! u = Some None ->
  exists m', mb_match m v u = Ok m' /\ wmatching n m'.
Proof.
  intros [HL H] Hv Hu. unfold mb_match. pose proof (lookup_lt_Some _ _ _ Hv). pose proof (lookup_lt_Some _ _ _ Hu).
  rewrite wr_ok by done. cbn [obind]. rewrite wr_ok by (rewrite insert_length; done). eexists. split; [done|].
  split; [rewrite !insert_length; done|]. intros x y Hx.
  destruct (decide (x = u)) as [->|Hxu].
  - rewrite list_lookup_insert in Hx by (rewrite insert_length; done). injection Hx as <-.
    destruct (decide (v = u)) as [->|]; [rewrite list_lookup_insert by (rewrite insert_length; done); done|].
    rewrite list_lookup_insert_ne, list_lookup_insert by done. done.
  - rewrite list_lookup_insert_ne in Hx by done. destruct (decide (x = v)) as [->|Hxv].
    + rewrite list_lookup_insert in Hx by done. injection Hx as <-. rewrite list_lookup_insert by (rewrite insert_length; done). done.
    + rewrite list_lookup_insert_ne in Hx by done. pose proof (H _ _ Hx) as Hy. rewrite !list_lookup_insert_ne by congruence. done.
Qed.
Lemma frozen_none {A} (l : list (option A)) i : l !! i = Some None -> frozen l = Fail (UB Uninit).
Proof.
  revert i. induction l as [|x l IH]; intros i H; [done|]. destruct i as [|i]; cbn in H.
  - injection H as ->. done.
  - destruct x; [|done]. cbn. by rewrite (IH i).
Qed.
Lemma matched_coarsening n m a : agg_of_matching n m a -> coarsening n a.
Proof.
  intros [A1 A2 A3 A4 A5]. split.
  - split; [done|]. split.
    + apply Forall_lookup_2. intros i c Hc. destruct (A2 i) as (c' & Hc' & ?); [rewrite <- A1; by eapply lookup_lt_Some|]. congruence.
    + intros c Hc. rewrite A5 by done. unfold members_of. rewrite A1. done.
  - rewrite <- A1. rewrite <- (seq_length (a_num_coarse a) 0). apply submseteq_length. apply NoDup_submseteq; [apply NoDup_seq|].
    intros c Hc%elem_of_seq. destruct (A3 c ltac:(lia)) as (v & _ & E). by eapply elem_of_list_lookup_2.
Qed.
Lemma mb_build_weak (E : failure -> Prop) n m : E (UB Uninit) -> wmatching n m -> wpo (mb_build m) E (coarsening n).
Proof.
  intros HE [HL Hm].
  destruct (decide (Exists (fun v => m !! v = Some (Some v)) (seq 0 n))) as [Hfix|Hno].
  - apply Exists_exists in Hfix as (a & Ha%elem_of_seq & Hfix). unfold mb_build.
    eapply wpo_bind.
    + unfold mb_cmap. rewrite HL. apply (ofold_seq_wp (fun k st => length (fst st) = n /\ fst st !! a = Some None)).
      * cbn [fst]. split; [apply replicate_length|]. apply lookup_replicate_2. lia.
      * intros v [c k] Hv [Hc Hn]. cbn [fst snd] in *. destruct (lookup_lt_is_Some_2 m v ltac:(lia)) as [x Hx]. rewrite (rd_ok _ _ _ Hx). cbn [obind].
        destruct x as [u|].
        -- destruct (Nat.ltb_spec v u); [|done]. pose proof (Hm _ _ Hx) as Hu. pose proof (lookup_lt_Some _ _ _ Hu).
           rewrite wri_ok by lia. cbn [obind]. rewrite wri_ok by (rewrite insert_length; lia). cbn [obind wpo fst].
           split; [by rewrite !insert_length|]. rewrite !list_lookup_insert_ne; [done| |]; intros ->; rewrite Hfix in *; simplify_eq; lia.
        -- rewrite wri_ok by lia. cbn [obind wpo fst]. split; [by rewrite insert_length|]. rewrite list_lookup_insert_ne; [done|]. intros ->. congruence.
    + intros [c k] [_ Hn]. cbn [fst snd] in *. rewrite (frozen_none _ _ Hn). exact HE.
  - assert (Hok : matching_ok n m).
    { split; [done|]. intros a b Hab. split; [by apply Hm|]. intros ->. apply Hno. apply Exists_exists. exists b. split; [|done].
      apply elem_of_seq. apply lookup_lt_Some in Hab. lia. }
    destruct (mb_build_ok n m Hok) as (a & Ea & Ha). rewrite Ea. by eapply matched_coarsening.
Qed.

Section Agg.
  Context (g : graph) (Hwf : wf_graph g) (E : failure -> Prop) (HE : E (UB Uninit)) (maxW : Z).
  Lemma wsweep (visit : matching -> nat -> outcome matching) perm : perm ≡ₚ seq 0 (nv g) ->
    (forall m v, wmatching (nv g) m -> v < nv g -> exists m', visit m v = Ok m' /\ wmatching (nv g) m') ->
    wpo (ofold visit (mb_new (nv g)) perm) E (wmatching (nv g)).
  Proof.
    intros Hp Hvisit. apply ofold_inv.
    - split; [apply replicate_length|]. intros a b Hab. apply lookup_replicate_1 in Hab as [? ?]. done.
    - intros v m Hv Hm. rewrite Hp in Hv. apply elem_of_seq in Hv. destruct (Hvisit m v Hm ltac:(lia)) as (m' & -> & H). exact H.
  Qed.
  Lemma rm_visit_weak m v : wmatching (nv g) m -> v < nv g -> exists m', rm_visit g maxW m v = Ok m' /\ wmatching (nv g) m'.
  Proof.
    intros Hm Hv. pose proof Hm as [HL _]. unfold rm_visit.
    destruct (lookup_lt_is_Some_2 m v ltac:(lia)) as [x Hx]. rewrite (mb_is_matched_ok _ _ _ Hx). cbn [obind].
    destruct x as [u|]; [rewrite bool_decide_eq_true_2 by eauto; by exists m|].
    rewrite bool_decide_eq_false_2 by (intros [? ?]; done). rewrite vwt_ok by done. cbn [obind]. rewrite edge_range_ok by done. cbn [obind].
    destruct (first_allowed_ok g Hwf maxW m v (seq (pre_at g v) (pre_at g (S v) - pre_at g v))) as (r & Er & Hr);
      [done|done|intros; apply out_of_range; done|]. rewrite Er. cbn [obind]. destruct r as [u|]; [|by exists m].
    destruct Hr as (w & _ & H2 & _). by apply wmatch.
  Qed.
  Lemma shem_visit_weak m v : length (g_ew g) = ne g -> wmatching (nv g) m -> v < nv g -> exists m', shem_visit g maxW m v = Ok m' /\ wmatching (nv g) m'.
  Proof.
    intros Hew Hm Hv. pose proof Hm as [HL _]. unfold shem_visit.
    destruct (lookup_lt_is_Some_2 m v ltac:(lia)) as [x Hx]. rewrite (mb_is_matched_ok _ _ _ Hx). cbn [obind].
    destruct x as [u|]; [rewrite bool_decide_eq_true_2 by eauto; by exists m|].
    rewrite bool_decide_eq_false_2 by (intros [? ?]; done). rewrite vwt_ok by done. cbn [obind]. rewrite edge_range_ok by done. cbn [obind].
    destruct (heaviest_ok g Hwf maxW m v) as ([r wr'] & Er & Hr); [done..|]. rewrite Er. cbn [obind fst snd] in *. destruct r as [u|]; [|by exists m].
    destruct Hr as [(_ & H2 & _) _]. by apply wmatch.
  Qed.
  Lemma rm_weak : wpm (rm_aggregate maxW g) E (coarsening (nv g)).
  Proof.
    unfold rm_aggregate, rm_matching. eapply wpm_bind.
    - eapply wpm_bind; [apply random_order_wp; done|]. intros perm Hp. apply wpm_lift. apply wsweep; [|intros; by apply rm_visit_weak].
      unfold vs_iter, range in Hp. cbn in Hp. rewrite Nat.sub_0_r in Hp. exact Hp.
    - intros m Hm. apply wpm_lift. by apply mb_build_weak.
  Qed.
  Lemma shem_weak : length (g_ew g) = ne g -> wpm (shem_aggregate maxW g) E (coarsening (nv g)).
  Proof.
    intros Hew. unfold shem_aggregate, shem_matching. eapply wpm_bind.
    - eapply wpm_bind; [apply degree_sorted_wp; done|]. intros perm [Hp _]. apply wpm_lift. apply wsweep; [|intros; by apply shem_visit_weak].
      unfold vs_iter, range in Hp. cbn in Hp. rewrite Nat.sub_0_r in Hp. exact Hp.
    - intros m Hm. apply wpm_lift. by apply mb_build_weak.
  Qed.
  Lemma aggregator_weak scheme agg : aggregator_make scheme = Ok agg -> wpm (agg maxW g) E (coarsening (nv g)).
  Proof.
    intros H. unfold aggregator_make in H. destruct (scheme =? 0)%Z; [|destruct (scheme =? 1)%Z; [|done]]; injection H as <-; [apply rm_weak|].
    unfold shemrm_aggregate. destruct (g_uew g) eqn:Eu; [apply rm_weak|]. apply shem_weak. by apply wf_uew_f.
  Qed.
End Agg.

(** ** Building connectivity *)
Lemma conn_make_safe n is es : length is = n -> length es = n -> Forall (Z.le 0) is -> Forall (Z.le 0) es -> conn_safe n (conn_make is es).
Proof.
  intros L1 L2 F1 F2. unfold conn_safe, conn_make. cbn [c_int c_ext c_border]. rewrite zip_with_length. split_and!; auto; [lia| |];
    intros v x Hx; [eapply Forall_lookup_1 in F1|eapply Forall_lookup_1 in F2]; eauto.
Qed.
(** Both builders of a connectivity: any per-vertex computation that succeeds with non-negative numbers. *)
Lemma wri_filled {A} n i (h : nat -> A) l : filled n i h l -> i < n -> wri l i (h i) = Ok (<[i := Some (h i)]> l).
Proof. intros [L _] Hi. apply wri_ok. lia. Qed.
Section Build.
  Context (g : graph) (Hwf : wf_graph g).
  Lemma from_partitioning_safe E p : length (p_where p) = nv g -> wpo (from_partitioning g p) E (conn_safe (nv g)).
  Proof.
    intros Hl. unfold from_partitioning.
    set (hi := fun v => u32 (internal g (lab p) v)). set (he := fun v => u32 (external g (lab p) v)).
    eapply wpo_bind with (P := fun r => filled (nv g) (nv g) hi (fst r) /\ filled (nv g) (nv g) he (snd r)).
    - apply (for_vertices_wp g (fun n r => filled (nv g) n hi (fst r) /\ filled (nv g) n he (snd r))).
      + split; apply filled_alloc.
      + intros v [is es] Hv [Hi He]; cbn [fst snd] in Hi, He. rewrite vertex_connectivity_ok by done. cbn [obind fst snd].
        destruct (filled_wri _ _ _ _ Hi Hv) as (is' & E1 & Hi'). fold (hi v). rewrite E1. cbn [obind fst snd].
        destruct (filled_wri _ _ _ _ He Hv) as (es' & E2 & He'). fold (he v). rewrite E2. done.
    - intros [is es] [Hi He]. cbn [fst snd] in *. rewrite (filled_frozen _ _ _ Hi). cbn [obind]. rewrite (filled_frozen _ _ _ He). cbn [obind wpo].
      apply conn_make_safe; rewrite ?fmap_length, ?seq_length; try done; apply Forall_fmap, Forall_forall; intros; apply u32_range.
  Qed.
  Context (a : aggregation) (Hg : grouping (nv g) a) (cg : graph) (Hc : coarse_of g a cg).
  Local Notation G := (mkCG g cg (a_cmap a)).
  Lemma project_labels_safe E cp : two_labels cg cp -> wpo (project_labels G cp) E (two_labels g).
  Proof.
    intros [HpL [HwL HLab]]. unfold project_labels. cbn [cg_fine cg_cmap]. eapply wpo_post.
    - apply (for_vertices_wp g (fun m p => length (p_pw p) = 2 /\ length (p_where p) = nv g /\
         forall v, v < m -> v < nv g -> exists i, i < 2 /\ p_where p !! v = Some (Some i))).
      + cbn. rewrite HpL. split; [done|]. split; [apply replicate_length|]. intros v. lia.
      + intros v p Hv (H1 & H2 & H3). rewrite (rd_ok _ _ _ (cmap_look g a Hg v Hv)). cbn [obind].
        assert (Hgn : group_of a v < nv cg) by (rewrite (co_nv _ _ _ Hc); apply (group_lt g a Hg); done).
        destruct (HLab _ Hgn) as (i & Hi & Ei). unfold get_assignment. rewrite (rd_ok _ _ _ Ei). cbn [obind pw_index].
        unfold part_assign. rewrite vwt_ok by done. cbn [obind]. unfold add_pw. cbn [pw_index obind]. rewrite (rd_nth _ _ 0%Z) by lia. cbn [obind].
        rewrite wr_ok by lia. cbn [obind]. rewrite wr_ok by lia. cbn [obind wpo p_pw p_where]. rewrite !insert_length. split; [done|]. split; [done|].
        intros u Hu Hun. destruct (decide (u = v)) as [->|Hne].
        * exists i. split; [done|]. apply list_lookup_insert. lia.
        * rewrite list_lookup_insert_ne by done. apply H3; lia.
    - intros p (H1 & H2 & H3). split; [done|]. split; [done|]. intros v Hv. by apply H3.
  Qed.
  Lemma project_vertex_safe fp cc v : length (p_where fp) = nv g -> length (c_border cc) = nv cg -> v < nv g ->
    exists i e, project_vertex G fp cc v = Ok (i, e) /\ (0 <= i)%Z /\ (0 <= e)%Z.
  Proof.
    intros HL Hb Hv. unfold project_vertex. cbn [cg_fine cg_cmap]. rewrite (rd_ok _ _ _ (cmap_look g a Hg v Hv)). cbn [obind].
    assert (Hgn : group_of a v < nv cg) by (rewrite (co_nv _ _ _ Hc); apply (group_lt g a Hg); done).
    unfold is_in_border. rewrite (rd_nth _ _ false) by lia. cbn [obind]. destruct (nth _ _ _).
    - rewrite vertex_connectivity_ok by done. eexists _, _. split; [done|]. split; apply u32_range.
    - unfold has_ew. destruct (g_uew g) eqn:Eu; cbn [negb].
      + rewrite degree_ok by done. cbn [obind]. eexists _, _. split; [done|]. split; [apply u32_range|lia].
      + assert (Hew : has_ew g = true) by (unfold has_ew; rewrite Eu; done).
        rewrite (for_edges_pure g Hwf v _ (fun s x => u32 (s + snd x)) 0%Z Hv).
        * cbn [obind]. eexists _, _. split; [done|]. split; [|lia]. change 0%Z with (u32 0) at 2. rewrite fold_u32. apply u32_range.
        * intros s e x Hx (_ & _ & Hwx & _). rewrite Hew in Hwx. cbn [snd] in Hwx. rewrite Hwx. done.
  Qed.
  Lemma project_conn_safe E fp cc : length (p_where fp) = nv g -> length (c_border cc) = nv cg -> wpo (project_conn G fp cc) E (conn_safe (nv g)).
  Proof.
    intros HL Hb. unfold project_conn. cbn [cg_fine].
    set (part_ok := fun (l : list (option Z)) m => length l = nv g /\ forall j, j < m -> exists x, l !! j = Some (Some x) /\ (0 <= x)%Z).
    eapply wpo_bind with (P := fun b => part_ok (cb_int b) (nv g) /\ part_ok (cb_ext b) (nv g)).
    - apply (for_vertices_wp g (fun m b => part_ok (cb_int b) m /\ part_ok (cb_ext b) m)).
      + split; (split; [apply replicate_length|lia]).
      + assert (Hstep : forall l m x, part_ok l m -> m < nv g -> (0 <= x)%Z -> wri l m x = Ok (<[m := Some x]> l) /\ part_ok (<[m := Some x]> l) (S m)).
        { intros l m x [L H] Hm Hx. split; [apply wri_ok; lia|]. split; [by rewrite insert_length|]. intros j Hj. destruct (decide (j = m)) as [->|].
          - exists x. rewrite list_lookup_insert by lia. done.
          - rewrite list_lookup_insert_ne by done. apply H. lia. }
        intros v b Hv [H1 H2]. destruct (project_vertex_safe fp cc v HL Hb Hv) as (i & e & -> & Hi & He). cbn [obind fst snd].
        unfold cb_set_int. destruct (Hstep _ _ _ H1 Hv Hi) as [-> F1]. cbn [obind]. unfold cb_set_ext. cbn [cb_ext cb_int].
        destruct (Hstep _ _ _ H2 Hv He) as [-> F2]. done.
    - intros b [H1 H2]. unfold cb_finish.
      assert (Hfr : forall l, part_ok l (nv g) -> exists l', frozen l = Ok l' /\ length l' = nv g /\ Forall (Z.le 0) l').
      { intros l [L H]. exists ((fun j => default 0%Z (default None (l !! j))) <$> seq 0 (length l)). split; [apply frozen_ok|].
        - intros i Hi. destruct (H i ltac:(lia)) as (x & -> & _). done.
        - rewrite fmap_length, seq_length. split; [done|]. apply Forall_fmap, Forall_forall. intros j Hj%elem_of_seq. cbn.
          destruct (H j ltac:(lia)) as (x & -> & ?). done. }
      destruct (Hfr _ H1) as (l1 & -> & L1 & F1). cbn [obind]. destruct (Hfr _ H2) as (l2 & -> & L2 & F2). cbn [obind wpo]. by apply conn_make_safe.
  Qed.
  Lemma project_safe E cc cp : two_labels cg cp -> length (c_border cc) = nv cg -> wpo (project G cc cp) E (fun r => two_labels g (snd r) /\ conn_safe (nv g) (fst r)).
  Proof.
    intros HT Hb. unfold project. eapply wpo_bind; [by apply project_labels_safe|]. intros fp Hfp. pose proof Hfp as [_ [Hl _]].
    eapply wpo_bind; [by apply project_conn_safe|]. intros fc Hfc. exact (conj Hfp Hfc).
  Qed.
End Build.

(** ** Multilevel bisection *)
Lemma stop_safe fuel lvl parent g : enough_fuel fuel lvl parent g -> (Z.of_nat (ne g) < W32)%Z ->
  exists b, composite_stop [vertex_number_stop 20; edge_ratio_stop f_0_95] lvl parent (Some g) = Ok b /\ (b = false -> ne g < fuel).
Proof.
  intros HF Hb. cbn [composite_stop]. unfold vertex_number_stop. cbn [obind].
  destruct (Nat.leb (nv g) 20); [exists true; done|]. unfold edge_ratio_stop.
  assert (Hnt : (Nat.ltb 0 lvl && bool_decide (parent = None)) = false).
  { destruct parent as [f|]; [rewrite bool_decide_false by done; apply andb_false_r|]. destruct HF as [-> _]. done. }
  rewrite Hnt. destruct (Nat.eqb (ne g) 0); [exists true; done|].
  destruct parent as [f|]; cbn in HF.
  - destruct HF as [HF1 HF2]. destruct (Nat.eqb_spec (ne f) 0) as [Hz|Hz]; [exists true; done|].
    destruct (fgt (fdiv (f_of_nat (ne g)) (f_of_nat (ne f))) f_0_95) eqn:Er; cbn [obind]; [exists true; done|].
    exists false. split; [done|]. intros _. pose proof (ratio_shrinks (ne g) (ne f) Hb HF2 ltac:(lia) Er). lia.
  - exists false. split; [done|]. intros _. lia.
Qed.
Section ML.
  Context (g0 : graph) (Hne : (Z.of_nat (ne g0) < W32)%Z) (Hnv : (Z.of_nat (nv g0) < W32)%Z).
  Context (E : failure -> Prop) (HE : E (UB SignedOverflow)).
  Context (t : target) (Ht : two_way t).
  (** A level: well formed, no larger than the top, and allowed to fail in the ways E says. *)
  Record slevel (g : graph) : Prop := {
    sl_wf : wf_graph g; sl_ne : ne g <= ne g0; sl_nv : nv g <= nv g0; sl_pos : 0 < nv g;
    sl_loops : loopless g \/ E (UB Uninit);
    sl_vw : forall f, no_weights g f -> E f }.
  Lemma slevel_down g a cg : slevel g -> coarsening (nv g) a -> coarse_of g a cg -> slevel cg.
  Proof.
    intros [S1 S2 S3 S4 S5 S6] [Hg Hle] Hc. constructor.
    - apply Hc.
    - pose proof (coarse_edges g a cg S1 Hg Hc). lia.
    - rewrite (co_nv _ _ _ Hc). lia.
    - rewrite (co_nv _ _ _ Hc). pose proof (group_lt g a Hg 0 S4). lia.
    - left. apply Hc.
    - intros f (_ & Hu & _). assert (g_uvw cg = false) by apply Hc. congruence.
  Qed.
  Context (scheme : Z) (agg : aggregator) (Hagg : aggregator_make scheme = Ok agg) (nb it mv : Z) (Hnb : (1 <= nb)%Z).
  Lemma slevel_agg g maxW : slevel g -> wpm (agg maxW g) E (coarsening (nv g)).
  Proof.
    intros [S1 S2 S3 S4 [S5|S5] S6]; [by eapply aggregator_make_wp|by eapply aggregator_weak].
  Qed.
  Lemma slevel_init g : slevel g -> wpm (multi_execute nb bfs_execute t g) E (two_labels g).
  Proof.
    intros [S1 S2 S3 S4 S5 S6]. apply multi_execute_wp; [done|by rewrite (tw_frac t Ht)|by rewrite (tw_max t Ht)| |intros p Hp; apply Hp].
    eapply wpm_mono; [apply (bfs_execute_wp g S1 t Ht S4)|exact S6|]. intros p Hp. destruct (br_valid _ _ _ Hp) as [HL [HW _]]. done.
  Qed.
  Lemma slevel_ref g c p : slevel g -> two_labels g p -> conn_safe (nv g) c ->
    wpm (fm_refine it mv g t c p) E (fun r => two_labels g (snd r) /\ conn_safe (nv g) (fst r)).
  Proof.
    intros [S1 S2 S3 S4 S5 S6] HT HC. destruct (max_bad_moves_ok mv (nv g) ltac:(lia)) as [mb Hmb].
    eapply fm_refine_safe; eauto; [by rewrite (tw_frac t Ht)|by rewrite (tw_max t Ht)].
  Qed.
  Lemma ml_recurse_safe maxW fuel : forall lvl parent g, slevel g -> enough_fuel fuel lvl parent g ->
    wpm (ml_recurse agg (multi_execute nb bfs_execute) (fm_refine it mv) (composite_stop [vertex_number_stop 20; edge_ratio_stop f_0_95]) maxW t fuel lvl parent g) E
      (fun r => two_labels g (snd r) /\ conn_safe (nv g) (fst r)).
  Proof.
    induction fuel as [|fuel IH]; intros lvl parent g HS HF.
    all: pose proof (sl_ne _ HS) as HN; pose proof (sl_wf _ HS) as Hwf.
    all: destruct (stop_safe _ lvl parent g HF ltac:(lia)) as (b & Eb & Hb); cbn [ml_recurse]; rewrite Eb; apply wpm_liftk.
    all: destruct b; [eapply wpm_bind; [by apply slevel_init|]; intros p Hp;
      eapply wpm_bind; [apply wpm_lift; apply (from_partitioning_safe g Hwf E p); apply Hp|]; intros c Hc; apply wpm_ret; done|].
    - specialize (Hb eq_refl). lia.
    - specialize (Hb eq_refl). eapply wpm_bind; [by apply slevel_agg|]. intros a Hco. pose proof (proj1 Hco) as Ha.
      destruct (coarse_make_ok g a Hwf Ha) as (cg & Ecg & Hcg). rewrite Ecg. apply wpm_liftk. cbn [cg_coarse].
      eapply wpm_bind; [apply (IH (S lvl) (Some g) cg); [by eapply slevel_down|cbn; lia]|].
      intros [cc cp] (HX & HC). cbn [fst snd] in *.
      eapply wpm_bind; [apply wpm_lift; apply (project_safe g Hwf a Ha cg Hcg); [done|apply HC]|].
      intros [fc fp] (P1 & P2). by apply slevel_ref.
  Qed.
  Lemma ml_execute_safe : slevel g0 -> wpm (ml_execute agg (multi_execute nb bfs_execute) (fm_refine it mv) t g0) E (two_labels g0).
  Proof.
    intros HS. destruct (ml_max_weight_ok g0) as (mw & Emw & _).
    { rewrite (wf_tvw _ (sl_wf _ HS)). unfold u32. apply Z.mod_pos_bound. done. }
    unfold ml_execute. rewrite ml_criteria_eq.
    apply wpm_liftk. rewrite Emw. apply wpm_liftk. eapply wpm_bind; [apply (ml_recurse_safe mw _ 0 None g0 HS)|].
    - split; [done|]. lia.
    - intros r Hr. apply wpm_ret. apply Hr.
  Qed.
End ML.
