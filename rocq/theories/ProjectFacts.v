(** * ProjectFacts: DiscreteCoarseGraph::project (C18, C19). *)
From Verif Require Import Base F64 ModelGraph ModelBuilders ModelPartition ModelConn ModelAgg ModelFM ModelMultilevel Spec Logic Sums
  GraphFacts PartFacts ConnFacts AggFacts BuilderFacts ContractFacts.

Section Project.
  Context (g : graph) (Hwf : wf_graph g) (Hsym : symmetric g) (Hfit : fits g)
    (a : aggregation) (Hg : grouping (nv g) a) (cg : graph) (Hc : coarse_of g a cg).
  Local Notation G := (mkCG g cg (a_cmap a)).

  Lemma external_coarse (f : nat -> option nat) v : v < nv g ->
    (external g (fun u => f (group_of a u)) v <= external cg f (group_of a v))%Z.
  Proof.
    intros Hv. set (c := group_of a v).
    assert (Hcn : c < nv cg) by (rewrite (co_nv _ _ _ Hc); apply (group_lt g a Hg); done).
    pose proof (coarse_double g Hwf a Hg cg Hc (fun c' d => if decide (c' = c) then (if decide (f c' = f d) then 0 else 1) else 0)%Z Hfit) as E.
    rewrite (external_diff cg) by (apply Hc || done).
    rewrite (sumn_ext _ _ (fun c' => if decide (c' = c) then sumn (nv cg) (diffW cg f c') else 0%Z)) in E.
    2:{ intros c' Hc'. destruct (decide (c' = c)) as [->|].
        - apply sumn_ext. intros d Hd. unfold diffW. destruct (decide (f c = f d)); lia.
        - apply sumf_zero. intros d _. lia. }
    rewrite (sumn_single (nv cg) (fun c' => sumn (nv cg) (diffW cg f c')) c) in E by done. rewrite E.
    2:{ intros c'. destruct (decide (c' = c)); [|done]. rewrite decide_True by done. done. }
    rewrite (external_diff g) by done.
    assert (Hnn : forall u, u < nv g -> forall w, w < nv g ->
      (0 <= (if decide (group_of a u = c) then if decide (f (group_of a u) = f (group_of a w)) then 0 else 1 else 0) * W g u w)%Z).
    { intros u Hu w Hw. pose proof (W_nonneg g Hwf u w Hu). destruct (decide (group_of a u = c)); [|lia].
      destruct (decide (f (group_of a u) = f (group_of a w))); lia. }
    etransitivity; [|apply (sumn_elem_le (nv g) (fun u => sumn (nv g) (fun w =>
       (if decide (group_of a u = c) then if decide (f (group_of a u) = f (group_of a w)) then 0 else 1 else 0) * W g u w)%Z) v);
       [intros u Hu; apply sumn_nonneg; intros w Hw; apply Hnn; done|done]].
    apply sumn_le. intros w Hw. unfold diffW. fold c. destruct (decide (c = c)); [|done]. destruct (decide (f c = f (group_of a w))); lia.
  Qed.

  Context (k : nat) (cp : part) (Hcp : exact_part k cg cp).
  Definition plab (v : nat) : option nat := lab cp (group_of a v).
  Lemma plab_lt v : v < nv g -> exists i, i < k /\ plab v = Some i.
  Proof.
    intros Hv. destruct Hcp as [[HL _] _]. unfold plab. rewrite lab_labw. apply (labels_ok_lab k (nv cg)); [done|].
    rewrite (co_nv _ _ _ Hc). apply (group_lt g a Hg). done.
  Qed.
  Lemma project_labels_wp E : wpo (project_labels G cp) E (fun p => p_cut p = 0%Z /\ length (p_where p) = nv g /\
     (forall v, v < nv g -> p_where p !! v = Some (plab v)) /\ weights_exact k g p).
  Proof.
    destruct Hcp as [[[HwL HLab] [HpL _]] _].
    unfold project_labels. simpl. eapply wpo_post.
    - apply (for_vertices_wp g (fun m p => p_cut p = 0%Z /\ length (p_where p) = nv g /\
         (forall v, v < nv g -> p_where p !! v = Some (if decide (v < m) then plab v else None)) /\ weights_exact k g p)).
      + simpl. split; [done|]. split; [apply replicate_length|]. split.
        * intros v Hv. rewrite lookup_replicate_2 by done. done.
        * rewrite HpL. apply part_new_weights.
      + intros v p Hv (Hcut & HL & HW & Hex). rewrite (rd_ok _ _ _ (cmap_look g a Hg v Hv)). cbn [obind].
        assert (Hgn : group_of a v < nv cg) by (rewrite (co_nv _ _ _ Hc); apply (group_lt g a Hg); done).
        rewrite (get_assignment_ok cg) by done. cbn [obind].
        destruct (plab_lt v Hv) as (i & Hi & Hpi). unfold plab in Hpi. rewrite Hpi. cbn [obind pw_index].
        eapply wpo_post; [apply (part_assign_wp g Hwf k); try done|].
        * rewrite lab_labw. unfold labw. apply nth_lt_eq. rewrite HW by done. rewrite decide_False by lia. done.
        * intros p' (H1 & H2 & H3). split; [congruence|]. split; [rewrite H2, insert_length; done|]. split; [|done].
          intros u Hu. rewrite H2. destruct (decide (u = v)) as [->|].
          -- rewrite list_lookup_insert, decide_True by lia. unfold plab. rewrite Hpi. done.
          -- rewrite list_lookup_insert_ne by done. rewrite HW by done.
             destruct (decide (u < v)), (decide (u < S v)); try done; lia.
    - intros p (H1 & H2 & H3 & H4). split; [done|]. split; [done|]. split; [|done]. intros v Hv. rewrite H3 by done.
      rewrite decide_True by done. done.
  Qed.

  Context (cc : conn) (Hblen : length (c_border cc) = nv cg)
    (Hborder : forall c, c < nv cg -> (0 < external cg (lab cp) c)%Z -> c_border cc !! c = Some true).
  Lemma project_vertex_ok fp v : length (p_where fp) = nv g -> (forall u, u < nv g -> p_where fp !! u = Some (plab u)) -> v < nv g ->
    project_vertex G fp cc v = Ok (internal g (lab fp) v, external g (lab fp) v).
  Proof.
    intros HL Hlab Hv. unfold project_vertex. simpl. rewrite (rd_ok _ _ _ (cmap_look g a Hg v Hv)). cbn [obind].
    assert (Hgn : group_of a v < nv cg) by (rewrite (co_nv _ _ _ Hc); apply (group_lt g a Hg); done).
    assert (Hl : forall u, u < nv g -> lab fp u = plab u). { intros u Hu. unfold lab. apply nth_lt_eq. by apply Hlab. }
    unfold is_in_border. destruct (lookup_lt_is_Some_2 (c_border cc) (group_of a v) ltac:(lia)) as [b Hb].
    rewrite (rd_ok _ _ _ Hb). cbn [obind]. destruct b.
    - rewrite vertex_connectivity_ok by done. rewrite int_small, ext_small by done. done.
    - assert (Hz : external g (lab fp) v = 0%Z).
      { pose proof (external_coarse (lab cp) v Hv) as Hle.
        rewrite (external_ext g (lab fp) plab) by done.
        pose proof (external_nonneg g Hwf plab v Hv).
        assert (~ (0 < external cg (lab cp) (group_of a v))%Z). { intros H'. rewrite Hborder in Hb by done. done. }
        change plab with (fun u => lab cp (group_of a u)) in *. lia. }
      rewrite Hz. pose proof (int_ext_total g (lab fp) v) as Ht. rewrite Hz in Ht.
      pose proof (int_small g Hwf Hfit (lab fp) v Hv) as Hs.
      unfold has_ew. destruct (g_uew g) eqn:Eu; simpl.
      + rewrite degree_ok by done. simpl. f_equal. f_equal. rewrite <- Hs. f_equal.
        rewrite <- (Z.add_0_r (internal g (lab fp) v)), Ht.
        rewrite (sumf_ext snd (fun _ => 1%Z)).
        * rewrite sumf_const. lia.
        * intros x Hx. destruct (out_elem g Hwf v x Hv Hx) as (e & _ & He & ->). simpl. by apply (wf_uew_t g Hwf Eu).
      + assert (Hew : has_ew g = true) by (unfold has_ew; rewrite Eu; done).
        rewrite (for_edges_pure g Hwf v _ (fun s x => u32 (s + snd x)) 0%Z Hv).
        * simpl. rewrite <- (u32_0). rewrite fold_u32. simpl. rewrite Z.add_0_l, <- Ht, Z.add_0_r, Hs. done.
        * intros s e x Hx (_ & _ & Hwx & _). rewrite Hew in Hwx. simpl in Hwx. rewrite Hwx. done.
  Qed.
  Lemma project_conn_wp E fp : length (p_where fp) = nv g -> (forall u, u < nv g -> p_where fp !! u = Some (plab u)) ->
    wpo (project_conn G fp cc) E (fun c => conn_exact g (lab fp) c /\ border_fresh g (lab fp) c).
  Proof.
    intros HL Hlab. unfold project_conn. eapply wpo_bind.
    - apply (for_vertices_wp g (fun m b => filled (nv g) m (internal g (lab fp)) (cb_int b) /\ filled (nv g) m (external g (lab fp)) (cb_ext b))).
      + split; apply filled_alloc.
      + intros v b Hv [H1 H2]. rewrite project_vertex_ok by done. cbn [obind fst snd].
        unfold cb_set_int. destruct (filled_wri _ _ _ _ H1 Hv) as (l1 & E1 & F1). rewrite E1. cbn [obind].
        unfold cb_set_ext. destruct (filled_wri _ _ _ _ H2 Hv) as (l2 & E2 & F2). simpl. rewrite E2. simpl. done.
    - intros b [H1 H2]. unfold cb_finish. simpl in H1, H2. rewrite (filled_frozen _ _ _ H1), (filled_frozen _ _ _ H2). simpl.
      apply conn_make_exact; done.
  Qed.

  Lemma project_wp E : wpo (project G cc cp) E (fun r =>
     conn_exact g (lab (snd r)) (fst r) /\ border_fresh g (lab (snd r)) (fst r) /\
     exact_part k g (snd r) /\ (forall v, v < nv g -> p_where (snd r) !! v = p_where cp !! group_of a v) /\
     p_pw (snd r) = p_pw cp /\ p_cut (snd r) = p_cut cp).
  Proof.
    unfold project. eapply wpo_bind; [apply project_labels_wp|]. intros fp (H1 & H2 & H3 & H4).
    eapply wpo_bind; [apply project_conn_wp; done|]. intros c [C1 C2].
    assert (Hl : forall u, u < nv g -> lab fp u = plab u). { intros u Hu. unfold lab. apply nth_lt_eq. by apply H3. }
    destruct Hcp as [[[HwL HLab] [HpL HpW]] HCut]. cbn [wpo fst snd].
    split; [exact C1|]. split; [exact C2|]. split; [|split; [|split; [|done]]].
    - split; [split; [split; [done|]|done]|].
      + intros v Hv. destruct (plab_lt v Hv) as (i & Hi & E'). exists i. split; [done|]. simpl. rewrite H3, E' by done. done.
      + simpl. rewrite HCut. rewrite (coarse_cut g Hwf a Hg cg Hc (lab cp) Hfit Hsym).
        apply edge_cut_ext. intros u Hu. unfold lab at 2. simpl. fold (lab fp u). rewrite Hl by done. done.
    - intros v Hv. simpl. rewrite H3 by done. unfold plab, lab. symmetry. apply lookup_nth. rewrite HwL, (co_nv _ _ _ Hc).
      apply (group_lt g a Hg); done.
    - simpl. apply list_eq. intros i. destruct H4 as [HL4 HW4]. destruct (decide (i < k)).
      + rewrite HW4, HpW by done. f_equal. rewrite (coarse_label_weight g a Hg cg Hc (lab cp)).
        f_equal. apply label_weight_ext. intros u Hu. rewrite Hl by done. done.
      + rewrite !lookup_ge_None_2 by lia. done.
  Qed.
End Project.

Lemma coarse_make_ok g a : wf_graph g -> grouping (nv g) a ->
  exists cg, coarse_make g a = Ok (mkCG g cg (a_cmap a)) /\ coarse_of g a cg.
Proof.
  intros Hwf Hg. destruct (contract_ok g a Hwf Hg) as (cg & E & Hc). exists cg. split; [|done].
  unfold coarse_make. rewrite E. simpl. destruct Hg as (HL & _). rewrite HL, Nat.eqb_refl. done.
Qed.
