(** * PartFacts: Partitioning operations (C25, C26). *)
From Verif Require Import Base F64 ModelGraph ModelPartition Spec Logic Sums GraphFacts.

Definition labw (wh : list (option nat)) (v : nat) : option nat := nth v wh None.
Lemma lab_labw p v : lab p v = labw (p_where p) v. Proof. done. Qed.
Lemma labw_lookup wh v x : wh !! v = Some x -> labw wh v = x.
Proof. apply nth_lt_eq. Qed.
Lemma labw_insert wh v x u : v < length wh -> labw (<[v:=x]> wh) u = upd (labw wh) v x u.
Proof.
  intros Hv. unfold labw, upd. rewrite !nth_lookup. case_decide as E.
  - subst. by rewrite list_lookup_insert.
  - by rewrite list_lookup_insert_ne.
Qed.
Lemma labels_ok_lab k n wh v : labels_ok k n wh -> v < n -> exists i, i < k /\ labw wh v = Some i.
Proof. intros [_ H] Hv. destruct (H v Hv) as (i & Hi & E). exists i. split; [done|]. by apply labw_lookup. Qed.
Lemma labels_ok_insert k n wh v i : labels_ok k n wh -> i < k -> labels_ok k n (<[v:=Some i]> wh).
Proof.
  intros [Hl H] Hi. split; [by rewrite insert_length|]. intros u Hu.
  destruct (decide (u = v)) as [->|Hne].
  - exists i. split; [done|]. apply list_lookup_insert. lia.
  - rewrite list_lookup_insert_ne by done. by apply H.
Qed.

Lemma add_pw_ok pw i d w : pw !! i = Some w -> add_pw pw (Some i) d = Ok (<[i := u32 (w + d)]> pw).
Proof.
  intros H. unfold add_pw. simpl. rewrite (rd_ok _ _ _ H). simpl. apply wr_ok.
  by eapply lookup_lt_Some.
Qed.

(** Part-weight arrays described by a function. *)
Definition pw_is (k : nat) (pw : list Z) (f : nat -> Z) : Prop :=
  length pw = k /\ forall i, i < k -> pw !! i = Some (u32 (f i)).
Lemma pw_is_ext k pw f h : pw_is k pw f -> (forall i, i < k -> u32 (f i) = u32 (h i)) -> pw_is k pw h.
Proof. intros [Hl H] E. split; [done|]. intros i Hi. rewrite H, E by done. done. Qed.
Lemma pw_is_add k pw f i d : pw_is k pw f -> i < k ->
  exists pw', add_pw pw (Some i) d = Ok pw' /\ pw_is k pw' (fun j => (f j + if decide (j = i) then d else 0)%Z).
Proof.
  intros [Hl H] Hi. rewrite (add_pw_ok _ _ _ _ (H i Hi)). eexists. split; [done|].
  split; [by rewrite insert_length|]. intros j Hj. destruct (decide (j = i)) as [->|Hne].
  - rewrite list_lookup_insert by lia. by rewrite u32_add_l.
  - rewrite list_lookup_insert_ne by done. rewrite H by done. by rewrite Z.add_0_r.
Qed.

Section Ops.
  Context (g : graph) (Hwf : wf_graph g) (k : nat).

  Lemma part_assign_wp E p v i :
    length (p_where p) = nv g -> v < nv g -> i < k -> lab p v = None -> weights_exact k g p ->
    wpo (part_assign g p v i) E (fun p' => p_cut p' = p_cut p /\ p_where p' = <[v:=Some i]> (p_where p)
       /\ weights_exact k g p').
  Proof.
    intros Hlen Hv Hi Hlab HW. unfold part_assign. rewrite vwt_ok by done. simpl.
    destruct (pw_is_add k _ _ i (vweight g v) HW Hi) as (pw' & -> & Hpw). cbn [obind].
    rewrite wr_ok by lia. simpl. split_and!; [done|done|].
    eapply pw_is_ext; [exact Hpw|]. intros j Hj. f_equal. cbv beta.
    rewrite (label_weight_ext g (lab {| p_cut := p_cut p; p_pw := pw'; p_where := <[v:=Some i]> (p_where p) |})
       (upd (lab p) v (Some i)) (Some j)); [|intros; apply labw_insert; lia].
    rewrite label_weight_upd, Hlab by done.
    rewrite (decide_False (P := None = Some j)) by done.
    destruct (decide (j = i)), (decide (Some i = Some j)); try congruence; lia.
  Qed.
  Lemma part_move_wp E p v a i :
    length (p_where p) = nv g -> v < nv g -> i < k -> p_where p !! v = Some (Some a) -> a < k ->
    weights_exact k g p ->
    wpo (part_move g p v i) E (fun p' => p_cut p' = p_cut p /\ p_where p' = <[v:=Some i]> (p_where p)
       /\ weights_exact k g p').
  Proof.
    intros Hlen Hv Hi Hlab Ha HW. unfold part_move. rewrite vwt_ok by done. simpl.
    rewrite (rd_ok _ _ _ Hlab). cbn [obind].
    destruct (pw_is_add k _ _ a (- vweight g v)%Z HW Ha) as (pw1 & -> & Hpw1). cbn [obind].
    destruct (pw_is_add k _ _ i (vweight g v) Hpw1 Hi) as (pw' & -> & Hpw). cbn [obind].
    rewrite wr_ok by lia. simpl. split_and!; [done|done|].
    eapply pw_is_ext; [exact Hpw|]. intros j Hj. f_equal. cbv beta.
    rewrite (label_weight_ext g (lab {| p_cut := p_cut p; p_pw := pw'; p_where := <[v:=Some i]> (p_where p) |})
       (upd (lab p) v (Some i)) (Some j)); [|intros; apply labw_insert; lia].
    rewrite label_weight_upd by done. rewrite lab_labw, (labw_lookup _ _ _ Hlab).
    destruct (decide (j = i)), (decide (Some i = Some j)); try congruence;
    destruct (decide (j = a)), (decide (Some a = Some j)); try congruence; lia.
  Qed.
  Lemma part_unassign_wp E p v a :
    length (p_where p) = nv g -> v < nv g -> p_where p !! v = Some (Some a) -> a < k ->
    weights_exact k g p ->
    wpo (part_unassign g p v) E (fun p' => p_cut p' = p_cut p /\ p_where p' = <[v:=None]> (p_where p)
       /\ weights_exact k g p').
  Proof.
    intros Hlen Hv Hlab Ha HW. unfold part_unassign. rewrite vwt_ok by done.
    rewrite (rd_ok _ _ _ Hlab). cbn [obind].
    destruct (pw_is_add k _ _ a (- vweight g v)%Z HW Ha) as (pw' & -> & Hpw). cbn [obind].
    rewrite wr_ok by lia. simpl. split_and!; [done|done|].
    eapply pw_is_ext; [exact Hpw|]. intros j Hj. f_equal. cbv beta.
    rewrite (label_weight_ext g (lab {| p_cut := p_cut p; p_pw := pw'; p_where := <[v:=None]> (p_where p) |})
       (upd (lab p) v None) (Some j)); [|intros; apply labw_insert; lia].
    rewrite label_weight_upd by done. rewrite lab_labw, (labw_lookup _ _ _ Hlab).
    rewrite (decide_False (P := None = Some j)) by done.
    destruct (decide (j = a)), (decide (Some a = Some j)); try congruence; lia.
  Qed.
  Lemma part_new_weights : weights_exact k g (part_new k g).
  Proof.
    split; [simpl; by rewrite replicate_length|]. intros i Hi. simpl.
    rewrite lookup_replicate_2 by done. f_equal. rewrite <- u32_0. f_equal. symmetry.
    apply sumf_zero. intros v Hv%elem_of_seq. unfold lab; simpl.
    rewrite nth_lookup, lookup_replicate_2 by lia. done.
  Qed.
  Lemma assign_all_wp E p i : length (p_pw p) = k -> length (p_where p) = nv g -> i < k ->
    wpo (assign_all g p i) E (fun p' => p_cut p' = 0%Z /\ p_where p' = replicate (nv g) (Some i)
      /\ labels_ok k (nv g) (p_where p') /\ weights_exact k g p').
  Proof.
    intros Hk Hl Hi. unfold assign_all. rewrite wr_ok by (rewrite replicate_length; lia). simpl.
    split_and!; [done|by rewrite Hl| |].
    - split; [by rewrite replicate_length|]. intros v Hv. exists i. split; [done|].
      rewrite lookup_replicate_2 by lia. done.
    - split; simpl; [rewrite insert_length, replicate_length; lia|].
      intros j Hj. unfold lab; simpl.
      assert (Hlab : forall v, v < nv g -> nth v (replicate (length (p_where p)) (Some i)) None = Some i).
      { intros v Hv. rewrite nth_lookup, lookup_replicate_2 by lia. done. }
      destruct (decide (j = i)) as [->|Hne].
      + rewrite list_lookup_insert by (rewrite replicate_length; lia).
        rewrite (wf_tvw g Hwf). do 2 f_equal. apply sumn_ext. intros v Hv. rewrite Hlab by done.
        by rewrite decide_True.
      + rewrite list_lookup_insert_ne, lookup_replicate_2 by lia. f_equal. rewrite <- u32_0. f_equal.
        symmetry. apply sumf_zero. intros v Hv%elem_of_seq. rewrite Hlab by lia.
        rewrite decide_False by congruence. done.
  Qed.

  Lemma sum_partition_weight_ok E wh : labels_ok k (nv g) wh ->
    wpo (sum_partition_weight g wh (replicate k 0%Z)) E (fun pw =>
      pw_is k pw (fun i => label_weight g (labw wh) (Some i))).
  Proof.
    intros [Hl Hlab]. unfold sum_partition_weight, label_weight.
    apply (for_vertices_wp g (fun n pw => pw_is k pw (fun i =>
       sumn n (fun v => if decide (labw wh v = Some i) then vweight g v else 0%Z)))).
    - split; [by rewrite replicate_length|]. intros i Hi. by rewrite lookup_replicate_2.
    - intros v pw Hv Hpw. destruct (Hlab v Hv) as (i & Hi & E'). rewrite (rd_ok _ _ _ E'). cbn [obind].
      rewrite vwt_ok by done. cbn [obind].
      destruct (pw_is_add k _ _ i (vweight g v) Hpw Hi) as (pw' & -> & Hpw'). simpl.
      eapply pw_is_ext; [exact Hpw'|]. intros j Hj. f_equal. rewrite sumn_S. f_equal.
      rewrite (labw_lookup _ _ _ E').
      destruct (decide (j = i)), (decide (Some i = Some j)); congruence.
  Qed.

  Lemma sum_cut_ok wh : length wh = nv g ->
    sum_cut g wh = Ok (u32 (sumn (nv g) (external g (labw wh))) / 2)%Z.
  Proof.
    intros Hl. unfold sum_cut.
    cut (wpo (for_vertices g (fun t v =>
        let! home := rd wh v in
        for_edges g v (fun t e =>
          let! u := dst g e in let! other := rd wh u in
          if decide (other = home) then Ok t else
            let! w := ewt (has_ew g) g e in Ok (u32 (t + w))) t) 0%Z) never
      (fun t => t = u32 (sumn (nv g) (external g (labw wh))))).
    { intros (t & -> & ->)%wpo_never. done. }
    apply (for_vertices_wp g (fun n t => t = u32 (sumn n (external g (labw wh))))); [done|].
    intros v t Hv ->.
    assert (Hrd : forall u, u < nv g -> rd wh u = Ok (labw wh u)) by (intros; apply rd_nth; lia).
    rewrite Hrd by done. cbn [obind].
    eapply wpo_post.
    - apply (for_edges_wp g Hwf v (fun l t => t = u32 (sumn v (external g (labw wh)) +
         sumf (fun a => if decide (labw wh (fst a) = labw wh v) then 0 else snd a) l)))%Z.
      + done.
      + rewrite sumf_nil. f_equal. lia.
      + intros pre e a post s Hout (He & Hd & Hw & _ & Hr & _) ->.
        rewrite Hd. cbn [obind]. rewrite Hrd by done. cbn [obind]. rewrite sumf_snoc.
        case_decide; [simpl; f_equal; lia|].
        rewrite Hw. simpl. rewrite u32_add_l. f_equal. lia.
    - intros t ->. rewrite sumn_S. done.
  Qed.

  Lemma sum_cut_exact wh : length wh = nv g -> symmetric g -> fits g ->
    sum_cut g wh = Ok (edge_cut g (labw wh)).
  Proof.
    intros Hl Hs Hf. rewrite sum_cut_ok by done. f_equal.
    rewrite edge_cut_double by done.
    pose proof (edge_cut_nonneg g Hwf (labw wh)).
    pose proof (edge_cut_le_total g Hwf (labw wh) Hs). unfold fits in Hf.
    rewrite u32_small by lia. lia.
  Qed.
  Lemma recalc_cut_wp E p : length (p_where p) = nv g -> symmetric g -> fits g ->
    wpo (recalc_cut g p) E (fun p' => p' = mkPart (edge_cut g (lab p)) (p_pw p) (p_where p)).
  Proof. intros Hl Hs Hf. unfold recalc_cut. rewrite sum_cut_exact by done. done. Qed.
  Lemma recalc_cut_exact E p : valid_part k g p -> symmetric g -> fits g ->
    wpo (recalc_cut g p) E (fun p' => exact_part k g p' /\ p_where p' = p_where p /\ p_pw p' = p_pw p).
  Proof.
    intros [Hl HW] Hs Hf. eapply wpo_post; [apply recalc_cut_wp; auto; apply Hl|].
    intros p' ->. split_and!; [split; [split; done|done]|done|done].
  Qed.
  Lemma recalc_cut_valid E p : valid_part k g p ->
    wpo (recalc_cut g p) E (fun p' => valid_part k g p' /\ p_where p' = p_where p).
  Proof.
    intros [Hl HW]. unfold recalc_cut. rewrite sum_cut_ok by apply Hl. simpl. split; [|done]. by split.
  Qed.

  Lemma part_of_labels_wp E labels : length labels = nv g -> Forall (fun i => i < k) labels ->
    wpo (part_of_labels k g labels) E (fun p => p_where p = Some <$> labels /\ valid_part k g p
       /\ (symmetric g -> fits g -> exact_part k g p)).
  Proof.
    intros Hl Hr. unfold part_of_labels.
    assert (HL : labels_ok k (nv g) (Some <$> labels)).
    { split; [by rewrite fmap_length|]. intros v Hv. rewrite <- Hl in Hv.
      apply lookup_lt_is_Some in Hv as [i Hi]. exists i. rewrite list_lookup_fmap, Hi.
      split; [|done]. rewrite Forall_forall in Hr. apply Hr. by eapply elem_of_list_lookup_2. }
    eapply wpo_bind; [by apply sum_partition_weight_ok|]. intros pw Hpw.
    rewrite sum_cut_ok by apply HL. simpl.
    split_and!; [done|by split|]. intros Hs Hf. split; [by split|]. simpl.
    pose proof (sum_cut_exact (Some <$> labels) (proj1 HL) Hs Hf) as Ec.
    rewrite sum_cut_ok in Ec by apply HL. injection Ec as ->. done.
  Qed.
End Ops.

(** Vertex counts *)
Definition count_label (n : nat) (f : nat -> option nat) (i : nat) : nat :=
  length (filter (fun v => f v = Some i) (seq 0 n)).
Lemma count_label_S n f i : count_label (S n) f i = count_label n f i + if decide (f n = Some i) then 1 else 0.
Proof. unfold count_label. rewrite seq_S, filter_app, app_length, filter_cons, filter_nil. simpl. case_decide; simpl; lia. Qed.
Lemma count_label_ext n f h i : (forall v, v < n -> f v = h v) -> count_label n f i = count_label n h i.
Proof.
  induction n as [|n IH]; intros H; [done|]. rewrite !count_label_S, IH, H by auto. done.
Qed.
Lemma calc_vertex_counts_wp E p k n : length (p_pw p) = k -> labels_ok k n (p_where p) ->
  wpo (calc_vertex_counts p) E (fun cs => length cs = k /\ forall i, i < k -> cs !! i = Some (count_label n (lab p) i)).
Proof.
  intros Hk [Hl Hlab]. unfold calc_vertex_counts. rewrite Hk.
  cut (wpo (ofold (fun cs w => let! i := pw_index w in let! c := rd cs i in wr cs i (S c))
     (replicate k 0) (p_where p)) E (fun cs => length cs = k /\ forall i, i < k -> cs !! i = Some (count_label (length (p_where p)) (lab p) i))).
  { by rewrite Hl. }
  apply (ofold_wp (fun pre cs => length cs = k /\ forall i, i < k -> cs !! i = Some (count_label (length pre) (lab p) i))).
  - split; [by rewrite replicate_length|]. intros i Hi. by rewrite lookup_replicate_2.
  - intros pre w post cs Heq [Hcl Hcs].
    assert (Hw : p_where p !! length pre = Some w) by (rewrite Heq; by apply list_lookup_middle).
    destruct (Hlab (length pre)) as (i & Hi & E'); [rewrite <- Hl; by eapply lookup_lt_Some|].
    rewrite Hw in E'. injection E' as ->. cbn [obind pw_index]. rewrite (rd_ok _ _ _ (Hcs i Hi)). cbn [obind].
    rewrite wr_ok by lia. simpl. split; [by rewrite insert_length|].
    intros j Hj. rewrite app_length. simpl. rewrite Nat.add_1_r, count_label_S.
    rewrite lab_labw, (labw_lookup _ _ _ Hw). destruct (decide (j = i)) as [->|Hne].
    + rewrite list_lookup_insert by lia. rewrite decide_True by done. f_equal. lia.
    + rewrite list_lookup_insert_ne by done. rewrite Hcs by done. rewrite decide_False by congruence. f_equal. lia.
Qed.
