(** * BuilderFacts: graphs given by rows; the one-step builder (C41) and the two-step
    builder (C40). *)
From Verif Require Import Base ModelGraph ModelBuilders ModelAgg Spec Logic Sums GraphFacts ConnFacts BucketFacts.

Notation arc := (nat * Z)%type.
Definition rstart (rows : nat -> list arc) (v : nat) : nat := nsum (fun v => length (rows v)) v.

Lemma frozen_all {A} (l : list (option A)) : (forall i, i < length l -> exists a, l !! i = Some (Some a)) ->
  exists l', frozen l = Ok l' /\ length l' = length l /\ forall i a, l !! i = Some (Some a) <-> l' !! i = Some a.
Proof.
  induction l as [|x l IH]; intros H; simpl.
  - exists []. split; [done|]. split; [done|]. intros i a. destruct i; done.
  - destruct (H 0 ltac:(simpl; lia)) as [a Ha]. simpl in Ha. injection Ha as ->.
    destruct IH as (l' & E & HL & HI); [intros i Hi; apply (H (S i)); simpl; lia|].
    rewrite E. simpl. exists (a :: l'). split; [done|]. split; [simpl; lia|].
    intros [|i] b; simpl; [split; congruence|]. apply HI.
Qed.

(** A graph whose arrays list the rows one after another. *)
Record has_rows (n : nat) (rows : nat -> list arc) (g : graph) : Prop := {
  hr_len : length (g_prefix g) = S n;
  hr_pre : forall v, v <= n -> pre_at g v = rstart rows v;
  hr_ne : ne g = rstart rows n;
  hr_adj : forall v j d w, v < n -> rows v !! j = Some (d, w) -> g_adj g !! (rstart rows v + j) = Some d;
  hr_ew : forall v j d w, v < n -> rows v !! j = Some (d, w) -> wgt_at (g_ew g) (rstart rows v + j) = w
}.
Lemma hr_nv n rows g : has_rows n rows g -> nv g = n.
Proof. intros H. unfold nv. rewrite (hr_len _ _ _ H). lia. Qed.
Lemma rstart_S rows v : rstart rows (S v) = rstart rows v + length (rows v).
Proof. done. Qed.
Lemma rstart_le rows v w : v <= w -> rstart rows v <= rstart rows w.
Proof. intros H. apply (monoto_le w (rstart rows) v w); [apply nsum_mono|lia..]. Qed.
Lemma out_rows n rows g v : has_rows n rows g -> v < n -> out g v = rows v.
Proof.
  intros H Hv. unfold out. rewrite (hr_pre _ _ _ H v), (hr_pre _ _ _ H (S v)) by lia. rewrite rstart_S.
  replace (rstart rows v + length (rows v) - rstart rows v) with (length (rows v)) by lia.
  apply list_eq. intros j. rewrite list_lookup_fmap. destruct (decide (j < length (rows v))) as [Hj|Hj].
  - rewrite lookup_seq_lt by done. simpl. destruct (lookup_lt_is_Some_2 _ _ Hj) as [[d w] Hd]. rewrite Hd. f_equal. f_equal.
    + apply nth_lt_eq. eapply hr_adj; eauto.
    + eapply hr_ew; eauto.
  - rewrite lookup_seq_ge by lia. simpl. symmetry. apply lookup_ge_None. lia.
Qed.
Lemma rows_edge n rows g e : has_rows n rows g -> e < ne g ->
  exists v j d w, v < n /\ e = rstart rows v + j /\ rows v !! j = Some (d, w) /\ g_adj g !! e = Some d /\ wgt_at (g_ew g) e = w.
Proof.
  intros H He. rewrite (hr_ne _ _ _ H) in He.
  destruct (find_bucket n (rstart rows) (nsum_mono _ n) e eq_refl He) as (v & Hv & Hr).
  rewrite rstart_S in Hr. destruct (lookup_lt_is_Some_2 (rows v) (e - rstart rows v) ltac:(lia)) as [[d w] Hd].
  exists v, (e - rstart rows v), d, w. replace (rstart rows v + (e - rstart rows v)) with e by lia.
  split; [done|]. split; [done|]. split; [done|].
  pose proof (hr_adj _ _ _ H _ _ _ _ Hv Hd). pose proof (hr_ew _ _ _ H _ _ _ _ Hv Hd).
  replace (rstart rows v + (e - rstart rows v)) with e in * by lia. done.
Qed.

(** ** The one-step builder *)
Inductive row_add (cur : list arc) (d : nat) (w : Z) : list arc -> Prop :=
  | row_add_new : d ∉ fst <$> cur -> row_add cur d w (cur ++ [(d, w)])
  | row_add_old j x : cur !! j = Some (d, x) -> row_add cur d w (<[j := (d, u32 (x + w))]> cur).
Definition fin_row (cur : list arc) : list arc :=
  take (length cur - 1) (<[0 := nth (length cur - 1) cur (0, 0%Z)]> cur).

Lemma fin_row_perm h t : fin_row (h :: t) ≡ₚ t.
Proof.
  unfold fin_row. simpl. rewrite Nat.sub_0_r. destruct t as [|x t' _] using rev_ind; [done|].
  rewrite app_length. simpl. rewrite Nat.add_1_r. simpl. rewrite app_nth2, Nat.sub_diag by lia. simpl.
  rewrite take_app. apply Permutation_cons_append.
Qed.

Record os_rep (n maxE k : nat) (rows : nat -> list arc) (vws : list Z) (cur : list arc) (b : osb) : Prop := {
  or_k : k <= n;
  or_nv : os_nv b = k;
  or_ne : os_ne b = rstart rows k + length cur;
  or_cap : rstart rows k + length cur <= S maxE;
  or_head : exists w, cur !! 0 = Some (k, w);
  or_nodup : NoDup (fst <$> cur);
  or_dst : forall v d w, v < k -> (d, w) ∈ rows v -> d < n;
  or_cdst : forall d w, (d, w) ∈ cur -> d <= n;
  or_plen : length (os_prefix b) = S n;
  or_pre : forall v, v <= k -> os_prefix b !! v = Some (Some (rstart rows v));
  or_alen : length (os_adj b) = S maxE;
  or_elen : length (os_ew b) = S maxE;
  or_arow : forall v j d w, v < k -> rows v !! j = Some (d, w) ->
     os_adj b !! (rstart rows v + j) = Some (Some d) /\ os_ew b !! (rstart rows v + j) = Some (Some w);
  or_acur : forall j d w, cur !! j = Some (d, w) ->
     os_adj b !! (rstart rows k + j) = Some (Some d) /\ os_ew b !! (rstart rows k + j) = Some (Some w);
  or_vlen : length vws = k;
  or_vwlen : length (os_vw b) = n;
  or_vw : forall v w, vws !! v = Some w -> os_vw b !! v = Some (Some w);
  or_tvw : os_tvw b = u32 (sumf id vws);
  or_tew : os_tew b = u32 (sumn k (fun v => sumf snd (rows v)) + sumf snd cur);
  or_hlen : length (os_ht b) = S n;
  or_ht : forall u i, os_ht b !! u = Some (Some i) <-> exists j w, i = rstart rows k + j /\ cur !! j = Some (u, w)
}.

Lemma os_new_ok n maxE : exists b, os_new n maxE = Ok b /\ os_rep n maxE 0 (fun _ => []) [] [(0, 0%Z)] b.
Proof.
  unfold os_new. rewrite wri_ok by (unfold alloc; rewrite replicate_length; lia). cbn [obind].
  rewrite wr_ok by (rewrite replicate_length; lia). cbn [obind].
  rewrite wri_ok by (unfold alloc; rewrite replicate_length; lia). cbn [obind].
  rewrite wri_ok by (unfold alloc; rewrite replicate_length; lia). cbn [obind].
  eexists. split; [done|]. constructor; simpl; try (rewrite ?replicate_length; done || lia).
  - eauto.
  - apply NoDup_singleton.
  - intros d w H. apply elem_of_list_singleton in H as [= -> _]. lia.
  - intros v Hv. replace v with 0 by lia. done.
  - intros j d w H. destruct j; [|done]. injection H as <- <-. done.
  - unfold alloc. apply replicate_length.
  - intros u i. split.
    + destruct u as [|u]; simpl; [intros [= <-]; exists 0, 0%Z; done|].
      intros H. apply lookup_replicate_1 in H as [? ?]. done.
    + intros (j & w & -> & H). destruct j; [|done]. injection H as <- <-. done.
Qed.

Lemma sumf_insert (f : arc -> Z) l j a b : l !! j = Some a -> sumf f (<[j := b]> l) = (sumf f l - f a + f b)%Z.
Proof.
  revert j. induction l as [|x l IH]; intros [|j] H; simpl in *; try done.
  - injection H as ->. rewrite !sumf_cons. lia.
  - rewrite !sumf_cons, (IH j) by done. lia.
Qed.
Lemma fmap_insert_same {A B} (f : A -> B) (l : list A) j a b : l !! j = Some a -> f b = f a -> f <$> <[j := b]> l = f <$> l.
Proof.
  revert j. induction l as [|x l IH]; intros [|j] H E; simpl in *; try done.
  - injection H as ->. rewrite E. done.
  - f_equal. apply IH; done.
Qed.
Lemma fst_elem (u : nat) (cur : list arc) : u ∈ fst <$> cur <-> exists j w, cur !! j = Some (u, w).
Proof.
  rewrite elem_of_list_fmap. split.
  - intros ([d w] & -> & H). apply elem_of_list_lookup in H as [j H]. eauto.
  - intros (j & w & H). exists (u, w). split; [done|]. eapply elem_of_list_lookup_2; eauto.
Qed.

Lemma os_add_edge_ok n maxE k rows vws cur b d w : os_rep n maxE k rows vws cur b -> d < n ->
  (d ∉ fst <$> cur -> rstart rows k + length cur < S maxE) ->
  exists b' cur', os_add_edge b d w = Ok b' /\ row_add cur d w cur' /\ os_rep n maxE k rows vws cur' b'.
Proof.
  intros R Hd Hcap. unfold os_add_edge.
  destruct (lookup_lt_is_Some_2 (os_ht b) d ltac:(rewrite (or_hlen _ _ _ _ _ _ _ R); lia)) as [x Hx].
  rewrite (rd_ok _ _ _ Hx). simpl. destruct x as [i|].
  - pose proof (proj1 (or_ht _ _ _ _ _ _ _ R d i) Hx) as (j & y & -> & Hj).
    pose proof (or_acur _ _ _ _ _ _ _ R _ _ _ Hj) as [Ha He]. rewrite (rdi_ok _ _ _ He). simpl.
    rewrite wri_ok by (apply lookup_lt_Some in He; done). simpl.
    eexists _, (<[j := (d, u32 (y + w))]> cur). split; [done|]. split; [apply row_add_old; done|].
    pose proof (lookup_lt_Some _ _ _ Hj) as Hjl.
    destruct R. constructor; simpl; rewrite ?insert_length; try done.
    + destruct or_head0 as [w0 Hw0]. destruct j as [|j]; [rewrite Hw0 in Hj; injection Hj as -> ->|].
      * eexists. rewrite list_lookup_insert by done. done.
      * exists w0. rewrite list_lookup_insert_ne by lia. done.
    + rewrite (fmap_insert_same _ _ _ (d, y)) by done. done.
    + intros d' w' Hin. apply elem_of_list_lookup in Hin as [j' Hj']. destruct (decide (j' = j)) as [->|].
      * rewrite list_lookup_insert in Hj' by done. injection Hj' as <- _. lia.
      * rewrite list_lookup_insert_ne in Hj' by done. eapply or_cdst0. eapply elem_of_list_lookup_2; eauto.
    + intros v j' d' w' Hv Hr. destruct (or_arow0 _ _ _ _ Hv Hr) as [A1 A2]. split; [done|].
      rewrite list_lookup_insert_ne; [done|]. apply lookup_lt_Some in Hr.
      pose proof (rstart_le rows (S v) k ltac:(lia)). rewrite rstart_S in *. lia.
    + intros j' d' w' Hj'. destruct (decide (j' = j)) as [->|Hne].
      * rewrite list_lookup_insert in Hj' by done. injection Hj' as <- <-. split; [done|].
        apply list_lookup_insert. apply lookup_lt_Some in He. done.
      * rewrite list_lookup_insert_ne in Hj' by done. destruct (or_acur0 _ _ _ Hj') as [A1 A2]. split; [done|].
        rewrite list_lookup_insert_ne by lia. done.
    + rewrite or_tew0. rewrite u32_add_l. rewrite (sumf_insert _ _ _ (d, y)) by done. simpl.
      rewrite <- (u32_add_r _ (sumf snd cur - y + u32 (y + w))).
      replace (u32 (sumf snd cur - y + u32 (y + w))) with (u32 (sumf snd cur + w)).
      { rewrite u32_add_r. f_equal. lia. }
      rewrite u32_add_r. f_equal. lia.
    + intros u i. rewrite or_ht0. split; intros (j' & w' & -> & Hj').
      * destruct (decide (j' = j)) as [->|].
        -- rewrite Hj in Hj'. injection Hj' as <- _. exists j. eexists. split; [done|]. apply list_lookup_insert. done.
        -- exists j', w'. split; [done|]. rewrite list_lookup_insert_ne by done. done.
      * destruct (decide (j' = j)) as [->|].
        -- rewrite list_lookup_insert in Hj' by done. injection Hj' as <- _. exists j, y. done.
        -- rewrite list_lookup_insert_ne in Hj' by done. eauto.
  - assert (Hnot : d ∉ fst <$> cur).
    { rewrite fst_elem. intros (j & y & Hj).
      pose proof (proj2 (or_ht _ _ _ _ _ _ _ R d (rstart rows k + j)) ltac:(eauto)). congruence. }
    specialize (Hcap Hnot). destruct R. rewrite or_ne0.
    rewrite wr_ok by lia. simpl. rewrite wri_ok by lia. simpl. rewrite wri_ok by lia. simpl.
    eexists _, (cur ++ [(d, w)]). split; [done|]. split; [apply row_add_new; done|].
    constructor; simpl; rewrite ?insert_length, ?app_length; simpl; try done; try lia.
    + destruct or_head0 as [w0 Hw0]. exists w0. apply lookup_app_l_Some. done.
    + rewrite fmap_app. apply NoDup_app. split; [done|]. split; [|apply NoDup_singleton].
      intros u Hu Hu2. apply elem_of_list_singleton in Hu2. simpl in Hu2. subst. done.
    + intros d' w' Hin. apply elem_of_app in Hin as [Hin|Hin]; [by eapply or_cdst0|].
      apply elem_of_list_singleton in Hin as [= -> _]. lia.
    + intros v j d' w' Hv Hr. destruct (or_arow0 _ _ _ _ Hv Hr) as [A1 A2]. apply lookup_lt_Some in Hr.
      pose proof (rstart_le rows (S v) k ltac:(lia)). rewrite rstart_S in *.
      rewrite !list_lookup_insert_ne by lia. done.
    + intros j d' w' Hj. apply lookup_app_Some in Hj as [Hj|[Hl Hj]].
      * destruct (or_acur0 _ _ _ Hj) as [A1 A2]. apply lookup_lt_Some in Hj. rewrite !list_lookup_insert_ne by lia. done.
      * apply list_lookup_singleton_Some in Hj as [Hj0 [= <- <-]]. replace j with (length cur) by lia.
        rewrite !list_lookup_insert by lia. done.
    + rewrite or_tew0, u32_add_l, sumf_snoc. simpl. f_equal. lia.
    + intros u i. destruct (decide (u = d)) as [->|Hne].
      * rewrite list_lookup_insert by lia. split.
        -- intros [= <-]. exists (length cur), w. split; [done|]. rewrite lookup_app_r, Nat.sub_diag by lia. done.
        -- intros (j & y & -> & Hj). apply lookup_app_Some in Hj as [Hj|[Hl Hj]].
           ++ exfalso. apply Hnot. apply fst_elem. eauto.
           ++ apply list_lookup_singleton_Some in Hj as [Hj0 _]. do 2 f_equal. lia.
      * rewrite list_lookup_insert_ne by done. rewrite or_ht0. split; intros (j & y & -> & Hj).
        -- exists j, y. split; [done|]. apply lookup_app_l_Some. done.
        -- apply lookup_app_Some in Hj as [Hj|[Hl Hj]]; [eauto|].
           apply list_lookup_singleton_Some in Hj as [_ [= -> _]]. done.
Qed.

Lemma fin_row_lookup cur j : S j < length cur ->
  fin_row cur !! j = if decide (j = 0) then cur !! (length cur - 1) else cur !! j.
Proof.
  intros H. unfold fin_row. rewrite lookup_take by lia. destruct (decide (j = 0)) as [->|].
  - rewrite list_lookup_insert by lia. symmetry. apply lookup_nth. lia.
  - rewrite list_lookup_insert_ne by lia. done.
Qed.
Lemma fin_row_length cur : length (fin_row cur) = length cur - 1.
Proof. unfold fin_row. rewrite take_length, insert_length. lia. Qed.

Lemma os_clear_ok n maxE k rows vws cur b : os_rep n maxE k rows vws cur b ->
  ofold (fun ht j => let! u := rdi (os_adj b) j in wr ht u None) (os_ht b) (range (rstart rows k) (os_ne b))
    = Ok (replicate (S n) None).
Proof.
  intros R. destruct R.
  assert (H : wpo (ofold (fun ht j => let! u := rdi (os_adj b) j in wr ht u None) (os_ht b) (range (rstart rows k) (os_ne b))) never
    (fun ht => length ht = S n /\ forall u, u <= n -> ht !! u = Some None)).
  { eapply wpo_post; [apply (ofold_wp (fun pre (ht : list (option nat)) => length ht = S n /\
       forall u i, ht !! u = Some (Some i) -> exists j w, length pre <= j /\ cur !! j = Some (u, w)))|].
    - split; [done|]. intros u i Hu. apply or_ht0 in Hu as (j & w & _ & Hj). exists j, w. simpl. split; [lia|done].
    - intros pre j post ht E (HL & HI). unfold range in E. pose proof (seq_split_at _ _ _ _ _ E) as (E1 & E2 & _).
      rewrite or_ne0 in E2. assert (Hj : j - rstart rows k < length cur) by lia.
      destruct (lookup_lt_is_Some_2 _ _ Hj) as [[d w] Hd]. destruct (or_acur0 _ _ _ Hd) as [Ha _].
      replace (rstart rows k + (j - rstart rows k)) with j in Ha by lia. rewrite (rdi_ok _ _ _ Ha). simpl.
      assert (d <= n) by (eapply or_cdst0, elem_of_list_lookup_2; eauto). rewrite wr_ok by lia. simpl.
      split; [rewrite insert_length; done|]. intros u i Hu. destruct (decide (u = d)) as [->|Hne].
      + rewrite list_lookup_insert in Hu by lia. done.
      + rewrite list_lookup_insert_ne in Hu by done. destruct (HI _ _ Hu) as (j' & w' & Hj' & Hc).
        exists j', w'. split; [|done]. rewrite app_length. simpl. rewrite E1, seq_length in *.
        destruct (decide (j' = j - rstart rows k)) as [->|]; [|lia]. congruence.
    - intros ht (HL & HI). split; [done|]. intros u Hu. destruct (lookup_lt_is_Some_2 ht u ltac:(lia)) as [[i|] Hi]; [|done].
      exfalso. destruct (HI _ _ Hi) as (j & w & Hj & Hc). apply lookup_lt_Some in Hc.
      unfold range in Hj. rewrite seq_length, or_ne0 in Hj. lia. }
  apply wpo_never in H. destruct H as (ht & E & HL & HI). rewrite E. f_equal. apply list_eq. intros u.
  destruct (decide (u <= n)).
  - rewrite HI by done. symmetry. apply lookup_replicate. split; [done|lia].
  - rewrite !lookup_ge_None_2; [done|rewrite replicate_length; lia|lia].
Qed.

Lemma rstart_upd rows k r v : v <= k -> rstart (upd rows k r) v = rstart rows v.
Proof. intros Hv. apply nsum_ext. intros i Hi. rewrite upd_other by lia. done. Qed.

Lemma os_finish_vertex_ok n maxE k rows vws cur b vw : os_rep n maxE k rows vws cur b -> k < n ->
  (forall d w, (d, w) ∈ cur -> d < n) ->
  exists b', os_finish_vertex b vw = Ok b' /\
    os_rep n maxE (S k) (upd rows k (fin_row cur)) (vws ++ [vw]) [(S k, 0%Z)] b'.
Proof.
  intros R Hk Hcd. unfold os_finish_vertex. pose proof (os_clear_ok _ _ _ _ _ _ _ R) as Hclr. destruct R.
  rewrite or_nv0. rewrite (rdi_ok _ _ _ (or_pre0 k ltac:(lia))). cbn [obind]. rewrite Hclr. cbn [obind].
  destruct or_head0 as [w0 Hw0]. pose proof (lookup_lt_Some _ _ _ Hw0) as Hpos.
  destruct (or_acur0 _ _ _ Hw0) as [Ha0 He0]. rewrite Nat.add_0_r in Ha0, He0.
  rewrite (rdi_ok _ _ _ He0). cbn [obind].
  destruct (lookup_lt_is_Some_2 cur (length cur - 1) ltac:(lia)) as [[dl wl] Hl].
  destruct (or_acur0 _ _ _ Hl) as [Hal Hel].
  replace (os_ne b - 1) with (rstart rows k + (length cur - 1)) by lia.
  rewrite (rdi_ok _ _ _ Hal). cbn [obind]. rewrite wri_ok by lia. cbn [obind].
  rewrite (rdi_ok _ _ _ Hel). cbn [obind]. rewrite wri_ok by lia. cbn [obind].
  rewrite wri_ok by lia. cbn [obind]. rewrite wri_ok by lia. cbn [obind].
  rewrite wr_ok by (rewrite replicate_length; lia). cbn [obind].
  rewrite wri_ok by (rewrite insert_length; lia). cbn [obind]. rewrite wri_ok by (rewrite insert_length; lia). cbn [obind].
  eexists. split; [done|].
  assert (Hst : rstart (upd rows k (fin_row cur)) (S k) = rstart rows k + (length cur - 1)).
  { rewrite rstart_S, rstart_upd, upd_same, fin_row_length by lia. done. }
  assert (Hsm : forall v, v <= k -> rstart (upd rows k (fin_row cur)) v = rstart rows v) by (intros; apply rstart_upd; lia).
  constructor; cbn [os_nv os_ne os_prefix os_adj os_vw os_ew os_tvw os_tew os_ht]; rewrite ?insert_length, ?app_length, ?replicate_length; simpl length; try done; try lia.
  - eauto.
  - apply NoDup_singleton.
  - intros v d w Hv Hin. destruct (decide (v = k)) as [->|].
    + rewrite upd_same in Hin. destruct cur as [|h t]; [simpl in Hpos; lia|]. rewrite fin_row_perm in Hin.
      eapply Hcd. by right.
    + rewrite upd_other in Hin by done. eapply (or_dst0 v); [lia|eauto].
  - intros d w Hin. apply elem_of_list_singleton in Hin as [= -> _]. lia.
  - intros v Hv. destruct (decide (v = S k)) as [->|].
    + rewrite list_lookup_insert by lia. rewrite Hst. done.
    + rewrite list_lookup_insert_ne by lia. rewrite Hsm by lia. apply or_pre0. lia.
  - intros v j d w Hv Hr. destruct (decide (v = k)) as [->|].
    + rewrite upd_same in Hr. rewrite Hsm by lia.
      pose proof (lookup_lt_Some _ _ _ Hr) as Hj. rewrite fin_row_length in Hj. rewrite fin_row_lookup in Hr by lia.
      destruct (decide (j = 0)) as [->|].
      * rewrite Hl in Hr. injection Hr as -> ->. rewrite Nat.add_0_r.
        rewrite !(list_lookup_insert_ne _ (_ + _)) by lia. rewrite !list_lookup_insert by lia. done.
      * rewrite !list_lookup_insert_ne by lia. eapply or_acur0; eauto.
    + rewrite upd_other in Hr by done. rewrite Hsm by lia. pose proof (lookup_lt_Some _ _ _ Hr).
      pose proof (rstart_le rows (S v) k ltac:(lia)) as Hle. rewrite rstart_S in Hle.
      rewrite !list_lookup_insert_ne by lia. apply or_arow0; [lia|done].
  - intros j d w Hj. apply list_lookup_singleton_Some in Hj as [-> [= <- <-]]. rewrite Nat.add_0_r, Hst.
    rewrite !list_lookup_insert by (rewrite insert_length; lia). done.
  - intros v w Hv. apply lookup_app_Some in Hv as [Hv|[Hvl Hv]].
    + rewrite list_lookup_insert_ne by (apply lookup_lt_Some in Hv; lia). by apply or_vw0.
    + apply list_lookup_singleton_Some in Hv as [Hv0 <-]. replace v with k by lia. rewrite list_lookup_insert by lia. done.
  - rewrite or_tvw0, u32_add_l, sumf_snoc. done.
  - rewrite or_tew0, u32_sub_l, sumn_S, upd_same. f_equal.
    assert (E : sumn k (fun v => sumf snd (upd rows k (fin_row cur) v)) = sumn k (fun v => sumf snd (rows v)))
      by (apply sumn_ext; intros v Hv; rewrite upd_other by lia; done).
    rewrite E. clear E. destruct cur as [|h t]; [simpl in Hpos; lia|]. simpl in Hw0. injection Hw0 as ->.
    rewrite (sumf_perm snd _ _ (fin_row_perm (k, w0) t)). rewrite !sumf_cons, sumf_nil. simpl. lia.
  - intros u i. rewrite Hst. destruct (decide (u = S k)) as [->|Hne].
    + rewrite list_lookup_insert by (rewrite replicate_length; lia). split.
      * intros [= <-]. exists 0, 0%Z. split; [lia|done].
      * intros (j & w & -> & Hj). apply list_lookup_singleton_Some in Hj as [-> _]. do 2 f_equal. lia.
    + rewrite list_lookup_insert_ne by done. split.
      * intros H. apply lookup_replicate_1 in H as [? ?]. done.
      * intros (j & w & -> & Hj). apply list_lookup_singleton_Some in Hj as [-> [= <- _]]. done.
Qed.

Lemma os_finish_ok n maxE rows vws w0 b : os_rep n maxE n rows vws [(n, w0)] b ->
  (forall v w, v < n -> vws !! v = Some w -> (0 <= w < W32)%Z) ->
  (forall v d w, v < n -> (d, w) ∈ rows v -> (0 <= w < W32)%Z) -> w0 = 0%Z ->
  exists g, os_finish b = Ok g /\ wf_graph g /\ nv g = n /\ (forall v, v < n -> out g v = rows v) /\
    (forall v, v < n -> vws !! v = Some (vweight g v)) /\
    g_tvw g = u32 (sumf id vws) /\ g_tew g = u32 (sumn n (fun v => sumf snd (rows v))) /\ g_uvw g = false /\ g_uew g = false.
Proof.
  intros R Hvr Her ->. destruct R. unfold os_finish.
  destruct (frozen_all (os_prefix b)) as (pre & Ep & Lp & Ip).
  { intros i Hi. eexists. apply or_pre0. lia. }
  replace (os_ne b - 1) with (rstart rows n) by (simpl in *; lia).
  assert (Hidx : forall i, i < rstart rows n -> exists v j d w, v < n /\ i = rstart rows v + j /\ rows v !! j = Some (d, w)).
  { intros i Hi. destruct (find_bucket n (rstart rows) (nsum_mono _ n) i eq_refl Hi) as (v & Hv & Hr).
    rewrite rstart_S in Hr. destruct (lookup_lt_is_Some_2 (rows v) (i - rstart rows v) ltac:(lia)) as [[d w] Hd].
    exists v, (i - rstart rows v), d, w. split; [done|]. split; [lia|done]. }
  destruct (frozen_all (take (rstart rows n) (os_adj b))) as (adj & Ea & La & Ia).
  { intros i Hi. rewrite take_length in Hi. destruct (Hidx i ltac:(lia)) as (v & j & d & w & Hv & -> & Hr).
    exists d. rewrite lookup_take by lia. eapply or_arow0; eauto. }
  destruct (frozen_all (os_vw b)) as (vw & Ev & Lv & Iv).
  { intros i Hi. destruct (lookup_lt_is_Some_2 vws i ltac:(lia)) as [w Hw]. exists w. by apply or_vw0. }
  destruct (frozen_all (take (rstart rows n) (os_ew b))) as (ew & Ee & Le & Ie).
  { intros i Hi. rewrite take_length in Hi. destruct (Hidx i ltac:(lia)) as (v & j & d & w & Hv & -> & Hr).
    exists w. rewrite lookup_take by lia. eapply or_arow0; eauto. }
  rewrite take_length in La. rewrite take_length in Le. simpl in or_cap0.
  rewrite Ep, Ea, Ev, Ee. simpl. eexists. split; [done|].
  set (g := mkGraph _ _ _ _ _ _ _ _).
  assert (Hadj : forall v j d w, v < n -> rows v !! j = Some (d, w) -> adj !! (rstart rows v + j) = Some d /\ ew !! (rstart rows v + j) = Some w).
  { intros v j d w Hv Hr. destruct (or_arow0 _ _ _ _ Hv Hr) as [A1 A2]. pose proof (lookup_lt_Some _ _ _ Hr).
    pose proof (rstart_le rows (S v) n ltac:(lia)) as Hle. rewrite rstart_S in Hle.
    split; [apply Ia|apply Ie]; rewrite lookup_take by lia; done. }
  assert (Hr : has_rows n rows g).
  { constructor; simpl.
    - lia.
    - intros v Hv. unfold pre_at. simpl. apply nth_lt_eq. apply Ip. apply or_pre0. done.
    - unfold ne. simpl. lia.
    - intros v j d w Hv Hj. eapply Hadj; eauto.
    - intros v j d w Hv Hj. destruct (Hadj _ _ _ _ Hv Hj) as [_ E]. rewrite wgt_at_nth; [apply nth_lt_eq; done|].
      intros ->. done. }
  pose proof (hr_nv _ _ _ Hr) as Hnv.
  assert (Hout : forall v, v < n -> out g v = rows v) by (intros; eapply out_rows; eauto).
  assert (Hvw : forall v, v < n -> vws !! v = Some (vweight g v)).
  { intros v Hv. destruct (lookup_lt_is_Some_2 vws v ltac:(lia)) as [w Hw]. rewrite Hw. f_equal.
    pose proof (proj1 (Iv v w) (or_vw0 v w Hw)) as E. unfold vweight. rewrite wgt_at_nth; simpl.
    - symmetry. apply nth_lt_eq. done.
    - intros ->. done. }
  assert (Hvwr : forall v, (0 <= vweight g v < W32)%Z).
  { intros v. destruct (decide (v < n)) as [Hv|Hv]; [eapply Hvr; eauto|].
    unfold vweight, wgt_at. simpl. destruct vw as [|x l]; [unfold W32; lia|].
    rewrite nth_overflow by lia. unfold W32; lia. }
  split; [|split; [done|]; split; [done|]; split; [done|]; split; [done|]; split; [|done]].
  2:{ simpl. rewrite or_tew0, sumf_cons, sumf_nil. f_equal. simpl. lia. }
  constructor; rewrite ?Hnv.
  - apply Hr.
  - rewrite (hr_pre _ _ _ Hr) by lia. done.
  - intros v Hv. rewrite !(hr_pre _ _ _ Hr) by lia. rewrite rstart_S. lia.
  - rewrite (hr_pre _ _ _ Hr), (hr_ne _ _ _ Hr) by lia. done.
  - intros e He. destruct (rows_edge _ _ _ _ Hr He) as (v & j & d & w & Hv & _ & Hj & Hd & _).
    rewrite (nth_lt_eq _ _ _ _ Hd). eapply or_dst0; [exact Hv|]. eapply elem_of_list_lookup_2; eauto.
  - right. simpl. lia.
  - right. unfold ne. simpl. lia.
  - done.
  - intros e. destruct (decide (e < ne g)) as [He|He].
    + destruct (rows_edge _ _ _ _ Hr He) as (v & j & d & w & Hv & _ & Hj & Hd & ->).
      eapply Her; [exact Hv|]. eapply elem_of_list_lookup_2; eauto.
    + assert (He2 : length ew <= e) by (unfold ne in He; simpl in He; lia).
      pose proof (nth_overflow ew 0%Z He2) as Hno. unfold wgt_at. subst g. cbn [g_ew].
      destruct ew as [|x l]; [unfold W32; lia|]. rewrite Hno. unfold W32; lia.
  - done.
  - simpl. lia.
  - done.
  - simpl. unfold ne. simpl. lia.
  - simpl. rewrite or_tvw0. f_equal.
    assert (E : vws = (vweight g) <$> seq 0 n).
    { apply list_eq. intros i. rewrite list_lookup_fmap. destruct (decide (i < n)).
      - rewrite Hvw, lookup_seq_lt by done. done.
      - rewrite lookup_seq_ge by lia. apply lookup_ge_None. lia. }
    rewrite E. rewrite sumf_map. done.
  - simpl. rewrite or_tew0, sumf_cons, sumf_nil. f_equal.
    assert (E : sumn n (fun u => sumf snd (out g u)) = sumn n (fun v => sumf snd (rows v)))
      by (apply sumn_ext; intros v Hv; rewrite Hout by done; done).
    rewrite E. cbn [snd]. lia.
Qed.

(** ** What a sequence of addEdge calls for one vertex amounts to *)
(** weight added towards u; the distinct destinations other than v *)
Definition added (l : list arc) (u : nat) : Z := sumf (fun a => if decide (fst a = u) then snd a else 0%Z) l.
Definition others (v : nat) (l : list arc) : list nat := remove_dups (filter (fun u => u <> v) (fst <$> l)).

Record row_of (v : nat) (l cur : list arc) : Prop := {
  ro_nodup : NoDup (fst <$> cur);
  ro_in : forall u, u ∈ fst <$> cur <-> u = v \/ u ∈ fst <$> l;
  ro_w : forall u x, (u, x) ∈ cur -> x = u32 (added l u);
  ro_sum : u32 (sumf snd cur) = u32 (sumf snd l)
}.
Record row_fin (v : nat) (l r : list arc) : Prop := {
  rf_nodup : NoDup (fst <$> r);
  rf_in : forall u, u ∈ fst <$> r <-> u <> v /\ u ∈ fst <$> l;
  rf_w : forall u x, (u, x) ∈ r -> x = u32 (added l u);
  rf_sum : u32 (sumf snd r) = u32 (sumf (fun a => if decide (fst a = v) then 0%Z else snd a) l)
}.
Lemma added_snoc l d w u : added (l ++ [(d, w)]) u = (added l u + (if decide (d = u) then w else 0))%Z.
Proof. unfold added. rewrite sumf_snoc. done. Qed.
Lemma added_out l u : u ∉ fst <$> l -> added l u = 0%Z.
Proof. intros H. apply sumf_zero. intros a Ha. rewrite decide_False; [done|]. intros <-. apply H. apply elem_of_list_fmap. eauto. Qed.

Lemma row_of_start v : row_of v [] [(v, 0%Z)].
Proof.
  constructor.
  - apply NoDup_singleton.
  - intros u. simpl. rewrite elem_of_list_singleton. set_solver.
  - intros u x H. apply elem_of_list_singleton in H as [= -> ->]. done.
  - done.
Qed.
Lemma row_of_add v l cur d w cur' : row_of v l cur -> (0 <= w < W32)%Z -> row_add cur d w cur' ->
  row_of v (l ++ [(d, w)]) cur'.
Proof.
  intros [N I X Sm] Hw [Hnot|j x Hj].
  - constructor.
    + rewrite fmap_app. apply NoDup_app. split; [done|]. split; [|apply NoDup_singleton]. set_solver.
    + intros u. rewrite !fmap_app, !elem_of_app. rewrite I. simpl. set_solver.
    + intros u y Hin. rewrite added_snoc. apply elem_of_app in Hin as [Hin|Hin].
      * assert (u <> d). { intros ->. apply Hnot. apply elem_of_list_fmap. exists (d, y). done. }
        rewrite decide_False by done. rewrite Z.add_0_r. by apply X.
      * apply elem_of_list_singleton in Hin as [= -> ->]. rewrite decide_True by done.
        rewrite added_out; [simpl; rewrite u32_small by done; done|]. intros Hl. apply Hnot. apply I. by right.
    + rewrite !sumf_snoc. rewrite <- (u32_add_l (sumf snd cur)), <- (u32_add_l (sumf snd l)), Sm. done.
  - assert (Hf : fst <$> <[j := (d, u32 (x + w))]> cur = fst <$> cur) by (eapply fmap_insert_same; eauto).
    assert (Hd : d ∈ fst <$> cur) by (apply fst_elem; eauto).
    constructor.
    + rewrite Hf. done.
    + intros u. rewrite Hf, I, fmap_app, elem_of_app. simpl. rewrite elem_of_list_singleton.
      apply I in Hd. split; [tauto|]. intros [|[|]]; [tauto..|]. subst. tauto.
    + intros u y Hin. apply elem_of_list_lookup in Hin as [j' Hj']. rewrite added_snoc.
      destruct (decide (j' = j)) as [->|Hne].
      * rewrite list_lookup_insert in Hj' by (apply lookup_lt_Some in Hj; done). injection Hj' as <- <-.
        rewrite decide_True by done. rewrite (X d x) by (eapply elem_of_list_lookup_2; eauto). rewrite u32_add_l. done.
      * rewrite list_lookup_insert_ne in Hj' by done. rewrite decide_False.
        -- rewrite Z.add_0_r. apply X. eapply elem_of_list_lookup_2; eauto.
        -- intros ->. apply Hne. eapply (NoDup_lookup _ _ _ u N); rewrite list_lookup_fmap; [rewrite Hj'|rewrite Hj]; done.
    + rewrite (sumf_insert _ _ _ _ _ Hj), sumf_snoc. simpl.
      replace (sumf snd cur - x + u32 (x + w))%Z with (u32 (x + w) + (sumf snd cur - x))%Z by lia.
      rewrite u32_add_l. replace (x + w + (sumf snd cur - x))%Z with (sumf snd cur + w)%Z by lia.
      rewrite <- (u32_add_l (sumf snd cur)), <- (u32_add_l (sumf snd l)), Sm. done.
Qed.
Lemma row_of_fin v l cur w0 : row_of v l cur -> cur !! 0 = Some (v, w0) -> row_fin v l (fin_row cur).
Proof.
  intros [N I X Sm] H0. destruct cur as [|h t]; [done|]. simpl in H0. injection H0 as ->.
  rewrite fmap_cons in N, I. apply NoDup_cons in N as [N1 N2]. simpl in N1.
  assert (P : fin_row ((v, w0) :: t) ≡ₚ t) by apply fin_row_perm.
  constructor.
  - rewrite P. done.
  - intros u. rewrite P. specialize (I u). rewrite elem_of_cons in I. simpl in I. split.
    + intros Hu. assert (u <> v) by (intros ->; done). split; [done|]. destruct I as [[|] _]; [by right|done|done].
    + intros [Hne Hu]. destruct I as [_ [|]]; [by right|done|done].
  - intros u x. rewrite P. intros Hu. apply X. by right.
  - rewrite (sumf_perm _ _ _ P). rewrite sumf_cons in Sm. simpl in Sm.
    rewrite (X v w0) in Sm by (left; done).
    rewrite (sumf_ext (fun a => if decide (fst a = v) then 0%Z else snd a) (fun a => snd a - (if decide (fst a = v) then snd a else 0))%Z)
      by (intros a _; destruct (decide (fst a = v)); lia).
    rewrite sumf_sub. fold (added l v). rewrite <- u32_sub_l. change (sumf (fun a : arc => snd a) l) with (sumf snd l).
    rewrite <- Sm. rewrite u32_add_l, u32_sub_l. f_equal. lia.
Qed.
Lemma row_of_length v l l' cur : row_of v l cur -> (forall u, u ∈ fst <$> l -> u ∈ fst <$> l') -> length cur <= S (length (others v l')).
Proof.
  intros [N I X Sm] Hsub. rewrite <- (fmap_length fst cur). change (S (length (others v l'))) with (length (v :: others v l')).
  apply submseteq_length. apply NoDup_submseteq; [done|]. intros u Hu. apply I in Hu as [->|Hu]; [by left|].
  destruct (decide (u = v)) as [->|]; [by left|]. right. unfold others. apply elem_of_remove_dups. apply elem_of_list_filter. auto.
Qed.
Lemma row_fin_length v l r : row_fin v l r -> length r = length (others v l).
Proof.
  intros [N I X Sm]. rewrite <- (fmap_length fst r). apply Permutation_length. apply NoDup_Permutation; [done|apply NoDup_remove_dups|].
  intros u. rewrite I. unfold others. rewrite elem_of_remove_dups, elem_of_list_filter. done.
Qed.

(** The builder state after the rows [L 0 .. L (k-1)] and the calls [l] for row k. *)
Definition os_state (n maxE k : nat) (L : nat -> list arc) (l : list arc) (vws : list Z) (b : osb) : Prop :=
  exists rows cur, os_rep n maxE k rows vws cur b /\ (forall v, v < k -> row_fin v (L v) (rows v)) /\ row_of k l cur
    /\ (forall u, u ∈ fst <$> l -> u < n) /\ (k < n \/ l = []).
Definition needed (L : nat -> list arc) (k : nat) : nat := nsum (fun v => length (others v (L v))) k.
Lemma os_state_start n maxE L : wpo (os_new n maxE) never (os_state n maxE 0 L [] []).
Proof.
  destruct (os_new_ok n maxE) as (b & E & R). rewrite E. simpl. eexists _, _. split; [exact R|]. split; [lia|].
  split; [apply row_of_start|]. split; [set_solver|by right].
Qed.
Lemma os_state_starts n maxE k L vws b rows cur : os_rep n maxE k rows vws cur b -> (forall v, v < k -> row_fin v (L v) (rows v)) ->
  rstart rows k = needed L k.
Proof. intros _ H. apply nsum_ext. intros v Hv. apply row_fin_length. by apply H. Qed.
Lemma os_state_add n maxE k L l vws b d w : os_state n maxE k L l vws b -> k < n -> d < n -> (0 <= w < W32)%Z ->
  needed L k + length (others k (l ++ [(d, w)])) <= maxE ->
  wpo (os_add_edge b d w) never (os_state n maxE k L (l ++ [(d, w)]) vws).
Proof.
  intros (rows & cur & R & HL & Ho & Hd & Hk) Hkn Hdn Hw Hcap.
  destruct (os_add_edge_ok _ _ _ _ _ _ _ d w R Hdn) as (b' & cur' & E & Ha & R').
  { intros Hnot. rewrite (os_state_starts n maxE k L vws b rows cur R HL).
    pose proof (row_of_length k (l ++ [(d, w)]) (l ++ [(d, w)]) (cur ++ [(d, w)])) as HLn.
    rewrite app_length in HLn. simpl in HLn. specialize (HLn (row_of_add _ _ _ _ _ _ Ho Hw (row_add_new _ _ _ Hnot)) ltac:(done)). lia. }
  rewrite E. simpl. exists rows, cur'. split; [done|]. split; [done|]. split; [eapply row_of_add; eauto|].
  split; [|by left]. intros u. rewrite fmap_app, elem_of_app. intros [|Hu]; [by apply Hd|].
  apply elem_of_list_singleton in Hu. simpl in Hu. lia.
Qed.
Lemma os_state_finish_vertex n maxE k L l vws b vw : os_state n maxE k L l vws b -> k < n ->
  wpo (os_finish_vertex b vw) never (os_state n maxE (S k) (upd L k l) [] (vws ++ [vw])).
Proof.
  intros (rows & cur & R & HL & Ho & Hd & _) Hkn.
  destruct (os_finish_vertex_ok _ _ _ _ _ _ _ vw R Hkn) as (b' & E & R').
  { intros d w Hin. assert (Hin' : d ∈ fst <$> cur) by (apply elem_of_list_fmap; exists (d, w); done).
    apply (ro_in _ _ _ Ho) in Hin' as [->|]; [done|]. by apply Hd. }
  rewrite E. simpl. eexists _, _. split; [exact R'|]. split; [|split; [apply row_of_start|]; split; [set_solver|by right]].
  intros v Hv. destruct (decide (v = k)) as [->|].
  - rewrite !upd_same. destruct (or_head _ _ _ _ _ _ _ R) as [w0 H0]. eapply row_of_fin; eauto.
  - rewrite !upd_other by done. apply HL. lia.
Qed.
Lemma os_state_ext n maxE k L L' l vws b : (forall v, v < k -> L v = L' v) -> os_state n maxE k L l vws b -> os_state n maxE k L' l vws b.
Proof. intros HE (rows & cur & R & HL & Ho & Hd & Hk). exists rows, cur. split; [done|]. split; [|done].
  intros v Hv. rewrite <- HE by done. by apply HL. Qed.
(** The finished graph. *)
Record built (n : nat) (L : nat -> list arc) (vws : list Z) (g : graph) : Prop := {
  bu_wf : wf_graph g;
  bu_nv : nv g = n;
  bu_row : forall v, v < n -> row_fin v (L v) (out g v);
  bu_vw : forall v, v < n -> vws !! v = Some (vweight g v);
  bu_uvw : g_uvw g = false;
  bu_uew : g_uew g = false
}.
Lemma os_state_finish n maxE L vws b : os_state n maxE n L [] vws b ->
  (forall v w, v < n -> vws !! v = Some w -> (0 <= w < W32)%Z) ->
  wpo (os_finish b) never (built n L vws).
Proof.
  intros (rows & cur & R & HL & Ho & _) Hvr.
  assert (cur = [(n, 0%Z)]) as ->.
  { destruct (or_head _ _ _ _ _ _ _ R) as [w0 H0]. destruct Ho as [N I X Sm].
    destruct cur as [|[h wh] t]; [done|]. simpl in H0. injection H0 as -> ->.
    assert (Hw : w0 = 0%Z) by (apply (X n); by left). subst.
    destruct t as [|[d x] t]; [done|]. exfalso. rewrite !fmap_cons in N, I. simpl in N, I.
    apply NoDup_cons in N as [N _]. assert (d = n \/ d ∈ ([] : list nat)) as [->|] by (apply I; set_solver); set_solver. }
  destruct (os_finish_ok _ _ _ _ _ _ R Hvr) as (g & E & H1 & H2 & H3 & H4 & H5 & H6 & H7 & H8).
  { intros v d w Hv Hin. rewrite (rf_w _ _ _ (HL v Hv) _ _ Hin). apply u32_range. }
  { done. }
  rewrite E. simpl. constructor; try done. intros v Hv. rewrite H3 by done. by apply HL.
Qed.

(** Consequences *)
Lemma row_fin_W v l r u : row_fin v l r -> added r u = if decide (u = v) then 0%Z else u32 (added l u).
Proof.
  intros [N I X Sm]. destruct (decide (u ∈ fst <$> r)) as [Hu|Hu].
  - pose proof (proj1 (I u) Hu) as [Hne _]. rewrite decide_False by done.
    apply fst_elem in Hu as (j & w & Hj). rewrite <- (X u w) by (eapply elem_of_list_lookup_2; eauto).
    clear I X Sm. unfold added. revert j Hj. induction r as [|[d x] r IH]; intros [|j] Hj; try done; rewrite fmap_cons in N; apply NoDup_cons in N as [N1 N2]; simpl in *.
    + injection Hj as -> ->. rewrite sumf_cons. simpl. rewrite decide_True by done. fold (added r u). rewrite added_out by done. lia.
    + rewrite sumf_cons. simpl. rewrite decide_False; [rewrite (IH N2 j Hj); done|]. intros ->. apply N1.
      apply fst_elem. eauto.
  - rewrite added_out by done. destruct (decide (u = v)) as [|Hne]; [done|]. rewrite added_out; [done|].
    intros Hl. apply Hu. apply I. done.
Qed.
Lemma built_W n L vws g u v : built n L vws g -> u < n -> W g u v = if decide (v = u) then 0%Z else u32 (added (L u) v).
Proof. intros B Hu. apply (row_fin_W u (L u) (out g u) v). eapply bu_row; eauto. Qed.
