(** * RecFacts: recursive bisection (C10, C14; C01). *)
From Verif Require Import Base F64 ModelGraph ModelBuilders ModelPartition ModelMultilevel ModelRecursive Spec Logic Sums GraphFacts PartFacts
  BucketFacts BuilderFacts TwoStepFacts SubFacts.

(** A two-way partitioning as far as its labels go. *)
Definition two_labels (g : graph) (p : part) : Prop := length (p_pw p) = 2 /\ labels_ok 2 (nv g) (p_where p).

(** The vertices of the whole graph that a (sub)graph stands for, in the order of its own vertices. *)
Definition names (m : mapped) : list nat := match m with MWrap g => seq 0 (nv g) | MSub s => sg_super s end.
Record mapped_ok (N : nat) (m : mapped) : Prop := {
  mo_wf : wf_graph (m_graph m);
  mo_len : length (names m) = nv (m_graph m);
  mo_nodup : NoDup (names m);
  mo_range : Forall (fun x => x < N) (names m)
}.
Lemma m_super_ok N m v : mapped_ok N m -> v < nv (m_graph m) -> exists x, m_super m v = Ok x /\ names m !! v = Some x /\ x < N.
Proof.
  intros H Hv. rewrite <- (mo_len _ _ H) in Hv. apply lookup_lt_is_Some in Hv as [x Hx].
  exists x. split; [|split; [done|]].
  - destruct m as [g|s]; cbn in *; [|by apply rd_ok]. apply lookup_seq in Hx as [-> _]. done.
  - pose proof (mo_range _ _ H) as HF. rewrite Forall_forall in HF. apply HF. by apply elem_of_list_lookup_2 in Hx.
Qed.

Lemma map_partitioning_ok N m p k off labels : mapped_ok N m -> labels_ok k (nv (m_graph m)) (p_where p) -> length labels = N ->
  exists labels', map_partitioning m p off labels = Ok labels' /\ length labels' = N /\
    (forall v x i, names m !! v = Some x -> lab p v = Some i -> labels' !! x = Some (Some (i + off))) /\
    (forall x, x ∉ names m -> labels' !! x = labels !! x).
Proof.
  intros Hm Hlab HN. set (g := m_graph m) in *. apply wpo_never. unfold map_partitioning. fold g.
  eapply wpo_post; [apply (for_vertices_wp g (fun n ls => length ls = N /\
    (forall v x i, v < n -> names m !! v = Some x -> lab p v = Some i -> ls !! x = Some (Some (i + off))) /\
    (forall x, (forall v, v < n -> names m !! v <> Some x) -> ls !! x = labels !! x)))|].
  - split; [done|]. split; [lia|done].
  - intros v ls Hv (HL & H1 & H2). destruct (lab_some g k p Hlab v Hv) as (Hf & _ & ->). cbn [obind]. rewrite Hf. cbn [pw_index obind].
    destruct (m_super_ok N m v Hm Hv) as (x & -> & Hx & HxN). cbn [obind]. rewrite wri_ok by lia. cbn [wpo].
    split; [by rewrite insert_length|]. split.
    + intros u y i Hu Hy Hi. destruct (decide (u = v)) as [->|Hne].
      * assert (y = x) as -> by congruence. rewrite list_lookup_insert by lia. congruence.
      * rewrite list_lookup_insert_ne; [apply (H1 u); [lia|done|done]|]. intros ->. apply Hne.
        eapply NoDup_lookup; [apply (mo_nodup _ _ Hm)|done|done].
    + intros y Hy. rewrite list_lookup_insert_ne; [|intros ->; by apply (Hy v ltac:(lia))]. apply H2. intros u Hu. apply Hy. lia.
  - intros ls (HL & H1 & H2). split; [done|]. split.
    + intros v x i Hx Hi. apply (H1 v x i); [|done|done]. subst g. rewrite <- (mo_len _ _ Hm). by eapply lookup_lt_Some.
    + intros x Hx. apply H2. intros v _ E. apply Hx. by apply elem_of_list_lookup_2 in E.
Qed.

(** The halves of k parts. *)
Lemma half_of_1 k pid : half_of k pid = 1 <-> k / 2 <= pid.
Proof. unfold half_of. destruct (Nat.leb_spec (k / 2) pid); split; intros; try lia; done. Qed.
Lemma half_of_0 k pid : half_of k pid = 0 <-> pid < k / 2.
Proof. unfold half_of. destruct (Nat.leb_spec (k / 2) pid); split; intros; try lia; done. Qed.
Lemma filter_all {A} (P : A -> Prop) `{forall x, Decision (P x)} (l : list A) : (forall x, x ∈ l -> P x) -> filter P l = l.
Proof. induction l as [|x l IH]; intros HP; [done|]. rewrite filter_cons_True by (apply HP; set_solver). f_equal. apply IH. intros; apply HP; set_solver. Qed.
Lemma filter_none {A} (P : A -> Prop) `{forall x, Decision (P x)} (l : list A) : (forall x, x ∈ l -> ~ P x) -> filter P l = [].
Proof. induction l as [|x l IH]; intros HP; [done|]. rewrite filter_cons_False by (apply HP; set_solver). apply IH. intros; apply HP; set_solver. Qed.
Lemma half_le k : k / 2 <= k.
Proof. apply Nat.div_le_upper_bound; lia. Qed.
Lemma half_sizes_eq k : half_sizes k = (k / 2, k - k / 2).
Proof.
  unfold half_sizes. pose proof (half_le k) as Hk. replace (seq 0 k) with (seq 0 (k / 2) ++ seq (k / 2) (k - k / 2)).
  2: { change (seq (k / 2) (k - k / 2)) with (seq (0 + k / 2) (k - k / 2)). rewrite <- seq_app. f_equal. lia. }
  rewrite !filter_app.
  rewrite (filter_all (fun p => half_of k p = 0) (seq 0 (k / 2))). 2: { intros x Hx%elem_of_seq. apply half_of_0. lia. }
  rewrite (filter_none (fun p => half_of k p = 0) (seq (k / 2) _)). 2: { intros x Hx%elem_of_seq. rewrite half_of_0. lia. }
  rewrite (filter_none (fun p => half_of k p = 1) (seq 0 (k / 2))). 2: { intros x Hx%elem_of_seq. rewrite half_of_1. lia. }
  rewrite (filter_all (fun p => half_of k p = 1) (seq (k / 2) _)). 2: { intros x Hx%elem_of_seq. apply half_of_1. lia. }
  rewrite app_nil_r. simpl. by rewrite !seq_length.
Qed.

Lemma wpm_from {A} (m : M A) E P : wpm m E P -> wpm m E (fun a => P a /\ exists s s', m s = Ok (a, s')).
Proof. intros H s. specialize (H s). destruct (m s) as [[a s']|f] eqn:Em; simpl in *; [|done]. split; [done|]. by exists s, s'. Qed.
Section Rec.
  Context (lg : nat -> f64) (bis : bisector) (E : failure -> Prop).

  (** RecursiveBisectionPartitioner::recurse after the bisection p has been made. *)
  Definition rb_rest (fuel : nat) (t : target) (m : mapped) (off : nat) (labels : list (option nat)) (p : part) : M (list (option nat)) :=
    do! labels := lift (map_partitioning m p off labels) in
    if Nat.ltb 2 (t_np t) then
      do! subs := lift (sub_partitions (m_graph m) p (match m with MWrap _ => None | MSub s => Some (sg_super s) end)) in
      let '(c0, c1) := half_sizes (t_np t) in
      mfold (fun labels h =>
        let cnt := if Nat.eqb h 0 then c0 else c1 in
        let off' := if Nat.eqb h 0 then 0 else c0 in
        if Nat.ltb 1 cnt then
          do! t' := lift (sub_target t off' cnt) in
          do! s := lift (rd subs h) in
          rb_recurse lg bis fuel t' (MSub s) (off + off') labels
        else ret labels) labels (seq 0 (length subs))
    else ret labels.
  Lemma rb_recurse_S fuel t m off labels : rb_recurse lg bis (S fuel) t m off labels =
    do! bt := lift (bisect_target t (tolerance_factor lg (t_np t))) in
    do! p := bis bt (m_graph m) in
    rb_rest fuel t m off labels p.
  Proof. done. Qed.

  (** p is a bisection made for the target t and the graph g. *)
  Definition made_for (t : target) (g : graph) (p : part) : Prop :=
    exists bt cs cs', bisect_target t (tolerance_factor lg (t_np t)) = Ok bt /\ bis bt g cs = Ok (p, cs').
  (** An invariant of targets and graphs that makes bisection possible and is handed down. *)
  Record handed_down (Inv : target -> graph -> Prop) : Prop := {
    hd_bis : forall t g, Inv t g -> 2 <= t_np t -> wpo (bisect_target t (tolerance_factor lg (t_np t))) E (fun bt => wpm (bis bt g) E (two_labels g));
    hd_sub : forall t g p i sg, Inv t g -> 2 < t_np t -> two_labels g p -> i < 2 -> induced g (lab p) i sg ->
      (if i then 1 < t_np t / 2 else True) -> made_for t g p ->
      wpo (sub_target t (if i then 0 else t_np t / 2) (if i then t_np t / 2 else t_np t - t_np t / 2)) E (fun t' => Inv t' sg)
  }.
  Context (Inv : target -> graph -> Prop) (HD : handed_down Inv).

  (** What recursive bisection of the part m of the graph into k parts does to the labels. *)
  Definition sub_done (N : nat) (m : mapped) (k off : nat) (labels labels' : list (option nat)) : Prop :=
    length labels' = N /\ (forall x, x ∉ names m -> labels' !! x = labels !! x) /\
    (forall x, x ∈ names m -> exists l, labels' !! x = Some (Some l) /\ off <= l < off + k).
  (** The same, relative to the top bisection p. *)
  Definition split_done (N : nat) (m : mapped) (p : part) (k off : nat) (labels labels' : list (option nat)) : Prop :=
    length labels' = N /\ (forall x, x ∉ names m -> labels' !! x = labels !! x) /\
    (forall v x, names m !! v = Some x -> exists l, labels' !! x = Some (Some l) /\
       ((lab p v = Some 0 /\ off <= l < off + k / 2) \/ (lab p v = Some 1 /\ off + k / 2 <= l < off + k))).
  Lemma split_sub N m p k off labels labels' : split_done N m p k off labels labels' -> sub_done N m k off labels labels'.
  Proof.
    intros (H1 & H2 & H3). split; [done|]. split; [done|]. intros x [v Hv]%elem_of_list_lookup_1.
    destruct (H3 v x Hv) as (l & Hl & H). exists l. split; [done|]. pose proof (half_le k). lia.
  Qed.

  Lemma sub_target_len t a c t' : sub_target t a c = Ok t' -> t_np t' = c.
  Proof.
    unfold sub_target, t_np. destruct (_ || _) eqn:Eb; [done|]. intros H. injection H as <-. cbn.
    apply orb_false_iff in Eb as [E1%Nat.ltb_ge _]. rewrite take_length, drop_length. lia.
  Qed.

  Lemma half_bounds k : 2 < k -> 1 <= k / 2 /\ k / 2 < k /\ 2 <= k - k / 2 /\ k - k / 2 < k.
  Proof. intros Hk. pose proof (Nat.div_mod k 2 ltac:(lia)). pose proof (Nat.mod_upper_bound k 2 ltac:(lia)). lia. Qed.

  Lemma rest_wp N fuel t m off labels p :
    (forall t' m' off' labels', Inv t' (m_graph m') -> 2 <= t_np t' -> t_np t' <= fuel -> mapped_ok N m' -> length labels' = N ->
       wpm (rb_recurse lg bis fuel t' m' off' labels') E (sub_done N m' (t_np t') off' labels')) ->
    Inv t (m_graph m) -> 2 <= t_np t -> t_np t <= S fuel -> mapped_ok N m -> length labels = N -> two_labels (m_graph m) p -> made_for t (m_graph m) p ->
    wpm (rb_rest fuel t m off labels p) E (split_done N m p (t_np t) off labels).
  Proof.
    intros IH HI Hk Hf Hm HN [Hpw Hlab] Hmade. set (k := t_np t) in *. set (g := m_graph m) in *. unfold rb_rest. fold k g.
    destruct (map_partitioning_ok N m p 2 off labels Hm Hlab HN) as (ls & El & HLs & H1 & H2). rewrite El. apply wpm_liftk.
    assert (Hlabs : forall v x, names m !! v = Some x -> exists i, i < 2 /\ lab p v = Some i).
    { intros v x Hx. assert (Hv : v < nv g) by (subst g; rewrite <- (mo_len _ _ Hm); by eapply lookup_lt_Some).
      destruct (lab_some g 2 p Hlab v Hv) as (Hf' & Hl & _). eauto. }
    destruct (Nat.ltb_spec 2 k) as [Hk2|Hk2].
    - destruct (half_bounds k Hk2) as (Hh1 & Hh2 & Hh3 & Hh4).
      set (names_opt := match m with MWrap _ => None | MSub s => Some (sg_super s) end).
      destruct (sub_partitions_ok g (mo_wf _ _ Hm) 2 p Hpw Hlab names_opt) as (subs & Es & Lsubs & Hsubs).
      { intros l Hl. unfold names_opt in Hl. destruct m as [g0|s0]; [done|]. injection Hl as <-. apply (mo_len _ _ Hm). }
      rewrite Es. apply wpm_liftk. rewrite half_sizes_eq. rewrite Lsubs.
      assert (Hname : forall v, v < nv g -> names m !! v = Some (name_of names_opt v)).
      { intros v Hv. unfold names_opt. destruct m as [g0|s0]; cbn.
        - by rewrite lookup_seq_lt.
        - apply lookup_nth. subst g. cbn in Hv. pose proof (mo_len _ _ Hm) as HL. cbn in HL. lia. }
      assert (Hside : forall i s, i < 2 -> sg_super s = name_of names_opt <$> members (nv g) (lab p) i -> forall x, x ∈ sg_super s <-> exists v, names m !! v = Some x /\ lab p v = Some i).
      { intros i s Hi -> x. rewrite elem_of_list_fmap. split.
        - intros (v & -> & Hv). apply members_elem in Hv as [Hv Hi']. exists v. split; [by apply Hname|done].
        - intros (v & Hx & Hi'). assert (Hv : v < nv g) by (subst g; rewrite <- (mo_len _ _ Hm); by eapply lookup_lt_Some).
          exists v. rewrite Hname in Hx by done. injection Hx as <-. split; [done|]. by apply members_elem. }
      assert (Hmo : forall i s, i < 2 -> sg_super s = name_of names_opt <$> members (nv g) (lab p) i -> induced g (lab p) i (sg_graph s) -> mapped_ok N (MSub s)).
      { intros i s Hi Hsup Hin. constructor; cbn.
        - apply (in_wf _ _ _ _ Hin).
        - rewrite Hsup, fmap_length. symmetry. apply (in_nv _ _ _ _ Hin).
        - rewrite Hsup. apply NoDup_fmap_2_strong; [|apply members_nodup].
          intros u v Hu Hv E0. apply members_elem in Hu as [Hu _]. apply members_elem in Hv as [Hv _].
          eapply NoDup_lookup; [apply (mo_nodup _ _ Hm)|by apply Hname|]. rewrite E0. by apply Hname.
        - apply Forall_forall. intros x Hx. apply (Hside i s Hi Hsup) in Hx as (v & Hv & _).
          pose proof (mo_range _ _ Hm) as HF. rewrite Forall_forall in HF. apply HF. by eapply elem_of_list_lookup_2. }
      (* one side *)
      set (Q := fun (j : nat) (ls' : list (option nat)) => length ls' = N /\ (forall x, x ∉ names m -> ls' !! x = labels !! x) /\
         forall v x, names m !! v = Some x -> exists l, ls' !! x = Some (Some l) /\
           ((lab p v = Some 0 /\ (if decide (0 < j) then off <= l < off + k / 2 else l = off)) \/
            (lab p v = Some 1 /\ (if decide (1 < j) then off + k / 2 <= l < off + k else l = S off)))).
      eapply wpm_post; [apply (mfold_seq_wp Q)|].
      + split; [done|]. split; [done|]. intros v x Hx. destruct (Hlabs v x Hx) as (i & Hi & Hl).
        exists (i + off). split; [by eapply H1|]. destruct i as [|[|i]]; [left|right|lia]; (split; [done|]); rewrite decide_False by lia; lia.
      + intros j ls' Hj (HL & HO & HQ). destruct (Hsubs j Hj) as (s & Hs & Hsup & Hin).
        assert (HJ : j = 0 \/ j = 1) by lia.
        assert (Hside' := Hside j s Hj Hsup).
        assert (Step : forall c a, (1 < c) -> c <= fuel -> (wpo (sub_target t a c) E (fun t' => Inv t' (sg_graph s))) ->
           wpm (do! t' := lift (sub_target t a c) in do! s := lift (rd subs j) in rb_recurse lg bis fuel t' (MSub s) (off + a) ls') E
             (sub_done N (MSub s) c (off + a) ls')).
        { intros c a Hc Hcf HS. eapply wpm_bind; [apply wpm_lift; eapply (wpo_conj _ E anyf); [exact HS|]|].
          { apply wpo_anyf. intros t' Ht'. exact (sub_target_len _ _ _ _ Ht'). }
          intros t' [HI' Hn']. rewrite (rd_ok _ _ _ Hs). apply wpm_liftk. rewrite <- Hn'. apply IH; cbn; try lia; [done|]. by eapply Hmo. }
        destruct HJ as [-> | ->]; cbn [Nat.eqb].
        * destruct (Nat.ltb_spec 1 (k / 2)) as [Hc|Hc].
          -- eapply wpm_post; [apply Step; [done|lia|]|].
             { apply (hd_sub _ HD t g p 0 (sg_graph s)); done. }
             intros ls'' (HL' & HO' & HR'). split; [done|]. split.
             ++ intros x Hx. rewrite HO'; [by apply HO|]. cbn. rewrite Hside'. intros (v & Hv & _). apply Hx. by eapply elem_of_list_lookup_2.
             ++ intros v x Hx. destruct (HQ v x Hx) as (l & Hl & [[E0 R0]|[E1 R1]]).
                ** destruct (HR' x) as (l' & Hl' & Hr'); [cbn; apply Hside'; eauto|]. exists l'. split; [done|]. left. split; [done|].
                   rewrite decide_True by lia. lia.
                ** exists l. split; [|right; split; [done|]; repeat case_decide; lia]. rewrite HO'; [done|]. cbn. rewrite Hside'. intros (u & Hu & Eu).
                   assert (u = v) as -> by (eapply NoDup_lookup; [apply (mo_nodup _ _ Hm)|done|done]). congruence.
          -- apply wpm_ret. split; [done|]. split; [done|]. intros v x Hx. destruct (HQ v x Hx) as (l & Hl & HH). exists l. split; [done|].
             destruct HH as [[E0 R0]|[E1 R1]]; [left|right]; (split; [done|]); repeat case_decide; lia.
        * destruct (Nat.ltb_spec 1 (k - k / 2)) as [Hc|Hc]; [|lia].
          eapply wpm_post; [apply Step; [done|lia|]|].
          { apply (hd_sub _ HD t g p 1 (sg_graph s)); done. }
          intros ls'' (HL' & HO' & HR'). split; [done|]. split.
          ++ intros x Hx. rewrite HO'; [by apply HO|]. cbn. rewrite Hside'. intros (v & Hv & _). apply Hx. by eapply elem_of_list_lookup_2.
          ++ intros v x Hx. destruct (HQ v x Hx) as (l & Hl & [[E0 R0]|[E1 R1]]).
             ** exists l. split; [|left; split; [done|]; repeat case_decide; lia]. rewrite HO'; [done|]. cbn. rewrite Hside'. intros (u & Hu & Eu).
                assert (u = v) as -> by (eapply NoDup_lookup; [apply (mo_nodup _ _ Hm)|done|done]). congruence.
             ** destruct (HR' x) as (l' & Hl' & Hr'); [cbn; apply Hside'; eauto|]. exists l'. split; [done|]. right. split; [done|].
                rewrite decide_True by lia. lia.
      + intros ls' (HL & HO & HQ). split; [done|]. split; [done|]. intros v x Hx. destruct (HQ v x Hx) as (l & Hl & HH). exists l. split; [done|].
        rewrite !decide_True in HH by lia. exact HH.
    - assert (k = 2) as Ek by lia. rewrite Ek. apply wpm_ret. split; [done|]. split; [done|].
      intros v x Hx. destruct (Hlabs v x Hx) as (i & Hi & Hl). exists (i + off). split; [by eapply H1|].
      change (2 / 2) with 1. destruct i as [|[|i]]; [left|right|lia]; (split; [done|]); lia.
  Qed.

  Lemma rb_recurse_wp N : forall fuel t m off labels, Inv t (m_graph m) -> 2 <= t_np t -> t_np t <= fuel -> mapped_ok N m -> length labels = N ->
    wpm (rb_recurse lg bis fuel t m off labels) E (sub_done N m (t_np t) off labels).
  Proof.
    induction fuel as [|fuel IH]; intros t m off labels HI Hk Hf Hm HN; [lia|]. rewrite rb_recurse_S.
    pose proof (hd_bis _ HD t (m_graph m) HI Hk) as HB.
    destruct (bisect_target t (tolerance_factor lg (t_np t))) as [bt|f] eqn:Ebt; [|intros s; exact HB]. apply wpm_liftk. cbn [wpo] in HB.
    eapply wpm_bind; [apply (wpm_from _ E _ HB)|]. intros p (Hp & cs & cs' & Ep). eapply wpm_post; [apply rest_wp; eauto; exists bt, cs, cs'; done|]. intros ls H. by eapply split_sub.
  Qed.
End Rec.

(** ** The whole partitioner *)
Lemma wrap_ok g : wf_graph g -> mapped_ok (nv g) (MWrap g).
Proof.
  intros Hwf. constructor; cbn; [done|by rewrite seq_length|apply NoDup_ListNoDup, seq_NoDup|].
  apply Forall_forall. intros x Hx%elem_of_seq. lia.
Qed.
(** The end of execute(): labels to partitioning. *)
Definition rb_finish (t : target) (g : graph) (labels : list (option nat)) : outcome part :=
  let! labels := frozen labels in
  let! p := part_of_labels (t_np t) g labels in
  recalc_cut g p.
Lemma rb_finish_wp E t g labels ls : wf_graph g -> sub_done (nv g) (MWrap g) (t_np t) 0 ls labels ->
  wpo (rb_finish t g labels) E (fun p => p_where p = labels /\ valid_part (t_np t) g p /\ (symmetric g -> fits g -> exact_part (t_np t) g p)).
Proof.
  intros Hwf (HL & _ & HR). unfold rb_finish.
  assert (Hnames : forall x, x < nv g -> x ∈ names (MWrap g)) by (intros; cbn; apply elem_of_seq; lia).
  rewrite (frozen_ok _ (fun x => default 0 (nth x labels None))).
  2: { intros i Hi. rewrite HL in Hi. destruct (HR i (Hnames i Hi)) as (l & Hl & _). rewrite Hl. rewrite (nth_lt_eq _ _ _ _ Hl). done. }
  cbn [obind]. rewrite HL.
  set (ns := (fun x => default 0 (nth x labels None)) <$> seq 0 (nv g)).
  assert (Eq : labels = Some <$> ns).
  { apply list_eq. intros i. unfold ns. rewrite !list_lookup_fmap. destruct (decide (i < nv g)) as [Hi|Hi].
    - rewrite lookup_seq_lt by done. cbn. destruct (HR i (Hnames i Hi)) as (l & Hl & _). rewrite Hl. rewrite (nth_lt_eq _ _ _ _ Hl). done.
    - rewrite !lookup_ge_None_2; [done|rewrite seq_length; lia|lia]. }
  eapply wpo_bind; [apply (part_of_labels_wp g Hwf (t_np t) E ns)|].
  - unfold ns. by rewrite fmap_length, seq_length.
  - unfold ns. apply Forall_fmap, Forall_forall. intros x Hx%elem_of_seq. cbn. destruct (HR x (Hnames x ltac:(lia))) as (l & Hl & Hr).
    rewrite (nth_lt_eq _ _ _ _ Hl). cbn. lia.
  - intros p (Hw & Hv & He).
    pose proof (recalc_cut_valid g Hwf (t_np t) E p Hv) as R1.
    destruct (recalc_cut g p) as [p'|fl] eqn:Er; [|done]. cbn [wpo] in *. destruct R1 as [R1 R2].
    split; [congruence|]. split; [done|]. intros Hs Hf.
    pose proof (recalc_cut_exact g Hwf (t_np t) E p Hv Hs Hf) as R3. rewrite Er in R3. apply R3.
Qed.

Lemma rb_execute_eq lg bis t g s : rb_execute lg bis t g s =
  (do! labels := rb_recurse lg bis (S (t_np t)) t (MWrap g) 0 (alloc (nv g)) in lift (rb_finish t g labels)) s.
Proof.
  unfold rb_execute, rb_finish, mbindM, lift. destruct (rb_recurse lg bis (S (t_np t)) t (MWrap g) 0 (alloc (nv g)) s) as [[labels s']|f]; [|done].
  cbn [obind fst snd]. destruct (frozen labels); [|done]. cbn [obind fst snd]. destruct (part_of_labels (t_np t) g a); done.
Qed.

Lemma rb_execute_wp lg bis E Inv t g : handed_down lg bis E Inv -> Inv t g -> wf_graph g -> 2 <= t_np t ->
  wpm (rb_execute lg bis t g) E (fun P => valid_part (t_np t) g P /\ (symmetric g -> fits g -> exact_part (t_np t) g P)).
Proof.
  intros HD HI Hwf Hk s. rewrite rb_execute_eq. revert s.
  change (wpm (do! labels := rb_recurse lg bis (S (t_np t)) t (MWrap g) 0 (alloc (nv g)) in lift (rb_finish t g labels)) E
    (fun P => valid_part (t_np t) g P /\ (symmetric g -> fits g -> exact_part (t_np t) g P))).
  eapply wpm_bind; [apply (rb_recurse_wp lg bis E Inv HD (nv g)); [exact HI|done|lia|by apply wrap_ok|by unfold alloc; rewrite replicate_length]|].
  intros ls Hls. apply wpm_lift. eapply wpo_post; [by eapply rb_finish_wp|]. intros P (_ & H). exact H.
Qed.

(** Relative to the top bisection. *)
Lemma rb_execute_split lg bis E Inv t g s P s' : handed_down lg bis E Inv -> Inv t g -> wf_graph g -> 2 <= t_np t ->
  rb_execute lg bis t g s = Ok (P, s') ->
  exists bt p s1, bisect_target t (tolerance_factor lg (t_np t)) = Ok bt /\ bis bt g s = Ok (p, s1) /\ two_labels g p /\
    forall v, v < nv g -> exists l, lab P v = Some l /\
      ((lab p v = Some 0 /\ l < t_np t / 2) \/ (lab p v = Some 1 /\ t_np t / 2 <= l < t_np t)).
Proof.
  intros HD HI Hwf Hk HP. rewrite rb_execute_eq in HP. unfold mbindM in HP. rewrite rb_recurse_S in HP. unfold mbindM, lift in HP.
  pose proof (hd_bis _ _ _ _ HD t g HI Hk) as HB.
  destruct (bisect_target t (tolerance_factor lg (t_np t))) as [bt|] eqn:Ebt; [|done]. cbn [obind fst snd m_graph wpo] in *.
  pose proof (HB s) as HBs. destruct (bis bt g s) as [[p s1]|] eqn:Eb; [|done]. cbn [obind fst snd wpo] in *.
  exists bt, p, s1. split; [done|]. split; [done|]. split; [done|].
  pose proof (rest_wp lg bis E Inv HD (nv g) (t_np t) t (MWrap g) 0 (alloc (nv g)) p
    (fun t' m' off' labels' H1 H2 H3 H4 H5 => rb_recurse_wp lg bis E Inv HD (nv g) (t_np t) t' m' off' labels' H1 H2 H3 H4 H5)
    HI Hk ltac:(lia) (wrap_ok g Hwf) ltac:(by unfold alloc; rewrite replicate_length) HBs ltac:(by exists bt, s, s1) s1) as HR.
  destruct (rb_rest lg bis (t_np t) t (MWrap g) 0 (alloc (nv g)) p s1) as [[ls s2]|] eqn:Er; [|done]. cbn [obind fst snd wpo] in *.
  pose proof (rb_finish_wp anyf t g ls (alloc (nv g)) Hwf (split_sub _ _ _ _ _ _ _ HR)) as HF.
  destruct (rb_finish t g ls) as [P'|]; [|done]. cbn [obind fst snd wpo] in *. injection HP as -> ->. destruct HF as (Hw & _).
  destruct HR as (_ & _ & HR). intros v Hv. destruct (HR v v) as (l & Hl & HH); [cbn; by rewrite lookup_seq_lt|].
  exists l. split; [unfold lab; rewrite Hw; by apply nth_lt_eq|].
  destruct HH as [[E0 R0]|[E0 R0]]; [left|right]; (split; [exact E0|]); lia.
Qed.
