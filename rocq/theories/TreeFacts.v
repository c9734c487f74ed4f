(** * TreeFacts: a k-way partitioning is the tree of its bisections (C53). *)
From Verif Require Import Base F64 ModelGraph ModelBuilders ModelPartition ModelMultilevel ModelRecursive Spec Logic Sums GraphFacts PartFacts
  BucketFacts BuilderFacts TwoStepFacts SubFacts RecFacts.

Lemma mbind_inv {A B} (m : M A) (k : A -> M B) s b s2 : mbindM m k s = Ok (b, s2) -> exists a s1, m s = Ok (a, s1) /\ k a s1 = Ok (b, s2).
Proof. unfold mbindM. destruct (m s) as [[a s1]|f]; [|done]. cbn [obind fst snd]. intros H. by exists a, s1. Qed.
Lemma lift_inv {A} (m : outcome A) s a s1 : lift m s = Ok (a, s1) -> m = Ok a /\ s1 = s.
Proof. unfold lift. destruct m; [|done]. cbn [obind]. intros H. injection H as -> ->. done. Qed.

Lemma half_bounds' k : 3 < k -> 2 <= k / 2 /\ k / 2 < k /\ 2 <= k - k / 2.
  Proof. intros Hk. pose proof (Nat.div_mod k 2 ltac:(lia)). pose proof (Nat.mod_upper_bound k 2 ltac:(lia)). lia. Qed.
Lemma two_sides g p v : two_labels g p -> v < nv g -> lab p v = Some 0 \/ lab p v = Some 1.
  Proof.
    intros [_ Hl] Hv. destruct (lab_some g 2 p Hl v Hv) as (Hf & Hl' & _). rewrite Hf. destruct (labi p v) as [|[|]]; [by left|by right|lia].
  Qed.

Section Tree.
  Context (lg : nat -> f64) (bis : bisector).

  (** [tree t g l ps s s']: the vertices of g get the labels l (below t_np t) by bisecting g and
      then the subgraphs induced by its two sides, the first half of the labels going to side 0;
      ps are the bisections made, in order, each with the graph it bisects, consuming the choices
      from s to s'. *)
  Inductive tree : target -> graph -> (nat -> nat) -> list (graph * part) -> list nat -> list nat -> Prop :=
  | tree_two t g bt p l s s' : t_np t = 2 ->
      bisect_target t (tolerance_factor lg (t_np t)) = Ok bt -> bis bt g s = Ok (p, s') -> two_labels g p ->
      (forall v, v < nv g -> lab p v = Some (l v)) ->
      tree t g l [(g, p)] s s'
  | tree_three t g bt p t1 g1 l l1 ps s s1 s2 : t_np t = 3 ->
      bisect_target t (tolerance_factor lg (t_np t)) = Ok bt -> bis bt g s = Ok (p, s1) -> two_labels g p ->
      induced g (lab p) 1 g1 -> sub_target t 1 2 = Ok t1 -> tree t1 g1 l1 ps s1 s2 ->
      (forall v, v < nv g -> lab p v = Some 0 -> l v = 0) ->
      (forall j v, members (nv g) (lab p) 1 !! j = Some v -> l v = 1 + l1 j) ->
      tree t g l ((g, p) :: ps) s s2
  | tree_more t g bt p t0 t1 g0 g1 l l0 l1 ps0 ps1 s s1 s2 s3 : 3 < t_np t ->
      bisect_target t (tolerance_factor lg (t_np t)) = Ok bt -> bis bt g s = Ok (p, s1) -> two_labels g p ->
      induced g (lab p) 0 g0 -> sub_target t 0 (t_np t / 2) = Ok t0 -> tree t0 g0 l0 ps0 s1 s2 ->
      induced g (lab p) 1 g1 -> sub_target t (t_np t / 2) (t_np t - t_np t / 2) = Ok t1 -> tree t1 g1 l1 ps1 s2 s3 ->
      (forall j v, members (nv g) (lab p) 0 !! j = Some v -> l v = l0 j) ->
      (forall j v, members (nv g) (lab p) 1 !! j = Some v -> l v = t_np t / 2 + l1 j) ->
      tree t g l ((g, p) :: ps0 ++ ps1) s s3.

  Context (Hbis : forall t' tol bt g' cs p cs', bisect_target t' tol = Ok bt -> wf_graph g' -> bis bt g' cs = Ok (p, cs') -> two_labels g' p).

  Definition labelled (N : nat) (m : mapped) (off : nat) (l : nat -> nat) (labels labels' : list (option nat)) : Prop :=
    length labels' = N /\ (forall x, x ∉ names m -> labels' !! x = labels !! x) /\
    (forall v x, names m !! v = Some x -> labels' !! x = Some (Some (off + l v))).

  Definition val (o : option nat) : nat := match o with Some i => i | None => 0 end.
  Lemma rb_recurse_tree N : forall fuel t m off labels s ls s', 2 <= t_np t -> mapped_ok N m -> length labels = N ->
    rb_recurse lg bis fuel t m off labels s = Ok (ls, s') ->
    exists l ps, tree t (m_graph m) l ps s s' /\ labelled N m off l labels ls.
  Proof.
    induction fuel as [|fuel IH]; intros t m off labels s ls s' Hk Hm HN E; [done|].
    rewrite rb_recurse_S in E. apply mbind_inv in E as (bt & s0 & [Ebt ->]%lift_inv & E).
    apply mbind_inv in E as (p & s1 & Ep & E). pose proof (Hbis _ _ _ _ _ _ _ Ebt (mo_wf _ _ Hm) Ep) as HT. pose proof HT as [Hpw Hlab].
    unfold rb_rest in E. set (k := t_np t) in *. set (g := m_graph m) in *.
    destruct (map_partitioning_ok N m p 2 off labels Hm Hlab HN) as (ls1 & El & HLs & H1 & H2).
    apply mbind_inv in E as (ls1' & s1' & [El' ->]%lift_inv & E). rewrite El in El'. injection El' as <-.
    assert (Hlabs : forall v x, names m !! v = Some x -> exists i, i < 2 /\ lab p v = Some i).
    { intros v x Hx. assert (Hv : v < nv g) by (subst g; rewrite <- (mo_len _ _ Hm); by eapply lookup_lt_Some).
      destruct (lab_some g 2 p Hlab v Hv) as (Hf' & Hl & _). eauto. }
    destruct (Nat.ltb_spec 2 k) as [Hk2|Hk2].
    - destruct (half_bounds k Hk2) as (Hh1 & Hh2 & Hh3 & Hh4).
      set (names_opt := match m with MWrap _ => None | MSub s => Some (sg_super s) end) in *.
      destruct (sub_partitions_ok g (mo_wf _ _ Hm) 2 p Hpw Hlab names_opt) as (subs & Es & Lsubs & Hsubs).
      { intros l Hl. unfold names_opt in Hl. destruct m as [g0|s2]; [done|]. injection Hl as <-. apply (mo_len _ _ Hm). }
      apply mbind_inv in E as (subs' & s1' & [Es' ->]%lift_inv & E). rewrite Es in Es'. injection Es' as <-.
      rewrite half_sizes_eq, Lsubs in E.
      assert (Hname : forall v, v < nv g -> names m !! v = Some (name_of names_opt v)).
      { intros v Hv. unfold names_opt. destruct m as [g0|s2]; cbn.
        - by rewrite lookup_seq_lt.
        - apply lookup_nth. subst g. cbn in Hv. pose proof (mo_len _ _ Hm) as HL. cbn in HL. lia. }
      assert (Hmo : forall i s, i < 2 -> sg_super s = name_of names_opt <$> members (nv g) (lab p) i -> induced g (lab p) i (sg_graph s) -> mapped_ok N (MSub s)).
      { intros i s2 Hi Hsup Hin. constructor; cbn.
        - apply (in_wf _ _ _ _ Hin).
        - rewrite Hsup, fmap_length. symmetry. apply (in_nv _ _ _ _ Hin).
        - rewrite Hsup. apply NoDup_fmap_2_strong; [|apply members_nodup].
          intros u v Hu Hv E0. apply members_elem in Hu as [Hu _]. apply members_elem in Hv as [Hv _].
          eapply NoDup_lookup; [apply (mo_nodup _ _ Hm)|by apply Hname|]. rewrite E0. by apply Hname.
        - apply Forall_forall. intros x Hx. rewrite Hsup in Hx. apply elem_of_list_fmap in Hx as (v & -> & Hv). apply members_elem in Hv as [Hv _].
          pose proof (mo_range _ _ Hm) as HF. rewrite Forall_forall in HF. apply HF. eapply elem_of_list_lookup_2. by apply Hname. }
      destruct (Hsubs 0 ltac:(lia)) as (sA & HsA & HsupA & HinA). destruct (Hsubs 1 ltac:(lia)) as (sB & HsB & HsupB & HinB).
      change (seq 0 2) with [0; 1] in E. cbn [mfold] in E.
      apply mbind_inv in E as (lsA & s2 & EA & E). apply mbind_inv in E as (lsB & s3 & EB & E).
      injection E as <- <-. cbn [Nat.eqb] in EA, EB.
      (* the right side is always split *)
      destruct (Nat.ltb_spec 1 (k - k / 2)) as [Hc1|Hc1]; [|lia].
      apply mbind_inv in EB as (tB & sx & [EtB ->]%lift_inv & EB). apply mbind_inv in EB as (sB' & sx & [EsB ->]%lift_inv & EB).
      rewrite (rd_ok _ _ _ HsB) in EsB. injection EsB as <-.
      assert (HnpB : t_np tB = k - k / 2) by (by eapply sub_target_len).
      (* positions of the vertices on each side *)
      assert (Hpos : forall i sd, i < 2 -> sg_super sd = name_of names_opt <$> members (nv g) (lab p) i ->
        forall v x, names m !! v = Some x -> lab p v = Some i -> names (MSub sd) !! rank (lab p) v = Some x).
      { intros i sd Hi Hsup v x Hx Hl. assert (Hv : v < nv g) by (subst g; rewrite <- (mo_len _ _ Hm); by eapply lookup_lt_Some).
        cbn. rewrite Hsup, list_lookup_fmap, (members_rank (nv g) (lab p) i v) by done. cbn. rewrite <- Hname by done. done. }
      assert (Hout : forall i sd, i < 2 -> sg_super sd = name_of names_opt <$> members (nv g) (lab p) i ->
        forall v x j, names m !! v = Some x -> lab p v = Some j -> j <> i -> x ∉ names (MSub sd)).
      { intros i sd Hi Hsup v x j Hx Hl Hne Hin. cbn in Hin. rewrite Hsup in Hin. apply elem_of_list_fmap in Hin as (u & Eu & Hu).
        apply members_elem in Hu as [Hu Hu2].
        assert (u = v) as ->. { eapply NoDup_lookup; [apply (mo_nodup _ _ Hm)|apply Hname; done|]. by rewrite <- Eu. }
        congruence. }
      assert (Hoth : forall i sd, i < 2 -> sg_super sd = name_of names_opt <$> members (nv g) (lab p) i -> forall x, x ∉ names m -> x ∉ names (MSub sd)).
      { intros i sd Hi Hsup x Hx Hin. apply Hx. cbn in Hin. rewrite Hsup in Hin. apply elem_of_list_fmap in Hin as (u & -> & Hu).
        apply members_elem in Hu as [Hu _]. eapply elem_of_list_lookup_2. by apply Hname. }
      destruct (Nat.ltb_spec 1 (k / 2)) as [Hc0|Hc0].
      + apply mbind_inv in EA as (tA & sx & [EtA ->]%lift_inv & EA). apply mbind_inv in EA as (sA' & sx & [EsA ->]%lift_inv & EA).
        rewrite (rd_ok _ _ _ HsA) in EsA. injection EsA as <-.
        assert (HnpA : t_np tA = k / 2) by (by eapply sub_target_len).
        destruct (IH tA (MSub sA) (off + 0) ls1 s1 lsA s2) as (lA & psA & TA & LA1 & LA2 & LA3); [lia|apply (Hmo 0); [lia|done|done]|done|done|].
        destruct (IH tB (MSub sB) (off + k / 2) lsA s2 lsB s3) as (lB & psB & TB & LB1 & LB2 & LB3); [lia|apply (Hmo 1); [lia|done|done]|done|done|].
        set (l := fun v => match lab p v with Some 0 => lA (rank (lab p) v) | _ => k / 2 + lB (rank (lab p) v) end).
        exists l, ((g, p) :: psA ++ psB). split.
        * assert (k <> 3). { intros E3. rewrite E3 in Hc0. change (3 / 2) with 1 in Hc0. lia. }
          eapply (tree_more t g bt p tA tB (sg_graph sA) (sg_graph sB) l lA lB psA psB s s1 s2 s3); try done; [fold k; lia| |].
          -- intros j v Hj. apply members_inv in Hj as (Hv & Hl & <-). unfold l. by rewrite Hl.
          -- intros j v Hj. apply members_inv in Hj as (Hv & Hl & <-). unfold l. by rewrite Hl.
        * split; [done|]. split.
          -- intros x Hx. rewrite LB2 by (apply (Hoth 1); [lia|done|done]). rewrite LA2 by (apply (Hoth 0); [lia|done|done]). by apply H2.
          -- intros v x Hx. destruct (Hlabs v x Hx) as (i & Hi & Hl). unfold l. rewrite Hl. destruct i as [|[|i]]; [| |lia].
             ++ rewrite LB2 by (eapply Hout; [|exact HsupB|exact Hx|exact Hl|]; lia).
                rewrite (LA3 (rank (lab p) v) x); [f_equal; f_equal; lia|]. apply (Hpos 0); [lia|done|done|done].
             ++ rewrite (LB3 (rank (lab p) v) x); [f_equal; f_equal; lia|]. apply (Hpos 1); [lia|done|done|done].
      + injection EA as <- <-. assert (k / 2 = 1) as Ek2 by lia. assert (k = 3) as Ek.
        { pose proof (Nat.div_mod k 2 ltac:(lia)). pose proof (Nat.mod_upper_bound k 2 ltac:(lia)). lia. }
        destruct (IH tB (MSub sB) (off + k / 2) ls1 s1 lsB s3) as (lB & psB & TB & LB1 & LB2 & LB3); [lia|apply (Hmo 1); [lia|done|done]|done|done|].
        set (l := fun v => match lab p v with Some 0 => 0 | _ => 1 + lB (rank (lab p) v) end).
        exists l, ((g, p) :: psB). split.
        * eapply (tree_three t g bt p tB (sg_graph sB) l lB psB s s1 s3); try done.
          -- rewrite Ek2, Ek in EtB. exact EtB.
          -- intros v Hv Hl. unfold l. by rewrite Hl.
          -- intros j v Hj. apply members_inv in Hj as (Hv & Hl & <-). unfold l. by rewrite Hl.
        * split; [done|]. split.
          -- intros x Hx. rewrite LB2 by (apply (Hoth 1); [lia|done|done]). by apply H2.
          -- intros v x Hx. destruct (Hlabs v x Hx) as (i & Hi & Hl). unfold l. rewrite Hl. destruct i as [|[|i]]; [| |lia].
             ++ rewrite LB2 by (eapply Hout; [|exact HsupB|exact Hx|exact Hl|]; lia). rewrite (H1 v x 0 Hx Hl). f_equal. f_equal. lia.
             ++ rewrite (LB3 (rank (lab p) v) x); [f_equal; f_equal; lia|]. apply (Hpos 1); [lia|done|done|done].
    - injection E as <- <-. exists (fun v => val (lab p v)), [(g, p)]. split.
      + eapply tree_two; try done; [fold k; lia|]. intros v Hv. destruct (lab_some g 2 p Hlab v Hv) as (Hf' & Hl & _). rewrite Hf'. done.
      + split; [done|]. split; [done|]. intros v x Hx. destruct (Hlabs v x Hx) as (i & Hi & Hl). rewrite (H1 v x i Hx Hl), Hl. cbn. f_equal. f_equal. lia.
  Qed.

End Tree.
Section Tree2.
  Context (lg : nat -> f64) (bis : bisector).
  Local Notation tree := (tree lg bis).
  Lemma tree_count t g l ps s s' : tree t g l ps s s' -> length ps = t_np t - 1.
  Proof.
    induction 1 as [| t g bt p t1 g1 l l1 ps s s1 s2 Hk H1 H2 H3 H4 H5 HT IH H6 H7
                    | t g bt p t0 t1 g0 g1 l l0 l1 ps0 ps1 s s1 s2 s3 Hk H1 H2 H3 H4 H5 HT IH H6 H7 HT1 IH1 H8 H9]; cbn [length]; [lia| |].
    - rewrite IH, (sub_target_len _ _ _ _ H5). lia.
    - rewrite app_length, IH, IH1, (sub_target_len _ _ _ _ H5), (sub_target_len _ _ _ _ H7). pose proof (half_bounds' _ Hk). lia.
  Qed.
  Lemma tree_bound t g l ps s s' : tree t g l ps s s' -> forall v, v < nv g -> l v < t_np t.
  Proof.
    induction 1 as [t g bt p l s s' Hk H1 H2 H3 H4 | t g bt p t1 g1 l l1 ps s s1 s2 Hk H1 H2 H3 H4 H5 HT IH H6 H7
                    | t g bt p t0 t1 g0 g1 l l0 l1 ps0 ps1 s s1 s2 s3 Hk H1 H2 H3 H4 H5 HT IH H6 H7 HT1 IH1 H8 H9]; intros v Hv.
    - pose proof (H4 v Hv) as Hl. destruct (two_sides g p v H3 Hv) as [E|E]; rewrite E in Hl; injection Hl as <-; lia.
    - destruct (two_sides g p v H3 Hv) as [E|E]; [rewrite H6 by done; lia|].
      pose proof (members_rank (nv g) (lab p) 1 v Hv E) as Hm. rewrite (H7 _ _ Hm).
      specialize (IH (rank (lab p) v)). rewrite (in_nv _ _ _ _ H4) in IH. specialize (IH (rank_lt (nv g) (lab p) 1 v Hv E)).
      rewrite (sub_target_len _ _ _ _ H5) in IH. lia.
    - pose proof (half_bounds' _ Hk). destruct (two_sides g p v H3 Hv) as [E|E].
      + pose proof (members_rank (nv g) (lab p) 0 v Hv E) as Hm. rewrite (H8 _ _ Hm).
        specialize (IH (rank (lab p) v)). rewrite (in_nv _ _ _ _ H4) in IH. specialize (IH (rank_lt (nv g) (lab p) 0 v Hv E)).
        rewrite (sub_target_len _ _ _ _ H5) in IH. lia.
      + pose proof (members_rank (nv g) (lab p) 1 v Hv E) as Hm. rewrite (H9 _ _ Hm).
        specialize (IH1 (rank (lab p) v)). rewrite (in_nv _ _ _ _ H6) in IH1. specialize (IH1 (rank_lt (nv g) (lab p) 1 v Hv E)).
        rewrite (sub_target_len _ _ _ _ H7) in IH1. lia.
  Qed.
End Tree2.

(** ** Cuts add up *)
Section Side.
  Context (g : graph) (Hwf : wf_graph g) (p : part) (i : nat) (sg : graph) (Hin : induced g (lab p) i sg) (l li : nat -> nat) (off : nat).
  Context (Hl : forall j v, members (nv g) (lab p) i !! j = Some v -> l v = off + li j).
  Context (Hd : forall u v, u < nv g -> v < nv g -> lab p u = Some i -> lab p v <> Some i -> l u <> l v).
  Lemma side_external j v : members (nv g) (lab p) i !! j = Some v -> external g l v = (external g (lab p) v + external sg li j)%Z.
  Proof.
    intros Hj. pose proof (members_inv _ _ _ _ _ Hj) as (Hv & Hlv & _).
    assert (Hjl : j < nv sg) by (rewrite (in_nv _ _ _ _ Hin); by eapply lookup_lt_Some).
    transitivity (sumf (fun a => if decide (lab p (fst a) = Some i) then 0 else snd a)%Z (out g v) +
       sumf (fun a => if decide (l (fst a) = l v) then 0 else snd a)%Z (filter (fun a => lab p (fst a) = Some i) (out g v)))%Z.
    - unfold external. rewrite sumf_filter, <- sumf_add. apply sumf_ext. intros a Ha. pose proof (out_dst g Hwf v a Hv Ha) as Hdst.
      destruct (decide (lab p (fst a) = Some i)); [lia|]. rewrite decide_False; [lia|]. intros E. by eapply (Hd v (fst a)).
    - f_equal.
      + unfold external. apply sumf_ext. intros a _. rewrite Hlv. done.
      + rewrite <- (in_out _ _ _ _ Hin j v Hj), sumf_map. unfold external. apply sumf_ext. intros a Ha. cbn [fst snd].
        pose proof (out_dst sg (in_wf _ _ _ _ Hin) j a Hjl Ha) as Hda. destruct (mem_at g (lab p) i sg Hin (fst a) Hda) as [u Hu].
        rewrite (nth_lt_eq _ _ _ _ Hu), (Hl _ _ Hu), (Hl _ _ Hj). destruct (decide (li (fst a) = li j)).
        * rewrite decide_True by lia. done.
        * rewrite decide_False by lia. done.
  Qed.
  Lemma side_sum : sumn (nv g) (fun v => if decide (lab p v = Some i) then external g l v else 0)%Z =
    (sumn (nv g) (fun v => if decide (lab p v = Some i) then external g (lab p) v else 0) + sumn (nv sg) (external sg li))%Z.
  Proof.
    rewrite (sum_members g (lab p) i sg Hin (fun v => (external g l v - external g (lab p) v)%Z)).
    - rewrite <- sumf_add. apply sumf_ext. intros v _. case_decide; lia.
    - intros j v Hj. rewrite (side_external j v Hj). lia.
  Qed.
End Side.
Lemma side_const g (Hwf : wf_graph g) p i l : (forall v, v < nv g -> lab p v = Some i -> l v = 0) ->
  (forall u v, u < nv g -> v < nv g -> lab p u = Some i -> lab p v <> Some i -> l u <> l v) ->
  sumn (nv g) (fun v => if decide (lab p v = Some i) then external g l v else 0)%Z =
  sumn (nv g) (fun v => if decide (lab p v = Some i) then external g (lab p) v else 0)%Z.
Proof.
  intros H0 Hd. apply sumf_ext. intros v Hv%elem_of_seq. destruct (decide (lab p v = Some i)) as [E|]; [|done]. apply sumf_ext. intros a Ha.
  pose proof (out_dst g Hwf v a ltac:(lia) Ha) as Hdst. destruct (decide (lab p (fst a) = Some i)) as [E'|E'].
  - rewrite !H0 by (done || lia). rewrite !decide_True by congruence. done.
  - rewrite !decide_False; [done|congruence|]. intros E2. eapply (Hd v (fst a)); try done; lia.
Qed.
Lemma both_sides g p (h : nat -> Z) : two_labels g p ->
  sumn (nv g) h = (sumn (nv g) (fun v => if decide (lab p v = Some 0%nat) then h v else 0) + sumn (nv g) (fun v => if decide (lab p v = Some 1%nat) then h v else 0))%Z.
Proof.
  intros HT. rewrite <- sumf_add. apply sumf_ext. intros v Hv%elem_of_seq. destruct (two_sides g p v HT ltac:(lia)) as [E|E]; rewrite E.
  - rewrite decide_True, decide_False by done. lia.
  - rewrite decide_False, decide_True by done. lia.
Qed.
Lemma tree_cut lg bis t g l ps s s' : tree lg bis t g l ps s s' -> wf_graph g -> symmetric g ->
  edge_cut g l = sumf (fun gp => edge_cut (fst gp) (lab (snd gp))) ps.
Proof.
  induction 1 as [t g bt p l s s' Hk H1 H2 H3 H4 | t g bt p t1 g1 l l1 ps s s1 s2 Hk H1 H2 H3 H4 H5 HT IH H6 H7
                  | t g bt p t0 t1 g0 g1 l l0 l1 ps0 ps1 s s1 s2 s3 Hk H1 H2 H3 H4 H5 HT IH H6 H7 HT1 IH1 H8 H9]; intros Hwf Hs.
  - change (edge_cut g l = edge_cut g (lab p) + 0)%Z. rewrite Z.add_0_r. unfold edge_cut. apply sumf_ext. intros u Hu%elem_of_seq. apply sumf_ext. intros v Hv%elem_of_seq.
    rewrite !H4 by lia. destruct (decide (l u = l v)) as [E|E].
    + rewrite decide_True by congruence. done.
    + rewrite decide_False by congruence. done.
  - change (edge_cut g l = edge_cut g (lab p) + sumf (fun gp => edge_cut (fst gp) (lab (snd gp))) ps)%Z. rewrite <- IH by (apply (in_wf _ _ _ _ H4) || by eapply induced_symmetric).
    pose proof (edge_cut_double g Hwf l Hs) as D1. pose proof (edge_cut_double g Hwf (lab p) Hs) as D2.
    pose proof (edge_cut_double g1 (in_wf _ _ _ _ H4) l1 (induced_symmetric g (lab p) 1 g1 H4 Hs)) as D3.
    assert (Hone : forall v, v < nv g -> lab p v = Some 1 -> 1 <= l v).
    { intros v Hv Hl. rewrite (H7 _ _ (members_rank (nv g) (lab p) 1 v Hv Hl)). lia. }
    rewrite (both_sides g p _ H3) in D1. rewrite (both_sides g p _ H3) in D2.
    rewrite (side_const g Hwf p 0 l H6) in D1.
    2: { intros u v Hu Hv E0 En. destruct (two_sides g p v H3 Hv) as [E|E]; [done|]. pose proof (Hone v Hv E). rewrite H6 by done. lia. }
    rewrite (side_sum g Hwf p 1 g1 H4 l l1 1 H7) in D1.
    2: { intros u v Hu Hv E0 En. destruct (two_sides g p v H3 Hv) as [E|E]; [|done]. pose proof (Hone u Hu E0). rewrite (H6 v) by done. lia. }
    lia.
  - change (edge_cut g l = edge_cut g (lab p) + sumf (fun gp => edge_cut (fst gp) (lab (snd gp))) (ps0 ++ ps1))%Z. rewrite sumf_app, <- IH, <- IH1 by (apply (in_wf _ _ _ _ H4) || apply (in_wf _ _ _ _ H6) || by eapply induced_symmetric).
    pose proof (edge_cut_double g Hwf l Hs) as D1. pose proof (edge_cut_double g Hwf (lab p) Hs) as D2.
    pose proof (edge_cut_double g0 (in_wf _ _ _ _ H4) l0 (induced_symmetric g (lab p) 0 g0 H4 Hs)) as D3.
    pose proof (edge_cut_double g1 (in_wf _ _ _ _ H6) l1 (induced_symmetric g (lab p) 1 g1 H6 Hs)) as D4.
    assert (Hone : forall v, v < nv g -> lab p v = Some 1 -> t_np t / 2 <= l v).
    { intros v Hv Hl. rewrite (H9 _ _ (members_rank (nv g) (lab p) 1 v Hv Hl)). lia. }
    assert (Hzero : forall v, v < nv g -> lab p v = Some 0 -> l v < t_np t / 2).
    { intros v Hv Hl. rewrite (H8 _ _ (members_rank (nv g) (lab p) 0 v Hv Hl)).
      pose proof (tree_bound lg bis _ _ _ _ _ _ HT (rank (lab p) v)) as B. rewrite (in_nv _ _ _ _ H4) in B.
      specialize (B (rank_lt (nv g) (lab p) 0 v Hv Hl)). rewrite (sub_target_len _ _ _ _ H5) in B. done. }
    rewrite (both_sides g p _ H3) in D1. rewrite (both_sides g p _ H3) in D2.
    rewrite (side_sum g Hwf p 0 g0 H4 l l0 0 H8) in D1.
    2: { intros u v Hu Hv E0 En. destruct (two_sides g p v H3 Hv) as [E|E]; [done|]. pose proof (Hone v Hv E). pose proof (Hzero u Hu E0). lia. }
    rewrite (side_sum g Hwf p 1 g1 H6 l l1 (t_np t / 2) H9) in D1.
    2: { intros u v Hu Hv E0 En. destruct (two_sides g p v H3 Hv) as [E|E]; [|done]. pose proof (Hone u Hu E0). pose proof (Hzero v Hv E). lia. }
    lia.
Qed.
