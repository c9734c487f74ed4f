(** * ContractFacts: SummationContractor (C15-C17) and cut preservation (C18). *)
From Verif Require Import Base ModelGraph ModelBuilders ModelAgg Spec Logic Sums GraphFacts ConnFacts BucketFacts AggFacts BuilderFacts.

(** ** Regrouping sums *)
Lemma regroup n nc (cm : nat -> nat) (h : nat -> nat -> Z) : (forall v, v < n -> cm v < nc) ->
  sumn n (fun u => h (cm u) u) = sumn nc (fun c => sumn n (fun u => if decide (cm u = c) then h c u else 0%Z)).
Proof.
  intros Hcm. rewrite sumf_exch. apply sumn_ext. intros u Hu.
  rewrite (sumn_ext nc _ (fun c => if decide (c = cm u) then h c u else 0%Z)).
  - rewrite (sumn_single nc (fun c => h c u) (cm u)) by auto. done.
  - intros c Hc. destruct (decide (cm u = c)), (decide (c = cm u)); congruence.
Qed.
Lemma sumn_if0 n (b : bool) f : (if b then sumn n f else 0%Z) = sumn n (fun v => if b then f v else 0%Z).
Proof. destruct b; [done|]. symmetry. apply sumf_zero. done. Qed.

Section Contract.
  Context (g : graph) (Hwf : wf_graph g) (a : aggregation) (Hg : grouping (nv g) a).
  Local Notation n := (nv g).
  Local Notation nc := (a_num_coarse a).
  Lemma cmap_look v : v < n -> a_cmap a !! v = Some (group_of a v).
  Proof. intros H. destruct Hg as (HL & _). apply lookup_nth. lia. Qed.
  Lemma group_lt v : v < n -> group_of a v < nc.
  Proof. intros H. destruct Hg as (HL & HF & _). eapply (Forall_lookup_1 (fun c => c < nc)); [exact HF|]. by apply cmap_look. Qed.
  Definition grp (c : nat) : list nat := filter (fun v => a_cmap a !! v = Some c) (seq 0 n).
  Lemma grp_elem c v : v ∈ grp c <-> v < n /\ group_of a v = c.
  Proof.
    unfold grp. rewrite elem_of_list_filter, elem_of_seq. split.
    - intros [H1 H2]. rewrite cmap_look in H1 by lia. split; [lia|congruence].
    - intros [H1 <-]. rewrite cmap_look by lia. split; [done|lia].
  Qed.
  Lemma sum_grp c (f : nat -> Z) : sumf f (grp c) = sumn n (fun v => if decide (group_of a v = c) then f v else 0%Z).
  Proof.
    unfold grp. rewrite sumf_filter. apply sumn_ext. intros v Hv. rewrite cmap_look by done.
    destruct (decide (Some (group_of a v) = Some c)), (decide (group_of a v = c)); congruence.
  Qed.

  (** The calls made for coarse vertex c. *)
  Definition crow (v : nat) : list arc := (fun x => (group_of a (fst x), snd x)) <$> out g v.
  Definition calls (c : nat) : list arc := grp c ≫= crow.
  Lemma calls_total : nsum (fun c => length (calls c)) nc = ne g.
  Proof.
    apply Nat2Z.inj.
    assert (H : forall k f, Z.of_nat (nsum f k) = sumn k (fun c => Z.of_nat (f c))).
    { intros k f. induction k as [|k IH]; [done|]. rewrite sumn_S. simpl. lia. }
    rewrite H.
    rewrite (sumn_ext nc _ (fun c => sumn n (fun v => if decide (group_of a v = c) then Z.of_nat (length (out g v)) else 0%Z))).
    - rewrite <- (regroup n nc (group_of a) (fun _ v => Z.of_nat (length (out g v)))) by apply group_lt.
      pose proof (sum_out_edges g (fun _ => 1%Z) (wf_first g Hwf) (wf_mono g Hwf) n (le_n _)) as E.
      rewrite (wf_last g Hwf), sumf_const, seq_length in E.
      rewrite (sumn_ext n _ (fun u => sumf (fun _ => 1%Z) (out g u))); [lia|]. intros v _. rewrite sumf_const. lia.
    - intros c _. rewrite <- sum_grp. unfold calls.
      assert (E : forall l : list nat, Z.of_nat (length (l ≫= crow)) = sumf (fun v => Z.of_nat (length (out g v))) l).
      { intros l. induction l as [|x l IH]; [done|]. rewrite bind_cons, app_length, sumf_cons.
        unfold crow at 1. rewrite fmap_length. lia. }
      apply E.
  Qed.
  Lemma others_le v l : length (others v l) <= length l.
  Proof.
    unfold others. rewrite <- (fmap_length fst l). transitivity (length (filter (fun u => u <> v) (fst <$> l))).
    - apply submseteq_length. apply NoDup_submseteq; [apply NoDup_remove_dups|]. intros x. rewrite elem_of_remove_dups. done.
    - apply filter_length.
  Qed.
  Lemma needed_le k : needed calls k <= nsum (fun c => length (calls c)) k.
  Proof. unfold needed. induction k as [|k IH]; simpl; [lia|]. pose proof (others_le k (calls k)). lia. Qed.
  Lemma calls_cap k l l' : k < nc -> calls k = l ++ l' -> needed calls k + length (others k l) <= ne g.
  Proof.
    intros Hk E. pose proof (needed_le k). pose proof (others_le k l).
    pose proof (monoto_le nc (nsum (fun c => length (calls c))) (S k) nc (nsum_mono _ nc) ltac:(lia) ltac:(lia)) as Hm.
    rewrite calls_total in Hm. simpl in Hm. rewrite E, app_length in Hm. lia.
  Qed.

  Lemma contract_vertex_wp k vws b s pre v post : k < nc -> grp k = pre ++ v :: post ->
    os_state nc (ne g) k calls (pre ≫= crow) vws b -> s = u32 (sumf (vweight g) pre) ->
    wpo (contract_vertex g a (b, s) v) never (fun st =>
      os_state nc (ne g) k calls ((pre ++ [v]) ≫= crow) vws (fst st) /\ snd st = u32 (sumf (vweight g) (pre ++ [v]))).
  Proof.
    intros Hk E Hb ->. assert (Hv : v < n) by (apply (grp_elem k v); rewrite E; set_solver).
    unfold contract_vertex. rewrite vwt_ok by done. cbn [obind fst snd].
    eapply wpo_bind.
    - apply (for_edges_wp g Hwf v (fun p b => os_state nc (ne g) k calls ((pre ≫= crow) ++ ((fun x => (group_of a (fst x), snd x)) <$> p)) vws b)).
      + done.
      + rewrite app_nil_r. done.
      + intros p e [u w] q b' Eo (He & Hd & Hw & _ & Hu & Hwr) Hb'. simpl in Hd, Hw, Hu, Hwr. rewrite Hd. cbn [obind].
        rewrite (rd_ok _ _ _ (cmap_look u Hu)). cbn [obind]. rewrite Hw. cbn [obind].
        rewrite fmap_app, app_assoc. apply os_state_add; [done|done|by apply group_lt|done|].
        eapply (calls_cap k _ (((fun x => (group_of a (fst x), snd x)) <$> q) ++ (post ≫= crow))); [done|].
        unfold calls. rewrite E, bind_app, bind_cons. rewrite <- !app_assoc. f_equal. unfold crow at 1. rewrite Eo, fmap_app, fmap_cons.
        rewrite <- app_assoc. done.
    - intros b' Hb'. simpl. split.
      + rewrite bind_app, bind_cons. simpl. rewrite app_nil_r. exact Hb'.
      + rewrite sumf_snoc, u32_add_l. done.
  Qed.
  Lemma contract_group_wp k vws b : k < nc -> os_state nc (ne g) k calls [] vws b ->
    wpo (contract_group g a b k) never (os_state nc (ne g) (S k) calls [] (vws ++ [u32 (sumf (vweight g) (grp k))])).
  Proof.
    intros Hk Hb. unfold contract_group. destruct Hg as (_ & _ & HG). rewrite HG by done. cbn [obind]. fold (grp k).
    eapply wpo_bind.
    - apply (ofold_wp (fun pre st => os_state nc (ne g) k calls (pre ≫= crow) vws (fst st) /\ snd st = u32 (sumf (vweight g) pre))).
      + split; [exact Hb|done].
      + intros pre v post [b' s] E [H1 H2]. simpl in H1, H2. eapply contract_vertex_wp; eauto.
    - intros [b' s] [H1 H2]. simpl in H1, H2. cbn [fst snd]. rewrite H2. eapply wpo_post; [apply os_state_finish_vertex; done|].
      intros b''. apply os_state_ext. intros v Hv. unfold upd. destruct (decide (v = k)) as [->|]; done.
  Qed.
  Definition cweights : list Z := (fun c => u32 (sumf (vweight g) (grp c))) <$> seq 0 nc.
  Lemma contract_wp : wpo (contract g a) never (built nc calls cweights).
  Proof.
    unfold contract. eapply wpo_bind; [apply os_state_start|]. intros b0 Hb0. eapply wpo_bind.
    - apply (ofold_seq_wp (fun k b => os_state nc (ne g) k calls [] ((fun c => u32 (sumf (vweight g) (grp c))) <$> seq 0 k) b)).
      + exact Hb0.
      + intros k b Hk Hb. rewrite seq_S, fmap_app. apply contract_group_wp; done.
    - intros b Hb. apply os_state_finish with (maxE := ne g); [exact Hb|]. intros v w Hv Hw. unfold cweights in Hw.
      rewrite list_lookup_fmap in Hw. destruct (seq 0 nc !! v); [|done]. injection Hw as <-. apply u32_range.
  Qed.

  (** ** Meaning of the coarse graph *)
  (** Weight of the fine edges from group c to group d. *)
  Definition GW (c d : nat) : Z :=
    sumn n (fun u => if decide (group_of a u = c) then sumf (fun x => if decide (group_of a (fst x) = d) then snd x else 0%Z) (out g u) else 0%Z).
  Lemma added_calls c d : added (calls c) d = GW c d.
  Proof.
    unfold added, calls. rewrite sumf_concat, sum_grp. unfold GW. apply sumn_ext. intros u Hu.
    destruct (decide (group_of a u = c)); [|done]. unfold crow. rewrite sumf_map. done.
  Qed.
  Lemma GW_W c d : GW c d = sumn n (fun u => if decide (group_of a u = c) then sumn n (fun v => if decide (group_of a v = d) then W g u v else 0%Z) else 0%Z).
  Proof.
    unfold GW. apply sumn_ext. intros u Hu. destruct (decide (group_of a u = c)); [|done].
    pose proof (sum_out g Hwf (fun v => if decide (group_of a v = d) then 1 else 0)%Z u Hu) as E.
    rewrite (sumf_ext (fun x => if decide (group_of a (fst x) = d) then snd x else 0%Z)
       (fun x => (if decide (group_of a (fst x) = d) then 1 else 0) * snd x)%Z) by (intros x _; destruct (decide (group_of a (fst x) = d)); lia).
    rewrite E. apply sumn_ext. intros v Hv. destruct (decide (group_of a v = d)); lia.
  Qed.
  Lemma GW_sym c d : symmetric g -> GW c d = GW d c.
  Proof.
    intros Hs. rewrite !GW_W.
    transitivity (sumn n (fun u => sumn n (fun v => if decide (group_of a u = c) then if decide (group_of a v = d) then W g u v else 0 else 0)))%Z.
    - apply sumn_ext. intros u Hu. destruct (decide (group_of a u = c)); [done|]. symmetry. apply sumf_zero. done.
    - rewrite sumf_exch. apply sumn_ext. intros v Hv. destruct (decide (group_of a v = d)).
      + apply sumn_ext. intros u Hu. destruct (decide (group_of a u = c)); [apply Hs; done|done].
      + apply sumf_zero. intros u _. destruct (decide (group_of a u = c)); done.
  Qed.
  Lemma GW_nonneg c d : (0 <= GW c d)%Z.
  Proof.
    rewrite GW_W. apply sumn_nonneg. intros u Hu. destruct (decide (group_of a u = c)); [|lia].
    apply sumn_nonneg. intros v Hv. destruct (decide (group_of a v = d)); [|lia]. by apply W_nonneg.
  Qed.
  Lemma sum_GW (φ : nat -> nat -> Z) :
    sumn nc (fun c => sumn nc (fun d => φ c d * GW c d)%Z) = sumn n (fun u => sumn n (fun v => φ (group_of a u) (group_of a v) * W g u v)%Z).
  Proof.
    rewrite (regroup n nc (group_of a) (fun c u => sumn n (fun v => φ c (group_of a v) * W g u v)%Z)) by apply group_lt.
    apply sumn_ext. intros c Hc.
    transitivity (sumn nc (fun d => sumn n (fun u => if decide (group_of a u = c) then sumn n (fun v => if decide (group_of a v = d) then φ c d * W g u v else 0) else 0))%Z).
    - apply sumn_ext. intros d Hd. rewrite GW_W, <- sumf_scal. apply sumn_ext. intros u Hu.
      destruct (decide (group_of a u = c)); [|lia]. rewrite <- sumf_scal. apply sumn_ext. intros v Hv.
      destruct (decide (group_of a v = d)); lia.
    - rewrite sumf_exch. apply sumn_ext. intros u Hu. destruct (decide (group_of a u = c)); [|apply sumf_zero; done].
      rewrite <- (regroup n nc (group_of a) (fun d v => φ c d * W g u v)%Z) by apply group_lt. done.
  Qed.
  Lemma total_W : total_edge_weight g = sumn n (fun u => sumn n (W g u)).
  Proof. apply sumn_ext. intros u Hu. by apply out_total. Qed.
  Lemma GW_le_total c d : c < nc -> d < nc -> (GW c d <= total_edge_weight g)%Z.
  Proof.
    intros Hc Hd. rewrite total_W. pose proof (sum_GW (fun _ _ => 1%Z)) as E.
    rewrite (sumn_ext n (fun u => sumn n (W g u)) (fun u => sumn n (fun v => 1 * W g u v)%Z)) by (intros; apply sumn_ext; intros; lia).
    rewrite <- E. transitivity (sumn nc (fun d => 1 * GW c d)%Z).
    - pose proof (sumn_elem_le nc (fun d => 1 * GW c d)%Z d) as H. cbv beta in H. rewrite Z.mul_1_l in H.
      apply H; [|done]. intros v _. pose proof (GW_nonneg c v). lia.
    - apply (sumn_elem_le nc (fun c => sumn nc (fun d => 1 * GW c d)%Z) c); [|done]. intros v _.
      apply sumn_nonneg. intros w _. pose proof (GW_nonneg v w). lia.
  Qed.
End Contract.

Lemma GW_between g a c d : wf_graph g -> grouping (nv g) a -> GW g a c d = between g (group_of a) c d.
Proof.
  intros Hwf Hg. rewrite GW_W by done. unfold between. apply sumn_ext. intros u Hu.
  destruct (decide (group_of a u = c)) as [E|E].
  - apply sumn_ext. intros v Hv. destruct (decide (group_of a v = d)), (decide (group_of a u = c /\ group_of a v = d)); tauto.
  - symmetry. apply sumf_zero. intros v _. destruct (decide (group_of a u = c /\ group_of a v = d)); tauto.
Qed.

(** ** The contracted graph *)
Record coarse_of (g : graph) (a : aggregation) (cg : graph) : Prop := {
  co_wf : wf_graph cg;
  co_nv : nv cg = a_num_coarse a;
  co_loopless : loopless cg;
  co_nodup : forall c, c < nv cg -> NoDup (fst <$> out cg c);
  co_W : forall c d, c < nv cg -> W cg c d = if decide (d = c) then 0%Z else u32 (between g (group_of a) c d);
  co_edge : forall c d, c < nv cg -> (d ∈ fst <$> out cg c <->
     d <> c /\ exists u v x, u < nv g /\ group_of a u = c /\ (v, x) ∈ out g u /\ group_of a v = d);
  co_vw : forall c, c < nv cg -> vweight cg c = u32 (label_weight g (group_of a) c);
  co_uvw : g_uvw cg = false;
  co_uew : g_uew cg = false;
  co_tew : g_tew cg = u32 (2 * edge_cut g (group_of a)) \/ ~ symmetric g
}.
Lemma fst_calls g a c d : wf_graph g -> grouping (nv g) a -> d ∈ fst <$> calls g a c <->
  exists u v x, u < nv g /\ group_of a u = c /\ (v, x) ∈ out g u /\ group_of a v = d.
Proof.
  intros Hwf Hg. unfold calls. rewrite elem_of_list_fmap. split.
  - intros ([d' x] & -> & H). apply elem_of_list_bind in H as (u & H & Hu). apply grp_elem in Hu as [Hu Hc]; [|done].
    unfold crow in H. apply elem_of_list_fmap in H as ([v y] & [= -> ->] & H). exists u, v, y. done.
  - intros (u & v & x & Hu & Hc & Ho & Hd). exists (d, x). split; [done|]. apply elem_of_list_bind. exists u.
    split; [|apply grp_elem; done]. unfold crow. apply elem_of_list_fmap. exists (v, x). subst. done.
Qed.
Lemma edge_cut_groups g a : wf_graph g -> grouping (nv g) a -> symmetric g ->
  sumn (a_num_coarse a) (fun c => sumn (a_num_coarse a) (fun d => if decide (d = c) then 0%Z else GW g a c d))
  = (2 * edge_cut g (group_of a))%Z.
Proof.
  intros Hwf Hg Hs. rewrite <- (edge_cut_double g Hwf (group_of a) Hs).
  pose proof (sum_GW g Hwf a Hg (fun c d => if decide (d = c) then 0 else 1)%Z) as E.
  transitivity (sumn (a_num_coarse a) (fun c => sumn (a_num_coarse a) (fun d => (if decide (d = c) then 0 else 1) * GW g a c d)%Z)).
  { apply sumn_ext. intros c _. apply sumn_ext. intros d _. destruct (decide (d = c)); lia. }
  rewrite E. apply sumn_ext. intros u Hu. rewrite external_diff by done. apply sumn_ext. intros v Hv. unfold diffW.
  destruct (decide (group_of a v = group_of a u)), (decide (group_of a u = group_of a v)); try congruence; lia.
Qed.
Lemma contract_ok g a : wf_graph g -> grouping (nv g) a -> exists cg, contract g a = Ok cg /\ coarse_of g a cg.
Proof.
  intros Hwf Hg. pose proof (contract_wp g Hwf a Hg) as H. apply wpo_never in H. destruct H as (cg & E & B).
  exists cg. split; [done|]. pose proof (bu_nv _ _ _ _ B) as Hnv.
  assert (HW : forall c d, c < nv cg -> W cg c d = if decide (d = c) then 0%Z else u32 (GW g a c d)).
  { intros c d Hc. rewrite (built_W _ _ _ _ _ _ B) by lia. rewrite added_calls by done. done. }
  constructor.
  - apply B.
  - done.
  - intros u v w Hu Ho ->. pose proof (bu_row _ _ _ _ B u ltac:(lia)) as R.
    assert (Hin : u ∈ fst <$> out cg u) by (apply elem_of_list_fmap; exists (u, w); done).
    apply (rf_in _ _ _ R) in Hin. tauto.
  - intros c Hc. apply (rf_nodup _ _ _ (bu_row _ _ _ _ B c ltac:(lia))).
  - intros c d Hc. rewrite HW by done. rewrite GW_between by done. done.
  - intros c d Hc. rewrite (rf_in _ _ _ (bu_row _ _ _ _ B c ltac:(lia))). rewrite fst_calls by done. done.
  - intros c Hc. pose proof (bu_vw _ _ _ _ B c ltac:(lia)) as Hv. unfold cweights in Hv.
    rewrite list_lookup_fmap, lookup_seq_lt in Hv by lia. injection Hv as <-. rewrite sum_grp by done. done.
  - apply B.
  - apply B.
  - destruct (decide (Forall (fun u => Forall (fun v => W g u v = W g v u) (seq 0 (nv g))) (seq 0 (nv g)))) as [Hd|Hd].
    + left. assert (Hs : symmetric g).
      { intros u v Hu Hv. rewrite Forall_forall in Hd. specialize (Hd u ltac:(apply elem_of_seq; lia)).
        rewrite Forall_forall in Hd. apply Hd. apply elem_of_seq; lia. }
      rewrite (wf_tew _ (bu_wf _ _ _ _ B)). rewrite Hnv, <- (edge_cut_groups g a Hwf Hg Hs).
      assert (Hm : forall k, k <= a_num_coarse a -> u32 (sumn k (fun u => sumf snd (out cg u))) =
         u32 (sumn k (fun c => sumn (a_num_coarse a) (fun d => if decide (d = c) then 0%Z else GW g a c d)))).
      { induction k as [|k IH]; intros Hk; [done|]. rewrite !sumn_S. rewrite <- u32_add_l, <- (u32_add_l (sumn k _)), IH by lia.
        rewrite <- u32_add_r. symmetry. rewrite <- u32_add_r. symmetry. f_equal. f_equal.
        rewrite out_total by (apply B || lia). rewrite Hnv.
        assert (Hmm : forall m, m <= a_num_coarse a -> u32 (sumn m (W cg k)) = u32 (sumn m (fun d => if decide (d = k) then 0%Z else GW g a k d))).
        { induction m as [|m IHm]; intros Hm; [done|]. rewrite !sumn_S. rewrite <- u32_add_l, <- (u32_add_l (sumn m _)), IHm by lia.
          rewrite HW by lia. destruct (decide (m = k)); [done|]. rewrite u32_add_r. done. }
        apply Hmm. done. }
      apply Hm. done.
    + right. intros Hs. apply Hd. apply Forall_forall. intros u Hu. apply Forall_forall. intros v Hv.
      apply elem_of_seq in Hu, Hv. apply Hs; lia.
Qed.

Section CoarseFacts.
  Context (g : graph) (Hwf : wf_graph g) (a : aggregation) (Hg : grouping (nv g) a) (cg : graph) (Hc : coarse_of g a cg).
  Local Notation n := (nv g).
  Local Notation nc := (nv cg).
  Lemma coarse_symmetric : symmetric g -> symmetric cg.
  Proof.
    intros Hs c d Hcc Hd. rewrite !(co_W _ _ _ Hc) by done. rewrite <- !GW_between by done. rewrite (GW_sym g Hwf a c d) by done.
    destruct (decide (d = c)), (decide (c = d)); congruence.
  Qed.
  Lemma coarse_W_fits c d : fits g -> c < nc -> d < nc -> d <> c -> W cg c d = between g (group_of a) c d.
  Proof.
    intros Hf Hcc Hd Hne. rewrite (co_W _ _ _ Hc), decide_False by done. apply u32_small.
    rewrite <- GW_between by done. pose proof (GW_nonneg g Hwf a c d).
    pose proof (GW_le_total g Hwf a Hg c d). rewrite <- (co_nv _ _ _ Hc) in *. unfold fits in Hf. lia.
  Qed.
  (** any sum over pairs of different coarse vertices is a sum over pairs of fine vertices *)
  Lemma coarse_double (φ : nat -> nat -> Z) : fits g -> (forall c, φ c c = 0%Z) ->
    sumn nc (fun c => sumn nc (fun d => φ c d * W cg c d)%Z) = sumn n (fun u => sumn n (fun v => φ (group_of a u) (group_of a v) * W g u v)%Z).
  Proof.
    intros Hf Hφ. rewrite <- (sum_GW g Hwf a Hg φ). rewrite (co_nv _ _ _ Hc).
    apply sumn_ext. intros c Hcc. apply sumn_ext. intros d Hd. destruct (decide (d = c)) as [->|Hne]; [rewrite Hφ; lia|].
    rewrite coarse_W_fits by (rewrite ?(co_nv _ _ _ Hc); done). rewrite GW_between by done. done.
  Qed.
  Lemma coarse_cut {L} `{EqDecision L} (f : nat -> L) : fits g -> symmetric g ->
    edge_cut cg f = edge_cut g (fun v => f (group_of a v)).
  Proof.
    intros Hf Hs. pose proof (edge_cut_double g Hwf (fun v => f (group_of a v)) Hs) as E1.
    pose proof (edge_cut_double cg (co_wf _ _ _ Hc) f (coarse_symmetric Hs)) as E2.
    assert (E : sumn nc (external cg f) = sumn n (external g (fun v => f (group_of a v)))); [|lia].
    pose proof (coarse_double (fun c d => if decide (f c = f d) then 0 else 1)%Z Hf ltac:(intros c; cbv beta; destruct (decide (f c = f c)); done)) as E3.
    transitivity (sumn nc (fun c => sumn nc (fun d => (if decide (f c = f d) then 0 else 1) * W cg c d)%Z)).
    - apply sumn_ext. intros c Hcc. rewrite external_diff by (apply Hc || done). apply sumn_ext. intros d Hd. unfold diffW.
      destruct (decide (f c = f d)); lia.
    - rewrite E3. apply sumn_ext. intros u Hu. rewrite external_diff by done. apply sumn_ext. intros v Hv. unfold diffW.
      destruct (decide (f (group_of a u) = f (group_of a v))); lia.
  Qed.
  Lemma coarse_total : fits g -> symmetric g -> total_edge_weight cg = (2 * edge_cut g (group_of a))%Z.
  Proof.
    intros Hf Hs. rewrite (total_W cg (co_wf _ _ _ Hc)).
    rewrite <- (edge_cut_groups g a Hwf Hg Hs), (co_nv _ _ _ Hc).
    apply sumn_ext. intros c Hcc. apply sumn_ext. intros d Hd.
    destruct (decide (d = c)) as [->|].
    - rewrite (co_W _ _ _ Hc), decide_True by (rewrite ?(co_nv _ _ _ Hc); done). done.
    - rewrite coarse_W_fits by (rewrite ?(co_nv _ _ _ Hc); done). rewrite GW_between by done. done.
  Qed.
  Lemma coarse_fits : fits g -> symmetric g -> fits cg.
  Proof.
    intros Hf Hs. unfold fits. rewrite coarse_total by done. pose proof (edge_cut_le_total g Hwf (group_of a) Hs).
    unfold fits in Hf. lia.
  Qed.
  Lemma sum_u32_ext k (f h : nat -> Z) : (forall i, i < k -> u32 (f i) = u32 (h i)) -> u32 (sumn k f) = u32 (sumn k h).
  Proof.
    induction k as [|k IH]; intros H; [done|]. rewrite !sumn_S. rewrite <- u32_add_l, IH by (intros; apply H; lia).
    rewrite u32_add_l, <- u32_add_r, H by lia. rewrite u32_add_r. done.
  Qed.
  Lemma coarse_label_weight {L} `{EqDecision L} (f : nat -> L) p :
    u32 (label_weight cg f p) = u32 (label_weight g (fun v => f (group_of a v)) p).
  Proof.
    transitivity (u32 (sumn nc (fun c => sumn n (fun v => if decide (group_of a v = c) then (if decide (f c = p) then vweight g v else 0) else 0)%Z))).
    - apply sum_u32_ext. intros c Hcc. destruct (decide (f c = p)) as [E|E].
      + rewrite (co_vw _ _ _ Hc) by done. rewrite u32_idemp. unfold label_weight. done.
      + symmetry. f_equal. apply sumf_zero. intros v _. destruct (decide (group_of a v = c)); done.
    - f_equal. rewrite (co_nv _ _ _ Hc).
      rewrite <- (regroup n (a_num_coarse a) (group_of a) (fun c v => if decide (f c = p) then vweight g v else 0%Z)) by (intros; by apply (group_lt g)).
      done.
  Qed.
  Lemma coarse_tvw : g_tvw cg = g_tvw g.
  Proof.
    rewrite (wf_tvw _ (co_wf _ _ _ Hc)), (wf_tvw _ Hwf).
    pose proof (coarse_label_weight (fun _ => 0) 0) as E. unfold label_weight in E.
    rewrite (sumn_ext nc (fun v => if decide (0 = 0) then vweight cg v else 0%Z) (vweight cg)) in E by (intros; rewrite decide_True; done).
    rewrite (sumn_ext n (fun v => if decide (0 = 0) then vweight g v else 0%Z) (vweight g)) in E by (intros; rewrite decide_True; done).
    exact E.
  Qed.
  (** each vertex's own group is at least as heavy, so part weights that fit stay exact *)
  Lemma coarse_vsum : (sumn n (vweight g) < W32)%Z -> sumn nc (vweight cg) = sumn n (vweight g).
  Proof.
    intros Hf. transitivity (sumn nc (fun c => label_weight g (group_of a) c)).
    - apply sumn_ext. intros c Hcc. rewrite (co_vw _ _ _ Hc) by done. apply u32_small.
      unfold label_weight. split.
      + apply sumn_nonneg. intros v _. pose proof (wf_vw_range g Hwf v). destruct (decide (group_of a v = c)); lia.
      + apply Z.le_lt_trans with (sumn n (vweight g)); [|done]. apply sumn_le. intros v _.
        pose proof (wf_vw_range g Hwf v). destruct (decide (group_of a v = c)); lia.
    - rewrite (co_nv _ _ _ Hc). unfold label_weight.
      rewrite <- (regroup n (a_num_coarse a) (group_of a) (fun c v => vweight g v)) by (intros; by apply (group_lt g)). done.
  Qed.
End CoarseFacts.
