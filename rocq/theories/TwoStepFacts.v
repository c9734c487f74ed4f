(** * TwoStepFacts: TwoStepGraphBuilder (C40). *)
From Verif Require Import Base ModelGraph ModelBuilders Spec Logic Sums GraphFacts ConnFacts BucketFacts BuilderFacts.

(** ** Histories of calls *)
(** Vertex phase: announce, increment, set a vertex weight. *)
Inductive vcall := SetNum (v k : nat) | IncNum (v : nat) | SetWgt (v : nat) (w : Z).
Definition run_vcall (b : tsb) (c : vcall) : outcome tsb :=
  match c with
  | SetNum v k => ts_set_num_edges b v k
  | IncNum v => ts_inc_num_edges b v
  | SetWgt v w => ts_set_vertex_weight b v w
  end.
(** Edge phase: addEdge(v, destination, weight). *)
Definition run_ecall (b : tsb) (c : nat * arc) : outcome tsb := ts_add_edge b (fst c) (fst (snd c)) (snd (snd c)).
Definition run_two_step (n : nat) (unitVW unitEW : bool) (vs : list vcall) (es : list (nat * arc)) : outcome graph :=
  let! b := ofold run_vcall (ts_begin_vertex n unitVW unitEW) vs in
  let! b := ts_begin_edge b in
  let! b := ofold run_ecall b es in
  ts_finish b.

(** What the history says. *)
Definition announced_step (f : nat -> nat) (c : vcall) : nat -> nat :=
  match c with SetNum v k => upd f v k | IncNum v => upd f v (S (f v)) | SetWgt _ _ => f end.
Definition announced (vs : list vcall) : nat -> nat := fold_left announced_step vs (fun _ => 0).
Definition weight_step (f : nat -> option Z) (c : vcall) : nat -> option Z :=
  match c with SetWgt v w => upd f v (Some w) | _ => f end.
Definition set_weight (vs : list vcall) : nat -> option Z := fold_left weight_step vs (fun _ => None).
Definition inserted (es : list (nat * arc)) (v : nat) : list arc := snd <$> filter (fun c => fst c = v) es.
Definition vcall_ok (n : nat) (unitVW : bool) (c : vcall) : Prop :=
  match c with SetNum v _ | IncNum v => v < n | SetWgt v w => v < n /\ unitVW = false /\ (0 <= w < W32)%Z end.

Lemma announced_snoc vs c : announced (vs ++ [c]) = announced_step (announced vs) c.
Proof. unfold announced. rewrite fold_left_app. done. Qed.
Lemma set_weight_snoc vs c : set_weight (vs ++ [c]) = weight_step (set_weight vs) c.
Proof. unfold set_weight. rewrite fold_left_app. done. Qed.
Lemma inserted_snoc es c v : inserted (es ++ [c]) v = inserted es v ++ (if decide (fst c = v) then [snd c] else []).
Proof.
  unfold inserted. rewrite filter_app, fmap_app. f_equal. rewrite filter_cons. destruct (decide (fst c = v)); done.
Qed.

Section TwoStep.
  Context (n : nat) (uvw uew : bool).

  Lemma vertex_phase vs : Forall (vcall_ok n uvw) vs ->
    exists b, ofold run_vcall (ts_begin_vertex n uvw uew) vs = Ok b /\ ts_nv b = n /\ ts_uvw b = uvw /\ ts_uew b = uew /\
      ts_ew b = [] /\ length (ts_prefix b) = S n /\ (forall v, v < n -> ts_prefix b !! v = Some (announced vs v)) /\
      length (ts_vw b) = (if uvw then 0 else n) /\ (uvw = false -> forall v, v < n -> ts_vw b !! v = Some (set_weight vs v)).
  Proof.
    intros Hok.
    assert (H : wpo (ofold run_vcall (ts_begin_vertex n uvw uew) vs) never (fun b =>
      ts_nv b = n /\ ts_uvw b = uvw /\ ts_uew b = uew /\
      ts_ew b = [] /\ length (ts_prefix b) = S n /\ (forall v, v < n -> ts_prefix b !! v = Some (announced vs v)) /\
      length (ts_vw b) = (if uvw then 0 else n) /\ (uvw = false -> forall v, v < n -> ts_vw b !! v = Some (set_weight vs v)))).
    { apply (ofold_wp (fun vs b => ts_nv b = n /\ ts_uvw b = uvw /\ ts_uew b = uew /\
      ts_ew b = [] /\ length (ts_prefix b) = S n /\ (forall v, v < n -> ts_prefix b !! v = Some (announced vs v)) /\
      length (ts_vw b) = (if uvw then 0 else n) /\ (uvw = false -> forall v, v < n -> ts_vw b !! v = Some (set_weight vs v)))).
      - unfold ts_begin_vertex. cbn [ts_nv ts_uvw ts_uew ts_ew ts_prefix ts_vw]. split_and!; try done.
        + apply replicate_length.
        + intros v Hv. apply lookup_replicate. split; [done|lia].
        + destruct uvw; [done|]. apply replicate_length.
        + intros -> v Hv. apply lookup_replicate. done.
      - intros pre c post b E (H1 & H2 & H3 & H4 & H5 & H6 & H7 & H8).
        rewrite E in Hok. apply Forall_app in Hok as [_ Hok]. apply Forall_cons in Hok as [Hc _].
        rewrite announced_snoc, set_weight_snoc. destruct c as [v k|v|v w]; simpl in Hc |- *.
        + unfold ts_set_num_edges. rewrite wr_ok by lia. simpl. split_and!; try done.
          * rewrite insert_length. done.
          * intros u Hu. unfold upd. destruct (decide (u = v)) as [->|]; [apply list_lookup_insert; lia|].
            rewrite list_lookup_insert_ne by done. auto.
        + unfold ts_inc_num_edges. rewrite (rd_ok _ _ _ (H6 v Hc)). simpl. rewrite wr_ok by lia. simpl. split_and!; try done.
          * rewrite insert_length. done.
          * intros u Hu. unfold upd. destruct (decide (u = v)) as [->|]; [apply list_lookup_insert; lia|].
            rewrite list_lookup_insert_ne by done. auto.
        + destruct Hc as (Hv & -> & Hw). unfold ts_set_vertex_weight. rewrite wri_ok by lia. simpl. split_and!; try done.
          * rewrite insert_length. done.
          * intros _ u Hu. unfold upd. destruct (decide (u = v)) as [->|]; [apply list_lookup_insert; lia|].
            rewrite list_lookup_insert_ne by done. auto. }
    apply wpo_never in H. destruct H as (b & E & H). exists b. done.
  Qed.

  Lemma ts_shift_ok m : forall p, m < length p -> exists p', ts_shift m p = Ok p' /\ length p' = length p /\
    (forall i, i < m -> p' !! S i = p !! i) /\ (forall i, i = 0 \/ m < i -> p' !! i = p !! i).
  Proof.
    induction m as [|m IH]; intros p Hp.
    - exists p. split; [done|]. split; [done|]. split; [lia|done].
    - unfold ts_shift. rewrite seq_S, rev_app_distr. simpl. rewrite Nat.sub_0_r.
      destruct (lookup_lt_is_Some_2 p m ltac:(lia)) as [x Hx]. rewrite (rd_ok _ _ _ Hx). simpl. rewrite wr_ok by lia. simpl.
      destruct (IH (<[S m := x]> p)) as (p' & E & HL & HS & HO); [rewrite insert_length; lia|].
      unfold ts_shift in E. exists p'. split; [exact E|]. split; [rewrite HL, insert_length; done|]. split.
      + intros i Hi. destruct (decide (i = m)) as [->|].
        * rewrite HO by lia. rewrite list_lookup_insert by lia. done.
        * rewrite HS by lia. rewrite list_lookup_insert_ne by lia. done.
      + intros i Hi. rewrite HO by lia. rewrite list_lookup_insert_ne by lia. done.
  Qed.

  Context (cnt : nat -> nat).
  Local Notation st := (nsum cnt).
  Lemma begin_edge_ok b : ts_nv b = n -> length (ts_prefix b) = S n -> (forall v, v < n -> ts_prefix b !! v = Some (cnt v)) ->
    exists p, ts_begin_edge b = Ok (mkTsb n (st n) (ts_uvw b) (ts_uew b) p (alloc (st n)) (ts_vw b) (if ts_uew b then ts_ew b else alloc (st n)))
      /\ length p = S n /\ p !! 0 = Some 0 /\ forall v, v < n -> p !! S v = Some (st v).
  Proof.
    intros Hn HL HC. unfold ts_begin_edge. rewrite Hn.
    assert (HP : forall v, v <= n -> prefix_sum_exclusive (ts_prefix b) !! v = Some (st v)).
    { intros v Hv. rewrite prefix_sum_lookup by lia. f_equal. apply nsum_ext. intros i Hi. apply nth_lt_eq. apply HC. lia. }
    rewrite (rd_ok _ _ _ (HP n (le_n _))). simpl.
    destruct (ts_shift_ok n (prefix_sum_exclusive (ts_prefix b))) as (p & E & HpL & HpS & HpO); [rewrite prefix_sum_length; lia|].
    rewrite E. simpl. exists p. split; [done|]. split; [rewrite HpL, prefix_sum_length; done|]. split.
    - rewrite HpO by lia. apply (HP 0). lia.
    - intros v Hv. rewrite HpS by done. apply HP. lia.
  Qed.

  (** Edge phase *)
  Record ts_rep (es : list (nat * arc)) (b : tsb) : Prop := {
    tr_plen : length (ts_prefix b) = S n;
    tr_p0 : ts_prefix b !! 0 = Some 0;
    tr_cur : forall v, v < n -> ts_prefix b !! S v = Some (st v + length (inserted es v));
    tr_adj : buckets n (st n) st (fun v => fst <$> inserted es v) (ts_adj b);
    tr_ew : if ts_uew b then ts_ew b = [] else buckets n (st n) st (fun v => snd <$> inserted es v) (ts_ew b)
  }.
  Lemma add_edge_ok es b v d w : ts_rep es b -> v < n -> length (inserted es v) < cnt v ->
    exists b', ts_add_edge b v d w = Ok b' /\ ts_rep (es ++ [(v, (d, w))]) b' /\ ts_vw b' = ts_vw b /\ ts_uew b' = ts_uew b.
  Proof.
    intros [R1 R2 R3 R4 R5] Hv Hroom. unfold ts_add_edge. rewrite (rd_ok _ _ _ (R3 v Hv)). cbn [obind].
    rewrite wr_ok by lia. cbn [obind].
    destruct (buckets_wri n (st n) st (nsum_mono _ n) (le_n _) _ _ v d R4 Hv) as (adj' & Ea & Ba).
    { rewrite fmap_length. simpl. lia. }
    rewrite fmap_length in Ea. rewrite Ea. cbn [obind].
    assert (Hext : forall A (f : arc -> A) u, upd (fun v => f <$> inserted es v) v ((f <$> inserted es v) ++ [f (d, w)]) u = f <$> inserted (es ++ [(v, (d, w))]) u).
    { intros A f u. rewrite inserted_snoc. simpl. unfold upd. destruct (decide (u = v)) as [->|].
      - rewrite decide_True by done. rewrite fmap_app. done.
      - rewrite decide_False by done. rewrite app_nil_r. done. }
    assert (Hrep : forall ew', (if ts_uew b then ew' = [] else buckets n (st n) st (fun u => snd <$> inserted (es ++ [(v, (d, w))]) u) ew') ->
       ts_rep (es ++ [(v, (d, w))]) (mkTsb (ts_nv b) (ts_ne b) (ts_uvw b) (ts_uew b)
         (<[S v := S (st v + length (inserted es v))]> (ts_prefix b)) adj' (ts_vw b) ew')).
    { intros ew' Hew'. constructor; cbn [ts_prefix ts_adj ts_ew ts_uew].
      - rewrite insert_length. done.
      - rewrite list_lookup_insert_ne by lia. done.
      - intros u Hu. rewrite inserted_snoc. simpl. destruct (decide (u = v)) as [->|].
        + rewrite list_lookup_insert by lia. rewrite decide_True by done. rewrite app_length. simpl. f_equal. lia.
        + rewrite list_lookup_insert_ne by lia. rewrite decide_False by done. rewrite app_nil_r. auto.
      - eapply buckets_ext; [|exact Ba]. intros u _. apply (Hext nat fst).
      - exact Hew'. }
    destruct (ts_uew b) eqn:Eu.
    - cbn [obind]. eexists. split; [done|]. split; [|done]. apply Hrep. rewrite R5. done.
    - destruct (buckets_wri n (st n) st (nsum_mono _ n) (le_n _) _ _ v w R5 Hv) as (ew' & Ee & Be).
      { rewrite fmap_length. simpl. lia. }
      rewrite fmap_length in Ee. rewrite Ee. cbn [obind]. eexists. split; [done|]. split; [|done]. apply Hrep.
      eapply buckets_ext; [|exact Be]. intros u _. apply (Hext Z snd).
  Qed.
  Lemma edge_phase b es : ts_rep [] b -> Forall (fun c => fst c < n) es -> (forall v, v < n -> length (inserted es v) = cnt v) ->
    exists b', ofold run_ecall b es = Ok b' /\ ts_rep es b' /\ ts_vw b' = ts_vw b /\ ts_uew b' = ts_uew b.
  Proof.
    intros HR HF Hcnt.
    assert (H : wpo (ofold run_ecall b es) never (fun b' => ts_rep es b' /\ ts_vw b' = ts_vw b /\ ts_uew b' = ts_uew b)).
    { apply (ofold_wp (fun pre b' => ts_rep pre b' /\ ts_vw b' = ts_vw b /\ ts_uew b' = ts_uew b)); [done|].
      intros pre [v [d w]] post b' E (H1 & H2 & H3). unfold run_ecall. simpl.
      assert (Hv : v < n). { rewrite Forall_forall in HF. apply (HF (v, (d, w))). rewrite E. set_solver. }
      destruct (add_edge_ok pre b' v d w H1 Hv) as (b'' & E'' & R'' & V'' & U'').
      { rewrite <- Hcnt by done. rewrite E. replace (pre ++ (v, (d, w)) :: post) with ((pre ++ [(v, (d, w))]) ++ post) by (rewrite <- app_assoc; done).
        unfold inserted. rewrite !filter_app, !fmap_app, !app_length. rewrite filter_cons_True by done. simpl. lia. }
      rewrite E''. simpl. split; [done|]. split; congruence. }
    apply wpo_never in H. destruct H as (b' & E & H). exists b'. done.
  Qed.
End TwoStep.

Definition two_step_rows (uew : bool) (es : list (nat * arc)) (v : nat) : list arc :=
  (fun a => (fst a, if uew then 1%Z else snd a)) <$> inserted es v.

Lemma two_step_ok n uvw uew vs es :
  Forall (vcall_ok n uvw) vs ->
  (uvw = false -> forall v, v < n -> is_Some (set_weight vs v)) ->
  Forall (fun c => fst c < n /\ fst (snd c) < n /\ (0 <= snd (snd c) < W32)%Z) es ->
  (forall v, v < n -> length (inserted es v) = announced vs v) ->
  exists g, run_two_step n uvw uew vs es = Ok g /\ wf_graph g /\ nv g = n /\
    (forall v, v < n -> out g v = two_step_rows uew es v) /\
    (forall v, v < n -> vweight g v = if uvw then 1%Z else default 0%Z (set_weight vs v)).
Proof.
  intros Hvs Hws Hes Hcnt. unfold run_two_step.
  destruct (vertex_phase n uvw uew vs Hvs) as (b & E & B1 & B2 & B3 & B4 & B5 & B6 & B7 & B8). rewrite E. cbn [obind].
  set (cnt := announced vs) in *.
  destruct (begin_edge_ok n cnt b B1 B5 B6) as (p & Ep & P1 & P2 & P3). rewrite Ep, B2, B3, B4. cbn [obind].
  set (b1 := mkTsb _ _ _ _ _ _ _ _).
  assert (R0 : ts_rep n cnt [] b1).
  { constructor; unfold b1; cbn [ts_prefix ts_adj ts_ew ts_uew]; try done.
    - intros v Hv. rewrite P3 by done. f_equal. unfold inserted. simpl. lia.
    - apply buckets_empty; [apply nsum_mono|..]; try lia.
    - destruct uew; [done|]. apply buckets_empty; [apply nsum_mono|..]; try lia. }
  destruct (edge_phase n cnt b1 es R0) as (b2 & E2 & R2 & V2 & U2).
  { eapply Forall_impl; [exact Hes|]. intros c H. apply H. }
  { exact Hcnt. }
  rewrite E2. cbn [obind]. destruct R2 as [T1 T2 T3 T4 T5]. unfold ts_finish.
  assert (Hlen : forall A (f : arc -> A) v, v < n -> nsum cnt v + length (f <$> inserted es v) = nsum cnt (S v)).
  { intros A f v Hv. rewrite fmap_length, Hcnt by done. done. }
  destruct (buckets_full n (nsum cnt n) (nsum cnt) (nsum_mono _ n) (le_n _) _ _ eq_refl eq_refl T4 (Hlen nat fst))
    as (adj & Ea & La & _ & Ia). rewrite Ea. cbn [obind].
  assert (Hvw : exists vw, frozen (ts_vw b2) = Ok vw /\ weights_ok n vw /\
     forall v, v < n -> wgt_at vw v = if uvw then 1%Z else default 0%Z (set_weight vs v)).
  { rewrite V2. unfold b1. cbn [ts_vw]. destruct uvw.
    - destruct (ts_vw b); [|simpl in B7; lia]. exists []. split; [done|]. split; [split; [by left|constructor]|]. done.
    - rewrite (frozen_ok _ (fun v => default 0%Z (set_weight vs v))).
      + eexists. split; [done|]. rewrite B7. split.
        * split; [right; rewrite fmap_length, seq_length; done|]. apply Forall_fmap. apply Forall_forall. intros v Hv. simpl.
          destruct (set_weight vs v) as [w|] eqn:Ew; simpl; [|unfold W32; lia].
          assert (G : forall vs, Forall (vcall_ok n false) vs -> forall w, set_weight vs v = Some w -> (0 <= w < W32)%Z).
          { clear. intros vs. induction vs as [|c vs IH] using rev_ind; intros HF w Hw; [done|].
            apply Forall_app in HF as [HF1 HF2]. apply Forall_cons in HF2 as [HF2 _]. rewrite set_weight_snoc in Hw.
            destruct c as [u k|u|u x]; simpl in *; eauto. unfold upd in Hw. destruct (decide (v = u)); [|eauto].
            injection Hw as <-. tauto. }
          eapply G; eauto.
        * intros v Hv. rewrite wgt_at_nth.
          -- apply nth_lt_eq. rewrite list_lookup_fmap, lookup_seq_lt by done. done.
          -- intros E0. apply (f_equal length) in E0. rewrite fmap_length, seq_length in E0. simpl in E0. lia.
      + intros i Hi. rewrite B7 in Hi. rewrite B8 by done. destruct (Hws eq_refl i Hi) as [w ->]. done. }
  destruct Hvw as (vw & Ev & Wv & HV). rewrite Ev. cbn [obind].
  assert (Hew : exists ew, frozen (ts_ew b2) = Ok ew /\ weights_ok (nsum cnt n) ew /\
     forall v j d w, v < n -> inserted es v !! j = Some (d, w) -> wgt_at ew (nsum cnt v + j) = if uew then 1%Z else w).
  { rewrite U2 in T5. unfold b1 in T5. cbn [ts_uew] in T5. destruct uew.
    - rewrite T5. exists []. split; [done|]. split; [split; [by left|constructor]|]. done.
    - destruct (buckets_full n (nsum cnt n) (nsum cnt) (nsum_mono _ n) (le_n _) _ _ eq_refl eq_refl T5 (Hlen Z snd))
        as (ew & Ee & Le & _ & Ie). exists ew. split; [done|]. split.
      + split; [by right|]. apply Forall_lookup_2. intros i x Hx.
        assert (Hi : i < nsum cnt n) by (rewrite <- Le; eapply lookup_lt_Some; eauto).
        destruct (find_bucket n (nsum cnt) (nsum_mono _ n) i eq_refl Hi) as (v & Hv & Hr). simpl in Hr. rewrite <- Hcnt in Hr by done.
        destruct (lookup_lt_is_Some_2 (inserted es v) (i - nsum cnt v) ltac:(lia)) as [[d w] Hd].
        pose proof (Ie v (i - nsum cnt v) w Hv ltac:(rewrite list_lookup_fmap, Hd; done)) as E3.
        replace (nsum cnt v + (i - nsum cnt v)) with i in E3 by lia. rewrite Hx in E3. injection E3 as ->.
        apply elem_of_list_lookup_2 in Hd. unfold inserted in Hd. apply elem_of_list_fmap in Hd as ([v' [d' w']] & [= -> ->] & Hd).
        apply elem_of_list_filter in Hd as [_ Hd]. rewrite Forall_forall in Hes. apply (Hes _ Hd).
      + intros v j d w Hv Hj. pose proof (Ie v j w Hv ltac:(rewrite list_lookup_fmap, Hj; done)) as E3.
        rewrite wgt_at_nth; [apply nth_lt_eq; done|]. intros ->. done. }
  destruct Hew as (ew & Ee & We & HE). rewrite Ee. cbn [obind].
  assert (Hpre : forall v, v <= n -> nth v (ts_prefix b2) 0 = nsum cnt v).
  { intros v Hv. apply nth_lt_eq. destruct v as [|v]; [done|]. rewrite T3 by lia. rewrite Hcnt by lia. done. }
  assert (Hidx : forall i, i < nsum cnt n -> exists v j d w, v < n /\ i = nsum cnt v + j /\ inserted es v !! j = Some (d, w)).
  { intros i Hi. destruct (find_bucket n (nsum cnt) (nsum_mono _ n) i eq_refl Hi) as (v & Hv & Hr). simpl in Hr. rewrite <- Hcnt in Hr by done.
    destruct (lookup_lt_is_Some_2 (inserted es v) (i - nsum cnt v) ltac:(lia)) as [[d w] Hd].
    exists v, (i - nsum cnt v), d, w. split; [done|]. split; [lia|done]. }
  assert (Hadj : forall v j d w, v < n -> inserted es v !! j = Some (d, w) -> adj !! (nsum cnt v + j) = Some d).
  { intros v j d w Hv Hj. apply (Ia v j d Hv). rewrite list_lookup_fmap, Hj. done. }
  destruct (graph_make_ok (ts_prefix b2) adj vw ew n) as (g & Eg & Hwf & G1 & G2 & G3 & G4 & G5 & _).
  { done. } { rewrite Hpre by lia. done. }
  { intros v Hv. rewrite !Hpre by lia. simpl. lia. }
  { rewrite Hpre by lia. rewrite La. done. }
  { apply Forall_lookup_2. intros i x Hx. assert (Hi : i < nsum cnt n) by (rewrite <- La; eapply lookup_lt_Some; eauto).
    destruct (Hidx i Hi) as (v & j & d & w & Hv & -> & Hj). rewrite (Hadj _ _ _ _ Hv Hj) in Hx. injection Hx as <-.
    apply elem_of_list_lookup_2 in Hj. unfold inserted in Hj. apply elem_of_list_fmap in Hj as ([v' [d' w']] & [= -> ->] & Hd).
    apply elem_of_list_filter in Hd as [_ Hd]. rewrite Forall_forall in Hes. apply (Hes _ Hd). }
  { done. } { rewrite La. done. }
  exists g. rewrite Eg. split; [done|]. split; [done|]. split; [done|].
  assert (Hrs : forall v, v <= n -> rstart (two_step_rows uew es) v = nsum cnt v).
  { intros v Hv. apply nsum_ext. intros i Hi. unfold two_step_rows. rewrite fmap_length. apply Hcnt. lia. }
  assert (Hinv : forall v j d w, v < n -> two_step_rows uew es v !! j = Some (d, w) -> exists w', inserted es v !! j = Some (d, w') /\ w = (if uew then 1%Z else w')).
  { intros v j d w Hv Hj. unfold two_step_rows in Hj. rewrite list_lookup_fmap in Hj.
    destruct (inserted es v !! j) as [[d' w']|]; [|done]. simpl in Hj. injection Hj as <- <-. eauto. }
  assert (Hr : has_rows n (two_step_rows uew es) g).
  { constructor.
    - rewrite G1. done.
    - intros v Hv. unfold pre_at. rewrite G1, Hpre, Hrs by done. done.
    - unfold ne. rewrite G2, La, Hrs by done. done.
    - intros v j d w Hv Hj. destruct (Hinv v j d w Hv Hj) as (w' & Hj' & _). rewrite G2, Hrs by lia. eapply Hadj; eauto.
    - intros v j d w Hv Hj. destruct (Hinv v j d w Hv Hj) as (w' & Hj' & ->). rewrite G4, Hrs by lia. eapply HE; eauto. }
  split.
  - intros v Hv. eapply out_rows; eauto.
  - intros v Hv. unfold vweight. rewrite G3. by apply HV.
Qed.
