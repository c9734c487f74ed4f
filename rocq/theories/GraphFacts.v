(** * GraphFacts: accessors and loops of a well-formed graph; construction from CSR (C39). *)
From Verif Require Import Base ModelGraph Spec Logic Sums.

Lemma nth_lt_eq {A} (l : list A) i d a : l !! i = Some a -> nth i l d = a.
Proof. intros H. rewrite nth_lookup, H. done. Qed.
Lemma lookup_nth {A} (l : list A) i d : i < length l -> l !! i = Some (nth i l d).
Proof. intros [a Ha]%lookup_lt_is_Some. by rewrite (nth_lt_eq _ _ _ _ Ha). Qed.

Section Access.
  Context (g : graph) (Hwf : wf_graph g).

  Lemma edge_range_ok v : v < nv g -> edge_range g v = Ok (seq (pre_at g v) (pre_at g (S v) - pre_at g v)).
  Proof.
    intros Hv. unfold edge_range. pose proof (wf_len g Hwf).
    rewrite (rd_nth _ _ 0) by lia. simpl. rewrite (rd_nth _ _ 0) by lia. simpl.
    pose proof (wf_mono g Hwf v Hv). unfold pre_at in *.
    destruct (Nat.ltb_spec (nth (S v) (g_prefix g) 0) (nth v (g_prefix g) 0)); [lia|]. done.
  Qed.
  Lemma degree_ok v : v < nv g -> degree g v = Ok (length (out g v)).
  Proof.
    intros Hv. unfold degree. pose proof (wf_len g Hwf).
    rewrite (rd_nth _ _ 0) by lia. simpl. rewrite (rd_nth _ _ 0) by lia. simpl.
    pose proof (wf_mono g Hwf v Hv). unfold pre_at in *.
    destruct (Nat.ltb_spec (nth (S v) (g_prefix g) 0) (nth v (g_prefix g) 0)); [lia|].
    f_equal. unfold out. rewrite fmap_length, seq_length. done.
  Qed.
  Lemma dst_ok e : e < ne g -> dst g e = Ok (nth e (g_adj g) 0).
  Proof. intros He. by apply rd_nth. Qed.
  Lemma ewt_true_ok e : length (g_ew g) = ne g -> e < ne g -> ewt true g e = Ok (wgt_at (g_ew g) e).
  Proof.
    intros Hl He. unfold ewt, rd_weight, wgt_at. destruct (g_ew g) as [|w l] eqn:E; [simpl in Hl; lia|].
    apply rd_nth. lia.
  Qed.
  Lemma ewt_ok e : e < ne g -> ewt (has_ew g) g e = Ok (wgt_at (g_ew g) e).
  Proof.
    intros He. unfold has_ew. destruct (g_uew g) eqn:E; simpl negb.
    - simpl. by rewrite (wf_uew_t g Hwf E e He).
    - apply ewt_true_ok; [|done]. by apply (wf_uew_f g Hwf).
  Qed.
  Lemma vwt_true_ok v : length (g_vw g) = nv g -> v < nv g -> vwt true g v = Ok (vweight g v).
  Proof.
    intros Hl Hv. unfold vwt, rd_weight, vweight, wgt_at. destruct (g_vw g) as [|w l] eqn:E; [simpl in Hl; lia|].
    apply rd_nth. lia.
  Qed.
  Lemma vwt_ok v : v < nv g -> vwt (has_vw g) g v = Ok (vweight g v).
  Proof.
    intros Hv. unfold has_vw. destruct (g_uvw g) eqn:E; simpl negb.
    - simpl. by rewrite (wf_uvw_t g Hwf E v Hv).
    - apply vwt_true_ok; [|done]. by apply (wf_uvw_f g Hwf).
  Qed.
  Lemma edge_in_range v e : v < nv g -> e ∈ seq (pre_at g v) (pre_at g (S v) - pre_at g v) -> e < ne g.
  Proof.
    intros Hv He%elem_of_seq. pose proof (wf_mono g Hwf v Hv).
    pose proof (pre_le g Hwf (S v) ltac:(lia)). lia.
  Qed.

  (** The edge e is the arc a. *)
  Definition is_arc (e : nat) (a : nat * Z) : Prop :=
    e < ne g /\ dst g e = Ok (fst a) /\ ewt (has_ew g) g e = Ok (snd a) /\ snd a = wgt_at (g_ew g) e
    /\ fst a < nv g /\ (0 <= snd a < W32)%Z.
  Lemma is_arc_nth e : e < ne g -> is_arc e (nth e (g_adj g) 0, wgt_at (g_ew g) e).
  Proof.
    intros He. split_and!; simpl; [done|by apply dst_ok|by apply ewt_ok|done| | |].
    - by apply (wf_dst g Hwf).
    - by apply (wf_ew_range g Hwf).
    - by apply (wf_ew_range g Hwf).
  Qed.

  Lemma for_edges_wp {S} v (I : list (nat * Z) -> S -> Prop) E (body : S -> nat -> outcome S) s :
    v < nv g -> I [] s ->
    (forall pre e a post s, out g v = pre ++ a :: post -> is_arc e a -> I pre s ->
       wpo (body s e) E (I (pre ++ [a]))) ->
    wpo (for_edges g v body s) E (I (out g v)).
  Proof.
    intros Hv H0 Hstep. unfold for_edges. rewrite edge_range_ok by done. simpl. unfold out.
    set (h := fun e => (nth e (g_adj g) 0, wgt_at (g_ew g) e)) in *.
    apply (ofold_wp (fun l => I (h <$> l))); [done|].
    intros pre e post s' Heq HI. rewrite fmap_app.
    apply (Hstep (h <$> pre) e (h e) (h <$> post)).
    - unfold out. fold h. rewrite Heq, fmap_app. done.
    - apply is_arc_nth. apply (edge_in_range v); [done|]. rewrite Heq. set_solver.
    - done.
  Qed.
  Lemma for_edges_m_wp {S} v (I : list (nat * Z) -> S -> Prop) E (body : S -> nat -> M S) s :
    v < nv g -> I [] s ->
    (forall pre e a post s, out g v = pre ++ a :: post -> is_arc e a -> I pre s ->
       wpm (body s e) E (I (pre ++ [a]))) ->
    wpm (for_edges_m g v body s) E (I (out g v)).
  Proof.
    intros Hv H0 Hstep. unfold for_edges_m. rewrite edge_range_ok by done.
    eapply wpm_bind with (P := fun es => es = seq (pre_at g v) (pre_at g (Datatypes.S v) - pre_at g v)).
    { by apply wpm_lift. }
    intros ? ->. unfold out.
    set (h := fun e => (nth e (g_adj g) 0, wgt_at (g_ew g) e)) in *.
    apply (mfold_wp (fun l => I (h <$> l))); [done|].
    intros pre e post s' Heq HI. rewrite fmap_app.
    apply (Hstep (h <$> pre) e (h e) (h <$> post)).
    - unfold out. fold h. rewrite Heq, fmap_app. done.
    - apply is_arc_nth. apply (edge_in_range v); [done|]. rewrite Heq. set_solver.
    - done.
  Qed.
  Lemma for_edges_pure {S} v (body : S -> nat -> outcome S) (h : S -> nat * Z -> S) s :
    v < nv g -> (forall s e a, a ∈ out g v -> is_arc e a -> body s e = Ok (h s a)) ->
    for_edges g v body s = Ok (fold_left h (out g v) s).
  Proof.
    intros Hv Hb.
    cut (wpo (for_edges g v body s) never (fun s' => s' = fold_left h (out g v) s)).
    { intros (s' & -> & ->)%wpo_never. done. }
    apply (for_edges_wp v (fun l s' => s' = fold_left h l s)); [done|done|].
    intros pre e a post s' Heq Ha ->. rewrite (Hb _ e a); [|rewrite Heq; set_solver|done].
    simpl. rewrite fold_left_app. done.
  Qed.
  Lemma for_vertices_wp {S} (I : nat -> S -> Prop) E (body : S -> nat -> outcome S) s :
    I 0 s -> (forall v s, v < nv g -> I v s -> wpo (body s v) E (I (Datatypes.S v))) ->
    wpo (for_vertices g body s) E (I (nv g)).
  Proof. apply ofold_seq_wp. Qed.

  (** wrapping accumulation *)
  Lemma fold_u32 {A} (f : A -> Z) l s : fold_left (fun t a => u32 (t + f a)) l (u32 s) = u32 (s + sumf f l).
  Proof.
    revert s. induction l as [|a l IH]; intros s; simpl; rewrite ?sumf_nil, ?sumf_cons; [by rewrite Z.add_0_r|].
    rewrite u32_add_l, IH. f_equal. lia.
  Qed.
End Access.

Lemma sum_u32_sumf l : sum_u32 l = u32 (sumf id l).
Proof. unfold sum_u32. rewrite <- (Z.add_0_l (sumf id l)), <- fold_u32. done. Qed.
Lemma all_one_spec l : all_one l = true <-> Forall (fun w => w = 1%Z) l.
Proof.
  unfold all_one.
  assert (G : forall b, fold_left (fun b w => if (w =? 1)%Z then b else false) l b = true
     <-> b = true /\ Forall (fun w => w = 1%Z) l).
  { induction l as [|w l IH]; intros b; simpl; [naive_solver|].
    rewrite IH, Forall_cons. destruct (Z.eqb_spec w 1); naive_solver. }
  rewrite G. naive_solver.
Qed.

(** The out lists enumerate all edges. *)
Lemma sum_out_edges g (h : nat * Z -> Z) :
  pre_at g 0 = 0 -> (forall v, v < nv g -> pre_at g v <= pre_at g (S v)) ->
  forall n, n <= nv g ->
  sumn n (fun u => sumf h (out g u)) = sumn (pre_at g n) (fun e => h (nth e (g_adj g) 0, wgt_at (g_ew g) e)).
Proof.
  intros H0 Hm. induction n as [|n IH]; intros Hn; [by rewrite H0|].
  rewrite sumn_S, IH by lia.
  rewrite (sumn_le_split (pre_at g n) (pre_at g (S n))) by (apply Hm; lia).
  f_equal. unfold out. by rewrite sumf_map.
Qed.

Lemma wgt_at_nth l i : l <> [] -> wgt_at l i = nth i l 0%Z.
Proof. destruct l; done. Qed.
Lemma Forall_nth_range l i : Forall (fun w => (0 <= w < W32)%Z) l -> (0 <= nth i l 0 < W32)%Z.
Proof.
  intros H. destruct (decide (i < length l)).
  - rewrite Forall_forall in H. apply H. apply elem_of_list_In, nth_In. done.
  - rewrite nth_overflow by lia. unfold W32; lia.
Qed.
Lemma wgt_at_range l i : Forall (fun w => (0 <= w < W32)%Z) l -> (0 <= wgt_at l i < W32)%Z.
Proof.
  intros H. destruct (decide (l = [])) as [->|Hn]; [simpl; unfold W32; lia|].
  rewrite wgt_at_nth by done. by apply Forall_nth_range.
Qed.
Lemma sumn_wgt_at l n : length l = n -> sumn n (wgt_at l) = sumf id l.
Proof.
  intros <-. destruct l as [|w l]; [done|]. rewrite (sumn_list id). apply sumn_ext. done.
Qed.

(** The total/flag computation of the constructor for one weight array. *)
Definition weights_ok (n : nat) (l : list Z) : Prop :=
  (l = [] \/ length l = n) /\ Forall (fun w => (0 <= w < W32)%Z) l.
Definition tot_flag (n : nat) (l : list Z) : outcome (Z * bool) :=
  if Nat.eqb n 0 then Ok (0%Z, true)
  else if Nat.eqb (length l) 0 then Ok (u32 (Z.of_nat n), true)
  else if Nat.ltb (length l) n then Fail (UB OutOfBounds)
  else Ok (sum_u32 (take n l), all_one (take n l)).
Lemma tot_flag_ok n l : weights_ok n l ->
  exists b, tot_flag n l = Ok (u32 (sumn n (wgt_at l)), b)
   /\ (b = true <-> forall i, i < n -> wgt_at l i = 1%Z) /\ (b = false -> length l = n).
Proof.
  intros [Hl Hr]. unfold tot_flag.
  destruct (Nat.eqb_spec n 0) as [->|Hn]; [exists true; split_and!; [done|split; [lia|done]|done]|].
  destruct (Nat.eqb_spec (length l) 0) as [E|E].
  { destruct l; [|done]. exists true. split_and!; [|done|done]. do 2 f_equal.
    unfold wgt_at. rewrite sumf_const, seq_length. f_equal. lia. }
  destruct Hl as [->|Hl]; [done|]. rewrite Hl, Nat.ltb_irrefl, <- Hl, take_ge by done.
  exists (all_one l). split_and!.
  - rewrite sum_u32_sumf, sumn_wgt_at by done. done.
  - rewrite all_one_spec, Forall_forall. split.
    + intros H i Hi. rewrite wgt_at_nth by (by intros ->). apply H. apply elem_of_list_In, nth_In. lia.
    + intros H x (i & Hi)%elem_of_list_lookup. pose proof (lookup_lt_Some _ _ _ Hi).
      rewrite <- (H i) by lia. rewrite wgt_at_nth by (by intros ->). symmetry. by apply nth_lt_eq.
  - done.
Qed.

Lemma graph_make_ok prefix adj vw ew n :
  length prefix = S n -> nth 0 prefix 0 = 0 ->
  (forall v, v < n -> nth v prefix 0 <= nth (S v) prefix 0) -> nth n prefix 0 = length adj ->
  Forall (fun d => d < n) adj -> weights_ok n vw -> weights_ok (length adj) ew ->
  exists g, graph_make prefix adj vw ew = Ok g /\ wf_graph g /\ g_prefix g = prefix /\ g_adj g = adj
    /\ g_vw g = vw /\ g_ew g = ew /\ nv g = n
    /\ g_tvw g = u32 (sumn n (wgt_at vw)) /\ g_tew g = u32 (sumn (length adj) (wgt_at ew))
    /\ (g_uvw g = true <-> forall v, v < n -> wgt_at vw v = 1%Z)
    /\ (g_uew g = true <-> forall e, e < length adj -> wgt_at ew e = 1%Z).
Proof.
  intros Hlen H0 Hm Hlast Hdst Hvw Hew. unfold graph_make.
  destruct (Nat.eqb_spec (length prefix) 0) as [?|_]; [lia|].
  replace (length prefix - 1) with n by lia.
  destruct (tot_flag_ok n vw Hvw) as (bv & Ev & Fv & Gv). unfold tot_flag in Ev. rewrite Ev. simpl.
  destruct (tot_flag_ok (length adj) ew Hew) as (be & Ee & Fe & Ge). unfold tot_flag in Ee. rewrite Ee. simpl.
  eexists. split; [done|]. unfold nv; simpl. rewrite Hlen. simpl. rewrite ?Nat.sub_0_r. split_and!; try done; try lia.
  destruct Hvw as [Hvl Hvr], Hew as [Hel Her].
  split; unfold nv, ne, pre_at, vweight, pre_at; simpl; rewrite ?Hlen; simpl; rewrite ?Nat.sub_0_r; auto.
  - intros e He. rewrite Forall_forall in Hdst. apply Hdst. apply elem_of_list_In, nth_In. done.
  - intros v. by apply wgt_at_range.
  - intros v. by apply wgt_at_range.
  - intros Hb. by apply Fv.
  - intros Hb. by apply Fe.
  - f_equal. symmetry.
    set (g := mkGraph prefix adj vw ew _ _ bv be).
    assert (Hn : nv g = n) by (unfold nv; simpl; lia).
    rewrite (sum_out_edges g snd); unfold pre_at; simpl; rewrite ?Hn; auto. rewrite Hlast. done.
Qed.

Lemma graph_of_csr_ok n prefix adj vw ew : valid_csr n prefix adj vw ew ->
  exists g, graph_of_csr prefix adj vw ew = Ok g /\ wf_graph g /\ g_prefix g = prefix /\ g_adj g = adj
    /\ g_vw g = default [] vw /\ g_ew g = default [] ew /\ nv g = n
    /\ g_tvw g = u32 (sumn n (wgt_at (default [] vw))) /\ g_tew g = u32 (sumn (length adj) (wgt_at (default [] ew)))
    /\ (g_uvw g = true <-> forall v, v < n -> wgt_at (default [] vw) v = 1%Z)
    /\ (g_uew g = true <-> forall e, e < length adj -> wgt_at (default [] ew) e = 1%Z).
Proof.
  intros [H1 H2 H3 H4 H5 H6 H7]. apply graph_make_ok; auto.
  - split; destruct vw as [l|]; simpl; auto; destruct (H6 l eq_refl); auto.
  - split; destruct ew as [l|]; simpl; auto; destruct (H7 l eq_refl); auto.
Qed.
