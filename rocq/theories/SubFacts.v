(** * SubFacts: SubgraphExtractor and the maps between subgraph and parent (C12, C13, C14). *)
From Verif Require Import Base ModelGraph ModelBuilders ModelPartition ModelRecursive Spec Logic Sums GraphFacts PartFacts
  BucketFacts BuilderFacts TwoStepFacts.

(** ** One call sequence spread over several builders *)
Section Spread.
  Context {B C : Type} (run : B -> C -> outcome B).
  Definition spread_step (bs : list B) (c : nat * C) : outcome (list B) :=
    let! b := rd bs (fst c) in
    let! b := run b (snd c) in
    wr bs (fst c) b.
  Definition calls (cs : list (nat * C)) (i : nat) : list C := snd <$> filter (fun c => fst c = i) cs.

  Lemma calls_app cs cs' i : calls (cs ++ cs') i = calls cs i ++ calls cs' i.
  Proof. unfold calls. rewrite filter_app, fmap_app. done. Qed.
  Lemma calls_cons c cs i : calls (c :: cs) i = (if decide (fst c = i) then [snd c] else []) ++ calls cs i.
  Proof. unfold calls. rewrite filter_cons. case_decide; done. Qed.
  Lemma calls_nil i : calls [] i = [].
  Proof. done. Qed.
  Lemma calls_bind {D} (F : D -> list (nat * C)) l i : calls (l ≫= F) i = l ≫= (fun d => calls (F d) i).
  Proof. induction l as [|d l IH]; [done|]. cbn [mbind list_bind]. rewrite calls_app. f_equal. exact IH. Qed.

  Lemma spread_ok cs : forall bs (res : nat -> B), Forall (fun c => fst c < length bs) cs ->
    (forall i b, bs !! i = Some b -> ofold run b (calls cs i) = Ok (res i)) ->
    exists bs', ofold spread_step bs cs = Ok bs' /\ length bs' = length bs /\ forall i, i < length bs -> bs' !! i = Some (res i).
  Proof.
    induction cs as [|[j c] cs IH]; intros bs res Hlt Hres.
    - exists bs. split; [done|]. split; [done|]. intros i Hi. apply lookup_lt_is_Some in Hi as [b Hb].
      specialize (Hres i b Hb). rewrite calls_nil in Hres. cbn in Hres. by injection Hres as <-.
    - inversion Hlt as [|? ? Hj Hcs]; subst. simpl in Hj. pose proof Hj as [b Hb]%lookup_lt_is_Some.
      pose proof (Hres j b Hb) as Hj'. rewrite calls_cons in Hj'. rewrite decide_True in Hj' by done.
      cbn [app ofold snd fst] in Hj'. destruct (run b c) as [b1|f] eqn:E1; [|done]. cbn [obind] in Hj'.
      cbn [ofold]. unfold spread_step at 1. cbn [fst snd]. rewrite (rd_ok _ _ _ Hb). cbn [obind]. rewrite E1. cbn [obind].
      rewrite wr_ok by done. cbn [obind].
      destruct (IH (<[j:=b1]> bs) res) as (bs' & E & Hl & HL).
      { rewrite insert_length. done. }
      { intros i b' Hb'. destruct (decide (i = j)) as [->|Hne].
        - rewrite list_lookup_insert in Hb' by done. injection Hb' as <-. done.
        - rewrite list_lookup_insert_ne in Hb' by done. specialize (Hres i b' Hb'). rewrite calls_cons in Hres.
          rewrite decide_False in Hres by (simpl; congruence). done. }
      rewrite insert_length in Hl, HL. eauto.
  Qed.
End Spread.

Lemma ofold_flat {S A C} (f : S -> C -> outcome S) (body : S -> A -> outcome S) (F : A -> list C) l :
  (forall s a, a ∈ l -> body s a = ofold f s (F a)) -> forall s, ofold body s l = ofold f s (l ≫= F).
Proof.
  induction l as [|a l IH]; intros H s; [done|]. cbn [mbind list_bind]. rewrite ofold_app. cbn [ofold].
  rewrite H by set_solver. destruct (ofold f s (F a)) as [s'|e]; [|done]. cbn [obind]. apply IH. intros; apply H; set_solver.
Qed.
Lemma omap_list_ok {A B} (f : A -> outcome B) (l : list A) (h : nat -> B) :
  (forall i a, l !! i = Some a -> f a = Ok (h i)) -> omap_list f l = Ok (h <$> seq 0 (length l)).
Proof.
  revert h. induction l as [|a l IH]; intros h H; [done|]. cbn [omap_list]. rewrite (H 0 a eq_refl). cbn [obind].
  rewrite (IH (fun i => h (S i))). 2: { intros i b Hb. apply (H (S i)). done. }
  cbn [obind length]. change (seq 0 (S (length l))) with (0 :: seq 1 (length l)). cbn [fmap list_fmap]. f_equal. f_equal.
  rewrite <- fmap_S_seq, <- list_fmap_compose. done.
Qed.

Section Edges.
  Context (g : graph) (Hwf : wf_graph g).
  Lemma for_edges_as {S} v (body : S -> nat -> outcome S) (body' : S -> nat * Z -> outcome S) s :
    v < nv g -> (forall s e a, a ∈ out g v -> is_arc g e a -> body s e = body' s a) ->
    for_edges g v body s = ofold body' s (out g v).
  Proof.
    intros Hv H. unfold for_edges. rewrite (edge_range_ok g Hwf) by done. cbn [obind].
    unfold out. rewrite ofold_map. apply ofold_ext. intros s' e He. apply H.
    - apply elem_of_list_fmap. eauto.
    - apply is_arc_nth; [done|]. eapply edge_in_range; eauto.
  Qed.
End Edges.

(** A built graph has a vertex weight array exactly when it was not declared unit-weight. *)
Lemma two_step_vw_len n uvw uew vs es g : Forall (vcall_ok n uvw) vs -> run_two_step n uvw uew vs es = Ok g ->
  length (g_vw g) = if uvw then 0 else n.
Proof.
  intros Hvs. unfold run_two_step. destruct (vertex_phase n uvw uew vs Hvs) as (b & -> & _ & _ & _ & _ & _ & _ & HL & _). cbn [obind].
  destruct (ts_begin_edge b) as [b1|] eqn:E1; [|done]. cbn [obind].
  destruct (ofold run_ecall b1 es) as [b2|] eqn:E2; [|done]. cbn [obind]. intros E3.
  assert (V1 : ts_vw b1 = ts_vw b).
  { unfold ts_begin_edge in E1. destruct (rd _ _); [|done]. cbn [obind] in E1. destruct (ts_shift _ _); [|done]. by injection E1 as <-. }
  assert (V2 : ts_vw b2 = ts_vw b1).
  { clear - E2. revert b1 E2. induction es as [|c es IH]; intros b1 E2; [by injection E2 as <-|]. cbn [ofold] in E2.
    destruct (run_ecall b1 c) as [b1'|] eqn:E; [|done]. cbn [obind] in E2. rewrite (IH _ E2). clear - E.
    unfold run_ecall, ts_add_edge in E. destruct (rd _ _); [|done]. cbn [obind] in E. destruct (wr _ _ _); [|done]. cbn [obind] in E.
    destruct (wri _ _ _); [|done]. cbn [obind] in E.
    destruct (if ts_uew b1 then _ else _); [|done]. by injection E as <-. }
  unfold ts_finish in E3. destruct (frozen (ts_adj b2)); [|done]. cbn [obind] in E3.
  destruct (frozen (ts_vw b2)) as [vw|] eqn:Ev; [|done]. cbn [obind] in E3. destruct (frozen (ts_ew b2)); [|done]. cbn [obind] in E3.
  apply frozen_inv in Ev. assert (g_vw g = vw) as ->.
  { unfold graph_make in E3. destruct (Nat.eqb _ _); [done|].
    match type of E3 with obind ?x _ = _ => destruct x end; [|done]. cbn [obind] in E3.
    match type of E3 with obind ?x _ = _ => destruct x end; [|done]. by injection E3 as <-. }
  rewrite <- HL, <- V1, <- V2, Ev. by rewrite fmap_length.
Qed.

(** ** Members of a part and the rank of a vertex among the members of its part *)
Section Members.
  Context (n : nat) (f : nat -> option nat).
  Definition members (i : nat) : list nat := filter (fun v => f v = Some i) (seq 0 n).
  Definition rank (v : nat) : nat := length (filter (fun u => f u = f v) (seq 0 v)).

  Lemma members_elem i v : v ∈ members i <-> v < n /\ f v = Some i.
  Proof. unfold members. rewrite elem_of_list_filter, elem_of_seq. intuition lia. Qed.
  Lemma members_split i v : v < n -> f v = Some i -> members i = filter (fun u => f u = Some i) (seq 0 v) ++ v :: filter (fun u => f u = Some i) (seq (S v) (n - S v)).
  Proof.
    intros Hv Hi. unfold members. replace n with (v + S (n - S v)) at 1 by lia. rewrite seq_app, filter_app. f_equal.
    change (seq (0 + v) (S (n - S v))) with (v :: seq (S v) (n - S v)). rewrite filter_cons_True by done. done.
  Qed.
  Lemma rank_count i v : f v = Some i -> rank v = length (filter (fun u => f u = Some i) (seq 0 v)).
  Proof. intros Hi. unfold rank. f_equal. apply list_filter_iff. intros u. rewrite Hi. done. Qed.
  Lemma members_rank i v : v < n -> f v = Some i -> members i !! rank v = Some v.
  Proof. intros Hv Hi. rewrite (members_split i v) by done. rewrite (rank_count i v) by done. by rewrite list_lookup_middle. Qed.
  Lemma rank_lt i v : v < n -> f v = Some i -> rank v < length (members i).
  Proof. intros Hv Hi. apply lookup_lt_is_Some. rewrite (members_rank i v) by done. eauto. Qed.
  Lemma members_nodup i : NoDup (members i).
  Proof. apply NoDup_filter, NoDup_ListNoDup, seq_NoDup. Qed.
  Lemma members_inv i j v : members i !! j = Some v -> v < n /\ f v = Some i /\ rank v = j.
  Proof.
    intros H. pose proof H as He%elem_of_list_lookup_2. apply members_elem in He as [Hv Hi]. split; [done|]. split; [done|].
    eapply NoDup_lookup; [apply (members_nodup i)|apply members_rank; done|done].
  Qed.
  Lemma rank_inj i u v : u < n -> v < n -> f u = Some i -> f v = Some i -> rank u = rank v -> u = v.
  Proof. intros Hu Hv Hfu Hfv E. pose proof (members_rank i u Hu Hfu) as H1. rewrite E, (members_rank i v) in H1 by done. congruence. Qed.
End Members.

(** A flat_map over 0..n-1 in which only one index contributes. *)
Lemma bind_single {A} n v (F : nat -> list A) : v < n -> (forall u, u < n -> u <> v -> F u = []) -> seq 0 n ≫= F = F v.
Proof.
  intros Hv H. replace n with (v + S (n - S v)) by lia. rewrite seq_app, bind_app.
  change (seq (0 + v) (S (n - S v))) with ([v] ++ seq (S v) (n - S v)). rewrite bind_app.
  assert (Z0 : forall l, (forall u, u ∈ l -> F u = []) -> l ≫= F = []).
  { induction l as [|u l IH]; intros Hl; [done|]. cbn [mbind list_bind]. rewrite (Hl u) by set_solver. apply IH. intros; apply Hl; set_solver. }
  rewrite Z0. 2: { intros u Hu%elem_of_seq. apply H; lia. }
  rewrite (Z0 (seq (S v) (n - S v))). 2: { intros u Hu%elem_of_seq. apply H; lia. }
  rewrite app_nil_r. cbn. by rewrite app_nil_r.
Qed.

(** ** The super- and sub-maps (SubgraphExtractor.cpp:132-147) *)
Section Extract.
  Context (g : graph) (Hwf : wf_graph g) (k : nat) (p : part) (Hlab : labels_ok k (nv g) (p_where p)).
  Local Notation f := (lab p).
  Local Notation n := (nv g).
  Local Notation mem := (members n f).
  Local Notation rk := (rank f).
  Definition labi (v : nat) : nat := default 0 (lab p v).

  Lemma lab_some v : v < n -> f v = Some (labi v) /\ labi v < k /\ get_assignment p v = Ok (f v).
  Proof.
    intros Hv. destruct Hlab as [Hl H]. destruct (H v Hv) as (i & Hi & Hw). unfold labi, lab.
    rewrite (nth_lt_eq _ _ _ _ Hw). simpl. split; [done|]. split; [done|]. unfold get_assignment. by apply rd_ok.
  Qed.

  Context (labels : option (list nat)) (Hlabels : forall ls, labels = Some ls -> length ls = n).
  Definition name_of (v : nat) : nat := match labels with Some ls => nth v ls 0 | None => v end.

  Lemma sub_maps_ok counts : length counts = k -> (forall i, i < k -> counts !! i = Some (length (mem i))) ->
    exists m, sub_maps g p labels counts = Ok m /\ mp_sub m = Some <$> (rk <$> seq 0 n) /\
      length (mp_super m) = k /\ forall i, i < k -> mp_super m !! i = Some (Some <$> (name_of <$> mem i)).
  Proof.
    intros Hcl Hc. unfold sub_maps. apply wpo_never.
    set (I := fun v (m : maps) => length (mp_counts m) = k /\ (forall i, i < k -> mp_counts m !! i = Some (length (members v f i))) /\
       length (mp_super m) = k /\
       (forall i, i < k -> mp_super m !! i = Some ((Some <$> (name_of <$> members v f i)) ++ replicate (length (mem i) - length (members v f i)) None)) /\
       mp_sub m = (Some <$> (rk <$> seq 0 v)) ++ replicate (n - v) None).
    assert (HS : forall v i, members (S v) f i = members v f i ++ (if decide (f v = Some i) then [v] else [])).
    { intros v i. unfold members. rewrite seq_S, filter_app, filter_cons, filter_nil. simpl. case_decide; done. }
    assert (Hle : forall v i, v <= n -> length (members v f i) <= length (mem i)).
    { intros v i Hv. unfold members. replace n with (v + (n - v)) by lia. rewrite seq_app, filter_app, app_length. lia. }
    eapply wpo_post; [apply (for_vertices_wp g I never)|].
    - subst I. cbv beta. cbn [mp_counts mp_super mp_sub]. rewrite replicate_length, fmap_length. unfold members at 1 3 4. cbn.
      split; [done|]. split. { intros i Hi. apply lookup_replicate_2. lia. } split; [done|]. split; [|by rewrite Nat.sub_0_r].
      intros i Hi. rewrite list_lookup_fmap, (Hc i Hi). cbn. by rewrite Nat.sub_0_r.
    - intros v m Hv (L1 & H1 & L2 & H2 & H3). destruct (lab_some v Hv) as (Hf & Hlt & Hget).
      set (i := labi v) in *. unfold sub_map_step. rewrite Hget. cbn [obind]. rewrite Hf. cbn [pw_index obind].
      rewrite (rd_ok _ _ _ (H1 i Hlt)). cbn [obind]. rewrite wr_ok by lia. cbn [obind]. rewrite (rd_ok _ _ _ (H2 i Hlt)). cbn [obind].
      assert (Hname : match labels with Some ls => rd ls v | None => Ok v end = Ok (name_of v)).
      { unfold name_of. destruct labels as [ls|] eqn:El; [|done]. apply rd_ok, lookup_nth. rewrite (Hlabels ls eq_refl). done. }
      rewrite Hname. cbn [obind].
      assert (Hpos : length (members v f i) < length (mem i)).
      { pose proof (Hle (S v) i ltac:(lia)) as H. rewrite HS, app_length, decide_True in H by done. simpl in H. lia. }
      rewrite wri_ok. 2: { rewrite app_length, !fmap_length, replicate_length. lia. }
      cbn [obind]. rewrite wr_ok by lia. cbn [obind]. rewrite H3. rewrite wri_ok. 2: { rewrite app_length, !fmap_length, seq_length, replicate_length. lia. }
      cbn [obind wpo]. subst I. cbv beta. cbn [mp_counts mp_super mp_sub]. rewrite !insert_length.
      assert (Hins : forall {A} (l1 : list A) a (l2 : list A) b, length l1 = b -> <[b := a]> (l1 ++ l2) = l1 ++ <[0 := a]> l2).
      { intros A l1 a l2 b <-. rewrite insert_app_r_alt by lia. by rewrite Nat.sub_diag. }
      split; [done|]. split.
      { intros j Hj. rewrite HS, app_length. destruct (decide (j = i)) as [->|Hne].
        - rewrite list_lookup_insert by lia. rewrite decide_True by done. simpl. f_equal. lia.
        - rewrite list_lookup_insert_ne by done. rewrite H1 by done. rewrite decide_False by congruence. simpl. f_equal. lia. }
      split; [done|]. split.
      { intros j Hj. rewrite HS. destruct (decide (j = i)) as [->|Hne].
        - rewrite list_lookup_insert by lia. f_equal. rewrite decide_True by done. rewrite Hins by (by rewrite !fmap_length).
          rewrite !fmap_app, <- app_assoc. f_equal. rewrite app_length. simpl length.
          replace (length (mem i) - length (members v f i)) with (S (length (mem i) - (length (members v f i) + 1))) by lia. done.
        - rewrite list_lookup_insert_ne by done. rewrite H2 by done. rewrite decide_False by congruence. by rewrite app_nil_r. }
      rewrite Hins by (by rewrite !fmap_length, seq_length). rewrite seq_S, !fmap_app, <- app_assoc. f_equal.
      replace (n - v) with (S (n - S v)) by lia. cbn. f_equal. f_equal. symmetry. apply rank_count. done.
    - intros m (L1 & H1 & L2 & H2 & H3). split.
      + rewrite H3, Nat.sub_diag. by rewrite app_nil_r.
      + split; [done|]. intros i Hi. rewrite H2 by done. rewrite Nat.sub_diag. by rewrite app_nil_r.
  Qed.

  (** ** The calls made on the builders *)
  Definition vw_calls : list (nat * vcall) :=
    if g_uvw g then [] else (fun v => (labi v, SetWgt (rk v) (vweight g v))) <$> seq 0 n.
  Definition inner (v : nat) : list arc := filter (fun a => f (fst a) = f v) (out g v).
  Definition edge_calls : list (nat * (nat * arc)) :=
    seq 0 n ≫= fun v => (fun a => (labi v, (rk v, (rk (fst a), snd a)))) <$> inner v.
  Definition inc_calls : list (nat * vcall) := (fun c => (fst c, IncNum (fst (snd c)))) <$> edge_calls.
  Definition submap : list (option nat) := Some <$> (rk <$> seq 0 n).

  Lemma submap_at v : v < n -> rdi submap v = Ok (rk v).
  Proof. intros Hv. apply rdi_ok. unfold submap. rewrite !list_lookup_fmap, lookup_seq_lt by done. done. Qed.
  Lemma arc_dst_lt v a : v < n -> a ∈ out g v -> fst a < n /\ (0 <= snd a < W32)%Z.
  Proof.
    intros Hv Ha. unfold out in Ha. apply elem_of_list_fmap in Ha as (e & -> & He).
    destruct (is_arc_nth g Hwf e) as (_ & _ & _ & _ & H1 & H2); [by eapply edge_in_range|done].
  Qed.

  Lemma fill_vw_calls bs : g_uvw g = false -> sub_fill_vw g p submap bs = ofold (spread_step run_vcall) bs vw_calls.
  Proof.
    intros Hu. unfold sub_fill_vw, vw_calls, for_vertices. rewrite Hu, ofold_map. apply ofold_ext. intros bs' v Hv%elem_of_seq.
    destruct (lab_some v ltac:(lia)) as (Hf & Hlt & Hget). rewrite submap_at by lia. cbn [obind]. rewrite Hget. cbn [obind].
    rewrite (vwt_true_ok g) by (try lia; by apply (wf_uvw_f g Hwf)). cbn [obind]. unfold with_builder. rewrite Hf. done.
  Qed.
  Lemma count_calls bs : sub_count_edges g p submap bs = ofold (spread_step run_vcall) bs inc_calls.
  Proof.
    unfold sub_count_edges, inc_calls, edge_calls, for_vertices. rewrite ofold_map. apply ofold_flat. intros bs' v Hv%elem_of_seq.
    destruct (lab_some v ltac:(lia)) as (Hf & Hlt & Hget). rewrite submap_at by lia. cbn [obind]. rewrite Hget. cbn [obind].
    rewrite ofold_map. cbn [fst snd].
    rewrite (for_edges_as g Hwf v _ (fun bs a => if decide (f (fst a) = f v) then spread_step run_vcall bs (labi v, IncNum (rk v)) else Ok bs)).
    - unfold inner. generalize (out g v). intros l. revert bs'. induction l as [|a l IH]; intros bs'; [done|].
      rewrite filter_cons. cbn [ofold]. case_decide.
      + cbn [ofold]. destruct (spread_step run_vcall bs' (labi v, IncNum (rk v))); [|done]. cbn [obind]. apply IH.
      + cbn [obind]. apply IH.
    - lia.
    - intros s e a Ha (_ & Hd & _). rewrite Hd. cbn [obind]. destruct (arc_dst_lt v a ltac:(lia) Ha) as [Hu _].
      destruct (lab_some (fst a) Hu) as (_ & _ & Hg'). rewrite Hg'. cbn [obind].
      unfold with_builder. rewrite Hf. repeat (case_decide; try congruence); done.
  Qed.
  Lemma fill_edges_calls bs : sub_fill_edges g p submap bs = ofold (spread_step run_ecall) bs edge_calls.
  Proof.
    unfold sub_fill_edges, edge_calls, for_vertices. apply ofold_flat. intros bs' v Hv%elem_of_seq.
    destruct (lab_some v ltac:(lia)) as (Hf & Hlt & Hget). rewrite submap_at by lia. cbn [obind]. rewrite Hget. cbn [obind].
    rewrite ofold_map. cbn [fst snd].
    rewrite (for_edges_as g Hwf v _ (fun bs a => if decide (f (fst a) = f v) then spread_step run_ecall bs (labi v, (rk v, (rk (fst a), snd a))) else Ok bs)).
    - unfold inner. generalize (out g v). intros l. revert bs'. induction l as [|a l IH]; intros bs'; [done|].
      rewrite filter_cons. cbn [ofold]. case_decide.
      + cbn [ofold]. destruct (spread_step run_ecall bs' _); [|done]. cbn [obind]. apply IH.
      + cbn [obind]. apply IH.
    - lia.
    - intros s e a Ha (_ & Hd & Hw & _). rewrite Hd. cbn [obind]. destruct (arc_dst_lt v a ltac:(lia) Ha) as [Hu _].
      destruct (lab_some (fst a) Hu) as (_ & _ & Hg'). rewrite Hg'. cbn [obind].
      rewrite submap_at by done. cbn [obind]. rewrite Hw. cbn [obind].
      unfold with_builder. rewrite Hf. repeat (case_decide; try congruence); done.
  Qed.

  (** ** What they say about builder i *)
  Lemma announced_wgts (ws : list vcall) (es : list (nat * arc)) v :
    Forall (fun c => match c with SetWgt _ _ => True | _ => False end) ws ->
    announced (ws ++ ((fun c => IncNum (fst c)) <$> es)) v = length (inserted es v).
  Proof.
    intros Hws. revert v. induction es as [|c es IH] using rev_ind; intros v.
    - cbn. rewrite app_nil_r. induction ws as [|w ws IHw] using rev_ind; [done|]. rewrite announced_snoc.
      apply Forall_app in Hws as [H1 H2]. inversion H2; subst. destruct w; try done. cbn. by apply IHw.
    - rewrite fmap_app, app_assoc. cbn [fmap list_fmap]. rewrite announced_snoc, inserted_snoc, app_length. cbn [announced_step].
      unfold upd. case_decide; subst.
      + rewrite IH, decide_True by done. simpl. lia.
      + rewrite IH. rewrite decide_False by congruence. simpl. lia.
  Qed.
  Lemma set_weight_incs (ws incs : list vcall) v :
    Forall (fun c => match c with IncNum _ => True | _ => False end) incs -> set_weight (ws ++ incs) v = set_weight ws v.
  Proof.
    intros H. induction incs as [|c incs IH] using rev_ind; [by rewrite app_nil_r|].
    apply Forall_app in H as [H1 H2]. inversion H2; subst. destruct c; try done.
    rewrite app_assoc, set_weight_snoc. cbn. by apply IH.
  Qed.
  Lemma calls_map {A B} (h : A -> B) (l : list (nat * A)) i : calls ((fun c => (fst c, h (snd c))) <$> l) i = h <$> calls l i.
  Proof.
    induction l as [|[j a] l IH]; [done|]. cbn [fmap list_fmap]. rewrite !calls_cons. cbn [fst snd].
    rewrite fmap_app. f_equal; [by case_decide|exact IH].
  Qed.
  Lemma weight_at i v : g_uvw g = false -> v < n -> f v = Some i -> set_weight (calls vw_calls i) (rk v) = Some (vweight g v).
  Proof.
    intros Hu Hv Hi. unfold vw_calls. rewrite Hu.
    assert (G : forall m, m <= n -> set_weight (calls ((fun v => (labi v, SetWgt (rk v) (vweight g v))) <$> seq 0 m) i) (rk v)
       = if decide (v < m) then Some (vweight g v) else None); [|rewrite G, decide_True by lia; done].
    induction m as [|m IH]; intros Hm; [done|]. rewrite seq_S, fmap_app, calls_app. cbn [fmap list_fmap Nat.add]. rewrite calls_cons, calls_nil.
    destruct (lab_some m ltac:(lia)) as (Hf & Hlt & _). cbn [fst snd]. rewrite app_nil_r. destruct (decide (labi m = i)) as [E|E].
    - rewrite set_weight_snoc. cbn [weight_step]. unfold upd. destruct (decide (rk v = rk m)) as [E'|E'].
      + assert (v = m) as -> by (eapply (rank_inj n f i); try done; try lia; congruence). rewrite decide_True by lia. done.
      + rewrite IH by lia. assert (v <> m) by congruence. repeat case_decide; try lia; done.
    - rewrite app_nil_r, IH by lia. assert (v <> m) by (intros ->; congruence). repeat case_decide; try lia; done.
  Qed.
  Lemma inserted_at i v : v < n -> f v = Some i -> inserted (calls edge_calls i) (rk v) = (fun a => (rk (fst a), snd a)) <$> inner v.
  Proof.
    intros Hv Hi. unfold edge_calls. rewrite calls_bind. unfold inserted.
    assert (HB : forall (F : nat -> list (nat * arc)) l, snd <$> filter (fun c => fst c = rk v) (l ≫= F) = l ≫= fun u => snd <$> filter (fun c => fst c = rk v) (F u)).
    { intros F l. induction l as [|u l IH]; [done|]. cbn [mbind list_bind]. rewrite filter_app, fmap_app. f_equal. exact IH. }
    rewrite HB. rewrite (bind_single n v); [|done|].
    - rewrite <- (list_fmap_id ((fun a => (rk (fst a), snd a)) <$> inner v)).
      destruct (lab_some v Hv) as (Hf & _). assert (labi v = i) as El by congruence. rewrite El. unfold calls.
      generalize (inner v). intros l. induction l as [|a l IH]; [done|]. cbn [fmap list_fmap].
      rewrite !filter_cons_True by done. cbn [fmap list_fmap]. rewrite filter_cons_True by done. cbn. f_equal. exact IH.
    - intros u Hu Hne. destruct (lab_some u Hu) as (Hf & _). destruct (decide (labi u = i)) as [El|El].
      + assert (rk u <> rk v) by (intros E; apply Hne; eapply (rank_inj n f i); try done; congruence).
        unfold calls. generalize (inner u). intros l. induction l as [|a l IH]; [done|]. cbn [fmap list_fmap].
        rewrite filter_cons. case_decide; [|exact IH]. cbn [fmap list_fmap]. rewrite filter_cons_False by (cbn; done). exact IH.
      + unfold calls. generalize (inner u). intros l. induction l as [|a l IH]; [done|]. cbn [fmap list_fmap].
        rewrite filter_cons_False by (cbn; done). exact IH.
  Qed.
  Lemma calls_elem {A} (l : list (nat * A)) i a : a ∈ calls l i <-> (i, a) ∈ l.
  Proof.
    unfold calls. rewrite elem_of_list_fmap. split.
    - intros ([j b] & -> & H). apply elem_of_list_filter in H as [E H]. cbn in *. by subst.
    - intros H. exists (i, a). split; [done|]. apply elem_of_list_filter. done.
  Qed.
  Lemma edge_calls_elem i j d w : (j, (d, w)) ∈ calls edge_calls i ->
    exists v u, v < n /\ u < n /\ f v = Some i /\ f u = Some i /\ j = rk v /\ d = rk u /\ (u, w) ∈ out g v.
  Proof.
    rewrite calls_elem. unfold edge_calls. rewrite elem_of_list_bind. intros (v & H & Hv%elem_of_seq).
    apply elem_of_list_fmap in H as ([u x] & E & H). cbn in E. injection E as -> -> -> ->.
    unfold inner in H. apply elem_of_list_filter in H as [E H]. cbn in E. destruct (lab_some v ltac:(lia)) as (Hf & _).
    destruct (arc_dst_lt v _ ltac:(lia) H) as [Hu _]. cbn in Hu. exists v, u. repeat (split; [done || lia || congruence|]). done.
  Qed.

  Definition vcalls (i : nat) : list vcall := calls (vw_calls ++ inc_calls) i.
  Lemma vcalls_eq i : vcalls i = calls vw_calls i ++ ((fun c => IncNum (fst c)) <$> calls edge_calls i).
  Proof. unfold vcalls. rewrite calls_app. f_equal. unfold inc_calls. by rewrite <- calls_map. Qed.

  (** The graph of part i. *)
  Lemma builder_ok i : i < k -> exists sg, run_two_step (length (mem i)) (g_uvw g) (g_uew g) (vcalls i) (calls edge_calls i) = Ok sg /\
    wf_graph sg /\ nv sg = length (mem i) /\
    (forall v, v < n -> f v = Some i -> out sg (rk v) = (fun a => (rk (fst a), snd a)) <$> inner v) /\
    (forall v, v < n -> f v = Some i -> vweight sg (rk v) = vweight g v) /\ 
    length (g_vw sg) = if g_uvw g then 0 else nv sg.
  Proof.
    intros Hi. rewrite vcalls_eq.
    assert (HV : Forall (vcall_ok (length (mem i)) (g_uvw g)) (calls vw_calls i ++ ((fun c => IncNum (fst c)) <$> calls edge_calls i))).
    { apply Forall_app. split; apply Forall_forall; intros c Hc.
      + apply calls_elem in Hc. unfold vw_calls in Hc. destruct (g_uvw g) eqn:Eu; [by apply elem_of_nil in Hc|].
        apply elem_of_list_fmap in Hc as (v & Ev & Hv%elem_of_seq). injection Ev as -> ->. cbn.
        destruct (lab_some v ltac:(lia)) as (Hf & _). split; [apply rank_lt; done || lia|]. split; [done|]. apply (wf_vw_range g Hwf).
      + apply elem_of_list_fmap in Hc as ([j [d w]] & -> & Hc). apply edge_calls_elem in Hc as (v & u & Hv & Hu & Hfv & Hfu & -> & _).
        cbn. by apply rank_lt. }
    destruct (two_step_ok (length (mem i)) (g_uvw g) (g_uew g) (calls vw_calls i ++ ((fun c => IncNum (fst c)) <$> calls edge_calls i)) (calls edge_calls i))
      as (sg & E & Hsg & Hn & Hout & Hvw).
    - exact HV.
    - intros Eu j Hj. apply lookup_lt_is_Some in Hj as [v Hv]. apply members_inv in Hv as (Hv & Hf & <-).
      rewrite set_weight_incs. 2: { apply Forall_fmap, Forall_true. done. } rewrite weight_at by done. eauto.
    - apply Forall_forall. intros [j [d w]] Hc. apply edge_calls_elem in Hc as (v & u & Hv & Hu & Hfv & Hfu & -> & -> & Ho). cbn.
      split; [by apply rank_lt|]. split; [by apply rank_lt|]. apply (arc_dst_lt v _ Hv Ho).
    - intros j Hj. rewrite announced_wgts; [done|]. apply Forall_forall. intros c Hc%calls_elem. unfold vw_calls in Hc.
      destruct (g_uvw g); [by apply elem_of_nil in Hc|]. apply elem_of_list_fmap in Hc as (v & Ev & _). by injection Ev as -> ->.
    - exists sg. split; [done|]. split; [done|]. split; [done|]. split; [|split].
      + intros v Hv Hf. rewrite Hout by (by apply rank_lt). unfold two_step_rows. rewrite inserted_at by done.
        rewrite <- list_fmap_compose. apply list_fmap_ext. intros j a Ha. cbn. f_equal. destruct (g_uew g) eqn:Eu; [|done].
        apply elem_of_list_lookup_2 in Ha. unfold inner in Ha. apply elem_of_list_filter in Ha as [_ Ha].
        unfold out in Ha. apply elem_of_list_fmap in Ha as (e & -> & He). cbn. symmetry. apply (wf_uew_t g Hwf Eu). by eapply edge_in_range.
      + intros v Hv Hf. rewrite Hvw by (by apply rank_lt). destruct (g_uvw g) eqn:Eu.
        * symmetry. by apply (wf_uvw_t g Hwf).
        * rewrite set_weight_incs. 2: { apply Forall_fmap, Forall_true. done. } by rewrite weight_at.
      + rewrite (two_step_vw_len _ _ _ _ _ _ HV E). by rewrite Hn.
  Qed.
End Extract.

(** ** The subgraph induced by the vertices labelled i *)
Record induced (g : graph) (f : nat -> option nat) (i : nat) (sg : graph) : Prop := {
  in_wf : wf_graph sg;
  in_nv : nv sg = length (members (nv g) f i);
  in_out : forall j v, members (nv g) f i !! j = Some v ->
    (fun a => (nth (fst a) (members (nv g) f i) 0, snd a)) <$> out sg j = filter (fun a => f (fst a) = Some i) (out g v);
  in_vw : forall j v, members (nv g) f i !! j = Some v -> vweight sg j = vweight g v;
  in_len : length (g_vw sg) = if g_uvw g then 0 else nv sg
}.

Section Extract2.
  Context (g : graph) (Hwf : wf_graph g) (k : nat) (p : part) (Hpw : length (p_pw p) = k) (Hlab : labels_ok k (nv g) (p_where p)).
  Local Notation f := (lab p).
  Local Notation n := (nv g).
  Local Notation mem := (members n f).
  Local Notation rk := (rank f).

  Lemma builder_induced i : i < k -> exists sg, run_two_step (length (mem i)) (g_uvw g) (g_uew g) (vcalls g p i) (calls (edge_calls g p) i) = Ok sg /\
    induced g f i sg.
  Proof.
    intros Hi. destruct (builder_ok g Hwf k p Hlab i Hi) as (sg & E & H1 & H2 & H3 & H4 & H5).
    exists sg. split; [done|]. constructor; try done.
    - intros j v Hj. apply members_inv in Hj as (Hv & Hf & <-). rewrite H3 by done. rewrite <- list_fmap_compose.
      transitivity (inner g p v).
      + rewrite <- (list_fmap_id (inner g p v)) at 2. apply list_fmap_ext. intros x a Ha. cbn.
        apply elem_of_list_lookup_2 in Ha. unfold inner in Ha. apply elem_of_list_filter in Ha as [Ea Ha].
        rewrite (nth_lt_eq _ _ 0 (fst a)); [by destruct a|]. apply members_rank; [by eapply out_dst|congruence].
      + unfold inner. apply list_filter_iff. intros a. rewrite Hf. done.
    - intros j v Hj. apply members_inv in Hj as (Hv & Hf & <-). by apply H4.
  Qed.

  Context (labels : option (list nat)) (Hlabels : forall ls, labels = Some ls -> length ls = n).
  Lemma sub_partitions_ok : exists subs, sub_partitions g p labels = Ok subs /\ length subs = k /\
    forall i, i < k -> exists s, subs !! i = Some s /\ sg_super s = (name_of labels <$> mem i) /\ induced g f i (sg_graph s).
  Proof.
    unfold sub_partitions.
    destruct (proj1 (wpo_never _ _) (calc_vertex_counts_wp never p k n Hpw Hlab)) as (counts & -> & Lc & Hc). cbn [obind].
    destruct (sub_maps_ok g k p Hlab labels Hlabels counts Lc Hc) as (m & -> & Hsub & Lsup & Hsup). cbn [obind].
    rewrite Hsub. fold (submap g p).
    assert (HT : forall i, exists r : tsb * tsb * tsb * graph, i < k ->
       ofold run_vcall (ts_begin_vertex (length (mem i)) (g_uvw g) (g_uew g)) (vcalls g p i) = Ok r.1.1.1 /\
       ts_begin_edge r.1.1.1 = Ok r.1.1.2 /\ ofold run_ecall r.1.1.2 (calls (edge_calls g p) i) = Ok r.1.2 /\ ts_finish r.1.2 = Ok r.2 /\
       induced g f i r.2).
    { intros i. destruct (decide (i < k)) as [Hi|Hi].
      - destruct (builder_induced i Hi) as (sg & E & Hsg). unfold run_two_step in E.
        destruct (ofold run_vcall _ _) as [b1|] eqn:E1; [|done]. cbn [obind] in E.
        destruct (ts_begin_edge b1) as [b2|] eqn:E2; [|done]. cbn [obind] in E.
        destruct (ofold run_ecall b2 _) as [b3|] eqn:E3; [|done]. cbn [obind] in E. exists (b1, b2, b3, sg). done.
      - exists (ts_begin_vertex 0 true true, ts_begin_vertex 0 true true, ts_begin_vertex 0 true true, g). lia. }
    assert (HT' : exists r : nat -> tsb * tsb * tsb * graph, forall i, i < k -> 
       ofold run_vcall (ts_begin_vertex (length (mem i)) (g_uvw g) (g_uew g)) (vcalls g p i) = Ok (r i).1.1.1 /\
       ts_begin_edge (r i).1.1.1 = Ok (r i).1.1.2 /\ ofold run_ecall (r i).1.1.2 (calls (edge_calls g p) i) = Ok (r i).1.2 /\ ts_finish (r i).1.2 = Ok (r i).2 /\
       induced g f i (r i).2).
    { assert (G : forall m, m <= k -> exists l : list (tsb * tsb * tsb * graph), length l = m /\ forall i r, l !! i = Some r ->
         ofold run_vcall (ts_begin_vertex (length (mem i)) (g_uvw g) (g_uew g)) (vcalls g p i) = Ok r.1.1.1 /\
         ts_begin_edge r.1.1.1 = Ok r.1.1.2 /\ ofold run_ecall r.1.1.2 (calls (edge_calls g p) i) = Ok r.1.2 /\ ts_finish r.1.2 = Ok r.2 /\
         induced g f i r.2).
      { induction m0 as [|j IH]; intros Hj; [by exists []|]. destruct IH as (l & Hl & H); [lia|]. destruct (HT j) as [r Hr].
        exists (l ++ [r]). split; [rewrite app_length; simpl; lia|]. intros i r' Hi. apply lookup_app_Some in Hi as [Hi|[Hge Hi]]; [by apply H|].
        assert (i = j) as -> by (apply lookup_lt_Some in Hi as Hlt; simpl in Hlt; lia).
        rewrite Hl, Nat.sub_diag in Hi. injection Hi as <-. apply Hr. lia. }
      destruct (G k (le_n _)) as (l & Hl & H). destruct (HT 0) as [d _]. exists (fun i => nth i l d). intros i Hi.
      apply H. apply lookup_nth. lia. }
    clear HT. destruct HT' as [r Hr].
    assert (Lb : length (sub_builders g counts) = k) by (unfold sub_builders; by rewrite fmap_length).
    assert (Hlt : forall {A} (l : list (nat * A)), (forall i a, (i, a) ∈ l -> i < k) -> Forall (fun c => fst c < k) l).
    { intros A l H. apply Forall_forall. intros [i a] Ha. by eapply H. }
    assert (HF : Forall (fun c => fst c < k) (edge_calls g p)).
    { apply Hlt. intros i a Ha. unfold edge_calls in Ha. apply elem_of_list_bind in Ha as (v & Ha & Hv%elem_of_seq).
      apply elem_of_list_fmap in Ha as (b & Eb & _). injection Eb as -> _. apply (lab_some g k p Hlab v). lia. }
    assert (HF2 : Forall (fun c => fst c < k) (vw_calls g p ++ inc_calls g p)).
    { apply Forall_app. split.
      - apply Hlt. intros i a Ha. unfold vw_calls in Ha. destruct (g_uvw g); [by apply elem_of_nil in Ha|].
        apply elem_of_list_fmap in Ha as (v & Eb & Hv%elem_of_seq). injection Eb as -> _. apply (lab_some g k p Hlab v). lia.
      - unfold inc_calls. apply Forall_fmap. eapply Forall_impl; [exact HF|]. done. }
    (* vertex phase *)
    destruct (spread_ok run_vcall (vw_calls g p ++ inc_calls g p) (sub_builders g counts) (fun i => (r i).1.1.1)) as (bs1 & E1 & L1 & B1).
    { rewrite Lb. done. }
    { intros i b Hb. assert (Hi : i < k) by (rewrite <- Lb; by eapply lookup_lt_Some). unfold sub_builders in Hb.
      rewrite list_lookup_fmap, (Hc i Hi) in Hb. injection Hb as <-. apply (Hr i Hi). }
    rewrite ofold_app in E1.
    assert (Evw : (if g_uvw g then Ok (sub_builders g counts) else sub_fill_vw g p (submap g p) (sub_builders g counts))
       = ofold (spread_step run_vcall) (sub_builders g counts) (vw_calls g p)).
    { destruct (g_uvw g) eqn:Eu; [unfold vw_calls; by rewrite Eu|]. by apply (fill_vw_calls g Hwf k p Hlab). }
    rewrite Evw. destruct (ofold (spread_step run_vcall) (sub_builders g counts) (vw_calls g p)) as [bs0|]; [|done].
    cbn [obind] in *. rewrite (count_calls g Hwf k p Hlab), E1. cbn [obind].
    rewrite Lb in L1, B1.
    rewrite (omap_list_ok ts_begin_edge bs1 (fun i => (r i).1.1.2)).
    2: { intros i b Hb. assert (Hi : i < k) by (rewrite <- L1; by eapply lookup_lt_Some). rewrite B1 in Hb by done. injection Hb as <-. by apply Hr. }
    cbn [obind]. rewrite L1, (fill_edges_calls g Hwf k p Hlab).
    destruct (spread_ok run_ecall (edge_calls g p) ((fun i => (r i).1.1.2) <$> seq 0 k) (fun i => (r i).1.2)) as (bs3 & E3 & L3 & B3).
    { rewrite fmap_length, seq_length. done. }
    { intros i b Hb. rewrite list_lookup_fmap in Hb. apply fmap_Some in Hb as (j & Hj & ->). apply lookup_seq in Hj as [-> Hj]. by apply Hr. }
    rewrite fmap_length, seq_length in L3, B3. rewrite E3. cbn [obind].
    rewrite (omap_list_ok ts_finish bs3 (fun i => (r i).2)).
    2: { intros i b Hb. assert (Hi : i < k) by (rewrite <- L3; by eapply lookup_lt_Some). rewrite B3 in Hb by done. injection Hb as <-. by apply Hr. }
    cbn [obind]. rewrite (omap_list_ok frozen (mp_super m) (fun i => name_of labels <$> mem i)).
    2: { intros i b Hb. assert (Hi : i < k) by (rewrite <- Lsup; by eapply lookup_lt_Some). rewrite Hsup in Hb by done. injection Hb as <-. apply frozen_some. }
    cbn [obind]. rewrite Lsup, L3. eexists. split; [done|]. split.
    { rewrite zip_with_length, !fmap_length, !seq_length. lia. }
    intros i Hi. exists (mkSub (name_of labels <$> mem i) (r i).2). split; [|split; [done|by apply Hr]].
    rewrite lookup_zip_with, !list_lookup_fmap, !lookup_seq_lt by done. done.
  Qed.
End Extract2.

(** ** Consequences *)
Section Induced.
  Context (g : graph) (Hwf : wf_graph g) (f : nat -> option nat) (i : nat) (sg : graph) (Hin : induced g f i sg).
  Local Notation mem := (members (nv g) f i).

  Lemma mem_at j : j < nv sg -> exists v, mem !! j = Some v.
  Proof. intros Hj. apply lookup_lt_is_Some. by rewrite <- (in_nv _ _ _ _ Hin). Qed.
  Lemma sum_members (h : nat -> Z) (h' : nat -> Z) : (forall j v, mem !! j = Some v -> h' j = h v) ->
    sumn (nv sg) h' = sumn (nv g) (fun v => if decide (f v = Some i) then h v else 0%Z).
  Proof.
    intros H. rewrite (in_nv _ _ _ _ Hin). transitivity (sumf h mem).
    - assert (G : forall (l : list nat) h', (forall j v, l !! j = Some v -> h' j = h v) -> sumn (length l) h' = sumf h l).
      { clear. induction l as [|a l IH]; intros h' H; [done|]. cbn [length].
        change (sumn (S (length l)) h') with (h' 0%nat + sumf h' (seq 1 (length l)))%Z. change (sumf h (a :: l)) with (h a + sumf h l)%Z. rewrite (H 0 a eq_refl). f_equal.
        rewrite <- fmap_S_seq, sumf_map. apply IH. intros j v Hj. by apply H. }
      by apply G.
    - unfold members. by rewrite sumf_filter.
  Qed.
  Lemma induced_W j j' v v' : mem !! j = Some v -> mem !! j' = Some v' -> W sg j j' = W g v v'.
  Proof.
    intros Hj Hj'. unfold W.
    assert (Hjl : j < nv sg) by (rewrite (in_nv _ _ _ _ Hin); by eapply lookup_lt_Some).
    transitivity (sumf (fun a => if decide (fst a = v') then snd a else 0%Z) (filter (fun a => f (fst a) = Some i) (out g v))).
    - rewrite <- (in_out _ _ _ _ Hin j v Hj), sumf_map. apply sumf_ext. intros a Ha. cbn [fst snd].
      pose proof (out_dst sg (in_wf _ _ _ _ Hin) j a Hjl Ha) as Hd. destruct (mem_at (fst a) Hd) as [u Hu].
      rewrite (nth_lt_eq _ _ _ _ Hu). destruct (decide (fst a = j')) as [E|E].
      + rewrite E in Hu. rewrite decide_True by congruence. done.
      + rewrite decide_False; [done|]. intros ->. apply E. eapply NoDup_lookup; [apply members_nodup|done|done].
    - rewrite sumf_filter. apply sumf_ext. intros a Ha. apply members_inv in Hj' as (_ & Hf & _). repeat case_decide; congruence.
  Qed.
  Lemma induced_symmetric : symmetric g -> symmetric sg.
  Proof.
    intros Hs j j' Hj Hj'. destruct (mem_at j Hj) as [v Hv]. destruct (mem_at j' Hj') as [v' Hv'].
    rewrite (induced_W j j' v v'), (induced_W j' j v' v) by done. apply Hs; by eapply members_inv.
  Qed.
  Lemma induced_loopless : loopless g -> loopless sg.
  Proof.
    intros Hl j d w Hj Ha ->. destruct (mem_at j Hj) as [v Hv].
    assert (He : (v, w) ∈ filter (fun a => f (fst a) = Some i) (out g v)).
    { rewrite <- (in_out _ _ _ _ Hin j v Hv). apply elem_of_list_fmap. exists (j, w). split; [|done]. cbn. by rewrite (nth_lt_eq _ _ _ _ Hv). }
    apply elem_of_list_filter in He as [_ He]. eapply (Hl v v w); [by eapply members_inv|exact He|done].
  Qed.
  Lemma induced_vsum : sumn (nv sg) (vweight sg) = label_weight g f (Some i).
  Proof. unfold label_weight. apply (sum_members (vweight g)). apply (in_vw _ _ _ _ Hin). Qed.
  Lemma induced_total : (total_edge_weight sg <= total_edge_weight g)%Z.
  Proof.
    unfold total_edge_weight. rewrite (sum_members (fun v => sumf snd (filter (fun a => f (fst a) = Some i) (out g v)))).
    - apply sumn_le. intros v Hv. case_decide; [|by apply out_nonneg]. rewrite sumf_filter. apply sumf_le. intros a Ha.
      pose proof (out_wgt g Hwf v a Hv Ha). case_decide; lia.
    - intros j v Hj. rewrite <- (in_out _ _ _ _ Hin j v Hj), sumf_map. done.
  Qed.
  Lemma induced_fits : fits g -> fits sg.
  Proof. unfold fits. pose proof induced_total. lia. Qed.
  Lemma induced_nv : nv sg <= nv g.
  Proof.
    rewrite (in_nv _ _ _ _ Hin). unfold members. pose proof (filter_length (fun v => f v = Some i) (seq 0 (nv g))) as H. rewrite seq_length in H. done.
  Qed.
  Lemma sum_out_len h : wf_graph h -> sumn (nv h) (fun v => Z.of_nat (length (out h v))) = Z.of_nat (ne h).
  Proof.
    intros Hh. pose proof (sum_out_edges h (fun _ => 1%Z) (wf_first h Hh) (wf_mono h Hh) (nv h) (le_n _)) as E.
    rewrite (wf_last h Hh), sumf_const, seq_length in E. rewrite Z.mul_1_l in E. rewrite <- E.
    apply sumn_ext. intros v _. rewrite sumf_const. lia.
  Qed.
  Lemma induced_ne : ne sg <= ne g.
  Proof.
    apply Nat2Z.inj_le. rewrite <- (sum_out_len g Hwf), <- (sum_out_len sg (in_wf _ _ _ _ Hin)).
    rewrite (sum_members (fun v => Z.of_nat (length (filter (fun a => f (fst a) = Some i) (out g v))))).
    - apply sumn_le. intros v Hv. pose proof (filter_length (fun a => f (fst a) = Some i) (out g v)). case_decide; lia.
    - intros j v Hj. rewrite <- (in_out _ _ _ _ Hin j v Hj), fmap_length. done.
  Qed.
End Induced.
