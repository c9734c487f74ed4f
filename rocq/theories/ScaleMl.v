(** * ScaleMl: coarsening and multilevel bisection of a graph and its multiple, side by side (C73). *)
From Coq Require Import ZArith Psatz.
From Verif Require Import Base F64 ModelGraph ModelBuilders ModelPartition ModelConn ModelFM ModelAgg ModelMultilevel ModelBisect Spec Logic RelLogic Sums GraphFacts PartFacts ConnFacts FMFacts
  BucketFacts MiscFacts AggFacts BuilderFacts ContractFacts ProjectFacts MultilevelFacts BisectFacts ScaleFM ScaleRef ScaleBfs.
Local Open Scope nat_scope.
#[local] Arguments seq : simpl nomatch.

(** ** Aggregation *)
Section Agg.
  Context (c : Z) (Hc : (0 < c)%Z) (g g' : graph) (Hs : scaled c g g') (Hwf : wf_graph g) (Hwf' : wf_graph g').
  Lemma sc_first maxW vw m es : first_allowed g' maxW vw m es = first_allowed g maxW vw m es.
  Proof.
    induction es as [|e es IH]; cbn [first_allowed]; [done|]. rewrite (sc_dst c g g' Hs). destruct (dst g e) as [u|]; [|done]. cbn [obind]. rewrite (sc_has_vw c g g' Hs), (sc_vwt c g g' Hs).
    destruct (vwt _ g u) as [uw|]; [|done]. cbn [obind]. destruct (mb_is_matched m u) as [mt|]; [|done]. cbn [obind]. destruct (_ && _); [done|]. apply IH.
  Qed.
  Lemma sc_rm_visit maxW m v : rm_visit g' maxW m v = rm_visit g maxW m v.
  Proof.
    unfold rm_visit. destruct (mb_is_matched m v) as [[]|]; cbn [obind]; [done| |done]. rewrite (sc_has_vw c g g' Hs), (sc_vwt c g g' Hs). destruct (vwt _ g v) as [vw|]; [|done]. cbn [obind].
    rewrite (sc_range c g g' Hs). destruct (edge_range g v) as [es|]; [|done]. cbn [obind]. by rewrite sc_first.
  Qed.
  Lemma rm_rel maxW : mrel eq (rm_aggregate maxW g) (rm_aggregate maxW g').
  Proof.
    apply mrel_eq. intros s. unfold rm_aggregate, rm_matching, mbindM, lift. rewrite (sc_nv c g g' Hs). destruct (random_order _ s) as [[perm s1]|]; [|done]. cbn [obind fst snd].
    rewrite (ofold_ext (rm_visit g maxW) (rm_visit g' maxW)); [done|]. intros a v _. by rewrite sc_rm_visit.
  Qed.
  Lemma ewt_true_rel e : length (g_ew g) = ne g -> length (g_ew g') = ne g' -> e < ne g -> orel (fun a b => b = (c * a)%Z) (ewt true g e) (ewt true g' e).
  Proof.
    intros L1 L2 He. rewrite (ewt_true_ok g e L1 He), (ewt_true_ok g' e L2) by (by rewrite (sc_ne c g g' Hs)). cbn. by apply (sc_ew _ _ _ Hs).
  Qed.
  Lemma heaviest_rel maxW vw m es : length (g_ew g) = ne g -> length (g_ew g') = ne g' -> Forall (fun e => e < ne g) es ->
    orel (fun a b => b = (fst a, (c * snd a)%Z)) (heaviest g maxW vw m es) (heaviest g' maxW vw m es).
  Proof.
    intros L1 L2 Hes. unfold heaviest. apply orel_fold; [|cbn [fst snd]; f_equal; lia]. intros x ? e He ->. cbn [fst snd]. rewrite Forall_forall in Hes. specialize (Hes e He).
    rewrite (sc_dst c g g' Hs). eapply orel_bind; [apply orel_refl|]. intros u ? <-. rewrite (sc_has_vw c g g' Hs), (sc_vwt c g g' Hs). eapply orel_bind; [apply orel_refl|]. intros uw ? <-.
    eapply orel_bind; [apply orel_refl|]. intros mt ? <-. destruct (_ && _); [|done]. eapply orel_bind; [by apply ewt_true_rel|]. intros pr ? ->. cbn [orel].
    replace (c * snd x <? c * pr)%Z with (snd x <? pr)%Z by (destruct (Z.ltb_spec (snd x) pr), (Z.ltb_spec (c * snd x) (c * pr)); nia || done). by destruct (_ || _).
  Qed.
  Lemma shem_visit_rel maxW m v : length (g_ew g) = ne g -> length (g_ew g') = ne g' -> v < nv g -> orel eq (shem_visit g maxW m v) (shem_visit g' maxW m v).
  Proof.
    intros L1 L2 Hv. unfold shem_visit. eapply orel_bind; [apply orel_refl|]. intros mt ? <-. destruct mt; [done|]. rewrite (sc_has_vw c g g' Hs), (sc_vwt c g g' Hs).
    eapply orel_bind; [apply orel_refl|]. intros vw ? <-. rewrite (sc_range c g g' Hs), (edge_range_ok g Hwf v Hv). cbn [obind].
    eapply orel_bind; [apply heaviest_rel; [done|done|]|].
    - apply Forall_forall. intros e He. by apply (edge_in_range g Hwf v).
    - intros x ? ->. cbn [fst]. apply orel_refl.
  Qed.
  Lemma degree_sorted_rel : mrel eq (degree_sorted_random (mkVS 0 (nv g)) g) (degree_sorted_random (mkVS 0 (nv g')) g').
  Proof.
    rewrite (sc_nv c g g' Hs). unfold degree_sorted_random. eapply (mrel_bind eq); [|intros d ? <-; apply mrel_refl]. apply mrel_lift. apply orel_fold; [|done]. intros x ? v _ <-. rewrite (sc_degree c g g' Hs). apply orel_refl.
  Qed.
  Lemma shem_rel maxW : length (g_ew g) = ne g -> length (g_ew g') = ne g' -> mrel eq (shem_aggregate maxW g) (shem_aggregate maxW g').
  Proof.
    intros L1 L2. unfold shem_aggregate, shem_matching. eapply (mrel_bind eq); [|intros m ? <-; apply mrel_refl].
    eapply (mrel_bind_wp eq _ (fun l => Forall (fun v => v < nv g) l)); [apply degree_sorted_rel| |].
    - eapply wpm_post; [apply (degree_sorted_wp anyf g (mkVS 0 (nv g)) Hwf); done|]. intros l [Hl _]. apply Forall_forall. intros v Hv. 
      rewrite Hl in Hv. unfold vs_iter, range in Hv. cbn [vs_begin vs_end] in Hv. apply elem_of_seq in Hv. lia.
    - intros l ? <- Hl. rewrite (sc_nv c g g' Hs). apply mrel_lift. apply orel_fold; [|done]. intros m ? v Hv <-. rewrite Forall_forall in Hl. by apply shem_visit_rel; [| |apply Hl].
  Qed.
End Agg.
(** For heavy edge matching the two have to agree on whether the weights are all one. *)
Definition same_kind (scheme : Z) (g g' : graph) : Prop := scheme = 0%Z \/ g_uew g' = g_uew g \/ ne g = 0.
Lemma aggregator_rel c scheme agg maxW g g' : (0 < c)%Z -> scaled c g g' -> wf_graph g -> wf_graph g' -> same_kind scheme g g' -> ne g <> 0 -> aggregator_make scheme = Ok agg -> mrel eq (agg maxW g) (agg maxW g').
Proof.
  intros Hc Hs Hwf Hwf' HK Hne. unfold aggregator_make. destruct (Z.eqb_spec scheme 0) as [E|E]; [intros [= <-]; by eapply rm_rel|]. destruct (Z.eqb_spec scheme 1) as [E1|E1]; [|done]. intros [= <-].
  destruct HK as [HK|[HK|HK]]; [done| |done]. unfold shemrm_aggregate. rewrite HK. destruct (g_uew g) eqn:Eu; [by eapply rm_rel|].
  apply (shem_rel c Hc g g' Hs Hwf); [by apply (wf_uew_f g Hwf)|by apply (wf_uew_f g' Hwf')].
Qed.

(** ** Contraction *)
Section Contract.
  Context (c : Z) (Hc : (0 < c)%Z) (g g' : graph) (Hs : scaled c g g') (Hud : undirected g) (Hud' : undirected g').
  Let Hwf : wf_graph g := ud_wf g Hud.
  Let Hwf' : wf_graph g' := ud_wf g' Hud'.
  Definition scl (x : Z) : Z := u32 (c * x).
  Record orl (b b' : osb) : Prop := {
    ol_nv : os_nv b' = os_nv b; ol_ne : os_ne b' = os_ne b; ol_prefix : os_prefix b' = os_prefix b; ol_adj : os_adj b' = os_adj b;
    ol_vw : os_vw b' = os_vw b; ol_tvw : os_tvw b' = os_tvw b; ol_ht : os_ht b' = os_ht b;
    ol_ew : os_ew b' = fmap (M := option) scl <$> os_ew b
  }.
  Lemma scl_0 : scl 0 = 0%Z. Proof. unfold scl. by rewrite Z.mul_0_r. Qed.
  Lemma scl_add a b : scl (u32 (a + b)) = u32 (scl a + c * b).
  Proof.
    unfold scl. rewrite u32_add_l. unfold u32. rewrite Z.mul_mod_idemp_r by done. f_equal. lia.
  Qed.
  Lemma wri_rel (l : list (option Z)) i w w' : w' = scl w -> orel (fun a b => b = fmap (M := option) scl <$> a) (wri l i w) (wri (fmap (M := option) scl <$> l) i w').
  Proof.
    intros ->. unfold wri, wr. rewrite fmap_length. destruct (decide _); [|done]. cbn. by rewrite list_fmap_insert.
  Qed.
  Lemma rdi_rel (l : list (option Z)) i : orel (fun a b => b = scl a) (rdi l i) (rdi (fmap (M := option) scl <$> l) i).
  Proof. unfold rdi, rd. rewrite list_lookup_fmap. destruct (l !! i) as [[x|]|]; cbn; done. Qed.
  Ltac same := eapply orel_bind; [apply orel_refl|]; let x := fresh "x" in let y := fresh "y" in intros x y <-.
  Lemma add_edge_rel b b' d w : orl b b' -> scl w = (c * w)%Z -> orel orl (os_add_edge b d w) (os_add_edge b' d (c * w)).
  Proof.
    intros [A B C D E F G H] Hw. unfold os_add_edge. rewrite A, B, C, D, E, F, G, H. same. destruct x as [i|].
    - eapply orel_bind; [apply rdi_rel|]. intros o ? ->. eapply orel_bind; [apply wri_rel; symmetry; apply scl_add|]. intros e ? ->. cbn. by split.
    - same. same. eapply orel_bind; [by apply wri_rel|]. intros e ? ->. cbn. by split.
  Qed.
  Lemma finish_vertex_rel b b' w : orl b b' -> orel orl (os_finish_vertex b w) (os_finish_vertex b' w).
  Proof.
    intros [A B C D E F G H]. unfold os_finish_vertex. rewrite A, B, C, D, E, F, G, H. cbv zeta. same. same. eapply orel_bind; [apply rdi_rel|]. intros w0 ? ->. same. same.
    eapply orel_bind; [apply rdi_rel|]. intros wl ? ->. eapply orel_bind; [by apply wri_rel|]. intros e1 ? ->. same. same. same. same. eapply orel_bind; [apply wri_rel; by rewrite scl_0|]. intros e2 ? ->. cbn. by split.
  Qed.
  Lemma frozen_rel (l : list (option Z)) : orel (fun a b => b = scl <$> a) (frozen l) (frozen (fmap (M := option) scl <$> l)).
  Proof.
    induction l as [|[x|] l IH]; cbn [frozen fmap list_fmap option_fmap option_map]; [done| |done]. eapply orel_bind; [exact IH|]. intros a ? ->. done.
  Qed.
  Record grl (h h' : graph) : Prop := {
    gl_pre : g_prefix h' = g_prefix h; gl_adj : g_adj h' = g_adj h; gl_vw : g_vw h' = g_vw h; gl_tvw : g_tvw h' = g_tvw h; gl_uvw : g_uvw h' = g_uvw h;
    gl_uew : g_uew h = false /\ g_uew h' = false; gl_ew : g_ew h' = scl <$> g_ew h
  }.
  Lemma finish_rel b b' : orl b b' -> orel grl (os_finish b) (os_finish b').
  Proof.
    intros [A B C D E F G H]. unfold os_finish. rewrite B, C, D, E, F, H. cbv zeta. same. same. same. rewrite <- fmap_take. eapply orel_bind; [apply frozen_rel|]. intros e ? ->. cbn. by split.
  Qed.
  Lemma contract_rel a : grouping (nv g) a -> orel grl (contract g a) (contract g' a).
  Proof.
    intros Hg. unfold contract. rewrite (sc_ne c g g' Hs). eapply (orel_bind orl).
    { destruct (os_new (a_num_coarse a) (ne g)) as [b|f] eqn:Eb; [|done]. cbn. unfold os_new in Eb.
      destruct (wri (alloc _) 0 0) as [pre|]; [|done]. cbn [obind] in Eb. destruct (wr _ 0 (Some 0)) as [ht|]; [|done]. cbn [obind] in Eb. destruct (wri (alloc _) 0 0) as [adj|]; [|done]. cbn [obind] in Eb.
      destruct (wri _ 0 0%Z) as [ew|] eqn:Ew; [|done]. cbn [obind] in Eb. injection Eb as <-. split; try done. cbn [os_ew].
      unfold wri, wr in Ew. destruct (decide _); [|done]. apply (f_equal (fun x => match x with Ok l => l | Fail _ => [] end)) in Ew. rewrite <- Ew, list_fmap_insert. cbn [fmap option_fmap option_map]. rewrite scl_0. f_equal. unfold alloc. by rewrite fmap_replicate. }
    intros b b' Hb. eapply orel_bind; [|apply finish_rel]. apply orel_fold; [|done]. intros x y k Hk Hxy. unfold contract_group. apply elem_of_seq in Hk.
    assert (Hgr := proj2 (proj2 Hg) k ltac:(lia)). rewrite Hgr. cbn [obind].
    eapply (orel_bind (fun s s' => orl (fst s) (fst s') /\ snd s' = snd s)).
    - apply orel_fold; [|done]. intros s s' v Hv [H1 H2]. apply elem_of_list_filter in Hv as [_ Hv]. apply elem_of_seq in Hv. unfold contract_vertex. rewrite (sc_has_vw c g g' Hs), (sc_vwt c g g' Hs). same.
      eapply orel_bind; [apply (for_edges_rel c g g' Hs Hwf orl); [lia|exact H1|]|].
      + intros e p q He Hpq. rewrite (sc_dst c g g' Hs). same. same. assert (He' : e < ne g') by (by rewrite (sc_ne c g g' Hs)). rewrite (ewt_ok g Hwf e He), (ewt_ok g' Hwf' e He'). cbn [obind]. rewrite (sc_ew _ _ _ Hs e He).
        apply add_edge_rel; [done|]. unfold scl. apply u32_small. rewrite <- (sc_ew _ _ _ Hs e He). by apply (wf_ew_range g' Hwf').
      + intros p q Hpq. cbn. by rewrite H2.
    - intros s s' [H1 H2]. rewrite H2. by apply finish_vertex_rel.
  Qed.
End Contract.

Section Level.
  Context (c : Z) (Hc : (0 < c)%Z).
  Lemma coarse_ud g a cg : undirected g -> grouping (nv g) a -> coarse_of g a cg -> undirected cg.
  Proof. intros [Hwf Hsy Hlo Hfi] Hg H. constructor; [apply H|by eapply coarse_symmetric|apply H|by eapply coarse_fits]. Qed.
  Lemma edge_le_total g e : wf_graph g -> e < ne g -> (wgt_at (g_ew g) e <= total_edge_weight g)%Z.
  Proof.
    intros Hwf He. pose proof (sum_out_edges g snd (wf_first g Hwf) (wf_mono g Hwf) (nv g) (le_n _)) as E. unfold total_edge_weight. rewrite E, (wf_last g Hwf). cbn [snd].
    apply (sumf_elem_le (fun e => wgt_at (g_ew g) e) (seq 0 (ne g)) e); [intros x Hx%elem_of_seq; apply (wf_ew_range g Hwf)|apply elem_of_seq; lia].
  Qed.
  Lemma wgt_look l e x : l !! e = Some x -> wgt_at l e = x.
  Proof. intros H. unfold wgt_at. destruct l; [done|]. by apply nth_lt_eq. Qed.
  Lemma contract_scaled g g' a : scaled c g g' -> undirected g -> undirected g' -> grouping (nv g) a ->
    exists cg cg', contract g a = Ok cg /\ contract g' a = Ok cg' /\ coarse_of g a cg /\ coarse_of g' a cg' /\ scaled c cg cg' /\ g_uew cg = false /\ g_uew cg' = false.
  Proof.
    intros Hs Hud Hud' Hg. pose proof Hud as [Hwf Hsy Hlo Hfi]. pose proof Hud' as [Hwf' Hsy' Hlo' Hfi']. pose proof (sc_nv c g g' Hs) as Hnv.
    destruct (contract_ok g a Hwf Hg) as (cg & E & H). destruct (contract_ok g' a Hwf' ltac:(by rewrite Hnv)) as (cg' & E' & H'). exists cg, cg'.
    pose proof (contract_rel c g g' Hs Hud Hud' a Hg) as R. rewrite E, E' in R. cbn in R. destruct R as [A1 A2 A3 A4 A5 [A6 A7] A8]. split_and!; try done.
    constructor; try done. intros e He. pose proof (wf_uew_f cg (co_wf _ _ _ H) A6) as L.
    assert (Hw : forall x, g_ew cg !! e = Some x -> scl c x = (c * x)%Z).
    { intros x Hx. pose proof (wgt_look _ _ _ Hx) as Ex.
      pose proof (edge_le_total cg e (co_wf _ _ _ H) He) as B. pose proof (wf_ew_range cg (co_wf _ _ _ H) e) as B'. rewrite Ex in B, B'.
      pose proof (coarse_total g Hwf a Hg cg H Hfi Hsy) as T. pose proof (edge_cut_le_total g Hwf (group_of a) Hsy) as T'. pose proof (sc_total c g g' Hs Hwf) as T2. unfold fits in Hfi'.
      unfold scl. apply u32_small. split; [apply Z.mul_nonneg_nonneg; lia|]. eapply Z.le_lt_trans; [apply Z.mul_le_mono_nonneg_l; [lia|exact B]|]. rewrite T. rewrite T2 in Hfi'.
      eapply Z.le_lt_trans; [apply Z.mul_le_mono_nonneg_l; [lia|exact T']|exact Hfi']. }
    rewrite A8. unfold ne in *. destruct (lookup_lt_is_Some_2 (g_ew cg) e ltac:(lia)) as [x Hx]. specialize (Hw x Hx).
    rewrite (wgt_look (g_ew cg) e x Hx), (wgt_look _ e (scl c x)); [done|]. by rewrite list_lookup_fmap, Hx.
  Qed.
  Lemma fresh_same g g' f f' x y : scaled c g g' -> wf_graph g -> conn_exact g f x -> border_fresh g f x -> conn_exact g' f' y -> border_fresh g' f' y -> (forall v, v < nv g -> f' v = f v) -> c_border y = c_border x.
  Proof.
    intros Hs Hwf (_ & _ & L1 & _) F1 (_ & _ & L2 & _) F2 Hf. pose proof (sc_nv c g g' Hs) as Hnv. apply list_eq. intros u. destruct (decide (u < nv g)) as [Hu|Hu]; [|rewrite !lookup_ge_None_2; [done|lia|lia]].
    specialize (F1 u Hu). specialize (F2 u ltac:(by rewrite Hnv)). rewrite (sc_external c g g' Hs Hwf), (sc_internal c g g' Hs Hwf) in F2 by done.
    rewrite (external_ext g f' f u Hwf Hu Hf), (internal_ext g f' f u Hwf Hu Hf) in F2.
    destruct (lookup_lt_is_Some_2 (c_border x) u ltac:(lia)) as [bx Hx]. destruct (lookup_lt_is_Some_2 (c_border y) u ltac:(lia)) as [by_ Hy]. rewrite Hx, Hy in *.
    assert (Hi : (0 < c * external g f u \/ c * internal g f u = 0)%Z <-> (0 < external g f u \/ internal g f u = 0)%Z) by nia. rewrite Hi in F2. f_equal.
    destruct bx, by_; try done; [destruct F1 as [F1 _]; specialize (F1 eq_refl); apply F2 in F1; congruence|destruct F2 as [F2 _]; specialize (F2 eq_refl); apply F1 in F2; congruence].
  Qed.
  Lemma project_rel g g' a cg cg' x y : scaled c g g' -> undirected g -> undirected g' -> grouping (nv g) a -> coarse_of g a cg -> coarse_of g' a cg' -> cprel cg cg' x y ->
    orel (cprel g g') (project (mkCG g cg (a_cmap a)) (fst x) (snd x)) (project (mkCG g' cg' (a_cmap a)) (fst y) (snd y)).
  Proof.
    intros Hs Hud Hud' Hg H H' HR. pose proof Hud as [Hwf Hsy Hlo Hfi]. pose proof Hud' as [Hwf' Hsy' Hlo' Hfi']. pose proof (sc_nv c g g' Hs) as Hnv.
    assert (HB : forall h (z : conn * part), wf_graph h -> ml_good h z -> length (c_border (fst z)) = nv h /\ forall d, d < nv h -> (0 < external h (lab (snd z)) d)%Z -> c_border (fst z) !! d = Some true).
    { intros h z Hh (_ & HC & HB). split; [apply HC|]. intros d Hd He. apply (HB d Hd); [|done]. rewrite <- (int_ext_total h (lab (snd z)) d). pose proof (internal_nonneg h Hh (lab (snd z)) d Hd). lia. }
    destruct (HB cg x (co_wf _ _ _ H) (cp_good _ _ _ _ HR)) as [B1 B2]. destruct (HB cg' y (co_wf _ _ _ H') (cp_good' _ _ _ _ HR)) as [B3 B4].
    eapply orel_wp; [apply (project_wp g Hwf Hsy Hfi a Hg cg H 2 (snd x) (proj1 (cp_good _ _ _ _ HR)) (fst x) B1 B2)|
      apply (project_wp g' Hwf' Hsy' Hfi' a ltac:(by rewrite Hnv) cg' H' 2 (snd y) (proj1 (cp_good' _ _ _ _ HR)) (fst y) B3 B4)|].
    intros p q (P1 & P2 & P3 & P4 & _) (Q1 & Q2 & Q3 & Q4 & _).
    assert (HW : p_where (snd q) = p_where (snd p)).
    { apply list_eq. intros u. destruct (decide (u < nv g)) as [Hu|Hu]; [rewrite P4, Q4 by (rewrite ?Hnv; done); by rewrite (cp_where _ _ _ _ HR)|].
      destruct P3 as [[[LP _] _] _]. destruct Q3 as [[[LQ _] _] _]. rewrite !lookup_ge_None_2; [done|lia|lia]. }
    split; [|by split; [|split; [|by apply fresh_exact]]|done|].
    - split; [done|]. split; [done|]. by apply fresh_exact.
    - eapply fresh_same; try done. intros v _. unfold lab. by rewrite HW.
  Qed.

  Context (scheme : Z) (agg : aggregator) (Hagg : aggregator_make scheme = Ok agg) (t : target) (Ht : two_way t) (maxW k it mv : Z) (Hk : (0 < k)%Z).
  Let stop : criteria := composite_stop [vertex_number_stop 20; edge_ratio_stop f_0_95].
  Lemma stop_same lvl par par' g g' : nv g' = nv g -> ne g' = ne g -> match par, par' with None, None => True | Some f, Some f' => ne f' = ne f | _, _ => False end ->
    stop lvl par' (Some g') = stop lvl par (Some g).
  Proof.
    intros E1 E2 E3. unfold stop. cbn [composite_stop]. unfold vertex_number_stop, edge_ratio_stop. rewrite E1, E2. destruct par, par'; try done. by rewrite E3.
  Qed.
  Lemma stop_edges lvl par g : stop lvl par (Some g) = Ok false -> ne g <> 0.
  Proof.
    unfold stop. cbn [composite_stop]. unfold vertex_number_stop, edge_ratio_stop. intros H E. rewrite E in H. cbn [obind Nat.eqb] in H. destruct (Nat.leb _ _); [done|]. destruct (_ && _); done.
  Qed.
  Lemma ml_rel fuel : forall lvl par par' g g', scaled c g g' -> undirected g -> undirected g' -> same_kind scheme g g' ->
    match par, par' with None, None => True | Some f, Some f' => ne f' = ne f | _, _ => False end ->
    mrel (cprel g g') (ml_recurse agg (multi_execute k bfs_execute) (fm_refine it mv) stop maxW t fuel lvl par g) (ml_recurse agg (multi_execute k bfs_execute) (fm_refine it mv) stop maxW t fuel lvl par' g').
  Proof.
    induction fuel as [|fuel IH]; intros lvl par par' g g' Hs Hud Hud' HK HP; cbn [ml_recurse]; rewrite (stop_same lvl par par' g g' (sc_nv c g g' Hs) (sc_ne c g g' Hs) HP); (destruct (stop lvl par (Some g)) as [b|] eqn:Est; [apply mrel_ok|apply mrel_fail]);
      pose proof Hud as [Hwf Hsy Hlo Hfi]; pose proof Hud' as [Hwf' Hsy' Hlo' Hfi']; pose proof (sc_nv c g g' Hs) as Hnv.
    all: destruct b.
    1,3: eapply mrel_bind; [apply (multi_rel c Hc g g' Hs t k _ _ Hk (bfs_rel c Hc g g' Hs Hud Hud' t Ht))|]; intros p p' (X1 & X2 & ->);
      eapply (mrel_bind (fun a b => ml_good g (a, p) /\ ml_good g' (b, ptimes c p) /\ c_border b = c_border a)); [|intros a b (G1 & G2 & G3); apply mrel_ret; by split];
      apply mrel_lift; eapply orel_wp; [apply (from_partitioning_wp g Hwf Hfi never p); apply X1|apply (from_partitioning_wp g' Hwf' Hfi' never (ptimes c p)); apply X2|];
      intros a b [C1 C2] [D1 D2]; (split; [split; [done|]; split; [done|]; by apply fresh_exact|]); (split; [split; [done|]; split; [done|]; by apply fresh_exact|]); by eapply fresh_same.
    - apply mrel_fail.
    - apply stop_edges in Est. eapply (mrel_bind_wp eq); [by apply (aggregator_rel c scheme agg maxW g g')|by apply (aggregator_make_wp scheme agg anyf g maxW Hagg Hwf Hlo)|]. intros a ? <- [Hg _].
      destruct (contract_scaled g g' a Hs Hud Hud' Hg) as (cg & cg' & E & E' & Hcg & Hcg' & Hsc & U1 & U2).
      unfold coarse_make. rewrite E, E'. cbn [obind]. rewrite Hnv. destruct (Nat.eqb _ _); [|apply mrel_fail]. apply mrel_ok. cbn [cg_coarse].
      pose proof (coarse_ud g a cg Hud Hg Hcg) as Uc. pose proof (coarse_ud g' a cg' Hud' ltac:(by rewrite Hnv) Hcg') as Uc'.
      eapply mrel_bind; [apply (IH (S lvl) (Some g) (Some g') cg cg' Hsc Uc Uc')|].
      + right. left. by rewrite U1, U2.
      + apply (sc_ne c g g' Hs).
      + intros x y HR. eapply mrel_bind; [apply mrel_lift; by apply (project_rel g g' a cg cg' x y)|]. intros x1 y1 HR1.
        apply (refine_rel c Hc g g' Hs Hud Hud' t ltac:(rewrite (tw_frac t Ht); lia) ltac:(rewrite (tw_max t Ht); lia) it mv x1 y1 HR1).
  Qed.
End Level.
