(** * ScaleRec: recursive bisection and the whole call on a graph and its multiple (C73). *)
From Coq Require Import ZArith Psatz.
From Verif Require Import Base F64 ModelGraph ModelBuilders ModelPartition ModelConn ModelFM ModelAgg ModelMultilevel ModelBisect ModelRecursive ModelApi Spec Logic RelLogic Sums GraphFacts PartFacts
  MultilevelFacts BisectFacts SubFacts RecFacts ApiFacts MiscFacts FloatUse ScaleFM ScaleRef ScaleBfs ScaleMl.
Local Open Scope nat_scope.
#[local] Arguments seq : simpl nomatch.

(** If both return, then related values. *)
Definition prl {A B} (R : A -> B -> Prop) (a : outcome A) (b : outcome B) : Prop := match a, b with Ok x, Ok y => R x y | _, _ => True end.
Lemma prl_bind {A B A' B'} (R : A -> A' -> Prop) (Q : B -> B' -> Prop) a a' k k' : prl R a a' -> (forall x y, R x y -> prl Q (k x) (k' y)) -> prl Q (obind a k) (obind a' k').
Proof. intros H HK. destruct a, a'; cbn in *; auto. by destruct (k a). Qed.
Lemma prl_refl {A} (a : outcome A) : prl eq a a. Proof. by destruct a. Qed.
Lemma prl_fold {S S' A} (R : S -> S' -> Prop) (f : S -> A -> outcome S) (f' : S' -> A -> outcome S') l :
  (forall s s' a, R s s' -> prl R (f s a) (f' s' a)) -> forall s s', R s s' -> prl R (ofold f s l) (ofold f' s' l).
Proof. intros HF. induction l as [|a l IH]; intros s s' HR; [exact HR|]. cbn [ofold]. eapply prl_bind; [by apply HF|]. intros x y. apply IH. Qed.
Lemma prl_omap {A A' B B'} (R : A -> A' -> Prop) (Q : B -> B' -> Prop) f f' : (forall a a', R a a' -> prl Q (f a) (f' a')) -> forall l l', Forall2 R l l' -> prl (Forall2 Q) (omap_list f l) (omap_list f' l').
Proof.
  intros H l l' HF. induction HF as [|a a' l l' HR HF IH]; cbn [omap_list]; [cbn; constructor|]. eapply prl_bind; [by apply H|]. intros x y Hxy. eapply prl_bind; [exact IH|]. intros xs ys HF2. cbn. by constructor.
Qed.

(** ** Extracting the parts *)
Record tr (b b' : tsb) : Prop := {
  tr_nv : ts_nv b' = ts_nv b; tr_ne : ts_ne b' = ts_ne b; tr_uvw : ts_uvw b' = ts_uvw b; tr_prefix : ts_prefix b' = ts_prefix b; tr_adj : ts_adj b' = ts_adj b; tr_vw : ts_vw b' = ts_vw b
}.
Record shape (g g' : graph) : Prop := {
  sh_pre : g_prefix g' = g_prefix g; sh_adj : g_adj g' = g_adj g; sh_vw : g_vw g' = g_vw g; sh_tvw : g_tvw g' = g_tvw g; sh_uvw : g_uvw g' = g_uvw g
}.
Ltac psame := eapply prl_bind; [apply prl_refl|]; let x := fresh "x" in let y := fresh "y" in intros x y <-.
Lemma with_builder_prl bs bs' a f f' : Forall2 tr bs bs' -> (forall b b', tr b b' -> prl tr (f b) (f' b')) -> prl (Forall2 tr) (with_builder bs a f) (with_builder bs' a f').
Proof.
  intros HF H. unfold with_builder. psame. unfold rd, wr. pose proof (Forall2_length _ _ _ HF) as HL. destruct (bs !! x) as [b|] eqn:Eb.
  - destruct (Forall2_lookup_l _ _ _ _ _ HF Eb) as (b' & -> & Hb). cbn [obind]. eapply prl_bind; [by apply H|]. intros y z Hyz. rewrite <- HL. destruct (decide _); [|done]. cbn. by apply Forall2_insert.
  - destruct (bs' !! x); done.
Qed.
Section Sub.
  Context (c : Z) (g g' : graph) (Hs : scaled c g g').
  Lemma for_edges_prl {S S'} (R : S -> S' -> Prop) v f f' s s' : R s s' -> (forall e s s', R s s' -> prl R (f s e) (f' s' e)) -> prl R (for_edges g v f s) (for_edges g' v f' s').
  Proof. intros HR HF. unfold for_edges. rewrite (sc_range c g g' Hs). psame. apply prl_fold; [|done]. intros a b e Hab. by apply HF. Qed.
  Lemma for_vertices_prl {S S'} (R : S -> S' -> Prop) f f' s s' : R s s' -> (forall v s s', R s s' -> prl R (f s v) (f' s' v)) -> prl R (for_vertices g f s) (for_vertices g' f' s').
  Proof. intros HR HF. unfold for_vertices. rewrite (sc_nv c g g' Hs). apply prl_fold; [|done]. intros a b v Hab. by apply HF. Qed.
  Lemma sub_prl p labels : prl (Forall2 (fun s s' => sg_super s' = sg_super s /\ shape (sg_graph s) (sg_graph s'))) (sub_partitions g p labels) (sub_partitions g' p labels).
  Proof.
    unfold sub_partitions. psame. replace (sub_maps g' p labels x) with (sub_maps g p labels x) by (unfold sub_maps, for_vertices; by rewrite (sc_nv c g g' Hs)). psame. rewrite (sc_uvw _ _ _ Hs).
    assert (H0 : Forall2 tr (sub_builders g x) (sub_builders g' x)).
    { unfold sub_builders. apply Forall2_fmap. apply Forall_Forall2_diag. apply Forall_true. intros k. by rewrite (sc_uvw _ _ _ Hs). }
    eapply (prl_bind (Forall2 tr)).
    { destruct (g_uvw g); [exact H0|]. unfold sub_fill_vw. apply for_vertices_prl; [exact H0|]. intros v bs bs' HF. psame. psame. rewrite (sc_vwt c g g' Hs). psame. apply with_builder_prl; [done|].
      intros b b' [A B C D E F]. unfold ts_set_vertex_weight. rewrite F. psame. cbn. by split. }
    intros bs bs' HF. eapply (prl_bind (Forall2 tr)).
    { unfold sub_count_edges. apply for_vertices_prl; [exact HF|]. intros v as_ bs1 HF1. psame. psame. apply for_edges_prl; [done|]. intros e cs ds HF2. rewrite (sc_dst c g g' Hs). psame. psame.
      destruct (decide _); [|done]. apply with_builder_prl; [done|]. intros b b' [A B C D E F]. unfold ts_inc_num_edges. rewrite D. psame. psame. cbn. by split. }
    clear bs bs' HF. intros bs bs' HF. eapply (prl_bind (Forall2 tr)).
    { eapply prl_omap; [|exact HF]. intros b b' [A B C D E F]. unfold ts_begin_edge. rewrite A, D. psame. psame. cbn. by split. }
    clear bs bs' HF. intros bs bs' HF. eapply (prl_bind (Forall2 tr)).
    { unfold sub_fill_edges. apply for_vertices_prl; [exact HF|]. intros v as_ bs1 HF1. psame. psame. apply for_edges_prl; [done|]. intros e cs ds HF2. rewrite (sc_dst c g g' Hs). psame. psame.
      destruct (decide _); [|done]. psame. eapply (prl_bind (fun _ _ => True)); [by destruct (ewt _ g e), (ewt _ g' e)|]. intros w w' _. apply with_builder_prl; [done|]. intros b b' [A B C D E F].
      unfold ts_add_edge. rewrite D, E. psame. psame. psame. eapply (prl_bind (fun _ _ => True)); [|intros e1 e2 _; cbn; by split].
      destruct (ts_uew b), (ts_uew b'); repeat (match goal with |- context [wri ?l ?i ?w] => destruct (wri l i w) end); done. }
    clear bs bs' HF. intros bs bs' HF. eapply (prl_bind (Forall2 shape)).
    { eapply prl_omap; [|exact HF]. intros b b' [A B C D E F]. unfold ts_finish. rewrite E, F. psame. psame. eapply (prl_bind (fun _ _ => True)); [by destruct (frozen (ts_ew b)), (frozen (ts_ew b'))|].
      intros e e' _. unfold graph_make. rewrite D. destruct (Nat.eqb (length (ts_prefix b)) 0); [done|]. cbv zeta. psame.
      eapply (prl_bind (fun _ _ => True)); [by destruct (if Nat.eqb _ 0 then _ else _), (if Nat.eqb _ 0 then _ else _)|]. intros et et' _. cbn. by split. }
    intros gs gs' HG. eapply prl_bind; [apply prl_refl|]. intros sup ? <-. cbn. clear - HG. revert gs gs' HG. induction sup as [|s l IH]; intros gs gs' HG; [constructor|]. destruct HG as [|h h' gs gs' H HG]; [constructor|]. cbn. constructor; [done|]. by apply IH.
  Qed.
End Sub.
Lemma edge_owner g e : wf_graph g -> e < ne g -> exists v, v < nv g /\ pre_at g v <= e < pre_at g (S v).
Proof.
  intros Hwf He. assert (H : forall n, n <= nv g -> e < pre_at g n -> exists v, v < n /\ pre_at g v <= e < pre_at g (S v)).
  { induction n as [|n IH]; intros Hn Hlt; [rewrite (wf_first g Hwf) in Hlt; lia|]. destruct (decide (e < pre_at g n)) as [H|H]; [destruct (IH ltac:(lia) H) as (v & Hv & Hr); exists v; lia|]. exists n. lia. }
  apply H; [lia|]. by rewrite (wf_last g Hwf).
Qed.
Lemma owner_out g v e : pre_at g v <= e < pre_at g (S v) -> out g v !! (e - pre_at g v) = Some (nth e (g_adj g) 0, wgt_at (g_ew g) e).
Proof. intros H. unfold out. rewrite list_lookup_fmap, lookup_seq_lt by lia. cbn. do 2 f_equal; f_equal; lia. Qed.
Lemma shape_scaled c g g' : shape g g' -> wf_graph g -> (forall v, v < nv g -> snd <$> out g' v = (fun a => (c * snd a)%Z) <$> out g v) -> scaled c g g'.
Proof.
  intros [A B C D E] Hwf H. constructor; try done. intros e He. destruct (edge_owner g e Hwf He) as (v & Hv & Hr). specialize (H v Hv).
  assert (Hp : forall u, pre_at g' u = pre_at g u) by (intros u; unfold pre_at; by rewrite A).
  pose proof (owner_out g v e Hr) as O1. pose proof (owner_out g' v e ltac:(rewrite !Hp; done)) as O2. rewrite Hp in O2.
  apply (f_equal (fun l => l !! (e - pre_at g v))) in H. rewrite !list_lookup_fmap, O1, O2 in H. cbn in H. congruence.
Qed.

(** ** The recursion *)
Definition no_ones (g : graph) : Prop := forall v a, v < nv g -> a ∈ out g v -> snd a <> 1%Z.
Section Rec.
  Context (c : Z) (Hc : (0 < c)%Z).
  Definition kind (scheme : Z) (g : graph) : Prop := scheme = 0%Z \/ no_ones g.
  Lemma kind_same scheme g g' : scaled c g g' -> wf_graph g -> wf_graph g' -> kind scheme g -> same_kind scheme g g'.
  Proof.
    intros Hs Hwf Hwf' [H|H]; [by left|]. right. destruct (decide (ne g = 0)) as [|Hn]; [by right|]. left. destruct (edge_owner g 0 Hwf ltac:(lia)) as (v & Hv & Hr). pose proof (owner_out g v 0 Hr) as O.
    apply elem_of_list_lookup_2 in O. specialize (H v _ Hv O). cbn [snd] in H.
    destruct (g_uew g) eqn:E; [exfalso; apply H, (wf_uew_t g Hwf E); lia|]. destruct (g_uew g') eqn:E'; [|done]. exfalso.
    pose proof (wf_uew_t g' Hwf' E' 0 ltac:(rewrite (sc_ne c g g' Hs); lia)) as W1. rewrite (sc_ew _ _ _ Hs 0 ltac:(lia)) in W1. pose proof (wf_ew_range g Hwf 0). apply H. nia.
  Qed.
  Record both (g g' : graph) : Prop := { bo_sc : scaled c g g'; bo_ud : undirected g; bo_ud' : undirected g' }.
  Lemma induced_ud g f i sg : undirected g -> induced g f i sg -> undirected sg.
  Proof. intros [A B C D] H. constructor; [apply H|by eapply induced_symmetric|by eapply induced_loopless|by eapply induced_fits]. Qed.
  Lemma induced_scaled g g' f i sg sg' : both g g' -> induced g f i sg -> induced g' f i sg' -> shape sg sg' -> both sg sg'.
  Proof.
    intros [Hs Hud Hud'] H H' Hsh. constructor; [|exact (induced_ud g f i sg Hud H)|exact (induced_ud g' f i sg' Hud' H')]. pose proof Hud as [Hwf _ _ _]. pose proof (sc_nv c g g' Hs) as Hnv.
    apply shape_scaled; [done|apply H|]. intros j Hj. rewrite (in_nv _ _ _ _ H) in Hj. destruct (lookup_lt_is_Some_2 _ _ Hj) as [v Hv].
    pose proof (in_out _ _ _ _ H j v Hv) as E. pose proof (in_out _ _ _ _ H' j v ltac:(by rewrite Hnv)) as E'.
    assert (Hvn : v < nv g) by (by eapply members_inv).
    rewrite Hnv in E'. rewrite (sc_out c g g' Hs Hwf v Hvn) in E'.
    assert (HF : forall l : list (nat * Z), filter (fun a => f (fst a) = Some i) (times c <$> l) = times c <$> filter (fun a => f (fst a) = Some i) l).
    { intros l. induction l as [|a l IH]; [done|]. rewrite fmap_cons, !filter_cons. cbn [times fst]. destruct (decide _); cbn; by rewrite IH. }
    rewrite HF, <- E in E'. apply (f_equal (fmap snd)) in E'. rewrite <- !list_fmap_compose in E'. exact E'.
  Qed.
  Lemma induced_kind scheme g f i sg : induced g f i sg -> kind scheme g -> kind scheme sg.
  Proof.
    intros H [Hk|Hk]; [by left|]. right. intros j a Hj Ha. rewrite (in_nv _ _ _ _ H) in Hj. destruct (lookup_lt_is_Some_2 _ _ Hj) as [v Hv].
    pose proof (in_out _ _ _ _ H j v Hv) as E. assert (Hvn : v < nv g) by (by eapply members_inv).
    apply (elem_of_list_fmap_1 (fun a => (nth (fst a) (members (nv g) f i) 0, snd a))) in Ha. rewrite E in Ha. apply elem_of_list_filter in Ha as [_ Ha]. exact (Hk v _ Hvn Ha).
  Qed.
  Context (scheme : Z) (bis : bisector) (Hbis : api_bisector scheme = Ok bis) (lg : nat -> f64).
  Lemma bis_rel t g g' : both g g' -> kind scheme g -> two_way t -> mrel (prel2 c g g') (bis t g) (bis t g').
  Proof.
    intros [Hs Hud Hud'] HK Ht. unfold api_bisector in Hbis. destruct (aggregator_make scheme) as [agg|] eqn:Ea; [|done]. cbn in Hbis. injection Hbis as <-.
    unfold ml_execute. rewrite ml_criteria_eq. apply mrel_ok. unfold ml_max_weight. rewrite (sc_tvw _ _ _ Hs), (sc_ne c g g' Hs). apply mrel_same. intros mw.
    eapply mrel_bind; [apply (ml_rel c Hc scheme agg Ea t Ht mw 8 8 150 ltac:(lia) (S (ne g)) 0 None None g g' Hs Hud Hud'); [|done]|].
    - apply kind_same; [done|apply Hud|apply Hud'|done].
    - intros x y H. apply mrel_ret. split; [apply (cp_good _ _ _ _ H)|]. split; [apply (cp_good' _ _ _ _ H)|]. apply (cp_part c g g' Hs Hud x y H).
  Qed.
  Record mboth (m m' : mapped) : Prop := {
    mb_both : both (m_graph m) (m_graph m');
    mb_names : match m, m' with MWrap _, MWrap _ => True | MSub s, MSub s' => sg_super s' = sg_super s /\ length (sg_super s) = nv (sg_graph s) | _, _ => False end
  }.
  Lemma map_same m m' p off labels : mboth m m' -> map_partitioning m' (ptimes c p) off labels = map_partitioning m p off labels.
  Proof.
    intros [[Hs _ _] HN]. unfold map_partitioning, for_vertices. rewrite (sc_nv c _ _ Hs). apply ofold_ext. intros ls v _. unfold get_assignment. cbn [ptimes p_where].
    destruct (rd _ v); [|done]. cbn [obind]. destruct (pw_index _); [|done]. cbn [obind]. destruct m as [h|s], m' as [h'|s']; try done. cbn [m_super]. by rewrite (proj1 HN).
  Qed.
  Lemma rec_rel fuel : forall t m m' off labels, mboth m m' -> kind scheme (m_graph m) -> mrel eq (rb_recurse lg bis fuel t m off labels) (rb_recurse lg bis fuel t m' off labels).
  Proof.
    induction fuel as [|fuel IH]; intros t m m' off labels HM HK; cbn [rb_recurse]; [apply mrel_fail|]. cbv zeta. destruct (bisect_target t _) as [bt|] eqn:Ebt; [apply mrel_ok|apply mrel_fail].
    pose proof (bisect_target_two _ _ _ Ebt) as Hbt. pose proof HM as [HB HN]. eapply mrel_bind; [by apply bis_rel|]. intros p ? (X1 & X2 & ->). rewrite (map_same m m' p off labels HM).
    apply mrel_same. intros ls. destruct (Nat.ltb 2 (t_np t)); [|apply mrel_refl].
    set (nm := match m with MWrap _ => None | MSub s => Some (sg_super s) end).
    replace (match m' with MWrap _ => None | MSub s => Some (sg_super s) end) with nm by (unfold nm; destruct m, m'; try done; by rewrite (proj1 HN)).
    change (sub_partitions (m_graph m') (ptimes c p) nm) with (sub_partitions (m_graph m') p nm).
    pose proof HB as [Hs Hud Hud']. pose proof (sub_prl c _ _ Hs p nm) as HP. pose proof (sc_nv c _ _ Hs) as Hnv.
    destruct X1 as ((Hlab & Hpw & _) & _).
    destruct (sub_partitions_ok (m_graph m) (ud_wf _ Hud) 2 p Hpw Hlab nm) as (subs & E1 & L1 & H1).
    { intros l Hl. unfold nm in Hl. destruct m, m'; try done. injection Hl as <-. apply HN. }
    destruct (sub_partitions_ok (m_graph m') (ud_wf _ Hud') 2 p Hpw ltac:(by rewrite Hnv) nm) as (subs' & E2 & L2 & H2).
    { intros l Hl. rewrite Hnv. unfold nm in Hl. destruct m, m'; try done. injection Hl as <-. apply HN. }
    rewrite E1, E2 in *. cbn [prl] in HP. apply mrel_ok. destruct (half_sizes (t_np t)) as [c0 c1]. rewrite L1, L2.
    apply mrel_fold; [|done]. intros ls1 ? h Hh <-. apply elem_of_seq in Hh. destruct (Nat.ltb 1 _); [|apply mrel_refl]. apply mrel_same. intros t'.
    destruct (H1 h ltac:(lia)) as (sg & Hsg & Nsg & Isg). destruct (H2 h ltac:(lia)) as (sg' & Hsg' & Nsg' & Isg').
    rewrite (rd_ok _ _ _ Hsg), (rd_ok _ _ _ Hsg'). apply mrel_ok. apply IH.
    - destruct (Forall2_lookup_lr _ _ _ _ _ _ HP Hsg Hsg') as [Hsup Hsh]. constructor; [exact (induced_scaled _ _ _ _ _ _ HB Isg Isg' Hsh)|]. split; [done|].
      rewrite Nsg, fmap_length, (in_nv _ _ _ _ Isg). done.
    - exact (induced_kind _ _ _ _ _ Isg HK).
  Qed.
End Rec.
