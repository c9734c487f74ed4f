(** * NullFacts: absent weight arrays stand for weights of one (C54). *)
From Verif Require Import Base F64 ModelGraph ModelBuilders ModelPartition ModelConn ModelFM ModelAgg ModelMultilevel ModelBisect ModelRecursive ModelApi
  Spec Logic MultilevelFacts.

(** a is b, unless it is the read of an absent weight array *)
Definition le {A} (a b : outcome A) : Prop := a = Fail (UB NoWeights) \/ a = b.
Definition lem {A} (m1 m2 : M A) : Prop := forall s, le (m1 s) (m2 s).
Lemma le_refl {A} (a : outcome A) : le a a. Proof. by right. Qed.
Lemma lem_refl {A} (m : M A) : lem m m. Proof. intros s. by right. Qed.
Lemma lem_bind {A B} (m1 m2 : M A) (k1 k2 : A -> M B) : lem m1 m2 -> (forall a, lem (k1 a) (k2 a)) -> lem (mbindM m1 k1) (mbindM m2 k2).
Proof.
  intros Hm Hk s. unfold mbindM. destruct (Hm s) as [E|E]; rewrite E; [by left|]. destruct (m2 s) as [[a s']|f]; [|by right]. cbn [obind fst snd]. apply Hk.
Qed.
Lemma lem_fold {S A} (f1 f2 : S -> A -> M S) l : (forall s a, lem (f1 s a) (f2 s a)) -> forall s, lem (mfold f1 s l) (mfold f2 s l).
Proof. intros Hf. induction l as [|a l IH]; intros s; cbn [mfold]; [apply lem_refl|]. apply lem_bind; [apply Hf|]. intros s'. apply IH. Qed.
Lemma lem_eq {A} (m1 m2 : M A) : (forall s, m1 s = m2 s) -> lem m1 m2. Proof. intros H s. by right. Qed.
Lemma le_both {A} (a b : outcome A) : le a b -> le b a -> a = b.
Proof. intros [->| ->] [H|H]; congruence. Qed.
Lemma le_ok {A} (a b : outcome A) x : le a b -> a = Ok x -> b = Ok x.
Proof. intros [->| ->] H; congruence. Qed.

(** Two graphs that differ in one weight array, which the unit flag says is not to be read; if it
    is the array of vertex weights, the first has none. *)
Inductive agree : graph -> graph -> Prop :=
  | agree_ew p a vw ew1 ew2 T E u : agree (mkGraph p a vw ew1 T E u true) (mkGraph p a vw ew2 T E u true)
  | agree_vw p a vw ew T E w : agree (mkGraph p a [] ew T E true w) (mkGraph p a vw ew T E true w).

Section Agree.
  Context (g1 g2 : graph) (H : agree g1 g2).
  Lemma ag_nv : nv g1 = nv g2. Proof. by destruct H. Qed.
  Lemma ag_ne : ne g1 = ne g2. Proof. by destruct H. Qed.
  Lemma ag_tvw : g_tvw g1 = g_tvw g2. Proof. by destruct H. Qed.
  Lemma ag_range v : edge_range g1 v = edge_range g2 v. Proof. by destruct H. Qed.
  Lemma ag_dst e : dst g1 e = dst g2 e. Proof. by destruct H. Qed.
  Lemma ag_vwt v : vwt (has_vw g1) g1 v = vwt (has_vw g2) g2 v. Proof. by destruct H. Qed.
  Lemma ag_ewt e : ewt (has_ew g1) g1 e = ewt (has_ew g2) g2 e. Proof. by destruct H. Qed.
  Lemma ag_vw_true v : le (vwt true g1 v) (vwt true g2 v). Proof. destruct H; [by right|by left]. Qed.
  (* partitionings *)
  Lemma ag_part_new k : part_new k g1 = part_new k g2. Proof. by destruct H. Qed.
  Lemma ag_assign_all p i : assign_all g1 p i = assign_all g2 p i. Proof. by destruct H. Qed.
  Lemma ag_part_move p v i : part_move g1 p v i = part_move g2 p v i. Proof. by destruct H. Qed.
  Lemma ag_recalc p : recalc_cut g1 p = recalc_cut g2 p. Proof. by destruct H. Qed.
  Lemma ag_of_labels k l : part_of_labels k g1 l = part_of_labels k g2 l. Proof. by destruct H. Qed.
  Lemma ag_imbalance t p : calc_max_imbalance g1 t p = calc_max_imbalance g2 t p. Proof. by destruct H. Qed.
  Lemma ag_from p : from_partitioning g1 p = from_partitioning g2 p. Proof. by destruct H. Qed.
  (* FM *)
  Lemma ag_fm_step t ps s : fm_step g1 t ps s = fm_step g2 t ps s. Proof. by destruct H. Qed.
  Lemma ag_fm_undo ms s : fm_undo g1 ms s = fm_undo g2 ms s. Proof. by destruct H. Qed.
  Lemma ag_fm_loop t mb fuel : forall ps s, fm_loop g1 t mb fuel ps s = fm_loop g2 t mb fuel ps s.
  Proof.
    induction fuel as [|fuel IH]; intros ps s; cbn [fm_loop]; [done|]. destruct (_ || _); [done|]. unfold mbindM. rewrite ag_fm_step.
    destruct (fm_step g2 t ps s) as [[ps' s']|]; [|done]. cbn [obind fst snd]. apply IH.
  Qed.
  Lemma ag_fm_iters t mb it : forall x s, fm_iters g1 t mb it x s = fm_iters g2 t mb it x s.
  Proof.
    induction it as [|it IH]; intros x s; cbn [fm_iters]; [done|]. unfold mbindM, lift. destruct (fm_fill x s) as [[x' s']|]; [|done]. cbn [obind fst snd].
    rewrite ag_imbalance. destruct (calc_max_imbalance g2 t _) as [b|]; [|done]. cbn [obind fst snd]. rewrite ag_nv, ag_fm_loop.
    destruct (fm_loop _ _ _ _ _ _) as [[ps s2]|]; [|done]. cbn [obind fst snd]. rewrite ag_fm_undo. destruct (fm_undo _ _ _) as [x2|]; [|done].
    cbn [obind fst snd]. destruct (Nat.eqb _ _); [done|]. apply IH.
  Qed.
  Lemma ag_fm it mv t c p s : fm_refine it mv g1 t c p s = fm_refine it mv g2 t c p s.
  Proof.
    unfold fm_refine, mbindM, lift. rewrite ag_nv. destruct (max_bad_moves _ _) as [mb|]; [|done]. cbn [obind fst snd]. by rewrite ag_fm_iters.
  Qed.
  (* aggregation *)
  Lemma ag_first maxW vw m es : first_allowed g1 maxW vw m es = first_allowed g2 maxW vw m es.
  Proof.
    induction es as [|e es IH]; cbn [first_allowed]; [done|]. rewrite ag_dst. destruct (dst g2 e) as [u|]; [|done]. cbn [obind]. rewrite ag_vwt.
    destruct (vwt _ g2 u) as [uw|]; [|done]. cbn [obind]. destruct (mb_is_matched m u) as [mt|]; [|done]. cbn [obind]. destruct (_ && _); [done|]. apply IH.
  Qed.
  Lemma ag_rm_visit maxW m v : rm_visit g1 maxW m v = rm_visit g2 maxW m v.
  Proof.
    unfold rm_visit. destruct (mb_is_matched m v) as [[]|]; cbn [obind]; [done| |done]. rewrite ag_vwt. destruct (vwt _ g2 v) as [vw|]; [|done]. cbn [obind].
    rewrite ag_range. destruct (edge_range g2 v) as [es|]; [|done]. cbn [obind]. by rewrite ag_first.
  Qed.
  Lemma ag_rm maxW s : rm_aggregate maxW g1 s = rm_aggregate maxW g2 s.
  Proof.
    unfold rm_aggregate, rm_matching, mbindM, lift. rewrite ag_nv. destruct (random_order _ s) as [[perm s1]|]; [|done]. cbn [obind fst snd].
    rewrite (ofold_ext (rm_visit g1 maxW) (rm_visit g2 maxW)); [done|]. intros a v _. apply ag_rm_visit.
  Qed.
  Lemma ag_shemrm maxW s : shemrm_aggregate maxW g1 s = shemrm_aggregate maxW g2 s.
  Proof.
    unfold shemrm_aggregate. replace (g_uew g1) with (g_uew g2) by (by destruct H). destruct (g_uew g2) eqn:E; [apply ag_rm|]. destruct H; [done|]. cbn in E. subst w. reflexivity.
  Qed.
  Lemma ag_aggregator scheme agg maxW s : aggregator_make scheme = Ok agg -> agg maxW g1 s = agg maxW g2 s.
  Proof. unfold aggregator_make. destruct (_ =? 0)%Z; [intros [= <-]; apply ag_rm|]. destruct (_ =? 1)%Z; [intros [= <-]; apply ag_shemrm|done]. Qed.
  Lemma ag_contract a : contract g1 a = contract g2 a. Proof. by destruct H. Qed.
  Lemma ag_project c m cc cp : project (mkCG g1 c m) cc cp = project (mkCG g2 c m) cc cp. Proof. by destruct H. Qed.
  Lemma ag_sub p l : sub_partitions g1 p l = sub_partitions g2 p l. Proof. by destruct H. Qed.
  (* growing *)
  Lemma ag_upd v q : bfs_update_neighbors g1 v q = bfs_update_neighbors g2 v q. Proof. by destruct H. Qed.
  Lemma ag_grow t fuel : forall q p s, bfs_priority_move g1 t fuel q p s = bfs_priority_move g2 t fuel q p s.
  Proof.
    induction fuel as [|fuel IH]; intros q p s; cbn [bfs_priority_move]; [done|]. destruct (Nat.eqb _ _); [done|].
    unfold mbindM, lift. destruct (get_weight p 0) as [w0|]; [|done]. cbn [obind fst snd]. destruct (rd (t_wgt t) 0) as [tw|]; [|done]. cbn [obind fst snd].
    destruct (negb _); [done|]. destruct (q_pop q s) as [[r s1]|]; [|done]. cbn [obind fst snd]. rewrite ag_vwt. destruct (vwt _ g2 _) as [vw|]; [|done]. cbn [obind fst snd].
    destruct (rd (t_max t) 0) as [mx|]; [|done]. cbn [obind fst snd]. destruct (_ <=? _)%Z; [|apply IH]. rewrite ag_part_move. destruct (part_move g2 _ _ _) as [p'|]; [|done].
    cbn [obind fst snd]. rewrite ag_upd. destruct (bfs_update_neighbors _ _ _) as [q'|]; [|done]. cbn [obind fst snd]. apply IH.
  Qed.
  Lemma ag_unit t rem : forall p, bfs_unit_balance g1 t rem p = bfs_unit_balance g2 t rem p.
  Proof.
    induction rem as [|v rem IH]; intros p; cbn [bfs_unit_balance]; [done|]. destruct (get_weight p 0) as [w0|]; [|done]. cbn [obind].
    destruct (balance_improves _ _ _) as [[]|]; cbn [obind]; [apply ag_part_move|apply IH|done].
  Qed.
  Lemma lem_lift {A} (a b : outcome A) : le a b -> lem (lift a) (lift b).
  Proof. intros [->| ->] s; [by left|by right]. Qed.
  Lemma ag_wb_loop t fuel : forall q p, lem (bfs_weight_balance_loop g1 t fuel q p) (bfs_weight_balance_loop g2 t fuel q p).
  Proof.
    induction fuel as [|fuel IH]; intros q p; cbn [bfs_weight_balance_loop]; (destruct (Nat.eqb _ _); [apply lem_refl|]); [apply lem_refl|].
    apply lem_bind; [apply lem_refl|]. intros r. apply lem_bind; [apply lem_lift, ag_vw_true|]. intros w. apply lem_bind; [apply lem_refl|]. intros w0.
    apply lem_bind; [apply lem_refl|]. intros []; [rewrite ag_part_move; apply lem_refl|apply IH].
  Qed.
  Lemma ag_wb t rem p : lem (bfs_weight_balance g1 t rem p) (bfs_weight_balance g2 t rem p).
  Proof.
    unfold bfs_weight_balance. rewrite ag_nv. apply lem_bind; [|intros q; apply ag_wb_loop]. apply lem_lift.
    generalize (q_new (nv g2)). induction rem as [|v rem IH]; intros q; cbn [ofold]; [apply le_refl|].
    destruct (ag_vw_true v) as [E|E]; rewrite E; [by left|]. destruct (vwt true g2 v) as [w|]; [|by right]. cbn [obind].
    destruct (q_add q _ v) as [q'|]; [|by right]. cbn [obind]. apply IH.
  Qed.
  Lemma ag_bfs t : lem (bfs_execute t g1) (bfs_execute t g2).
  Proof.
    unfold bfs_execute, bfs_from. rewrite ag_nv. apply lem_bind; [apply lem_refl|]. intros seed. do 2 (apply lem_bind; [apply lem_refl|]; intros ?).
    rewrite ag_part_new, ag_assign_all. apply lem_bind; [apply lem_refl|]. intros p. apply lem_bind; [apply lem_eq, ag_grow|]. intros r.
    do 2 (apply lem_bind; [apply lem_refl|]; intros ?). apply lem_bind; [|intros q; rewrite ag_recalc; apply lem_refl].
    destruct (_ <? _)%Z; [|apply lem_refl]. apply lem_bind; [apply lem_refl|]. intros rem.
    replace (g_uvw g1) with (g_uvw g2) by (by destruct H). destruct (g_uvw g2); [apply ag_wb|]. rewrite ag_unit. apply lem_refl.
  Qed.
  Lemma ag_multi n bis t : lem (bis t g1) (bis t g2) -> lem (multi_execute n bis t g1) (multi_execute n bis t g2).
  Proof.
    intros Hb. unfold multi_execute. apply lem_bind; [|intros r; apply lem_refl]. rewrite ag_part_new. apply lem_fold. intros best b.
    apply lem_bind; [exact Hb|]. intros p. unfold multi_consider. rewrite ag_imbalance. apply lem_refl.
  Qed.
  Lemma ag_stop level par stop : ml_criteria = Ok stop -> stop level par (Some g1) = stop level par (Some g2).
  Proof.
    unfold ml_criteria. destruct (edge_ratio_make f_0_95) as [r|]; [|done]. cbn [obind]. intros [= <-]. cbn [composite_stop]. unfold vertex_number_stop, edge_ratio_stop.
    by rewrite ag_nv, ag_ne.
  Qed.
  Lemma ag_stop' level c stop : ml_criteria = Ok stop -> stop level (Some g1) (Some c) = stop level (Some g2) (Some c).
  Proof.
    unfold ml_criteria. destruct (edge_ratio_make f_0_95) as [r|]; [|done]. cbn [obind]. intros [= <-]. cbn [composite_stop]. unfold vertex_number_stop, edge_ratio_stop.
    rewrite ag_ne. do 2 f_equal. 
  Qed.
End Agree.

(** ** The multilevel bisector *)
Section Ml.
  Context (g1 g2 : graph) (H : agree g1 g2) (stop : criteria) (Hs : ml_criteria = Ok stop).
  Context (agg : aggregator) (init : bisector) (ref : refiner) (maxW : Z) (t : target).
  Lemma ml_parent fuel level c s : ml_recurse agg init ref stop maxW t fuel level (Some g1) c s = ml_recurse agg init ref stop maxW t fuel level (Some g2) c s.
  Proof. destruct fuel; cbn [ml_recurse]; by rewrite (ag_stop' g1 g2 H level c stop Hs). Qed.
  Lemma ml_agree : (forall w s, agg w g1 s = agg w g2 s) -> lem (init t g1) (init t g2) -> (forall c p s, ref g1 t c p s = ref g2 t c p s) ->
    forall fuel level par, lem (ml_recurse agg init ref stop maxW t fuel level par g1) (ml_recurse agg init ref stop maxW t fuel level par g2).
  Proof.
    intros Ha Hi Hr fuel level par.
    assert (Hb : lem (do! p := init t g1 in do! c := lift (from_partitioning g1 p) in ret (c, p)) (do! p := init t g2 in do! c := lift (from_partitioning g2 p) in ret (c, p))).
    { apply lem_bind; [done|]. intros p. rewrite (ag_from g1 g2 H). apply lem_refl. }
    destruct fuel; cbn [ml_recurse]; rewrite (ag_stop g1 g2 H level par stop Hs); (apply lem_bind; [apply lem_refl|]; intros []; [exact Hb|]); [apply lem_refl|].
    apply lem_bind; [apply lem_eq, Ha|]. intros a. unfold coarse_make. rewrite (ag_contract g1 g2 H), (ag_nv g1 g2 H).
    destruct (contract g2 a) as [c|f]; cbn [obind]; [|by right]. destruct (Nat.eqb _ _); [|by right].
    intros s. unfold lift, mbindM at 1 5. cbn [obind fst snd].
    revert s. change (lem (do! cp := ml_recurse agg init ref stop maxW t fuel (S level) (Some g1) c in do! fp := lift (project (mkCG g1 c (a_cmap a)) (fst cp) (snd cp)) in ref g1 t (fst fp) (snd fp))
      (do! cp := ml_recurse agg init ref stop maxW t fuel (S level) (Some g2) c in do! fp := lift (project (mkCG g2 c (a_cmap a)) (fst cp) (snd cp)) in ref g2 t (fst fp) (snd fp))).
    apply lem_bind; [apply lem_eq; intros s; apply ml_parent|]. intros cp. rewrite (ag_project g1 g2 H). apply lem_bind; [apply lem_refl|]. intros fp. apply lem_eq, Hr.
  Qed.
End Ml.
Lemma lem_liftk {A B} (a : A) (k1 k2 : A -> M B) : lem (k1 a) (k2 a) -> lem (mbindM (lift (Ok a)) k1) (mbindM (lift (Ok a)) k2).
Proof. intros Hk s. exact (Hk s). Qed.
Lemma api_agree g1 g2 scheme bis t : agree g1 g2 -> api_bisector scheme = Ok bis -> lem (bis t g1) (bis t g2).
Proof.
  intros H. unfold api_bisector. destruct (aggregator_make scheme) as [agg|] eqn:Ea; [|done]. cbn. intros [= <-]. unfold ml_execute.
  rewrite ml_criteria_eq. apply lem_liftk. unfold ml_max_weight. rewrite (ag_tvw g1 g2 H), (ag_ne g1 g2 H).
  apply lem_bind; [apply lem_refl|]. intros mw. apply lem_bind; [|intros r; apply lem_refl].
  apply (ml_agree g1 g2 H _ ml_criteria_eq); [intros w s; by eapply ag_aggregator| |intros c p s; by apply ag_fm].
  apply ag_multi; [done|]. by apply ag_bfs.
Qed.
Lemma rb_recurse_agree lg bis g1 g2 fuel t off labels : agree g1 g2 -> (forall t, lem (bis t g1) (bis t g2)) ->
  lem (rb_recurse lg bis fuel t (MWrap g1) off labels) (rb_recurse lg bis fuel t (MWrap g2) off labels).
Proof.
  intros H Hb. destruct fuel as [|fuel]; cbn [rb_recurse m_graph]; [apply lem_refl|]. apply lem_bind; [apply lem_refl|]. intros bt. apply lem_bind; [apply Hb|]. intros p.
  replace (map_partitioning (MWrap g1) p off labels) with (map_partitioning (MWrap g2) p off labels) by (by destruct H).
  rewrite (ag_sub g1 g2 H). apply lem_refl.
Qed.
Lemma rb_agree lg bis g1 g2 t : agree g1 g2 -> (forall t, lem (bis t g1) (bis t g2)) -> lem (rb_execute lg bis t g1) (rb_execute lg bis t g2).
Proof.
  intros H Hb. unfold rb_execute. rewrite (ag_nv g1 g2 H). apply lem_bind; [by apply rb_recurse_agree|]. intros labels. apply lem_bind; [apply lem_refl|]. intros l.
  rewrite (ag_of_labels g1 g2 H). apply lem_bind; [apply lem_refl|]. intros p. rewrite (ag_recalc g1 g2 H). apply lem_refl.
Qed.

(** ** The graphs of the call *)
Lemma sum_ones n : forall s, fold_left (fun s w => u32 (s + w)) (replicate n 1%Z) (u32 s) = u32 (s + Z.of_nat n).
Proof.
  induction n as [|n IH]; intros s; [cbn; by rewrite Z.add_0_r|]. cbn [replicate fold_left]. rewrite u32_add_l, IH. f_equal. lia.
Qed.
Lemma sum_u32_ones n : sum_u32 (replicate n 1%Z) = u32 (Z.of_nat n).
Proof. exact (sum_ones n 0%Z). Qed.
Lemma all_one_ones n : all_one (replicate n 1%Z) = true.
Proof. unfold all_one. induction n as [|n IH]; [done|]. cbn. exact IH. Qed.

Lemma csr_ew prefix adj vw N : length adj <= N -> match graph_of_csr prefix adj vw None with
  | Ok g => exists g', graph_of_csr prefix adj vw (Some (replicate N 1%Z)) = Ok g' /\ agree g g' /\ agree g' g
  | Fail f => graph_of_csr prefix adj vw (Some (replicate N 1%Z)) = Fail f
  end.
Proof.
  intros HN. unfold graph_of_csr, graph_make. cbn [from_option]. unfold id. destruct (Nat.eqb (length prefix) 0); [done|]. 
  destruct (if Nat.eqb (length prefix - 1) 0 then _ else _) as [vt|]; [|done]. cbn [obind]. rewrite replicate_length.
  destruct (Nat.eqb_spec (length adj) 0) as [E|E].
  - cbn [obind]. eexists. split; [done|]. split; constructor.
  - cbn [length Nat.eqb obind]. destruct (Nat.eqb_spec N 0); [lia|]. destruct (Nat.ltb_spec N (length adj)); [lia|]. rewrite take_replicate, Nat.min_l by lia.
    rewrite sum_u32_ones, all_one_ones. cbn [obind fst snd]. eexists. split; [done|]. split; constructor.
Qed.
Lemma csr_vw prefix adj ew N : length prefix - 1 <= N -> match graph_of_csr prefix adj None ew with
  | Ok g => exists g', graph_of_csr prefix adj (Some (replicate N 1%Z)) ew = Ok g' /\ agree g g'
  | Fail f => graph_of_csr prefix adj (Some (replicate N 1%Z)) ew = Fail f
  end.
Proof.
  intros HN. unfold graph_of_csr, graph_make. cbn [from_option]. unfold id. destruct (Nat.eqb_spec (length prefix) 0) as [E0|E0]; [done|]. rewrite replicate_length.
  destruct (Nat.eqb_spec (length prefix - 1) 0) as [E|E].
  - cbn [obind]. destruct (if Nat.eqb (length adj) 0 then _ else _) as [et|]; [|done]. cbn [obind fst snd]. eexists. split; [done|]. constructor.
  - cbn [length Nat.eqb obind]. destruct (Nat.eqb_spec N 0); [lia|]. destruct (Nat.ltb_spec N (length prefix - 1)); [lia|]. rewrite take_replicate, Nat.min_l by lia.
    rewrite sum_u32_ones, all_one_ones. cbn [obind fst snd]. destruct (if Nat.eqb (length adj) 0 then _ else _) as [et|]; [|done]. cbn [obind fst snd]. eexists. split; [done|]. constructor.
Qed.

(** ** The call *)
Definition after (lg : nat -> f64) (k : nat) (o : options) (g : graph) : M call_result :=
  do! bis := lift (api_bisector (o_scheme o)) in
  do! t := lift (target_of_fractions (g_tvw g) default_tolerance (default_fractions k)) in
  do! best := mfold (fun st (_ : nat) => do! p := rb_execute lg bis t g in ret (keep_best st p)) None (seq 0 (Z.to_nat (o_num_cuts o))) in
  ret (mkResult 1 (fst <$> best) (snd <$> best)).
Lemma call_shape lg prefix adj vw ew k o s : part_graph_recursive lg prefix adj vw ew k (Some o) s =
  match rd prefix (length prefix - 1) with
  | Fail f => Fail f
  | Ok m => if Nat.ltb (length adj) m then Fail (UB OutOfBounds) else
            match graph_of_csr prefix (take m adj) vw ew with Fail f => Fail f | Ok g => after lg k o g s end
  end.
Proof.
  unfold part_graph_recursive. unfold mbindM at 1, lift at 1. destruct (rd prefix (length prefix - 1)) as [m|]; [|reflexivity]. cbn [obind fst snd].
  unfold mbindM at 1, lift at 1. destruct (Nat.ltb (length adj) m); [reflexivity|]. destruct (graph_of_csr prefix (take m adj) vw ew) as [g|]; reflexivity.
Qed.
Lemma after_agree lg g1 g2 k o : agree g1 g2 -> lem (after lg k o g1) (after lg k o g2).
Proof.
  intros H. unfold after. destruct (api_bisector (o_scheme o)) as [bis|f] eqn:Eb; [|intros s; by right]. apply lem_liftk. rewrite (ag_tvw g1 g2 H).
  apply lem_bind; [apply lem_refl|]. intros t. apply lem_bind; [|intros best; apply lem_refl]. apply lem_fold. intros st _. apply lem_bind; [|intros p; apply lem_refl].
  apply rb_agree; [done|]. intros t'. by eapply api_agree.
Qed.
