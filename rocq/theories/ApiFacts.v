(** * ApiFacts: the top-level call (C01-C09). *)
From Coq Require Import ZArith Reals Floats.SpecFloat Psatz.
From Flocq Require Import Core.Core IEEE754.BinarySingleNaN.
From Verif Require Import Base F64 ModelGraph ModelBuilders ModelPartition ModelConn ModelFM ModelAgg ModelMultilevel ModelBisect ModelRecursive ModelApi
  Spec Logic Sums GraphFacts FloatFacts FloatUse BisectFacts MultilevelFacts SubFacts RecFacts LabelFacts TargetFacts PropsTarget.
Local Open Scope nat_scope.
Local Close Scope R_scope.

(** ** Bisection targets have two sides *)
Lemma bisect_target_two t tolf bt : bisect_target t tolf = Ok bt -> two_way bt.
Proof.
  unfold bisect_target. intros E.
  assert (wpo (ofold (bis_step t (t_np t) tolf) (mkBT [0%Z; 0%Z] [0%Z; 0%Z]) (seq 0 (t_np t))) anyf (fun b => length (bt_tgt b) = 2 /\ length (bt_max b) = 2)) as H.
  { apply (ofold_inv (fun b => length (bt_tgt b) = 2 /\ length (bt_max b) = 2)); [done|]. intros i b _ [H1 H2]. unfold bis_step.
    do 5 (apply bind_any; intros ?). apply wpo_anyf. intros b' Eb.
    destruct (wr (bt_tgt b) _ _) as [l1|] eqn:E1; [|done]. cbn [obind] in Eb. destruct (wr (bt_max b) _ _) as [l2|] eqn:E2; [|done]. cbn [obind] in Eb.
    apply wr_inv in E1 as [_ ->], E2 as [_ ->]. injection Eb as <-. cbn [bt_tgt bt_max]. by rewrite !insert_length. }
  destruct (ofold _ _ _) as [b|]; [|done]. cbn [obind] in E. injection E as <-. destruct H as [H1 H2].
  split; cbn; [done|done|]. unfold calc_fractions. by rewrite fmap_length.
Qed.

(** ** Labels, whatever the graph *)
Lemma api_handed_lab lg scheme bis : api_bisector scheme = Ok bis -> handed_down lg bis anyf (fun _ g => wf_graph g).
Proof.
  intros Hb. split.
  - intros t g _ _. apply wpo_anyf. intros bt Ebt. apply (api_bisector_lab scheme); [done|]. apply bisect_target_two in Ebt. apply Ebt.
  - intros t g p i sg _ _ _ _ Hin _ _. apply wpo_anyf. intros t' _. apply Hin.
Qed.
Lemma rb_execute_lab lg scheme bis t g : api_bisector scheme = Ok bis -> wf_graph g -> 2 <= t_np t ->
  wpm (rb_execute lg bis t g) anyf (fun P => valid_part (t_np t) g P /\ (symmetric g -> fits g -> exact_part (t_np t) g P)).
Proof. intros Hb Hwf Hk. eapply rb_execute_wp; [by eapply api_handed_lab|exact Hwf|done|done]. Qed.

(** ** The call as a sequence of runs *)
(** [runs m s Ps s']: m partitionings in a row, consuming the random stream s. *)
Inductive runs (run : M part) : list nat -> list part -> list nat -> Prop :=
  | runs_nil s : runs run s [] s
  | runs_cons s P s1 Ps s' : run s = Ok (P, s1) -> runs run s1 Ps s' -> runs run s (P :: Ps) s'.
Lemma runs_fold {B} run (f : B -> part -> B) (l : list nat) : forall st s st' s',
  mfold (fun st (_ : nat) => do! p := run in ret (f st p)) st l s = Ok (st', s') ->
  exists Ps, runs run s Ps s' /\ length Ps = length l /\ st' = fold_left f Ps st.
Proof.
  induction l as [|a l IH]; intros st s st' s' E.
  - cbn in E. unfold ret in E. injection E as <- <-. exists []. split; [constructor|done].
  - cbn [mfold] in E. unfold mbindM at 1 in E. unfold mbindM at 1 in E. destruct (run s) as [[P s1]|] eqn:ER; [|done]. cbn [obind fst snd ret] in E.
    apply IH in E as (Ps & HR & HL & ->). exists (P :: Ps). split; [by econstructor|]. split; [cbn; lia|done].
Qed.
(** The first of the smallest. *)
Definition first_best (Ps : list part) (P : part) : Prop :=
  exists i, Ps !! i = Some P /\ (forall j Q, Ps !! j = Some Q -> (p_cut P <= p_cut Q)%Z) /\
    (forall j Q, j < i -> Ps !! j = Some Q -> (p_cut P < p_cut Q)%Z).
Lemma keep_best_first Ps : match fold_left keep_best Ps None with None => Ps = [] | Some b => exists P, first_best Ps P /\ b = part_output P end.
Proof.
  induction Ps as [|Q Ps IH] using rev_ind; [done|]. rewrite fold_left_app. cbn [fold_left].
  destruct (fold_left keep_best Ps None) as [b|].
  - destruct IH as (P & (i & Hi & H1 & H2) & ->). unfold part_output, keep_best. pose proof (lookup_lt_Some _ _ _ Hi) as Hil.
    destruct (Z.ltb_spec (p_cut Q) (p_cut P)) as [Hlt|Hge].
    + exists Q. split; [|done]. exists (length Ps). split; [by rewrite lookup_app_r, Nat.sub_diag|]. split.
      * intros j R Hj. apply lookup_app_Some in Hj as [Hj|[_ Hj]]; [specialize (H1 j R Hj); lia|].
        destruct (j - length Ps); [|by destruct n]. cbn in Hj. injection Hj as <-. lia.
      * intros j R Hj Hl. rewrite lookup_app_l in Hl by done. specialize (H1 j R Hl). lia.
    + exists P. split; [|done]. exists i. split; [by rewrite lookup_app_l|]. split.
      * intros j R Hj. apply lookup_app_Some in Hj as [Hj|[_ Hj]]; [by apply (H1 j)|].
        destruct (j - length Ps); [|by destruct n]. cbn in Hj. injection Hj as <-. lia.
      * intros j R Hj Hl. rewrite lookup_app_l in Hl by lia. by apply (H2 j).
  - subst Ps. exists Q. split; [|done]. exists 0. split; [done|]. split; [|lia].
    intros [|j] R Hj; cbn in Hj; [injection Hj as <-; lia|done].
Qed.

(** The steps of the call before the runs. *)
Definition setup (prefix adj : list nat) (vw ew : option (list Z)) (k : nat) (scheme : Z) (g : graph) (bis : bisector) (t : target) : Prop :=
  graph_of_csr prefix adj vw ew = Ok g /\ api_bisector scheme = Ok bis /\
  target_of_fractions (g_tvw g) default_tolerance (default_fractions k) = Ok t.
Lemma read_edges n prefix adj vw ew : valid_csr n prefix adj vw ew ->
  rd prefix (length prefix - 1) = Ok (length adj).
Proof.
  intros [H1 H2 H3 H4 _ _ _]. rewrite H1. cbn [Nat.sub]. rewrite Nat.sub_0_r. rewrite <- H4. apply rd_ok, lookup_nth. lia.
Qed.
Definition finish (best : option (Z * list (option nat))) : M call_result := ret (mkResult 1 (fst <$> best) (snd <$> best)).
Lemma call_eq lg n prefix adj vw ew k o : valid_csr n prefix adj vw ew ->
  part_graph_recursive lg prefix adj vw ew k (Some o) =
  (do! g := lift (graph_of_csr prefix adj vw ew) in
   do! bis := lift (api_bisector (o_scheme o)) in
   do! t := lift (target_of_fractions (g_tvw g) default_tolerance (default_fractions k)) in
   do! best := mfold (fun st (_ : nat) => do! p := rb_execute lg bis t g in ret (keep_best st p)) None (seq 0 (Z.to_nat (o_num_cuts o))) in
   finish best).
Proof.
  intros HC. unfold part_graph_recursive. rewrite (read_edges _ _ _ _ _ HC). unfold mbindM at 1, lift at 1. cbn [obind fst snd].
  destruct (Nat.ltb_spec (length adj) (length adj)); [lia|]. rewrite firstn_all. done.
Qed.
Lemma np_uniform k T t : target_of_fractions T default_tolerance (default_fractions k) = Ok t -> t_np t = k.
Proof.
  unfold target_of_fractions. destruct (check_fractions _ _ _); [|done]. cbn [obind]. destruct (_ || _); [by unfold throw_fractions; case_match|].
  intros E. destruct (calc_target_weight T _) as [tw|] eqn:Ew; [|done]. cbn [obind] in E. destruct (calc_max_weight _ _ _); [|done]. cbn [obind] in E. injection E as <-.
  unfold t_np. cbn. assert (forall fr tw, calc_target_weight T fr = Ok tw -> length tw = length fr) as HL.
  { clear. induction fr as [|f fr IH]; intros tw E; cbn in E; [by injection E as <-|]. destruct (f_to_u32 _); [|done]. cbn in E.
    destruct (calc_target_weight T fr) as [r|]; [|done]. cbn in E. injection E as <-. cbn. f_equal. by apply IH. }
  rewrite (HL _ _ Ew). unfold default_fractions. by rewrite replicate_length.
Qed.
Lemma call_runs lg n prefix adj vw ew k o s r s' : valid_csr n prefix adj vw ew ->
  part_graph_recursive lg prefix adj vw ew k (Some o) s = Ok (r, s') ->
  exists g bis t Ps, setup prefix adj vw ew k (o_scheme o) g bis t /\ t_np t = k /\ runs (rb_execute lg bis t g) s Ps s' /\
    length Ps = Z.to_nat (o_num_cuts o) /\ r = mkResult 1 (fst <$> fold_left keep_best Ps None) (snd <$> fold_left keep_best Ps None).
Proof.
  intros HC E. rewrite (call_eq _ _ _ _ _ _ _ _ HC) in E. unfold mbindM, lift in E.
  destruct (graph_of_csr prefix adj vw ew) as [g|] eqn:Eg; [|done]. cbn [obind fst snd] in E.
  destruct (api_bisector (o_scheme o)) as [bis|] eqn:Eb; [|done]. cbn [obind fst snd] in E.
  destruct (target_of_fractions (g_tvw g) default_tolerance (default_fractions k)) as [t|] eqn:Et; [|done]. cbn [obind fst snd] in E.
  destruct (mfold _ None _ s) as [[best s1]|] eqn:Ef; [|done]. cbn [obind fst snd finish ret] in E. injection E as <- <-.
  apply (runs_fold (rb_execute lg bis t g) keep_best) in Ef as (Ps & H1 & H2 & ->). rewrite seq_length in H2.
  exists g, bis, t, Ps. split; [done|]. split; [by eapply np_uniform|]. done.
Qed.
Lemma runs_all run (Q : part -> Prop) s Ps s' : wpm run anyf Q -> runs run s Ps s' -> Forall Q Ps.
Proof.
  intros HQ. induction 1 as [|s P s1 Ps s' HP _ IH]; [constructor|]. constructor; [|done]. by eapply wpm_elim.
Qed.

(** ** Which failures are possible on undirected graphs *)
Record api_inv (t : target) (g : graph) : Prop := {
  ai_ud : undirected g;
  ai_ne : (Z.of_nat (ne g) < W32)%Z;
  ai_nv : (Z.of_nat (nv g) < W32)%Z;
  ai_sane : sane t;
  ai_low : (total (take (t_np t / 2) (t_max t)) < W32)%Z;
  ai_high : (total (drop (t_np t / 2) (t_max t)) < W32)%Z
}.
Definition api_fail (f : failure) : Prop := f = UB EmptyRange \/ f = UB NoWeights.

Lemma api_bisector_empty scheme bis t g : api_bisector scheme = Ok bis -> wf_graph g -> nv g = 0 -> wpm (bis t g) (fun f => f = UB EmptyRange) (fun _ => False).
Proof.
  unfold api_bisector. destruct (aggregator_make scheme) as [agg|]; [|done]. cbn. intros [= <-] Hwf Hn.
  destruct (ml_max_weight_ok g) as (mw & Emw & _).
  { rewrite (wf_tvw _ Hwf). unfold u32. apply Z.mod_pos_bound. done. }
  unfold ml_execute. rewrite ml_criteria_eq. apply wpm_liftk. rewrite Emw. apply wpm_liftk.
  cbn [ml_recurse composite_stop]. unfold vertex_number_stop at 1. rewrite Hn. cbn [Nat.leb obind]. intros cs.
  unfold mbindM, lift, multi_execute. cbn [obind fst snd]. change (seq 0 (Z.to_nat 8)) with (0 :: seq 1 7). cbn [mfold]. unfold mbindM, bfs_execute, choose_below.
  unfold mbindM. rewrite Hn. unfold next_choice. destruct cs; done.
Qed.
Lemma total_nonneg l : Forall (fun x => 0 <= x)%Z l -> (0 <= total l)%Z.
Proof. induction 1; cbn; [lia|]. fold (total l). lia. Qed.
Lemma sane_max_nonneg t : sane t -> Forall (fun x => 0 <= x)%Z (t_max t).
Proof.
  intros [HL H]. apply Forall_lookup. intros i m Hm. pose proof (lookup_lt_Some _ _ _ Hm) as Hi.
  destruct (lookup_lt_is_Some_2 (t_wgt t) i) as [w Hw]; [lia|]. destruct (H i w m Hw Hm). lia.
Qed.
Lemma api_handed lg scheme bis : log2_spec lg -> api_bisector scheme = Ok bis -> handed_down lg bis api_fail api_inv.
Proof.
  intros Hlg Hb. split.
  - intros t g HI Hk. pose proof HI as [Hud Hne Hnv Hs Hlo Hhi].
    destruct (C11_succeeds lg t Hlg Hk Hs Hlo Hhi) as [bt Ebt]. rewrite Ebt. cbn.
    pose proof (bisect_target_two _ _ _ Ebt) as Htw.
    destruct (decide (nv g = 0)) as [H0|H0].
    + eapply wpm_mono; [by eapply api_bisector_empty; [exact Hb|apply Hud|]| |done]. intros f ->. by left.
    + unfold api_bisector in Hb. destruct (aggregator_make scheme) as [agg|] eqn:Ea; [|done]. cbn in Hb. injection Hb as <-.
      eapply wpm_mono; [apply (library_bfs_wp g Hud Hne Hnv ltac:(lia) bt Htw scheme agg 8 8 150 Ea); lia| |].
      * intros f [-> _]. by right.
      * intros p [[H1 [H2 _]] _]. done.
  - intros t g p i sg HI Hk Hp Hi Hin Hc _. pose proof HI as [Hud Hne Hnv Hs Hlo Hhi]. pose proof Hud as [Hwf Hsy Hl Hf]. pose proof (half_le (t_np t)).
    pose proof Hs as [HL HS]. pose proof (sane_max_nonneg t Hs) as Hnn.
    assert (HU : undirected sg).
    { split; [by eapply in_wf|by eapply induced_symmetric|by eapply induced_loopless|]. eapply induced_fits; done. }
    assert (Hne' : (Z.of_nat (ne sg) < W32)%Z) by (pose proof (induced_ne g Hwf _ _ _ Hin); lia).
    assert (Hnv' : (Z.of_nat (nv sg) < W32)%Z) by (pose proof (induced_nv g _ _ _ Hin); lia).
    unfold sub_target. destruct (_ || _) eqn:Eo.
    { exfalso. apply orb_true_iff in Eo as [Eo|Eo]; apply Nat.ltb_lt in Eo; unfold t_np in *; destruct i; lia. }
    cbn. split; try done; cbn [t_wgt t_max target_of_weights].
    + split; cbn [t_wgt t_max target_of_weights]; [rewrite !take_length, !drop_length; lia|].
      intros j w m H1 H2. apply lookup_take_Some in H1 as [H1 _], H2 as [H2 _]. rewrite lookup_drop in H1, H2. by eapply HS.
    + set (l := take _ (drop _ (t_max t))). set (h := (t_np _ / 2)).
      assert (total (take h l) <= total l)%Z.
      { rewrite (total_split h l). assert (0 <= total (drop h l))%Z; [|lia]. apply total_nonneg. apply Forall_drop. by apply Forall_take, Forall_drop. }
      enough (total l < W32)%Z by lia. unfold l. destruct i as [|[|i]]; [by rewrite drop_0| |lia].
      rewrite take_ge by (rewrite drop_length; unfold t_np in *; lia). done.
    + set (l := take _ (drop _ (t_max t))). set (h := (t_np _ / 2)).
      assert (total (drop h l) <= total l)%Z.
      { rewrite (total_split h l). assert (0 <= total (take h l))%Z; [|lia]. apply total_nonneg. apply Forall_take. by apply Forall_take, Forall_drop. }
      enough (total l < W32)%Z by lia. unfold l. destruct i as [|[|i]]; [by rewrite drop_0| |lia].
      rewrite take_ge by (rewrite drop_length; unfold t_np in *; lia). done.
Qed.
(** The target of the whole call. *)
Lemma api_target k T : 2 <= k -> (Z.of_nat k < W32)%Z -> (0 <= T < W32)%Z ->
  exists t, target_of_fractions T default_tolerance (default_fractions k) = Ok t /\ t_np t = k /\ sane t /\
    (total (take (k / 2) (t_max t)) < W32)%Z /\ (total (drop (k / 2) (t_max t)) < W32)%Z.
Proof.
  intros Hk Hk2 HT. destruct (C36_default_tolerance k T ltac:(lia) Hk2 HT ltac:(lia)) as (t & E & Hm0). unfold target_uniform in E. fold (default_fractions k) in E.
  assert (Hm : forall i m, t_max t !! i = Some m -> (100 * (Z.of_nat k * m) <= 105 * T)%Z) by (intros i m Hi; destruct (Hm0 i m Hi); lia).
  assert (isR f_0_03 (F2R (Float radix2 8646911284551352 (-58)))) as Hl by (apply lit_R; vm_compute; reflexivity).
  destruct (C36_uniform_targets k T default_tolerance _ t ltac:(lia) Hk2 HT Hl ltac:(unfold max_u32_tolerance; lit; lra) E) as (HL & HS & _ & _).
  exists t. split; [done|]. split; [done|]. split; [exact HS|]. destruct HS as [HLm HS].
  assert (HB : forall l, (forall m, m ∈ l -> (100 * (Z.of_nat k * m) <= 105 * T)%Z) -> (100 * (Z.of_nat k * total l) <= 105 * (Z.of_nat (length l) * T))%Z).
  { induction l as [|a l IH]; intros Hin; [cbn; lia|]. cbn [total foldr length]. fold (total l). rewrite Nat2Z.inj_succ.
    pose proof (Hin a ltac:(by left)). specialize (IH ltac:(intros m Hm'; apply Hin; by right)). lia. }
  assert (HM : forall m, m ∈ t_max t -> (100 * (Z.of_nat k * m) <= 105 * T)%Z) by (intros m [i Hi]%elem_of_list_lookup; by eapply Hm).
  pose proof (HB (take (k / 2) (t_max t)) ltac:(intros m Hin; apply HM; rewrite <- (take_drop (k / 2)); apply elem_of_app; by left)) as B1.
  pose proof (HB (drop (k / 2) (t_max t)) ltac:(intros m Hin; apply HM; rewrite <- (take_drop (k / 2)); apply elem_of_app; by right)) as B2.
  rewrite take_length in B1. rewrite drop_length in B2. pose proof (half_le k) as Hh. pose proof (Nat.div_mod k 2 ltac:(lia)) as Hd. pose proof (Nat.mod_upper_bound k 2 ltac:(lia)).
  unfold W32 in *. split.
  - assert (2 * Z.of_nat (k / 2 `min` length (t_max t)) <= Z.of_nat k)%Z by lia.
    assert (200 * (Z.of_nat k * total (take (k / 2) (t_max t))) <= 105 * (Z.of_nat k * T))%Z by nia.
    assert (200 * total (take (k / 2) (t_max t)) <= 105 * T)%Z by nia. lia.
  - assert (3 * Z.of_nat (length (t_max t) - k / 2) <= 2 * Z.of_nat k)%Z by lia.
    assert (300 * (Z.of_nat k * total (drop (k / 2) (t_max t))) <= 210 * (Z.of_nat k * T))%Z by nia.
    assert (300 * total (drop (k / 2) (t_max t)) <= 210 * T)%Z by nia. lia.
Qed.
