(** * PowFacts: how heavy a part can get when the number of parts is a power of two (C58). *)
From Coq Require Import ZArith.
From Verif Require Import Base F64 ModelGraph ModelPartition ModelConn ModelFM ModelAgg ModelMultilevel ModelBisect ModelRecursive ModelApi Spec Logic Sums
  GraphFacts PartFacts MiscFacts BisectFacts EvenFacts MultilevelFacts SubFacts RecFacts TargetFacts PropsTarget LabelFacts ApiFacts TreeFacts PropsBisect BalanceFacts BoundFacts.

(** ** Bisecting equal targets gives equal targets *)
Definition max_step (w ex : Z) (tolf : f64) (x : Z) : outcome Z := f_to_u32 (fadd (f_of_Z x) (fadd (f_of_Z w) (fmul (f_of_Z ex) tolf))).
Fixpoint max_iter (w ex : Z) (tolf : f64) (n : nat) (x : Z) : outcome Z :=
  match n with 0 => Ok x | S n => let! y := max_step w ex tolf x in max_iter w ex tolf n y end.
Lemma bis_half t k tolf w m hh n : forall s b b', t_wgt t = replicate k w -> t_max t = replicate k m -> s + n <= k ->
  (forall p, s <= p < s + n -> half_of k p = hh) -> hh < 2 -> length (bt_max b) = 2 -> length (bt_tgt b) = 2 ->
  ofold (bis_step t k tolf) b (seq s n) = Ok b' ->
  exists x, max_iter w (u32 (m - w)) tolf n (nth hh (bt_max b) 0%Z) = Ok x /\ bt_max b' = <[hh := x]> (bt_max b) /\ length (bt_tgt b') = 2.
Proof.
  induction n as [|n IH]; intros s b b' Hw Hm Hk Hh Hhh HL HL2 E.
  - cbn in E. injection E as <-. eexists. split; [reflexivity|]. split; [|done]. symmetry. apply list_insert_id. apply lookup_nth. lia.
  - change (seq s (S n)) with (s :: seq (S s) n) in E. cbn [ofold] in E. unfold bis_step at 1 in E. cbv zeta in E. rewrite !(Hh s) in E by lia.
    assert (R1 : rd (t_wgt t) s = Ok w) by (apply rd_ok; rewrite Hw; apply lookup_replicate; split; [done|lia]).
    assert (R2 : rd (t_max t) s = Ok m) by (apply rd_ok; rewrite Hm; apply lookup_replicate; split; [done|lia]).
    unfold max_excess in E. rewrite R1, R2 in E. cbn [obind] in E.
    rewrite (rd_ok (bt_tgt b) hh (nth hh (bt_tgt b) 0%Z)) in E by (apply lookup_nth; lia).
    rewrite (rd_ok (bt_max b) hh (nth hh (bt_max b) 0%Z)) in E by (apply lookup_nth; lia). cbn [obind] in E.
    cbn [max_iter]. unfold max_step at 1. destruct (f_to_u32 _) as [y|]; [|done]. cbn [obind] in *.
    destruct (wr (bt_tgt b) _ _) as [l1|] eqn:E1; [|done]. cbn [obind] in E. destruct (wr (bt_max b) _ _) as [l2|] eqn:E2; [|done]. cbn [obind] in E.
    apply wr_inv in E1 as [_ ->], E2 as [_ ->].
    apply IH in E; cbn [bt_max bt_tgt] in *; rewrite ?insert_length; try done; [|lia|intros p Hp; apply Hh; lia].
    destruct E as (x & E & H1 & H2). rewrite (nth_lt_eq _ _ _ y) in E by (apply list_lookup_insert; lia).
    exists x. split; [done|]. split; [by rewrite list_insert_insert in H1|done].
Qed.
Lemma even_bisection t h tolf w m bt : t_wgt t = replicate (h + h) w -> t_max t = replicate (h + h) m -> bisect_target t tolf = Ok bt ->
  exists x, t_max bt = [x; x].
Proof.
  intros Hw Hm. unfold bisect_target. assert (Hnp : t_np t = h + h) by (unfold t_np; rewrite Hw; apply replicate_length). rewrite Hnp.
  assert (H2 : (h + h) / 2 = h) by (replace (h + h) with (h * 2) by lia; apply Nat.div_mul; lia).
  rewrite seq_app, ofold_app. destruct (ofold _ _ (seq 0 h)) as [b|] eqn:E1; [|done]. cbn [obind].
  destruct (ofold _ b _) as [b'|] eqn:E2; [|done]. cbn [obind]. intros [= <-]. cbn [t_max target_of_weights].
  apply (bis_half t (h + h) tolf w m 0) in E1 as (x & X1 & X2 & X3); try done; try lia.
  2: { intros p Hp. unfold half_of. rewrite H2. destruct (Nat.leb_spec h p); [lia|done]. }
  apply (bis_half t (h + h) tolf w m 1) in E2 as (y & Y1 & Y2 & Y3); try done; try lia.
  2: { intros p Hp. unfold half_of. rewrite H2. destruct (Nat.leb_spec h p); [done|lia]. }
  2: { by rewrite X2, insert_length. }
  cbn [bt_max nth] in X1, X2. rewrite X2 in Y1, Y2. cbn in Y1, Y2. rewrite X1 in Y1. injection Y1 as <-. exists x. by rewrite Y2.
Qed.
Lemma total_const n (c : Z) : total (replicate n c) = (Z.of_nat n * c)%Z.
Proof. unfold total. induction n as [|n IH]; cbn [replicate foldr]; [done|]. rewrite IH. lia. Qed.

(** ** One bisection *)
Record pow_inv (w m W E D : Z) (j : nat) (t : target) (g : graph) : Prop := {
  pi_ud : undirected g;
  pi_ne : (Z.of_nat (ne g) < W32)%Z;
  pi_nv : (Z.of_nat (nv g) < W32)%Z;
  pi_null : (sumn (nv g) (vweight g) < NULL_WGT)%Z;
  pi_heavy : weights_below W g;
  pi_lim : (3 * sumn (nv g) (vweight g) <= 40 * W)%Z;
  pi_np : t_np t = 2 ^ j;
  pi_wgt : t_wgt t = replicate (2 ^ j) w;
  pi_max : t_max t = replicate (2 ^ j) m;
  pi_w : (0 < w <= m)%Z; pi_m : (m < W32)%Z; pi_kw : (Z.of_nat (2 ^ j) * w < W32)%Z;
  pi_E : (Z.of_nat (2 ^ j) * (m - w) <= 2 * E)%Z;
  pi_D : (E <= D)%Z;
  pi_sum : (sumn (nv g) (vweight g) <= Z.of_nat (2 ^ j) * w + D)%Z
}.
Section Pow.
  Context (lg : nat -> f64) (Hlg : log2_spec lg) (scheme : Z) (bis : bisector) (Hb : api_bisector scheme = Ok bis) (w m W E : Z).
  Lemma pow_made D j t g bt p s s' : pow_inv w m W E D (S j) t g -> bisect_target t (tolerance_factor lg (t_np t)) = Ok bt -> bis bt g s = Ok (p, s') ->
    two_labels g p /\ forall i, i < 2 -> (label_weight g (lab p) (Some i) <= Z.of_nat (2 ^ j) * w + D + W)%Z.
  Proof.
    intros [Hud Hne Hnv Hnull HW Hlim Hnp Hw Hm Hwm Hm32 Hkw HE HD Hs] Ebt Ep.
    assert (H2j : 2 ^ S j = 2 ^ j + 2 ^ j) by (cbn; lia). assert (Hj1 : 1 <= 2 ^ j) by (pose proof (Nat.pow_nonzero 2 j); lia).
    assert (Hh : 2 ^ S j / 2 = 2 ^ j) by (rewrite H2j; replace (2 ^ j + 2 ^ j) with (2 ^ j * 2) by lia; apply Nat.div_mul; lia).
    destruct (even_bisection t (2 ^ j) _ w m bt ltac:(by rewrite <- H2j) ltac:(by rewrite <- H2j) Ebt) as [x Hx].
    assert (HS : targets_within_limits t).
    { split; [by rewrite Hw, Hm, !replicate_length|]. intros i a b H1 H2. rewrite Hw in H1. rewrite Hm in H2.
      apply lookup_replicate in H1 as [-> _]. apply lookup_replicate in H2 as [-> _]. change (2 ^ 32)%Z with W32. lia. }
    destruct (C11_bisection_targets lg t bt Hlg ltac:(lia) HS Ebt) as (Ht & ma & mb & Hmx & [B1 B2] & _ & _ & _).
    rewrite Hx in Hmx. injection Hmx as <- <-. rewrite Hnp, Hh, Hw, Hm, H2j in *. rewrite take_replicate, drop_replicate, !total_const in *.
    replace (2 ^ j `min` (2 ^ j + 2 ^ j)) with (2 ^ j) in * by lia. replace (2 ^ j + 2 ^ j - 2 ^ j) with (2 ^ j) in * by lia.
    set (q := Z.of_nat (2 ^ j)) in *. assert (Hq : (1 <= q)%Z) by lia. rewrite Nat2Z.inj_add in *. fold q in Hkw, HE, Hs.
    assert (He : even bt).
    { assert (bt = target_of_weights [(q * w)%Z; (q * w)%Z] [x; x]) as ->; [|apply even_weights; nia].
      unfold bisect_target in Ebt. destruct (ofold _ _ _) as [b|]; [|done]. cbn [obind] in Ebt. injection Ebt as <-. cbn in Ht, Hx |- *. by rewrite Ht, Hx. }
    pose proof (bisect_target_two _ _ _ Ebt) as Htw.
    destruct (decide (nv g = 0)) as [Hz|Hz].
    { pose proof (api_bisector_empty scheme bis bt g Hb (ud_wf _ Hud) Hz s) as H. rewrite Ep in H. done. }
    unfold api_bisector in Hb. destruct (aggregator_make scheme) as [agg|] eqn:Ea; [|done]. cbn in Hb. injection Hb as <-.
    assert (M0 : max_of bt 0 = x) by (unfold max_of; by rewrite Hx). assert (T0 : target_of bt 0 = (q * w)%Z) by (unfold target_of; by rewrite Ht).
    assert (HL := library_over g Hud Hne Hnv ltac:(lia) Hnull bt He Htw (q * w + D) W ltac:(rewrite M0; nia) ltac:(rewrite M0, T0; lia) ltac:(rewrite T0; lia) HW ltac:(auto) scheme agg 8 8 150 Ea ltac:(lia)).
    assert (Hli : light g) by (unfold light; assert (HN : (NULL_WGT < W32)%Z) by (vm_compute; reflexivity); lia).
    assert (HL' := wpm_elim _ _ _ _ _ _ HL Ep). destruct HL' as [HX [P0 P1]]. pose proof HX as [[Hlab [HpL HpW]] _].
    split; [split; done|]. intros i Hi. destruct (valid_pw g p i (proj1 HX) ltac:(lia)) as [_ F].
    rewrite (light_u32 g _ _ (ud_wf _ Hud) Hli) in F. rewrite <- F. unfold pw. destruct i as [|[|i]]; [done|done|lia].
  Qed.
  Lemma pow_sub D j t g p i sg off t' : pow_inv w m W E D (S j) t g -> induced g (lab p) i sg -> off + 2 ^ j <= t_np t ->
    (label_weight g (lab p) (Some i) <= Z.of_nat (2 ^ j) * w + D + W)%Z -> (0 <= W)%Z -> sub_target t off (2 ^ j) = Ok t' -> pow_inv w m W E (D + W) j t' sg.
  Proof.
    intros [Hud Hne Hnv Hnull HW Hlim Hnp Hw Hm Hwm Hm32 Hkw HE HD Hs] Hin Hoc HL HW0 Et. pose proof Hud as [Hwf Hsy Hl Hf].
    pose proof (sub_target_len _ _ _ _ Et) as Hnp'. unfold sub_target in Et. destruct (_ || _); [done|]. injection Et as <-.
    assert (H2j : 2 ^ S j = 2 ^ j + 2 ^ j) by (cbn; lia). assert (Hj1 : 1 <= 2 ^ j) by (pose proof (Nat.pow_nonzero 2 j); lia).
    assert (HSum : sumn (nv sg) (vweight sg) = label_weight g (lab p) (Some i)).
    { rewrite (sum_members g (lab p) i sg Hin (vweight g) (vweight sg)); [done|]. intros x v Hx. by apply (in_vw _ _ _ _ Hin). }
    pose proof (label_weight_bounds g (lab p) (Some i) Hwf) as HB. rewrite H2j, Nat2Z.inj_add in *.
    constructor.
    - split; [by eapply in_wf|by eapply induced_symmetric|by eapply induced_loopless|by eapply induced_fits].
    - pose proof (induced_ne g Hwf _ _ _ Hin). lia.
    - pose proof (induced_nv g _ _ _ Hin). lia.
    - lia.
    - intros x Hx. assert (Hx' : x < length (members (nv g) (lab p) i)) by (rewrite <- (in_nv _ _ _ _ Hin); done).
      destruct (lookup_lt_is_Some_2 _ _ Hx') as [v Hv]. rewrite (in_vw _ _ _ _ Hin x v Hv). apply HW. apply members_inv in Hv. tauto.
    - lia.
    - done.
    - cbn [t_wgt target_of_weights]. rewrite Hw, drop_replicate, take_replicate. f_equal. lia.
    - cbn [t_max target_of_weights]. rewrite Hm, drop_replicate, take_replicate. f_equal. lia.
    - done.
    - done.
    - nia.
    - nia.
    - lia.
    - lia.
  Qed.
  (** ** The whole tree *)
  Lemma side_part g p i sg l (l1 : nat -> nat) off (c : nat) : induced g (lab p) i sg ->
    (forall x v, members (nv g) (lab p) i !! x = Some v -> l v = off + l1 x) ->
    sumn (nv g) (fun v => if decide (lab p v = Some i) then (if decide (l v = (off + c)%nat) then vweight g v else 0) else 0)%Z = label_weight sg l1 c.
  Proof.
    intros Hin Hl. unfold label_weight. symmetry. apply (sum_members g (lab p) i sg Hin (fun v => if decide (l v = (off + c)%nat) then vweight g v else 0)%Z).
    intros x v Hx. rewrite (Hl x v Hx), (in_vw _ _ _ _ Hin x v Hx). repeat case_decide; lia.
  Qed.
  Lemma pow_tree t g l ps s s' : (0 <= W)%Z -> tree lg bis t g l ps s s' -> forall j D, pow_inv w m W E D j t g -> forall i, i < t_np t -> (label_weight g l i <= w + D + Z.of_nat j * W)%Z.
  Proof.
    intros HW0. induction 1 as [t g bt p l s s' Hk H1 H2 H3 H4 | t g bt p t1 g1 l l1 ps s s1 s2 Hk H1 H2 H3 H4 H5 HT IH H6 H7
                  | t g bt p t0 t1 g0 g1 l l0 l1 ps0 ps1 s s1 s2 s3 Hk H1 H2 H3 H4 H5 HT IH H6 H7 HT1 IH1 H8 H9]; intros j D HI i Hi.
    - assert (j = 1) as ->.
      { pose proof (pi_np _ _ _ _ _ _ _ _ HI) as Hnp. rewrite Hk in Hnp. destruct j as [|[|j]]; [done|done|]. cbn in Hnp. pose proof (Nat.pow_nonzero 2 j). lia. }
      destruct (pow_made D 0 t g bt p _ _ HI H1 H2) as (_ & M). rewrite Hk in Hi. specialize (M i Hi). change (2 ^ 0) with 1 in M.
      assert (EL : label_weight g l i = label_weight g (lab p) (Some i)); [|lia].
      apply sumf_ext. intros v Hv%elem_of_seq. rewrite H4 by lia. repeat case_decide; congruence.
    - exfalso. pose proof (pi_np _ _ _ _ _ _ _ _ HI) as Hnp. rewrite Hk in Hnp. destruct j as [|[|j]]; [done|done|]. cbn in Hnp. pose proof (Nat.pow_nonzero 2 j). lia.
    - pose proof (pi_np _ _ _ _ _ _ _ _ HI) as Hnp. destruct j as [|j]; [cbn in Hnp; lia|].
      assert (H2j : 2 ^ S j = 2 ^ j + 2 ^ j) by (cbn; lia).
      assert (Hh : t_np t / 2 = 2 ^ j) by (rewrite Hnp, H2j; replace (2 ^ j + 2 ^ j) with (2 ^ j * 2) by lia; apply Nat.div_mul; lia).
      assert (Hh' : t_np t - t_np t / 2 = 2 ^ j) by lia. rewrite Hh' in H7. rewrite Hh in *.
      destruct (pow_made D j t g bt p _ _ HI H1 H2) as (_ & M).
      assert (HI0 : pow_inv w m W E (D + W) j t0 g0) by (eapply (pow_sub D j t g p 0 g0 0); try done; [lia|apply M; lia]).
      assert (HI1 : pow_inv w m W E (D + W) j t1 g1) by (eapply (pow_sub D j t g p 1 g1 (2 ^ j)); try done; [lia|apply M; lia]).
      specialize (IH j _ HI0). specialize (IH1 j _ HI1). rewrite (sub_target_len _ _ _ _ H5) in IH. rewrite (sub_target_len _ _ _ _ H7) in IH1.
      assert (L0 : forall v, v < nv g -> lab p v = Some 0 -> l v < 2 ^ j).
      { intros v Hv Ev. rewrite (H8 _ _ (members_rank (nv g) (lab p) 0 v Hv Ev)).
        pose proof (tree_bound _ _ _ _ _ _ _ _ HT (rank (lab p) v)) as B. rewrite (in_nv _ _ _ _ H4), (sub_target_len _ _ _ _ H5) in B. apply B. by apply rank_lt. }
      assert (L1 : forall v, v < nv g -> lab p v = Some 1 -> 2 ^ j <= l v).
      { intros v Hv Ev. rewrite (H9 _ _ (members_rank (nv g) (lab p) 1 v Hv Ev)). lia. }
      destruct (decide (i < 2 ^ j)) as [Hlt|Hge].
      + assert (EL : label_weight g l i = label_weight g0 l0 i); [|specialize (IH i Hlt); lia].
        rewrite <- (side_part g p 0 g0 l l0 0 i H4 H8). apply sumf_ext. intros v Hv%elem_of_seq.
        destruct (two_sides g p v H3 ltac:(lia)) as [Ev|Ev]; rewrite Ev.
        * rewrite (decide_True (P := Some 0 = Some 0)) by done. done.
        * pose proof (L1 v ltac:(lia) Ev). rewrite (decide_False (P := Some 1 = Some 0)) by done. rewrite decide_False by lia. done.
      + assert (EL : label_weight g l i = label_weight g1 l1 (i - 2 ^ j)); [|specialize (IH1 (i - 2 ^ j) ltac:(lia)); lia].
        rewrite <- (side_part g p 1 g1 l l1 (2 ^ j) (i - 2 ^ j) H6 H9). apply sumf_ext. intros v Hv%elem_of_seq.
        replace (2 ^ j + (i - 2 ^ j)) with i by lia.
        destruct (two_sides g p v H3 ltac:(lia)) as [Ev|Ev]; rewrite Ev.
        * pose proof (L0 v ltac:(lia) Ev). rewrite decide_False by lia. rewrite decide_False by done. done.
        * rewrite (decide_True (P := Some 1 = Some 1)) by done. done.
  Qed.
End Pow.
(** ** The targets of the call *)
Lemma calc_target_const T f k tw : calc_target_weight T (replicate k f) = Ok tw -> exists w, tw = replicate k w.
Proof.
  destruct (f_to_u32 (fmul f (f_of_Z T))) as [w|] eqn:Ew.
  - intros H. exists w. revert tw H. induction k as [|k IH]; intros tw; cbn; [by intros [= <-]|]. rewrite Ew. cbn [obind].
    destruct (calc_target_weight T (replicate k f)) as [r|]; [|done]. cbn [obind]. intros [= <-]. f_equal. by apply IH.
  - destruct k as [|k]; cbn; [intros [= <-]; by exists 0%Z|]. rewrite Ew. done.
Qed.
Lemma calc_max_const T tol f k tw : calc_max_weight T tol (replicate k f) = Ok tw -> exists w, tw = replicate k w.
Proof.
  destruct (f_to_u32 (fmul (fmul f (fadd f_one tol)) (f_of_Z T))) as [w|] eqn:Ew.
  - intros H. exists w. revert tw H. induction k as [|k IH]; intros tw; cbn [replicate calc_max_weight]; [by intros [= <-]|]. rewrite Ew. cbn [obind].
    destruct (calc_max_weight T tol (replicate k f)) as [r|]; [|done]. cbn [obind]. intros [= <-]. f_equal. by apply IH.
  - destruct k as [|k]; cbn [replicate calc_max_weight]; [intros [= <-]; by exists 0%Z|]. rewrite Ew. done.
Qed.
Lemma uniform_equal T tol k t : target_of_fractions T tol (default_fractions k) = Ok t -> exists w m, t_wgt t = replicate k w /\ t_max t = replicate k m.
Proof.
  unfold target_of_fractions, default_fractions. destruct (check_fractions _ _ _); [|done]. cbn [obind]. destruct (_ || _); [by unfold throw_fractions; case_match|].
  destruct (calc_target_weight T _) as [tw|] eqn:Ew; [|done]. cbn [obind]. destruct (calc_max_weight _ _ _) as [tm|] eqn:Em; [|done]. cbn [obind]. intros [= <-].
  cbn. apply calc_target_const in Ew as [w ->]. apply calc_max_const in Em as [m ->]. by exists w, m.
Qed.
