(** * QualityFacts: refinement through the levels never gives up what the coarsest level found
    (C51); random bisection followed by FM (C52). *)
From Verif Require Import Base F64 ModelGraph ModelPartition ModelConn ModelFM ModelAgg ModelMultilevel ModelBisect Spec Logic Sums
  GraphFacts PartFacts ConnFacts FMFacts MiscFacts FloatOrder BisectFacts EvenFacts FloatUse ContractFacts ProjectFacts MultilevelFacts.
#[local] Arguments flt : simpl never.
#[local] Arguments fle : simpl never.

Lemma wpm_trace {A} (m : M A) E P : wpm m E P -> wpm m E (fun a => P a /\ exists s s', m s = Ok (a, s')).
Proof. intros H s. specialize (H s). destruct (m s) as [[a s']|f] eqn:Em; simpl in *; [|done]. split; [done|]. by exists s, s'. Qed.

Lemma balanced_or t p : length (p_pw p) <= length (t_max t) -> balanced t p \/ ~ balanced t p.
Proof.
  intros H. destruct (is_balanced_ok t p H) as (b & Eb & _). pose proof (balanced_dec t p b H Eb) as HB.
  destruct b; [left; by apply HB|right]. intros H2. apply HB in H2. done.
Qed.
Lemma no_worse_trans g t p p' p'' : length (p_pw p') <= length (t_max t) ->
  no_worse g t p p' -> no_worse g t p' p'' -> no_worse g t p p''.
Proof.
  intros HL [N1 N2] [M1 M2]. split.
  - intros Hb. destruct (N1 Hb) as [A B]. destruct (M1 A) as [C D]. split; [done|lia].
  - intros Hb. destruct (balanced_or t p' HL) as [Hb'|Hb']; [left; by apply M1|].
    destruct (N2 Hb) as [?|(b & b' & E1 & E2 & H1)]; [done|]. destruct (M2 Hb') as [?|(c & c' & F1 & F2 & H2)]; [by left|].
    right. exists b, c'. split; [done|]. split; [done|]. rewrite E2 in F1. injection F1 as <-.
    pose proof (max_imbalance_spec _ _ _ _ E1) as (_ & Nb & _). pose proof (max_imbalance_spec _ _ _ _ E2) as (_ & Nb' & _).
    pose proof (max_imbalance_spec _ _ _ _ F2) as (_ & Nc & _).
    destruct H1 as [H1|[H1 H1c]], H2 as [H2|[H2 H2c]].
    + left. eapply flt_trans; eauto.
    + left. eapply fle_lt_trans; eauto.
    + left. eapply flt_le_trans; eauto.
    + right. split; [|lia]. eapply fle_trans; [| | |exact H2|exact H1]; done.
Qed.
(** Quality only depends on the weights, the cut and the total. *)
Lemma imbalance_ext g g' t p p' : g_tvw g = g_tvw g' -> p_pw p = p_pw p' -> calc_max_imbalance g t p = calc_max_imbalance g' t p'.
Proof.
  intros Hg Hp. unfold calc_max_imbalance, find_max. rewrite Hp. f_equal. apply ofold_ext. intros a i _. unfold get_imbalance.
  unfold get_fraction, get_weight. rewrite Hg, Hp. done.
Qed.
Lemma no_worse_ext g g' t p p' q q' : g_tvw g = g_tvw g' -> p_pw p = p_pw q -> p_cut p = p_cut q -> p_pw p' = p_pw q' -> p_cut p' = p_cut q' ->
  no_worse g t p p' -> no_worse g' t q q'.
Proof.
  intros Hg H1 H2 H3 H4. unfold no_worse, balanced. rewrite (imbalance_ext g g' t p q Hg H1), (imbalance_ext g g' t p' q' Hg H3), H1, H2, H3, H4. done.
Qed.

Section Quality.
  Context (g0 : graph) (Hg0 : undirected g0) (Hne : (Z.of_nat (ne g0) < W32)%Z) (Hnv : (Z.of_nat (nv g0) < W32)%Z) (Hlight : light g0).
  Context (agg : aggregator) (init : bisector) (it mv : Z) (t : target) (Heven : even t) (maxW : Z) (E : failure -> Prop).
  Context (Hagg : forall g cm, level g0 g cm -> wpm (agg maxW g) E (coarsening (nv g))).
  Context (Hinit : forall g cm, level g0 g cm -> wpm (init t g) E (exact_part 2 g)).
  Let stop : criteria := composite_stop [vertex_number_stop 20; edge_ratio_stop f_0_95].
  (** the result r at some level stems from an initial bisection p0 of a coarse graph gc *)
  Definition stems (r : part) : Prop :=
    exists gc cm p0 s1 s2, level g0 gc cm /\ init t gc s1 = Ok (p0, s2) /\ exact_part 2 gc p0 /\ no_worse g0 t p0 r.
  Lemma even_len : 2 <= length (t_frac t) /\ 2 <= length (t_max t).
  Proof. destruct Heven as (f & m & -> & -> & _). done. Qed.
  Lemma fm_no_worse g cm c p : level g0 g cm -> ml_good g (c, p) ->
    wpm (fm_refine it mv g t c p) E (fun r => ml_good g r /\ no_worse g t p (snd r)).
  Proof.
    intros HL (H1 & H2 & H3). cbn [fst snd] in *. destruct even_len as [Htf Htm].
    pose proof (level_inv _ _ _ Hg0 HL) as HLo. pose proof (lo_ud _ _ _ HLo) as [Hwf Hs Hl Hf]. pose proof (lo_nv _ _ _ HLo).
    destruct (max_bad_moves_ok mv (nv g) ltac:(lia)) as [mb Hmb].
    eapply wpm_post; [by apply (fm_refine_wp g Hwf Hs Hl Hf t Htf Htm E it mv c p mb)|].
    intros r (A & B & C & D). split; [done|]. apply no_worse_rtc; try done. apply even_monotone; try done. by eapply level_light.
  Qed.
  Lemma fm_level g cm c p : level g0 g cm -> ml_good g (c, p) -> wpm (fm_refine it mv g t c p) E (ml_good g).
  Proof. intros HL Hg. eapply wpm_post; [by eapply fm_no_worse|]. by intros r [H _]. Qed.
  Lemma ml_recurse_stems fuel : forall lvl parent g cm, level g0 g cm -> enough_fuel fuel lvl parent g ->
    wpm (ml_recurse agg init (fm_refine it mv) stop maxW t fuel lvl parent g) E (fun r => ml_good g r /\ stems (snd r)).
  Proof.
    destruct even_len as [Htf Htm].
    induction fuel as [|fuel IH]; intros lvl parent g cm HL HF.
    all: pose proof (level_inv _ _ _ Hg0 HL) as HLo; pose proof (lo_ud _ _ _ HLo) as [Hwf Hs Hl Hf]; pose proof (lo_ne _ _ _ HLo) as HN.
    all: destruct (stop_ok g0 agg init (fm_refine it mv) t maxW E Hagg Hinit fm_level _ lvl parent g HF ltac:(lia)) as (b & Eb & Hb); cbn [ml_recurse]; unfold stop; rewrite Eb; apply wpm_liftk.
    all: destruct b; [eapply wpm_bind; [eapply wpm_trace; by eapply Hinit|]; intros p (Hp & s1 & s2 & Ep);
      eapply wpm_bind; [apply wpm_lift; apply (from_partitioning_wp g Hwf Hf E p); apply Hp|]; intros c [Hc1 Hc2];
      apply wpm_ret; split; [split; [done|]; split; [done|]; by apply fresh_exact|]; exists g, cm, p, s1, s2; split; [done|]; split; [done|]; split; [done|];
      eapply no_worse_ext; [apply (lo_tvw _ _ _ HLo)|done|done|done|done|]; by apply no_worse_refl|].
    - specialize (Hb eq_refl). lia.
    - specialize (Hb eq_refl). eapply wpm_bind; [by eapply Hagg|]. intros a Hco. pose proof (proj1 Hco) as Ha.
      destruct (coarse_make_ok g a Hwf Ha) as (cg & Ecg & Hcg). rewrite Ecg. apply wpm_liftk. cbn [cg_coarse].
      assert (Econ : contract g a = Ok cg).
      { destruct (contract_ok g a Hwf Ha) as (cg' & E' & _). unfold coarse_make in Ecg. rewrite E' in Ecg. cbn [obind] in Ecg.
        destruct (Nat.eqb _ _); [|done]. injection Ecg as <-. done. }
      eapply wpm_bind; [apply (IH (S lvl) (Some g) cg _ (level_down _ _ _ _ _ HL Hco Econ))|].
      { simpl. split; lia. }
      intros [cc cp] ((HX & HC & HB) & gc & cmc & p0 & s1 & s2 & L1 & L2 & L3 & L4). cbn [fst snd] in *.
      eapply wpm_bind; [apply wpm_lift; apply (project_wp g Hwf Hs Hf a Ha cg Hcg 2 cp HX cc)|].
      + apply HC.
      + intros c Hlt Hext. apply (HB c Hlt); [|done]. rewrite <- (int_ext_total cg (lab cp) c).
        pose proof (internal_nonneg cg (co_wf _ _ _ Hcg) (lab cp) c Hlt). lia.
      + intros [fc fp] (P1 & P2 & P3 & _ & P5 & P6). cbn [fst snd] in *.
        eapply wpm_post; [eapply (fm_no_worse g cm); [done|]; split; [done|]; split; [done|]; by apply fresh_exact|].
        intros r [R1 R2]. split; [done|]. exists gc, cmc, p0, s1, s2. split; [done|]. split; [done|]. split; [done|].
        eapply (no_worse_trans _ _ _ fp); [rewrite P5; destruct HX as [[_ [-> _]] _]; done| |].
        * apply (no_worse_ext g0 g0 t p0 cp); try done.
        * apply (no_worse_ext g g0 t fp (snd r)); try done. apply (lo_tvw _ _ _ HLo).
  Qed.
  Lemma ml_execute_stems : ml_max_weight g0 = Ok maxW ->
    wpm (ml_execute agg init (fm_refine it mv) t g0) E (fun p => exact_part 2 g0 p /\ stems p).
  Proof.
    intros EM. unfold ml_execute. rewrite ml_criteria_eq. apply wpm_liftk.
    rewrite EM. apply wpm_liftk. eapply wpm_bind; [apply (ml_recurse_stems _ 0 None g0 _ (level_top g0))|].
    - split; [done|]. lia.
    - intros r [Hr Hs]. apply wpm_ret. split; [apply Hr|done].
  Qed.
End Quality.

(** The labels a bisection of a coarse graph gives the vertices of the input. *)
Definition pull (g0 : graph) (cm : nat -> nat) (p0 : part) : part :=
  mkPart (p_cut p0) (p_pw p0) ((fun v => lab p0 (cm v)) <$> seq 0 (nv g0)).
Lemma pull_lab g0 cm p0 v : v < nv g0 -> p_where (pull g0 cm p0) !! v = Some (lab p0 (cm v)).
Proof. intros Hv. unfold pull. simpl. rewrite list_lookup_fmap, lookup_seq_lt by done. done. Qed.
Lemma pull_exact g0 gc cm p0 : undirected g0 -> level g0 gc cm -> exact_part 2 gc p0 -> exact_part 2 g0 (pull g0 cm p0).
Proof.
  intros Hg0 HL [[[HwL HLab] [HpL HpW]] HCut]. pose proof (level_inv _ _ _ Hg0 HL) as HLo.
  assert (HlabP : forall v, v < nv g0 -> lab (pull g0 cm p0) v = lab p0 (cm v)).
  { intros v Hv. unfold lab at 1. apply nth_lt_eq. by apply pull_lab. }
  split; [split; [split|split]|].
  - unfold pull. simpl. rewrite fmap_length, seq_length. done.
  - intros v Hv. destruct (HLab (cm v) (lo_cm _ _ _ HLo v Hv)) as (i & Hi & Ei). exists i. split; [done|]. rewrite pull_lab by done.
    unfold lab. f_equal. by apply nth_lt_eq.
  - exact HpL.
  - intros i Hi. simpl. rewrite HpW by done. f_equal. rewrite (lo_weight _ _ _ HLo). f_equal. apply label_weight_ext. intros u Hu. rewrite HlabP by done. done.
  - simpl. rewrite HCut, (lo_cut _ _ _ HLo). apply edge_cut_ext. intros u Hu. rewrite HlabP by done. done.
Qed.
