(** * PropsThree: three parts of a graph with vertex weights (C03). *)
From Coq Require Import ZArith.
From Verif Require Import Base F64 ModelGraph ModelPartition ModelAgg ModelMultilevel ModelBisect ModelRecursive ModelApi Spec Logic Sums GraphFacts BisectFacts MultilevelFacts
  Examples FloatFacts FloatUse SubFacts RecFacts TargetFacts LabelFacts ApiFacts TreeFacts PropsTarget PropsApi PropsTree PropsBisect PropsBalance BalanceFacts BoundFacts PowFacts AnyFacts PropsFour.
From Coq Require Import Reals Floats.SpecFloat Psatz.
From Flocq Require Import Core.Core IEEE754.BinarySingleNaN.
Local Close Scope R_scope.
Local Open Scope nat_scope.
#[local] Arguments seq : simpl nomatch.

(** The graph itself, to be divided into three parts, or the side of it that gets two of them. *)
Record three_inv (w m W E T : Z) (t : target) (g : graph) : Prop := {
  th_api : api_inv t g;
  th_vw : g_vw g <> [];
  th_n : 0 < nv g;
  th_two : t_np t = 2 \/ (t_np t = 3 /\ any_inv w m W E (E + W) 3 t g /\ sumn (nv g) (vweight g) = T /\ g_uvw g = false)
}.
Lemma three_handed lg scheme bis w m W E T : log2_spec lg -> api_bisector scheme = Ok bis -> (0 <= W)%Z -> (w + E + W + W < T)%Z ->
  handed_down lg bis never (three_inv w m W E T).
Proof.
  intros Hlg Hb HW0 Hroom. split.
  - intros t g [HA Hvw Hn _] Hk. pose proof HA as [Hud Hne Hnv Hs Hlo Hhi].
    destruct (C11_succeeds lg t Hlg Hk Hs Hlo Hhi) as [bt Ebt]. rewrite Ebt. cbn.
    pose proof (bisect_target_two _ _ _ Ebt) as Htw.
    unfold api_bisector in Hb. destruct (aggregator_make scheme) as [agg|] eqn:Ea; [|done]. cbn in Hb. injection Hb as <-.
    eapply wpm_mono; [apply (library_bfs_wp g Hud Hne Hnv ltac:(lia) bt Htw scheme agg 8 8 150 Ea); lia| |].
    + intros f (_ & _ & Hx). done.
    + intros p [[H1 [H2 _]] _]. done.
  - intros t g p i sg [HA Hvw Hn [H2|(H3 & HI & HT & Hu)]] Hk Hp Hi Hin Hc Hmade; [lia|].
    destruct i as [|[|i]]; [rewrite H3 in Hc; cbn in Hc; lia| |lia].
    pose proof (hd_sub _ _ _ _ (api_handed lg scheme bis Hlg Hb) t g p 1 sg HA Hk Hp Hi Hin Hc Hmade) as HS.
    rewrite H3 in *. change (3 / 2) with 1 in *. change (3 - 1) with 2 in *. cbv iota in HS |- *.
    destruct (sub_target t 1 2) as [t'|f] eqn:Est.
    2: { exfalso. unfold sub_target in Est. destruct (_ || _); [|done]. injection Est as <-. destruct HS; done. }
    cbn [wpo] in HS |- *. destruct Hmade as (bt & cs & cs' & Ebt & Ep).
    pose proof (any_made lg Hlg scheme bis Hb w m W E (E + W) 3 t g bt p cs cs' ltac:(lia) HW0 HI Ebt Ep 0 ltac:(lia)) as M.
    change (side_parts 3 0) with 1 in M.
    assert (HSum : sumn (nv sg) (vweight sg) = label_weight g (lab p) (Some 1)).
    { rewrite (sum_members g (lab p) 1 sg Hin (vweight g) (vweight sg)); [done|]. intros x v Hx. by apply (in_vw _ _ _ _ Hin). }
    assert (Htot : (label_weight g (lab p) (Some 0%nat) + label_weight g (lab p) (Some 1%nat) = sumn (nv g) (vweight g))%Z).
    { unfold label_weight, sumn. rewrite <- sumf_add. apply sumf_ext. intros v Hv%elem_of_seq.
      destruct Hp as [_ [_ Hlab]].
      destruct (Hlab v ltac:(lia)) as (a & Ha & Ea). unfold lab. rewrite (nth_lt_eq _ _ _ _ Ea). destruct a as [|[|a]]; [| |lia]; repeat case_decide; try congruence; lia. }
    assert (Hn' : 0 < nv sg). { destruct (decide (nv sg = 0)) as [H0|]; [|lia]. rewrite H0 in HSum. change (sumn 0 (vweight sg)) with 0%Z in HSum. lia. }
    split; [done| |done|].
    + pose proof (in_len _ _ _ _ Hin) as Hlen. rewrite Hu in Hlen. intros He. rewrite He in Hlen. cbn in Hlen. lia.
    + left. by rewrite (sub_target_len _ _ _ _ Est).
Qed.
(** Three parts: vertex weights given, not all equal to one, none of them more than a quarter of the total. *)
Theorem C03_three_parts : forall lg n prefix adj vw ew o s g, log2_spec lg -> valid_csr n prefix adj (Some vw) ew ->
  graph_of_csr prefix adj (Some vw) ew = Ok g -> undirected g -> (Z.of_nat n < 2 ^ 32)%Z -> (Z.of_nat (length adj) < 2 ^ 32)%Z ->
  let T := sumn n (vweight g) in
  (100 <= T < NULL_WGT)%Z -> (exists v, v < n /\ vweight g v <> 1%Z) -> (forall v, v < n -> (4 * vweight g v <= T)%Z) ->
  (o_scheme o = 0 \/ o_scheme o = 1)%Z ->
  exists r s', part_graph_recursive lg prefix adj (Some vw) ew 3 (Some o) s = Ok (r, s') /\ r_ret r = 1%Z.
Proof.
  intros lg n prefix adj vw ew o s g Hlg HC Eg Hud Hn Hne T HT (v1 & Hv1 & Hv2) Hheavy Ho.
  destruct (graph_of_csr_ok _ _ _ _ _ HC) as (g' & Eg' & Hwf & _ & Hadj & Hvw & _ & Hnv & Ht & _). rewrite Eg in Eg'. injection Eg' as <-.
  assert (exists bis, api_bisector (o_scheme o) = Ok bis) as [bis Eb].
  { unfold api_bisector, aggregator_make. destruct Ho as [-> | ->]; cbn; eauto. }
  assert (HNW : (NULL_WGT < W32)%Z) by (vm_compute; reflexivity).
  assert (HTT : g_tvw g = T) by (rewrite (wf_tvw _ Hwf), Hnv; apply u32_small; fold T; lia).
  assert (HkW : (Z.of_nat 3 < 2 ^ 32)%Z) by lia.
  destruct (api_target 3 (g_tvw g) ltac:(lia) HkW ltac:(rewrite HTT; unfold W32 in *; lia)) as (t & Et & Hnp & Hs & H1 & H2).
  rewrite (call_eq _ _ _ _ _ _ _ _ HC). rewrite Eg, Eb. unfold mbindM, lift. cbn [obind fst snd]. rewrite Et. cbn [obind fst snd].
  assert (HA : api_inv t g).
  { split; [done|unfold ne; by rewrite Hadj|by rewrite Hnv|done| |]; by rewrite Hnp. }
  destruct (C36_default_tolerance 3 T ltac:(lia) HkW ltac:(unfold W32 in *; lia) ltac:(lia)) as (t' & E' & Hm). unfold target_uniform in E'. fold (default_fractions 3) in E'.
  rewrite HTT, E' in Et. injection Et as ->.
  assert (isR f_0_03 (F2R (Float radix2 8646911284551352 (-58)))) as Hl by (apply lit_R; vm_compute; reflexivity).
  destruct (C36_uniform_targets 3 T default_tolerance _ t ltac:(lia) HkW ltac:(unfold W32 in *; lia) Hl ltac:(unfold max_u32_tolerance; lit; lra) E') as (HLt & [HSl HS] & Hw & _).
  destruct (uniform_equal _ _ _ _ E') as (w & m & Ew & Em).
  assert (Lw : t_wgt t !! 0 = Some w) by (rewrite Ew; apply lookup_replicate; split; [done|lia]).
  assert (Lm : t_max t !! 0 = Some m) by (rewrite Em; apply lookup_replicate; split; [done|lia]).
  specialize (Hw 0 w Lw). specialize (HS 0 w m Lw Lm). specialize (Hm 0 m Lm). change (Z.of_nat 3) with 3%Z in *.
  set (E0 := (T / 49 + 6)%Z). set (W0 := (T / 4)%Z).
  assert (HTg : sumn (nv g) (vweight g) = T) by (by rewrite Hnv).
  assert (Hu : g_uvw g = false). { destruct (g_uvw g) eqn:Eu; [|done]. exfalso. apply Hv2. apply (wf_uvw_t _ Hwf Eu). by rewrite Hnv. }
  assert (HI : any_inv w m W0 E0 (E0 + W0) 3 t g).
  { constructor; rewrite ?HTg; change (Z.of_nat 3) with 3%Z; change (Z.of_nat (3 - 3 / 2)) with 2%Z; [done| | |lia| | |done|done|done| | | | |lia|].
    - unfold ne. by rewrite Hadj.
    - by rewrite Hnv.
    - intros v Hv. rewrite Hnv in Hv. specialize (Hheavy v Hv). unfold W0. apply Z.div_le_lower_bound; lia.
    - unfold W0. clear -HT. Z.div_mod_to_equations; lia.
    - clear -Hw HS HT. Z.div_mod_to_equations; lia.
    - change W32 with (2 ^ 32)%Z. lia.
    - clear -Hw HS HT HNW. Z.div_mod_to_equations; lia.
    - unfold E0. clear -Hw Hm HS HT. Z.div_mod_to_equations; lia.
    - unfold E0, W0. clear -Hw HT. Z.div_mod_to_equations; lia. }
  assert (HRo : three_inv w m W0 E0 T t g).
  { split; [done| |rewrite Hnv; lia|].
    - rewrite Hvw. cbn. destruct (vc_vw _ _ _ _ _ HC vw eq_refl) as [Hlv _]. intros ->. cbn in Hlv. lia.
    - right. split; [rewrite Hnp; reflexivity|]. exact (conj HI (conj HTg Hu)). }
  assert (HD : handed_down lg bis never (three_inv w m W0 E0 T)).
  { eapply three_handed; [done|exact Eb|unfold W0; apply Z.div_pos; lia|]. unfold E0, W0. clear -Hw HT. Z.div_mod_to_equations; lia. }
  assert (HW : wpm (mfold (fun st (_ : nat) => do! p := rb_execute lg bis t g in ret (keep_best st p)) None (seq 0 (Z.to_nat (o_num_cuts o)))) never (fun _ => True)).
  { apply (mfold_inv (fun _ => True)); [done|]. intros a st _ _. eapply wpm_bind; [|intros p _; by apply wpm_ret].
    eapply wpm_post; [eapply rb_execute_wp; [exact HD|exact HRo|done|lia]|]. intros; exact I. }
  specialize (HW s). unfold mbindM in HW. destruct (mfold _ None _ s) as [[best s1]|f]; cbn in HW |- *; [eauto|exact (False_ind _ HW)].
Qed.
Print Assumptions C03_three_parts.
(** The ring of 60 vertices of weight two of C03_four_nonvacuous meets the hypotheses. *)
Example C03_three_nonvacuous : exists g, valid_csr 60 (ring_prefix 60) (ring_adj 60) (Some (replicate 60 2%Z)) None /\
  graph_of_csr (ring_prefix 60) (ring_adj 60) (Some (replicate 60 2%Z)) None = Ok g /\ undirected g /\ sumn 60 (vweight g) = 120%Z /\
  (exists v, v < 60 /\ vweight g v <> 1%Z).
Proof. destruct C03_four_nonvacuous as (g & H1 & H2 & H3 & H4 & H5 & _). by exists g. Qed.
