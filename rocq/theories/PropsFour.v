(** * PropsFour: four and eight parts of a graph with vertex weights (C03). *)
From Coq Require Import ZArith.
From Verif Require Import Base F64 ModelGraph ModelPartition ModelAgg ModelMultilevel ModelBisect ModelRecursive ModelApi Spec Logic Sums GraphFacts BisectFacts MultilevelFacts
  Examples FloatFacts FloatUse SubFacts RecFacts TargetFacts LabelFacts ApiFacts TreeFacts PropsTarget PropsApi PropsTree PropsBisect PropsBalance BalanceFacts BoundFacts PowFacts.
From Coq Require Import Reals Floats.SpecFloat Psatz.
From Flocq Require Import Core.Core IEEE754.BinarySingleNaN.
Local Close Scope R_scope.
Local Open Scope nat_scope.
#[local] Arguments seq : simpl nomatch.

(** The heaviest vertex a graph of 2^j parts can be coarsened to. *)
Definition top (w Wv : Z) (j : nat) (D : Z) : Z := Z.max Wv (3 * (Z.of_nat (2 ^ j) * w + D) / 40 + 1).
(** The graph to be divided into 2^j parts weighs at least 2^j w - L and at most 2^j w + D; none
    of the graphs handed down can be empty. *)
Fixpoint room (w Wv : Z) (j : nat) (D L : Z) : Prop :=
  match j with
  | 0 => True
  | S i => (L < Z.of_nat (2 ^ j) * w)%Z /\ room w Wv i (D + top w Wv j D) (L + D + top w Wv j D)
  end.
Record roomy (w m Wv E : Z) (t : target) (g : graph) : Prop := {
  ro_api : api_inv t g;
  ro_vw : g_vw g <> [];
  ro_pow : exists j D L, 1 <= j /\ PowFacts.pow_inv w m (top w Wv j D) E D j t g /\ weights_below Wv g /\
    (Z.of_nat (2 ^ j) * w - L <= sumn (nv g) (vweight g))%Z /\ (0 <= D)%Z /\ (0 <= Wv)%Z /\ room w Wv j D L /\
    (2 <= j -> g_uvw g = false) /\ (3 <= j -> forall v, v < nv g -> vweight g v <> 1%Z)
}.
Lemma pow_inv_top w m W W' E D j t g : PowFacts.pow_inv w m W E D j t g -> weights_below W' g -> (3 * sumn (nv g) (vweight g) <= 40 * W')%Z -> PowFacts.pow_inv w m W' E D j t g.
Proof. intros [] H1 H2. by constructor. Qed.
Lemma below_top w Wv j D g : weights_below Wv g -> weights_below (top w Wv j D) g.
Proof. intros H v Hv. specialize (H v Hv). unfold top. lia. Qed.
Lemma lim_top w Wv j D S : (S <= Z.of_nat (2 ^ j) * w + D)%Z -> (3 * S <= 40 * top w Wv j D)%Z.
Proof.
  intros H. unfold top. pose proof (Z.div_mod (3 * (Z.of_nat (2 ^ j) * w + D)) 40 ltac:(lia)). pose proof (Z.mod_pos_bound (3 * (Z.of_nat (2 ^ j) * w + D)) 40 ltac:(lia)). lia.
Qed.
Lemma roomy_handed lg scheme bis w m Wv E : log2_spec lg -> api_bisector scheme = Ok bis -> handed_down lg bis never (roomy w m Wv E).
Proof.
  intros Hlg Hb. split.
  - intros t g [HA Hvw (j & D & L & Hj & HP & Hbel & Hlow & HD & HWv & HR & Hu & Hone)] Hk. pose proof HA as [Hud Hne Hnv Hs Hlo Hhi].
    destruct (C11_succeeds lg t Hlg Hk Hs Hlo Hhi) as [bt Ebt]. rewrite Ebt. cbn.
    pose proof (bisect_target_two _ _ _ Ebt) as Htw.
    assert (Hn : 0 < nv g). { destruct (decide (nv g = 0)) as [H0|]; [|lia]. rewrite H0 in Hlow. destruct j; [lia|]. destruct HR as [HR _]. cbn [sumn] in Hlow. change (sumn 0 (vweight g)) with 0%Z in Hlow. lia. }
    unfold api_bisector in Hb. destruct (aggregator_make scheme) as [agg|] eqn:Ea; [|done]. cbn in Hb. injection Hb as <-.
    eapply wpm_mono; [apply (library_bfs_wp g Hud Hne Hnv ltac:(lia) bt Htw scheme agg 8 8 150 Ea); lia| |].
    + intros f (_ & _ & Hx). done.
    + intros p [[H1 [H2 _]] _]. done.
  - intros t g p i sg [HA Hvw (j & D & L & Hj & HP & Hbel & Hlow & HD & HWv & HR & Hu & Hone)] Hk Hp Hi Hin Hc Hmade.
    pose proof (hd_sub _ _ _ _ (api_handed lg scheme bis Hlg Hb) t g p i sg HA Hk Hp Hi Hin Hc Hmade) as HS.
    assert (Hnp := pi_np _ _ _ _ _ _ _ _ HP).
    destruct j as [|[|j]]; [lia|cbn in Hnp; lia|].
    assert (H2j : 2 ^ S (S j) = 2 ^ S j + 2 ^ S j) by (cbn; lia). assert (Hj1 : 2 <= 2 ^ S j) by (pose proof (Nat.pow_nonzero 2 j); cbn; lia).
    assert (Hh : t_np t / 2 = 2 ^ S j) by (rewrite Hnp, H2j; replace (2 ^ S j + 2 ^ S j) with (2 ^ S j * 2) by lia; apply Nat.div_mul; lia).
    assert (Hh' : t_np t - t_np t / 2 = 2 ^ S j) by lia.
    set (off := if i then 0 else t_np t / 2) in *.
    assert ((if i then t_np t / 2 else t_np t - t_np t / 2) = 2 ^ S j) as Ecnt by (destruct i; lia). rewrite Ecnt in *.
    assert (Hoff : off + 2 ^ S j <= t_np t) by (unfold off; destruct i; lia).
    destruct (sub_target t off (2 ^ S j)) as [t'|f] eqn:Est.
    2: { exfalso. unfold sub_target in Est. destruct (_ || _); [|done]. injection Est as <-. destruct HS; done. }
    cbn [wpo] in HS |- *. destruct Hmade as (bt & cs & cs' & Ebt & Ep).
    destruct (pow_made lg Hlg scheme bis Hb w m (top w Wv (S (S j)) D) E D (S j) t g bt p cs cs' HP Ebt Ep) as (_ & M).
    set (W0 := top w Wv (S (S j)) D) in *.
    assert (HW0 : (0 <= W0)%Z) by (unfold W0, top; lia).
    pose proof (pow_sub w m W0 E D (S j) t g p i sg off t' HP Hin Hoff (M i Hi) HW0 Est) as HP'.
    assert (HSum : sumn (nv sg) (vweight sg) = label_weight g (lab p) (Some i)).
    { rewrite (sum_members g (lab p) i sg Hin (vweight g) (vweight sg)); [done|]. intros x v Hx. by apply (in_vw _ _ _ _ Hin). }
    assert (Htot : (label_weight g (lab p) (Some 0%nat) + label_weight g (lab p) (Some 1%nat) = sumn (nv g) (vweight g))%Z).
    { unfold label_weight, sumn. rewrite <- sumf_add. apply sumf_ext. intros v Hv%elem_of_seq.
      destruct Hp as [_ [_ Hlab]].
      destruct (Hlab v ltac:(lia)) as (a & Ha & Ea). unfold lab. rewrite (nth_lt_eq _ _ _ _ Ea). destruct a as [|[|a]]; [| |lia]; repeat case_decide; try congruence; lia. }
    assert (Hlow' : (Z.of_nat (2 ^ S j) * w - (L + D + W0) <= sumn (nv sg) (vweight sg))%Z).
    { rewrite HSum. rewrite H2j, Nat2Z.inj_add in Hlow. pose proof (M 0 ltac:(lia)). pose proof (M 1 ltac:(lia)). destruct i as [|[|i]]; [lia|lia|lia]. }
    destruct HR as [HR0 HR]. fold W0 in HR. pose proof HR as [HR1 _].
    assert (Hn' : 0 < nv sg). { destruct (decide (nv sg = 0)) as [H0|]; [|lia]. rewrite H0 in Hlow'. change (sumn 0 (vweight sg)) with 0%Z in Hlow'. lia. }
    assert (Hbel' : weights_below Wv sg).
    { intros x Hx. assert (Hx' : x < length (members (nv g) (lab p) i)) by (rewrite <- (in_nv _ _ _ _ Hin); done).
      destruct (lookup_lt_is_Some_2 _ _ Hx') as [v Hv]. rewrite (in_vw _ _ _ _ Hin x v Hv). apply Hbel. apply members_inv in Hv. tauto. }
    split; [done| |].
    + pose proof (in_len _ _ _ _ Hin) as Hlen. rewrite Hu in Hlen by lia. intros He. rewrite He in Hlen. cbn in Hlen. lia.
    + assert (Hone' : 2 <= S j -> forall v, v < nv sg -> vweight sg v <> 1%Z).
      { intros Hj3 x Hx. assert (Hx' : x < length (members (nv g) (lab p) i)) by (rewrite <- (in_nv _ _ _ _ Hin); done).
        destruct (lookup_lt_is_Some_2 _ _ Hx') as [v Hv]. rewrite (in_vw _ _ _ _ Hin x v Hv). apply Hone; [lia|]. apply members_inv in Hv. tauto. }
      exists (S j), (D + W0)%Z, (L + D + W0)%Z. split; [lia|]. split.
      { eapply pow_inv_top; [exact HP'|by apply below_top|]. apply lim_top. apply (pi_sum _ _ _ _ _ _ _ _ HP'). }
      split; [done|]. split; [done|]. split; [lia|]. split; [done|]. split; [exact HR|]. split.
      * intros Hj3. destruct (g_uvw sg) eqn:Eu; [|done]. exfalso. apply (Hone' Hj3 0 Hn'). by apply (wf_uvw_t _ (in_wf _ _ _ _ Hin)).
      * intros Hj3. apply Hone'. lia.
Qed.

(** The call for 2^j parts when there is room. *)
Lemma roomy_call lg n prefix adj vw ew j o s g Wv : log2_spec lg -> valid_csr n prefix adj (Some vw) ew ->
  graph_of_csr prefix adj (Some vw) ew = Ok g -> undirected g -> (Z.of_nat n < 2 ^ 32)%Z -> (Z.of_nat (length adj) < 2 ^ 32)%Z ->
  let T := sumn n (vweight g) in let k := 2 ^ j in
  (T < NULL_WGT)%Z -> 1 <= j -> (2 * Z.of_nat k <= T)%Z -> 0 < n ->
  (o_scheme o = 0 \/ o_scheme o = 1)%Z -> weights_below Wv g -> (0 <= Wv)%Z ->
  (forall w D, (T / Z.of_nat k - 1 <= w <= T / Z.of_nat k)%Z -> D = (T / 60 + 2 * Z.of_nat k)%Z -> room w Wv j D 0) ->
  (2 <= j -> g_uvw g = false) -> (3 <= j -> forall v, v < nv g -> vweight g v <> 1%Z) ->
  exists r s', part_graph_recursive lg prefix adj (Some vw) ew k (Some o) s = Ok (r, s') /\ r_ret r = 1%Z.
Proof.
  intros Hlg HC Eg Hud Hn Hne T k HT Hj HkT Hn0 Ho HWv HWv0 HR Hu Hone.
  destruct (graph_of_csr_ok _ _ _ _ _ HC) as (g' & Eg' & Hwf & _ & Hadj & Hvw & _ & Hnv & Ht & _). rewrite Eg in Eg'. injection Eg' as <-.
  assert (exists bis, api_bisector (o_scheme o) = Ok bis) as [bis Eb].
  { unfold api_bisector, aggregator_make. destruct Ho as [-> | ->]; cbn; eauto. }
  assert (HNW : (NULL_WGT < W32)%Z) by (vm_compute; reflexivity).
  assert (H0 : (0 <= T)%Z) by (apply sumf_nonneg; intros v _; apply (wf_vw_range _ Hwf)).
  assert (HTT : g_tvw g = T) by (rewrite (wf_tvw _ Hwf), Hnv; apply u32_small; fold T; lia).
  assert (Hk2 : 2 <= k). { unfold k. destruct j as [|j]; [lia|]. cbn. pose proof (Nat.pow_nonzero 2 j). lia. }
  assert (HkW : (Z.of_nat k < 2 ^ 32)%Z) by (unfold W32 in *; lia).
  destruct (api_target k (g_tvw g) Hk2 HkW ltac:(rewrite HTT; unfold W32 in *; lia)) as (t & Et & Hnp & Hs & H1 & H2).
  rewrite (call_eq _ _ _ _ _ _ _ _ HC). rewrite Eg, Eb. unfold mbindM, lift. cbn [obind fst snd]. rewrite Et. cbn [obind fst snd].
  assert (HA : api_inv t g).
  { split; [done|unfold ne; by rewrite Hadj|by rewrite Hnv|done| |]; by rewrite Hnp. }
  destruct (C36_default_tolerance k T ltac:(lia) HkW ltac:(unfold W32 in *; lia) ltac:(lia)) as (t' & E' & Hm). unfold target_uniform in E'. fold (default_fractions k) in E'.
  rewrite HTT, E' in Et. injection Et as ->.
  assert (isR f_0_03 (F2R (Float radix2 8646911284551352 (-58)))) as Hl by (apply lit_R; vm_compute; reflexivity).
  destruct (C36_uniform_targets k T default_tolerance _ t ltac:(lia) HkW ltac:(unfold W32 in *; lia) Hl ltac:(unfold max_u32_tolerance; lit; lra) E') as (HLt & [HSl HS] & Hw & _).
  destruct (uniform_equal _ _ _ _ E') as (w & m & Ew & Em).
  assert (Lw : t_wgt t !! 0 = Some w) by (rewrite Ew; apply lookup_replicate; split; [done|lia]).
  assert (Lm : t_max t !! 0 = Some m) by (rewrite Em; apply lookup_replicate; split; [done|lia]).
  specialize (Hw 0 w Lw). specialize (HS 0 w m Lw Lm). specialize (Hm 0 m Lm). set (K := Z.of_nat k) in *. assert (HK : (2 <= K)%Z) by lia.
  assert (Hdiv : (T = K * (T / K) + T mod K)%Z) by (apply Z.div_mod; lia). assert (Hmod : (0 <= T mod K < K)%Z) by (apply Z.mod_pos_bound; lia).
  assert (Hq2 : (2 <= T / K)%Z) by (apply Z.div_le_lower_bound; lia).
  assert (Kw1 : (K * w <= K * (T / K))%Z) by (apply Z.mul_le_mono_nonneg_l; lia).
  assert (Kw2 : (K * (T / K - 1) <= K * w)%Z) by (apply Z.mul_le_mono_nonneg_l; lia).
  set (D := (T / 60 + 2 * K)%Z).
  assert (H60 : (T = 60 * (T / 60) + T mod 60)%Z) by (apply Z.div_mod; lia). assert (Hmod60 : (0 <= T mod 60 < 60)%Z) by (apply Z.mod_pos_bound; lia).
  assert (HD0 : (0 <= D)%Z) by (unfold D; lia).
  assert (HTg : sumn (nv g) (vweight g) = T) by (by rewrite Hnv).
  assert (HTop : (T <= Z.of_nat (2 ^ j) * w + D)%Z) by (fold k; fold K; unfold D; lia).
  assert (HkwB : (Z.of_nat (2 ^ j) * w < W32)%Z) by (fold k; fold K; lia).
  assert (HEB : (Z.of_nat (2 ^ j) * (m - w) <= 2 * D)%Z).
  { fold k; fold K. destruct Hm as [Hm _]. assert (T <= K * w + 2 * K)%Z by lia. rewrite Z.mul_sub_distr_l. unfold D. lia. }
  assert (HI : PowFacts.pow_inv w m (top w Wv j D) D D j t g).
  { constructor; rewrite ?HTg; try done.
    - unfold ne. by rewrite Hadj.
    - by rewrite Hnv.
    - by apply below_top.
    - by apply lim_top.
    - split; [lia|]. apply HS.
    - apply HS. }
  assert (HRo : roomy w m Wv D t g).
  { split; [done| |].
    - rewrite Hvw. cbn. destruct (vc_vw _ _ _ _ _ HC vw eq_refl) as [Hlv _]. intros ->. cbn in Hlv. lia.
    - exists j, D, 0%Z. split; [done|]. split; [done|]. split; [done|]. split; [rewrite HTg; fold k; fold K; lia|]. split; [done|]. split; [done|].
      split; [by apply HR|]. done. }
  assert (HW : wpm (mfold (fun st (_ : nat) => do! p := rb_execute lg bis t g in ret (keep_best st p)) None (seq 0 (Z.to_nat (o_num_cuts o)))) never (fun _ => True)).
  { apply (mfold_inv (fun _ => True)); [done|]. intros a st _ _. eapply wpm_bind; [|intros p _; by apply wpm_ret].
    eapply wpm_post; [eapply rb_execute_wp; [by eapply roomy_handed|exact HRo|done|lia]|]. intros; exact I. }
  specialize (HW s). unfold mbindM in HW. destruct (mfold _ None _ s) as [[best s1]|f]; cbn in *; [eauto|done].
Qed.

(** Four parts: vertex weights given, not all equal to one, none of them more than a third of the total. *)
Theorem C03_four_parts : forall lg n prefix adj vw ew o s g, log2_spec lg -> valid_csr n prefix adj (Some vw) ew ->
  graph_of_csr prefix adj (Some vw) ew = Ok g -> undirected g -> (Z.of_nat n < 2 ^ 32)%Z -> (Z.of_nat (length adj) < 2 ^ 32)%Z ->
  let T := sumn n (vweight g) in
  (100 <= T < NULL_WGT)%Z -> (exists v, v < n /\ vweight g v <> 1%Z) -> (forall v, v < n -> (3 * vweight g v <= T)%Z) ->
  (o_scheme o = 0 \/ o_scheme o = 1)%Z ->
  exists r s', part_graph_recursive lg prefix adj (Some vw) ew 4 (Some o) s = Ok (r, s') /\ r_ret r = 1%Z.
Proof.
  intros lg n prefix adj vw ew o s g Hlg HC Eg Hud Hn Hne T HT (v1 & Hv1 & Hv2) Hheavy Ho.
  destruct (graph_of_csr_ok _ _ _ _ _ HC) as (g' & Eg' & Hwf & _ & Hadj & Hvw & _ & Hnv & Ht & _). rewrite Eg in Eg'. injection Eg' as <-.
  apply (roomy_call lg n prefix adj vw ew 2 o s g (T / 3)); try done; try lia.
  - intros v Hv. rewrite Hnv in Hv. specialize (Hheavy v Hv). apply Z.div_le_lower_bound; lia.
  - change (Z.of_nat (2 ^ 2)) with 4%Z. fold T. intros w D Hw ->. unfold room, top. change (Z.of_nat (2 ^ 2)) with 4%Z. change (Z.of_nat (2 ^ 1)) with 2%Z.
    split; [|split; [|done]]; Z.div_mod_to_equations; lia.
  - intros _. destruct (g_uvw g) eqn:Eu; [|done]. exfalso. apply Hv2. apply (wf_uvw_t _ Hwf Eu). by rewrite Hnv.
Qed.
Print Assumptions C03_four_parts.
(** Eight parts: no vertex weighs exactly one, none of them more than a twenty-fifth of the total. *)
Theorem C03_eight_parts : forall lg n prefix adj vw ew o s g, log2_spec lg -> valid_csr n prefix adj (Some vw) ew ->
  graph_of_csr prefix adj (Some vw) ew = Ok g -> undirected g -> (Z.of_nat n < 2 ^ 32)%Z -> (Z.of_nat (length adj) < 2 ^ 32)%Z ->
  let T := sumn n (vweight g) in
  (4000 <= T < NULL_WGT)%Z -> 0 < n -> (forall v, v < n -> vweight g v <> 1%Z /\ (25 * vweight g v <= T)%Z) ->
  (o_scheme o = 0 \/ o_scheme o = 1)%Z ->
  exists r s', part_graph_recursive lg prefix adj (Some vw) ew 8 (Some o) s = Ok (r, s') /\ r_ret r = 1%Z.
Proof.
  intros lg n prefix adj vw ew o s g Hlg HC Eg Hud Hn Hne T HT Hn0 Hheavy Ho.
  destruct (graph_of_csr_ok _ _ _ _ _ HC) as (g' & Eg' & Hwf & _ & Hadj & Hvw & _ & Hnv & Ht & _). rewrite Eg in Eg'. injection Eg' as <-.
  apply (roomy_call lg n prefix adj vw ew 3 o s g (T / 25)); try done; try lia.
  - intros v Hv. rewrite Hnv in Hv. destruct (Hheavy v Hv). apply Z.div_le_lower_bound; lia.
  - change (Z.of_nat (2 ^ 3)) with 8%Z. fold T. intros w D Hw ->. unfold room, top. change (Z.of_nat (2 ^ 3)) with 8%Z. change (Z.of_nat (2 ^ 2)) with 4%Z. change (Z.of_nat (2 ^ 1)) with 2%Z.
    split; [|split; [|split; [|done]]]; Z.div_mod_to_equations; lia.
  - intros _. destruct (g_uvw g) eqn:Eu; [|done]. exfalso. destruct (Hheavy 0 Hn0) as [H _]. apply H. apply (wf_uvw_t _ Hwf Eu). lia.
  - intros _ v Hv. rewrite Hnv in Hv. by apply Hheavy.
Qed.
Print Assumptions C03_eight_parts.

Lemma ring_ud_of n vw : csrb n (ring_prefix n) (ring_adj n) (Some vw) None = true ->
  symb (the_graph (ring_prefix n) (ring_adj n) (Some vw) None) = true -> looplessb (the_graph (ring_prefix n) (ring_adj n) (Some vw) None) = true ->
  (forall g, g = the_graph (ring_prefix n) (ring_adj n) (Some vw) None -> wf_graph g -> fits g) ->
  exists g, g = the_graph (ring_prefix n) (ring_adj n) (Some vw) None /\ graph_of_csr (ring_prefix n) (ring_adj n) (Some vw) None = Ok g /\ undirected g.
Proof.
  intros H1%csrb_sound H2 H3 H4. destruct (graph_of_csr_ok _ _ _ _ _ H1) as (g & Eg & Hwf & _).
  assert (g = the_graph (ring_prefix n) (ring_adj n) (Some vw) None) as E by (unfold the_graph; by rewrite Eg).
  exists g. split; [done|]. split; [done|]. split; [done|rewrite E; by apply symb_sound|rewrite E; by apply looplessb_sound|by apply H4].
Qed.
(** Rings of 60 vertices of weight 2 and of 30 vertices of weight 134 meet the hypotheses. *)
Example C03_four_nonvacuous : exists g, valid_csr 60 (ring_prefix 60) (ring_adj 60) (Some (replicate 60 2%Z)) None /\ graph_of_csr (ring_prefix 60) (ring_adj 60) (Some (replicate 60 2%Z)) None = Ok g /\ undirected g /\ sumn 60 (vweight g) = 120%Z /\ (exists v, v < 60 /\ vweight g v <> 1%Z) /\ (forall v, v < 60 -> (3 * vweight g v <= 120)%Z).
Proof.
  destruct (ring_ud_of 60 (replicate 60 2%Z)) as (g & -> & E & Hud);
    [vm_compute; reflexivity|vm_compute; reflexivity|vm_compute; reflexivity|intros g -> Hwf; eapply fits_compute; vm_compute; reflexivity|].
  eexists. split; [apply csrb_sound; vm_compute; reflexivity|]. split; [exact E|]. split; [exact Hud|]. split; [vm_compute; reflexivity|]. split.
  - exists 0. split; [lia|]. vm_compute. discriminate.
  - intros v Hv. do 60 (destruct v as [|v]; [vm_compute; discriminate|]). lia.
Qed.
Example C03_eight_nonvacuous : exists g, valid_csr 30 (ring_prefix 30) (ring_adj 30) (Some (replicate 30 134%Z)) None /\ graph_of_csr (ring_prefix 30) (ring_adj 30) (Some (replicate 30 134%Z)) None = Ok g /\ undirected g /\ sumn 30 (vweight g) = 4020%Z /\ (forall v, v < 30 -> vweight g v <> 1%Z /\ (25 * vweight g v <= 4020)%Z).
Proof.
  destruct (ring_ud_of 30 (replicate 30 134%Z)) as (g & -> & E & Hud);
    [vm_compute; reflexivity|vm_compute; reflexivity|vm_compute; reflexivity|intros g -> Hwf; eapply fits_compute; vm_compute; reflexivity|].
  eexists. split; [apply csrb_sound; vm_compute; reflexivity|]. split; [exact E|]. split; [exact Hud|]. split; [vm_compute; reflexivity|].
  intros v Hv. do 30 (destruct v as [|v]; [split; vm_compute; discriminate|]). lia.
Qed.
