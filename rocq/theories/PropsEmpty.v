(** * PropsEmpty: no part is empty (C62). *)
From Coq Require Import ZArith.
From Verif Require Import Base F64 ModelGraph ModelPartition ModelAgg ModelMultilevel ModelBisect ModelRecursive ModelApi Spec Logic Sums GraphFacts BisectFacts MultilevelFacts
  Examples FloatFacts FloatUse SubFacts RecFacts TargetFacts LabelFacts ApiFacts TreeFacts PropsTarget PropsApi PropsTree PropsBisect PropsBalance BalanceFacts BoundFacts PowFacts PropsPow PropsFour.
From Coq Require Import Reals Floats.SpecFloat Psatz.
From Flocq Require Import Core.Core IEEE754.BinarySingleNaN.
Local Close Scope R_scope.
Local Open Scope nat_scope.
#[local] Arguments seq : simpl nomatch.

(** By how much a part may miss the fair share. *)
Fixpoint low (w Wv : Z) (j : nat) (D L : Z) : Z :=
  match j with 0 => L | S i => low w Wv i (D + top w Wv j D) (L + D + top w Wv j D) end.
Lemma two_total g p : two_labels g p -> (label_weight g (lab p) (Some 0%nat) + label_weight g (lab p) (Some 1%nat) = sumn (nv g) (vweight g))%Z.
Proof.
  intros Hp. unfold label_weight, sumn. rewrite <- sumf_add. apply sumf_ext. intros v Hv%elem_of_seq.
  destruct (two_sides g p v Hp ltac:(lia)) as [Ev|Ev]; rewrite Ev; repeat case_decide; try congruence; lia.
Qed.
Section Low.
  Context (lg : nat -> f64) (Hlg : log2_spec lg) (scheme : Z) (bis : bisector) (Hb : api_bisector scheme = Ok bis) (w m Wv E : Z).
  Lemma low_tree t g l ps s s' : (0 <= Wv)%Z -> tree lg bis t g l ps s s' -> forall j D L, (0 <= D)%Z -> PowFacts.pow_inv w m (top w Wv j D) E D j t g -> weights_below Wv g ->
    (Z.of_nat (2 ^ j) * w - L <= sumn (nv g) (vweight g))%Z -> forall i, i < t_np t -> (w - low w Wv j D L <= label_weight g l i)%Z.
  Proof.
    intros HW0. induction 1 as [t g bt p l s s' Hk H1 H2 H3 H4 | t g bt p t1 g1 l l1 ps s s1 s2 Hk H1 H2 H3 H4 H5 HT IH H6 H7
                  | t g bt p t0 t1 g0 g1 l l0 l1 ps0 ps1 s s1 s2 s3 Hk H1 H2 H3 H4 H5 HT IH H6 H7 HT1 IH1 H8 H9]; intros j D L HD0 HI Hbel Hlow i Hi.
    - assert (j = 1) as ->.
      { pose proof (pi_np _ _ _ _ _ _ _ _ HI) as Hnp. rewrite Hk in Hnp. destruct j as [|[|j]]; [done|done|]. cbn in Hnp. pose proof (Nat.pow_nonzero 2 j). lia. }
      destruct (pow_made lg Hlg scheme bis Hb w m (top w Wv 1 D) E D 0 t g bt p _ _ HI H1 H2) as (_ & M). rewrite Hk in Hi.
      change (2 ^ 0) with 1 in M. change (2 ^ 1) with 2 in Hlow.
      assert (EL : label_weight g l i = label_weight g (lab p) (Some i)).
      { apply sumf_ext. intros v Hv%elem_of_seq. rewrite H4 by lia. repeat case_decide; congruence. }
      rewrite EL. pose proof (two_total g p H3). pose proof (M 0 ltac:(lia)). pose proof (M 1 ltac:(lia)). unfold low. destruct i as [|[|i]]; [lia|lia|lia].
    - exfalso. pose proof (pi_np _ _ _ _ _ _ _ _ HI) as Hnp. rewrite Hk in Hnp. destruct j as [|[|j]]; [done|done|]. cbn in Hnp. pose proof (Nat.pow_nonzero 2 j). lia.
    - pose proof (pi_np _ _ _ _ _ _ _ _ HI) as Hnp. destruct j as [|j]; [cbn in Hnp; lia|].
      assert (H2j : 2 ^ S j = 2 ^ j + 2 ^ j) by (cbn; lia).
      assert (Hh : t_np t / 2 = 2 ^ j) by (rewrite Hnp, H2j; replace (2 ^ j + 2 ^ j) with (2 ^ j * 2) by lia; apply Nat.div_mul; lia).
      assert (Hh' : t_np t - t_np t / 2 = 2 ^ j) by lia. rewrite Hh' in H7. rewrite Hh in *.
      set (W0 := top w Wv (S j) D) in *. assert (HW1 : (0 <= W0)%Z) by (unfold W0, top; lia).
      destruct (pow_made lg Hlg scheme bis Hb w m W0 E D j t g bt p _ _ HI H1 H2) as (_ & M).
      assert (HSub : forall x sg off t', x < 2 -> induced g (lab p) x sg -> off + 2 ^ j <= t_np t -> sub_target t off (2 ^ j) = Ok t' ->
        PowFacts.pow_inv w m (top w Wv j (D + W0)) E (D + W0) j t' sg /\ weights_below Wv sg /\ (Z.of_nat (2 ^ j) * w - (L + D + W0) <= sumn (nv sg) (vweight sg))%Z).
      { intros x sg off t' Hx Hin Hoff Est.
        assert (Hbel' : weights_below Wv sg).
        { intros y Hy. assert (Hy' : y < length (members (nv g) (lab p) x)) by (rewrite <- (in_nv _ _ _ _ Hin); done).
          destruct (lookup_lt_is_Some_2 _ _ Hy') as [v Hv]. rewrite (in_vw _ _ _ _ Hin y v Hv). apply Hbel. apply members_inv in Hv. tauto. }
        pose proof (pow_sub w m W0 E D j t g p x sg off t' HI Hin Hoff (M x Hx) HW1 Est) as HP'.
        split; [|split; [done|]].
        - eapply pow_inv_top; [exact HP'|by apply below_top|]. apply lim_top. apply (pi_sum _ _ _ _ _ _ _ _ HP').
        - rewrite (sum_members g (lab p) x sg Hin (vweight g) (vweight sg)) by (intros y v Hy; by apply (in_vw _ _ _ _ Hin)).
          change (sumn (nv g) (fun v => if decide (lab p v = Some x) then vweight g v else 0)%Z) with (label_weight g (lab p) (Some x)).
          rewrite H2j, Nat2Z.inj_add in Hlow. pose proof (two_total g p H3). pose proof (M 0 ltac:(lia)). pose proof (M 1 ltac:(lia)). destruct x as [|[|x]]; [lia|lia|lia]. }
      destruct (HSub 0 g0 0 t0 ltac:(lia) H4 ltac:(lia) H5) as (A1 & A2 & A3). destruct (HSub 1 g1 (2 ^ j) t1 ltac:(lia) H6 ltac:(lia) H7) as (B1 & B2 & B3).
      specialize (IH j (D + W0)%Z (L + D + W0)%Z ltac:(lia) A1 A2 A3). specialize (IH1 j (D + W0)%Z (L + D + W0)%Z ltac:(lia) B1 B2 B3). rewrite (sub_target_len _ _ _ _ H5) in IH. rewrite (sub_target_len _ _ _ _ H7) in IH1.
      assert (L0 : forall v, v < nv g -> lab p v = Some 0 -> l v < 2 ^ j).
      { intros v Hv Ev. rewrite (H8 _ _ (members_rank (nv g) (lab p) 0 v Hv Ev)).
        pose proof (tree_bound _ _ _ _ _ _ _ _ HT (rank (lab p) v)) as B. rewrite (in_nv _ _ _ _ H4), (sub_target_len _ _ _ _ H5) in B. apply B. by apply rank_lt. }
      assert (L1 : forall v, v < nv g -> lab p v = Some 1 -> 2 ^ j <= l v).
      { intros v Hv Ev. rewrite (H9 _ _ (members_rank (nv g) (lab p) 1 v Hv Ev)). lia. }
      cbn [low]. fold W0.
      destruct (decide (i < 2 ^ j)) as [Hlt|Hge].
      + assert (EL : label_weight g l i = label_weight g0 l0 i); [|rewrite EL; by apply IH].
        rewrite <- (side_part g p 0 g0 l l0 0 i H4 H8). apply sumf_ext. intros v Hv%elem_of_seq.
        destruct (two_sides g p v H3 ltac:(lia)) as [Ev|Ev]; rewrite Ev.
        * rewrite (decide_True (P := Some 0 = Some 0)) by done. done.
        * pose proof (L1 v ltac:(lia) Ev). rewrite (decide_False (P := Some 1 = Some 0)) by done. rewrite decide_False by lia. done.
      + assert (EL : label_weight g l i = label_weight g1 l1 (i - 2 ^ j)); [|rewrite EL; apply IH1; lia].
        rewrite <- (side_part g p 1 g1 l l1 (2 ^ j) (i - 2 ^ j) H6 H9). apply sumf_ext. intros v Hv%elem_of_seq.
        replace (2 ^ j + (i - 2 ^ j)) with i by lia.
        destruct (two_sides g p v H3 ltac:(lia)) as [Ev|Ev]; rewrite Ev.
        * pose proof (L0 v ltac:(lia) Ev). rewrite decide_False by lia. rewrite decide_False by done. done.
        * rewrite (decide_True (P := Some 1 = Some 1)) by done. done.
  Qed.
End Low.
(** The call for 2^j parts: no part is lighter than its target less [low]. *)
Lemma low_call lg n prefix adj vw ew j o s r s' g labels Wv : log2_spec lg -> valid_csr n prefix adj vw ew ->
  graph_of_csr prefix adj vw ew = Ok g -> undirected g -> (Z.of_nat n < 2 ^ 32)%Z -> (Z.of_nat (length adj) < 2 ^ 32)%Z ->
  let T := sumn n (vweight g) in let k := 2 ^ j in
  (T < NULL_WGT)%Z -> 1 <= j -> (2 * Z.of_nat k <= T)%Z -> weights_below Wv g -> (0 <= Wv)%Z ->
  part_graph_recursive lg prefix adj vw ew k (Some o) s = Ok (r, s') -> r_labels r = Some labels ->
  forall i, i < k -> exists w, (T / Z.of_nat k - 1 <= w <= T / Z.of_nat k)%Z /\
    (w - low w Wv j (T / 60 + 2 * Z.of_nat k) 0 <= label_weight g (fun v => nth v labels None) (Some i))%Z.
Proof.
  intros Hlg HC Eg Hud Hn Hne T k HT Hj HkT HWv HWv0 E EL i Hi.
  destruct (graph_of_csr_ok _ _ _ _ _ HC) as (g' & Eg' & Hwf & _ & Hadj & Hvw & _ & Hnv & Ht & _). rewrite Eg in Eg'. injection Eg' as <-.
  destruct (call_runs _ _ _ _ _ _ _ _ _ _ _ HC E) as (g1 & bis & t & Ps & (Eg1 & Eb & Et) & Hnp & HR & HL & ->). rewrite Eg in Eg1. injection Eg1 as <-.
  assert (HNW : (NULL_WGT < W32)%Z) by (vm_compute; reflexivity).
  assert (H0 : (0 <= T)%Z) by (apply sumf_nonneg; intros v _; apply (wf_vw_range _ Hwf)).
  assert (HTT : g_tvw g = T) by (rewrite (wf_tvw _ Hwf), Hnv; apply u32_small; fold T; lia).
  assert (Hk2 : 2 <= k). { unfold k. destruct j as [|j]; [lia|]. cbn. pose proof (Nat.pow_nonzero 2 j). lia. }
  assert (HkW : (Z.of_nat k < 2 ^ 32)%Z) by (unfold W32 in *; lia).
  destruct (C36_default_tolerance k T ltac:(lia) HkW ltac:(unfold W32 in *; lia) ltac:(lia)) as (t' & E' & Hm). unfold target_uniform in E'. fold (default_fractions k) in E'.
  rewrite HTT, E' in Et. injection Et as ->.
  assert (isR f_0_03 (F2R (Float radix2 8646911284551352 (-58)))) as Hl by (apply lit_R; vm_compute; reflexivity).
  destruct (C36_uniform_targets k T default_tolerance _ t ltac:(lia) HkW ltac:(unfold W32 in *; lia) Hl ltac:(unfold max_u32_tolerance; lit; lra) E') as (HLt & [HSl HS] & Hw & _).
  destruct (uniform_equal _ _ _ _ E') as (w & m & Ew & Em).
  assert (Lw : t_wgt t !! 0 = Some w) by (rewrite Ew; apply lookup_replicate; split; [done|lia]).
  assert (Lm : t_max t !! 0 = Some m) by (rewrite Em; apply lookup_replicate; split; [done|lia]).
  specialize (Hw 0 w Lw). specialize (HS 0 w m Lw Lm). specialize (Hm 0 m Lm). set (K := Z.of_nat k) in *. assert (HK : (2 <= K)%Z) by lia.
  assert (Hdiv : (T = K * (T / K) + T mod K)%Z) by (apply Z.div_mod; lia). assert (Hmod : (0 <= T mod K < K)%Z) by (apply Z.mod_pos_bound; lia).
  assert (Hq2 : (2 <= T / K)%Z) by (apply Z.div_le_lower_bound; lia).
  assert (Kw1 : (K * w <= K * (T / K))%Z) by (apply Z.mul_le_mono_nonneg_l; lia).
  assert (Kw2 : (K * (T / K - 1) <= K * w)%Z) by (apply Z.mul_le_mono_nonneg_l; lia).
  set (D := (T / 60 + 2 * K)%Z).
  assert (H60 : (T = 60 * (T / 60) + T mod 60)%Z) by (apply Z.div_mod; lia). assert (Hmod60 : (0 <= T mod 60 < 60)%Z) by (apply Z.mod_pos_bound; lia).
  assert (HD0 : (0 <= D)%Z) by (unfold D; lia).
  assert (HTg : sumn (nv g) (vweight g) = T) by (by rewrite Hnv).
  assert (HTop : (T <= Z.of_nat (2 ^ j) * w + D)%Z) by (fold k; fold K; unfold D; lia).
  assert (HkwB : (Z.of_nat (2 ^ j) * w < W32)%Z) by (fold k; fold K; lia).
  assert (HEB : (Z.of_nat (2 ^ j) * (m - w) <= 2 * D)%Z).
  { fold k; fold K. destruct Hm as [Hm _]. assert (T <= K * w + 2 * K)%Z by lia. rewrite Z.mul_sub_distr_l. unfold D. lia. }
  assert (HI : PowFacts.pow_inv w m (top w Wv j D) D D j t g).
  { constructor; rewrite ?HTg; try done.
    - unfold ne. by rewrite Hadj.
    - by rewrite Hnv.
    - by apply below_top.
    - by apply lim_top.
    - split; [lia|]. apply HS.
    - apply HS. }
  exists w. split; [lia|].
  assert (HG : wpm (rb_execute lg bis t g) anyf (fun P => (w - low w Wv j D 0 <= label_weight g (lab P) (Some i))%Z)).
  { intros cs. destruct (rb_execute lg bis t g cs) as [[P cs']|f] eqn:Er; [|done]. cbn [wpo fst].
    destruct (rb_execute_tree lg bis t g cs P cs' Hwf ltac:(lia)) as (l & ps & HTr & HLab & [[HPl _] _] & _); [|done|].
    { intros t1 tol bt gg cs1 p cs1' Ebt Hwg Ep. pose proof (bisect_target_two _ _ _ Ebt) as Htw.
      exact (wpm_elim _ _ _ _ _ _ (api_bisector_lab (o_scheme o) bis bt gg Eb (tw_wgt _ Htw)) Ep). }
    etrans; [apply (low_tree lg Hlg (o_scheme o) bis Eb w m Wv D t g l ps cs cs' HWv0 HTr j D 0 HD0 HI HWv ltac:(rewrite HTg; fold k; fold K; lia) i ltac:(lia))|].
    apply Z.eq_le_incl. apply sumf_ext. intros v Hv%elem_of_seq. rewrite HLab by lia. repeat case_decide; congruence. }
  pose proof (runs_all _ _ _ _ _ HG HR) as HF. pose proof (keep_best_first Ps) as HB.
  destruct (fold_left keep_best Ps None) as [b|]; [|done]. destruct HB as (P & (x & Hx & _) & ->). cbn in EL. injection EL as <-.
  rewrite Forall_lookup in HF. exact (HF x P Hx).
Qed.

(** ** C62.  The weight of part i of a labelling. *)
Definition part_weight (g : graph) (labels : list (option nat)) (i : nat) : Z := label_weight g (fun v => nth v labels None) (Some i).
Lemma weight_member g labels i : (0 < part_weight g labels i)%Z -> exists v, v < nv g /\ labels !! v = Some (Some i).
Proof.
  intros H. destruct (decide (Exists (fun v => nth v labels None = Some i) (seq 0 (nv g)))) as [HE|HN].
  - apply Exists_exists in HE as (v & Hv%elem_of_seq & Ev). exists v. split; [lia|]. destruct (labels !! v) as [x|] eqn:Ex.
    + rewrite (nth_lt_eq _ _ _ _ Ex) in Ev. by rewrite Ev.
    + apply lookup_ge_None in Ex. rewrite nth_overflow in Ev by done. done.
  - exfalso. apply not_Exists_Forall in HN; [|intros; solve_decision]. rewrite Forall_forall in HN. revert H. unfold part_weight, label_weight, sumn.
    rewrite (sumf_ext _ (fun _ => 0%Z)); [rewrite sumf_zero; lia|]. intros v Hv. rewrite decide_False; [done|]. by apply HN.
Qed.
(** Two parts: with at most two fifths of the total in one vertex, each part gets at least about a twelfth
    of the total, so both have vertices. *)
Theorem C62_two_parts : forall lg n prefix adj vw ew o s r s' g labels, log2_spec lg -> valid_csr n prefix adj vw ew ->
  graph_of_csr prefix adj vw ew = Ok g -> undirected g -> (Z.of_nat n < 2 ^ 32)%Z -> (Z.of_nat (length adj) < 2 ^ 32)%Z ->
  let T := sumn n (vweight g) in (100 <= T < NULL_WGT)%Z -> (forall v, v < n -> (5 * vweight g v <= 2 * T)%Z) ->
  part_graph_recursive lg prefix adj vw ew 2 (Some o) s = Ok (r, s') -> r_labels r = Some labels ->
  forall i, i < 2 -> (T <= 12 * part_weight g labels i + 84)%Z /\ exists v, v < n /\ labels !! v = Some (Some i).
Proof.
  intros lg n prefix adj vw ew o s r s' g labels Hlg HC Eg Hud Hn Hne T HT Hheavy E EL i Hi.
  destruct (graph_of_csr_ok _ _ _ _ _ HC) as (g' & Eg' & Hwf & _ & Hadj & Hvw & _ & Hnv & Ht & _). rewrite Eg in Eg'. injection Eg' as <-.
  assert (HWb : weights_below (2 * T / 5) g) by (intros v Hv; rewrite Hnv in Hv; specialize (Hheavy v Hv); apply Z.div_le_lower_bound; lia).
  assert (HW0 : (0 <= 2 * T / 5)%Z) by (apply Z.div_pos; lia).
  assert (HkT : (2 * Z.of_nat (2 ^ 1) <= T)%Z) by (change (Z.of_nat (2 ^ 1)) with 2%Z; lia).
  destruct (low_call lg n prefix adj vw ew 1 o s r s' g labels (2 * T / 5) Hlg HC Eg Hud Hn Hne ltac:(fold T; lia) ltac:(lia) HkT HWb HW0 E EL i Hi) as (w & Hw & HL).
  change (Z.of_nat (2 ^ 1)) with 2%Z in *. fold T in Hw, HL. unfold low, top in HL. change (Z.of_nat (2 ^ 1)) with 2%Z in HL. fold (part_weight g labels i) in HL.
  assert (HB : (T <= 12 * part_weight g labels i + 84)%Z) by (Z.div_mod_to_equations; lia).
  split; [done|]. rewrite <- Hnv. apply weight_member. lia.
Qed.
Print Assumptions C62_two_parts.
(** Four parts: at most a twentieth of the total in one vertex. *)
Theorem C62_four_parts : forall lg n prefix adj vw ew o s r s' g labels, log2_spec lg -> valid_csr n prefix adj vw ew ->
  graph_of_csr prefix adj vw ew = Ok g -> undirected g -> (Z.of_nat n < 2 ^ 32)%Z -> (Z.of_nat (length adj) < 2 ^ 32)%Z ->
  let T := sumn n (vweight g) in (2000 <= T < NULL_WGT)%Z -> (forall v, v < n -> (20 * vweight g v <= T)%Z) ->
  part_graph_recursive lg prefix adj vw ew 4 (Some o) s = Ok (r, s') -> r_labels r = Some labels ->
  forall i, i < 4 -> (T <= 120 * part_weight g labels i + 1900)%Z /\ exists v, v < n /\ labels !! v = Some (Some i).
Proof.
  intros lg n prefix adj vw ew o s r s' g labels Hlg HC Eg Hud Hn Hne T HT Hheavy E EL i Hi.
  destruct (graph_of_csr_ok _ _ _ _ _ HC) as (g' & Eg' & Hwf & _ & Hadj & Hvw & _ & Hnv & Ht & _). rewrite Eg in Eg'. injection Eg' as <-.
  assert (HWb : weights_below (T / 20) g) by (intros v Hv; rewrite Hnv in Hv; specialize (Hheavy v Hv); apply Z.div_le_lower_bound; lia).
  assert (HW0 : (0 <= T / 20)%Z) by (apply Z.div_pos; lia).
  assert (HkT : (2 * Z.of_nat (2 ^ 2) <= T)%Z) by (change (Z.of_nat (2 ^ 2)) with 4%Z; lia).
  destruct (low_call lg n prefix adj vw ew 2 o s r s' g labels (T / 20) Hlg HC Eg Hud Hn Hne ltac:(fold T; lia) ltac:(lia) HkT HWb HW0 E EL i Hi) as (w & Hw & HL).
  change (Z.of_nat (2 ^ 2)) with 4%Z in *. fold T in Hw, HL. unfold low, top in HL. change (Z.of_nat (2 ^ 2)) with 4%Z in HL. change (Z.of_nat (2 ^ 1)) with 2%Z in HL. fold (part_weight g labels i) in HL.
  assert (HB : (T <= 120 * part_weight g labels i + 1900)%Z) by (Z.div_mod_to_equations; lia).
  split; [done|]. rewrite <- Hnv. apply weight_member. lia.
Qed.
Print Assumptions C62_four_parts.
(** A ring of 24 vertices of weight 100 meets the hypotheses of both. *)
Example C62_nonvacuous : exists g, valid_csr 24 (ring_prefix 24) (ring_adj 24) (Some (replicate 24 100%Z)) None /\
  graph_of_csr (ring_prefix 24) (ring_adj 24) (Some (replicate 24 100%Z)) None = Ok g /\ undirected g /\ sumn 24 (vweight g) = 2400%Z /\ (forall v, v < 24 -> (20 * vweight g v <= 2400)%Z) /\
  exists r s' labels, part_graph_recursive floor_log2 (ring_prefix 24) (ring_adj 24) (Some (replicate 24 100%Z)) None 4 (Some some_options) [] = Ok (r, s') /\ r_labels r = Some labels /\
    part_weight g labels 3 = 600%Z.
Proof.
  destruct (ring_ud_of 24 (replicate 24 100%Z)) as (g & -> & E & Hud);
    [vm_compute; reflexivity|vm_compute; reflexivity|vm_compute; reflexivity|intros g -> Hwf; eapply fits_compute; vm_compute; reflexivity|].
  eexists. split; [apply csrb_sound; vm_compute; reflexivity|]. split; [exact E|]. split; [exact Hud|]. split; [vm_compute; reflexivity|]. split.
  - intros v Hv. do 24 (destruct v as [|v]; [vm_compute; discriminate|]). lia.
  - eexists _, _, _. split; [vm_compute; reflexivity|]. split; [reflexivity|]. vm_compute. reflexivity.
Qed.
(** With heavier vertices it fails: four vertices, three parts, a successful call, and part 1 is empty. *)
Theorem C62_heavy_refuted : let vw := Some [90; 2; 2; 90]%Z in valid_csr 4 (ring_prefix 4) (ring_adj 4) vw None /\
  exists r s' labels, part_graph_recursive floor_log2 (ring_prefix 4) (ring_adj 4) vw None 3 (Some some_options) [] = Ok (r, s') /\ r_ret r = 1%Z /\ r_labels r = Some labels /\
    Some 1 ∉ labels.
Proof.
  intros vw. split; [apply csrb_sound; vm_compute; reflexivity|]. eexists _, _, _. split; [vm_compute; reflexivity|]. split; [reflexivity|]. split; [reflexivity|].
  apply (bool_decide_unpack _). vm_compute. exact I.
Qed.
Print Assumptions C62_heavy_refuted.
