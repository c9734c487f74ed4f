(** * PropsAny: how unbalanced a partitioning into any number of parts can get (C71). *)
From Coq Require Import ZArith.
From Verif Require Import Base F64 ModelGraph ModelPartition ModelAgg ModelMultilevel ModelBisect ModelRecursive ModelApi Spec Logic Sums GraphFacts BisectFacts MultilevelFacts
  Examples FloatFacts FloatUse RecFacts TargetFacts LabelFacts ApiFacts TreeFacts PropsTarget PropsApi PropsTree PropsBisect PropsBalance BalanceFacts BoundFacts PowFacts AnyFacts PropsPow.
From Coq Require Import Reals Floats.SpecFloat Psatz.
From Flocq Require Import Core.Core IEEE754.BinarySingleNaN.
Local Close Scope R_scope.
Local Open Scope nat_scope.
#[local] Arguments seq : simpl nomatch.

(** ** C71: any number of parts k, at most 2^j, and the graph weighs at least twice as much.  W
    bounds the heaviest vertex and 3/40 of the total.  Whenever the call returns, no part is heavier
    than the fair share by more than 1/49 of the total, twice the number of parts, and j + 1 times W. *)
Theorem C71_imbalance_bounded_any : forall lg n prefix adj vw ew k j o s r s' g labels W, log2_spec lg -> valid_csr n prefix adj vw ew ->
  graph_of_csr prefix adj vw ew = Ok g -> undirected g -> (Z.of_nat n < 2 ^ 32)%Z -> (Z.of_nat (length adj) < 2 ^ 32)%Z ->
  let T := sumn n (vweight g) in
  (T < NULL_WGT)%Z -> 2 <= k <= 2 ^ j -> (2 * Z.of_nat k <= T)%Z ->
  heaviest_below W g -> (3 * T <= 40 * W)%Z ->
  part_graph_recursive lg prefix adj vw ew k (Some o) s = Ok (r, s') -> r_labels r = Some labels ->
  forall i, i < k -> (label_weight g (fun v => nth v labels None) (Some i) <= T / Z.of_nat k + T / 49 + 2 * Z.of_nat k + (Z.of_nat j + 1) * W)%Z.
Proof.
  intros lg n prefix adj vw ew k j o s r s' g labels W Hlg HC Eg Hud Hn Hne T HT [Hk2 Hkj] HkT HW Hlim E EL i Hi.
  destruct (graph_of_csr_ok _ _ _ _ _ HC) as (g' & Eg' & Hwf & _ & Hadj & Hvw & _ & Hnv & Ht & _). rewrite Eg in Eg'. injection Eg' as <-.
  destruct (call_runs _ _ _ _ _ _ _ _ _ _ _ HC E) as (g1 & bis & t & Ps & (Eg1 & Eb & Et) & Hnp & HR & HL & ->). rewrite Eg in Eg1. injection Eg1 as <-.
  assert (HNW : (NULL_WGT < W32)%Z) by (vm_compute; reflexivity).
  assert (H0 : (0 <= T)%Z) by (apply sumf_nonneg; intros v _; apply (wf_vw_range _ Hwf)).
  assert (HTT : g_tvw g = T) by (rewrite (wf_tvw _ Hwf), Hnv; apply u32_small; fold T; lia).
  assert (HkW : (Z.of_nat k < 2 ^ 32)%Z) by (unfold W32 in *; lia).
  destruct (C36_default_tolerance k T ltac:(lia) HkW ltac:(unfold W32 in *; lia) ltac:(lia)) as (t' & E' & Hm). unfold target_uniform in E'. fold (default_fractions k) in E'.
  rewrite HTT, E' in Et. injection Et as ->.
  assert (isR f_0_03 (F2R (Float radix2 8646911284551352 (-58)))) as Hl by (apply lit_R; vm_compute; reflexivity).
  destruct (C36_uniform_targets k T default_tolerance _ t ltac:(lia) HkW ltac:(unfold W32 in *; lia) Hl ltac:(unfold max_u32_tolerance; lit; lra) E') as (HLt & [HSl HS] & Hw & _).
  destruct (uniform_equal _ _ _ _ E') as (w & m & Ew & Em).
  assert (Lw : t_wgt t !! 0 = Some w) by (rewrite Ew; apply lookup_replicate; split; [done|lia]).
  assert (Lm : t_max t !! 0 = Some m) by (rewrite Em; apply lookup_replicate; split; [done|lia]).
  specialize (Hw 0 w Lw). specialize (HS 0 w m Lw Lm). specialize (Hm 0 m Lm). set (K := Z.of_nat k) in *. assert (HK : (2 <= K)%Z) by lia.
  assert (Hdiv : (T = K * (T / K) + T mod K)%Z) by (apply Z.div_mod; lia). assert (Hmod : (0 <= T mod K < K)%Z) by (apply Z.mod_pos_bound; lia).
  assert (Hq2 : (2 <= T / K)%Z) by (apply Z.div_le_lower_bound; lia).
  set (E0 := (T / 49 + 2 * K)%Z).
  assert (H49 : (T = 49 * (T / 49) + T mod 49)%Z) by (apply Z.div_mod; lia). assert (Hmod49 : (0 <= T mod 49 < 49)%Z) by (apply Z.mod_pos_bound; lia).
  assert (Hhalf : (3 * Z.of_nat (k - k / 2) <= 2 * K)%Z).
  { pose proof (Nat.div_mod k 2 ltac:(lia)) as Hd. pose proof (Nat.mod_upper_bound k 2 ltac:(lia)) as Hu. unfold K. set (h := k / 2) in *. lia. }
  assert (HI : any_inv w m W E0 (E0 + W) k t g).
  { assert (HTg : sumn (nv g) (vweight g) = T) by (by rewrite Hnv).
    constructor; rewrite ?HTg; fold K; [done| | | |done|done|done|done|done| | | | | |].
    - unfold ne. by rewrite Hadj.
    - by rewrite Hnv.
    - lia.
    - lia.
    - change W32 with (2 ^ 32)%Z. lia.
    - assert (K * w <= K * (T / K))%Z by (apply Z.mul_le_mono_nonneg_l; lia). lia.
    - assert (H3 : (3 * (Z.of_nat (k - k / 2) * (m - w)) <= 2 * (K * (m - w)))%Z).
      { clear - Hhalf HS. assert (0 <= m - w)%Z by lia. set (x := Z.of_nat (k - k / 2)) in *. nia. }
      assert (H4 : (10000 * (K * (m - w)) <= 301 * T + 20000 * K)%Z).
      { clear - Hm Hw Hdiv Hmod HK. set (y := (T / K)%Z) in *. assert (K * (y - 1) <= K * w)%Z by (apply Z.mul_le_mono_nonneg_l; lia). lia. }
      unfold E0. clear - H3 H4 H49 Hmod49 HK H0. clearbody T K. set (X := (Z.of_nat (k - k / 2) * (m - w))%Z) in *. set (Y := (K * (m - w))%Z) in *. set (d := (T / 49)%Z) in *. set (e := (T mod 49)%Z) in *. clearbody X Y d e. lia.
    - lia.
    - unfold E0. clear - Hdiv Hmod Hw H49 Hmod49 HK Hlim Hq2 H0. set (y := (T / K)%Z) in *. assert (K * y <= K * (w + 1))%Z by (apply Z.mul_le_mono_nonneg_l; lia).
      assert (0 <= T / 49)%Z by (apply Z.div_pos; lia). lia. }
  assert (HG : wpm (rb_execute lg bis t g) anyf (fun P => length (p_where P) = n /\ (label_weight g (lab P) (Some i) <= w + (E0 + W) + Z.of_nat j * W)%Z)).
  { intros cs. destruct (rb_execute lg bis t g cs) as [[P cs']|f] eqn:Er; [|done]. cbn [wpo fst].
    destruct (rb_execute_tree lg bis t g cs P cs' Hwf ltac:(lia)) as (l & ps & HTr & HLab & [[HPl _] _] & _); [|done|].
    { intros t1 tol bt gg cs1 p cs1' Ebt Hwg Ep. pose proof (bisect_target_two _ _ _ Ebt) as Htw.
      exact (wpm_elim _ _ _ _ _ _ (api_bisector_lab (o_scheme o) bis bt gg Eb (tw_wgt _ Htw)) Ep). }
    split; [by rewrite HPl|]. etrans; [|apply (any_tree lg Hlg (o_scheme o) bis Eb w m W E0 t g l ps cs cs' ltac:(lia) HTr k j _ HI Hkj i ltac:(lia))].
    apply Z.eq_le_incl. apply sumf_ext. intros v Hv%elem_of_seq. rewrite HLab by lia. repeat case_decide; congruence. }
  pose proof (runs_all _ _ _ _ _ HG HR) as HF. pose proof (keep_best_first Ps) as HB.
  destruct (fold_left keep_best Ps None) as [b|]; [|done]. destruct HB as (P & (x & Hx & _) & ->). cbn in EL. injection EL as <-.
  rewrite Forall_lookup in HF. destruct (HF x P Hx) as [_ G]. change (fun v => nth v (p_where P) None) with (lab P). unfold E0 in G. lia.
Qed.
Print Assumptions C71_imbalance_bounded_any.

(** Three parts of a ring of 24 vertices of weight two. *)
Example C71_nonvacuous : log2_spec floor_log2 /\ valid_csr 24 (ring_prefix 24) (ring_adj 24) (Some (replicate 24 2%Z)) None /\
  exists g r s' labels, graph_of_csr (ring_prefix 24) (ring_adj 24) (Some (replicate 24 2%Z)) None = Ok g /\ undirected g /\
    sumn 24 (vweight g) = 48%Z /\ heaviest_below 4 g /\
    part_graph_recursive floor_log2 (ring_prefix 24) (ring_adj 24) (Some (replicate 24 2%Z)) None 3 (Some some_options) [] = Ok (r, s') /\ r_labels r = Some labels /\
    (48 / 3 + 48 / 49 + 2 * 3 + (2 + 1) * 4 = 34)%Z.
Proof.
  split; [exact floor_log2_spec|]. split; [apply csrb_sound; vm_compute; reflexivity|]. destruct ring24_ud as (g & E & Hud).
  vm_compute in E. injection E as <-.
  eexists _, _, _, _. split; [vm_compute; reflexivity|]. split; [exact Hud|]. split; [vm_compute; reflexivity|]. split.
  { intros v Hv. assert (v < 24) by exact Hv. do 24 (destruct v as [|v]; [vm_compute; discriminate|]). lia. }
  split; [vm_compute; reflexivity|]. split; reflexivity.
Qed.
