(** * PropsPow: how unbalanced a partitioning can get (C58). *)
From Coq Require Import ZArith.
From Verif Require Import Base F64 ModelGraph ModelPartition ModelAgg ModelMultilevel ModelBisect ModelRecursive ModelApi Spec Logic Sums GraphFacts BisectFacts MultilevelFacts
  Examples FloatFacts FloatUse RecFacts TargetFacts LabelFacts ApiFacts TreeFacts PropsTarget PropsApi PropsTree PropsBisect PropsBalance BalanceFacts BoundFacts PowFacts.
From Coq Require Import Reals Floats.SpecFloat Psatz.
From Flocq Require Import Core.Core IEEE754.BinarySingleNaN.
Local Close Scope R_scope.
Local Open Scope nat_scope.
#[local] Arguments seq : simpl nomatch.

(** ** C58: the number of parts is a power of two, 2^j, and the graph weighs at least twice as
    much.  W bounds the heaviest vertex and 3/40 of the total.  Whenever the call returns, no part
    is heavier than the fair share by more than 1/60 of the total, twice the number of parts, and
    j times W. *)
Theorem C58_imbalance_bounded : forall lg n prefix adj vw ew j o s r s' g labels W, log2_spec lg -> valid_csr n prefix adj vw ew ->
  graph_of_csr prefix adj vw ew = Ok g -> undirected g -> (Z.of_nat n < 2 ^ 32)%Z -> (Z.of_nat (length adj) < 2 ^ 32)%Z ->
  let T := sumn n (vweight g) in let k := 2 ^ j in
  (T < NULL_WGT)%Z -> 1 <= j -> (2 * Z.of_nat k <= T)%Z ->
  heaviest_below W g -> (3 * T <= 40 * W)%Z ->
  part_graph_recursive lg prefix adj vw ew k (Some o) s = Ok (r, s') -> r_labels r = Some labels ->
  forall i, i < k -> (label_weight g (fun v => nth v labels None) (Some i) <= T / Z.of_nat k + T / 60 + 2 * Z.of_nat k + Z.of_nat j * W)%Z.
Proof.
  intros lg n prefix adj vw ew j o s r s' g labels W Hlg HC Eg Hud Hn Hne T k HT Hj HkT HW Hlim E EL i Hi.
  destruct (graph_of_csr_ok _ _ _ _ _ HC) as (g' & Eg' & Hwf & _ & Hadj & Hvw & _ & Hnv & Ht & _). rewrite Eg in Eg'. injection Eg' as <-.
  destruct (call_runs _ _ _ _ _ _ _ _ _ _ _ HC E) as (g1 & bis & t & Ps & (Eg1 & Eb & Et) & Hnp & HR & HL & ->). rewrite Eg in Eg1. injection Eg1 as <-.
  assert (HNW : (NULL_WGT < W32)%Z) by (vm_compute; reflexivity).
  assert (H0 : (0 <= T)%Z) by (apply sumf_nonneg; intros v _; apply (wf_vw_range _ Hwf)).
  assert (HTT : g_tvw g = T) by (rewrite (wf_tvw _ Hwf), Hnv; apply u32_small; fold T; lia).
  assert (Hk2 : 2 <= k). { unfold k. destruct j as [|j]; [lia|]. cbn. pose proof (Nat.pow_nonzero 2 j). lia. }
  assert (HkW : (Z.of_nat k < 2 ^ 32)%Z) by (unfold W32 in *; lia).
  destruct (C36_default_tolerance k T ltac:(lia) HkW ltac:(unfold W32 in *; lia) ltac:(lia)) as (t' & E' & Hm). unfold target_uniform in E'. fold (default_fractions k) in E'.
  rewrite HTT, E' in Et. injection Et as ->.
  assert (isR f_0_03 (F2R (Float radix2 8646911284551352 (-58)))) as Hl by (apply lit_R; vm_compute; reflexivity).
  destruct (C36_uniform_targets k T default_tolerance _ t ltac:(lia) HkW ltac:(unfold W32 in *; lia) Hl ltac:(unfold max_u32_tolerance; lit; lra) E') as (HLt & [HSl HS] & Hw & _).
  destruct (uniform_equal _ _ _ _ E') as (w & m & Ew & Em).
  assert (Lw : t_wgt t !! 0 = Some w) by (rewrite Ew; apply lookup_replicate; split; [done|lia]).
  assert (Lm : t_max t !! 0 = Some m) by (rewrite Em; apply lookup_replicate; split; [done|lia]).
  specialize (Hw 0 w Lw). specialize (HS 0 w m Lw Lm). specialize (Hm 0 m Lm). set (K := Z.of_nat k) in *. assert (HK : (2 <= K)%Z) by lia.
  assert (Hdiv : (T = K * (T / K) + T mod K)%Z) by (apply Z.div_mod; lia). assert (Hmod : (0 <= T mod K < K)%Z) by (apply Z.mod_pos_bound; lia).
  assert (Hq2 : (2 <= T / K)%Z) by (apply Z.div_le_lower_bound; lia).
  set (D := (T / 60 + 2 * K)%Z).
  assert (H40 : (T = 60 * (T / 60) + T mod 60)%Z) by (apply Z.div_mod; lia). assert (Hmod40 : (0 <= T mod 60 < 60)%Z) by (apply Z.mod_pos_bound; lia).
  assert (HI : PowFacts.pow_inv w m W D D j t g).
  { assert (HTg : sumn (nv g) (vweight g) = T) by (by rewrite Hnv).
    constructor; rewrite ?HTg; fold k; fold K; try done.
    - unfold ne. by rewrite Hadj.
    - by rewrite Hnv.
    - lia.
    - nia.
    - nia.
    - nia.
    - nia. }
  assert (HG : wpm (rb_execute lg bis t g) anyf (fun P => length (p_where P) = n /\ (label_weight g (lab P) (Some i) <= w + D + Z.of_nat j * W)%Z)).
  { intros cs. destruct (rb_execute lg bis t g cs) as [[P cs']|f] eqn:Er; [|done]. cbn [wpo fst].
    destruct (rb_execute_tree lg bis t g cs P cs' Hwf ltac:(lia)) as (l & ps & HTr & HLab & [[HPl _] _] & _); [|done|].
    { intros t1 tol bt gg cs1 p cs1' Ebt Hwg Ep. pose proof (bisect_target_two _ _ _ Ebt) as Htw.
      exact (wpm_elim _ _ _ _ _ _ (api_bisector_lab (o_scheme o) bis bt gg Eb (tw_wgt _ Htw)) Ep). }
    split; [by rewrite HPl|]. etrans; [|apply (pow_tree lg Hlg (o_scheme o) bis Eb w m W D t g l ps cs cs' ltac:(lia) HTr j D HI i ltac:(lia))].
    apply Z.eq_le_incl. apply sumf_ext. intros v Hv%elem_of_seq. rewrite HLab by lia. repeat case_decide; congruence. }
  pose proof (runs_all _ _ _ _ _ HG HR) as HF. pose proof (keep_best_first Ps) as HB.
  destruct (fold_left keep_best Ps None) as [b|]; [|done]. destruct HB as (P & (x & Hx & _) & ->). cbn in EL. injection EL as <-.
  rewrite Forall_lookup in HF. destruct (HF x P Hx) as [_ G]. change (fun v => nth v (p_where P) None) with (lab P). unfold D in G. lia.
Qed.
Print Assumptions C58_imbalance_bounded.

Example C58_nonvacuous : log2_spec floor_log2 /\ valid_csr 24 (ring_prefix 24) (ring_adj 24) (Some (replicate 24 2%Z)) None /\
  exists g r s' labels, graph_of_csr (ring_prefix 24) (ring_adj 24) (Some (replicate 24 2%Z)) None = Ok g /\ undirected g /\
    sumn 24 (vweight g) = 48%Z /\ heaviest_below 4 g /\
    part_graph_recursive floor_log2 (ring_prefix 24) (ring_adj 24) (Some (replicate 24 2%Z)) None (2 ^ 1) (Some some_options) [] = Ok (r, s') /\ r_labels r = Some labels /\
    (48 / 2 + 48 / 60 + 2 * 2 + 1 * 4 = 32)%Z.
Proof.
  split; [exact floor_log2_spec|]. split; [apply csrb_sound; vm_compute; reflexivity|]. destruct ring24_ud as (g & E & Hud).
  vm_compute in E. injection E as <-.
  eexists _, _, _, _. split; [vm_compute; reflexivity|]. split; [exact Hud|]. split; [vm_compute; reflexivity|]. split.
  { intros v Hv. assert (v < 24) by exact Hv. do 24 (destruct v as [|v]; [vm_compute; discriminate|]). lia. }
  split; [vm_compute; reflexivity|]. split; reflexivity.
Qed.
