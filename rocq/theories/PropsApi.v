(** * PropsApi: the top-level call POROS_PartGraphRecursive: C01-C09.

    [part_graph_recursive lg prefix adj vw ew k opts s] is one call: [lg] stands for std::log2,
    [s] for the stream of random choices (C38's seed).  Its outcome is either the values left
    in the caller's locations or the failure (undefined behaviour, escaping exception). *)
From Coq Require Import ZArith Reals Floats.SpecFloat Psatz.
From Flocq Require Import Core.Core IEEE754.BinarySingleNaN.
From Verif Require Import Base F64 ModelGraph ModelBuilders ModelPartition ModelConn ModelFM ModelAgg ModelMultilevel ModelBisect ModelRecursive ModelApi
  Spec Logic Sums GraphFacts Examples FloatFacts FloatUse BisectFacts MultilevelFacts SubFacts RecFacts LabelFacts TargetFacts PropsTarget ApiFacts.
Local Open Scope nat_scope.
Local Close Scope R_scope.

(** A small input used below: a ring of n vertices. *)
Definition ring_prefix (n : nat) : list nat := (fun i => 2 * i) <$> seq 0 (S n).
Definition ring_adj (n : nat) : list nat := seq 0 n ≫= (fun i => [(i + n - 1) mod n; (i + 1) mod n]).
Definition some_options : options := mkOptions f_0_03 None 0 8 1 false 3.

(** ** C01 *)
Theorem C01_labels_in_range : forall lg n prefix adj vw ew k o s r s', valid_csr n prefix adj vw ew -> 2 <= k -> (1 <= o_num_cuts o)%Z ->
  part_graph_recursive lg prefix adj vw ew k (Some o) s = Ok (r, s') ->
  r_ret r = 1%Z /\ exists labels, r_labels r = Some labels /\ length labels = n /\
    forall v, v < n -> exists l, l < k /\ labels !! v = Some (Some l).
Proof.
  intros lg n prefix adj vw ew k o s r s' HC Hk Hm E.
  destruct (call_runs _ _ _ _ _ _ _ _ _ _ _ HC E) as (g & bis & t & Ps & (Eg & Eb & Et) & Hnp & HR & HL & ->). split; [done|].
  destruct (graph_of_csr_ok _ _ _ _ _ HC) as (g' & Eg' & Hwf & _ & _ & _ & _ & Hn & _). rewrite Eg in Eg'. injection Eg' as <-.
  pose proof (runs_all _ _ _ _ _ (rb_execute_lab lg _ bis t g Eb Hwf ltac:(lia)) HR) as HF.
  pose proof (keep_best_first Ps) as HB. destruct (fold_left keep_best Ps None) as [b|]; [|subst Ps; cbn in HL; lia].
  destruct HB as (P & (i & Hi & _) & ->). rewrite Forall_lookup in HF. destruct (HF i P Hi) as [[[H1 H2] _] _]. rewrite Hnp in *.
  cbn. exists (p_where P). split; [done|]. split; [by rewrite <- Hn|]. intros v Hv. apply H2. by rewrite Hn.
Qed.
Print Assumptions C01_labels_in_range.
Example C01_nonvacuous : valid_csr 30 (ring_prefix 30) (ring_adj 30) (Some (replicate 30 2%Z)) None /\
  exists r s', part_graph_recursive floor_log2 (ring_prefix 30) (ring_adj 30) (Some (replicate 30 2%Z)) None 3 (Some some_options) [] = Ok (r, s') /\
    r_labels r = Some (Some <$> replicate 9 0 ++ replicate 10 1 ++ replicate 10 2 ++ [0]).
Proof.
  split; [apply csrb_sound; vm_compute; reflexivity|]. eexists _, _. split; [vm_compute; reflexivity|]. vm_compute. reflexivity.
Qed.

(** ** C02 *)
Theorem C02_cut_exact : forall lg n prefix adj vw ew k o s r s' g, valid_csr n prefix adj vw ew -> 2 <= k -> (1 <= o_num_cuts o)%Z ->
  graph_of_csr prefix adj vw ew = Ok g -> symmetric g -> fits g ->
  part_graph_recursive lg prefix adj vw ew k (Some o) s = Ok (r, s') ->
  r_ret r = 1%Z /\ exists cut labels, r_cut r = Some cut /\ r_labels r = Some labels /\
    cut = edge_cut g (fun v => nth v labels None).
Proof.
  intros lg n prefix adj vw ew k o s r s' g HC Hk Hm Eg0 Hs Hf E.
  destruct (call_runs _ _ _ _ _ _ _ _ _ _ _ HC E) as (g1 & bis & t & Ps & (Eg & Eb & Et) & Hnp & HR & HL & ->). split; [done|].
  rewrite Eg0 in Eg. injection Eg as <-.
  destruct (graph_of_csr_ok _ _ _ _ _ HC) as (g' & Eg' & Hwf & _ & _ & _ & _ & Hn & _). rewrite Eg0 in Eg'. injection Eg' as <-.
  pose proof (runs_all _ _ _ _ _ (rb_execute_lab lg _ bis t g Eb Hwf ltac:(lia)) HR) as HF.
  pose proof (keep_best_first Ps) as HB. destruct (fold_left keep_best Ps None) as [b|]; [|subst Ps; cbn in HL; lia].
  destruct HB as (P & (i & Hi & _) & ->). rewrite Forall_lookup in HF. destruct (HF i P Hi) as [_ H2]. destruct (H2 Hs Hf) as [_ Hc].
  cbn. eexists _, _. split; [done|]. split; [done|]. exact Hc.
Qed.
Print Assumptions C02_cut_exact.
Example C02_nonvacuous : exists g, graph_of_csr (ring_prefix 30) (ring_adj 30) (Some (replicate 30 2%Z)) None = Ok g /\ symmetric g /\ fits g /\
  exists r s', part_graph_recursive floor_log2 (ring_prefix 30) (ring_adj 30) (Some (replicate 30 2%Z)) None 3 (Some some_options) [] = Ok (r, s') /\ r_cut r = Some 3%Z.
Proof.
  eexists. split; [vm_compute; reflexivity|]. split; [apply symb_sound; vm_compute; reflexivity|]. split; [eapply fits_compute; vm_compute; reflexivity|].
  eexists _, _. split; [vm_compute; reflexivity|]. vm_compute. reflexivity.
Qed.
(** Edge weights whose directed total reaches 2^32: two vertices joined by an edge of weight
    2^31 are separated at cost 2^31, the call reports 0. *)
Theorem C02_overflow_refuted : exists r s' g, valid_csr 2 [0; 1; 2] [1; 0] (Some [1; 1]%Z) (Some [2147483648; 2147483648]%Z) /\
  graph_of_csr [0; 1; 2] [1; 0] (Some [1; 1]%Z) (Some [2147483648; 2147483648]%Z) = Ok g /\ symmetric g /\
  part_graph_recursive floor_log2 [0; 1; 2] [1; 0] (Some [1; 1]%Z) (Some [2147483648; 2147483648]%Z) 2 (Some default_options) [] = Ok (r, s') /\
  r_labels r = Some [Some 0; Some 1] /\ r_cut r = Some 0%Z /\ edge_cut g (fun v => nth v [Some 0; Some 1] None) = 2147483648%Z.
Proof.
  eexists _, _, _. split; [apply csrb_sound; vm_compute; reflexivity|]. split; [vm_compute; reflexivity|]. split; [apply symb_sound; vm_compute; reflexivity|].
  split; [vm_compute; reflexivity|]. repeat split; vm_compute; reflexivity.
Qed.
Print Assumptions C02_overflow_refuted.

(** ** C03 *)
(** On an undirected graph within 32-bit sizes the call succeeds, or fails in one of two ways:
    a bisection of a part without vertices, or a read of vertex weights that were not given. *)
Theorem C03_failures_partial : forall lg n prefix adj vw ew k o s g, log2_spec lg -> valid_csr n prefix adj vw ew ->
  graph_of_csr prefix adj vw ew = Ok g -> undirected g -> (Z.of_nat n < 2 ^ 32)%Z -> (Z.of_nat (length adj) < 2 ^ 32)%Z ->
  2 <= k -> (Z.of_nat k < 2 ^ 32)%Z -> (o_scheme o = 0 \/ o_scheme o = 1)%Z ->
  match part_graph_recursive lg prefix adj vw ew k (Some o) s with
  | Ok (r, _) => r_ret r = 1%Z
  | Fail f => f = UB EmptyRange \/ f = UB NoWeights
  end.
Proof.
  intros lg n prefix adj vw ew k o s g Hlg HC Eg Hud Hn Hne Hk Hk2 Ho.
  destruct (graph_of_csr_ok _ _ _ _ _ HC) as (g' & Eg' & Hwf & _ & Hadj & _ & _ & Hnv & Ht & _). rewrite Eg in Eg'. injection Eg' as <-.
  assert (exists bis, api_bisector (o_scheme o) = Ok bis) as [bis Eb].
  { unfold api_bisector, aggregator_make. destruct Ho as [-> | ->]; cbn; eauto. }
  destruct (api_target k (g_tvw g) Hk Hk2) as (t & Et & Hnp & Hs & H1 & H2).
  { rewrite (wf_tvw _ Hwf). unfold u32. apply Z.mod_pos_bound. done. }
  rewrite (call_eq _ _ _ _ _ _ _ _ HC). rewrite Eg, Eb. unfold mbindM, lift. cbn [obind fst snd]. rewrite Et. cbn [obind fst snd].
  assert (HI : api_inv t g).
  { split; [done|unfold ne; by rewrite Hadj|by rewrite Hnv|done| |]; by rewrite Hnp. }
  assert (HW : wpm (mfold (fun st (_ : nat) => do! p := rb_execute lg bis t g in ret (keep_best st p)) None (seq 0 (Z.to_nat (o_num_cuts o)))) api_fail (fun _ => True)).
  { apply (mfold_inv (fun _ => True)); [done|]. intros a st _ _. eapply wpm_bind; [|intros p _; by apply wpm_ret].
    eapply wpm_post; [eapply rb_execute_wp; [by eapply api_handed|exact HI|done|lia]|]. intros; exact I. }
  specialize (HW s). unfold mbindM in HW. destruct (mfold _ None _ s) as [[best s1]|f]; cbn in *; [done|exact HW].
Qed.
Print Assumptions C03_failures_partial.
(** Two parts of a non-empty graph with vertex weights given: always success. *)
Theorem C03_two_parts : forall lg n prefix adj vw ew o s g, log2_spec lg -> valid_csr n prefix adj (Some vw) ew -> 0 < n ->
  graph_of_csr prefix adj (Some vw) ew = Ok g -> undirected g -> (Z.of_nat n < 2 ^ 32)%Z -> (Z.of_nat (length adj) < 2 ^ 32)%Z ->
  (o_scheme o = 0 \/ o_scheme o = 1)%Z ->
  exists r s', part_graph_recursive lg prefix adj (Some vw) ew 2 (Some o) s = Ok (r, s') /\ r_ret r = 1%Z.
Proof.
  intros lg n prefix adj vw ew o s g Hlg HC Hn0 Eg Hud Hn Hne Ho.
  destruct (graph_of_csr_ok _ _ _ _ _ HC) as (g' & Eg' & Hwf & _ & Hadj & Hvw & _ & Hnv & Ht & _). rewrite Eg in Eg'. injection Eg' as <-.
  assert (exists bis, api_bisector (o_scheme o) = Ok bis) as [bis Eb].
  { unfold api_bisector, aggregator_make. destruct Ho as [-> | ->]; cbn; eauto. }
  destruct (api_target 2 (g_tvw g) ltac:(lia) ltac:(done)) as (t & Et & Hnp & Hs & H1 & H2).
  { rewrite (wf_tvw _ Hwf). unfold u32. apply Z.mod_pos_bound. done. }
  rewrite (call_eq _ _ _ _ _ _ _ _ HC). rewrite Eg, Eb. unfold mbindM, lift. cbn [obind fst snd]. rewrite Et. cbn [obind fst snd]. clear Et.
  assert (HI : api_inv t g).
  { split; [done|unfold ne; by rewrite Hadj|by rewrite Hnv|done| |]; by rewrite Hnp. }
  assert (Hvn : g_vw g <> []).
  { rewrite Hvw. cbn. destruct (vc_vw _ _ _ _ _ HC vw eq_refl) as [Hl _]. intros ->. cbn in Hl. lia. }
  assert (HD : handed_down lg bis never (fun t' g' => api_inv t' g' /\ g' = g /\ t_np t' = 2)).
  { split.
    - intros t' g' (HI' & -> & Hnp') Hk. pose proof HI' as [_ _ _ Hs' Hlo Hhi].
      destruct (C11_succeeds lg t' Hlg Hk Hs' Hlo Hhi) as [bt Ebt]. rewrite Ebt. cbn.
      pose proof (bisect_target_two _ _ _ Ebt) as Htw.
      unfold api_bisector in Eb. destruct (aggregator_make (o_scheme o)) as [agg|] eqn:Ea; [|done]. cbn in Eb. injection Eb as <-.
      eapply wpm_mono; [apply (library_bfs_wp g Hud (ai_ne _ _ HI) (ai_nv _ _ HI) ltac:(lia) bt Htw (o_scheme o) agg 8 8 150 Ea); lia| |].
      + intros f (_ & _ & Hx). done.
      + intros p [[H3 [H4 _]] _]. done.
    - intros t' g' p i sg (HI' & -> & Hnp') Hk. lia. }
  assert (HW : wpm (mfold (fun st (_ : nat) => do! p := rb_execute lg bis t g in ret (keep_best st p)) None (seq 0 (Z.to_nat (o_num_cuts o)))) never (fun _ => True)).
  { apply (mfold_inv (fun _ => True)); [done|]. intros a st _ _. eapply wpm_bind; [|intros p _; by apply wpm_ret].
    eapply wpm_post; [eapply rb_execute_wp; [exact HD|done|done|lia]|]. intros; exact I. }
  specialize (HW s). unfold mbindM in HW. destruct (mfold _ None _ s) as [[best s1]|f]; cbn in *; [eauto|done].
Qed.
Print Assumptions C03_two_parts.
Lemma ring24_ud : exists g, graph_of_csr (ring_prefix 24) (ring_adj 24) (Some (replicate 24 2%Z)) None = Ok g /\ undirected g.
Proof.
  assert (HC : valid_csr 24 (ring_prefix 24) (ring_adj 24) (Some (replicate 24 2%Z)) None) by (apply csrb_sound; vm_compute; reflexivity).
  destruct (graph_of_csr_ok _ _ _ _ _ HC) as (g & Eg & Hwf & _). exists g. split; [done|].
  assert (g = the_graph (ring_prefix 24) (ring_adj 24) (Some (replicate 24 2%Z)) None) as -> by (unfold the_graph; by rewrite Eg).
  split; [done|apply symb_sound; vm_compute; reflexivity|apply looplessb_sound; vm_compute; reflexivity|eapply fits_compute; vm_compute; reflexivity].
Qed.
Example C03_nonvacuous : valid_csr 24 (ring_prefix 24) (ring_adj 24) (Some (replicate 24 2%Z)) None /\
  (exists g, graph_of_csr (ring_prefix 24) (ring_adj 24) (Some (replicate 24 2%Z)) None = Ok g /\ undirected g) /\
  exists r s', part_graph_recursive floor_log2 (ring_prefix 24) (ring_adj 24) (Some (replicate 24 2%Z)) None 2 (Some some_options) [3; 1; 4; 1; 5] = Ok (r, s') /\ r_cut r = Some 2%Z.
Proof.
  split; [apply csrb_sound; vm_compute; reflexivity|]. split; [exact ring24_ud|]. eexists _, _. split; [vm_compute; reflexivity|]. vm_compute. reflexivity.
Qed.
(** The two failures do occur: a ring of 3 vertices without weights into 2 parts reads the
    missing weights; a ring of 49 vertices into 49 parts bisects an empty part. *)
Theorem C03_refuted :
  (valid_csr 3 (ring_prefix 3) (ring_adj 3) None None /\
   part_graph_recursive floor_log2 (ring_prefix 3) (ring_adj 3) None None 2 (Some default_options) [] = Fail (UB NoWeights)) /\
  (valid_csr 49 (ring_prefix 49) (ring_adj 49) (Some (replicate 49 1%Z)) None /\
   part_graph_recursive floor_log2 (ring_prefix 49) (ring_adj 49) (Some (replicate 49 1%Z)) None 49 (Some default_options) [] = Fail (UB EmptyRange)).
Proof.
  split; (split; [apply csrb_sound; vm_compute; reflexivity|vm_compute; reflexivity]).
Qed.
Print Assumptions C03_refuted.

(** ** C04: a single part is never produced; every call fails converting an infinite weight. *)
Definition finite_f (x : f64) : bool := match x with S754_zero _ | S754_finite _ _ _ => true | _ => false end.
Lemma fadd_nonfinite x y : finite_f y = false -> finite_f (fadd x y) = false.
Proof. destruct y as [| [] | |]; try done; destruct x as [| [] | |]; done. Qed.
Lemma fmul_inf x : finite_f (fmul x (S754_infinity false)) = false.
Proof. destruct x as [| | |]; done. Qed.
Lemma f_to_u32_nonfinite x : finite_f x = false -> f_to_u32 x = Fail (UB FloatCast).
Proof. destruct x; done. Qed.
Theorem C04_one_part_refuted : forall lg n prefix adj vw ew o s, lg 1 = f_zero -> valid_csr n prefix adj vw ew ->
  (1 <= o_num_cuts o)%Z -> (o_scheme o = 0 \/ o_scheme o = 1)%Z ->
  part_graph_recursive lg prefix adj vw ew 1 (Some o) s = Fail (UB FloatCast).
Proof.
  intros lg n prefix adj vw ew o s Hlg HC Hm Ho.
  destruct (graph_of_csr_ok _ _ _ _ _ HC) as (g & Eg & Hwf & _).
  assert (exists bis, api_bisector (o_scheme o) = Ok bis) as [bis Eb].
  { unfold api_bisector, aggregator_make. destruct Ho as [-> | ->]; cbn; eauto. }
  rewrite (call_eq _ _ _ _ _ _ _ _ HC). rewrite Eg, Eb. unfold mbindM, lift. cbn [obind fst snd].
  assert (HT : (0 <= g_tvw g < W32)%Z) by (rewrite (wf_tvw _ Hwf); unfold u32; apply Z.mod_pos_bound; done).
  assert (isR f_0_03 (F2R (Float radix2 8646911284551352 (-58)))) as Hl by (apply lit_R; vm_compute; reflexivity).
  pose proof (C36_uniform_accepted 1 (g_tvw g) default_tolerance _ ltac:(lia) ltac:(done) HT Hl ltac:(unfold max_u32_tolerance; lit; lra)) as HU.
  unfold target_uniform in HU. fold (default_fractions 1) in HU. destruct HU as [[t Et]|Et].
  2: { change (target_of_fractions (g_tvw g) default_tolerance (default_fractions 1) = Fail (UB FloatCast)) in Et. rewrite Et. done. }
  change (target_of_fractions (g_tvw g) default_tolerance (default_fractions 1) = Ok t) in Et. rewrite Et. cbn [obind fst snd].
  pose proof (np_uniform _ _ _ Et) as Hnp.
  assert (HB : bisect_target t (tolerance_factor lg (t_np t)) = Fail (UB FloatCast)).
  { unfold bisect_target. rewrite Hnp. change (seq 0 1) with [0]. cbn [ofold]. unfold bis_step, tolerance_factor. rewrite Hlg.
    destruct (C36_uniform_targets 1 (g_tvw g) default_tolerance _ t ltac:(lia) ltac:(done) HT Hl ltac:(unfold max_u32_tolerance; lit; lra) Et) as (HL & [HLm _] & _ & _). clear Et.
    destruct (t_wgt t) as [|w [|? ?]] eqn:Ew; try done. destruct (t_max t) as [|m [|? ?]] eqn:Em; try done.
    unfold max_excess. rewrite Ew, Em. cbn [rd lookup list_lookup obind bt_tgt bt_max half_of Nat.leb Nat.div].
    change (half_of 1 0) with 1. cbn [rd lookup list_lookup obind].
    change (fdiv f_one f_zero) with (S754_infinity false). rewrite f_to_u32_nonfinite; [done|]. apply fadd_nonfinite, fadd_nonfinite, fmul_inf. }
  destruct (Z.to_nat (o_num_cuts o)) as [|m] eqn:Em; [lia|]. change (seq 0 (S m)) with (0 :: seq 1 m). cbn [mfold]. unfold mbindM, rb_execute, mbindM.
  cbn [rb_recurse]. unfold mbindM, lift. rewrite HB. done.
Qed.
Print Assumptions C04_one_part_refuted.
Example C04_nonvacuous : part_graph_recursive floor_log2 (ring_prefix 4) (ring_adj 4) None None 1 (Some default_options) [] = Fail (UB FloatCast).
Proof. vm_compute. reflexivity. Qed.

(** ** C05: null options are an error, whatever the graph; the defaults are not. *)
Theorem C05_null_options_refuted :
  (forall lg prefix adj vw ew k s, part_graph_recursive lg prefix adj vw ew k None s = Ok (mkResult 0 None None, s)) /\
  exists r s', part_graph_recursive floor_log2 (ring_prefix 4) (ring_adj 4) None None 2 (Some default_options) [] = Ok (r, s') /\
    r_ret r = 1%Z /\ r_cut r = Some 2%Z.
Proof. split; [done|]. eexists _, _. split; [vm_compute; reflexivity|]. split; reflexivity. Qed.
Print Assumptions C05_null_options_refuted.

(** ** C06 *)
(** [Ps] are the results of consecutive complete partitionings of the given graph, as many as
    numGlobalCuts asks for. *)
Theorem C06_best_of : forall lg n prefix adj vw ew k o s r s', valid_csr n prefix adj vw ew ->
  part_graph_recursive lg prefix adj vw ew k (Some o) s = Ok (r, s') ->
  exists g bis t Ps, setup prefix adj vw ew k (o_scheme o) g bis t /\ runs (rb_execute lg bis t g) s Ps s' /\
    length Ps = Z.to_nat (o_num_cuts o) /\
    (* at least one: the first with the smallest cut is returned, labels and cut together *)
    ((1 <= o_num_cuts o)%Z -> exists P i, Ps !! i = Some P /\ r = mkResult 1 (Some (p_cut P)) (Some (p_where P)) /\
       (forall j Q, Ps !! j = Some Q -> (p_cut P <= p_cut Q)%Z) /\ (forall j Q, j < i -> Ps !! j = Some Q -> (p_cut P < p_cut Q)%Z)) /\
    (* none: success is reported and nothing written *)
    ((o_num_cuts o <= 0)%Z -> r = mkResult 1 None None).
Proof.
  intros lg n prefix adj vw ew k o s r s' HC E.
  destruct (call_runs _ _ _ _ _ _ _ _ _ _ _ HC E) as (g & bis & t & Ps & HS & Hnp & HR & HL & ->).
  exists g, bis, t, Ps. split; [done|]. split; [done|]. split; [done|].
  pose proof (keep_best_first Ps) as HB. destruct (fold_left keep_best Ps None) as [b|].
  - destruct HB as (P & (i & Hi & H1 & H2) & ->). split.
    + intros _. exists P, i. done.
    + intros Hm. pose proof (lookup_lt_Some _ _ _ Hi). lia.
  - subst Ps. cbn in *. split; [lia|done].
Qed.
Print Assumptions C06_best_of.
Example C06_nonvacuous : exists r s' r0 s0,
  part_graph_recursive floor_log2 (ring_prefix 30) (ring_adj 30) (Some (replicate 30 2%Z)) None 3 (Some some_options) [] = Ok (r, s') /\ o_num_cuts some_options = 3%Z /\ r_ret r = 1%Z /\
  part_graph_recursive floor_log2 (ring_prefix 30) (ring_adj 30) (Some (replicate 30 2%Z)) None 3 (Some (mkOptions f_0_03 None 0 8 1 false 0)) [] = Ok (r0, s0) /\ r0 = mkResult 1 None None.
Proof. eexists _, _, _, _. split; [vm_compute; reflexivity|]. split; [reflexivity|]. split; [reflexivity|]. split; [vm_compute; reflexivity|]. vm_compute. reflexivity. Qed.

(** ** C07 *)
(** Success is never reported for an invalid scheme or zero parts ... *)
Theorem C07_no_success_partial : forall lg n prefix adj vw ew k o s r s', valid_csr n prefix adj vw ew ->
  (o_scheme o <> 0%Z /\ o_scheme o <> 1%Z) \/ k = 0 -> part_graph_recursive lg prefix adj vw ew k (Some o) s <> Ok (r, s').
Proof.
  intros lg n prefix adj vw ew k o s r s' HC Hbad E.
  destruct (call_runs _ _ _ _ _ _ _ _ _ _ _ HC E) as (g & bis & t & Ps & (_ & Eb & Et) & _).
  destruct Hbad as [[H0 H1]| ->].
  - unfold api_bisector, aggregator_make in Eb. destruct (Z.eqb_spec (o_scheme o) 0); [done|]. destruct (Z.eqb_spec (o_scheme o) 1); done.
  - vm_compute in Et. done.
Qed.
Print Assumptions C07_no_success_partial.
(** ... but 0 is not returned: an exception escapes, and zero parts read past an empty array. *)
Theorem C07_refuted :
  (forall lg n prefix adj vw ew k o s, valid_csr n prefix adj vw ew -> o_scheme o <> 0%Z -> o_scheme o <> 1%Z ->
     part_graph_recursive lg prefix adj vw ew k (Some o) s = Fail (Throw RuntimeError)) /\
  (forall lg n prefix adj vw ew o s, valid_csr n prefix adj vw ew -> (o_scheme o = 0 \/ o_scheme o = 1)%Z ->
     part_graph_recursive lg prefix adj vw ew 0 (Some o) s = Fail (UB OutOfBounds)).
Proof.
  split.
  - intros lg n prefix adj vw ew k o s HC H0 H1. destruct (graph_of_csr_ok _ _ _ _ _ HC) as (g & Eg & _). rewrite (call_eq _ _ _ _ _ _ _ _ HC), Eg.
    unfold mbindM, lift. cbn [obind fst snd]. unfold api_bisector, aggregator_make. destruct (Z.eqb_spec (o_scheme o) 0); [done|]. destruct (Z.eqb_spec (o_scheme o) 1); done.
  - intros lg n prefix adj vw ew o s HC Ho. destruct (graph_of_csr_ok _ _ _ _ _ HC) as (g & Eg & _). rewrite (call_eq _ _ _ _ _ _ _ _ HC), Eg.
    unfold mbindM, lift. cbn [obind fst snd]. unfold api_bisector, aggregator_make. destruct Ho as [-> | ->]; cbn [Z.eqb obind]; done.
Qed.
Print Assumptions C07_refuted.
Example C07_nonvacuous : valid_csr 4 (ring_prefix 4) (ring_adj 4) None None.
Proof. apply csrb_sound. vm_compute. reflexivity. Qed.

(** ** C08: every option but the scheme, the seed (the random stream) and numGlobalCuts is ignored. *)
Theorem C08_ignored_refuted : forall lg prefix adj vw ew k o o' s, o_scheme o = o_scheme o' -> o_num_cuts o = o_num_cuts o' ->
  part_graph_recursive lg prefix adj vw ew k (Some o) s = part_graph_recursive lg prefix adj vw ew k (Some o') s.
Proof. intros lg prefix adj vw ew k o o' s H1 H2. unfold part_graph_recursive. rewrite H1, H2. done. Qed.
Print Assumptions C08_ignored_refuted.
(** E.g. asking for fractions 0.9 / 0.1 and no tolerance yields halves. *)
Example C08_nonvacuous : exists r s', part_graph_recursive floor_log2 (ring_prefix 24) (ring_adj 24) (Some (replicate 24 2%Z)) None 2
    (Some (mkOptions f_zero (Some [fdiv (f_of_Z 9) (f_of_Z 10); fdiv f_one (f_of_Z 10)]) 0 0 1 false 1)) [] = Ok (r, s') /\
  (length ∘ filter (fun l => l = Some 0) <$> r_labels r) = Some 12.
Proof. eexists _, _. split; [vm_compute; reflexivity|]. vm_compute. reflexivity. Qed.

(** ** C09 *)
Theorem C09_terminates : forall lg n prefix adj vw ew k o s g, log2_spec lg -> valid_csr n prefix adj vw ew ->
  graph_of_csr prefix adj vw ew = Ok g -> undirected g -> (Z.of_nat n < 2 ^ 32)%Z -> (Z.of_nat (length adj) < 2 ^ 32)%Z ->
  2 <= k -> (Z.of_nat k < 2 ^ 32)%Z -> part_graph_recursive lg prefix adj vw ew k (Some o) s <> Fail OutOfFuel.
Proof.
  intros lg n prefix adj vw ew k o s g Hlg HC Eg Hud Hn Hne Hk Hk2 E.
  destruct (decide (o_scheme o = 0 \/ o_scheme o = 1)%Z) as [Ho|Ho].
  - pose proof (C03_failures_partial lg n prefix adj vw ew k o s g Hlg HC Eg Hud Hn Hne Hk Hk2 Ho) as H. rewrite E in H. by destruct H.
  - rewrite (proj1 C07_refuted lg n) in E; [done|done| |]; tauto.
Qed.
Print Assumptions C09_terminates.
Example C09_nonvacuous : log2_spec floor_log2 /\ valid_csr 24 (ring_prefix 24) (ring_adj 24) (Some (replicate 24 2%Z)) None /\
  (exists g, graph_of_csr (ring_prefix 24) (ring_adj 24) (Some (replicate 24 2%Z)) None = Ok g /\ undirected g) /\
  exists r s', part_graph_recursive floor_log2 (ring_prefix 24) (ring_adj 24) (Some (replicate 24 2%Z)) None 5 (Some some_options) [3; 1; 4; 1; 5] = Ok (r, s').
Proof.
  split; [exact floor_log2_spec|]. split; [apply csrb_sound; vm_compute; reflexivity|]. split; [exact ring24_ud|]. eexists _, _. vm_compute. reflexivity.
Qed.
