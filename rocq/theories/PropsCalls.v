(** * PropsCalls: everything a call can do (C76, C09). *)
From Coq Require Import ZArith Reals Floats.SpecFloat Psatz.
From Verif Require Import Base F64 ModelGraph ModelBuilders ModelPartition ModelConn ModelFM ModelAgg ModelMultilevel ModelBisect ModelRecursive ModelApi
  Spec Logic Sums GraphFacts Examples FloatFacts FloatUse BisectFacts MultilevelFacts SubFacts RecFacts LabelFacts TargetFacts PropsTarget ApiFacts PropsApi
  SafeFM SafeML SafeApi PropsSafe.
Local Open Scope nat_scope.
Local Close Scope R_scope.

(** No cuts asked for: nothing is computed. *)
Lemma no_cuts lg n prefix adj vw ew k o s r s' : valid_csr n prefix adj vw ew -> (o_num_cuts o <= 0)%Z ->
  part_graph_recursive lg prefix adj vw ew k (Some o) s = Ok (r, s') -> r = mkResult 1 None None /\ s' = s.
Proof.
  intros HC Hm E. rewrite (call_eq _ _ _ _ _ _ _ _ HC) in E. destruct (Z.to_nat (o_num_cuts o)) as [|m] eqn:Em; [|lia].
  change (seq 0 0) with (@nil nat) in E. unfold mbindM, lift, ret in E. cbn [mfold] in E.
  destruct (graph_of_csr prefix adj vw ew) as [g|f]; [|discriminate E]. cbn [obind fst snd] in E.
  destruct (api_bisector (o_scheme o)) as [bis|f]; [|discriminate E]. cbn [obind fst snd] in E.
  destruct (target_of_fractions (g_tvw g) default_tolerance (default_fractions k)) as [t|f]; [|discriminate E]. cbn in E. injection E as <- <-. done.
Qed.
Lemma one_part_no_cuts lg n prefix adj vw ew o s f : valid_csr n prefix adj vw ew -> (o_num_cuts o <= 0)%Z -> (o_scheme o = 0 \/ o_scheme o = 1)%Z ->
  part_graph_recursive lg prefix adj vw ew 1 (Some o) s = Fail f -> f = UB FloatCast.
Proof.
  intros HC Hm Ho E. destruct (graph_of_csr_ok _ _ _ _ _ HC) as (g & Eg & Hwf & _).
  assert (exists bis, api_bisector (o_scheme o) = Ok bis) as [bis Eb].
  { unfold api_bisector, aggregator_make. destruct Ho as [-> | ->]; cbn; eauto. }
  rewrite (call_eq _ _ _ _ _ _ _ _ HC) in E. rewrite Eg, Eb in E. destruct (Z.to_nat (o_num_cuts o)) as [|m] eqn:Em; [|lia].
  change (seq 0 0) with (@nil nat) in E. unfold mbindM, lift, ret in E. cbn [obind fst snd mfold] in E.
  assert (HT : (0 <= g_tvw g < W32)%Z) by (rewrite (wf_tvw _ Hwf); unfold u32; apply Z.mod_pos_bound; done).
  assert (isR f_0_03 (Defs.F2R (Defs.Float Zaux.radix2 8646911284551352 (-58)))) as Hl by (apply lit_R; vm_compute; reflexivity).
  pose proof (C36_uniform_accepted 1 (g_tvw g) default_tolerance _ ltac:(lia) ltac:(done) HT Hl ltac:(unfold max_u32_tolerance; lit; lra)) as HU.
  unfold target_uniform in HU. fold (default_fractions 1) in HU. destruct HU as [[t Et]|Et].
  - change (target_of_fractions (g_tvw g) default_tolerance (default_fractions 1) = Ok t) in Et. rewrite Et in E. discriminate E.
  - change (target_of_fractions (g_tvw g) default_tolerance (default_fractions 1) = Fail (UB FloatCast)) in Et. rewrite Et in E. cbn in E. by injection E.
Qed.

(** ** C76: for every valid CSR input, every number of parts and every options argument, NULL included *)
Definition known_scheme (o : options) : Prop := o_scheme o = 0%Z \/ o_scheme o = 1%Z.
Theorem C76_every_call : forall lg n prefix adj vw ew k opts s, log2_spec lg -> valid_csr n prefix adj vw ew ->
  (Z.of_nat n < 2 ^ 32)%Z -> (Z.of_nat (length adj) < 2 ^ 32)%Z -> (Z.of_nat k < 2 ^ 32)%Z ->
  match part_graph_recursive lg prefix adj vw ew k opts s with
  | Ok (r, s') =>
      (* without options: 0 is returned, nothing is written, no random number is drawn *)
      (opts = None /\ r = mkResult 0 None None /\ s' = s) \/
      exists o, opts = Some o /\ known_scheme o /\ 1 <= k /\ r_ret r = 1%Z /\
        (* no cuts asked for: nothing is written *)
        (((o_num_cuts o <= 0)%Z /\ r_cut r = None /\ r_labels r = None /\ s' = s) \/
        (* otherwise the cut and a label for every vertex are *)
         ((1 <= o_num_cuts o)%Z /\ 2 <= k /\ exists cut labels, r_cut r = Some cut /\ r_labels r = Some labels /\ length labels = n /\
            forall v, v < n -> exists l, l < k /\ labels !! v = Some (Some l)))
  | Fail f => exists o, opts = Some o /\
      (* an unknown scheme: an exception escapes *)
      ((~ known_scheme o /\ f = Throw RuntimeError) \/
      (* no parts, or one part *)
       (known_scheme o /\ k = 0 /\ f = UB OutOfBounds) \/ (known_scheme o /\ k = 1 /\ f = UB FloatCast) \/
      (* several parts *)
       (known_scheme o /\ 2 <= k /\ (1 <= o_num_cuts o)%Z /\
        (f = UB EmptyRange \/ f = UB NoWeights \/ f = UB SignedOverflow \/
         (f = UB Uninit /\ exists v i, nth v prefix 0 <= i < nth (S v) prefix 0 /\ adj !! i = Some v))))
  end.
Proof.
  intros lg n prefix adj vw ew k opts s Hlg HC Hn Hne Hk. destruct opts as [o|].
  2: { rewrite (proj1 C05_null_options_refuted). left. done. }
  destruct (decide (o_scheme o = 0 \/ o_scheme o = 1)%Z) as [Ho|Ho].
  2: { rewrite (proj1 C07_refuted lg n) by (done || tauto). exists o. split; [done|]. left. split; [exact Ho|done]. }
  destruct k as [|k]; [rewrite (proj2 C07_refuted lg n) by done; exists o; split; [done|]; right; left; done|].
  destruct (part_graph_recursive lg prefix adj vw ew (S k) (Some o) s) as [[r s']|f] eqn:E.
  - right. exists o. split; [done|]. split; [exact Ho|]. split; [lia|].
    destruct (Z_le_gt_dec (o_num_cuts o) 0) as [Hm|Hm].
    + destruct (no_cuts _ _ _ _ _ _ _ _ _ _ _ HC Hm E) as [-> ->]. split; [done|]. left. done.
    + assert (Hk2 : 2 <= S k).
      { destruct k as [|k]; [|lia]. exfalso. rewrite (C04_one_part_refuted lg n prefix adj vw ew o s (proj1 Hlg) HC ltac:(lia) Ho) in E. discriminate E. }
      assert (Hm1 : (1 <= o_num_cuts o)%Z) by lia.
      destruct (C01_labels_in_range _ _ _ _ _ _ _ _ _ _ _ HC Hk2 Hm1 E) as (H1 & labels & EL & HL & HR).
      split; [exact H1|]. right. split; [lia|]. split; [exact Hk2|].
      destruct (C06_best_of _ _ _ _ _ _ _ _ _ _ _ HC E) as (g & bis & t & Ps & _ & _ & _ & Hb & _). destruct (Hb Hm1) as (P & i & _ & Er & _).
      exists (p_cut P), labels. split; [by rewrite Er|]. exact (conj EL (conj HL HR)).
  - exists o. split; [done|]. right. right. destruct k as [|k].
    + left. split; [exact Ho|]. split; [done|]. destruct (Z_le_gt_dec (o_num_cuts o) 0) as [Hm|Hm]; [exact (one_part_no_cuts _ _ _ _ _ _ _ _ _ HC Hm Ho E)|].
      rewrite (C04_one_part_refuted lg n prefix adj vw ew o s (proj1 Hlg) HC ltac:(lia) Ho) in E. injection E as <-. done.
    + right. split; [exact Ho|]. split; [lia|]. pose proof (C03_every_graph_partial lg n prefix adj vw ew (S (S k)) o s Hlg HC Hn Hne ltac:(lia) Hk Ho) as H. rewrite E in H.
      split; [|exact H]. destruct (Z_le_gt_dec (o_num_cuts o) 0) as [Hm|Hm]; [|lia]. exfalso.
      destruct (graph_of_csr_ok _ _ _ _ _ HC) as (g & Eg & Hwf & _).
      assert (exists bis, api_bisector (o_scheme o) = Ok bis) as [bis Eb].
      { unfold api_bisector, aggregator_make. destruct Ho as [-> | ->]; cbn; eauto. }
      destruct (api_target (S (S k)) (g_tvw g) ltac:(lia) Hk) as (t & Et & _).
      { rewrite (wf_tvw _ Hwf). unfold u32. apply Z.mod_pos_bound. done. }
      rewrite (call_eq _ _ _ _ _ _ _ _ HC) in E. rewrite Eg, Eb in E. destruct (Z.to_nat (o_num_cuts o)) as [|m] eqn:Em; [|lia].
      change (seq 0 0) with (@nil nat) in E. unfold mbindM, lift, ret in E. cbn [obind fst snd mfold] in E. rewrite Et in E. discriminate E.
Qed.
Print Assumptions C76_every_call.
(** In particular 1 is returned exactly if options were given and the call returns at all, and
    the call always ends, for every number of parts and with or without options (C09). *)
Theorem C09_terminates_every_call : forall lg n prefix adj vw ew k opts s, log2_spec lg -> valid_csr n prefix adj vw ew ->
  (Z.of_nat n < 2 ^ 32)%Z -> (Z.of_nat (length adj) < 2 ^ 32)%Z -> (Z.of_nat k < 2 ^ 32)%Z ->
  part_graph_recursive lg prefix adj vw ew k opts s <> Fail OutOfFuel.
Proof.
  intros lg n prefix adj vw ew k opts s Hlg HC Hn Hne Hk E. pose proof (C76_every_call lg n prefix adj vw ew k opts s Hlg HC Hn Hne Hk) as H. rewrite E in H.
  destruct H as (o & _ & [[_ H]|[(_ & _ & H)|[(_ & _ & H)|(_ & _ & _ & [H|[H|[H|[H _]]]])]]]); discriminate H.
Qed.
Print Assumptions C09_terminates_every_call.
(** Each outcome occurs. *)
Definition zero_cuts : options := mkOptions f_0_03 None 0 8 1 false 0.
Definition bad_scheme : options := mkOptions f_0_03 None 0 8 7 false 1.
Example C76_nonvacuous :
  valid_csr 4 (ring_prefix 4) (ring_adj 4) None None /\
  part_graph_recursive floor_log2 (ring_prefix 4) (ring_adj 4) None None 2 None [5] = Ok (mkResult 0 None None, [5]) /\
  part_graph_recursive floor_log2 (ring_prefix 4) (ring_adj 4) None None 2 (Some bad_scheme) [5] = Fail (Throw RuntimeError) /\
  part_graph_recursive floor_log2 (ring_prefix 4) (ring_adj 4) None None 0 (Some default_options) [5] = Fail (UB OutOfBounds) /\
  part_graph_recursive floor_log2 (ring_prefix 4) (ring_adj 4) None None 1 (Some default_options) [5] = Fail (UB FloatCast) /\
  part_graph_recursive floor_log2 (ring_prefix 4) (ring_adj 4) None None 2 (Some zero_cuts) [5] = Ok (mkResult 1 None None, [5]) /\
  exists labels s', part_graph_recursive floor_log2 (ring_prefix 4) (ring_adj 4) None None 2 (Some default_options) [] = Ok (mkResult 1 (Some 2%Z) (Some labels), s').
Proof.
  split; [apply csrb_sound; vm_compute; reflexivity|].
  split; [vm_compute; reflexivity|]. split; [vm_compute; reflexivity|]. split; [vm_compute; reflexivity|]. split; [vm_compute; reflexivity|].
  split; [vm_compute; reflexivity|].
  destruct (part_graph_recursive floor_log2 (ring_prefix 4) (ring_adj 4) None None 2 (Some default_options) []) as [[r s']|f] eqn:E; [|vm_compute in E; discriminate E].
  vm_compute in E. injection E as <- <-. eexists _, _. reflexivity.
Qed.
