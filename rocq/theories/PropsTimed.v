(** * PropsTimed: timing the call (C63).  [times_of c h]: how many reports of category c are in h.
    [reported c h] (PropsUtil.v): the times of category c in h, added up in order. *)
From Verif Require Import Base F64 ModelGraph ModelPartition ModelConn ModelFM ModelAgg ModelMultilevel ModelBisect ModelRecursive ModelApi ModelUtil ModelTimed
  Spec Logic GraphFacts BisectFacts SubFacts RecFacts TargetFacts LabelFacts ApiFacts TreeFacts TimedFacts PropsUtil PropsTarget PropsApi PropsTree Examples.
#[local] Arguments seq : simpl nomatch.

Section Call.
  Context (lg : nat -> f64) (prefix adj : list nat) (vw ew : option (list Z)) (k : nat) (o : options).
  Definition body : TM call_result :=
    time! numEdges := tlift (lift (rd prefix (length prefix - 1))) in
    time! g := tlift (lift (if Nat.ltb (length adj) numEdges then Fail (UB OutOfBounds)
                              else graph_of_csr prefix (take numEdges adj) vw ew)) in
    time! bis := tlift (lift (timed_components (o_scheme o))) in
    time! t := tlift (lift (target_of_fractions (g_tvw g) default_tolerance (default_fractions k))) in
    time! best := tfold (fun st (_ : nat) =>
         time! p := trb_execute lg bis t g in
         tret (keep_best st p)) None (seq 0 (Z.to_nat (o_num_cuts o))) in
    time! _ := report TOTAL in
    tret (mkResult 1 (fst <$> best) (snd <$> best)).
  Definition times_good (n : nat) (h : list (nat * f64)) : Prop :=
    exists h0 x l b, h = h0 ++ [(TOTAL, x)] /\ tally l b h0 /\ (valid_csr n prefix adj vw ew -> 2 <= k -> b = Z.to_nat (o_num_cuts o) * (k - 1)).
  Lemma sim_pure {A B C} (a : A) (b : B) (tk : A -> TM C) (mk : B -> M C) s Q :
    sim (tk a) (mk b) s Q -> sim (tbind (tlift (lift (Ok a))) tk) (mbindM (lift (Ok b)) mk) s Q.
  Proof. intros H. exact H. Qed.
  Lemma trb_execute_sim scheme bis tb t g s : api_bisector scheme = Ok bis ->
    (forall t g s, sim (tb t g) (bis t g) s (fun _ h => exists n, tally n 1 h)) ->
    sim (trb_execute lg tb t g) (rb_execute lg bis t g) s (fun _ h => exists m b, tally m b h /\ (wf_graph g -> 2 <= t_np t -> b = t_np t - 1)).
  Proof.
    intros Eb Hs. unfold trb_execute, rb_execute.
    eapply sim_bind; [apply (trb_recurse_sim lg bis tb Hs) with (N := nv g)|].
    { intros t' tol bt g' cs p cs' Hbt _ Ep. pose proof (api_bisector_lab _ _ bt g' Eb (tw_wgt _ (bisect_target_two _ _ _ Hbt))) as HW.
      exact (wpm_elim _ _ _ _ _ _ HW Ep). }
    intros ls s1 h1 _ (m & b & T & HC).
    apply (sim_bind _ _ _ _ _ (fun _ h => h = [])); [by apply sim_lift|]. intros ls' s2 h2 _ ->.
    apply (sim_bind _ _ _ _ _ (fun _ h => h = [])); [by apply sim_lift|]. intros p s3 h3 _ ->.
    apply sim_lift. intros p' s4 _. exists m, b. cbn [app]. rewrite app_nil_r. split; [done|]. intros Hwf Hk. apply HC; [by apply wrap_ok|done].
  Qed.
  Lemma body_sim n s : sim body (part_graph_recursive lg prefix adj vw ew k (Some o)) s (fun _ h => times_good n h).
  Proof.
    unfold body, part_graph_recursive.
    apply (sim_bind _ _ _ _ _ (fun _ h => h = [])); [by apply sim_lift|]. intros ne0 s1 h1 E1 ->. apply lift_inv in E1 as [En ->].
    apply (sim_bind _ _ _ _ _ (fun _ h => h = [])); [by apply sim_lift|]. intros g s2 h2 E2 ->. apply lift_inv in E2 as [Eg ->]. cbn [app].
    assert (Hwf : valid_csr n prefix adj vw ew -> wf_graph g).
    { intros HC. rewrite (read_edges _ _ _ _ _ HC) in En. injection En as <-. destruct (Nat.ltb_spec (length adj) (length adj)) as [?|_]; [lia|].
      rewrite take_ge in Eg by lia. destruct (graph_of_csr_ok _ _ _ _ _ HC) as (g' & Eg' & Hw & _). rewrite Eg in Eg'. by injection Eg' as <-. }
    unfold timed_components. destruct (aggregator_make (o_scheme o)) as [agg|f] eqn:Ea.
    2: { unfold api_bisector. rewrite Ea. intros c Hc. done. }
    destruct (bisector_make 1 8) as [ini|f] eqn:Ei; [|done]. destruct (refiner_make 0) as [ref|f] eqn:Er; [|done].
    assert (Eb : api_bisector (o_scheme o) = Ok (ml_execute agg ini ref)) by (unfold api_bisector; rewrite Ea, Ei, Er; done).
    rewrite Eb. cbn [obind]. apply sim_pure.
    apply (sim_bind _ _ _ _ _ (fun _ h => h = [])); [by apply sim_lift|]. intros t s3 h3 E3 ->. apply lift_inv in E3 as [Et ->]. cbn [app].
    pose proof (np_uniform _ _ _ Et) as Hnp.
    eapply sim_bind; [apply (tfold_sim _ _ (valid_csr n prefix adj vw ew /\ 2 <= k) (fun _ => k - 1))|].
    - intros i st s4 _. eapply sim_bind; [apply (trb_execute_sim _ _ _ _ _ _ Eb); intros; apply tml_execute_sim|].
      intros p s5 h5 _ (m & b & T & HC). apply sim_ret. exists m, b. rewrite app_nil_r. split; [done|]. intros [HV Hk]. rewrite HC; [by rewrite Hnp|auto|by rewrite Hnp].
    - intros best s6 h6 _ (m & b & T & HC). apply sim_report; [unfold TOTAL; lia|]. intros x. apply sim_ret. exists h6, x, m, b. split; [done|]. split; [done|].
      intros HV Hk. rewrite HC by done. assert (Hg : forall l : list nat, list_sum ((fun _ => k - 1) <$> l) = length l * (k - 1)); [|rewrite Hg, seq_length; done].
      clear. induction l as [|a l IH]; [done|]. rewrite fmap_cons. change (k - 1 + list_sum ((fun _ => k - 1) <$> l) = S (length l) * (k - 1)). rewrite IH. lia.
  Qed.
End Call.

(** C63a: Timing does not change the call: same labels, cut, return value, failures and use of the
    random stream, for every input, every option and every reading of the clock. *)
Theorem C63_timing_transparent : forall log2 prefix adj vw ew k opts readings s,
  (let! r := timed_call log2 prefix adj vw ew k opts readings s in Ok (fst (fst r), snd r)) = part_graph_recursive log2 prefix adj vw ew k opts s.
Proof.
  intros lg prefix adj vw ew k opts rs s. destruct opts as [o|]; [|done].
  pose proof (body_sim lg prefix adj vw ew k o 0 s (mkClk rs tk_new) eq_refl) as HB. unfold timed_call. fold (body lg prefix adj vw ew k o). unfold mbindM at 1.
  destruct (part_graph_recursive lg prefix adj vw ew k (Some o) s) as [[r s1]|f]; [|by rewrite HB].
  destruct HB as (c' & h & E & Et & _). rewrite E. cbn [obind fst snd]. destruct (o_output_times o); [|done].
  cbn [ck_times] in Et. rewrite Et. destruct (C45_accumulates h) as (ts & -> & Ets). unfold mbindM. rewrite Ets. done.
Qed.
Print Assumptions C63_timing_transparent.

(** C63b: What is printed.  h is the history of the timers, in order. *)
Theorem C63_times_printed : forall log2 n prefix adj vw ew k o readings s r printed s', valid_csr n prefix adj vw ew -> 2 <= k ->
  timed_call log2 prefix adj vw ew k (Some o) readings s = Ok ((r, printed), s') ->
  if o_output_times o then
    exists h, printed = Some [(TotalTime, reported TOTAL h); (CoarseningTime, reported COARSENING h); (AggregationTime, reported AGGREGATION h);
      (ContractionTime, reported CONTRACTION h); (InitialPartitioningTime, reported INITIAL_PARTITIONING h); (UncoarseningTime, reported UNCOARSENING h);
      (RefinementTime, reported REFINEMENT h); (ProjectionTime, reported PROJECTION h)] /\
    (* every timer's reading is used once, in order *)
    (snd <$> h) = (fun i => nth i readings f_zero) <$> seq 0 (length h) /\
    (* one total, which comes last *)
    (exists h0 x, h = h0 ++ [(TOTAL, x)] /\ times_of TOTAL h0 = 0) /\
    (* one initial partitioning for each bisection: k - 1 of them for each of the cuts *)
    times_of INITIAL_PARTITIONING h = Z.to_nat (o_num_cuts o) * (k - 1) /\
    (* each coarsening step has its aggregation, contraction, projection, refinement and uncoarsening *)
    exists levels, forall c, c ∈ [COARSENING; AGGREGATION; CONTRACTION; PROJECTION; REFINEMENT; UNCOARSENING] -> times_of c h = levels
  else printed = None.
Proof.
  intros lg n prefix adj vw ew k o rs s r printed s' HV Hk E.
  pose proof (body_sim lg prefix adj vw ew k o n s (mkClk rs tk_new) eq_refl) as HB. unfold timed_call in E. fold (body lg prefix adj vw ew k o) in E. unfold mbindM at 1 in E.
  destruct (part_graph_recursive lg prefix adj vw ew k (Some o) s) as [[r0 s1]|f]; [|by rewrite HB in E].
  destruct HB as (c' & h & Eb & Et & _ & _ & Hr & HQ). rewrite Eb in E. cbn [obind fst snd] in E. destruct (o_output_times o); [|by injection E as <- <- <-].
  cbn [ck_times ck_readings] in Et, Hr. rewrite Et in E. destruct (C45_accumulates h) as (ts & Eh & Ets). rewrite Eh in E. unfold mbindM in E. rewrite Ets in E. cbn in E.
  injection E as <- <- <-. exists h. split; [done|]. split; [exact Hr|]. destruct HQ as (h0 & x & l & b & -> & T & HC). specialize (HC HV Hk). subst b. destruct T.
  split; [by exists h0, x|]. split.
  - rewrite times_app. change (times_of INITIAL_PARTITIONING [(TOTAL, x)]) with 0. lia.
  - exists l. intros c Hc. rewrite times_app. assert (times_of c [(TOTAL, x)] = 0 /\ times_of c h0 = l) as [-> ->]; [|lia].
    set_unfold in Hc. destruct_or?; subst; try done.
Qed.
Print Assumptions C63_times_printed.

(** A ring of 24 vertices into three parts, twice, with all timers reading 1. *)
Definition timed_options : options := mkOptions f_0_03 None 0 8 1 true 2.
Example C63_nonvacuous : valid_csr 24 (ring_prefix 24) (ring_adj 24) None None /\ o_output_times timed_options = true /\
  exists r printed s', timed_call floor_log2 (ring_prefix 24) (ring_adj 24) None None 3 (Some timed_options) (replicate 300 f_one) [] = Ok ((r, Some printed), s') /\
    part_graph_recursive floor_log2 (ring_prefix 24) (ring_adj 24) None None 3 (Some timed_options) [] = Ok (r, s') /\
    r_ret r = 1%Z /\ (InitialPartitioningTime, f_of_nat 4) ∈ printed /\ (TotalTime, f_one) ∈ printed.
Proof.
  split; [apply csrb_sound; vm_compute; reflexivity|]. split; [reflexivity|]. eexists _, _, _. split; [vm_compute; reflexivity|].
  split; [vm_compute; reflexivity|]. split; [reflexivity|]. split; [do 4 right; left|left].
Qed.
