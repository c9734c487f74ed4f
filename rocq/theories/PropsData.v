(** * PropsData: property theorems about graphs, partitionings, connectivity and FM refinement
    (C25-C32, C39, C43, C44, C46).  Vocabulary: Spec.v, HistFacts.v (histories), MiscFacts.v. *)
From Verif Require Import Base F64 ModelGraph ModelPartition ModelConn ModelFM Spec Logic Sums GraphFacts
  PartFacts ConnFacts FMFacts HistFacts MiscFacts FloatOrder FloatUse Examples.
#[local] Arguments seq : simpl nomatch.

(** ** C25: part weights after any legal history of operations on a new partitioning. *)
Theorem C25_weights_follow_history : forall k g os, wf_graph g -> hist_legal (nv g) k (fun _ => None) os ->
  exists p, run_pops g (part_new k g) os = Ok p /\
    (forall v, v < nv g -> get_assignment p v = Ok (hist_labels (fun _ => None) os v)) /\
    (forall i, i < k -> get_weight p i = Ok (u32 (label_weight g (hist_labels (fun _ => None) os) (Some i)))).
Proof. exact history_weights. Qed.
Print Assumptions C25_weights_follow_history.
Example C25_nonvacuous : let os := [OAssign 0 1; OAssign 2 0; OMove 0 2; OUnassign 2; OAssignAll 1; OMove 3 0; OUnassignAll; OAssign 3 2] in
  wf_graph ex /\ hist_legal (nv ex) 3 (fun _ => None) os /\ label_weight ex (hist_labels (fun _ => None) os) (Some 2) = 2%Z.
Proof. split; [exact ex_wf|]. split; [|reflexivity]. rewrite ex_nv. simpl. repeat split; (lia || done). Qed.

(** Assigning a vertex that already has a part counts its weight twice: legality is needed. *)
Theorem C25_double_assign_refuted : exists g os p, wf_graph g /\ run_pops g (part_new 2 g) os = Ok p /\
  get_weight p 0 <> Ok (u32 (label_weight g (lab p) (Some 0))).
Proof. exists ex, [OAssign 0 0; OAssign 0 1]. eexists. split; [exact ex_wf|]. split; [vm_compute; reflexivity|]. vm_compute. discriminate. Qed.
Print Assumptions C25_double_assign_refuted.

(** ** C26: a partitioning built from labels. *)
Theorem C26_from_labels_exact : forall k g labels, wf_graph g -> symmetric g -> fits g ->
  length labels = nv g -> Forall (fun i => i < k) labels ->
  exists p, part_of_labels k g labels = Ok p /\ p_where p = Some <$> labels /\
    (forall i, i < k -> get_weight p i = Ok (u32 (label_weight g (lab p) (Some i)))) /\
    p_cut p = edge_cut g (lab p) /\
    (exists cs, calc_vertex_counts p = Ok cs /\ length cs = k /\
       forall i, i < k -> cs !! i = Some (length (filter (fun v => lab p v = Some i) (seq 0 (nv g))))).
Proof.
  intros k g labels Hwf Hs Hf Hl Hk. pose proof (part_of_labels_wp g Hwf k never labels Hl Hk) as H.
  apply wpo_never in H as (p & E & Hw & Hv & Hx). exists p. split; [done|]. split; [done|].
  destruct (Hx Hs Hf) as [[Hlo Hwe] Hc]. split; [apply (weights_ext k g p); done|]. split; [done|].
  pose proof (calc_vertex_counts_wp never p k (nv g) (proj1 Hwe) Hlo) as HC.
  apply wpo_never in HC as (cs & E2 & HC). exists cs. split; [done|exact HC].
Qed.
Print Assumptions C26_from_labels_exact.
Example C26_nonvacuous : wf_graph ex /\ symmetric ex /\ fits ex /\ Forall (fun i => i < 3) [2; 0; 2; 1] /\
  exists p, part_of_labels 3 ex [2; 0; 2; 1] = Ok p /\ p_cut p = 13%Z.
Proof. split; [exact ex_wf|]. split; [exact ex_sym|]. split; [exact ex_fits|]. split; [repeat constructor|].
  eexists. split; [vm_compute; reflexivity|]. reflexivity. Qed.
Theorem C26_out_of_range_is_UB : forall k g labels, wf_graph g -> length labels = nv g ->
  Exists (fun i => k <= i) labels -> part_of_labels k g labels = Fail (UB OutOfBounds).
Proof. exact part_of_labels_oob. Qed.
Print Assumptions C26_out_of_range_is_UB.
Example C26_oob_nonvacuous : part_of_labels 2 ex [0; 1; 2; 0] = Fail (UB OutOfBounds).
Proof. apply C26_out_of_range_is_UB; [exact ex_wf|reflexivity|]. right; right; left. lia. Qed.
(** When the directed edge weights sum to 2^32 or more the stored cut can be wrong. *)
Definition heavy : graph := the_graph [0; 1; 2] [1; 0] None (Some [2147483648; 2147483648]%Z).
Theorem C26_cut_overflow_refuted : exists g labels p, wf_graph g /\ symmetric g /\ length labels = nv g /\
  part_of_labels 2 g labels = Ok p /\ p_cut p <> edge_cut g (lab p).
Proof.
  exists heavy, [0; 1]. eexists. split; [apply (the_graph_wf 2); reflexivity|]. split; [apply symb_sound; vm_compute; reflexivity|].
  split; [vm_compute; reflexivity|]. split; [vm_compute; reflexivity|]. vm_compute. discriminate.
Qed.
Print Assumptions C26_cut_overflow_refuted.

(** ** C27: connectivity built from a partitioning. *)
Theorem C27_fresh_connectivity_exact : forall g p, wf_graph g -> fits g -> length (p_where p) = nv g ->
  exists c, from_partitioning g p = Ok c /\ length (c_border c) = nv g /\
    forall v, v < nv g ->
      c_int c !! v = Some (internal g (lab p) v) /\ c_ext c !! v = Some (external g (lab p) v) /\
      exists b, is_in_border c v = Ok b /\ (b = true <-> (0 < external g (lab p) v)%Z \/ internal g (lab p) v = 0%Z).
Proof.
  intros g p Hwf Hf Hl. pose proof (from_partitioning_wp g Hwf Hf never p Hl) as H.
  apply wpo_never in H as (c & E & (L1 & L2 & L3 & Hc) & Hb). exists c. split; [done|]. split; [done|].
  intros v Hv. destruct (Hc v Hv). split; [done|]. split; [done|].
  unfold is_in_border. rewrite (rd_nth _ _ false) by lia. eexists. split; [done|].
  rewrite <- (Hb v Hv), (lookup_nth _ _ false) by lia. split; [intros ->; done|intros [= ->]; done].
Qed.
Print Assumptions C27_fresh_connectivity_exact.
Example C27_nonvacuous : wf_graph ex /\ fits ex /\ length (p_where ex_part) = nv ex /\
  external ex (lab ex_part) 0 = 5%Z /\ internal ex (lab ex_part) 0 = 2%Z.
Proof. split; [exact ex_wf|]. split; [exact ex_fits|]. repeat split; reflexivity. Qed.

(** ** C28: connectivity under any sequence of moves to the other side. *)
Theorem C28_connectivity_follows_moves : forall g p c vs,
  wf_graph g -> symmetric g -> loopless g -> fits g ->
  exact_part 2 g p -> from_partitioning g p = Ok c -> Forall (fun v => v < nv g) vs ->
  exists s, run_moves g (mkFm p c (q_new (nv g)) (q_new (nv g)) (vt_new (nv g))) vs = Ok s /\
    (forall v, v < nv g -> lab (fm_part s) v =
       if Nat.even (count_occ Nat.eq_dec vs v) then lab p v else other (lab p v)) /\
    p_cut (fm_part s) = edge_cut g (lab (fm_part s)) /\
    (forall v, v < nv g ->
      c_int (fm_conn s) !! v = Some (internal g (lab (fm_part s)) v) /\
      c_ext (fm_conn s) !! v = Some (external g (lab (fm_part s)) v) /\
      ((0 < external g (lab (fm_part s)) v)%Z -> is_in_border (fm_conn s) v = Ok true)) /\
    (forall v x y, v < nv g -> lab (fm_part s) v = Some x -> x + y = 1 ->
      vertex_delta (fm_conn s) v =
        Ok (edge_cut g (upd (lab (fm_part s)) v (Some y)) - edge_cut g (lab (fm_part s)))%Z).
Proof.
  intros g p c vs Hwf Hs Hl Hf Hp Hc Hvs.
  destruct (start_ok g Hwf Hf p Hp) as (c' & E & A & _ & B). rewrite Hc in E. injection E as <-.
  pose proof (fm_data_start g p c Hp A B) as HD.
  pose proof (run_moves_wp g Hwf Hs Hl Hf never vs _ HD Hvs) as H.
  apply wpo_never in H as (s & E & HD' & Hw). exists s. split; [done|].
  split. { intros v Hv. rewrite !lab_labw, Hw. simpl. apply (flips_parity (nv g)); auto. apply Hp. }
  split; [apply HD'|]. split.
  - intros v Hv. pose proof HD' as (_ & (L1 & L2 & L3 & HC) & HB & _). destruct (HC v Hv). split; [done|]. split; [done|].
    intros Hx. unfold is_in_border. apply rd_ok. apply (HB v Hv); [|done].
    pose proof (int_ext_total g (lab (fm_part s)) v). pose proof (internal_nonneg g Hwf (lab (fm_part s)) v Hv). lia.
  - intros v x y Hv Hx Hxy. apply delta_exact with (x := x); auto.
Qed.
Print Assumptions C28_connectivity_follows_moves.
Example C28_nonvacuous : wf_graph ex /\ symmetric ex /\ loopless ex /\ fits ex /\ exact_part 2 ex ex_part /\
  (exists c, from_partitioning ex ex_part = Ok c) /\ Forall (fun v => v < nv ex) [1; 3; 1; 2].
Proof. split; [exact ex_wf|]. split; [exact ex_sym|]. split; [exact ex_loopless|]. split; [exact ex_fits|].
  split; [exact ex_part_exact|]. split; [eexists; reflexivity|]. rewrite ex_nv. repeat constructor. Qed.
(** A self loop breaks it: the gain of a move counts the loop and the cut becomes wrong. *)
Definition loopy : graph := the_graph [0; 2; 3] [0; 1; 0] None (Some [3; 1; 1]%Z).
Theorem C28_self_loop_refuted : exists g p c s v, wf_graph g /\ symmetric g /\ fits g /\ exact_part 2 g p /\
  from_partitioning g p = Ok c /\ v < nv g /\
  run_moves g (mkFm p c (q_new (nv g)) (q_new (nv g)) (vt_new (nv g))) [v] = Ok s /\
  p_cut (fm_part s) <> edge_cut g (lab (fm_part s)).
Proof.
  exists loopy, (mkPart 1 [1; 1]%Z [Some 0; Some 1]). eexists. eexists. exists 0.
  split; [apply (the_graph_wf 2); reflexivity|]. split; [apply symb_sound; vm_compute; reflexivity|].
  split; [eapply fits_compute; vm_compute; reflexivity|]. split; [apply exactb_sound; vm_compute; reflexivity|].
  split; [vm_compute; reflexivity|]. split; [vm_compute; lia|]. split; [vm_compute; reflexivity|]. vm_compute; discriminate.
Qed.
Print Assumptions C28_self_loop_refuted.

(** ** C29: verify() accepts after any sequence of moves, if no vertex is without edge weight. *)
Theorem C29_verify_accepts_partial : forall g p c vs,
  wf_graph g -> symmetric g -> loopless g -> fits g ->
  (forall v, v < nv g -> (0 < sumf snd (out g v))%Z) ->
  exact_part 2 g p -> from_partitioning g p = Ok c -> Forall (fun v => v < nv g) vs ->
  exists s, run_moves g (mkFm p c (q_new (nv g)) (q_new (nv g)) (vt_new (nv g))) vs = Ok s /\
    conn_verify g (fm_part s) (fm_conn s) = Ok true.
Proof.
  intros g p c vs Hwf Hs Hl Hf Hpos Hp Hc Hvs.
  destruct (start_ok g Hwf Hf p Hp) as (c' & E & A & _ & B). rewrite Hc in E. injection E as <-.
  pose proof (run_moves_wp g Hwf Hs Hl Hf never vs _ (fm_data_start g p c Hp A B) Hvs) as H.
  apply wpo_never in H as (s & E & HD' & _). exists s. split; [done|]. apply verify_ok; auto.
Qed.
Print Assumptions C29_verify_accepts_partial.
Example C29_nonvacuous : forall v, v < nv ex -> (0 < sumf snd (out ex v))%Z.
Proof. rewrite ex_nv. intros [|[|[|[|v]]]] H; try (vm_compute; reflexivity). lia. Qed.
(** With an isolated vertex it is false: one move takes the vertex out of the border, the
    rebuilt border contains it. *)
Definition isolated : graph := the_graph [0; 1; 2; 2] [1; 0] None None.
Theorem C29_isolated_refuted : exists g p c s vs, wf_graph g /\ symmetric g /\ loopless g /\ fits g /\
  exact_part 2 g p /\ from_partitioning g p = Ok c /\ Forall (fun v => v < nv g) vs /\
  run_moves g (mkFm p c (q_new (nv g)) (q_new (nv g)) (vt_new (nv g))) vs = Ok s /\
  conn_verify g (fm_part s) (fm_conn s) = Ok false.
Proof.
  exists isolated, (mkPart 1 [2; 1]%Z [Some 0; Some 1; Some 0]). eexists. eexists. exists [2].
  split; [apply (the_graph_wf 3); reflexivity|]. split; [apply symb_sound; vm_compute; reflexivity|].
  split; [apply looplessb_sound; vm_compute; reflexivity|]. split; [eapply fits_compute; vm_compute; reflexivity|].
  split; [apply exactb_sound; vm_compute; reflexivity|]. split; [vm_compute; reflexivity|].
  split; [constructor; [vm_compute; lia|constructor]|]. split; [vm_compute; reflexivity|]. vm_compute. reflexivity.
Qed.
Print Assumptions C29_isolated_refuted.

(** ** C30: FM refinement returns an exact partitioning with exact connectivity, for every
    random choice, target and iteration limits; it never fails. *)
Theorem C30_refinement_exact : forall g t c p maxIters maxMoves cs,
  wf_graph g -> symmetric g -> loopless g -> fits g -> (Z.of_nat (nv g) < W32)%Z ->
  2 <= length (t_frac t) -> 2 <= length (t_max t) ->
  exact_part 2 g p -> conn_exact g (lab p) c -> border_exact g (lab p) c ->
  exists c' p' cs', fm_refine maxIters maxMoves g t c p cs = Ok ((c', p'), cs') /\
    exact_part 2 g p' /\ conn_exact g (lab p') c' /\ border_exact g (lab p') c'.
Proof.
  intros g t c p mi mm cs Hwf Hs Hl Hf Hn Htf Htm Hp Hc Hb.
  destruct (max_bad_moves_ok mm (nv g) Hn) as [mb Hmb].
  pose proof (wpm_never _ _ cs (fm_refine_wp g Hwf Hs Hl Hf t Htf Htm never mi mm c p mb Hmb Hp Hc Hb)) as ([c' p'] & cs' & E & A & B & C & _).
  exists c', p', cs'. split; [done|]. done.
Qed.
Print Assumptions C30_refinement_exact.
Definition ex_target : target := target_of_weights [4; 4]%Z [5; 5]%Z.
Example C30_nonvacuous : exists c, from_partitioning ex ex_part = Ok c /\ conn_exact ex (lab ex_part) c /\
  border_exact ex (lab ex_part) c /\ exact_part 2 ex ex_part /\ (Z.of_nat (nv ex) < W32)%Z /\
  exists c' p' cs', fm_refine 8 150 ex ex_target c ex_part [] = Ok ((c', p'), cs') /\ (p_cut p' < p_cut ex_part)%Z.
Proof.
  destruct (start_ok ex ex_wf ex_fits ex_part ex_part_exact) as (c & E & A & _ & B).
  exists c. split; [done|]. split; [done|]. split; [done|]. split; [exact ex_part_exact|]. split; [vm_compute; reflexivity|].
  vm_compute in E. injection E as <-. do 3 eexists. split; [vm_compute; reflexivity|]. reflexivity.
Qed.

(** ** C31: FM never makes things worse, when the limits are monotone in the balance metric. *)
Theorem C31_never_worse_partial : forall g t c p maxIters maxMoves cs c' p' cs',
  wf_graph g -> symmetric g -> loopless g -> fits g ->
  2 <= length (t_frac t) -> 2 <= length (t_max t) -> limits_monotone g t ->
  exact_part 2 g p -> conn_exact g (lab p) c -> border_exact g (lab p) c ->
  fm_refine maxIters maxMoves g t c p cs = Ok ((c', p'), cs') ->
  no_worse g t p p'.
Proof.
  intros g t c p mi mm cs c' p' cs' Hwf Hs Hl Hf Htf Htm Hmono Hp Hc Hb E.
  destruct (max_bad_moves mm (nv g)) as [mb|] eqn:Hmb;
    [|unfold fm_refine in E; rewrite Hmb in E; discriminate].
  pose proof (wpm_elim _ anyf _ _ _ _ (fm_refine_wp g Hwf Hs Hl Hf t Htf Htm anyf mi mm c p mb Hmb Hp Hc Hb) E) as (_ & _ & _ & A).
  apply no_worse_rtc; auto.
Qed.
Print Assumptions C31_never_worse_partial.
(** Without that hypothesis: a balanced bisection is turned into an unbalanced one with no smaller
    cut.  Path d(3) -10- c(2) -2- a(6) -2- b(9); targets 10/10, maxima 10/19. *)
Definition ex31 (x y : Z) : graph :=
  the_graph [0; 1; 3; 5; 6] [1; 0; 2; 1; 3; 2] (Some [3; 2; 6; 9]%Z) (Some [10; 10; x; x; y; y]%Z).
Definition ex31_p (x : Z) : part := mkPart x [5; 15]%Z [Some 0; Some 0; Some 1; Some 1].
Definition ex31_t : target := target_of_weights [10; 10]%Z [10; 19]%Z.
Theorem C31_asymmetric_limits_refuted : exists g t c p cs c' p' cs',
  wf_graph g /\ symmetric g /\ loopless g /\ fits g /\ exact_part 2 g p /\
  from_partitioning g p = Ok c /\ fm_refine 8 150 g t c p cs = Ok ((c', p'), cs') /\
  balanced t p /\ ~ balanced t p' /\ (p_cut p <= p_cut p')%Z.
Proof.
  exists (ex31 2 2), ex31_t. eexists. exists (ex31_p 2), []. do 3 eexists.
  split; [apply (the_graph_wf 4); vm_compute; reflexivity|]. split; [apply symb_sound; vm_compute; reflexivity|].
  split; [apply looplessb_sound; vm_compute; reflexivity|]. split; [eapply fits_compute; vm_compute; reflexivity|].
  split; [apply exactb_sound; vm_compute; reflexivity|]. split; [vm_compute; reflexivity|]. split; [vm_compute; reflexivity|].
  split; [intros [|[|i]] Hi; [vm_compute; discriminate|vm_compute; discriminate|exfalso; vm_compute in Hi; lia]|].
  split; [intros H; specialize (H 0 ltac:(vm_compute; lia)); vm_compute in H; apply H; reflexivity|]. vm_compute; discriminate.
Qed.
Print Assumptions C31_asymmetric_limits_refuted.
(** With one iteration (or any odd number) even the cut grows, 1 to 3. *)
Theorem C31_one_iteration_refuted : exists g t c p cs c' p' cs',
  wf_graph g /\ symmetric g /\ loopless g /\ fits g /\ exact_part 2 g p /\
  from_partitioning g p = Ok c /\ fm_refine 1 150 g t c p cs = Ok ((c', p'), cs') /\
  balanced t p /\ ~ balanced t p' /\ (p_cut p < p_cut p')%Z.
Proof.
  exists (ex31 1 3), ex31_t. eexists. exists (ex31_p 1), []. do 3 eexists.
  split; [apply (the_graph_wf 4); vm_compute; reflexivity|]. split; [apply symb_sound; vm_compute; reflexivity|].
  split; [apply looplessb_sound; vm_compute; reflexivity|]. split; [eapply fits_compute; vm_compute; reflexivity|].
  split; [apply exactb_sound; vm_compute; reflexivity|]. split; [vm_compute; reflexivity|]. split; [vm_compute; reflexivity|].
  split; [intros [|[|i]] Hi; [vm_compute; discriminate|vm_compute; discriminate|exfalso; vm_compute in Hi; lia]|].
  split; [intros H; specialize (H 0 ltac:(vm_compute; lia)); vm_compute in H; apply H; reflexivity|]. vm_compute; reflexivity.
Qed.
Print Assumptions C31_one_iteration_refuted.

(** ** C32: within a pass, each step moves one not yet visited vertex, taken from the queue of
    the side it is on, where it had the largest gain; visited vertices are the moved ones. *)
Theorem C32_each_vertex_once : forall g t p0 ps ps' cs cs',
  wf_graph g -> symmetric g -> loopless g -> fits g -> 2 <= length (t_frac t) -> 2 <= length (t_max t) ->
  in_pass g t p0 ps -> queues_empty (ps_fm ps) = false -> fm_step g t ps cs = Ok (ps', cs') ->
  exists v from to k, v < nv g /\ from + to = 1 /\ fm_q (ps_fm ps) from !! v = Some (Some k) /\
    (forall u k', fm_q (ps_fm ps) from !! u = Some (Some k') -> (k' <= k)%Z) /\
    nth v (fm_vis (ps_fm ps)) false = false /\ lab (fm_part (ps_fm ps)) v = Some from /\
    p_where (fm_part (ps_fm ps')) = <[v := Some to]> (p_where (fm_part (ps_fm ps))) /\
    fm_vis (ps_fm ps') = <[v := true]> (fm_vis (ps_fm ps)).
Proof. intros g t p0 ps ps' cs cs' Hwf Hs Hl Hf Htf Htm HI He Hst. exact (in_pass_step g Hwf Hs Hl Hf t Htf Htm p0 ps ps' cs cs' HI He Hst). Qed.
Print Assumptions C32_each_vertex_once.
Theorem C32_queues_and_labels : forall g t p0 ps,
  wf_graph g -> symmetric g -> loopless g -> fits g -> 2 <= length (t_frac t) -> 2 <= length (t_max t) ->
  in_pass g t p0 ps ->
  (forall i v k, i < 2 -> fm_q (ps_fm ps) i !! v = Some (Some k) ->
     v < nv g /\ lab (fm_part (ps_fm ps)) v = Some i /\ nth v (fm_vis (ps_fm ps)) false = false /\
     is_in_border (fm_conn (ps_fm ps)) v = Ok true /\
     k = (external g (lab (fm_part (ps_fm ps))) v - internal g (lab (fm_part (ps_fm ps))) v)%Z) /\
  (forall v, v < nv g -> lab (fm_part (ps_fm ps)) v =
     if nth v (fm_vis (ps_fm ps)) false then other (lab p0 v) else lab p0 v) /\
  ps_num_moved ps = length (filter (fun v => nth v (fm_vis (ps_fm ps)) false = true) (seq 0 (nv g))) /\
  ps_num_moved ps <= nv g.
Proof.
  intros g t p0 ps Hwf Hs Hl Hf Htf Htm HI. split.
  - intros i v k Hi Hq. destruct (in_pass_queue g Hwf Hs Hl Hf t Htf Htm p0 ps i v k HI Hi Hq) as (A & B & C & D & F).
    split; [done|]. split; [done|]. split; [done|]. split; [apply rd_ok; done|done].
  - pose proof (in_pass_inv g Hwf Hs Hl Hf t Htf Htm p0 ps HI) as (_ & _ & A & B & _).
    split; [done|]. split; [done|]. rewrite B. unfold visited. etransitivity; [apply filter_length|].
    rewrite seq_length. done.
Qed.
Print Assumptions C32_queues_and_labels.
Example C32_nonvacuous : exists c s cs bal, from_partitioning ex ex_part = Ok c /\
  fm_fill (mkFm ex_part c (q_new (nv ex)) (q_new (nv ex)) (vt_new (nv ex))) [] = Ok (s, cs) /\
  calc_max_imbalance ex ex_target (fm_part s) = Ok bal /\
  in_pass ex ex_target ex_part (mkPass s (p_cut (fm_part s)) bal [] 0) /\ queues_empty s = false.
Proof.
  destruct (start_ok ex ex_wf ex_fits ex_part ex_part_exact) as (c & E & A & _ & B).
  exists c. pose proof (fm_data_start ex ex_part c ex_part_exact A B) as HD.
  assert (exists s cs, fm_fill (mkFm ex_part c (q_new (nv ex)) (q_new (nv ex)) (vt_new (nv ex))) [] = Ok (s, cs) /\ queues_empty s = false /\ fm_part s = ex_part) as (s & cs & Ef & Hq & Hps).
  { vm_compute in E. injection E as <-. do 2 eexists. split; [vm_compute; reflexivity|]. split; reflexivity. }
  exists s, cs. destruct (calc_max_imbalance_ok ex ex_target (fm_part s)) as [bal Eb]; [rewrite Hps; vm_compute; lia|].
  exists bal. split; [done|]. split; [done|]. split; [done|]. split; [|done].
  eapply pass_start; [exact HD| |reflexivity|exact Ef|exact Eb]. repeat split; reflexivity.
Qed.

(** ** C39: totals and unit flags of a graph built from CSR arrays. *)
Theorem C39_totals_and_flags : forall n prefix adj vw ew, valid_csr n prefix adj vw ew ->
  exists g, graph_of_csr prefix adj vw ew = Ok g /\ nv g = n /\ ne g = length adj /\
    g_tvw g = u32 (sumn n (wgt_at (default [] vw))) /\
    g_tew g = u32 (sumn (length adj) (wgt_at (default [] ew))) /\
    (g_uvw g = true <-> forall v, v < n -> wgt_at (default [] vw) v = 1%Z) /\
    (g_uew g = true <-> forall e, e < length adj -> wgt_at (default [] ew) e = 1%Z) /\
    (forall v, v < n -> vwt (has_vw g) g v = Ok (wgt_at (default [] vw) v)) /\
    (forall e, e < length adj -> ewt (has_ew g) g e = Ok (wgt_at (default [] ew) e)) /\
    wf_graph g.
Proof.
  intros n prefix adj vw ew H. destruct (graph_of_csr_ok _ _ _ _ _ H) as (g & E & Hwf & P1 & P2 & P3 & P4 & P5 & P6 & P7 & P8 & P9).
  exists g. assert (ne g = length adj) as Hne by (unfold ne; rewrite P2; done).
  split; [done|]. split; [done|]. split; [done|]. split; [done|]. split; [done|]. split; [done|]. split; [done|].
  split; [intros v Hv; rewrite vwt_ok by (auto; lia); unfold vweight; rewrite P3; done|].
  split; [intros e He; rewrite ewt_ok by (auto; lia); rewrite P4; done|]. done.
Qed.
Print Assumptions C39_totals_and_flags.
Example C39_nonvacuous : valid_csr 4 ex_prefix ex_adj (Some ex_vw) (Some ex_ew) /\ valid_csr 4 ex_prefix ex_adj None None.
Proof. split; [exact ex_valid|]. apply csrb_sound. reflexivity. Qed.

(** ** C43: vertex sets. *)
Theorem C43_iteration_enumerates : forall s, NoDup (vs_iter s) /\ length (vs_iter s) = vs_size s /\
  (forall v, v ∈ vs_iter s <-> vs_begin s <= v < vs_end s) /\
  (forall i, i < vs_size s -> vs_iter s !! i = Some (vs_begin s + i)).
Proof. intros s. split; [apply vs_iter_nodup|]. split; [apply vs_iter_size|]. split; [apply vs_iter_spec|apply vs_iter_lookup]. Qed.
Print Assumptions C43_iteration_enumerates.
Theorem C43_index_partial : forall s i, vs_begin s = 0 -> i < vs_size s -> vs_iter s !! i = Some (vs_index s i).
Proof. intros s i Hb Hi. rewrite vs_iter_lookup by done. rewrite Hb. done. Qed.
Print Assumptions C43_index_partial.
Theorem C43_index_refuted : exists s i, i < vs_size s /\ vs_iter s !! i <> Some (vs_index s i).
Proof. exists (mkVS 3 7), 1. split; [vm_compute; lia|]. vm_compute. discriminate. Qed.
Print Assumptions C43_index_refuted.
Theorem C43_random_order_permutes_partial : forall s cs, vs_begin s = 0 ->
  exists l cs', random_order s cs = Ok (l, cs') /\ l ≡ₚ vs_iter s.
Proof. intros s cs H. exact (wpm_never _ _ cs (random_order_wp never s H)). Qed.
Print Assumptions C43_random_order_permutes_partial.
Theorem C43_degree_order_partial : forall g s cs, wf_graph g -> vs_begin s = 0 -> vs_end s <= nv g ->
  exists l cs', degree_sorted_random s g cs = Ok (l, cs') /\ l ≡ₚ vs_iter s /\
    forall i j a b, i <= j -> l !! i = Some a -> l !! j = Some b -> length (out g a) <= length (out g b).
Proof. intros g s cs Hwf H He. exact (wpm_never _ _ cs (degree_sorted_wp never g s Hwf H He)). Qed.
Print Assumptions C43_degree_order_partial.
Example C43_nonvacuous : vs_begin (mkVS 0 4) = 0 /\ vs_end (mkVS 0 4) <= nv ex /\ vs_size (mkVS 3 7) = 4.
Proof. rewrite ex_nv. repeat split; vm_compute; lia. Qed.
(** A set that does not start at 0 is permuted as if it did, or runs out of bounds. *)
Theorem C43_offset_set_refuted : exists g s l cs', wf_graph g /\ vs_end s <= nv g /\
  random_order s [] = Ok (l, cs') /\ ~ l ≡ₚ vs_iter s /\ degree_sorted_random s g [] = Fail (UB OutOfBounds).
Proof.
  exists ex, (mkVS 2 4). do 2 eexists. split; [exact ex_wf|]. split; [rewrite ex_nv; simpl; lia|].
  split; [vm_compute; reflexivity|]. split; [|vm_compute; reflexivity].
  intros H. assert (0 ∈ vs_iter (mkVS 2 4)) as H0 by (rewrite <- H; constructor).
  apply vs_iter_spec in H0. simpl in H0. lia.
Qed.
Print Assumptions C43_offset_set_refuted.

(** ** C44: the visit tracker is a set. *)
Theorem C44_tracker_is_a_set : forall n os, Forall (vop_ok n) os ->
  exists t, run_vops (vt_new n) os = Ok t /\
    forall v, v < n -> exists b, vt_has t v = Ok b /\ (b = true <-> visited_since (rev os) v).
Proof. exact visit_tracker_set. Qed.
Print Assumptions C44_tracker_is_a_set.
Example C44_nonvacuous : let os := [Visit 1; Visit 2; Unvisit 1; ClearAll; Visit 0; Visit 3; Unvisit 0] in
  Forall (vop_ok 5) os /\ visited_since (rev os) 3 /\ ~ visited_since (rev os) 1.
Proof. simpl. split; [repeat constructor; simpl; lia|]. split; [split; [lia|left; reflexivity]|]. intros [_ [H|[H|[]]]]; lia. Qed.

(** ** C46: balance analysis. *)
Theorem C46_is_balanced_exact : forall t p, length (p_pw p) <= length (t_max t) ->
  exists b, is_balanced t p = Ok b /\
   (b = true <-> forall i, i < length (p_pw p) -> (nth i (p_pw p) 0 <= nth i (t_max t) 0)%Z).
Proof. exact is_balanced_ok. Qed.
Print Assumptions C46_is_balanced_exact.
Theorem C46_max_imbalance_exact : forall g t p, length (p_pw p) <= length (t_frac t) ->
  exists m, calc_max_imbalance g t p = Ok m /\ fle f_zero m = true /\
    (m = f_zero \/ exists i, i < length (p_pw p) /\ get_imbalance g t p i = Ok m) /\
    forall i, i < length (p_pw p) -> exists f, get_imbalance g t p i = Ok f /\ (~ is_nan f -> fle f m = true).
Proof.
  intros g t p H. destruct (calc_max_imbalance_ok g t p H) as [m E]. exists m. split; [done|].
  destruct (max_imbalance_spec g t p m E) as (A & B & C & D). split; [done|]. split; [exact C|exact D].
Qed.
Print Assumptions C46_max_imbalance_exact.
Theorem C46_most_overweight : forall g t p i, find_most_overweight g t p = Ok i ->
  exists m, calc_max_imbalance g t p = Ok m /\
   ((i = 0 /\ m = f_zero) \/ (i < length (p_pw p) /\ get_imbalance g t p i = Ok m /\ flt f_zero m = true)).
Proof. exact most_overweight_spec. Qed.
Print Assumptions C46_most_overweight.
Example C46_nonvacuous : length (p_pw ex_part) <= length (t_max ex_target) /\ length (p_pw ex_part) <= length (t_frac ex_target)
  /\ is_balanced ex_target ex_part = Ok true /\ find_most_overweight (ex31 1 3) ex31_t (ex31_p 1) = Ok 1.
Proof. repeat split; vm_compute; reflexivity || lia. Qed.
