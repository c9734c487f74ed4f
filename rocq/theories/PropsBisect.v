(** * PropsBisect: property theorems about the bisectors (C31 for even targets, C33, C34, C35,
    C47).  [two_way t]: the target describes two parts; [light g]: all vertices together weigh
    less than 2^32 (BisectFacts.v); [balanced], [no_worse]: MiscFacts.v; [runs], [best_of]:
    MultiFacts.v. *)
From Verif Require Import Base F64 ModelGraph ModelPartition ModelConn ModelFM ModelAgg ModelMultilevel ModelBisect Spec Logic Sums
  GraphFacts PartFacts ConnFacts FMFacts MiscFacts BisectFacts FloatUse EvenFacts MultiFacts RandomFacts Examples.
#[local] Arguments seq : simpl nomatch.

(** Weight of side i in a label array. *)
Definition side_weight (g : graph) (L : list (option nat)) (i : nat) : Z := label_weight g (fun v => nth v L None) (Some i).
Definition max_of (t : target) (i : nat) : Z := nth i (t_max t) 0%Z.
Definition target_of (t : target) (i : nat) : Z := nth i (t_wgt t) 0%Z.

(** The labels after growing the left side: complete, the left side within its maximum, and
    growing stopped because the target is reached or because no remaining vertex fits. *)
Record grown (g : graph) (t : target) (L : list (option nat)) : Prop := {
  gr_labels : labels_ok 2 (nv g) L;
  gr_max : (side_weight g L 0 <= max_of t 0)%Z;
  gr_stop : (target_of t 0 <= side_weight g L 0)%Z \/
    forall v, v < nv g -> L !! v = Some (Some 1) -> (max_of t 0 < side_weight g L 0 + vweight g v)%Z
}.
Lemma grown_of g t q p : wf_graph g -> light g -> (0 <= max_of t 0)%Z -> grow_inv g t q p -> stopped t q p ->
  grown g t (p_where p) /\ pw p 0 = side_weight g (p_where p) 0 /\ pw p 1 = side_weight g (p_where p) 1.
Proof.
  intros Hwf Hl Hm [HV HL HR HM HH] HS.
  assert (HW : forall i, i < 2 -> pw p i = side_weight g (p_where p) i).
  { intros i Hi. destruct (valid_pw g p i HV Hi) as [_ E]. rewrite (light_u32 g _ _ Hwf Hl) in E. exact E. }
  split; [|split; apply HW; lia]. constructor.
  - apply HV.
  - rewrite <- HW by lia. by apply HM.
  - destruct HS as [HS|HS]; [right|left; rewrite <- HW by lia; exact HS].
    intros v Hv Hv1. destruct (HH Hl v Hv Hv1) as [[k Hk]|HX]; [|rewrite <- HW by lia; unfold max_of; lia].
    exfalso. unfold q_size in HS. apply length_zero_iff_nil in HS.
    assert (Hin : v ∈ q_members q) by (apply q_members_spec; eauto). rewrite HS in Hin. set_solver.
Qed.

(** ** C33: every graph with at least one vertex.  The only failure is the read of an absent
    weight array (next theorem); otherwise the result is a complete bisection with exact
    weights (and cut, on undirected graphs), which is the grown labelling, with at most one
    more vertex moved to the left, and none unless the right side was over its maximum. *)
Theorem C33_bfs_bisection : forall g t s, wf_graph g -> light g -> two_way t -> 0 < nv g -> (0 <= max_of t 0)%Z ->
  match bfs_execute t g s with
  | Ok (p, _) => valid_part 2 g p /\ (symmetric g -> fits g -> exact_part 2 g p) /\
     exists L, grown g t L /\ ((side_weight g L 1 <= max_of t 1)%Z -> p_where p = L) /\
       (p_where p = L \/ exists v, L !! v = Some (Some 1) /\ p_where p = <[v := Some 0]> L)
  | Fail f => f = UB NoWeights /\ g_uvw g = true /\ g_vw g = []
  end.
Proof.
  intros g t s Hwf Hl Ht Hn Hm. pose proof (bfs_execute_wp g Hwf t Ht Hn s) as H.
  destruct (bfs_execute t g s) as [[p s']|f]; simpl in H; [|exact H].
  destruct H as [HV HX (q & p1 & HG & HS & HC)]. split; [done|]. split; [done|].
  destruct (grown_of g t q p1 Hwf Hl Hm HG HS) as (HGr & E0 & E1). exists (p_where p1). split; [done|].
  rewrite <- E1. unfold max_of. destruct HC as [[H1 H2]|[H1 (p2 & H2 & HB)]].
  - split; [done|by left].
  - split; [lia|]. rewrite H2. destruct HB as [->|(v & Hv & Hv1 & Hw & _)]; [by left|]. right. exists v. done.
Qed.
Print Assumptions C33_bfs_bisection.
(** With a weight array of full length, BFS bisection always succeeds. *)
Theorem C33_total_with_weights : forall g t s, wf_graph g -> light g -> two_way t -> 0 < nv g -> (0 <= max_of t 0)%Z ->
  length (g_vw g) = nv g -> exists p s', bfs_execute t g s = Ok (p, s') /\ valid_part 2 g p.
Proof.
  intros g t s Hwf Hl Ht Hn Hm Hvw. pose proof (C33_bfs_bisection g t s Hwf Hl Ht Hn Hm) as H.
  destruct (bfs_execute t g s) as [[p s']|f]; [exists p, s'; split; [done|exact (proj1 H)]|].
  destruct H as (_ & _ & Hnil). rewrite Hnil in Hvw. simpl in Hvw. lia.
Qed.
Print Assumptions C33_total_with_weights.
Definition ex33_t : target := target_of_weights [4; 4]%Z [5; 5]%Z.
Lemma ex33_two : two_way ex33_t. Proof. split; reflexivity. Qed.
Example C33_nonvacuous : wf_graph ex /\ light ex /\ two_way ex33_t /\ 0 < nv ex /\ (0 <= max_of ex33_t 0)%Z /\
  exists p s', bfs_execute ex33_t ex [1; 0; 0; 0; 0] = Ok (p, s') /\ p_where p = [Some 0; Some 0; Some 1; Some 0] /\ p_pw p = [5; 3]%Z.
Proof.
  split; [exact ex_wf|]. split; [reflexivity|]. split; [exact ex33_two|]. split; [vm_compute; lia|]. split; [vm_compute; discriminate|].
  eexists _, _. split; [vm_compute; reflexivity|]. split; reflexivity.
Qed.
(** A path of three vertices without weight arrays, halves 1 and 1 (what the library itself
    computes for two parts): an absent array is read. *)
Definition path3 : graph := the_graph [0; 1; 3; 4] [1; 0; 2; 1] None None.
Theorem C33_missing_weights_refuted : exists g t s, wf_graph g /\ symmetric g /\ loopless g /\ nv g = 3 /\
  target_uniform 2 (g_tvw g) f_0_03 = Ok t /\ bfs_execute t g s = Fail (UB NoWeights).
Proof.
  exists path3. eexists. exists [0]. split; [apply (the_graph_wf 3); reflexivity|]. split; [apply symb_sound; reflexivity|].
  split; [apply looplessb_sound; reflexivity|]. split; [reflexivity|]. split; [vm_compute; reflexivity|]. vm_compute. reflexivity.
Qed.
Print Assumptions C33_missing_weights_refuted.

(** ** C34: balancing.  On a graph with unit weights given as an array, the vertex moved by the
    balancing step makes the left side relatively lighter than the right side was, so the worse
    of the two relative loads improves (left'/max0 < right/max1, cross-multiplied). *)
Theorem C34_balancing_improves_partial : forall g t s p s', wf_graph g -> light g -> two_way t -> 0 < nv g ->
  (0 < max_of t 0 < W32)%Z -> (0 < max_of t 1 < W32)%Z -> g_uvw g = true ->
  bfs_execute t g s = Ok (p, s') ->
  exists L, grown g t L /\ (p_where p = L \/
    ((max_of t 1 < side_weight g L 1)%Z /\ exists v, L !! v = Some (Some 1) /\ p_where p = <[v := Some 0]> L /\
      side_weight g (p_where p) 0 = (side_weight g L 0 + vweight g v)%Z /\
      side_weight g (p_where p) 1 = (side_weight g L 1 - vweight g v)%Z /\
      (side_weight g (p_where p) 0 * max_of t 1 < side_weight g L 1 * max_of t 0)%Z)).
Proof.
  intros g t s p s' Hwf Hl Ht Hn Hm0 Hm1 Hu E. pose proof (bfs_execute_wp g Hwf t Ht Hn s) as H. rewrite E in H. simpl in H.
  destruct H as [HV HX (q & p1 & HG & HS & HC)].
  destruct (grown_of g t q p1 Hwf Hl ltac:(lia) HG HS) as (HGr & E0 & E1). exists (p_where p1). split; [done|].
  destruct HC as [[H1 H2]|[H1 (p2 & H2 & HB)]]; [by left|]. destruct HB as [->|(v & Hv & Hv1 & Hw & Hlt)]; [by left|].
  right. split; [rewrite <- E1; exact H1|]. exists v. split; [done|]. split; [congruence|].
  assert (HLW : forall i, side_weight g (p_where p) i = label_weight g (upd (lab p1) v (Some 0)) (Some i)).
  { intros i. apply label_weight_ext. intros u Hu'. rewrite H2, Hw. unfold upd, lab.
    destruct (decide (u = v)) as [->|Hne].
    - rewrite nth_lookup, list_lookup_insert; [done|]. destruct HG as [[[HL _] _] _ _ _ _]. lia.
    - rewrite !nth_lookup, list_lookup_insert_ne by done. done. }
  assert (Hlv : lab p1 v = Some 1) by (unfold lab; rewrite nth_lookup, Hv1; done).
  assert (HA : side_weight g (p_where p) 0 = (side_weight g (p_where p1) 0 + vweight g v)%Z).
  { rewrite HLW, label_weight_upd, Hlv by done. change (side_weight g (p_where p1) 0) with (label_weight g (lab p1) (Some 0)).
    repeat (case_decide; try congruence). lia. }
  split; [done|]. split.
  { rewrite HLW, label_weight_upd, Hlv by done. change (side_weight g (p_where p1) 1) with (label_weight g (lab p1) (Some 1)).
    repeat (case_decide; try congruence). lia. }
  rewrite Hu in Hlt. rewrite <- E1. rewrite HA, <- E0.
  assert (HB0 : (0 <= side_weight g (p_where p) 0 < W32)%Z).
  { pose proof (label_weight_bounds g (fun v => nth v (p_where p) None) (Some 0) Hwf). unfold light, side_weight in *. lia. }
  assert (HB1 : (0 <= side_weight g (p_where p1) 1 < W32)%Z).
  { pose proof (label_weight_bounds g (fun v => nth v (p_where p1) None) (Some 1) Hwf). unfold light, side_weight in *. lia. }
  rewrite (u32_small (vweight g v + pw p1 0)) in Hlt by lia.
  replace (pw p1 0 + vweight g v)%Z with (vweight g v + pw p1 0)%Z by lia. apply load_lt in Hlt; unfold max_of in *; lia.
Qed.
Print Assumptions C34_balancing_improves_partial.
Definition ex34 : graph := the_graph [0; 1; 3; 4] [1; 0; 2; 1] (Some [1; 1; 1]%Z) None.
Definition ex34_t : target := target_of_weights [1; 1]%Z [1; 1]%Z.
Example C34_nonvacuous : wf_graph ex34 /\ light ex34 /\ two_way ex34_t /\ g_uvw ex34 = true /\
  exists p s', bfs_execute ex34_t ex34 [0; 0; 0; 0; 0] = Ok (p, s') /\ p_pw p = [1; 2]%Z.
Proof.
  split; [apply (the_graph_wf 3); reflexivity|]. split; [reflexivity|]. split; [split; reflexivity|]. split; [reflexivity|].
  eexists _, _. split; [vm_compute; reflexivity|]. reflexivity.
Qed.
(** ... and one in which a vertex is moved: five vertices, left target 1, maxima 2 and 2; growing
    gives 1 | 4, balancing 2 | 3. *)
Definition ex34b : graph := the_graph [0; 1; 3; 5; 7; 8] [1; 0; 2; 1; 3; 2; 4; 3] (Some [1; 1; 1; 1; 1]%Z) None.
Definition ex34b_t : target := target_of_weights [1; 2]%Z [2; 2]%Z.
Example C34_moving_case : wf_graph ex34b /\ light ex34b /\ two_way ex34b_t /\ g_uvw ex34b = true /\
  exists p s', bfs_execute ex34b_t ex34b [0; 0; 0; 0; 0] = Ok (p, s') /\ p_pw p = [2; 3]%Z.
Proof.
  split; [apply (the_graph_wf 5); reflexivity|]. split; [reflexivity|]. split; [split; reflexivity|]. split; [reflexivity|].
  eexists _, _. split; [vm_compute; reflexivity|]. reflexivity.
Qed.
(** On weighted graphs the two balancing routines are swapped: the step counts every vertex
    as 1.  Two vertices of weight 3 and 100, maxima 10 and 10: the relative loads 0.3 / 10
    become 10.3 / 0. *)
Definition ex34_w : graph := the_graph [0; 1; 2] [1; 0] (Some [3; 100]%Z) None.
Definition ex34_wt : target := target_of_weights [3; 10]%Z [10; 10]%Z.
Theorem C34_weighted_refuted : exists g t s p s' L, wf_graph g /\ light g /\ two_way t /\ symmetric g /\ g_uvw g = false /\
  bfs_execute t g s = Ok (p, s') /\ grown g t L /\ p_where p <> L /\
  (max_of t 0 < side_weight g (p_where p) 0)%Z /\ (side_weight g L 1 * max_of t 0 < side_weight g (p_where p) 0 * max_of t 1)%Z.
Proof.
  exists ex34_w, ex34_wt, [0]. do 2 eexists. exists [Some 0; Some 1]. split; [apply (the_graph_wf 2); reflexivity|]. split; [reflexivity|].
  split; [split; reflexivity|]. split; [apply symb_sound; reflexivity|]. split; [reflexivity|]. split; [vm_compute; reflexivity|].
  split; [|split; [vm_compute; discriminate|split; vm_compute; reflexivity]].
  constructor; [apply labels_ok_compute; reflexivity|vm_compute; discriminate|left; vm_compute; discriminate].
Qed.
Print Assumptions C34_weighted_refuted.

(** ** C47: random bisection of a graph whose weights and limits are below 2^30. *)
Definition moderate (g : graph) (t : target) : Prop :=
  (sumn (nv g) (vweight g) < 2 ^ 30)%Z /\ (0 <= max_of t 0 < 2 ^ 30)%Z /\ (0 <= max_of t 1 < 2 ^ 30)%Z.
Theorem C47_random_bisection : forall g t s, wf_graph g -> two_way t -> 0 < nv g -> moderate g t ->
  exists p s', random_execute t g s = Ok (p, s') /\ valid_part 2 g p /\ (symmetric g -> fits g -> exact_part 2 g p) /\
    (side_weight g (p_where p) 0 <= max_of t 0)%Z /\
    (* L: the labels after the fill phase; the swap phase only acts when the right side is overweight, *)
    exists L, labels_ok 2 (nv g) L /\ (side_weight g L 0 <= max_of t 0)%Z /\
      ((side_weight g L 1 <= max_of t 1)%Z -> p_where p = L) /\
      (* it exchanges one right vertex for one left vertex, and then both sides are within their
         maxima if these leave room for the whole graph *)
      (p_where p = L \/
       (exists r l, L !! r = Some (Some 1) /\ L !! l = Some (Some 0) /\ p_where p = <[l := Some 1]> (<[r := Some 0]> L)) /\
       ((sumn (nv g) (vweight g) <= max_of t 0 + max_of t 1)%Z -> (side_weight g (p_where p) 1 < max_of t 1)%Z)).
Proof.
  intros g t s Hwf Ht Hn (Hs & Hm0 & Hm1). pose proof (random_execute_exact g Hwf t Ht Hs Hm0 Hm1 never Hn s) as H.
  destruct (random_execute t g s) as [[p s']|f]; simpl in H; [|done].
  destruct H as [HV HX HL (p1 & HV1 & HL1 & HC1)]. exists p, s'. split; [done|]. split; [done|]. split; [done|]. split; [exact HL|].
  exists (p_where p1). split; [apply HV1|]. split; [exact HL1|].
  split; [|].
  - intros Ho. destruct HC1 as [H|[Hov _]]; [done|]. exfalso. change (side_weight g (p_where p1) 1) with (label_weight g (lab p1) (Some 1)) in Ho. unfold max_of in Ho. lia.
  - destruct HC1 as [H|[Hov (r & l & H1 & H2 & H3 & H4 & H6 & H5)]]; [by left|right]. split; [by exists r, l|]. intros Hroom.
    destruct (swapped_weights g p1 p r l HV1 H1 H2 H3) as [W0 W1].
    change (side_weight g (p_where p) 1) with (label_weight g (lab p) (Some 1)). rewrite W1. apply H5.
    pose proof (two_sides_total g p1 HV1) as HT. unfold max_of in *. lia.
Qed.
Print Assumptions C47_random_bisection.
Example C47_nonvacuous : wf_graph ex /\ two_way ex33_t /\ 0 < nv ex /\ moderate ex ex33_t /\
  exists p s', random_execute ex33_t ex [1; 0; 0; 0; 0] = Ok (p, s') /\ exactb 2 ex p = true.
Proof.
  split; [exact ex_wf|]. split; [exact ex33_two|]. split; [vm_compute; lia|]. split; [unfold moderate; vm_compute; intuition congruence|].
  eexists _, _. split; [vm_compute; reflexivity|]. vm_compute. reflexivity.
Qed.
(** A run with a swap: weights 5, 3, 6, 6, maxima 11 and 11; filling gives 8 | 12, the swap 11 | 9. *)
Definition ex47_s : graph := the_graph [0; 1; 3; 5; 6] [1; 0; 2; 1; 3; 2] (Some [5; 3; 6; 6]%Z) None.
Example C47_swapping_case : wf_graph ex47_s /\ two_way (target_of_weights [10; 10]%Z [11; 11]%Z) /\ moderate ex47_s (target_of_weights [10; 10]%Z [11; 11]%Z) /\
  exists p s', random_execute (target_of_weights [10; 10]%Z [11; 11]%Z) ex47_s [] = Ok (p, s') /\ p_pw p = [11; 9]%Z /\ p_where p = [Some 0; Some 1; Some 0; Some 1].
Proof.
  split; [apply (the_graph_wf 4); reflexivity|]. split; [split; reflexivity|]. split; [unfold moderate; vm_compute; intuition congruence|].
  eexists _, _. split; [vm_compute; reflexivity|]. vm_compute. split; reflexivity.
Qed.
(** Beyond that the swap overflows int32_t: two vertices of weight 2684354560 and 1000000000,
    the library's own two-way target. *)
Definition ex47 : graph := the_graph [0; 1; 2] [1; 0] (Some [2684354560; 1000000000]%Z) None.
Theorem C47_overflow_refuted : exists g t s, wf_graph g /\ symmetric g /\ light g /\
  target_uniform 2 (g_tvw g) f_0_03 = Ok t /\ random_execute t g s = Fail (UB SignedOverflow).
Proof.
  exists ex47. eexists. exists [0; 0; 0; 0; 0; 0]. split; [apply (the_graph_wf 2); vm_compute; reflexivity|]. split; [apply symb_sound; vm_compute; reflexivity|].
  split; [vm_compute; reflexivity|]. split; [vm_compute; reflexivity|]. vm_compute. reflexivity.
Qed.
Print Assumptions C47_overflow_refuted.

(** ** Targets of two equal parts: the only ones recursive bisection makes for an even number
    of equal parts. *)
Inductive even_target : target -> Prop :=
  | et_uniform w tol t : target_uniform 2 w tol = Ok t -> even_target t
  | et_weights w m : (0 < w)%Z -> (2 * w < W32)%Z -> even_target (target_of_weights [w; w] [m; m]).
Lemma even_target_even t : even_target t -> even t.
Proof. intros [w tol t' H|w m H1 H2]; [by eapply even_uniform|by apply even_weights]. Qed.
Lemma even_lengths t : even t -> length (t_frac t) = 2 /\ length (t_max t) = 2.
Proof. intros (f & m & -> & -> & _). done. Qed.

(** ** C35: the best of several bisections, for any bisector. *)
Theorem C35_best_is_kept_partial : forall bis t g s s' ps, length (t_frac t) = 2 -> length (t_max t) = 2 ->
  runs bis t g s ps s' -> ps <> [] -> (forall q, q ∈ ps -> length (p_pw q) = 2) -> separated g t ps ->
  exists p, multi_execute (Z.of_nat (length ps)) bis t g s = Ok (p, s') /\ best_of g t ps p.
Proof. intros bis t g s s' ps Hf Hm HR Hn HF HS. apply multi_runs; try done. by apply Forall_forall. Qed.
Print Assumptions C35_best_is_kept_partial.
(** With two equal targets no hypothesis on the candidates is needed but their validity. *)
Theorem C35_best_is_kept_even : forall bis t g n s p s', wf_graph g -> light g -> even_target t -> (1 <= n)%Z ->
  (forall s q s', bis t g s = Ok (q, s') -> valid_part 2 g q) ->
  multi_execute n bis t g s = Ok (p, s') ->
  exists ps, Z.of_nat (length ps) = n /\ runs bis t g s ps s' /\ best_of g t ps p.
Proof.
  intros bis t g n s p s' Hwf Hl He Hn HB E. apply even_target_even in He. destruct (even_lengths t He) as [Hf Hm].
  destruct (multi_has_runs bis t g n s p s' E) as (ps & HL & HR). exists ps. split; [lia|]. split; [done|].
  assert (HV : forall q, q ∈ ps -> valid_part 2 g q).
  { clear HL E. induction HR; intros q Hq; [set_solver|]. apply elem_of_cons in Hq as [->|Hq]; eauto. }
  destruct (multi_runs g t Hf Hm bis ps s s' HR) as (p' & E' & HO).
  - intros ->. simpl in HL. lia.
  - apply Forall_forall. intros q Hq. apply (HV q Hq).
  - intros q q' b b' Hq Hq' Hb Hb' Ec Ec'. apply (even_separates g t q q' b b'); eauto.
  - replace (Z.of_nat (length ps)) with n in E' by lia. rewrite E in E'. injection E' as <-. done.
Qed.
Print Assumptions C35_best_is_kept_even.
(** For any targets: a later candidate takes over if the kept one is over a maximum and the later one
    less imbalanced, or if both are balanced and the later one has a smaller cut. *)
Definition takes_over (g : graph) (t : target) (q p : part) : Prop :=
  exists b b', calc_max_imbalance g t p = Ok b /\ calc_max_imbalance g t q = Ok b' /\
    (~ balanced t p /\ flt b' b = true \/ balanced t p /\ balanced t q /\ (p_cut q < p_cut p)%Z).
Inductive chosen (g : graph) (t : target) : list part -> part -> Prop :=
| chosen_first p : chosen g t [p] p
| chosen_later ps p q : chosen g t ps p -> takes_over g t q p -> chosen g t (ps ++ [q]) q
| chosen_stays ps p q : chosen g t ps p -> ~ takes_over g t q p -> chosen g t (ps ++ [q]) p.
Lemma chosen_fold g t bis ps2 : length (t_frac t) = 2 -> length (t_max t) = 2 -> forall n s s' ps b r, runs bis t g s ps2 s' ->
  (forall q, q ∈ ps2 -> length (p_pw q) = 2) -> chosen g t ps (mb_part b) -> mb_cut b = p_cut (mb_part b) ->
  calc_max_imbalance g t (mb_part b) = Ok (mb_bal b) -> (mb_found b = true <-> balanced t (mb_part b)) ->
  mfold (fun best i => do! p := bis t g in lift (multi_consider t g i best p)) b (seq (S n) (length ps2)) s = Ok (r, s') -> chosen g t (ps ++ ps2) (mb_part r).
Proof.
  intros Hf Hm. induction ps2 as [|p ps2 IH]; intros n s s' ps b r HR HF HC H1 H2 H3 E; inversion HR; subst.
  - cbn [length mfold] in E. change (seq (S n) 0) with (@nil nat) in E. cbn [mfold] in E. injection E as <-. by rewrite app_nil_r.
  - cbn [length] in E. change (seq (S n) (S (length ps2))) with (S n :: seq (S (S n)) (length ps2)) in E. cbn [mfold] in E.
    apply mbind_inv in E as (b1 & s1 & E1 & E). apply mbind_inv in E1 as (q & s2 & Eq & E1). match goal with H : bis t g s = Ok (p, _) |- _ => rewrite H in Eq end. injection Eq as <- <-. apply lift_inv in E1 as [E1 ->].
    pose proof (HF p ltac:(by left)) as Hp. unfold multi_consider in E1.
    destruct (calc_max_imbalance_ok g t p ltac:(lia)) as [x Hx]. rewrite Hx in E1. cbn [obind] in E1.
    destruct (bal_case t Hf Hm p Hp) as (isb & Ei & HB). rewrite Ei in E1. cbn [obind] in E1. injection E1 as E1.
    replace (ps ++ p :: ps2) with ((ps ++ [p]) ++ ps2) by (rewrite <- app_assoc; done).
    unfold multi_accept in E1. cbn [Nat.eqb orb] in E1.
    set (a := (negb (mb_found b) && flt x (mb_bal b)) || (mb_found b && isb && (p_cut p <? mb_cut b)%Z)) in E1.
    assert (Ha : a = true <-> takes_over g t p (mb_part b)).
    { unfold a. rewrite orb_true_iff, !andb_true_iff, negb_true_iff, Z.ltb_lt, HB, H1.
      assert (Hnf : mb_found b = false <-> ~ balanced t (mb_part b)) by (rewrite <- H3; destruct (mb_found b); split; congruence).
      rewrite H3, Hnf. split.
      - intros Hc. exists (mb_bal b), x. tauto.
      - intros (y & y' & Ey & Ey' & Hc). rewrite H2 in Ey. rewrite Hx in Ey'. injection Ey as <-. injection Ey' as <-. tauto. }
    eapply (IH (S n) _ s' (ps ++ [p]) b1 r); try done; [intros q Hq; apply HF; by right|..]; subst b1.
    all: destruct a; cbn [mb_part mb_cut mb_bal mb_found]; try done.
    + eapply chosen_later; [exact HC|]. by apply Ha.
    + apply chosen_stays; [done|]. intros Ht. apply Ha in Ht. done.
    + rewrite orb_true_iff, H3, HB. split; [|tauto]. intros [Hb|Hb]; [|done]. destruct (proj1 Ha eq_refl) as (_ & _ & _ & _ & [[? _]|(_ & ? & _)]); done.
Qed.
Theorem C35_exact_rule : forall bis t g n s p s', length (t_frac t) = 2 -> length (t_max t) = 2 -> (1 <= n)%Z ->
  (forall s q s', bis t g s = Ok (q, s') -> length (p_pw q) = 2) ->
  multi_execute n bis t g s = Ok (p, s') ->
  exists ps, Z.of_nat (length ps) = n /\ runs bis t g s ps s' /\ chosen g t ps p.
Proof.
  intros bis t g n s p s' Hf Hm Hn HB E. destruct (multi_has_runs bis t g n s p s' E) as (ps & HL & HR). exists ps. split; [lia|]. split; [done|].
  assert (HV : forall q, q ∈ ps -> length (p_pw q) = 2).
  { clear HL E. induction HR; intros q Hq; [set_solver|]. apply elem_of_cons in Hq as [->|Hq]; eauto. }
  unfold multi_execute in E. replace (Z.to_nat n) with (length ps) in E by lia. destruct ps as [|q ps]; [simpl in HL; lia|].
  inversion HR; subst. cbn [length] in E. change (seq 0 (S (length ps))) with (0 :: seq 1 (length ps)) in E. cbn [mfold] in E.
  apply mbind_inv in E as (r & s2 & E & E2). injection E2 as <- <-.
  apply mbind_inv in E as (b1 & s1 & E1 & E). apply mbind_inv in E1 as (q1 & s3 & Eq & E1). match goal with H : bis t g s = Ok (q, _) |- _ => rewrite H in Eq end. injection Eq as <- <-. apply lift_inv in E1 as [E1 ->].
  pose proof (HV q ltac:(by left)) as Hp. unfold multi_consider in E1.
  destruct (calc_max_imbalance_ok g t q ltac:(lia)) as [x Hx]. rewrite Hx in E1. cbn [obind] in E1.
  destruct (bal_case t Hf Hm q Hp) as (isb & Ei & HI). rewrite Ei in E1. cbn [obind multi_accept Nat.eqb orb mb_found] in E1. injection E1 as <-.
  eapply (chosen_fold g t bis ps Hf Hm 0 _ _ [q] (mkBest q (p_cut q) x isb) r); try done; [intros q' Hq; apply HV; by right|constructor].
Qed.
Print Assumptions C35_exact_rule.
Example C35_nonvacuous : even_target ex33_t /\ wf_graph ex /\ light ex /\
  (forall s q s', bfs_execute ex33_t ex s = Ok (q, s') -> valid_part 2 ex q) /\
  exists p s', multi_execute 3 bfs_execute ex33_t ex [1; 0; 0; 0; 0] = Ok (p, s') /\ exactb 2 ex p = true.
Proof.
  split; [apply et_weights; reflexivity|]. split; [exact ex_wf|]. split; [reflexivity|]. split.
  - intros s q s' E. pose proof (C33_bfs_bisection ex ex33_t s ex_wf eq_refl ex33_two ltac:(vm_compute; lia) ltac:(vm_compute; discriminate)) as H.
    rewrite E in H. exact (proj1 H).
  - eexists _, _. split; [vm_compute; reflexivity|]. vm_compute. reflexivity.
Qed.
(** Unequal maxima: the unbalanced candidate 11|9 is kept although 5|15 is balanced with a
    smaller cut (targets 10/10, maxima 10/20). *)
Definition ex35 : graph := the_graph [0; 1; 3; 4] [1; 0; 2; 1] (Some [5; 6; 9]%Z) (Some [1; 1; 2; 2]%Z).
Definition ex35_t : target := target_of_weights [10; 10]%Z [10; 20]%Z.
Definition ex35_bis : bisector := fun _ _ s =>
  match s with
  | [] => Ok (mkPart 2 [11; 9]%Z [Some 0; Some 0; Some 1], [1])
  | _ => Ok (mkPart 1 [5; 15]%Z [Some 0; Some 1; Some 1], [1])
  end.
Theorem C35_asymmetric_refuted : exists g bis t p q s', wf_graph g /\ symmetric g /\ light g /\
  (forall s p s', bis t g s = Ok (p, s') -> exact_part 2 g p) /\ runs bis t g [] [p; q] s' /\
  multi_execute 2 bis t g [] = Ok (p, s') /\ ~ balanced t p /\ balanced t q /\ (p_cut q < p_cut p)%Z.
Proof.
  exists ex35, ex35_bis, ex35_t, (mkPart 2 [11; 9]%Z [Some 0; Some 0; Some 1]), (mkPart 1 [5; 15]%Z [Some 0; Some 1; Some 1]), [1].
  split; [apply (the_graph_wf 3); reflexivity|]. split; [apply symb_sound; reflexivity|]. split; [reflexivity|].
  split; [intros [|] p s' [= <- <-]; apply exactb_sound; vm_compute; reflexivity|].
  split; [repeat econstructor|]. split; [vm_compute; reflexivity|].
  split; [intros H; specialize (H 0 ltac:(simpl; lia)); vm_compute in H; apply H; reflexivity|].
  split; [intros [|[|i]] Hi; [vm_compute; discriminate|vm_compute; discriminate|simpl in Hi; lia]|]. reflexivity.
Qed.
Print Assumptions C35_asymmetric_refuted.

(** ** C31 without the monotonicity hypothesis, for two equal targets. *)
Theorem C31_never_worse_even : forall g t c p maxIters maxMoves cs c' p' cs',
  wf_graph g -> symmetric g -> loopless g -> fits g -> light g -> even_target t ->
  exact_part 2 g p -> conn_exact g (lab p) c -> border_exact g (lab p) c ->
  fm_refine maxIters maxMoves g t c p cs = Ok ((c', p'), cs') -> no_worse g t p p'.
Proof.
  intros g t c p mi mm cs c' p' cs' Hwf Hs Hl Hf Hli He Hp Hc Hb E. apply even_target_even in He.
  destruct (even_lengths t He) as [Hlf Hlm].
  destruct (max_bad_moves mm (nv g)) as [mb|] eqn:Hmb; [|unfold fm_refine in E; rewrite Hmb in E; discriminate].
  pose proof (wpm_elim _ anyf _ _ _ _ (fm_refine_wp g Hwf Hs Hl Hf t ltac:(lia) ltac:(lia) anyf mi mm c p mb Hmb Hp Hc Hb) E) as (_ & _ & _ & A).
  apply no_worse_rtc; try done; try lia. by apply even_monotone.
Qed.
Print Assumptions C31_never_worse_even.
