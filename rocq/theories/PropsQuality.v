(** * PropsQuality: what refinement adds to an initial bisection (C51, C52).

    [no_worse g t p q] (MiscFacts.v): if p is within the maxima of t then so is q and its cut is
    not larger; otherwise q is within the maxima, or has a smaller worst imbalance, or the same
    or smaller one and a cut that is not larger.  [undirected], [level] (a graph of the hierarchy
    over g0 with the map of vertices): MultilevelFacts.v.  [even_target]: PropsBisect.v. *)
From Coq Require Import ZArith.
From Verif Require Import Base F64 ModelGraph ModelPartition ModelConn ModelFM ModelAgg ModelMultilevel ModelBisect Spec Logic Sums
  GraphFacts PartFacts ConnFacts FMFacts MiscFacts FloatUse BisectFacts EvenFacts RandomFacts MultilevelFacts AggFacts Examples
  PropsBisect PropsMultilevel QualityFacts.
#[local] Arguments seq : simpl nomatch.

Lemma even_two_way t : even_target t -> two_way t.
Proof.
  intros [w tol t' H|w m H1 H2]; [|split; reflexivity].
  unfold target_uniform, target_of_fractions in H. destruct (check_fractions _ _ _) as [s|]; [|discriminate]. cbn [obind] in H.
  destruct (_ || _); [discriminate|]. simpl calc_target_weight in H. destruct (f_to_u32 _) as [x|]; [|discriminate]. cbn [obind] in H.
  simpl calc_max_weight in H. destruct (f_to_u32 _) as [m|]; [|discriminate]. cbn [obind] in H. injection H as <-. split; reflexivity.
Qed.

(** ** C51: multilevel bisection with FM never ends worse than the bisection its coarsest level
    started from, whatever aggregation scheme and initial bisector are used. *)
Theorem C51_refinement_keeps_quality : forall g0 t scheme agg init it mv s p s',
  undirected g0 -> light g0 -> (Z.of_nat (ne g0) < W32)%Z -> (Z.of_nat (nv g0) < W32)%Z -> even_target t ->
  aggregator_make scheme = Ok agg ->
  (forall g s p s', undirected g -> 0 < nv g0 -> 0 < nv g -> init t g s = Ok (p, s') -> exact_part 2 g p) ->
  0 < nv g0 -> ml_execute agg init (fm_refine it mv) t g0 s = Ok (p, s') ->
  exact_part 2 g0 p /\
  exists gc cm p0 s1 s2, level g0 gc cm /\ init t gc s1 = Ok (p0, s2) /\ exact_part 2 gc p0 /\
    (* q: the bisection of g0 that p0 stands for *)
    exists q, exact_part 2 g0 q /\ (forall v, v < nv g0 -> p_where q !! v = Some (lab p0 (cm v))) /\
      p_cut q = p_cut p0 /\ no_worse g0 t q p.
Proof.
  intros g0 t scheme agg init it mv s p s' H0 Hl Hne Hnv He Ha Hi Hn E. apply even_target_even in He.
  destruct (ml_max_weight_ok g0) as (mw & Emw & _).
  { rewrite (wf_tvw _ (ud_wf _ H0)). unfold u32. apply Z.mod_pos_bound. done. }
  assert (HW : wpm (ml_execute agg init (fm_refine it mv) t g0) anyf (fun p => exact_part 2 g0 p /\ stems g0 init t p)).
  { apply (ml_execute_stems g0 H0 Hne Hnv Hl agg init it mv t He mw anyf); [| |done].
    - intros g cm HL. pose proof (lo_ud _ _ _ (level_inv _ _ _ H0 HL)) as [Hwf Hs Hlp Hf]. by eapply aggregator_make_wp.
    - intros g cm HL s1. destruct (init t g s1) as [[q s2]|f] eqn:Eq; [|exact I]. simpl. eapply Hi; [|done| |done].
      + apply (lo_ud _ _ _ (level_inv _ _ _ H0 HL)).
      + by eapply level_nonempty. }
  destruct (wpm_elim _ _ _ _ _ _ HW E) as (HX & gc & cm & p0 & s1 & s2 & A & B & C & D).
  split; [done|]. exists gc, cm, p0, s1, s2. split; [done|]. split; [done|]. split; [done|].
  exists (pull g0 cm p0). split; [by eapply pull_exact|]. split; [intros v Hv; by apply pull_lab|]. split; [done|].
  apply (no_worse_ext g0 g0 t p0 p); done.
Qed.
Print Assumptions C51_refinement_keeps_quality.
(** With the components the library uses: the result is not worse than the best of eight grown
    bisections of some coarse graph. *)
Theorem C51_library : forall g0 t scheme agg s p s',
  undirected g0 -> light g0 -> (Z.of_nat (ne g0) < W32)%Z -> (Z.of_nat (nv g0) < W32)%Z -> even_target t ->
  aggregator_make scheme = Ok agg -> 0 < nv g0 ->
  ml_execute agg (multi_execute 8 bfs_execute) (fm_refine 8 150) t g0 s = Ok (p, s') ->
  exists gc cm p0 q s1 s2, level g0 gc cm /\ multi_execute 8 bfs_execute t gc s1 = Ok (p0, s2) /\
    exact_part 2 g0 q /\ (forall v, v < nv g0 -> p_where q !! v = Some (lab p0 (cm v))) /\ no_worse g0 t q p.
Proof.
  intros g0 t scheme agg s p s' H0 Hl Hne Hnv He Ha Hn E. pose proof (even_two_way t He) as Ht.
  assert (Htf : 2 <= length (t_frac t)) by (rewrite (tw_frac t Ht); done). assert (Htm : 2 <= length (t_max t)) by (rewrite (tw_max t Ht); done).
  destruct (C51_refinement_keeps_quality g0 t scheme agg (multi_execute 8 bfs_execute) 8 150 s p s' H0 Hl Hne Hnv He Ha) as (_ & gc & cm & p0 & s1 & s2 & A & B & C & q & D1 & D2 & D3 & D4); try done.
  - intros g s1 p1 s2 [Hwf Hs Hlp Hf] _ Hg E1.
    assert (HW : wpm (multi_execute 8 bfs_execute t g) anyf (exact_part 2 g)).
    { apply multi_execute_wp; try done; [|intros q Hq; apply Hq].
      eapply wpm_mono; [apply (bfs_execute_wp g Hwf t Ht); done|done|]. intros q Hq. by apply Hq. }
    exact (wpm_elim _ _ _ _ _ _ HW E1).
  - exists gc, cm, p0, q, s1, s2. done.
Qed.
Print Assumptions C51_library.
(** A cycle of 24 vertices: coarsened at least once, refined on the way back. *)
Example C51_nonvacuous : undirected (ring 24) /\ light (ring 24) /\ even_target ex33_t' /\
  exists p s', ml_execute shemrm_aggregate (multi_execute 8 bfs_execute) (fm_refine 8 150) ex33_t' (ring 24) [] = Ok (p, s') /\ balanced ex33_t' p.
Proof.
  split; [exact ring24|]. split; [vm_compute; reflexivity|]. split; [apply et_weights; reflexivity|].
  eexists _, _. split; [vm_compute; reflexivity|]. intros [|[|i]] Hi; [vm_compute; discriminate|vm_compute; discriminate|simpl in Hi; lia].
Qed.

(** ** C52: random bisection followed by FM refinement. *)
Theorem C52_random_fm : forall g t it s, undirected g -> (Z.of_nat (nv g) < W32)%Z -> two_way t -> 0 < nv g -> moderate g t ->
  exists p s', random_fm_execute it t g s = Ok (p, s') /\ exact_part 2 g p /\
    exists p1 s1, random_execute t g s = Ok (p1, s1) /\ exact_part 2 g p1 /\ (even_target t -> no_worse g t p1 p).
Proof.
  intros g t it s Hu Hnv Ht Hn (HT & H0 & H1). pose proof Hu as [Hwf Hs Hl Hf].
  assert (Htf : 2 <= length (t_frac t)) by (rewrite (tw_frac t Ht); done). assert (Htm : 2 <= length (t_max t)) by (rewrite (tw_max t Ht); done).
  pose proof (random_execute_exact g Hwf t Ht HT H0 H1 never Hn) as HR.
  destruct (random_execute t g s) as [[p1 s1]|f] eqn:E1; [|specialize (HR s); rewrite E1 in HR; done].
  assert (HR' : wpm (random_execute t g) never (fun p => exact_part 2 g p /\ True)).
  { eapply wpm_post; [exact HR|]. intros p Hp. split; [|done]. by apply (re_exact _ _ _ Hp). }
  (* start from the stream s itself *)
  pose proof (wpm_elim _ _ _ _ _ _ HR' E1) as [HX1 _].
  unfold random_fm_execute, mbindM at 1. rewrite E1. cbn [obind].
  assert (HW : wpm (mbindM (lift (from_partitioning g p1)) (fun c => mbindM (fm_refine it 1000 g t c p1) (fun r => ret (snd r)))) never
    (fun p => exact_part 2 g p /\ rtc (improves g t) p1 p)).
  { eapply wpm_bind; [apply wpm_lift; apply (from_partitioning_wp g Hwf Hf never p1); apply HX1|]. intros c [Hc1 Hc2].
    destruct (max_bad_moves_ok 1000 (nv g) Hnv) as [mb Hmb].
    eapply wpm_bind; [apply (fm_refine_wp g Hwf Hs Hl Hf t Htf Htm never it 1000 c p1 mb); try done; by apply fresh_exact|].
    intros r (A & B & C & D). apply wpm_ret. done. }
  destruct (wpm_never _ _ s1 HW) as (p & s' & Ep & HXp & HRp). exists p, s'. split; [exact Ep|]. split; [done|].
  exists p1, s1. split; [done|]. split; [done|]. intros He. apply even_target_even in He.
  apply no_worse_rtc; try done. apply even_monotone; try done. unfold light, W32. change (2^30)%Z with 1073741824%Z in HT. lia.
Qed.
Print Assumptions C52_random_fm.
Example C52_nonvacuous : undirected (ring 24) /\ two_way ex33_t' /\ moderate (ring 24) ex33_t' /\ even_target ex33_t' /\
  exists p p1 s1 s', random_execute ex33_t' (ring 24) (seq 3 40) = Ok (p1, s1) /\ random_fm_execute 8 ex33_t' (ring 24) (seq 3 40) = Ok (p, s') /\
    (p_cut p < p_cut p1)%Z.
Proof.
  split; [exact ring24|]. split; [split; reflexivity|]. split; [unfold moderate; vm_compute; intuition congruence|]. split; [apply et_weights; reflexivity|].
  eexists _, _, _, _. split; [vm_compute; reflexivity|]. split; [vm_compute; reflexivity|]. vm_compute. reflexivity.
Qed.
