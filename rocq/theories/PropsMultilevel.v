(** * PropsMultilevel: property theorems about the multilevel hierarchy (C38, C48, C50) and
    multilevel termination (C09).

    [wpm m E P] (Logic.v): for every random stream, m either ends with a result satisfying P
    or fails with a failure satisfying E; in particular with E = [never] it always succeeds.
    [undirected], [level], [coarsening], [ml_good]: MultilevelFacts.v. *)
From Coq Require Import ZArith Reals Floats.SpecFloat Psatz.
From Flocq Require Import Core.Core IEEE754.BinarySingleNaN.
From Verif Require Import Base F64 ModelGraph ModelPartition ModelConn ModelFM ModelAgg ModelMultilevel ModelBisect Spec Logic Sums
  GraphFacts PartFacts ConnFacts FMFacts MiscFacts FloatFacts FloatUse BisectFacts EvenFacts MultilevelFacts AggFacts Examples.
#[local] Arguments seq : simpl nomatch.

(** ** C38: stopping criteria. *)
Theorem C38_vertex_number : forall N lvl fine coarse, exists b,
  vertex_number_stop N lvl fine (Some coarse) = Ok b /\ (b = true <-> nv coarse <= N).
Proof. intros N lvl fine coarse. eexists. split; [reflexivity|]. apply Nat.leb_le. Qed.
Print Assumptions C38_vertex_number.

Lemma isR_unique x a b : isR x a -> isR x b -> a = b.
Proof. intros (u & Hu & _ & <-) (v & Hv & _ & <-). f_equal. apply B2SF_inj. congruence. Qed.
Lemma r095_is : r095 = round radix2 (SpecFloat.fexp 53 1024) ZnearestE (19 / 20)%R.
Proof.
  apply (isR_unique f_0_95); [apply r095_R|].
  replace f_0_95 with (fdiv (f_of_Z 19) (f_of_Z 20)) by (vm_compute; reflexivity).
  apply div_R; [apply f_of_Z_R; simpl; lia|apply f_of_Z_R; simpl; lia|lra|apply (no_overflow _ 1); [simpl; lia|apply Rabs_le; lra]].
Qed.
Lemma ratio_exact a b : (Z.of_nat a < W32)%Z -> (Z.of_nat b < W32)%Z -> 0 < b ->
  fgt (fdiv (f_of_nat a) (f_of_nat b)) f_0_95 = true <-> 19 * b < 20 * a.
Proof.
  intros Ha Hb Hb0.
  assert (0 <= Z.of_nat a < W32)%Z as HA by lia. assert (0 <= Z.of_nat b < W32)%Z as HB by lia.
  pose proof (f_of_Z_R _ (W32_lt_53 _ HA)) as RA. pose proof (f_of_Z_R _ (W32_lt_53 _ HB)) as RB.
  pose proof (IZR_W32 _ HA) as [A0 A1]. pose proof (IZR_W32 _ HB) as [B0 B1]. rewrite W32_R in *.
  assert (1 <= IZR (Z.of_nat b))%R as B2 by (apply (IZR_le 1); lia).
  set (x := IZR (Z.of_nat a)) in *. set (y := IZR (Z.of_nat b)) in *.
  assert (0 < / y <= 1)%R as Hi. { split; [apply Rinv_0_lt_compat; lra|]. rewrite <- Rinv_1. apply Rinv_le_contravar; lra. }
  assert (/ 4294967296 <= / y)%R as Hi2 by (apply Rinv_le_contravar; lra).
  assert (y * / y = 1)%R as Hyy by (apply Rinv_r; lra).
  assert (0 <= x / y <= IZR 4294967295)%R as HQ by (unfold Rdiv; split; nra).
  pose proof (div_R _ _ _ _ RA RB ltac:(lra) ltac:(apply (no_overflow _ 4294967295); [simpl; lia|apply Rabs_le; lra])) as RD.
  unfold fgt, f_of_nat. fold (flt f_0_95 (fdiv (f_of_Z (Z.of_nat a)) (f_of_Z (Z.of_nat b)))).
  rewrite (flt_R _ _ _ _ r095_R RD). split.
  - intros H. destruct (Nat.lt_ge_cases (19 * b) (20 * a)) as [|Hge]; [done|exfalso]. rewrite Rlt_bool_false in H; [done|].
    rewrite r095_is. apply rnd_le. assert (20 * x <= 19 * y)%R as HZ.
    { unfold x, y. rewrite <- !mult_IZR. apply IZR_le. lia. } unfold Rdiv. nra.
  - intros Hlt. apply Rlt_bool_true. assert (19 * y + 1 <= 20 * x)%R as HZ.
    { unfold x, y. rewrite <- !mult_IZR, <- plus_IZR. apply IZR_le. lia. }
    destruct (Rle_or_lt 1 (x / y)) as [H1|H1].
    + pose proof (rnd_ge_int (x / y) 1 ltac:(simpl; lia) H1). pose proof r095_bound. lra.
    + pose proof (rnd_near (x / y) ltac:(apply Rabs_le; lra)) as HN.
      pose proof (rnd_near (19 / 20) ltac:(apply Rabs_le; lra)) as HN2. rewrite <- r095_is in HN2.
      assert (19 / 20 + / 85899345920 <= x / y)%R by (unfold Rdiv; nra). unfold eps in *. lra.
Qed.
(** The edge-ratio criterion with the ratio 0.95 of the multilevel bisector, exactly. *)
Theorem C38_edge_ratio_095 : forall lvl fine coarse, (Z.of_nat (ne fine) < W32)%Z -> (Z.of_nat (ne coarse) < W32)%Z ->
  exists b, edge_ratio_stop f_0_95 lvl (Some fine) (Some coarse) = Ok b /\
    (b = true <-> ne coarse = 0 \/ ne fine = 0 \/ 19 * ne fine < 20 * ne coarse).
Proof.
  intros lvl fine coarse Hf Hc. unfold edge_ratio_stop. rewrite bool_decide_false, andb_false_r by done.
  destruct (Nat.eqb_spec (ne coarse) 0) as [H0|H0]; [exists true; tauto|].
  destruct (Nat.eqb_spec (ne fine) 0) as [H1|H1]; [exists true; tauto|].
  eexists. split; [reflexivity|]. rewrite ratio_exact by (try done; lia). split; [tauto|]. intros [?|[?|?]]; done.
Qed.
Print Assumptions C38_edge_ratio_095.
(** Any ratio; without a finer graph the criterion stops only on an edgeless graph, and beyond
    level 0 it insists on one. *)
Theorem C38_edge_ratio : forall r lvl fine coarse,
  edge_ratio_stop r lvl None (Some coarse) = (if decide (lvl = 0) then Ok (bool_decide (ne coarse = 0)) else Fail (Throw RuntimeError)) /\
  edge_ratio_stop r lvl (Some fine) (Some coarse) =
    Ok (bool_decide (ne coarse = 0 \/ ne fine = 0) || flt r (fdiv (f_of_nat (ne coarse)) (f_of_nat (ne fine)))) /\
  edge_ratio_stop r lvl (Some fine) None = Fail (Throw RuntimeError).
Proof.
  intros r lvl fine coarse. unfold edge_ratio_stop. split; [|split].
  - rewrite bool_decide_true, andb_true_r by done. destruct lvl; simpl; [|done].
    destruct (Nat.eqb_spec (ne coarse) 0); [rewrite bool_decide_true by done|rewrite bool_decide_false by done]; done.
  - rewrite bool_decide_false, andb_false_r by done. destruct (Nat.eqb_spec (ne coarse) 0); [rewrite bool_decide_true by tauto; done|].
    destruct (Nat.eqb_spec (ne fine) 0); [rewrite bool_decide_true by tauto; done|]. rewrite bool_decide_false by tauto. done.
  - rewrite bool_decide_false, andb_false_r by done. done.
Qed.
Print Assumptions C38_edge_ratio.
(** Ratios outside (0,1) are rejected at construction. *)
Theorem C38_ratio_checked : forall r, (exists x, edge_ratio_make r = Ok x) -> fle r f_zero = false /\ fle f_one r = false.
Proof. intros r [x H]. unfold edge_ratio_make, fge in H. fold (fle f_one r) in H. destruct (fle r f_zero), (fle f_one r); done. Qed.
Print Assumptions C38_ratio_checked.
Theorem C38_composite : forall cs lvl fine coarse,
  (forall c, c ∈ cs -> exists b, c lvl fine coarse = Ok b) ->
  exists b, composite_stop cs lvl fine coarse = Ok b /\ (b = true <-> exists c, c ∈ cs /\ c lvl fine coarse = Ok true).
Proof.
  intros cs lvl fine coarse. induction cs as [|c cs IH]; intros H; cbn [composite_stop].
  - exists false. split; [done|]. split; [done|]. intros (c & Hc & _). set_solver.
  - destruct (H c ltac:(set_solver)) as [b Eb]. rewrite Eb. cbn [obind]. destruct b.
    + exists true. split; [done|]. split; [|done]. intros _. exists c. split; [set_solver|done].
    + destruct IH as (b & E & HB). { intros c' Hc'. apply H. set_solver. }
      exists b. split; [done|]. rewrite HB. split.
      * intros (c' & Hc' & E'). exists c'. split; [set_solver|done].
      * intros (c' & [->|Hc']%elem_of_cons & E'); [congruence|]. exists c'. done.
Qed.
Print Assumptions C38_composite.
Example C38_nonvacuous : ne ex = 8 /\ edge_ratio_stop f_0_95 1 (Some ex) (Some ex) = Ok true /\
  composite_stop [vertex_number_stop 3; edge_ratio_stop f_0_95] 0 None (Some ex) = Ok false /\ edge_ratio_make f_0_95 = Ok f_0_95.
Proof. repeat split; vm_compute; reflexivity. Qed.

(** ** C50: every graph of a hierarchy. *)
Theorem C50_levels_valid : forall g0 g cm, undirected g0 -> level g0 g cm ->
  wf_graph g /\ symmetric g /\ loopless g /\ fits g /\ g_tvw g = g_tvw g0 /\ nv g <= nv g0 /\ ne g <= ne g0 /\
  (forall v, v < nv g0 -> cm v < nv g) /\
  (forall f : nat -> option nat, edge_cut g f = edge_cut g0 (fun v => f (cm v))) /\
  (forall (f : nat -> option nat) x, u32 (label_weight g f x) = u32 (label_weight g0 (fun v => f (cm v)) x)) /\
  (light g0 -> sumn (nv g) (vweight g) = sumn (nv g0) (vweight g0) /\
     forall (f : nat -> option nat) x, label_weight g f x = label_weight g0 (fun v => f (cm v)) x).
Proof.
  intros g0 g cm H0 HL. pose proof (level_inv g0 g cm H0 HL) as [[A1 A2 A3 A4] B Hne Hnv C D F G].
  repeat (split; [done|]). intros Hli. split; [auto|]. intros f x.
  pose proof (F f x) as HE. rewrite (light_u32 g f x A1 ltac:(by eapply level_light)) in HE.
  rewrite (light_u32 g0 (fun v => f (cm v)) x (ud_wf _ H0) Hli) in HE. done.
Qed.
Print Assumptions C50_levels_valid.
(** The graphs the multilevel bisector visits are such levels: the aggregators of the library
    deliver coarsenings. *)
Theorem C50_library_descends : forall scheme agg g maxW s, aggregator_make scheme = Ok agg -> wf_graph g -> loopless g ->
  exists a s', agg maxW g s = Ok (a, s') /\ coarsening (nv g) a.
Proof. intros scheme agg g maxW s E Hwf Hl. apply wpm_never. by eapply aggregator_make_wp. Qed.
Print Assumptions C50_library_descends.
Lemma ex_undirected : undirected ex.
Proof. split; [exact ex_wf|exact ex_sym|exact ex_loopless|exact ex_fits]. Qed.
Example C50_nonvacuous : undirected ex /\ exists g cm, level ex g cm /\ nv g = 2 /\ g <> ex.
Proof.
  split; [exact ex_undirected|].
  destruct (C50_library_descends 1 shemrm_aggregate ex 100 [1; 1; 0; 0] eq_refl ex_wf ex_loopless) as (a & s' & E & Ha).
  vm_compute in E. injection E as <- <-. eexists _, _. split; [|split].
  - eapply level_down; [apply level_top|exact Ha|vm_compute; reflexivity].
  - reflexivity.
  - intros H. apply (f_equal nv) in H. vm_compute in H. discriminate.
Qed.

(** ** C48: any components.  E collects the failures the components may have. *)
Theorem C48_any_components : forall g0 agg init ref t maxW (E : failure -> Prop), undirected g0 -> (Z.of_nat (ne g0) < W32)%Z ->
  ml_max_weight g0 = Ok maxW ->
  (forall g cm, level g0 g cm -> wpm (agg maxW g) E (coarsening (nv g))) ->
  (forall g cm, level g0 g cm -> wpm (init t g) E (exact_part 2 g)) ->
  (forall g cm c p, level g0 g cm -> ml_good g (c, p) -> wpm (ref g t c p) E (ml_good g)) ->
  wpm (ml_execute agg init ref t g0) E (exact_part 2 g0).
Proof. intros g0 agg init ref t maxW E H0 Hne HW Ha Hi Hr. by apply (ml_execute_wp g0 H0 Hne agg init ref t maxW E Ha Hi Hr). Qed.
Print Assumptions C48_any_components.
(** The library's own components meet these hypotheses: with a vertex weight array, multilevel
    bisection always succeeds; without one, the only failure is the read of the absent array. *)
Theorem C48_library : forall g0 t scheme agg s, undirected g0 -> (Z.of_nat (ne g0) < W32)%Z -> (Z.of_nat (nv g0) < W32)%Z -> 0 < nv g0 ->
  two_way t -> aggregator_make scheme = Ok agg ->
  match ml_execute agg (multi_execute 8 bfs_execute) (fm_refine 8 150) t g0 s with
  | Ok (p, _) => exact_part 2 g0 p
  | Fail f => f = UB NoWeights /\ g_uvw g0 = true /\ g_vw g0 = []
  end.
Proof.
  intros g0 t scheme agg s H0 Hne Hnv Hn Ht E.
  pose proof (library_bfs_wp g0 H0 Hne Hnv Hn t Ht scheme agg 8 8 150 E ltac:(lia) s) as H.
  destruct (ml_execute agg (multi_execute 8 bfs_execute) (fm_refine 8 150) t g0 s) as [[p s']|f]; exact H.
Qed.
Print Assumptions C48_library.
Definition ex33_t' : target := target_of_weights [24; 24]%Z [26; 26]%Z.
(** A cycle of 24 vertices (coarsened at least once), weights 1..3. *)
Definition ring (n : nat) : graph :=
  the_graph ((fun v => 2 * v) <$> seq 0 (S n)) (seq 0 n ≫= fun v => [(v + n - 1) mod n; (v + 1) mod n])
    (Some ((fun v => Z.of_nat (1 + v mod 3)) <$> seq 0 n)) None.
Lemma ring24 : undirected (ring 24).
Proof.
  split; [apply (the_graph_wf 24); vm_compute; reflexivity|apply symb_sound; vm_compute; reflexivity|
    apply looplessb_sound; vm_compute; reflexivity|eapply fits_compute; vm_compute; reflexivity].
Qed.
Example C48_nonvacuous : undirected (ring 24) /\ two_way ex33_t' /\
  exists p s', ml_execute shemrm_aggregate (multi_execute 8 bfs_execute) (fm_refine 8 150) ex33_t' (ring 24) [] = Ok (p, s') /\ exactb 2 (ring 24) p = true.
Proof.
  split; [exact ring24|]. split; [split; reflexivity|]. eexists _, _. split; [vm_compute; reflexivity|]. vm_compute. reflexivity.
Qed.
