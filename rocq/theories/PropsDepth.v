(** * PropsDepth: how deep the multilevel recursion goes (C61). *)
From Coq Require Import ZArith Reals Floats.SpecFloat Psatz.
From Verif Require Import Base F64 ModelGraph ModelPartition ModelConn ModelFM ModelAgg ModelMultilevel ModelBisect Spec Logic Sums
  GraphFacts AggFacts ContractFacts MultilevelFacts Examples PropsMultilevel PropsBalance.
Local Open Scope nat_scope.
Local Close Scope R_scope.
#[local] Arguments seq : simpl nomatch.

(** ** C61.  [visited … lvl par gs]: the multilevel bisector working on the first graph of gs at the
    given level below the graph par may go down through all the graphs of gs: it does not stop at any
    of them but the last, and each is contracted by an aggregation the aggregator may return. *)
Inductive visited (agg : aggregator) (stop : criteria) (maxW : Z) : nat -> option graph -> list graph -> Prop :=
  | v_here lvl par g : visited agg stop maxW lvl par [g]
  | v_down lvl par g s a s' cg gs : stop lvl par (Some g) = Ok false -> agg maxW g s = Ok (a, s') -> contract g a = Ok cg ->
      visited agg stop maxW (S lvl) (Some g) (cg :: gs) -> visited agg stop maxW lvl par (g :: cg :: gs).
(** The edges of all the graphs of a list. *)
Definition edges_of (gs : list graph) : nat := list_sum (ne <$> gs).

Lemma step_down scheme agg maxW g s a s' cg : aggregator_make scheme = Ok agg -> undirected g -> agg maxW g s = Ok (a, s') -> contract g a = Ok cg ->
  undirected cg /\ ne cg <= ne g.
Proof.
  intros Hagg Hu E1 E2. pose proof Hu as [Hwf Hs Hl Hf].
  pose proof (wpm_elim _ _ _ _ _ _ (aggregator_make_wp scheme agg never g maxW Hagg Hwf Hl) E1) as Hco.
  pose proof (level_inv g cg _ Hu (level_down _ _ _ _ _ (level_top g) Hco E2)) as HLo. split; [exact (lo_ud _ _ _ HLo)|exact (lo_ne _ _ _ HLo)].
Qed.
Definition ml_stop : criteria := composite_stop [vertex_number_stop 20; edge_ratio_stop f_0_95].
Lemma goes_on lvl par g : ml_stop lvl par (Some g) = Ok false -> (Z.of_nat (ne g) < W32)%Z ->
  20 < nv g /\ 0 < ne g /\ forall p, par = Some p -> (Z.of_nat (ne p) < W32)%Z -> 20 * ne g <= 19 * ne p.
Proof.
  unfold ml_stop. cbn [composite_stop]. unfold vertex_number_stop. cbn [obind]. destruct (Nat.leb_spec (nv g) 20) as [?|Hn]; [done|]. intros H Hg.
  split; [done|]. destruct par as [p|].
  - destruct (Z.ltb_spec (Z.of_nat (ne p)) W32) as [Hp|Hp].
    + destruct (C38_edge_ratio_095 lvl p g Hp Hg) as (b & Eb & Hb). rewrite Eb in H. cbn [obind] in H. destruct b; [done|].
      assert (Hno : ~ (ne g = 0 \/ ne p = 0 \/ 19 * ne p < 20 * ne g)) by (rewrite <- Hb; done). split; [lia|]. intros q [= <-] _. lia.
    + split; [|intros q [= <-]; lia]. unfold edge_ratio_stop in H. rewrite bool_decide_false, andb_false_r in H by done.
      destruct (Nat.eqb_spec (ne g) 0); [done|lia].
  - split; [|done]. unfold edge_ratio_stop in H. destruct (_ && _); [done|]. destruct (Nat.eqb_spec (ne g) 0); [done|lia].
Qed.
Lemma visited_bound scheme agg maxW : aggregator_make scheme = Ok agg -> forall lvl par gs, visited agg ml_stop maxW lvl par gs ->
  forall g gs', gs = g :: gs' -> undirected g -> (Z.of_nat (ne g) < W32)%Z ->
  edges_of gs <= 21 * ne g /\ (forall h, h ∈ gs -> ne h <= ne g) /\
  (gs' <> [] -> (20 ^ Z.of_nat (length gs' - 1) <= 19 ^ Z.of_nat (length gs' - 1) * Z.of_nat (ne g))%Z).
Proof.
  intros Hagg lvl par gs HV. induction HV as [lvl par g|lvl par g s a s' cg gs Hst Ea Ec HV IH]; intros g1 gs' [= <- <-] Hu Hn.
  - unfold edges_of. cbn. split; [lia|]. split; [|done]. intros h Hh. apply elem_of_list_singleton in Hh as ->. done.
  - destruct (step_down _ _ _ _ _ _ _ _ Hagg Hu Ea Ec) as [Hu' Hle]. destruct (IH cg gs eq_refl Hu' ltac:(lia)) as (I1 & I2 & I3).
    destruct (goes_on _ _ _ Hst Hn) as (_ & Hpos & _).
    destruct gs as [|h gs].
    + unfold edges_of in *. cbn in *. split; [lia|]. split; [|intros _; cbn; lia].
      intros h Hh. apply elem_of_cons in Hh as [->|Hh]; [lia|]. apply elem_of_list_singleton in Hh as ->. lia.
    + assert (H20 : 20 * ne cg <= 19 * ne g).
      { inversion HV as [|? ? ? ? ? ? ? ? Hst2]; subst. destruct (goes_on _ _ _ Hst2 ltac:(lia)) as (_ & _ & HR). by apply HR. }
      split; [|split].
      * change (edges_of (g :: cg :: h :: gs)) with (ne g + edges_of (cg :: h :: gs)). lia.
      * intros x Hx. apply elem_of_cons in Hx as [->|Hx]; [lia|]. specialize (I2 x Hx). lia.
      * intros _. specialize (I3 ltac:(done)). cbn [length] in *.
        replace (S (S (length gs)) - 1) with (S (length gs)) by lia. replace (S (length gs) - 1) with (length gs) in I3 by lia.
        rewrite Nat2Z.inj_succ, !Z.pow_succ_r by lia.
        assert (H19 : (0 < 19 ^ Z.of_nat (length gs))%Z) by (apply Z.pow_pos_nonneg; lia). set (P := (19 ^ Z.of_nat (length gs))%Z) in *.
        pose proof (Z.mul_le_mono_nonneg_l (20 * Z.of_nat (ne cg)) (19 * Z.of_nat (ne g)) P ltac:(lia) ltac:(lia)) as H1. lia.
Qed.
Lemma pow433 d n m : 433 <= d -> (0 <= n)%Z -> (0 <= m <= W32)%Z -> (20 ^ Z.of_nat d * n <= 19 ^ Z.of_nat d * m)%Z -> n = 0%Z.
Proof.
  intros Hd Hn Hm H. destruct (decide (n = 0%Z)) as [|Hn0]; [done|exfalso]. assert (Hd' : exists e, d = 433 + e) by (exists (d - 433); lia). destruct Hd' as [e ->].
  rewrite Nat2Z.inj_add, !Z.pow_add_r in H by lia.
  assert (HB : (19 ^ Z.of_nat 433 * W32 < 20 ^ Z.of_nat 433)%Z) by (vm_compute; reflexivity).
  assert (P1 : (0 < 19 ^ Z.of_nat e)%Z) by (apply Z.pow_pos_nonneg; lia).
  assert (P2 : (19 ^ Z.of_nat e <= 20 ^ Z.of_nat e)%Z) by (apply Z.pow_le_mono_l; lia).
  assert (P3 : (0 < 19 ^ Z.of_nat 433)%Z) by (apply Z.pow_pos_nonneg; lia).
  set (A := (19 ^ Z.of_nat 433)%Z) in *. set (B := (20 ^ Z.of_nat 433)%Z) in *. set (a := (19 ^ Z.of_nat e)%Z) in *. set (b := (20 ^ Z.of_nat e)%Z) in *. clearbody A B a b.
  pose proof (Z.mul_le_mono_nonneg_l m W32 (A * a) ltac:(apply Z.mul_nonneg_nonneg; lia) ltac:(lia)) as Q1.
  pose proof (proj1 (Z.mul_lt_mono_pos_r a (A * W32) B P1) HB) as Q2. pose proof (Z.mul_le_mono_nonneg_l a b B ltac:(lia) P2) as Q3.
  pose proof (Z.mul_le_mono_nonneg_l 1 n (B * b) ltac:(apply Z.mul_nonneg_nonneg; lia) ltac:(lia)) as Q4. lia.
Qed.
Theorem C61_depth : forall scheme agg maxW g gs stop, aggregator_make scheme = Ok agg -> undirected g -> (Z.of_nat (ne g) < W32)%Z -> ml_criteria = Ok stop ->
  visited agg stop maxW 0 None (g :: gs) ->
  (* at most one level more than the logarithm of the edges to base 20/19; never more than 433 *)
  (gs <> [] -> (20 ^ Z.of_nat (length gs - 1) <= 19 ^ Z.of_nat (length gs - 1) * Z.of_nat (ne g))%Z) /\
  length gs <= 433 /\
  (* all the levels together have at most 21 times the edges of the graph *)
  edges_of (g :: gs) <= 21 * ne g.
Proof.
  intros scheme agg maxW g gs stop Hagg Hu Hn Hst HV. rewrite ml_criteria_eq in Hst. injection Hst as <-.
  destruct (visited_bound scheme agg maxW Hagg _ _ _ HV g gs eq_refl Hu Hn) as (H1 & _ & H3). split; [done|]. split; [|done].
  destruct (decide (length gs <= 433)) as [|Hgt]; [done|exfalso]. specialize (H3 ltac:(destruct gs; [cbn in Hgt; lia|done])).
  assert (1%Z = 0%Z); [|done]. apply (pow433 (length gs - 1) 1 (Z.of_nat (ne g))); lia.
Qed.
Print Assumptions C61_depth.

(** The recursion itself: with whatever initial bisector and refiner, the recursion allowed 433 levels
    gives for every random stream what it gives when allowed any larger number of levels. *)
Definition reached (lvl : nat) (par : option graph) : Prop :=
  match par with
  | None => lvl = 0
  | Some p => exists l, lvl = S l /\ (Z.of_nat (ne p) < W32)%Z /\ (20 ^ Z.of_nat l * Z.of_nat (ne p) <= 19 ^ Z.of_nat l * W32)%Z
  end.
Lemma bind_ext {A B} (m : M A) (k k' : A -> M B) s : (forall a s', m s = Ok (a, s') -> k a s' = k' a s') -> mbindM m k s = mbindM m k' s.
Proof. intros H. unfold mbindM. destruct (m s) as [[a s']|f] eqn:E; [|done]. cbn. by apply H. Qed.
Lemma bind_ext_l {A B} (m m' : M A) (k : A -> M B) s : m s = m' s -> mbindM m k s = mbindM m' k s.
Proof. intros H. unfold mbindM. by rewrite H. Qed.
Lemma recurse_stable scheme agg maxW init ref t extra : aggregator_make scheme = Ok agg -> forall fuel lvl par g, reached lvl par -> undirected g ->
  (Z.of_nat (ne g) < W32)%Z -> 433 <= lvl + fuel -> forall s,
  ml_recurse agg init ref ml_stop maxW t fuel lvl par g s = ml_recurse agg init ref ml_stop maxW t (fuel + extra) lvl par g s.
Proof.
  intros Hagg. induction fuel as [|fuel IH]; intros lvl par g HR Hu Hn Hf s.
  - destruct (ml_stop lvl par (Some g)) as [[|]|f] eqn:Est.
    + destruct extra; cbn [ml_recurse Nat.add]; rewrite Est; done.
    + exfalso. destruct (goes_on _ _ _ Est Hn) as (_ & Hpos & HX). destruct par as [p|]; [|cbn in HR; lia].
      destruct HR as (l & -> & Hp & HQ). specialize (HX p eq_refl Hp).
      assert (Z.of_nat (ne g) = 0%Z); [|lia]. apply (pow433 (S l) _ W32); [lia|lia|unfold W32; lia|].
      rewrite Nat2Z.inj_succ, !Z.pow_succ_r by lia. assert (H20 : (0 < 20 ^ Z.of_nat l)%Z) by (apply Z.pow_pos_nonneg; lia).
      pose proof (Z.mul_le_mono_nonneg_l (20 * Z.of_nat (ne g)) (19 * Z.of_nat (ne p)) (20 ^ Z.of_nat l) ltac:(lia) ltac:(lia)). lia.
    + destruct extra; cbn [ml_recurse Nat.add]; rewrite Est; done.
  - change (S fuel + extra) with (S (fuel + extra)). cbn [ml_recurse]. apply bind_ext. intros b s1 E1. unfold lift in E1.
    destruct (ml_stop lvl par (Some g)) as [b'|] eqn:Est; [|done]. cbn in E1. injection E1 as <- <-. destruct b'; [done|].
    apply bind_ext. intros a s2 E2. apply bind_ext. intros cg s3 E3. unfold lift, coarse_make in E3. destruct (contract g a) as [c|] eqn:Ec; [|done]. cbn in E3.
    destruct (Nat.eqb _ _); [|done]. cbn in E3. injection E3 as <- <-. cbn [cg_coarse].
    destruct (step_down _ _ _ _ _ _ _ _ Hagg Hu E2 Ec) as [Hu' Hle].
    apply bind_ext_l. apply IH; [|done|lia|lia]. exists lvl. split; [done|]. split; [done|].
    destruct (goes_on _ _ _ Est Hn) as (_ & Hpos & HX). destruct par as [p|].
    + destruct HR as (l & -> & Hp & HQ). specialize (HX p eq_refl Hp). rewrite Nat2Z.inj_succ, !Z.pow_succ_r by lia.
      assert (H20 : (0 < 20 ^ Z.of_nat l)%Z) by (apply Z.pow_pos_nonneg; lia).
      pose proof (Z.mul_le_mono_nonneg_l (20 * Z.of_nat (ne g)) (19 * Z.of_nat (ne p)) (20 ^ Z.of_nat l) ltac:(lia) ltac:(lia)). lia.
    + cbn in HR. subst lvl. cbn. lia.
Qed.
Theorem C61_recursion_depth : forall scheme agg maxW init ref t g stop, aggregator_make scheme = Ok agg -> undirected g -> (Z.of_nat (ne g) < W32)%Z -> ml_criteria = Ok stop ->
  forall more s, ml_recurse agg init ref stop maxW t 433 0 None g s = ml_recurse agg init ref stop maxW t (433 + more) 0 None g s.
Proof.
  intros scheme agg maxW init ref t g stop Hagg Hu Hn Hst more s. rewrite ml_criteria_eq in Hst. injection Hst as <-.
  eapply recurse_stable; [done|done|done|done|lia].
Qed.
Print Assumptions C61_recursion_depth.
(** A cycle of 24 vertices is contracted, to 12 vertices. *)
Example C61_nonvacuous : undirected (ring 24) /\ (Z.of_nat (ne (ring 24)) < W32)%Z /\ exists stop g, ml_criteria = Ok stop /\
  visited rm_aggregate stop 100 0 None [ring 24; g] /\ nv g < 20.
Proof.
  split; [exact ring24|]. split; [vm_compute; reflexivity|]. eexists. eexists. split; [apply ml_criteria_eq|]. split.
  - eapply (v_down _ _ _ _ _ _ []); [vm_compute; reflexivity|vm_compute; reflexivity|vm_compute; reflexivity|constructor].
  - vm_compute. lia.
Qed.
