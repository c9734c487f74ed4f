(** * PropsTarget: targets of the whole partitioning and of its bisections: C11, C36, C37. *)
From Coq Require Import ZArith Reals Floats.SpecFloat Psatz.
From Flocq Require Import Core.Core IEEE754.BinarySingleNaN.
From Verif Require Import Base F64 ModelGraph ModelPartition ModelRecursive Spec Logic Sums GraphFacts FloatFacts FloatUse EvenFacts RecFacts TargetFacts.
Local Open Scope Z_scope.
#[local] Arguments flt : simpl never.
#[local] Arguments fle : simpl never.

(** ** Specification *)
(** Sum of a list. *)
Definition total (l : list Z) : Z := foldr Z.add 0 l.

Lemma sum_take l : forall n, (n <= length l)%nat -> sumf (zat l) (seq 0 n) = total (take n l).
Proof.
  induction l as [|a l IH]; intros n Hn; cbn in Hn. { by replace n with 0%nat by lia. }
  destruct n as [|n]; [done|]. change (seq 0 (S n)) with (0 :: seq 1 n)%nat. rewrite <- fmap_S_seq.
  change (sumf (zat (a :: l)) (0%nat :: (S <$> seq 0 n))) with (a + sumf (zat (a :: l)) (S <$> seq 0 n)).
  cbn [take total foldr]. fold (total (take n l)). rewrite <- (IH n) by lia. f_equal.
  clear. assert (forall s, sumf (zat (a :: l)) (S <$> seq s n) = sumf (zat l) (seq s n)) as H; [|apply H].
  induction n as [|n IHn]; intros s; [done|]. change (seq s (S n)) with (s :: seq (S s) n). rewrite fmap_cons.
  change (zat (a :: l) (S s) + sumf (zat (a :: l)) (S <$> seq (S s) n) = zat l s + sumf (zat l) (seq (S s) n)). by rewrite IHn.
Qed.
Lemma total_split n l : total l = total (take n l) + total (drop n l).
Proof.
  revert n. induction l as [|a l IH]; intros n; [by rewrite take_nil, drop_nil|]. destruct n; [done|]. cbn. fold (total l) (total (take n l)) (total (drop n l)). rewrite (IH n). lia.
Qed.
Lemma low_total k l : length l = k -> low_sum k l = total (take (k / 2) l).
Proof. intros H. unfold low_sum. apply sum_take. pose proof (half_le k). lia. Qed.
Lemma high_total k l : length l = k -> high_sum k l = total (drop (k / 2) l).
Proof.
  intros H. pose proof (half_le k) as Hh. pose proof (sum_take l k ltac:(lia)) as E. rewrite take_ge in E by lia.
  replace k with (k / 2 + (k - k / 2))%nat in E at 1 by lia. rewrite seq_app, sumf_app in E. fold (low_sum k l) in E. cbn [Nat.add] in E. fold (high_sum k l) in E.
  rewrite (low_total k l H) in E. rewrite (total_split (k / 2) l) in E. lia.
Qed.

(** ** C11: the two sides of a bisection. *)
(** Target weights within their limits, limits below 2^32. *)
Definition targets_within_limits (t : target) : Prop :=
  length (t_max t) = length (t_wgt t) /\
  forall i w m, t_wgt t !! i = Some w -> t_max t !! i = Some m -> 0 <= w <= m /\ m < 2 ^ 32.
Theorem C11_bisection_targets : forall lg t bt, log2_spec lg -> (2 <= t_np t)%nat -> targets_within_limits t ->
  bisect_target t (tolerance_factor lg (t_np t)) = Ok bt ->
  let h := (t_np t / 2)%nat in
  (* each side's target is the sum of its parts' targets *)
  t_wgt bt = [total (take h (t_wgt t)); total (drop h (t_wgt t))] /\
  (* each side's limit lies between its target and the sum of its parts' limits *)
  exists ma mb, t_max bt = [ma; mb] /\
    total (take h (t_wgt t)) <= ma <= total (take h (t_max t)) /\ total (drop h (t_wgt t)) <= mb <= total (drop h (t_max t)) /\
    ma < 2 ^ 32 /\ mb < 2 ^ 32.
Proof.
  intros lg t bt Hlg Hk HS E h. pose proof (bisect_target_wp t _ HS (factor_unit lg _ Hlg Hk)) as H. rewrite E in H.
  destruct H as (ma & mb & -> & H). destruct HS as [HL _].
  rewrite !(low_total (t_np t)), !(high_total (t_np t)) in H by (unfold t_np; lia). fold h in H.
  cbn [t_wgt t_max target_of_weights]. rewrite (low_total (t_np t)), (high_total (t_np t)) by (unfold t_np; lia). fold h.
  split; [done|]. exists ma, mb. split; [done|]. exact H.
Qed.
Print Assumptions C11_bisection_targets.
(** The computation succeeds when the limits of each side sum below 2^32. *)
Theorem C11_succeeds : forall lg t, log2_spec lg -> (2 <= t_np t)%nat -> targets_within_limits t ->
  total (take (t_np t / 2) (t_max t)) < 2 ^ 32 -> total (drop (t_np t / 2) (t_max t)) < 2 ^ 32 ->
  exists bt, bisect_target t (tolerance_factor lg (t_np t)) = Ok bt.
Proof.
  intros lg t Hlg Hk HS H1 H2. pose proof (bisect_target_wp t _ HS (factor_unit lg _ Hlg Hk)) as H. destruct HS as [HL _].
  destruct (bisect_target t _) as [bt|f]; [by exists bt|]. destruct H as [_ H]. exfalso. apply H.
  rewrite (low_total (t_np t)), (high_total (t_np t)) by (unfold t_np; lia). done.
Qed.
Print Assumptions C11_succeeds.
(** The parts a side is split into get their own slice of the targets, so the side's target
    is the sum of the targets of the recursive call. *)
Theorem C11_recursion : forall lg t bt t0 t1, log2_spec lg -> (2 <= t_np t)%nat -> targets_within_limits t ->
  bisect_target t (tolerance_factor lg (t_np t)) = Ok bt ->
  sub_target t 0 (fst (half_sizes (t_np t))) = Ok t0 -> sub_target t (fst (half_sizes (t_np t))) (snd (half_sizes (t_np t))) = Ok t1 ->
  t_wgt bt = [total (t_wgt t0); total (t_wgt t1)] /\ t_wgt t = t_wgt t0 ++ t_wgt t1 /\ t_max t = t_max t0 ++ t_max t1 /\
  targets_within_limits t0 /\ targets_within_limits t1.
Proof.
  intros lg t bt t0 t1 Hlg Hk HS E E0 E1. destruct (C11_bisection_targets lg t bt Hlg Hk HS E) as [-> _].
  destruct HS as [HL HS]. pose proof (half_sizes_eq (t_np t)) as Hh. destruct (half_sizes (t_np t)) as [c0 c1]. injection Hh as -> ->.
  pose proof (half_le (t_np t)). cbn [fst snd] in *. unfold sub_target in E0, E1.
  destruct (_ || _); [done|]. injection E0 as <-. destruct (_ || _); [done|]. injection E1 as <-. cbn [t_wgt t_max target_of_weights].
  rewrite !drop_0. unfold t_np in *. rewrite !(take_ge (drop _ _)) by (rewrite drop_length; lia).
  split; [done|]. split; [by rewrite take_drop|]. split; [by rewrite take_drop|].
  split; (split; cbn [t_wgt t_max target_of_weights]).
  - rewrite !take_length. lia.
  - intros i w m H1 H2. apply lookup_take_Some in H1 as [H1 _], H2 as [H2 _]. by eapply HS.
  - rewrite !drop_length. lia.
  - intros i w m H1 H2. rewrite lookup_drop in H1, H2. by eapply HS.
Qed.
Print Assumptions C11_recursion.
(** Without the bound the conversion back to 32 bits is undefined. *)
Theorem C11_overflow_refuted : exists t, (2 <= t_np t)%nat /\ targets_within_limits t /\
  forall lg, log2_spec lg -> bisect_target t (tolerance_factor lg (t_np t)) = Fail (UB FloatCast).
Proof.
  exists (target_of_weights [2147483648; 2147483648; 0; 0] [2147483648; 2147483648; 0; 0]).
  assert (HS : targets_within_limits (target_of_weights [2147483648; 2147483648; 0; 0] [2147483648; 2147483648; 0; 0])).
  { split; [done|]. intros [|[|[|[|i]]]] w m H1 H2; cbn in H1, H2; try done; injection H1 as <-; injection H2 as <-; split; done. }
  split; [cbn; lia|]. split; [done|]. intros lg Hlg.
  pose proof (bisect_target_wp _ (tolerance_factor lg 4) HS (factor_unit lg 4 Hlg ltac:(lia))) as H.
  change (t_np (target_of_weights [2147483648; 2147483648; 0; 0] [2147483648; 2147483648; 0; 0])) with 4%nat in *. destruct (bisect_target _ (tolerance_factor lg 4)) as [bt|f]; [|by destruct H as [-> _]].
  exfalso. destruct H as (ma & mb & _ & H1 & _ & H2 & _). change (low_sum 4 (t_wgt (target_of_weights [2147483648; 2147483648; 0; 0] [2147483648; 2147483648; 0; 0]))) with 4294967296 in H1. unfold W32 in *. lia.
Qed.
Print Assumptions C11_overflow_refuted.
(** A function meeting [log2_spec]: the integer part, capped. *)
Definition floor_log2 (k : nat) : f64 := f_of_nat (Nat.min (Nat.log2 k) 52).
Lemma floor_log2_spec : log2_spec floor_log2.
Proof.
  split; [vm_compute; reflexivity|]. intros k Hk. pose proof (Nat.log2_le_mono 2 k Hk) as Hl. change (Nat.log2 2) with 1%nat in Hl.
  exists (IZR (Z.of_nat (Nat.min (Nat.log2 k) 52))). split; [apply f_of_Z_R; change (2 ^ 53) with 9007199254740992; lia|].
  apply (IZR_le 1). lia.
Qed.
Example C11_nonvacuous : log2_spec floor_log2 /\ targets_within_limits (target_of_weights [10; 10; 9; 9; 10] [12; 12; 10; 10; 11]) /\
  exists bt, bisect_target (target_of_weights [10; 10; 9; 9; 10] [12; 12; 10; 10; 11]) (tolerance_factor floor_log2 5) = Ok bt /\
    t_wgt bt = [20; 28] /\ t_max bt = [22; 28].
Proof.
  split; [exact floor_log2_spec|]. split.
  - split; [done|]. intros [|[|[|[|[|i]]]]] w m H1 H2; cbn in H1, H2; try done; injection H1 as <-; injection H2 as <-; lia.
  - eexists. split; [vm_compute; reflexivity|]. split; reflexivity.
Qed.

(** ** C36: uniform targets. *)
Definition max_u32_tolerance : R := 1048576%R.
(** Uniform fractions are never rejected: whatever the tolerance, the outcome is a target or the
    undefined conversion of a limit above 2^32. *)
Theorem C36_uniform_accepted : forall k T tol x, (1 <= k)%nat -> Z.of_nat k < 2 ^ 32 -> 0 <= T < 2 ^ 32 ->
  isR tol x -> (0 <= x <= max_u32_tolerance)%R ->
  (exists t, target_uniform k T tol = Ok t) \/ target_uniform k T tol = Fail (UB FloatCast).
Proof.
  intros k T tol x Hk Hk2 HT Hx Hx2. unfold target_uniform. fold (default_fractions k).
  destruct (uniform_accepted k Hk Hk2 T tol) as (_ & _ & ->).
  assert (HU : Forall unit_f (default_fractions k)).
  { apply Forall_forall. intros f Hf%elem_of_replicate_inv. subst f. exists (uval k). split; [by apply ufrac_R|by apply uval_unit]. }
  destruct (calc_target_weight_ok _ T HU HT) as (tw & -> & _). cbn [obind].
  pose proof (calc_max_weight_ok _ T tol x HU HT ltac:(done)) as H. destruct (calc_max_weight T tol _) as [tm|e]; [left; by eexists|].
  destruct H as [-> _]. by right.
Qed.
Print Assumptions C36_uniform_accepted.
(** Every target built is consistent: k parts, targets within T/k - 1 and T/k, limits at least
    the targets, targets summing to at most the total and missing less than 2k of it. *)
Theorem C36_uniform_targets : forall k T tol x t, (1 <= k)%nat -> Z.of_nat k < 2 ^ 32 -> 0 <= T < 2 ^ 32 ->
  isR tol x -> (0 <= x <= max_u32_tolerance)%R -> target_uniform k T tol = Ok t ->
  length (t_wgt t) = k /\ targets_within_limits t /\
  (forall i w, t_wgt t !! i = Some w -> T / Z.of_nat k - 1 <= w <= T / Z.of_nat k) /\
  T - 2 * Z.of_nat k < total (t_wgt t) <= T.
Proof.
  intros k T tol x t Hk Hk2 HT Hx Hx2 E. unfold target_uniform in E. fold (default_fractions k) in E.
  assert (HU : Forall (fun f => exists r, isR f r) (default_fractions k)).
  { apply Forall_forall. intros f Hf%elem_of_replicate_inv. subst f. exists (uval k). by apply ufrac_R. }
  destruct (fractions_sane T tol x _ t HT ltac:(done) HU E) as (HS & Hn & Hf & _).
  assert (HW : forall i w, t_wgt t !! i = Some w -> T / Z.of_nat k - 1 <= w <= T / Z.of_nat k).
  { intros i w Hi. destruct (uniform_accepted k Hk Hk2 T tol) as (_ & _ & E'). rewrite E' in E.
    assert (HU' : Forall unit_f (default_fractions k)).
    { apply Forall_forall. intros f Hf'%elem_of_replicate_inv. subst f. exists (uval k). split; [by apply ufrac_R|by apply uval_unit]. }
    destruct (calc_target_weight_ok _ T HU' HT) as (tw & Ew & Lw & Hw). rewrite Ew in E. cbn [obind] in E.
    destruct (calc_max_weight T tol _) as [tm|]; [|done]. cbn [obind] in E. injection E as <-. cbn [t_wgt] in Hi.
    assert (i < k)%nat as Hik by (apply lookup_lt_Some in Hi; rewrite Lw in Hi; unfold default_fractions in Hi; by rewrite replicate_length in Hi).
    rewrite (Hw i (ufrac k) (uval k)) in Hi; [|by apply lookup_replicate_2|by apply ufrac_R]. injection Hi as <-. by apply uniform_weight. }
  assert (HL : length (t_wgt t) = k) by (unfold t_np in Hn; rewrite Hn; apply replicate_length).
  split; [done|]. split; [exact HS|]. split; [done|].
  assert (HB : forall l, (forall i w, l !! i = Some w -> T / Z.of_nat k - 1 <= w <= T / Z.of_nat k) ->
     Z.of_nat (length l) * (T / Z.of_nat k - 1) <= total l <= Z.of_nat (length l) * (T / Z.of_nat k)).
  { induction l as [|a l IH]; intros Hl; [cbn; lia|]. pose proof (Hl 0%nat a eq_refl). specialize (IH (fun i => Hl (S i))).
    cbn [length total foldr]. fold (total l). rewrite Nat2Z.inj_succ. lia. }
  specialize (HB _ HW). rewrite HL in HB. pose proof (Z.div_mod T (Z.of_nat k) ltac:(lia)). pose proof (Z.mod_pos_bound T (Z.of_nat k) ltac:(lia)). lia.
Qed.
Print Assumptions C36_uniform_targets.
(** With the tolerance the library uses (0.03) the limits stay within 5% of an even share, and
    the construction succeeds for every total up to 4,090,445,042 whatever k, and every total
    below 2^32 from two parts on. *)
Theorem C36_default_tolerance : forall k T, (1 <= k)%nat -> Z.of_nat k < 2 ^ 32 -> 0 <= T < 2 ^ 32 ->
  (k = 1%nat -> T <= 4090445042) ->
  exists t, target_uniform k T default_tolerance = Ok t /\ forall i m, t_max t !! i = Some m -> 10000 * (Z.of_nat k * m) <= 10301 * T /\ 10299 * T < 10000 * (Z.of_nat k * (m + 1)).
Proof.
  intros k T Hk Hk2 HT H1. unfold target_uniform, default_tolerance. fold (default_fractions k).
  assert (isR f_0_03 (F2R (Float radix2 8646911284551352 (-58)))) as Hl by (apply lit_R; vm_compute; reflexivity).
  set (x := F2R (Float radix2 8646911284551352 (-58))) in *.
  assert (tolerance_ok f_0_03 x) as Hx. { split; [done|]. unfold x. lit. lra. }
  destruct (uniform_accepted k Hk Hk2 T f_0_03) as (_ & _ & ->).
  assert (HU : Forall unit_f (default_fractions k)).
  { apply Forall_forall. intros f Hf%elem_of_replicate_inv. subst f. exists (uval k). split; [by apply ufrac_R|by apply uval_unit]. }
  destruct (calc_target_weight_ok _ T HU HT) as (tw & -> & _). cbn [obind].
  pose proof (calc_max_weight_ok _ T f_0_03 x HU HT Hx) as H.
  pose proof (uniform_max k Hk Hk2 T x HT Hl) as [HM1 HM].
  assert (HB : 10000 * (Z.of_nat k * Zfloor (max_value (uval k) x T)) <= 10301 * T /\ 10299 * T < 10000 * (Z.of_nat k * (Zfloor (max_value (uval k) x T) + 1))).
  { pose proof (Zfloor_lb (max_value (uval k) x T)) as Hf. pose proof (Zfloor_ub (max_value (uval k) x T)) as Hf2. pose proof (K_range k Hk Hk2). split.
    - apply le_IZR. rewrite !mult_IZR.
      assert (IZR (Z.of_nat k) * IZR (Zfloor (max_value (uval k) x T)) <= IZR (Z.of_nat k) * max_value (uval k) x T)%R by (apply Rmult_le_compat_l; lra). lra.
    - apply lt_IZR. rewrite !mult_IZR, plus_IZR.
      assert (IZR (Z.of_nat k) * max_value (uval k) x T < IZR (Z.of_nat k) * (IZR (Zfloor (max_value (uval k) x T)) + 1))%R by (apply Rmult_lt_compat_l; lra). lra. }
  destruct (calc_max_weight T f_0_03 _) as [tm|e].
  - cbn [obind]. eexists. split; [done|]. cbn [t_max]. destruct H as [HL H]. intros i m Hi.
    assert (i < k)%nat as Hik by (apply lookup_lt_Some in Hi; rewrite HL in Hi; unfold default_fractions in Hi; by rewrite replicate_length in Hi).
    destruct (H i (ufrac k) (uval k)) as [H2 _]; [by apply lookup_replicate_2|by apply ufrac_R|]. rewrite H2 in Hi. injection Hi as <-. exact HB.
  - exfalso. destruct H as (_ & i & f & r & Hi & Hr & Hbig). apply elem_of_list_lookup_2 in Hi. apply elem_of_replicate_inv in Hi. subst f.
    rewrite (isR_fun _ _ _ Hr (ufrac_R k Hk Hk2)) in Hbig. set (m := Zfloor (max_value (uval k) x T)) in *.
    unfold W32 in *. destruct (decide (k = 1%nat)) as [->|]; [specialize (H1 eq_refl); lia|].
    assert (2 * m <= Z.of_nat k * m) by (apply Z.mul_le_mono_nonneg_r; lia). lia.
Qed.
Print Assumptions C36_default_tolerance.
(** The exact share is not always reached: with as many unit vertices as parts every target can
    be 0; and a total weight near 2^32 has no limit representable for a single part. *)
Theorem C36_refuted :
  (exists t, target_uniform 49 49 default_tolerance = Ok t /\ t_wgt t = replicate 49 0 /\ t_max t = replicate 49 1) /\
  target_uniform 1 (2 ^ 32 - 1) default_tolerance = Fail (UB FloatCast).
Proof. split; [eexists; split; [vm_compute; reflexivity|split; vm_compute; reflexivity]|vm_compute; reflexivity]. Qed.
Print Assumptions C36_refuted.
Example C36_nonvacuous : exists t, target_uniform 3 100 default_tolerance = Ok t /\ t_wgt t = [33; 33; 33] /\ t_max t = [34; 34; 34].
Proof. eexists. split; [vm_compute; reflexivity|]. split; reflexivity. Qed.

(** ** C37: which fractions are rejected. *)
Local Open Scope R_scope.
(** [fr] are finite doubles with values [rs]. *)
Definition values (fr : list f64) (rs : list R) : Prop := Forall2 isR fr rs.
Definition rsum (rs : list R) : R := foldr Rplus 0 rs.
Lemma fsum_step fr rs : values fr rs -> Forall (fun r => 0 <= r <= 1) rs -> forall (j : nat) f0 a A, isR f0 a -> 0 <= a <= IZR (Z.of_nat j) ->
  (Z.of_nat j + Z.of_nat (length fr) < W32)%Z ->
  (Rabs (a - A) <= IZR (Z.of_nat j) * eps \/ (2 <= a /\ 2 <= A)) ->
  exists s, isR (fold_left fadd fr f0) s /\ let n := IZR (Z.of_nat (j + length fr)) in
    (Rabs (s - (A + rsum rs)) <= n * eps \/ (2 <= s /\ 2 <= A + rsum rs)).
Proof.
  intros HV. assert (0 < eps < / 1000000000000000) as He by (unfold eps; lra).
  induction HV as [|f r fr rs Hr HV IH]; intros HB j f0 a A Ha Hj HL HA.
  - exists a. split; [done|]. cbn. rewrite Nat.add_0_r, Rplus_0_r. done.
  - inversion_clear HB as [|? ? Hb HB']. cbn [fold_left length] in *. rewrite Nat2Z.inj_succ in HL.
    assert (IZR (Z.of_nat (S j)) = IZR (Z.of_nat j) + 1) as EJ by (rewrite Nat2Z.inj_succ, succ_IZR; done).
    assert (0 <= IZR (Z.of_nat j) <= 4294967295) as HJ0 by (split; [apply (IZR_le 0); lia|apply IZR_le; unfold W32 in *; lia]).
    assert (0 <= a + r <= IZR (Z.of_nat (S j))) as Hs by lra.
    assert (0 <= rnd (a + r) <= IZR (Z.of_nat (S j))) as Hs2.
    { split; [apply (rnd_ge_int _ 0); [simpl; lia|lra]|apply rnd_le_int; [apply B53; unfold W32 in *; lia|lra]]. }
    destruct (IH HB' (S j) (fadd f0 f) (rnd (a + r)) (A + r)) as (s & Hs3 & Hs4).
    + apply add_R; [done|done|]. apply (no_overflow _ (Z.of_nat (S j))); [apply B53; unfold W32 in *; lia|]. rewrite Rabs_pos_eq; lra.
    + done.
    + lia.
    + rewrite EJ. assert (IZR (Z.of_nat j) * eps <= / 100000) as HJE.
      { apply Rle_trans with (4294967295 * eps); [apply Rmult_le_compat_r; lra|unfold eps; lra]. }
      destruct HA as [HA|[HA1 HA2]].
      * apply Rabs_le_inv in HA. destruct (Rle_lt_dec (a + r) 4) as [H4|H4].
        -- left. pose proof (rnd_near (a + r) ltac:(rewrite Rabs_pos_eq; lra)). apply Rabs_le. lra.
        -- right. split; [apply (rnd_ge_int _ 2); [simpl; lia|lra]|lra].
      * right. split; [apply (rnd_ge_int _ 2); [simpl; lia|lra]|lra].
    + exists s. split; [done|]. cbn [rsum foldr]. fold (rsum rs). replace (j + S (length fr))%nat with (S j + length fr)%nat by lia.
      rewrite <- Rplus_assoc. done.
Qed.
Lemma fsum fr rs : values fr rs -> Forall (fun r => 0 <= r <= 1) rs -> (Z.of_nat (length fr) < W32)%Z ->
  exists s, isR (fold_left fadd fr f_zero) s /\ (Rabs (s - rsum rs) <= / 250000 \/ (2 <= s /\ 2 <= rsum rs)).
Proof.
  intros HV HB HL. destruct (fsum_step fr rs HV HB 0 f_zero 0 0 f_zero_R ltac:(change (IZR (Z.of_nat 0)) with 0; lra) HL) as (s & Hs & H).
  { left. rewrite Rminus_0_r, Rabs_R0. change (IZR (Z.of_nat 0)) with 0. lra. }
  exists s. split; [done|]. cbn zeta in H. rewrite Rplus_0_l in H. destruct H as [H|H]; [left|by right].
  eapply Rle_trans; [exact H|]. cbn [Nat.add].
  apply Rle_trans with (4294967295 * eps); [|unfold eps; lra]. apply Rmult_le_compat_r; [unfold eps; lra|]. apply IZR_le. unfold W32 in *. lia.
Qed.
Lemma sum_bounds : exists a b, isR min_fraction_sum a /\ isR max_fraction_sum b /\ Rabs (a - 9999/10000) <= / 1000000000000 /\ Rabs (b - 10001/10000) <= / 1000000000000.
Proof.
  assert (isR min_fraction_sum (F2R (Float radix2 9006298534815518 (-53)))) as Ha
   by (change min_fraction_sum with (S754_finite false 9006298534815518 (-53)); apply lit_R; vm_compute; reflexivity).
  assert (isR max_fraction_sum (F2R (Float radix2 4504049987333233 (-52)))) as Hb
   by (change max_fraction_sum with (S754_finite false 4504049987333233 (-52)); apply lit_R; vm_compute; reflexivity).
  eexists _, _. split; [exact Ha|]. split; [exact Hb|]. split; apply Rabs_le; lit; lra.
Qed.
Lemma bad_fraction_R f r : isR f r -> bad_fraction f = true <-> r < 0 \/ 1 < r.
Proof.
  intros Hr. unfold bad_fraction, fgt. rewrite (flt_R _ _ _ _ Hr f_zero_R). change (SFltb f_one f) with (flt f_one f). rewrite (flt_R _ _ _ _ f_one_R Hr).
  rewrite orb_true_iff. destruct (Rlt_bool_spec r 0), (Rlt_bool_spec 1 r); split; intros; try lra; intuition; try done; lra.
Qed.
Lemma existsb_bad fr rs : values fr rs -> existsb bad_fraction fr = true <-> Exists (fun r => r < 0 \/ 1 < r) rs.
Proof.
  induction 1 as [|f r fr rs Hr HV IH]; [cbn; split; [done|by inversion 1]|]. cbn [existsb]. rewrite orb_true_iff, (bad_fraction_R _ _ Hr), Exists_cons, IH. done.
Qed.
(** Constructing a target from two or more finite fractions throws the documented exception
    exactly when a fraction is outside [0,1] or the double sum leaves [1 - 0.0001, 1 + 0.0001]. *)
Theorem C37_rejects_exactly : forall T tol x fr rs, (0 <= T < 2 ^ 32)%Z -> isR tol x -> 0 <= x <= max_u32_tolerance ->
  values fr rs -> (2 <= length fr)%nat ->
  target_of_fractions T tol fr = Fail (Throw InvalidPartitionFractions) <->
  (Exists (fun r => r < 0 \/ 1 < r) rs \/
   flt (fold_left fadd fr f_zero) min_fraction_sum = true \/ flt max_fraction_sum (fold_left fadd fr f_zero) = true).
Proof.
  intros T tol x fr rs HT Hx Hx2 HV HL. unfold target_of_fractions. rewrite check_fractions_eq. rewrite <- (existsb_bad _ _ HV).
  assert (HTh : forall A, @throw_fractions A fr = Fail (Throw InvalidPartitionFractions)).
  { intros A. unfold throw_fractions. destruct (Nat.ltb_spec (length fr) 2); [lia|done]. }
  destruct (existsb bad_fraction fr) eqn:Eb.
  { rewrite HTh. cbn [obind]. split; [by left|done]. }
  cbn [obind]. change (fgt (fold_left fadd fr f_zero) max_fraction_sum) with (flt max_fraction_sum (fold_left fadd fr f_zero)).
  destruct (flt (fold_left fadd fr f_zero) min_fraction_sum || flt max_fraction_sum (fold_left fadd fr f_zero)) eqn:Es.
  { rewrite HTh. apply orb_true_iff in Es. split; [by right|done]. }
  apply orb_false_iff in Es as [Es1 Es2]. rewrite Es1, Es2. split; [|by intros [?|[?|?]]]. intros E. exfalso.
  assert (HU : Forall unit_f fr).
  { apply existsb_false_Forall in Eb. clear - HV Eb. induction HV as [|f r fr rs Hr HV IH]; [constructor|]. inversion_clear Eb as [|? ? Hf Hfs].
    constructor; [by eapply good_fraction_unit|by apply IH]. }
  destruct (calc_target_weight_ok _ T HU HT) as (tw & Ew & _). rewrite Ew in E. cbn [obind] in E.
  pose proof (calc_max_weight_ok _ T tol x HU HT ltac:(done)) as H. destruct (calc_max_weight T tol fr) as [tm|e]; [done|]. destruct H as [-> _]. done.
Qed.
Print Assumptions C37_rejects_exactly.
(** The same in terms of the real sum, which the double sum follows to within 4e-6. *)
Theorem C37_real_sum : forall T tol x fr rs, (0 <= T < 2 ^ 32)%Z -> isR tol x -> 0 <= x <= max_u32_tolerance ->
  values fr rs -> (2 <= length fr)%nat -> (Z.of_nat (length fr) < 2 ^ 32)%Z ->
  let throws := target_of_fractions T tol fr = Fail (Throw InvalidPartitionFractions) in
  (Exists (fun r => r < 0 \/ 1 < r) rs -> throws) /\
  (rsum rs < 9998/10000 \/ 10002/10000 < rsum rs -> throws) /\
  (Forall (fun r => 0 <= r <= 1) rs -> 99991/100000 <= rsum rs <= 100009/100000 -> ~ throws).
Proof.
  intros T tol x fr rs HT Hx Hx2 HV HL HL2 throws. pose proof (C37_rejects_exactly T tol x fr rs HT Hx Hx2 HV HL) as HE. fold throws in HE.
  destruct sum_bounds as (a & b & Ra & Rb & Ha & Hb). apply Rabs_le_inv in Ha, Hb.
  assert (HD : Exists (fun r => r < 0 \/ 1 < r) rs \/ Forall (fun r => 0 <= r <= 1) rs).
  { clear. induction rs as [|r rs IH]; [right; constructor|]. destruct IH as [IH|IH]; [left; by right|].
    destruct (Rlt_dec r 0); [left; left; lra|]. destruct (Rlt_dec 1 r); [left; left; lra|]. right. constructor; [lra|done]. }
  split; [|split].
  - intros H. apply HE. by left.
  - intros H. destruct HD as [HD|HD]; [apply HE; by left|]. apply HE. right. destruct (fsum fr rs HV HD HL2) as (s & Hs & Hd).
    rewrite (flt_R _ _ _ _ Hs Ra), (flt_R _ _ _ _ Rb Hs). destruct H as [H|H].
    + left. apply Rlt_bool_true. destruct Hd as [Hd|Hd]; [apply Rabs_le_inv in Hd|]; lra.
    + right. apply Rlt_bool_true. destruct Hd as [Hd|Hd]; [apply Rabs_le_inv in Hd|]; lra.
  - intros HF H Ht. apply HE in Ht. destruct (fsum fr rs HV HF HL2) as (s & Hs & Hd).
    rewrite (flt_R _ _ _ _ Hs Ra), (flt_R _ _ _ _ Rb Hs) in Ht. rewrite !Rlt_bool_false in Ht.
    + destruct Ht as [Ht|[?|?]]; [|done|done]. apply Exists_exists in Ht as (r & Hr & Hc). rewrite Forall_forall in HF. specialize (HF r Hr). lra.
    + destruct Hd as [Hd|Hd]; [apply Rabs_le_inv in Hd|]; lra.
    + destruct Hd as [Hd|Hd]; [apply Rabs_le_inv in Hd|]; lra.
Qed.
Print Assumptions C37_real_sum.
(** Accepted finite fractions give targets within their limits. *)
Theorem C37_accepted_targets : forall T tol x fr rs t, (0 <= T < 2 ^ 32)%Z -> isR tol x -> 0 <= x <= max_u32_tolerance ->
  values fr rs -> target_of_fractions T tol fr = Ok t ->
  t_frac t = fr /\ length (t_wgt t) = length fr /\ targets_within_limits t /\ forall i w, t_wgt t !! i = Some w -> (0 <= w <= T)%Z.
Proof.
  intros T tol x fr rs t HT Hx Hx2 HV E.
  assert (HU : Forall (fun f => exists r, isR f r) fr) by (clear - HV; induction HV; constructor; eauto).
  destruct (fractions_sane T tol x fr t HT ltac:(done) HU E) as (H1 & H2 & H3 & H4). done.
Qed.
Print Assumptions C37_accepted_targets.
(** The claim is false outside this range: a NaN fraction is not rejected but converted, and a
    single invalid fraction makes the error message read past the end of the array. *)
Theorem C37_refuted :
  target_of_fractions 10 default_tolerance [S754_nan; f_one] = Fail (UB FloatCast) /\
  target_of_fractions 10 default_tolerance [f_of_Z 2] = Fail (UB OutOfBounds) /\
  target_of_fractions 10 default_tolerance [] = Fail (UB OutOfBounds).
Proof. repeat split; vm_compute; reflexivity. Qed.
Print Assumptions C37_refuted.
Example C37_nonvacuous : values [fdiv f_one (f_of_Z 2); fdiv f_one (f_of_Z 2)] [1/2; 1/2] /\ values [f_one; f_one] [1; 1] /\
  (exists t, target_of_fractions 10 default_tolerance [fdiv f_one (f_of_Z 2); fdiv f_one (f_of_Z 2)] = Ok t /\ t_wgt t = [5; 5]%Z) /\
  target_of_fractions 10 default_tolerance [f_one; f_one] = Fail (Throw InvalidPartitionFractions).
Proof.
  assert (isR (fdiv f_one (f_of_Z 2)) (1/2)) as H.
  { assert (isR (fdiv f_one (f_of_Z 2)) (F2R (Float radix2 4503599627370496 (-53)))) as Ha
     by (change (fdiv f_one (f_of_Z 2)) with (S754_finite false 4503599627370496 (-53)); apply lit_R; vm_compute; reflexivity).
    replace (1/2) with (F2R (Float radix2 4503599627370496 (-53))); [done|]. lit. lra. }
  split; [repeat constructor; exact H|]. split; [repeat constructor; exact f_one_R|]. split; [|vm_compute; reflexivity].
  eexists. split; [vm_compute; reflexivity|reflexivity].
Qed.
