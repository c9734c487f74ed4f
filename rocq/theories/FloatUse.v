(** * FloatUse: the float computations of the code stay in range (C09, C36, C38, C48). *)
From Coq Require Import ZArith Reals Floats.SpecFloat Psatz.
From Flocq Require Import Core.Core IEEE754.BinarySingleNaN.
From Verif Require Import Base F64 ModelGraph ModelPartition ModelFM ModelMultilevel ModelRecursive Logic FloatFacts.
Local Open Scope R_scope.

Ltac lit := unfold F2R; cbn [Fnum Fexp bpow SpecFloat.cond_Zopp radix2 radix_val]; 
  repeat match goal with |- context [Z.pow_pos ?a ?b] => let v := eval vm_compute in (Z.pow_pos a b) in change (Z.pow_pos a b) with v end.

Definition r001 : R := F2R (Float radix2 5764607523034235 (-59)).
Lemma r001_R : isR f_0_01 r001. Proof. apply (lit_R false). reflexivity. Qed.
Lemma r001_bound : 0 < r001 < 1/10. Proof. unfold r001. lit. lra. Qed.
Definition r095 : R := F2R (Float radix2 8556839292003942 (-53)).
Lemma r095_R : isR f_0_95 r095. Proof. apply (lit_R false). reflexivity. Qed.
Lemma r095_bound : 9/10 < r095 < 96/100. Proof. unfold r095. lit. lra. Qed.
Definition r15 : R := F2R (Float radix2 6755399441055744 (-52)).
Lemma r15_R : isR f_1_5 r15. Proof. apply (lit_R false). reflexivity. Qed.
Lemma r15_val : r15 = 3/2. Proof. unfold r15. lit. lra. Qed.

Lemma W32_lt_53 z : (0 <= z < W32)%Z -> (Z.abs z <= 2 ^ 53)%Z.
Proof. unfold W32. lia. Qed.
Lemma IZR_W32 z : (0 <= z < W32)%Z -> 0 <= IZR z /\ IZR z <= IZR W32 - 1.
Proof. intros H. split; [apply IZR_le; lia|]. rewrite <- minus_IZR. apply IZR_le. lia. Qed.
Lemma W32_R : IZR W32 = 4294967296. Proof. reflexivity. Qed.

Lemma max_bad_moves_ok maxMoves n : (Z.of_nat n < W32)%Z -> exists mb, max_bad_moves maxMoves n = Ok mb.
Proof.
  intros Hn. unfold max_bad_moves, f_of_nat.
  assert (0 <= Z.of_nat n < W32)%Z as Hr by lia. pose proof (IZR_W32 _ Hr) as [B0 B1].
  pose proof (f_of_Z_R _ (W32_lt_53 _ Hr)) as Hx. pose proof r001_bound. rewrite W32_R in *.
  assert (0 <= IZR (Z.of_nat n) * r001 <= IZR 4294967295) as HB.
  { split; [apply Rmult_le_pos; lra|]. nra. }
  pose proof (mul_R _ _ _ _ Hx r001_R) as Hm.
  rewrite (f_to_u32_R _ _ (Hm ltac:(apply (no_overflow _ 4294967295); [simpl; lia|apply Rabs_le; lra]))).
  - eexists. reflexivity.
  - apply (rnd_ge_int _ 0); [simpl; lia|lra].
  - apply Rle_lt_trans with (IZR 4294967295); [apply rnd_le_int; [simpl; lia|lra]|apply IZR_lt; reflexivity].
Qed.

Lemma ml_max_weight_ok g : (0 <= g_tvw g < W32)%Z -> exists w, ml_max_weight g = Ok w /\ (0 <= w < W32)%Z.
Proof.
  intros Hr. unfold ml_max_weight. pose proof (IZR_W32 _ Hr) as [B0 B1]. rewrite W32_R in *.
  pose proof (f_of_Z_R _ (W32_lt_53 _ Hr)) as Hx.
  pose proof (mul_R _ _ _ _ r15_R Hx) as Hm. rewrite r15_val in Hm.
  set (a := 3 / 2 * IZR (g_tvw g)) in *.
  assert (0 <= a <= IZR 8589934592) as Ha by (unfold a; split; lra).
  specialize (Hm ltac:(apply (no_overflow _ 8589934592); [simpl; lia|apply Rabs_le; lra])).
  assert (0 <= rnd a <= IZR 8589934592) as HA.
  { split; [apply (rnd_ge_int _ 0); [simpl; lia|lra]|apply rnd_le_int; [simpl; lia|lra]]. }
  pose proof (div_R _ _ _ _ Hm (f_of_Z_R 20 ltac:(simpl; lia)) ltac:(lra)) as Hd.
  assert (0 <= rnd a / 20 <= IZR 4294967295) as HB by (split; lra).
  specialize (Hd ltac:(apply (no_overflow _ 4294967295); [simpl; lia|apply Rabs_le; lra])).
  assert (0 <= rnd (rnd a / 20)) as H0 by (apply (rnd_ge_int _ 0); [simpl; lia|lra]).
  assert (rnd (rnd a / 20) < IZR W32) as H1.
  { apply Rle_lt_trans with (IZR 4294967295); [apply rnd_le_int; [simpl; lia|lra]|apply IZR_lt; reflexivity]. }
  rewrite (f_to_u32_R _ _ Hd H0 H1).
  eexists. split; [reflexivity|]. split.
  - apply Zfloor_lub. exact H0.
  - apply lt_IZR. apply Rle_lt_trans with (rnd (rnd a / 20)); [apply Zfloor_lb|exact H1].
Qed.

(** The edge-ratio test with 0.95: continuing means strictly fewer edges. *)
Lemma ratio_shrinks a b : (Z.of_nat a < W32)%Z -> (Z.of_nat b < W32)%Z -> (0 < b)%nat ->
  fgt (fdiv (f_of_nat a) (f_of_nat b)) f_0_95 = false -> (a < b)%nat.
Proof.
  intros Ha Hb Hb0 H. destruct (Nat.lt_ge_cases a b) as [|Hge]; [assumption|exfalso].
  assert (0 <= Z.of_nat a < W32)%Z as HA by lia. assert (0 <= Z.of_nat b < W32)%Z as HB by lia.
  pose proof (f_of_Z_R _ (W32_lt_53 _ HA)) as RA. pose proof (f_of_Z_R _ (W32_lt_53 _ HB)) as RB.
  pose proof (IZR_W32 _ HA) as [A0 A1]. pose proof (IZR_W32 _ HB) as [B0 B1]. rewrite W32_R in *.
  assert (1 <= IZR (Z.of_nat b)) as B2 by (apply (IZR_le 1); lia).
  assert (IZR (Z.of_nat b) <= IZR (Z.of_nat a)) as AB by (apply IZR_le; lia).
  assert (1 <= IZR (Z.of_nat a) / IZR (Z.of_nat b) <= IZR 4294967295) as HQ.
  { split.
    - apply Rmult_le_reg_r with (IZR (Z.of_nat b)); [lra|]. unfold Rdiv. rewrite Rmult_assoc, Rinv_l by lra. lra.
    - apply Rmult_le_reg_r with (IZR (Z.of_nat b)); [lra|]. unfold Rdiv. rewrite Rmult_assoc, Rinv_l by lra. nra. }
  pose proof (div_R _ _ _ _ RA RB ltac:(lra) ltac:(apply (no_overflow _ 4294967295); [simpl; lia|apply Rabs_le; lra])) as RD.
  unfold fgt, f_of_nat in H. fold (flt f_0_95 (fdiv (f_of_Z (Z.of_nat a)) (f_of_Z (Z.of_nat b)))) in H.
  rewrite (flt_R _ _ _ _ r095_R RD) in H.
  pose proof (rnd_ge_int (IZR (Z.of_nat a) / IZR (Z.of_nat b)) 1 ltac:(simpl; lia) ltac:(lra)) as H1.
  pose proof r095_bound. rewrite Rlt_bool_true in H; [discriminate|lra].
Qed.
