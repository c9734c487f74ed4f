(** * LimitFacts: the limit of unsuccessful moves of FM is one percent of the vertices, exactly
    (C67). *)
From Coq Require Import ZArith Reals Floats.SpecFloat Psatz.
From Flocq Require Import Core.Core IEEE754.BinarySingleNaN.
From Verif Require Import Base F64 ModelGraph ModelPartition ModelFM Logic FloatFacts FloatUse.
Local Open Scope R_scope.

Lemma r001_tight : 1/100 <= r001 <= 1/100 + 1/1000000000000000000.
Proof. unfold r001. lit. lra. Qed.
(** A number with 7 binary places. *)
Lemma seventh_generic z : (Z.abs z < 2 ^ 53)%Z -> generic_format radix2 (SpecFloat.fexp 53 1024) (IZR z / 128).
Proof.
  intros H. apply (generic_format_FLT radix2 (-1074) 53).
  apply (FLT_spec radix2 (-1074) 53 _ (Float radix2 z (-7))); [|exact H|vm_compute; discriminate].
  unfold F2R. cbn [Fnum Fexp bpow]. unfold Rdiv. f_equal.
Qed.
Lemma max_bad_moves_eq maxMoves n : (Z.of_nat n < W32)%Z ->
  max_bad_moves maxMoves n = Ok (Z.min maxMoves (Z.max (Z.of_nat n / 100) 25)).
Proof.
  intros Hn. unfold max_bad_moves, f_of_nat.
  assert (0 <= Z.of_nat n < W32)%Z as Hr by lia. pose proof (IZR_W32 _ Hr) as [B0 B1].
  pose proof (f_of_Z_R _ (W32_lt_53 _ Hr)) as Hx. pose proof r001_tight as HT. rewrite W32_R in *. revert B0 B1 Hx Hr. generalize (Z.of_nat n). clear n Hn. intros n B0 B1 Hx Hr.
  pose proof (Z.div_mod n 100 ltac:(lia)) as HD. pose proof (Z.mod_pos_bound n 100 ltac:(lia)) as HM. set (q := (n / 100)%Z) in *. set (r := (n mod 100)%Z) in *.
  assert (IZR n = 100 * IZR q + IZR r) as EN by (rewrite HD, plus_IZR, mult_IZR; reflexivity).
  assert (0 <= IZR r <= 99) as HR by (split; [apply (IZR_le 0)|apply (IZR_le r 99)]; lia).
  assert (0 <= q < 42949673)%Z as HQ.
  { unfold W32 in Hr. split; [apply Z.div_pos; lia|apply Z.div_lt_upper_bound; lia]. }
  assert (0 <= IZR q <= 42949672) as HQR by (split; [apply (IZR_le 0)|apply (IZR_le q 42949672)]; lia).
  assert (IZR q <= IZR n * r001) as Hlo by nra.
  assert (IZR n * r001 <= IZR ((q + 1) * 128 - 1) / 128) as Hhi.
  { rewrite minus_IZR, mult_IZR, plus_IZR. nra. }
  pose proof (mul_R _ _ _ _ Hx r001_R) as Hm.
  assert (IZR q <= rnd (IZR n * r001)) as Rlo by (apply rnd_ge_int; [lia|exact Hlo]).
  assert (rnd (IZR n * r001) <= IZR ((q + 1) * 128 - 1) / 128) as Rhi.
  { rewrite <- (rnd_id (IZR ((q + 1) * 128 - 1) / 128)) by (apply seventh_generic; lia). apply rnd_le. exact Hhi. }
  assert (rnd (IZR n * r001) < IZR (q + 1)) as Rlt.
  { eapply Rle_lt_trans; [exact Rhi|]. rewrite minus_IZR, mult_IZR, plus_IZR. lra. }
  assert (IZR (q + 1) <= 42949673) as Hq1 by (apply (IZR_le _ 42949673); lia).
  rewrite (f_to_u32_R _ (rnd (IZR n * r001))).
  - cbn [obind]. f_equal. f_equal. f_equal. apply Zfloor_imp. split; [exact Rlo|exact Rlt].
  - apply Hm. apply (no_overflow _ 42949673); [simpl; lia|]. apply Rabs_le. split; [lra|]. eapply Rle_trans; [exact Hhi|]. rewrite minus_IZR, mult_IZR, plus_IZR. lra.
  - lra.
  - rewrite W32_R. lra.
Qed.

(** The weight limit of a coarse vertex is 3/40 of the total, exactly (C68). *)
From Verif Require Import ModelMultilevel.
Lemma ml_max_weight_eq g : (0 <= g_tvw g < W32)%Z -> ml_max_weight g = Ok (3 * g_tvw g / 40)%Z.
Proof.
  unfold ml_max_weight. generalize (g_tvw g). clear g. intros n Hr. pose proof (IZR_W32 _ Hr) as [B0 B1]. pose proof (f_of_Z_R _ (W32_lt_53 _ Hr)) as Hx. rewrite W32_R in *.
  assert (0 <= n < 4294967296)%Z as Hr' by exact Hr.
  pose proof (mul_R _ _ _ _ r15_R Hx) as Hm. rewrite r15_val in Hm.
  specialize (Hm ltac:(apply (no_overflow _ 8589934592); [simpl; lia|apply Rabs_le; lra])).
  assert (rnd (3 / 2 * IZR n) = 3 / 2 * IZR n) as Ea.
  { replace (3 / 2 * IZR n) with (IZR (192 * n) / 128) by (rewrite mult_IZR; field). apply rnd_id, seventh_generic. lia. }
  rewrite Ea in Hm.
  pose proof (Z.div_mod (3 * n) 40 ltac:(lia)) as HD. pose proof (Z.mod_pos_bound (3 * n) 40 ltac:(lia)) as HM. set (q := (3 * n / 40)%Z) in *. set (r := ((3 * n) mod 40)%Z) in *.
  assert (3 * IZR n = 40 * IZR q + IZR r) as EN by (rewrite <- mult_IZR, HD, plus_IZR, mult_IZR; reflexivity).
  assert (0 <= IZR r <= 39) as HR by (split; [apply (IZR_le 0)|apply (IZR_le r 39)]; lia).
  assert (0 <= q < 322122548)%Z as HQ by (split; [apply Z.div_pos; lia|apply Z.div_lt_upper_bound; lia]).
  assert (0 <= IZR q <= 322122547) as HQR by (split; [apply (IZR_le 0)|apply (IZR_le q 322122547)]; lia).
  pose proof (div_R _ _ _ _ Hm (f_of_Z_R 20 ltac:(simpl; lia)) ltac:(lra)) as Hd. set (y := 3 / 2 * IZR n / 20) in *.
  assert (IZR q <= y) as Hlo by (unfold y; lra).
  assert (y <= IZR ((q + 1) * 128 - 1) / 128) as Hhi by (rewrite minus_IZR, mult_IZR, plus_IZR; unfold y; lra).
  assert (IZR q <= rnd y) as Rlo by (apply rnd_ge_int; [lia|exact Hlo]).
  assert (rnd y <= IZR ((q + 1) * 128 - 1) / 128) as Rhi.
  { rewrite <- (rnd_id (IZR ((q + 1) * 128 - 1) / 128)) by (apply seventh_generic; lia). apply rnd_le. exact Hhi. }
  assert (rnd y < IZR (q + 1)) as Rlt.
  { eapply Rle_lt_trans; [exact Rhi|]. rewrite minus_IZR, mult_IZR, plus_IZR. lra. }
  assert (IZR (q + 1) <= 322122548) as Hq1 by (apply (IZR_le _ 322122548); lia).
  rewrite (f_to_u32_R _ (rnd y)).
  - f_equal. apply Zfloor_imp. split; [exact Rlo|exact Rlt].
  - apply Hd. apply (no_overflow _ 322122548); [simpl; lia|]. apply Rabs_le. split; [lra|]. eapply Rle_trans; [exact Hhi|]. rewrite minus_IZR, mult_IZR, plus_IZR. lra.
  - lra.
  - rewrite W32_R. lra.
Qed.
