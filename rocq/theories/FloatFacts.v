(** * FloatFacts: real-number meaning of the binary64 operations of F64.v, through Flocq. *)
From Coq Require Import ZArith Reals Floats.SpecFloat Psatz.
From Flocq Require Import Core.Core IEEE754.BinarySingleNaN.
From Verif Require Import Base F64.
Local Open Scope R_scope.

#[local] Instance Hp53 : Prec_gt_0 53 := eq_refl _.
#[local] Instance Hm1024 : Prec_lt_emax 53 1024 := eq_refl _.
Notation b64 := (binary_float 53 1024).
Notation rnd := (round radix2 (SpecFloat.fexp 53 1024) ZnearestE).

(** x is the finite double with value r *)
Definition isR (x : f64) (r : R) : Prop := exists b : b64, B2SF b = x /\ is_finite b = true /\ B2R b = r.

(** ** The SpecFloat operations are Flocq's (proofs as in Flocq's PrimFloat.v) *)
Lemma round_nearest_even_equiv s m l : round_nearest_even m l = choice_mode mode_NE s m l.
Proof. case l; [reflexivity|intro c]. case c; [|reflexivity..]. now simpl; unfold Round.cond_incr; case Z.even. Qed.
Lemma binary_round_aux_equiv sx mx ex lx :
  SpecFloat.binary_round_aux 53 1024 sx mx ex lx = binary_round_aux 53 1024 mode_NE sx mx ex lx.
Proof.
  unfold SpecFloat.binary_round_aux, binary_round_aux. set (mrse' := shr_fexp _ _ _ _ _).
  case mrse'; intros mrs' e'; simpl. now rewrite (round_nearest_even_equiv sx).
Qed.
Lemma binary_round_equiv s m e :
  SpecFloat.binary_round 53 1024 s m e = binary_round 53 1024 mode_NE s m e.
Proof.
  unfold SpecFloat.binary_round, binary_round, shl_align_fexp.
  set (mez := shl_align _ _ _); case mez as [mz ez]. apply binary_round_aux_equiv.
Qed.
Lemma binary_normalize_equiv m e szero :
  SpecFloat.binary_normalize 53 1024 m e szero = B2SF (binary_normalize 53 1024 Hp53 Hm1024 mode_NE m e szero).
Proof.
  case m as [|p|p].
  - now simpl.
  - simpl; rewrite B2SF_SF2B; apply binary_round_equiv.
  - simpl; rewrite B2SF_SF2B; apply binary_round_equiv.
Qed.
Lemma mul_equiv (x y : b64) : fmul (B2SF x) (B2SF y) = B2SF (Bmult mode_NE x y).
Proof.
  destruct x as [sx|sx| |sx mx ex Bx], y as [sy|sy| |sy my ey By]; try reflexivity.
  simpl. rewrite B2SF_SF2B. apply binary_round_aux_equiv.
Qed.
Lemma add_equiv (x y : b64) : fadd (B2SF x) (B2SF y) = B2SF (Bplus mode_NE x y).
Proof.
  destruct x as [sx|sx| |sx mx ex Bx], y as [sy|sy| |sy my ey By];
    try reflexivity; try (unfold fadd; simpl; case Bool.eqb; reflexivity).
  apply binary_normalize_equiv.
Qed.
Lemma sub_equiv (x y : b64) : fsub (B2SF x) (B2SF y) = B2SF (Bminus mode_NE x y).
Proof.
  destruct x as [sx|sx| |sx mx ex Bx], y as [sy|sy| |sy my ey By];
    try reflexivity; try (unfold fsub; simpl; case Bool.eqb; reflexivity).
  unfold fsub; simpl. unfold Zminus. rewrite <- cond_Zopp_negb. apply binary_normalize_equiv.
Qed.
Lemma div_equiv (x y : b64) : fdiv (B2SF x) (B2SF y) = B2SF (Bdiv mode_NE x y).
Proof.
  destruct x as [sx|sx| |sx mx ex Bx], y as [sy|sy| |sy my ey By];
    try reflexivity; try (unfold fdiv; simpl; case Bool.eqb; reflexivity).
  unfold fdiv; simpl. rewrite B2SF_SF2B. set (melz := SFdiv_core_binary _ _ _ _ _ _).
  case melz as [[mz ez] lz]. apply binary_round_aux_equiv.
Qed.

(** ** Rounded results *)
Definition huge : R := bpow radix2 1024.
Lemma add_R x y a b : isR x a -> isR y b -> Rabs (rnd (a + b)) < huge -> isR (fadd x y) (rnd (a + b)).
Proof.
  intros (bx & <- & Fx & <-) (b' & <- & Fy & <-) H. rewrite add_equiv.
  pose proof (Bplus_correct 53 1024 _ _ mode_NE bx b' Fx Fy) as HC. simpl round_mode in HC.
  rewrite Rlt_bool_true in HC by exact H. destruct HC as (A & B & _). eexists. split; [reflexivity|]. split; assumption.
Qed.
Lemma sub_R x y a b : isR x a -> isR y b -> Rabs (rnd (a - b)) < huge -> isR (fsub x y) (rnd (a - b)).
Proof.
  intros (bx & <- & Fx & <-) (b' & <- & Fy & <-) H. rewrite sub_equiv.
  pose proof (Bminus_correct 53 1024 _ _ mode_NE bx b' Fx Fy) as HC. simpl round_mode in HC.
  rewrite Rlt_bool_true in HC by exact H. destruct HC as (A & B & _). eexists. split; [reflexivity|]. split; assumption.
Qed.
Lemma mul_R x y a b : isR x a -> isR y b -> Rabs (rnd (a * b)) < huge -> isR (fmul x y) (rnd (a * b)).
Proof.
  intros (bx & <- & Fx & <-) (b' & <- & Fy & <-) H. rewrite mul_equiv.
  pose proof (Bmult_correct 53 1024 _ _ mode_NE bx b') as HC. simpl round_mode in HC.
  rewrite Rlt_bool_true in HC by exact H. destruct HC as (A & B & _). eexists. split; [reflexivity|].
  rewrite Fx, Fy in B. split; assumption.
Qed.
Lemma div_R x y a b : isR x a -> isR y b -> b <> 0 -> Rabs (rnd (a / b)) < huge -> isR (fdiv x y) (rnd (a / b)).
Proof.
  intros (bx & <- & Fx & <-) (b' & <- & Fy & <-) Hnz H. rewrite div_equiv.
  pose proof (Bdiv_correct 53 1024 _ _ mode_NE bx b' Hnz) as HC. simpl round_mode in HC.
  rewrite Rlt_bool_true in HC by exact H. destruct HC as (A & B & _). eexists. split; [reflexivity|].
  rewrite Fx in B. split; assumption.
Qed.

(** ** Comparisons *)
Lemma flt_R x y a b : isR x a -> isR y b -> flt x y = Rlt_bool a b.
Proof.
  intros (bx & <- & Fx & <-) (b' & <- & Fy & <-). exact (Bltb_correct 53 1024 bx b' Fx Fy).
Qed.
Lemma fle_R x y a b : isR x a -> isR y b -> fle x y = Rle_bool a b.
Proof.
  intros (bx & <- & Fx & <-) (b' & <- & Fy & <-). exact (Bleb_correct 53 1024 bx b' Fx Fy).
Qed.

(** ** Representable numbers *)
Lemma isR_generic x r : isR x r -> generic_format radix2 (SpecFloat.fexp 53 1024) r.
Proof. intros (b & _ & _ & <-). apply generic_format_B2R. Qed.
Lemma rnd_id r : generic_format radix2 (SpecFloat.fexp 53 1024) r -> rnd r = r.
Proof. intros H. apply round_generic; try exact H; typeclasses eauto. Qed.
Lemma int_generic z : (Z.abs z <= 2 ^ 53)%Z -> generic_format radix2 (SpecFloat.fexp 53 1024) (IZR z).
Proof.
  intros H. apply (generic_format_FLT radix2 (-1074) 53).
  destruct (Z.eq_dec (Z.abs z) (2 ^ 53)) as [E|E].
  - assert (z = (2 ^ 53)%Z \/ z = (- 2 ^ 53)%Z) as [-> | ->] by lia.
    + apply (FLT_spec radix2 (-1074) 53 _ (Float radix2 1 53)); [|vm_compute; reflexivity|vm_compute; discriminate].
      unfold F2R. cbn [Fnum Fexp bpow]. rewrite <- mult_IZR. apply f_equal. reflexivity.
    + apply (FLT_spec radix2 (-1074) 53 _ (Float radix2 (-1) 53)); [|vm_compute; reflexivity|vm_compute; discriminate].
      unfold F2R. cbn [Fnum Fexp bpow]. rewrite <- mult_IZR. apply f_equal. reflexivity.
  - apply (FLT_spec radix2 (-1074) 53 _ (Float radix2 z 0)); [|simpl; lia|simpl; lia].
    unfold F2R; simpl. lra.
Qed.
Lemma rnd_le a b : a <= b -> rnd a <= rnd b.
Proof. intros H. apply round_le; try exact H; typeclasses eauto. Qed.
Lemma rnd_le_int a z : (Z.abs z <= 2 ^ 53)%Z -> a <= IZR z -> rnd a <= IZR z.
Proof. intros Hz H. rewrite <- (rnd_id (IZR z)) by (apply int_generic; exact Hz). apply rnd_le. exact H. Qed.
Lemma rnd_ge_int a z : (Z.abs z <= 2 ^ 53)%Z -> IZR z <= a -> IZR z <= rnd a.
Proof. intros Hz H. rewrite <- (rnd_id (IZR z)) by (apply int_generic; exact Hz). apply rnd_le. exact H. Qed.
Lemma rnd_abs_int a z : (Z.abs z <= 2 ^ 53)%Z -> Rabs a <= IZR z -> Rabs (rnd a) <= IZR z.
Proof.
  intros Hz H. apply Rabs_le. split.
  - rewrite <- opp_IZR. apply rnd_ge_int; [lia|]. rewrite opp_IZR. pose proof (Rabs_le_inv _ _ H). lra.
  - apply rnd_le_int; [exact Hz|]. pose proof (Rabs_le_inv _ _ H). lra.
Qed.
Lemma huge_big z : (Z.abs z <= 2 ^ 53)%Z -> IZR z < huge.
Proof.
  intros H. apply Rle_lt_trans with (IZR (2 ^ 53)).
  - apply IZR_le. lia.
  - unfold huge. change (IZR (2 ^ 53)) with (bpow radix2 53). apply bpow_lt. reflexivity.
Qed.
Lemma no_overflow a z : (Z.abs z <= 2 ^ 53)%Z -> Rabs a <= IZR z -> Rabs (rnd a) < huge.
Proof. intros Hz H. apply Rle_lt_trans with (IZR z); [apply rnd_abs_int; assumption|apply huge_big; exact Hz]. Qed.

Lemma f_of_Z_R z : (Z.abs z <= 2 ^ 53)%Z -> isR (f_of_Z z) (IZR z).
Proof.
  intros H. unfold f_of_Z. change prec64 with 53%Z. change emax64 with 1024%Z. rewrite binary_normalize_equiv.
  pose proof (binary_normalize_correct 53 1024 _ _ mode_NE z 0 false) as HC. simpl round_mode in HC.
  assert (F2R (Float radix2 z 0) = IZR z) as E by (unfold F2R; simpl; lra). rewrite E in HC.
  cbv zeta in HC.
  rewrite (rnd_id (IZR z)) in HC by (apply int_generic; exact H).
  rewrite Rlt_bool_true in HC.
  2:{ rewrite <- abs_IZR. apply huge_big. rewrite Z.abs_involutive. exact H. }
  destruct HC as (A & B & _). eexists. split; [reflexivity|]. split; assumption.
Qed.
Lemma f_zero_R : isR f_zero 0.
Proof. exists (B754_zero false). repeat split. Qed.
Lemma f_one_R : isR f_one 1.
Proof. apply f_of_Z_R. simpl. lia. Qed.

(** literals *)
Lemma lit_R s m e : SpecFloat.bounded 53 1024 m e = true ->
  isR (S754_finite s m e) (F2R (Float radix2 (SpecFloat.cond_Zopp s (Z.pos m)) e)).
Proof. intros H. exists (B754_finite s m e H). repeat split. Qed.

(** truncation *)
Lemma ftrunc_R x r : isR x r -> ftrunc x = Some (Ztrunc r).
Proof.
  intros (b & <- & Fb & <-). destruct b as [s|s| |s m e Hb]; try discriminate.
  - simpl. f_equal. symmetry. apply Ztrunc_IZR.
  - simpl. f_equal.
    assert (forall m, Ztrunc (F2R (Float radix2 (Zpos m) e)) = (if (0 <=? e)%Z then Z.pos m * 2 ^ e else Z.pos m / 2 ^ (- e))%Z) as HP.
    { intros m'. rewrite Ztrunc_floor by (apply F2R_ge_0; simpl; lia).
      destruct (Z.leb_spec 0 e) as [He|He].
      - rewrite <- (Zfloor_IZR (Z.pos m' * 2 ^ e)). f_equal. unfold F2R; simpl. rewrite mult_IZR. f_equal.
        rewrite <- IZR_Zpower by exact He. reflexivity.
      - assert (F2R (Float radix2 (Z.pos m') e) = IZR (Z.pos m') / IZR (2 ^ (- e))) as ->.
        { unfold F2R; simpl. unfold Rdiv. f_equal. change (2 ^ (- e))%Z with (Zpower radix2 (- e)). rewrite IZR_Zpower by (clear -He; lia). rewrite bpow_opp.
          rewrite Rinv_inv. reflexivity. }
        apply Zfloor_div. pose proof (Z.pow_pos_nonneg 2 (- e) ltac:(lia) ltac:(lia)). lia. }
    destruct s; simpl.
    + rewrite <- HP. rewrite <- Ztrunc_opp. f_equal. rewrite <- F2R_Zopp. reflexivity.
    + symmetry. apply HP.
Qed.
Lemma f_to_u32_R x r : isR x r -> 0 <= r -> r < IZR W32 -> f_to_u32 x = Ok (Zfloor r).
Proof.
  intros Hx H0 H1. unfold f_to_u32. rewrite (ftrunc_R x r Hx), Ztrunc_floor by exact H0.
  rewrite decide_True; [reflexivity|]. split.
  - apply Zfloor_lub. exact H0.
  - apply lt_IZR. apply Rle_lt_trans with r; [apply Zfloor_lb|exact H1].
Qed.
