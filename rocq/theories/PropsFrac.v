(** * PropsFrac: targets given as weights (C74). *)
From Coq Require Import ZArith Reals Floats.SpecFloat Psatz.
From Flocq Require Import Core.Core Relative IEEE754.BinarySingleNaN.
From Verif Require Import Base F64 ModelGraph ModelPartition Spec Logic Sums FloatOrder FloatFacts FloatUse EvenFacts AnyFacts TargetFacts PropsTarget.
Local Open Scope R_scope.
#[local] Instance Hp53f : Prec_gt_0 53 := eq_refl _.
#[local] Instance fexp_validf : Valid_exp (SpecFloat.fexp 53 1024) := fexp_correct 53 1024 Hp53f.

Lemma one_fraction w s : (0 <= w <= s)%Z -> (0 < s < W32)%Z -> exists r, isR (fmul (f_of_Z w) (fdiv f_one (f_of_Z s))) r /\ 0 <= r <= 1 + 2 * eps /\ Rabs (r - IZR w / IZR s) <= 3 * eps.
Proof.
  intros Hw Hs. assert (0 <= w < W32)%Z as Hw' by lia. assert (0 <= s < W32)%Z as HT' by lia.
  pose proof (f_of_Z_R _ (W32_lt_53 _ Hw')) as Rw. pose proof (f_of_Z_R _ (W32_lt_53 _ HT')) as RT.
  assert (0 <= IZR w) as W1 by (apply (IZR_le 0); lia). assert (1 <= IZR s) as S1 by (apply (IZR_le 1); lia). assert (IZR w <= IZR s) as WS by (apply IZR_le; lia).
  assert (IZR s <= 4294967296) as S2 by (apply (IZR_le s 4294967296); unfold W32 in *; lia).
  set (f := fmul _ _). set (x := IZR w) in *. set (y := IZR s) in *.
  assert (0 < / y <= 1) as Hy. { split; [apply Rinv_0_lt_compat; lra|]. rewrite <- Rinv_1. apply Rinv_le_contravar; lra. }
  assert (1 / y = / y) as E1 by (field; lra).
  pose proof (div_R _ _ _ _ f_one_R RT ltac:(fold y; lra) ltac:(apply rnd_small_ok; apply Rabs_le; fold y; lra)) as R1. fold y in R1. rewrite E1 in R1.
  assert (Rabs (rnd (/ y) - / y) <= / 4 * eps * (/ y)) as HE.
  { assert (Hlow : / 4294967296 <= / y) by (apply Rinv_le_contravar; lra).
    assert (HN : bpow radix2 (-1022) <= Rabs (/ y)).
    { rewrite Rabs_pos_eq by lra. apply Rle_trans with (bpow radix2 (-40)); [apply bpow_le; lia|]. simpl. lra. }
    pose proof (relative_error_N_FLT radix2 (-1074) 53 ltac:(reflexivity) (fun z => negb (Z.even z)) (/ y) HN) as HR.
    rewrite (Rabs_pos_eq (/ y)) in HR by lra.
    eapply Rle_trans; [exact HR|]. simpl bpow. unfold eps. apply Rmult_le_compat_r; lra. }
  apply Rabs_le_inv in HE. set (z := rnd (/ y)) in *.
  assert (0 < eps < / 1000) as He by (unfold eps; lra).
  assert (0 <= x * / y <= 1) as Hxy. { split; [apply Rmult_le_pos; lra|]. apply Rmult_le_reg_r with y; [lra|]. rewrite Rmult_assoc, Rinv_l by lra. lra. }
  assert (x * / y - / 4 * eps <= x * z <= x * / y + / 4 * eps) as HB.
  { assert (- (/ 4 * eps * (x * / y)) <= x * (z - / y) <= / 4 * eps * (x * / y)) as HX.
    { replace (- (/ 4 * eps * (x * / y))) with (x * (- (/ 4 * eps * / y))) by ring. replace (/ 4 * eps * (x * / y)) with (x * (/ 4 * eps * / y)) by ring.
      split; apply Rmult_le_compat_l; lra. }
    split; nra. }
  pose proof (mul_R _ _ _ _ Rw R1 ltac:(apply rnd_small_ok; apply Rabs_le; fold x; lra)) as R2. fold f x in R2.
  exists (rnd (x * z)). split; [exact R2|]. pose proof (rnd_near (x * z) ltac:(apply Rabs_le; lra)).
  assert (0 <= x * z). { apply Rmult_le_pos; [lra|]. nra. }
  assert (0 <= rnd (x * z)) by (apply (rnd_ge_int _ 0); [simpl; lia|lra]).
  split; [lra|]. unfold Rdiv. apply Rabs_le. lra.
Qed.
Lemma sum_u32_total tw : (forall w, w ∈ tw -> (0 <= w)%Z) -> (total tw < W32)%Z -> sum_u32 tw = total tw /\ forall w, w ∈ tw -> (w <= total tw)%Z.
Proof.
  intros H HT. rewrite GraphFacts.sum_u32_sumf. change (sumf (@Datatypes.id Z) tw) with (sumf (fun x : Z => x) tw). assert (E : sumf (fun x : Z => x) tw = total tw /\ (0 <= total tw)%Z /\ forall w, w ∈ tw -> (w <= total tw)%Z).
  { clear HT. induction tw as [|x l IH]; [split; [done|split; [done|by intros w Hw%elem_of_nil]]|]. destruct IH as (E & H0 & HL); [intros w Hw; apply H; by right|].
    unfold total in *. cbn [foldr]. rewrite sumf_cons, E. pose proof (H x ltac:(by left)). split; [done|]. split; [lia|]. intros w [->|Hw]%elem_of_cons; [lia|]. specialize (HL w Hw). lia. }
  destruct E as (-> & H0 & HL). split; [|done]. apply u32_small. lia.
Qed.

(** A target given as weights: the weights and limits are kept, and the fractions are the weights' shares of their sum up to 2^-48. *)
Theorem C74_weights_give_fractions : forall tw tm, (forall w, w ∈ tw -> (0 <= w)%Z) -> (0 < total tw < W32)%Z ->
  t_wgt (target_of_weights tw tm) = tw /\ t_max (target_of_weights tw tm) = tm /\ length (t_frac (target_of_weights tw tm)) = length tw /\
  forall i w, tw !! i = Some w -> exists f r, t_frac (target_of_weights tw tm) !! i = Some f /\ isR f r /\ 0 <= r /\ Rabs (r - IZR w / IZR (total tw)) <= / 2 ^ 48.
Proof.
  intros tw tm H HT. destruct (sum_u32_total tw H ltac:(lia)) as [E HL]. unfold target_of_weights, calc_fractions. cbn [t_wgt t_max t_frac]. rewrite E.
  split; [done|]. split; [done|]. split; [by rewrite fmap_length|]. intros i w Hw. pose proof Hw as Hin%elem_of_list_lookup_2.
  destruct (one_fraction w (total tw)) as (r & Hr & H0 & HA); [split; [by apply H|by apply HL]|lia|].
  eexists _, r. rewrite list_lookup_fmap, Hw. split; [done|]. split; [exact Hr|]. split; [lra|]. eapply Rle_trans; [exact HA|]. unfold eps. simpl. lra.
Qed.
Print Assumptions C74_weights_give_fractions.
Example C74_nonvacuous : (forall w, w ∈ [10; 0; 30; 60]%Z -> (0 <= w)%Z) /\ total [10; 0; 30; 60]%Z = 100%Z /\
  exists f0 f1 f2 f3, t_frac (target_of_weights [10; 0; 30; 60]%Z [11; 0; 31; 62]%Z) = [f0; f1; f2; f3] /\ f1 = f_zero /\ flt f0 f2 = true /\ flt f2 f3 = true.
Proof.
  split; [intros w Hw; repeat (apply elem_of_cons in Hw as [->|Hw]; [lia|]); by apply elem_of_nil in Hw|]. split; [done|].
  eexists _, _, _, _. split; [vm_compute; reflexivity|]. split; [vm_compute; reflexivity|]. split; vm_compute; reflexivity.
Qed.
(** Without weight there are no shares: the fractions are not numbers; a sum beyond the weight type gives shares beyond 1. *)
Theorem C74_refuted : t_frac (target_of_weights [0; 0]%Z [0; 0]%Z) = [S754_nan; S754_nan] /\
  exists f0 f1, t_frac (target_of_weights [2147483648; 2147483650]%Z [0; 0]%Z) = [f0; f1] /\ flt (f_of_Z 1073741823) f0 = true.
Proof. split; [vm_compute; reflexivity|]. eexists _, _. split; [vm_compute; reflexivity|]. vm_compute. reflexivity. Qed.
Print Assumptions C74_refuted.
