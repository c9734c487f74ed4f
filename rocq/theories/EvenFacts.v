(** * EvenFacts: with two equal targets the balance metric separates balanced from unbalanced
    bisections (C31, C35). *)
From Coq Require Import ZArith Reals Floats.SpecFloat Psatz.
From Flocq Require Import Core.Core Relative IEEE754.BinarySingleNaN.
From Verif Require Import Base F64 ModelGraph ModelPartition ModelFM Spec Logic Sums GraphFacts PartFacts FloatOrder FMFacts MiscFacts FloatFacts FloatUse BisectFacts.
Local Open Scope R_scope.
#[local] Arguments flt : simpl never.
#[local] Arguments fle : simpl never.

#[local] Instance Hp53' : Prec_gt_0 53 := eq_refl _.
#[local] Instance fexp_valid : Valid_exp (SpecFloat.fexp 53 1024) := fexp_correct 53 1024 Hp53'.

(** absolute rounding error below 4 *)
Lemma rnd_err a : Rabs a <= 4 -> Rabs (rnd a - a) <= / 1125899906842624.
Proof.
  intros Ha. eapply Rle_trans; [apply error_le_half_ulp; typeclasses eauto|].
  assert (ulp radix2 (SpecFloat.fexp 53 1024) a <= ulp radix2 (SpecFloat.fexp 53 1024) 4).
  { apply ulp_le; [typeclasses eauto|apply FLT_exp_monotone|]. rewrite (Rabs_pos_eq 4) by lra. exact Ha. }
  assert (ulp radix2 (SpecFloat.fexp 53 1024) 4 = / 1125899906842624).
  { rewrite ulp_neq_0 by lra. unfold cexp. rewrite (mag_unique radix2 4 3).
    - unfold SpecFloat.fexp, SpecFloat.emin. simpl. reflexivity.
    - rewrite Rabs_pos_eq by lra. simpl. lra. }
  lra.
Qed.
Lemma rnd_small_ok a : Rabs a <= 4 -> Rabs (rnd a) < huge.
Proof. intros H. apply (no_overflow _ 4); [simpl; lia|exact H]. Qed.
Definition eps : R := / 1125899906842624.
Lemma rnd_between a x y : x <= a <= y -> -4 <= x -> y <= 4 -> x - eps <= rnd a <= y + eps.
Proof. intros H H1 H2. pose proof (rnd_err a ltac:(apply Rabs_le; lra)) as HE. apply Rabs_le_inv in HE. unfold eps. lra. Qed.
Lemma rnd_near a : Rabs a <= 4 -> a - eps <= rnd a <= a + eps.
Proof. intros H. apply Rabs_le_inv in H. apply rnd_between; lra. Qed.

(** the imbalance computed for a part of weight w *)
Definition imb (T : Z) (f : f64) (w : Z) : f64 := fsub (fdiv (fdiv (f_of_Z w) (f_of_Z T)) f) f_one.
Lemma imb_R T f r w : (0 <= w <= T)%Z -> (1 <= T < W32)%Z -> isR f r -> Rabs (r - 1/2) <= 8 * eps ->
  exists b, isR (imb T f w) b /\ Rabs (b - (2 * (IZR w / IZR T) - 1)) <= 64 * eps.
Proof.
  intros Hw HT Hf Hr. apply Rabs_le_inv in Hr.
  assert (0 <= w < W32)%Z as Hw' by lia. assert (0 <= T < W32)%Z as HT' by lia.
  pose proof (f_of_Z_R _ (W32_lt_53 _ Hw')) as Rw. pose proof (f_of_Z_R _ (W32_lt_53 _ HT')) as RT.
  pose proof (IZR_W32 _ Hw') as [w0 w1]. pose proof (IZR_W32 _ HT') as [T0 T1]. rewrite W32_R in *.
  assert (1 <= IZR T) as T2 by (apply (IZR_le 1); lia).
  assert (IZR w <= IZR T) as wT by (apply IZR_le; lia).
  set (q := IZR w / IZR T) in *.
  assert (0 <= q <= 1) as Hq.
  { unfold q. split.
    - apply Rmult_le_pos; [lra|]. left. apply Rinv_0_lt_compat. lra.
    - apply Rmult_le_reg_r with (IZR T); [lra|]. unfold Rdiv. rewrite Rmult_assoc, Rinv_l by lra. lra. }
  assert (0 < eps < / 1000000) as He by (unfold eps; lra).
  pose proof (div_R _ _ _ _ Rw RT ltac:(lra) ltac:(apply rnd_small_ok; apply Rabs_le; fold q; lra)) as R1. fold q in R1.
  pose proof (rnd_near q ltac:(apply Rabs_le; lra)) as H1. set (q1 := rnd q) in *.
  assert (0 <= q1) as Hq1 by (apply (rnd_ge_int _ 0); [simpl; lia|lra]).
  assert (q1 <= 1) as Hq1' by (apply (rnd_le_int _ 1); [simpl; lia|lra]).
  (* q1 / r is within 32 eps of 2 q1 *)
  assert (2 * q1 - 40 * eps <= q1 / r <= 2 * q1 + 40 * eps) as H2.
  { assert (q1 / r * r = q1) as Hqr by (unfold Rdiv; rewrite Rmult_assoc, Rinv_l by lra; ring).
    set (z := q1 / r) in *. split; nra. }
  pose proof (div_R _ _ _ _ R1 Hf ltac:(lra) ltac:(apply rnd_small_ok; apply Rabs_le; lra)) as R2.
  pose proof (rnd_near (q1 / r) ltac:(apply Rabs_le; lra)) as H3. set (z := rnd (q1 / r)) in *.
  pose proof (sub_R _ _ _ _ R2 f_one_R ltac:(apply rnd_small_ok; apply Rabs_le; lra)) as R3.
  pose proof (rnd_near (z - 1) ltac:(apply Rabs_le; lra)) as H4.
  exists (rnd (z - 1)). split; [exact R3|]. apply Rabs_le. lra.
Qed.

Definition near_half (f : f64) : Prop := exists r, isR f r /\ Rabs (r - 1/2) <= 8 * eps.
Lemma imb_sep T f w w' : (0 <= w)%Z -> (w < w' <= T)%Z -> (1 <= T < W32)%Z -> near_half f -> flt (imb T f w) (imb T f w') = true.
Proof.
  intros H0 H1 HT (r & Hr & Hn).
  destruct (imb_R T f r w ltac:(lia) HT Hr Hn) as (b & Rb & Eb).
  destruct (imb_R T f r w' ltac:(lia) HT Hr Hn) as (b' & Rb' & Eb').
  rewrite (flt_R _ _ _ _ Rb Rb'). apply Rlt_bool_true. apply Rabs_le_inv in Eb, Eb'.
  assert (0 <= T < W32)%Z as HT' by lia. pose proof (IZR_W32 _ HT') as [T0 T1]. rewrite W32_R in *.
  assert (1 <= IZR T) as T2 by (apply (IZR_le 1); lia).
  assert (IZR w + 1 <= IZR w') as Hw by (rewrite <- (plus_IZR w 1); apply IZR_le; lia).
  assert (IZR w / IZR T + / 4294967296 <= IZR w' / IZR T) as Hgap.
  { assert (/ 4294967296 <= / IZR T) as Hi by (apply Rinv_le_contravar; lra).
    unfold Rdiv. nra. }
  unfold eps in *. lra.
Qed.
Lemma imb_pos T f w : (0 <= w <= T)%Z -> (1 <= T < W32)%Z -> near_half f -> (T < 2 * w)%Z -> flt f_zero (imb T f w) = true.
Proof.
  intros H0 HT (r & Hr & Hn) Hw. destruct (imb_R T f r w ltac:(lia) HT Hr Hn) as (b & Rb & Eb).
  rewrite (flt_R _ _ _ _ f_zero_R Rb). apply Rlt_bool_true. apply Rabs_le_inv in Eb.
  assert (0 <= T < W32)%Z as HT' by lia. pose proof (IZR_W32 _ HT') as [T0 T1]. rewrite W32_R in *.
  assert (1 <= IZR T) as T2 by (apply (IZR_le 1); lia).
  assert (IZR T + 1 <= 2 * IZR w) as Hww by (rewrite <- (plus_IZR T 1), <- (mult_IZR 2 w); apply IZR_le; lia).
  assert (1/2 + / 8589934592 <= IZR w / IZR T) as Hgap.
  { assert (/ 4294967296 <= / IZR T) as Hi by (apply Rinv_le_contravar; lra).
    assert (IZR T * / IZR T = 1) by (apply Rinv_r; lra). unfold Rdiv. nra. }
  unfold eps in *. lra.
Qed.
Lemma imb_nan T f w : (0 <= w <= T)%Z -> (1 <= T < W32)%Z -> near_half f -> ~ is_nan (imb T f w).
Proof.
  intros H0 HT (r & Hr & Hn) Hw. destruct (imb_R T f r w ltac:(lia) HT Hr Hn) as (b & (x & Hx & Hfin & _) & _).
  unfold is_nan in Hw. rewrite Hw in Hx. destruct x; simpl in *; congruence.
Qed.

(** ** Targets with two equal parts *)
Definition even (t : target) : Prop := exists f m, t_frac t = [f; f] /\ t_max t = [m; m] /\ near_half f.
Lemma even_uniform W tol t : target_uniform 2 W tol = Ok t -> even t.
Proof.
  unfold target_uniform, target_of_fractions. set (fr := replicate 2 (fdiv f_one (f_of_nat 2))).
  assert (fr = [S754_finite false 4503599627370496 (-53); S754_finite false 4503599627370496 (-53)]) as -> by (vm_compute; reflexivity).
  destruct (check_fractions _ _ _) as [s|]; [|discriminate]. cbn [obind]. destruct (_ || _); [discriminate|].
  simpl calc_target_weight. destruct (f_to_u32 _) as [w|]; [|discriminate]. cbn [obind].
  simpl calc_max_weight. destruct (f_to_u32 _) as [m|]; [|discriminate]. cbn [obind]. intros [= <-].
  eexists _, m. split; [reflexivity|]. split; [reflexivity|].
  eexists. split; [apply lit_R; reflexivity|]. lit. unfold eps. apply Rabs_le. lra.
Qed.
Lemma even_weights w m : (0 < w)%Z -> (2 * w < W32)%Z -> even (target_of_weights [w; w] [m; m]).
Proof.
  intros Hw Hw2. unfold target_of_weights, calc_fractions.
  assert (sum_u32 [w; w] = 2 * w)%Z as ->. { unfold sum_u32. simpl. rewrite !u32_small; try lia. rewrite u32_small; lia. }
  set (f := fmul (f_of_Z w) (fdiv f_one (f_of_Z (2 * w)))). exists f, m. split; [reflexivity|]. split; [reflexivity|].
  assert (0 <= w < W32)%Z as Hw' by lia. assert (0 <= 2 * w < W32)%Z as HT' by lia.
  pose proof (f_of_Z_R _ (W32_lt_53 _ Hw')) as Rw. pose proof (f_of_Z_R _ (W32_lt_53 _ HT')) as RT.
  assert (1 <= IZR w) as W1 by (apply (IZR_le 1); lia). rewrite mult_IZR in RT. set (x := IZR w) in *.
  assert (0 < / x <= 1) as Hx. { split; [apply Rinv_0_lt_compat; lra|]. rewrite <- Rinv_1. apply Rinv_le_contravar; lra. }
  assert (1 / (2 * x) = / 2 * / x) as E1 by (field; lra).
  pose proof (div_R _ _ _ _ f_one_R RT ltac:(lra) ltac:(apply rnd_small_ok; apply Rabs_le; lra)) as R1. rewrite E1 in R1.
  (* relative error of the reciprocal *)
  assert (Rabs (rnd (/ 2 * / x) - / 2 * / x) <= 2 * eps * (/ 2 * / x)) as HE.
  { assert (Hpos : 0 < / 2 * / x) by lra.
    assert (Hlow : / 4294967296 <= / x). { apply Rinv_le_contravar; [lra|]. unfold x. apply IZR_le. unfold W32 in *. lia. }
    assert (HN : bpow radix2 (-1022) <= Rabs (/ 2 * / x)).
    { rewrite Rabs_pos_eq by lra. apply Rle_trans with (bpow radix2 (-40)); [apply bpow_le; lia|]. simpl. lra. }
    pose proof (relative_error_N_FLT radix2 (-1074) 53 ltac:(reflexivity) (fun z => negb (Z.even z)) (/ 2 * / x) HN) as HR.
    rewrite (Rabs_pos_eq (/ 2 * / x)) in HR by lra.
    eapply Rle_trans; [exact HR|]. simpl bpow. unfold eps. apply Rmult_le_compat_r; lra. }
  apply Rabs_le_inv in HE. set (y := rnd (/ 2 * / x)) in *.
  assert (x * / x = 1) as Hxx by (apply Rinv_r; lra).
  assert (/ 2 - eps <= x * y <= / 2 + eps) as HB.
  { assert (0 < eps) by (unfold eps; lra). split; nra. }
  assert (0 < eps < / 1000) as He by (unfold eps; lra).
  pose proof (mul_R _ _ _ _ Rw R1 ltac:(apply rnd_small_ok; apply Rabs_le; lra)) as R2. fold f in R2.
  exists (rnd (x * y)). split; [exact R2|]. pose proof (rnd_near (x * y) ltac:(apply Rabs_le; lra)). apply Rabs_le. lra.
Qed.

(** The weights of a complete bisection add up to the total. *)
Lemma two_weights g p : wf_graph g -> light g -> valid_part 2 g p ->
  exists a b, p_pw p = [a; b] /\ (0 <= a)%Z /\ (0 <= b)%Z /\ (a + b = g_tvw g)%Z.
Proof.
  intros Hwf Hl HV. destruct (valid_pw g p 0 HV ltac:(lia)) as [_ E0]. destruct (valid_pw g p 1 HV ltac:(lia)) as [_ E1].
  rewrite (light_u32 g _ _ Hwf Hl) in E0. rewrite (light_u32 g _ _ Hwf Hl) in E1.
  pose proof (label_weight_bounds g (lab p) (Some 0%nat) Hwf) as B0. pose proof (label_weight_bounds g (lab p) (Some 1%nat) Hwf) as B1.
  assert (HT : g_tvw g = sumn (nv g) (vweight g)).
  { rewrite (wf_tvw g Hwf). apply u32_small. unfold light in Hl. lia. }
  assert (HS : (label_weight g (lab p) (Some 0%nat) + label_weight g (lab p) (Some 1%nat) = sumn (nv g) (vweight g))%Z).
  { unfold label_weight. rewrite <- sumf_add. apply sumn_ext. intros v Hv. destruct HV as [[_ HL] _].
    destruct (HL v Hv) as (i & Hi & Hlu). unfold lab. rewrite (nth_lookup_Some _ _ _ _ Hlu).
    destruct i as [|[|i]]; [| |lia]; repeat (case_decide; try congruence); lia. }
  destruct HV as [_ [HP _]]. destruct (p_pw p) as [|a [|b [|]]] eqn:EP; try discriminate. exists a, b.
  unfold pw in *. rewrite EP in *. simpl in E0, E1. subst a b. split; [reflexivity|]. lia.
Qed.

Lemma imb_is g t p f m i a : t_frac t = [f; f] -> t_max t = [m; m] -> p_pw p !! i = Some a -> (i < 2)%nat ->
  get_imbalance g t p i = Ok (imb (g_tvw g) f a).
Proof.
  intros Hf Hm Ha Hi. unfold get_imbalance, get_fraction. rewrite Hf, (rd_ok _ _ _ Ha).
  destruct i as [|[|i]]; [| |lia]; reflexivity.
Qed.

Theorem even_separates g t p p' b b' : wf_graph g -> light g -> even t -> valid_part 2 g p -> valid_part 2 g p' ->
  calc_max_imbalance g t p = Ok b -> calc_max_imbalance g t p' = Ok b' ->
  balanced t p -> ~ balanced t p' -> flt b b' = true.
Proof.
  intros Hwf Hl (f & m & Hf & Hm & Hn) HV HV' Hb Hb' HB HN.
  destruct (two_weights g p Hwf Hl HV) as (a0 & a1 & EP & A0 & A1 & AS).
  destruct (two_weights g p' Hwf Hl HV') as (c0 & c1 & EP' & C0 & C1 & CS).
  assert (HT : (g_tvw g < W32)%Z) by (rewrite (wf_tvw g Hwf); unfold u32; apply Z.mod_pos_bound; reflexivity).
  pose proof (HB 0%nat ltac:(rewrite EP; simpl; lia)) as HB0. pose proof (HB 1%nat ltac:(rewrite EP; simpl; lia)) as HB1.
  rewrite EP, Hm in HB0, HB1. simpl in HB0, HB1.
  assert (HX : exists i w, p_pw p' !! i = Some w /\ (i < 2)%nat /\ (m < w)%Z /\ (0 <= w <= g_tvw g)%Z).
  { destruct (Z.lt_ge_cases m c0); [exists 0%nat, c0; rewrite EP'; repeat split; try reflexivity; lia|].
    destruct (Z.lt_ge_cases m c1); [exists 1%nat, c1; rewrite EP'; repeat split; try reflexivity; lia|].
    exfalso. apply HN. intros i Hi. rewrite EP', Hm in *. destruct i as [|[|i]]; simpl in *; lia. }
  destruct HX as (i & w & Hw & Hi & Hmw & Hwr).
  destruct (Z.eq_dec (g_tvw g) 0) as [Hz|Hz]; [lia|]. assert (HT1 : (1 <= g_tvw g < W32)%Z) by lia.
  destruct (max_imbalance_spec _ _ _ _ Hb) as (_ & Nb & Hcase & _).
  destruct (max_imbalance_spec _ _ _ _ Hb') as (_ & Nb' & _ & Hall).
  destruct (Hall i ltac:(rewrite EP'; simpl; lia)) as (x & Hx & Hle). rewrite (imb_is g t p' f m i w Hf Hm Hw Hi) in Hx.
  injection Hx as <-. specialize (Hle (imb_nan _ _ _ Hwr HT1 Hn)).
  eapply flt_le_trans; [exact Nb'| |exact Hle]. destruct Hcase as [->|(j & Hj & Hjb)].
  - apply imb_pos; try done. lia.
  - assert (Ha : exists a, p_pw p !! j = Some a /\ (0 <= a)%Z /\ (a <= m)%Z).
    { rewrite EP in *. destruct j as [|[|j]]; simpl in *; [exists a0|exists a1|lia]; repeat split; try reflexivity; lia. }
    destruct Ha as (a & Ha & HA0 & HA1). rewrite (imb_is g t p f m j a Hf Hm Ha ltac:(rewrite EP in Hj; simpl in Hj; lia)) in Hjb.
    injection Hjb as <-. apply imb_sep; try done; lia.
Qed.
Lemma even_monotone g t : wf_graph g -> light g -> even t -> limits_monotone g t.
Proof.
  intros Hwf Hl He p p' b b' [HV _] [HV' _] Hb Hb' HB Hle.
  destruct He as (f & m & Hf & Hm & Hn). assert (Hd : balanced t p' \/ ~ balanced t p').
  { destruct (is_balanced_ok t p') as (x & _ & HD); [rewrite Hm; destruct HV' as [_ [-> _]]; simpl; lia|].
    unfold balanced. destruct x; [left; tauto|right; intros H; apply HD in H; discriminate]. }
  destruct Hd as [|HN]; [done|]. exfalso.
  assert (He : even t) by (exists f, m; done).
  pose proof (even_separates g t p p' b b' Hwf Hl He HV HV' Hb Hb' HB HN) as HS.
  destruct (max_imbalance_spec _ _ _ _ Hb) as (_ & Nb & _). destruct (max_imbalance_spec _ _ _ _ Hb') as (_ & Nb' & _).
  apply flt_nle in Hle; try done. congruence.
Qed.
