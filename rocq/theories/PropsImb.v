(** * PropsImb: C46 in numbers: what the imbalance of a part is. *)
From Coq Require Import ZArith Reals Floats.SpecFloat Psatz.
From Flocq Require Import Core.Core Relative IEEE754.BinarySingleNaN.
From Verif Require Import Base F64 ModelGraph ModelPartition Spec Logic FloatOrder FloatFacts FloatUse MiscFacts FMFacts TargetFacts PropsData.
Local Open Scope R_scope.
#[local] Arguments flt : simpl never.
#[local] Arguments fle : simpl never.

(** ** Specification *)
(** How far a part of weight w exceeds the share r of the total T, as a ratio: 0 is exactly the
    share, 1 is twice the share, -1 is an empty part. *)
Definition excess (T w : Z) (r : R) : R := IZR w / (IZR T * r) - 1.
(** Within 2^-50, relative to the ratio. *)
Definition close (T w : Z) (r x : R) : Prop := Rabs (x - excess T w r) <= / 2 ^ 50 * (IZR w / (IZR T * r) + 1).
(** A usable fraction: a double of value r, neither vanishing nor above one. *)
Definition share (t : target) (i : nat) (r : R) : Prop := exists f, t_frac t !! i = Some f /\ isR f r /\ / 2 ^ 40 <= r <= 1.

(** ** Proof *)
Lemma rnd_any a : exists d e, rnd a = a * (1 + d) + e /\ Rabs d <= urel /\ Rabs e <= / 2 ^ 100.
Proof.
  destruct (error_N_FLT radix2 (-1074) 53 eq_refl (fun x => negb (Z.even x)) a) as (d & e & Hd & He & _ & E).
  exists d, e. split; [exact E|]. split.
  - eapply Rle_trans; [exact Hd|]. right. change (- (53) + 1)%Z with (-52)%Z. unfold urel. cbn [bpow]. change (Z.pow_pos radix2 52) with 4503599627370496%Z. lra.
  - eapply Rle_trans; [exact He|]. apply Rle_trans with (bpow radix2 (-100)).
    + pose proof (bpow_gt_0 radix2 (-1074)). apply Rle_trans with (bpow radix2 (-1074)); [lra|]. apply bpow_le. lia.
    + right. cbn [bpow]. change (Z.pow_pos radix2 100) with 1267650600228229401496703205376%Z. f_equal. lra.
Qed.
Lemma scale_in a x y u : 0 <= a -> x * (1 - u) <= y <= x * (1 + u) -> x * a * (1 - u) <= y * a <= x * a * (1 + u).
Proof.
  intros Ha [H1 H2]. replace (x * a * (1 - u)) with (x * (1 - u) * a) by ring. replace (x * a * (1 + u)) with (x * (1 + u) * a) by ring.
  split; apply Rmult_le_compat_r; done.
Qed.
Lemma twice_in z b c u : 0 <= z -> 0 < u < / 1000000 -> z * (1 - u) <= b <= z * (1 + u) -> b * (1 - u) <= c <= b * (1 + u) -> z * (1 - 3 * u) <= c <= z * (1 + 3 * u).
Proof. intros Hz Hu H1 H2. assert (0 <= z * u) by (apply Rmult_le_pos; lra). assert (0 <= z * u * u) by (apply Rmult_le_pos; lra). assert (z * u * u <= z * u) by nra. split; nra. Qed.
Lemma last_in z z1 u d e : 0 <= z -> 0 < u < / 1000000 -> z * (1 - 3 * u) <= z1 <= z * (1 + 3 * u) -> - u <= d <= u -> - u <= e <= u ->
  Rabs ((z1 - 1) * (1 + d) + e - (z - 1)) <= 8 * u * (z + 1).
Proof.
  intros Hz Hu H1 Hd He.
  assert (0 <= z1) as Hz1 by nra. assert (z1 <= 2 * z) as Hz2 by nra.
  assert (- (u * (z1 + 1)) <= d * (z1 - 1) <= u * (z1 + 1)) as H5.
  { destruct (Rle_or_lt 1 z1); split; nra. }
  assert (u * (z1 + 1) <= u * (2 * z + 1)) as H6 by (apply Rmult_le_compat_l; lra).
  apply Rabs_le. split; nra.
Qed.
Lemma prod_in a b A B : 0 <= a <= A -> 0 <= b <= B -> 0 <= a * b <= A * B.
Proof. intros [H1 H2] [H3 H4]. split; [by apply Rmult_le_pos|]. by apply Rmult_le_compat. Qed.
Lemma prod_ge a b A B : 0 <= A -> 0 <= B -> A <= a -> B <= b -> A * B <= a * b.
Proof. intros. by apply Rmult_le_compat. Qed.
Definition b40 : R := 1099511627776.
Lemma imb_value T f w r : (0 <= w < 2 ^ 32)%Z -> (1 <= T < 2 ^ 32)%Z -> isR f r -> / 2 ^ 40 <= r <= 1 ->
  exists x, isR (fsub (fdiv (fdiv (f_of_Z w) (f_of_Z T)) f) f_one) x /\ close T w r x.
Proof.
  intros Hw HT Hf Hr. assert (0 <= w < W32)%Z as Hw' by exact Hw. assert (0 <= T < W32)%Z as HT' by (unfold W32; lia).
  pose proof (f_of_Z_R _ (W32_lt_53 _ Hw')) as Rw. pose proof (f_of_Z_R _ (W32_lt_53 _ HT')) as RT.
  pose proof (IZR_W32 _ Hw') as [w0 w1]. pose proof (IZR_W32 _ HT') as [T0 T1]. rewrite W32_R in *.
  assert (1 <= IZR T) as T2 by (apply (IZR_le 1); lia).
  unfold close, excess.
  assert (/ 2 ^ 50 = 8 * urel) as -> by (unfold urel; lra).
  replace (2 ^ 40) with b40 in Hr by (unfold b40; lra).
  assert (IZR w = 0 \/ 1 <= IZR w) as Hw2. { destruct (decide (w = 0%Z)) as [->|]; [by left|]. right. apply (IZR_le 1). lia. }
  set (W := IZR w) in *. set (U := IZR T) in *.
  assert (0 < urel < / 1000000) as Hu by (unfold urel; lra).
  assert (/ 2 ^ 100 <= urel) as H100 by (unfold urel; lra).
  assert (0 < r) as Hr0 by (unfold b40 in *; lra).
  set (q := W / U) in *. set (z := W / (U * r)) in *.
  assert (z = q / r) as Ez by (unfold z, q; field; lra).
  assert (q = W * / U) as Eq by reflexivity.
  assert (0 <= / U <= 1) as HU. { split; [left; apply Rinv_0_lt_compat; lra|]. rewrite <- Rinv_1. apply Rinv_le_contravar; lra. }
  assert (/ 4294967296 <= / U) as HU2 by (apply Rinv_le_contravar; lra).
  assert (1 <= / r <= b40) as HR.
  { split; [rewrite <- Rinv_1; apply Rinv_le_contravar; lra|]. rewrite <- (Rinv_inv b40). apply Rinv_le_contravar; [|lra]. unfold b40. lra. }
  assert (0 <= q <= 4294967296) as Hq. { rewrite Eq. pose proof (prod_in W (/ U) 4294967296 1). lra. }
  assert (q = 0 \/ / 4294967296 <= q) as Hq2.
  { rewrite Eq. destruct Hw2 as [->|Hw2]; [left; lra|right]. pose proof (prod_ge W (/ U) 1 (/ 4294967296)). lra. }
  assert (forall a, 0 <= a <= 4294967296 * 4294967296 * 4294967296 -> Rabs (rnd a) < huge) as Hbig.
  { intros a Ha. destruct (rnd_any a) as (d & e & -> & Hd & He). apply Rle_lt_trans with (bpow radix2 100).
    - cbn [bpow]. change (Z.pow_pos radix2 100) with 1267650600228229401496703205376%Z. apply Rabs_le_inv in Hd, He.
      pose proof (prod_in a (1 + d) (4294967296 * 4294967296 * 4294967296) 2 Ha ltac:(lra)). apply Rabs_le. lra.
    - apply bpow_lt. lia. }
  assert (forall a, a = 0 \/ / 4294967296 / 4294967296 <= a -> a * (1 - urel) <= rnd a <= a * (1 + urel)) as Hrel.
  { intros a [->|Ha]; [|apply rnd_rel; lra]. rewrite (rnd_id 0) by apply generic_format_0. lra. }
  pose proof (div_R _ _ _ _ Rw RT ltac:(fold U; lra) ltac:(apply Hbig; fold W U q; lra)) as R1. fold W U q in R1.
  pose proof (Hrel q ltac:(destruct Hq2; [left|right]; lra)) as H1. set (q1 := rnd q) in *.
  assert (q1 = 0 \/ / 8589934592 <= q1) as Hq3.
  { destruct Hq2 as [E|Hq2]; [left; rewrite E in H1; lra|right]. pose proof (prod_ge q (1 - urel) (/ 4294967296) (/ 2)). lra. }
  assert (0 <= q1 <= 8589934592) as Hq4.
  { pose proof (prod_in q (1 + urel) 4294967296 2 Hq ltac:(lra)). pose proof (prod_in q (1 - urel) 4294967296 2 Hq ltac:(lra)). lra. }
  assert (0 <= q1 / r <= 4294967296 * 4294967296 * 4294967296) as Hq5.
  { pose proof (prod_in q1 (/ r) 8589934592 b40 Hq4 ltac:(lra)). unfold Rdiv, b40 in *. lra. }
  pose proof (div_R _ _ _ _ R1 Hf ltac:(lra) ltac:(apply Hbig; lra)) as R2.
  assert (q1 / r = 0 \/ / 4294967296 / 4294967296 <= q1 / r) as Hq6.
  { unfold Rdiv. destruct Hq3 as [->|Hq3]; [left; lra|right]. pose proof (prod_ge q1 (/ r) (/ 8589934592) 1). lra. }
  pose proof (Hrel _ Hq6) as H3. set (z1 := rnd (q1 / r)) in *.
  pose proof (scale_in (/ r) q q1 urel ltac:(lra) H1) as H2. fold (q / r) (q1 / r) in H2. rewrite <- Ez in H2.
  assert (0 <= z <= 4294967296 * b40) as Hz. { rewrite Ez. apply prod_in; lra. }
  pose proof (twice_in z _ z1 urel ltac:(lra) Hu H2 H3) as H4.
  destruct (rnd_any (z1 - 1)) as (d & e & E & Hd & He). apply Rabs_le_inv in Hd, He.
  pose proof (last_in z z1 urel d e ltac:(lra) Hu H4 Hd ltac:(lra)) as H5. rewrite <- E in H5.
  pose proof (sub_R _ _ _ _ R2 f_one_R) as R3. fold z1 in R3.
  exists (rnd (z1 - 1)). split; [|exact H5].
  apply R3. apply Rle_lt_trans with (bpow radix2 100); [|apply bpow_lt; lia].
  cbn [bpow]. change (Z.pow_pos radix2 100) with 1267650600228229401496703205376%Z. apply Rabs_le_inv in H5.
  assert (8 * urel * (z + 1) <= 1 * (z + 1)) as H6 by (apply Rmult_le_compat_r; lra).
  apply Rabs_le. unfold b40 in Hz. lra.
Qed.

(** ** C46: the imbalance of a part is its excess over its share, up to rounding. *)
Theorem C46_imbalance_value : forall g t p i w r, (1 <= g_tvw g < 2 ^ 32)%Z -> p_pw p !! i = Some w -> (0 <= w < 2 ^ 32)%Z -> share t i r ->
  exists f x, get_imbalance g t p i = Ok f /\ isR f x /\ close (g_tvw g) w r x.
Proof.
  intros g t p i w r HT Hp Hw (f & Hf & HR & Hr). destruct (imb_value _ _ _ _ Hw HT HR Hr) as (x & A & B).
  eexists _, x. split; [|done]. unfold get_imbalance, get_fraction. rewrite (rd_ok _ _ _ Hf), (rd_ok _ _ _ Hp). reflexivity.
Qed.
Print Assumptions C46_imbalance_value.
(** ... and the maximum imbalance is the largest of them, or 0. *)
Theorem C46_max_imbalance_value : forall g t p, (1 <= g_tvw g < 2 ^ 32)%Z -> (length (p_pw p) <= length (t_frac t))%nat ->
  (forall i w, p_pw p !! i = Some w -> (0 <= w < 2 ^ 32)%Z /\ exists r, share t i r) ->
  exists m x, calc_max_imbalance g t p = Ok m /\ isR m x /\ 0 <= x /\
    (x = 0 \/ exists i w r, p_pw p !! i = Some w /\ share t i r /\ close (g_tvw g) w r x) /\
    forall i w r, p_pw p !! i = Some w -> share t i r -> exists y, close (g_tvw g) w r y /\ y <= x.
Proof.
  intros g t p HT HL Hall. destruct (calc_max_imbalance_ok g t p HL) as [m E]. exists m.
  destruct (max_imbalance_spec g t p m E) as (A & B & C & D).
  assert (exists x, isR m x /\ (x = 0 \/ exists i w r, p_pw p !! i = Some w /\ share t i r /\ close (g_tvw g) w r x)) as (x & Hx & HC).
  { destruct C as [->|(i & Hi & Ei)]; [exists 0; split; [apply f_zero_R|by left]|].
    destruct (lookup_lt_is_Some_2 _ _ Hi) as [w Hw]. destruct (Hall i w Hw) as [Hb [r Hr]].
    destruct (C46_imbalance_value g t p i w r HT Hw Hb Hr) as (f & x & E1 & E2 & E3). rewrite E1 in Ei. injection Ei as <-. exists x. split; [done|]. right. by exists i, w, r. }
  exists x. split; [done|]. split; [done|]. split.
  { rewrite (fle_R _ _ _ _ f_zero_R Hx) in A. destruct (Rle_bool_spec 0 x); [done|discriminate]. }
  split; [done|]. intros i w r Hw Hr. destruct (Hall i w Hw) as [Hb _].
  destruct (C46_imbalance_value g t p i w r HT Hw Hb Hr) as (f & y & E1 & E2 & E3). exists y. split; [done|].
  destruct (D i (lookup_lt_Some _ _ _ Hw)) as (f' & E4 & E5). rewrite E1 in E4. injection E4 as <-.
  assert (~ is_nan f) as Hn. { intros ->. destruct E2 as (b & Hb1 & Hb2 & _). destruct b; done. }
  specialize (E5 Hn). rewrite (fle_R _ _ _ _ E2 Hx) in E5. destruct (Rle_bool_spec y x); [done|discriminate].
Qed.
Print Assumptions C46_max_imbalance_value.
(** Weights 5 and 15 for two equal shares of 20: the second part is 0.5 above its share. *)
Example C46_value_nonvacuous : g_tvw (ex31 1 3) = 20%Z /\ p_pw (ex31_p 1) = [5; 15]%Z /\ share ex31_t 0 (/ 2) /\ share ex31_t 1 (/ 2) /\
  excess 20 15 (/ 2) = / 2 /\ calc_max_imbalance (ex31 1 3) ex31_t (ex31_p 1) = Ok (S754_finite false 4503599627370496 (-53)).
Proof.
  assert (isR (S754_finite false 4503599627370496 (-53)) (/ 2)) as H.
  { replace (/ 2) with (F2R (Float radix2 4503599627370496 (-53))); [apply (lit_R false); vm_compute; reflexivity|]. lit. lra. }
  split; [vm_compute; reflexivity|]. split; [reflexivity|].
  split; [|split; [|split]].
  - eexists. split; [vm_compute; reflexivity|]. split; [exact H|lra].
  - eexists. split; [vm_compute; reflexivity|]. split; [exact H|lra].
  - unfold excess. lra.
  - vm_compute. reflexivity.
Qed.
