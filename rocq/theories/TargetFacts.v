(** * TargetFacts: targets of partitioning and of the bisections it is made of (C11, C36, C37). *)
From Coq Require Import ZArith Reals Floats.SpecFloat Psatz.
From Flocq Require Import Core.Core Relative IEEE754.BinarySingleNaN.
From Verif Require Import Base F64 ModelGraph ModelPartition ModelRecursive Spec Logic Sums GraphFacts FloatFacts FloatUse EvenFacts RecFacts.
Local Open Scope R_scope.
#[local] Arguments flt : simpl never.
#[local] Arguments fle : simpl never.

(** What is assumed of std::log2: exactly 0 at 1, finite and at least 1 from 2 on. *)
Definition log2_spec (lg : nat -> f64) : Prop := lg 1%nat = f_zero /\ forall k, (2 <= k)%nat -> exists r, isR (lg k) r /\ 1 <= r.
(** A double in [0,1]. *)
Definition unit_f (x : f64) : Prop := exists r, isR x r /\ 0 <= r <= 1.

Lemma factor_unit lg k : log2_spec lg -> (2 <= k)%nat -> unit_f (tolerance_factor lg k).
Proof.
  intros [_ H] Hk. destruct (H k Hk) as (r & Hr & Hr1). unfold tolerance_factor.
  assert (0 < / r <= 1) as Hi.
  { split; [apply Rinv_0_lt_compat; lra|]. rewrite <- Rinv_1. apply Rinv_le_contravar; lra. }
  assert (1 / r = / r) as E by (unfold Rdiv; lra).
  assert (0 <= rnd (1 / r) <= 1) as Hb.
  { rewrite E. split; [apply (rnd_ge_int _ 0); [simpl; lia|lra]|apply (rnd_le_int _ 1); [simpl; lia|lra]]. }
  exists (rnd (1 / r)). split; [|exact Hb]. apply (div_R _ _ _ _ f_one_R Hr ltac:(lra)).
  apply (no_overflow _ 1); [simpl; lia|]. rewrite E. rewrite Rabs_pos_eq; lra.
Qed.

(** ** The accumulation max += target + excess * factor *)
Lemma bis_add m0 tw ex tolf : unit_f tolf -> (0 <= m0 < W32)%Z -> (0 <= tw < W32)%Z -> (0 <= ex < W32)%Z ->
  exists z, (m0 + tw <= z <= m0 + tw + ex)%Z /\
    f_to_u32 (fadd (f_of_Z m0) (fadd (f_of_Z tw) (fmul (f_of_Z ex) tolf))) = (if decide (z < W32)%Z then Ok z else Fail (UB FloatCast)).
Proof.
  intros (r & Hr & Hr1) Hm Ht He.
  pose proof (f_of_Z_R _ (W32_lt_53 _ Hm)) as Rm. pose proof (f_of_Z_R _ (W32_lt_53 _ Ht)) as Rt. pose proof (f_of_Z_R _ (W32_lt_53 _ He)) as Re.
  pose proof (IZR_W32 _ Hm) as [m0' m1]. pose proof (IZR_W32 _ Ht) as [t0 t1]. pose proof (IZR_W32 _ He) as [e0 e1]. rewrite W32_R in *.
  assert (B53 : forall z, (0 <= z <= 3 * W32)%Z -> (Z.abs z <= 2 ^ 53)%Z) by (intros z; unfold W32; change (2 ^ 53)%Z with 9007199254740992%Z; lia).
  assert (0 <= IZR ex * r <= IZR ex) as H1 by nra.
  pose proof (rnd_ge_int _ 0 ltac:(simpl; lia) (proj1 H1)) as A1.
  pose proof (rnd_le_int _ ex ltac:(apply B53; lia) (proj2 H1)) as A2.
  pose proof (mul_R _ _ _ _ Re Hr ltac:(apply (no_overflow _ ex); [apply B53; lia|rewrite Rabs_pos_eq; lra])) as R1.
  set (a := rnd (IZR ex * r)) in *.
  pose proof (add_R _ _ _ _ Rt R1 ltac:(apply (no_overflow _ (tw + ex)); [apply B53; lia|rewrite plus_IZR, Rabs_pos_eq; lra])) as R2.
  pose proof (rnd_ge_int (IZR tw + a) tw ltac:(apply B53; lia) ltac:(lra)) as A3.
  pose proof (rnd_le_int (IZR tw + a) (tw + ex) ltac:(apply B53; lia) ltac:(rewrite plus_IZR; lra)) as A4. rewrite plus_IZR in A4.
  set (b := rnd (IZR tw + a)) in *.
  pose proof (add_R _ _ _ _ Rm R2 ltac:(apply (no_overflow _ (m0 + (tw + ex))); [apply B53; lia|rewrite !plus_IZR, Rabs_pos_eq; lra])) as R3.
  pose proof (rnd_ge_int (IZR m0 + b) (m0 + tw) ltac:(apply B53; lia) ltac:(rewrite plus_IZR; lra)) as A5.
  pose proof (rnd_le_int (IZR m0 + b) (m0 + tw + ex) ltac:(apply B53; lia) ltac:(rewrite !plus_IZR; lra)) as A6.
  set (c := rnd (IZR m0 + b)) in *.
  assert (0 <= c) as C0 by (eapply Rle_trans; [|exact A5]; apply (IZR_le 0); lia).
  exists (Zfloor c). split.
  - split; [by apply Zfloor_lub|]. apply le_IZR. eapply Rle_trans; [apply Zfloor_lb|exact A6].
  - unfold f_to_u32. rewrite (ftrunc_R _ _ R3). rewrite Ztrunc_floor by done.
    assert (0 <= Zfloor c)%Z by (apply Zfloor_lub; exact C0). repeat case_decide; try done; lia.
Qed.

(** ** Targets of a bisection *)
(** Targets within limits, all in range. *)
Definition sane (t : target) : Prop :=
  length (t_max t) = length (t_wgt t) /\
  forall i w m, t_wgt t !! i = Some w -> t_max t !! i = Some m -> (0 <= w <= m)%Z /\ (m < W32)%Z.
Definition zat (l : list Z) (i : nat) : Z := nth i l 0%Z.
(** Sum of the entries of the first / second half of k parts. *)
Definition low_sum (k : nat) (l : list Z) : Z := sumf (zat l) (seq 0 (k / 2)).
Definition high_sum (k : nat) (l : list Z) : Z := sumf (zat l) (seq (k / 2) (k - k / 2)).

Local Open Scope Z_scope.
Lemma bisect_target_wp t tolf : sane t -> unit_f tolf ->
  wpo (bisect_target t tolf) (fun f => f = UB FloatCast /\ ~ (low_sum (t_np t) (t_max t) < W32 /\ high_sum (t_np t) (t_max t) < W32)) (fun bt =>
    exists ma mb, bt = target_of_weights [low_sum (t_np t) (t_wgt t); high_sum (t_np t) (t_wgt t)] [ma; mb] /\
      low_sum (t_np t) (t_wgt t) <= ma <= low_sum (t_np t) (t_max t) /\ high_sum (t_np t) (t_wgt t) <= mb <= high_sum (t_np t) (t_max t) /\
      ma < W32 /\ mb < W32).
Proof.
  intros [HL HS] Hu. unfold bisect_target. set (k := t_np t).
  set (lo := fun l j => sumn j (fun i => if decide (i < k / 2)%nat then zat l i else 0)).
  set (hi := fun l j => sumn j (fun i => if decide (i < k / 2)%nat then 0 else zat l i)).
  assert (Hlo : forall l, lo l k = low_sum k l).
  { intros l. unfold lo, low_sum. pose proof (half_le k). rewrite (sumn_le_split (k / 2) k) by done.
    rewrite (sumf_zero _ (seq (k / 2) _)). 2: { intros a Ha%elem_of_seq. rewrite decide_False by lia. done. }
    rewrite Z.add_0_r. apply sumn_ext. intros v Hv. by rewrite decide_True. }
  assert (Hhi : forall l, hi l k = high_sum k l).
  { intros l. unfold hi, high_sum. pose proof (half_le k). rewrite (sumn_le_split (k / 2) k) by done.
    rewrite (sumf_zero _ (seq 0 (k / 2))). 2: { intros a Ha%elem_of_seq. rewrite decide_True by lia. done. }
    rewrite Z.add_0_l. apply sumf_ext. intros v Hv%elem_of_seq. rewrite decide_False by lia. done. }
  assert (Hat : forall i, (i < k)%nat -> t_wgt t !! i = Some (zat (t_wgt t) i) /\ t_max t !! i = Some (zat (t_max t) i) /\
     0 <= zat (t_wgt t) i <= zat (t_max t) i /\ zat (t_max t) i < W32).
  { intros i Hi. unfold k, t_np in Hi. assert (E1 : t_wgt t !! i = Some (zat (t_wgt t) i)) by (by apply lookup_nth).
    assert (E2 : t_max t !! i = Some (zat (t_max t) i)) by (apply lookup_nth; lia). split; [done|]. split; [done|]. by apply (HS i). }
  assert (Hmono : forall (F : nat -> Z) j, (forall i, (i < k)%nat -> 0 <= F i) -> (j <= k)%nat -> sumn j F <= sumn k F).
  { intros F j HF Hj. rewrite (sumn_le_split j k) by done. pose proof (sumf_nonneg F (seq j (k - j))) as Hnn.
    assert (0 <= sumf F (seq j (k - j))) by (apply Hnn; intros a Ha%elem_of_seq; apply HF; lia). lia. }
  eapply wpo_bind.
  - apply (ofold_seq_wp (fun j b => exists ma mb, b = mkBT [lo (t_wgt t) j; hi (t_wgt t) j] [ma; mb] /\
      lo (t_wgt t) j <= ma <= lo (t_max t) j /\ hi (t_wgt t) j <= mb <= hi (t_max t) j /\ ma < W32 /\ mb < W32 /\ 0 <= lo (t_wgt t) j /\ 0 <= hi (t_wgt t) j)).
    + assert (Z0 : forall l, lo l 0%nat = 0 /\ hi l 0%nat = 0) by done.
      exists 0, 0. destruct (Z0 (t_wgt t)) as [-> ->]. destruct (Z0 (t_max t)) as [-> ->]. unfold W32. split; [done|]. lia.
    + intros j b Hj (ma & mb & -> & H1 & H2 & H3 & H4 & H5 & H6). destruct (Hat j Hj) as (E1 & E2 & E3 & E4).
      set (w := zat (t_wgt t) j) in *. set (m := zat (t_max t) j) in *.
      assert (Sl : forall l, lo l (S j) = lo l j + if decide (j < k / 2)%nat then zat l j else 0) by (intros l; unfold lo; by rewrite sumn_S).
      assert (Sh : forall l, hi l (S j) = hi l j + if decide (j < k / 2)%nat then 0 else zat l j) by (intros l; unfold hi; by rewrite sumn_S).
      unfold bis_step. rewrite (rd_ok _ _ _ E1). cbn [obind]. unfold max_excess. rewrite (rd_ok _ _ _ E2). cbn [obind]. rewrite (rd_ok _ _ _ E1). cbn [obind].
      rewrite (u32_small (m - w)) by lia.
      unfold half_of. cbn [bt_tgt bt_max]. destruct (Nat.leb_spec (k / 2) j) as [Hh|Hh].
      * cbn [rd lookup list_lookup obind]. destruct (bis_add mb w (m - w) tolf Hu ltac:(lia) ltac:(lia) ltac:(lia)) as (z & Hz & ->).
        destruct (decide (z < W32)) as [Hzw|Hzw].
        -- cbn [obind]. rewrite !wr_ok by (cbn; lia). cbn [obind wpo insert list_insert bt_tgt bt_max]. rewrite !Sl, !Sh, !(decide_False (P := (j < k / 2)%nat)) by lia. rewrite !Z.add_0_r.
           fold w m. exists ma, z. split; [rewrite u32_small by lia; done|]. lia.
        -- cbn. split; [done|]. intros [_ Hc]. rewrite <- Hhi in Hc.
           assert (hi (t_max t) (S j) <= hi (t_max t) k).
           { apply Hmono; [|lia]. intros i Hi. destruct (Hat i Hi) as (_ & _ & ? & _). destruct (decide (i < k / 2)%nat); lia. }
           rewrite Sh, decide_False in H by lia. fold m in H. lia.
      * cbn [rd lookup list_lookup obind]. destruct (bis_add ma w (m - w) tolf Hu ltac:(lia) ltac:(lia) ltac:(lia)) as (z & Hz & ->).
        destruct (decide (z < W32)) as [Hzw|Hzw].
        -- cbn [obind]. rewrite !wr_ok by (cbn; lia). cbn [obind wpo insert list_insert bt_tgt bt_max]. rewrite !Sl, !Sh, !(decide_True (P := (j < k / 2)%nat)) by lia. rewrite !Z.add_0_r.
           fold w m. exists z, mb. split; [rewrite u32_small by lia; done|]. lia.
        -- cbn. split; [done|]. intros [Hc _]. rewrite <- Hlo in Hc.
           assert (lo (t_max t) (S j) <= lo (t_max t) k).
           { apply Hmono; [|lia]. intros i Hi. destruct (Hat i Hi) as (_ & _ & ? & _). destruct (decide (i < k / 2)%nat); lia. }
           rewrite Sl, decide_True in H by lia. fold m in H. lia.
  - intros b (ma & mb & -> & H1 & H2 & H3 & H4 & _). rewrite !Hlo, !Hhi in *. cbn. eauto 10.
Qed.

(** ** Checking the fractions *)
Definition bad_fraction (f : f64) : bool := flt f f_zero || fgt f f_one.
Lemma check_fractions_eq all fr : forall s, check_fractions all fr s =
  if existsb bad_fraction fr then throw_fractions all else Ok (fold_left fadd fr s).
Proof.
  induction fr as [|f fr IH]; intros s; [done|]. cbn [check_fractions existsb fold_left]. unfold bad_fraction at 1.
  destruct (flt f f_zero || fgt f f_one) eqn:E; cbn [orb]; [done|]. apply IH.
Qed.

Local Open Scope R_scope.
Definition urel : R := / 9007199254740992.
Lemma rnd_rel a : / 1267650600228229401496703205376 <= a -> a * (1 - urel) <= rnd a <= a * (1 + urel).
Proof.
  intros Ha. assert (0 < a) as Hpos by (eapply Rlt_le_trans; [|exact Ha]; lra).
  pose proof (relative_error_N_FLT radix2 (-1074) 53 eq_refl (fun x => negb (Z.even x)) a) as H.
  assert (Rabs (round radix2 (FLT_exp (-1074) 53) (Znearest (fun x => negb (Z.even x))) a - a) <= / 2 * bpow radix2 (- (53) + 1) * Rabs a) as HE.
  { apply H. rewrite (Rabs_pos_eq a) by lra. eapply Rle_trans; [|exact Ha].
    eapply Rle_trans; [apply (bpow_le radix2 _ (-100)); lia|]. right. cbn [bpow]. reflexivity. }
  rewrite (Rabs_pos_eq a) in HE by lra. apply Rabs_le_inv in HE.
  change (round radix2 (FLT_exp (-1074) 53) (Znearest (fun x => negb (Z.even x))) a) with (rnd a) in HE.
  change (- (53) + 1)%Z with (-52)%Z in *.
  assert (/ 2 * bpow radix2 (-52) = urel) as Eu by (unfold urel; cbn [bpow]; change (Z.pow_pos radix2 52) with 4503599627370496%Z; lra).
  rewrite Eu in HE. lra.
Qed.

(** ** One part *)
Definition tolerance_ok (tol : f64) (x : R) : Prop := isR tol x /\ 0 <= x <= 1048576.
Lemma B53 z : (0 <= z <= 9007199254740992)%Z -> (Z.abs z <= 2 ^ 53)%Z.
Proof. change (2 ^ 53)%Z with 9007199254740992%Z. lia. Qed.

Lemma target_part f r T : isR f r -> 0 <= r <= 1 -> (0 <= T < W32)%Z ->
  f_to_u32 (fmul f (f_of_Z T)) = Ok (Zfloor (rnd (r * IZR T))) /\ 0 <= rnd (r * IZR T) /\ (0 <= Zfloor (rnd (r * IZR T)) <= T)%Z.
Proof.
  intros Hf Hr HT. pose proof (f_of_Z_R _ (W32_lt_53 _ HT)) as RT. pose proof (IZR_W32 _ HT) as [T0 T1]. rewrite W32_R in *.
  assert (0 <= r * IZR T <= IZR T) as Hp by nra.
  pose proof (rnd_ge_int _ 0 ltac:(simpl; lia) (proj1 Hp)) as A0. pose proof (rnd_le_int _ T (W32_lt_53 _ HT) (proj2 Hp)) as A1.
  pose proof (mul_R _ _ _ _ Hf RT ltac:(apply (no_overflow _ T); [by apply W32_lt_53|rewrite Rabs_pos_eq; lra])) as R1.
  split; [|split; [exact A0|split]].
  - apply (f_to_u32_R _ _ R1); [exact A0|]. rewrite W32_R. lra.
  - apply Zfloor_lub. exact A0.
  - apply le_IZR. eapply Rle_trans; [apply Zfloor_lb|exact A1].
Qed.
Lemma max_part f r T tol x : isR f r -> 0 <= r <= 1 -> (0 <= T < W32)%Z -> tolerance_ok tol x ->
  let y := rnd (rnd (r * rnd (1 + x)) * IZR T) in
  rnd (r * IZR T) <= y /\ 
  f_to_u32 (fmul (fmul f (fadd f_one tol)) (f_of_Z T)) = if decide (Zfloor y < W32)%Z then Ok (Zfloor y) else Fail (UB FloatCast).
Proof.
  intros Hf Hr HT [Htol Hx] y. pose proof (f_of_Z_R _ (W32_lt_53 _ HT)) as RT. pose proof (IZR_W32 _ HT) as [T0 T1]. rewrite W32_R in *.
  assert (1 <= rnd (1 + x)) as A1 by (apply (rnd_ge_int _ 1); [simpl; lia|lra]).
  assert (rnd (1 + x) <= 1048577) as A2 by (apply (rnd_le_int _ 1048577); [apply B53; lia|lra]).
  pose proof (add_R _ _ _ _ f_one_R Htol ltac:(apply (no_overflow _ 1048577); [apply B53; lia|rewrite Rabs_pos_eq; lra])) as R1.
  set (o := rnd (1 + x)) in *.
  assert (r <= r * o <= 1048577) as A3 by nra.
  assert (rnd r = r) as Er by (apply rnd_id, (isR_generic _ _ Hf)).
  assert (r <= rnd (r * o)) as A4 by (rewrite <- Er at 1; apply rnd_le; lra).
  assert (rnd (r * o) <= 1048577) as A5 by (apply (rnd_le_int _ 1048577); [apply B53; lia|lra]).
  pose proof (mul_R _ _ _ _ Hf R1 ltac:(apply (no_overflow _ 1048577); [apply B53; lia|rewrite Rabs_pos_eq; lra])) as R2.
  set (b := rnd (r * o)) in *.
  assert (r * IZR T <= b * IZR T <= 4503603922337792) as A6 by nra.
  assert (rnd (r * IZR T) <= y) as A7 by (apply rnd_le; lra).
  assert (0 <= r * IZR T) as A8 by nra.
  assert (0 <= y) as A9 by (eapply Rle_trans; [|exact A7]; apply (rnd_ge_int _ 0); [simpl; lia|lra]).
  pose proof (mul_R _ _ _ _ R2 RT ltac:(apply (no_overflow _ 4503603922337792); [apply B53; lia|rewrite Rabs_pos_eq; lra])) as R3. fold y in R3.
  split; [exact A7|]. unfold f_to_u32. rewrite (ftrunc_R _ _ R3), Ztrunc_floor by done.
  assert (0 <= Zfloor y)%Z by (apply Zfloor_lub; exact A9). repeat case_decide; try done; lia.
Qed.

(** ** Any fractions *)
Lemma calc_target_weight_ok fr T : Forall unit_f fr -> (0 <= T < W32)%Z ->
  exists tw, calc_target_weight T fr = Ok tw /\ length tw = length fr /\
    forall i f r, fr !! i = Some f -> isR f r -> tw !! i = Some (Zfloor (rnd (r * IZR T))).
Proof.
  intros HF HT. induction HF as [|f fr (r & Hr & Hb) HF IH]; [by exists []|]. destruct IH as (tw & E & HL & HI). cbn [calc_target_weight].
  destruct (target_part f r T Hr Hb HT) as (E1 & _). rewrite E1. cbn [obind]. rewrite E. cbn [obind]. eexists. split; [done|].
  split; [cbn; lia|]. intros [|i] f' r' Hf Hr'; cbn in *; [|by eapply HI].
  injection Hf as <-. destruct Hr as (b1 & B1 & B2 & B3). destruct Hr' as (b2 & C1 & C2 & C3).
  assert (b1 = b2) by (apply B2SF_inj; congruence). subst b2. congruence.
Qed.
Lemma isR_fun x a b : isR x a -> isR x b -> a = b.
Proof. intros (b1 & B1 & B2 & B3) (b2 & C1 & C2 & C3). assert (b1 = b2) by (apply B2SF_inj; congruence). congruence. Qed.
Definition max_value (r x : R) (T : Z) : R := rnd (rnd (r * rnd (1 + x)) * IZR T).
Lemma calc_max_weight_ok fr T tol x : Forall unit_f fr -> (0 <= T < W32)%Z -> tolerance_ok tol x ->
  wpo (calc_max_weight T tol fr) (fun e => e = UB FloatCast /\ exists i f r, fr !! i = Some f /\ isR f r /\ (W32 <= Zfloor (max_value r x T))%Z)
    (fun tm => length tm = length fr /\
      forall i f r, fr !! i = Some f -> isR f r -> tm !! i = Some (Zfloor (max_value r x T)) /\ (Zfloor (max_value r x T) < W32)%Z).
Proof.
  intros HF HT Hx. induction HF as [|f fr (r & Hr & Hb) HF IH]; [done|]. cbn [calc_max_weight].
  destruct (max_part f r T tol x Hr Hb HT Hx) as (_ & E1). fold (max_value r x T) in E1. rewrite E1.
  destruct (decide (Zfloor (max_value r x T) < W32)%Z) as [Hlt|Hge].
  - cbn [obind]. eapply wpo_bind; [eapply wpo_mono; [exact IH| |]|].
    + intros e (-> & i & f' & r' & H). split; [done|]. exists (S i), f', r'. exact H.
    + intros tm H. exact H.
    + intros tm [HL HI]. cbn. split; [lia|]. intros [|i] f' r' Hf Hr'; cbn in *; [|by eapply HI].
      injection Hf as <-. rewrite (isR_fun _ _ _ Hr' Hr). done.
  - cbn. split; [done|]. exists 0%nat, f, r. repeat split; try done. lia.
Qed.

(** A target accepted from fractions is sane: limits at least targets. *)
Lemma good_fraction_unit f r : isR f r -> bad_fraction f = false -> unit_f f.
Proof.
  intros Hr Hb. unfold bad_fraction, fgt in Hb. apply orb_false_iff in Hb as [H1 H2].
  rewrite (flt_R _ _ _ _ Hr f_zero_R) in H1. change (SFltb f_one f) with (flt f_one f) in H2. rewrite (flt_R _ _ _ _ f_one_R Hr) in H2.
  exists r. split; [done|]. split; [destruct (Rlt_bool_spec r 0); [done|lra]|destruct (Rlt_bool_spec 1 r); [done|lra]].
Qed.
Lemma existsb_false_Forall {A} (p : A -> bool) l : existsb p l = false -> Forall (fun a => p a = false) l.
Proof. induction l as [|a l IH]; cbn; [constructor|]. intros [H1 H2]%orb_false_iff. constructor; auto. Qed.
Lemma fractions_sane T tol x fr t : (0 <= T < W32)%Z -> tolerance_ok tol x -> Forall (fun f => exists r, isR f r) fr ->
  target_of_fractions T tol fr = Ok t -> sane t /\ t_np t = length fr /\ t_frac t = fr /\
    forall i w, t_wgt t !! i = Some w -> (0 <= w <= T)%Z.
Proof.
  intros HT Hx HF E. unfold target_of_fractions in E. rewrite check_fractions_eq in E.
  destruct (existsb bad_fraction fr) eqn:Eb.
  { unfold throw_fractions in E. destruct (Nat.ltb (length fr) 2); done. }
  cbn [obind] in E. destruct (flt _ min_fraction_sum || fgt _ max_fraction_sum).
  { unfold throw_fractions in E. destruct (Nat.ltb (length fr) 2); done. }
  assert (HU : Forall unit_f fr).
  { apply existsb_false_Forall in Eb. rewrite Forall_forall in *. intros f Hf. destruct (HF f Hf) as [r Hr]. by eapply good_fraction_unit; eauto. }
  destruct (calc_target_weight_ok fr T HU HT) as (tw & Ew & Lw & Hw). rewrite Ew in E. cbn [obind] in E.
  pose proof (calc_max_weight_ok fr T tol x HU HT Hx) as Hm. destruct (calc_max_weight T tol fr) as [tm|]; [|done]. cbn [obind wpo] in *.
  injection E as <-. destruct Hm as [Lm Hm]. unfold sane, t_np. cbn [t_wgt t_max t_frac].
  assert (Hf : forall i, (i < length fr)%nat -> exists f r, fr !! i = Some f /\ isR f r /\ 0 <= r <= 1).
  { intros i Hi. apply lookup_lt_is_Some in Hi as [f Hf]. rewrite Forall_forall in HU. destruct (HU f) as (r & Hr & Hb); [by eapply elem_of_list_lookup_2|]. eauto. }
  split; [split; [lia|]|split; [done|split; [done|]]].
  - intros i w m Hi Hi'. destruct (Hf i) as (f & r & E1 & E2 & E3); [rewrite <- Lw; by eapply lookup_lt_Some|].
    rewrite (Hw i f r E1 E2) in Hi. injection Hi as <-. destruct (Hm i f r E1 E2) as [E4 E5]. rewrite E4 in Hi'. injection Hi' as <-.
    destruct (target_part f r T E2 E3 HT) as (_ & P0 & P1). destruct (max_part f r T tol x E2 E3 HT Hx) as [P2 _]. fold (max_value r x T) in P2.
    split; [split; [lia|]|done]. by apply Zfloor_le.
  - intros i w Hi. destruct (Hf i) as (f & r & E1 & E2 & E3); [rewrite <- Lw; by eapply lookup_lt_Some|].
    rewrite (Hw i f r E1 E2) in Hi. injection Hi as <-. by destruct (target_part f r T E2 E3 HT) as (_ & P0 & P1).
Qed.

(** ** Uniform fractions *)
Section Uniform.
  Context (k : nat) (Hk : (1 <= k)%nat) (Hk32 : (Z.of_nat k < W32)%Z).
  Local Notation K := (IZR (Z.of_nat k)).
  Definition ufrac : f64 := fdiv f_one (f_of_nat k).
  Definition uval : R := rnd (1 / K).
  Lemma K_range : 1 <= K <= 4294967295.
  Proof. split; [apply (IZR_le 1); lia|]. pose proof (IZR_W32 (Z.of_nat k) ltac:(lia)) as [_ H]. rewrite W32_R in H. lra. Qed.
  Lemma invK_range : / 4294967296 < / K <= 1.
  Proof.
    pose proof K_range. split; [apply Rinv_lt_contravar; [|lra]; apply Rmult_lt_0_compat; lra|]. apply Rle_trans with (/ 1); [apply Rinv_le_contravar; lra|rewrite Rinv_1; lra].
  Qed.
  Lemma uval_rel : / K * (1 - urel) <= uval <= / K * (1 + urel).
  Proof.
    unfold uval. replace (1 / K) with (/ K) by (unfold Rdiv; lra). apply rnd_rel. pose proof invK_range. lra.
  Qed.
  Lemma uval_unit : 0 <= uval <= 1.
  Proof.
    pose proof invK_range. unfold uval. replace (1 / K) with (/ K) by (unfold Rdiv; lra).
    split; [apply (rnd_ge_int _ 0); [simpl; lia|lra]|apply (rnd_le_int _ 1); [simpl; lia|lra]].
  Qed.
  Lemma ufrac_R : isR ufrac uval.
  Proof.
    pose proof K_range. pose proof invK_range. unfold ufrac, f_of_nat. apply div_R; [apply f_one_R|apply f_of_Z_R, W32_lt_53; lia|lra|].
    apply rnd_small_ok. replace (1 / K) with (/ K) by (unfold Rdiv; lra). rewrite Rabs_pos_eq; lra.
  Qed.
  Lemma usum : forall j, (j <= k)%nat -> exists s, isR (fold_left fadd (replicate j ufrac) f_zero) s /\
     Rabs (s - IZR (Z.of_nat j) * uval) <= IZR (Z.of_nat j) * eps /\ 0 <= s.
  Proof.
    pose proof K_range as HK. pose proof invK_range as HI. pose proof uval_rel as HU. pose proof uval_unit as HU1. pose proof ufrac_R as HR.
    assert (0 < eps < / 1000000000000000) as He by (unfold eps; lra).
    assert (0 < urel < / 1000000000000000) as Hur by (unfold urel; lra).
    assert (K * uval <= 1 + urel) as HKU.
    { assert (K * (/ K * (1 + urel)) = 1 + urel) as E by (field; lra). rewrite <- E. apply Rmult_le_compat_l; lra. }
    induction j as [|j IH]; intros Hj.
    - exists 0. split; [apply f_zero_R|]. change (IZR (Z.of_nat 0)) with 0. rewrite !Rmult_0_l, Rminus_0_r, Rabs_R0. split; lra.
    - destruct IH as (s & Hs & Hb & H0); [lia|].
      replace (replicate (S j) ufrac) with (replicate j ufrac ++ [ufrac]) by (symmetry; apply replicate_S_end).
      rewrite fold_left_app. cbn [fold_left].
      assert (IZR (Z.of_nat (S j)) = IZR (Z.of_nat j) + 1) as EJ by (rewrite Nat2Z.inj_succ, succ_IZR; done).
      assert (0 <= IZR (Z.of_nat j)) as HJ0 by (apply (IZR_le 0); lia).
      assert (IZR (Z.of_nat (S j)) <= K) as HJK by (apply IZR_le; lia).
      apply Rabs_le_inv in Hb. set (J := IZR (Z.of_nat j)) in *. rewrite EJ in *.
      assert (J * uval <= 1 + urel) as HJU by (apply Rle_trans with (K * uval); [apply Rmult_le_compat_r; lra|lra]).
      assert (J * eps <= / 100000) as HJE by (unfold eps in *; lra).
      assert (0 <= s + uval <= 3) as HS by lra.
      pose proof (add_R _ _ _ _ Hs HR ltac:(apply rnd_small_ok; rewrite Rabs_pos_eq; lra)) as R1.
      exists (rnd (s + uval)). split; [exact R1|].
      pose proof (rnd_near (s + uval) ltac:(rewrite Rabs_pos_eq; lra)) as HN. split.
      + apply Rabs_le. lra.
      + apply (rnd_ge_int _ 0); [simpl; lia|lra].
  Qed.
  Lemma uniform_accepted T tol : check_fractions (default_fractions k) (default_fractions k) f_zero = Ok (fold_left fadd (default_fractions k) f_zero) /\
    (flt (fold_left fadd (default_fractions k) f_zero) min_fraction_sum || fgt (fold_left fadd (default_fractions k) f_zero) max_fraction_sum) = false /\
    target_of_fractions T tol (default_fractions k) = let! tw := calc_target_weight T (default_fractions k) in
      let! tm := calc_max_weight T tol (default_fractions k) in Ok (mkTarget (default_fractions k) tw tm).
  Proof.
    pose proof K_range as HK. pose proof invK_range as HI. pose proof uval_rel as HU. pose proof uval_unit as HU1. pose proof ufrac_R as HR.
    assert (0 < urel < / 1000000000000000) as Hur by (unfold urel; lra).
    assert (E1 : check_fractions (default_fractions k) (default_fractions k) f_zero = Ok (fold_left fadd (default_fractions k) f_zero)).
    { rewrite check_fractions_eq. replace (existsb bad_fraction (default_fractions k)) with false; [done|]. symmetry.
      unfold default_fractions. fold ufrac. clear - HR HU1. induction k as [|j IH]; [done|]. cbn [replicate existsb].
      rewrite IH, orb_false_r. unfold bad_fraction, fgt. rewrite (flt_R _ _ _ _ HR f_zero_R). change (SFltb f_one ufrac) with (flt f_one ufrac).
      rewrite (flt_R _ _ _ _ f_one_R HR). rewrite !Rlt_bool_false by lra. done. }
    assert (E2 : (flt (fold_left fadd (default_fractions k) f_zero) min_fraction_sum || fgt (fold_left fadd (default_fractions k) f_zero) max_fraction_sum) = false).
    { destruct (usum k (le_n _)) as (s & Hs & Hb & H0). unfold default_fractions. fold ufrac. apply Rabs_le_inv in Hb.
      assert (1 - urel <= K * uval <= 1 + urel) as HKU.
      { assert (K * (/ K * (1 + urel)) = 1 + urel) as E by (field; lra). assert (K * (/ K * (1 - urel)) = 1 - urel) as E' by (field; lra).
        rewrite <- E, <- E'. split; apply Rmult_le_compat_l; lra. }
      assert (K * eps <= / 100000) as HJE by (unfold eps; lra).
      assert (exists a, isR min_fraction_sum a /\ a < 99995/100000) as (a & Ra & Ha).
      { eexists. split; [change min_fraction_sum with (S754_finite false 9006298534815518 (-53)); apply lit_R; vm_compute; reflexivity|]. lit. lra. }
      assert (exists b, isR max_fraction_sum b /\ 100005/100000 < b) as (b & Rb & Hb').
      { eexists. split; [change max_fraction_sum with (S754_finite false 4504049987333233 (-52)); apply lit_R; vm_compute; reflexivity|]. lit. lra. }
      unfold fgt. rewrite (flt_R _ _ _ _ Hs Ra).
      change (SFltb max_fraction_sum (fold_left fadd (replicate k ufrac) f_zero)) with (flt max_fraction_sum (fold_left fadd (replicate k ufrac) f_zero)).
      rewrite (flt_R _ _ _ _ Rb Hs). rewrite !Rlt_bool_false by lra. done. }
    split; [done|]. split; [done|]. unfold target_of_fractions. rewrite E1. cbn [obind]. rewrite E2. done.
  Qed.

  (** The target weight of a uniform part. *)
  Lemma uniform_weight T : (0 <= T < W32)%Z -> (T / Z.of_nat k - 1 <= Zfloor (rnd (uval * IZR T)) <= T / Z.of_nat k)%Z.
  Proof.
    intros HT. pose proof K_range as HK. pose proof invK_range as HI. pose proof uval_rel as HU. pose proof uval_unit as HU1.
    pose proof (IZR_W32 _ HT) as [T0 T1]. rewrite W32_R in *.
    assert (0 < urel < / 1000000000000000) as Hur by (unfold urel; lra).
    destruct (decide (T = 0%Z)) as [->|HT0].
    { rewrite Rmult_0_r. change 0 with (IZR 0) at 1 2. rewrite rnd_id by (apply int_generic; simpl; lia). rewrite Zfloor_IZR, Z.div_0_l by lia. lia. }
    assert (1 <= IZR T) as HT1 by (apply (IZR_le 1); lia).
    set (q := (T / Z.of_nat k)%Z). assert (HQ : (Z.of_nat k * q <= T <= Z.of_nat k * q + Z.of_nat k - 1)%Z).
    { unfold q. pose proof (Z.div_mod T (Z.of_nat k) ltac:(lia)). pose proof (Z.mod_pos_bound T (Z.of_nat k) ltac:(lia)). lia. }
    assert (HQR : K * IZR q <= IZR T <= K * IZR q + K - 1).
    { rewrite <- mult_IZR. split; [apply IZR_le; lia|]. rewrite <- plus_IZR, <- minus_IZR. apply IZR_le. lia. }
    set (x := / K * IZR T). assert (Hx : IZR q <= x <= IZR q + 1 - / K).
    { unfold x. split.
      - apply Rmult_le_reg_l with K; [lra|]. rewrite <- Rmult_assoc, Rinv_r by lra. lra.
      - apply Rmult_le_reg_l with K; [lra|]. rewrite <- Rmult_assoc, Rinv_r by lra. replace (K * (IZR q + 1 - / K)) with (K * IZR q + K - 1) by (field; lra). lra. }
    assert (Hx0 : / K <= x) by (unfold x; nra).
    assert (HxT : x <= IZR T) by (unfold x; nra).
    assert (Hp : x * (1 - urel) <= uval * IZR T <= x * (1 + urel)) by (unfold x; nra).
    assert (Hlow : / 1267650600228229401496703205376 <= uval * IZR T).
    { eapply Rle_trans; [|apply Hp]. apply Rle_trans with (/ 4294967296 * (1/2)); [lra|]. apply Rmult_le_compat; lra. }
    pose proof (rnd_rel _ Hlow) as Hr. set (y := uval * IZR T) in *.
    split.
    - apply Zfloor_lub. rewrite minus_IZR.
      assert (x * (1 - urel) * (1 - urel) <= rnd y) as A by (eapply Rle_trans; [|exact (proj1 Hr)]; apply Rmult_le_compat_r; lra).
      assert (x * (1 - urel) * (1 - urel) = x - 2 * (x * urel) + x * urel * urel) as B by ring.
      assert (0 <= x * urel * urel) as C by (repeat apply Rmult_le_pos; lra).
      assert (x * urel <= 4294967295 * urel) as D by (apply Rmult_le_compat_r; lra). unfold urel in D at 2. lra.
    - assert (Zfloor (rnd y) < q + 1)%Z; [|lia]. apply lt_IZR. eapply Rle_lt_trans; [apply Zfloor_lb|]. rewrite plus_IZR.
      assert (rnd y <= x * (1 + urel) * (1 + urel)) as A by (eapply Rle_trans; [exact (proj2 Hr)|]; apply Rmult_le_compat_r; lra).
      assert (x * (1 + urel) * (1 + urel) = x + x * (2 * urel + urel * urel)) as B by ring.
      assert (urel * urel <= urel) as B2 by (rewrite <- (Rmult_1_r urel) at 3; apply Rmult_le_compat_l; lra).
      assert (x * (2 * urel + urel * urel) <= x * (3 * urel)) as B3 by (apply Rmult_le_compat_l; lra).
      assert (x * (3 * urel) = / K * (IZR T * (3 * urel))) as C by (unfold x; ring).
      assert (IZR T * (3 * urel) < 1) as D.
      { apply Rle_lt_trans with (4294967295 * (3 * urel)); [apply Rmult_le_compat_r; lra|unfold urel; lra]. }
      assert (/ K * (IZR T * (3 * urel)) < / K * 1) as F by (apply Rmult_lt_compat_l; lra). lra.
  Qed.
  (** ... and its maximum with the default tolerance. *)
  Lemma uniform_max T x : (0 <= T < W32)%Z -> isR f_0_03 x -> 10299/10000 * IZR T <= K * max_value uval x T <= 10301/10000 * IZR T.
  Proof.
    intros HT Hx. pose proof K_range as HK. pose proof invK_range as HI. pose proof uval_rel as HU. pose proof uval_unit as HU1.
    pose proof (IZR_W32 _ HT) as [T0 T1]. rewrite W32_R in *.
    assert (0 < urel < / 1000000000000000) as Hur by (unfold urel; lra).
    assert (x <= 300001/10000000 /\ 299999/10000000 <= x) as [Hx1 Hx0].
    { assert (isR f_0_03 (F2R (Float radix2 8646911284551352 (-58)))) as Hl by (apply lit_R; vm_compute; reflexivity).
      rewrite (isR_fun _ _ _ Hx Hl). lit. lra. }
    unfold max_value. assert (10299998/10000000 <= rnd (1 + x) <= 10300002/10000000) as Ho.
    { pose proof (rnd_near (1 + x) ltac:(rewrite Rabs_pos_eq; lra)) as [H' H]. unfold eps in H, H'. split; lra. }
    set (o := rnd (1 + x)) in *.
    assert (/ K * (1 - urel) <= uval * o) as L1.
    { apply Rle_trans with (uval * 1); [lra|apply Rmult_le_compat_l; lra]. }
    assert (/ 1267650600228229401496703205376 <= uval * o) as L2.
    { eapply Rle_trans; [|exact L1]. apply Rle_trans with (/ 4294967296 * (1/2)); [lra|]. apply Rmult_le_compat; lra. }
    pose proof (rnd_rel _ L2) as Hr1. set (b := rnd (uval * o)) in *.
    assert (K * uval <= 1 + urel) as KU.
    { assert (K * (/ K * (1 + urel)) = 1 + urel) as E by (field; lra). rewrite <- E. apply Rmult_le_compat_l; lra. }
    assert (K * b <= (1 + urel) * (1 + urel) * o) as KB.
    { assert (K * b <= K * (uval * o * (1 + urel))) as A by (apply Rmult_le_compat_l; lra).
      assert (K * (uval * o * (1 + urel)) = (K * uval) * (o * (1 + urel))) as B by ring. rewrite B in A.
      assert ((K * uval) * (o * (1 + urel)) <= (1 + urel) * (o * (1 + urel))) by (apply Rmult_le_compat_r; [|lra]; nra). lra. }
    assert (K * b <= 1030001/1000000) as KB'.
    { assert ((1 + urel) * (1 + urel) <= 1 + / 10000000) as Hsq by nra. apply Rle_trans with ((1 + / 10000000) * o); [|lra].
      eapply Rle_trans; [exact KB|]. apply Rmult_le_compat_r; lra. }
    destruct (decide (T = 0%Z)) as [->|HT0].
    { assert (rnd (b * 0) = 0) as -> by (rewrite Rmult_0_r; change 0 with (IZR 0) at 1; rewrite rnd_id by (apply int_generic; simpl; lia); done). lra. }
    assert (1 <= IZR T) as HT1 by (apply (IZR_le 1); lia).
    assert (/ K * (1 - urel) * (1 - urel) <= b) as LB by (eapply Rle_trans; [|exact (proj1 Hr1)]; apply Rmult_le_compat_r; lra).
    assert (/ 4294967296 * (1/2) * (1/2) <= b) as LB'.
    { eapply Rle_trans; [|exact LB]. apply Rmult_le_compat; [lra|lra| |lra]. apply Rmult_le_compat; lra. }
    assert (/ 1267650600228229401496703205376 <= b * IZR T) as L3.
    { apply Rle_trans with (/ 4294967296 * (1/2) * (1/2) * 1); [lra|]. apply Rmult_le_compat; lra. }
    pose proof (rnd_rel _ L3) as Hr2.
    split.
    { assert (1 - urel <= K * uval) as KU1.
      { assert (K * (/ K * (1 - urel)) = 1 - urel) as E by (field; lra). rewrite <- E. apply Rmult_le_compat_l; lra. }
      assert (1029999/1000000 <= K * b) as KB1.
      { apply Rle_trans with (K * (uval * o * (1 - urel))); [|apply Rmult_le_compat_l; lra].
        replace (K * (uval * o * (1 - urel))) with ((K * uval) * (1 - urel) * o) by ring.
        assert (1 - / 10000000 <= (K * uval) * (1 - urel)) as Hsq.
        { apply Rle_trans with ((1 - urel) * (1 - urel)); [nra|apply Rmult_le_compat_r; lra]. }
        apply Rle_trans with ((1 - / 10000000) * o); [lra|apply Rmult_le_compat_r; lra]. }
      apply Rle_trans with (K * (b * IZR T * (1 - urel))); [|apply Rmult_le_compat_l; lra].
      replace (K * (b * IZR T * (1 - urel))) with ((K * b) * ((1 - urel) * IZR T)) by ring.
      assert (0 <= (1 - urel) * IZR T) as P0 by (apply Rmult_le_pos; lra).
      apply Rle_trans with (1029999/1000000 * ((1 - urel) * IZR T)); [|apply Rmult_le_compat_r; lra].
      assert (urel * IZR T <= / 1000000 * IZR T) as P1 by (apply Rmult_le_compat_r; lra). lra. }
    apply Rle_trans with (K * (b * IZR T * (1 + urel))); [apply Rmult_le_compat_l; lra|].
    replace (K * (b * IZR T * (1 + urel))) with ((K * b) * ((1 + urel) * IZR T)) by ring.
    assert (0 <= (1 + urel) * IZR T) as P0 by (apply Rmult_le_pos; lra).
    apply Rle_trans with (1030001/1000000 * ((1 + urel) * IZR T)); [apply Rmult_le_compat_r; lra|].
    assert (urel * IZR T <= / 1000000 * IZR T) as P1 by (apply Rmult_le_compat_r; lra). lra.
  Qed.
End Uniform.
