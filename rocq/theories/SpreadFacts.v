(** * SpreadFacts: how evenly one bisection into unequal halves divides a graph, and what is left for
    the parts further down (C03, C62). *)
From Coq Require Import ZArith Reals Floats.SpecFloat Psatz.
From Flocq Require Import Core.Core Relative IEEE754.BinarySingleNaN.
From Verif Require Import Base F64 ModelGraph ModelPartition ModelConn ModelFM ModelAgg ModelMultilevel ModelBisect ModelRecursive ModelApi Spec Logic Sums
  GraphFacts PartFacts ConnFacts FMFacts MiscFacts FloatOrder FloatFacts FloatUse BisectFacts EvenFacts AggFacts ContractFacts MultilevelFacts SubFacts RecFacts TargetFacts PropsTarget
  LabelFacts ApiFacts TreeFacts PropsBisect QualityFacts BalanceFacts BoundFacts PowFacts AnyFacts.
Local Open Scope R_scope.
#[local] Arguments flt : simpl never.
#[local] Arguments fle : simpl never.
Local Open Scope nat_scope.

(** A graph to be divided into n parts of target w and limit m each; it weighs at most n w + D. *)
Record spread_inv (w m : Z) (n : nat) (D : Z) (t : target) (g : graph) : Prop := {
  sv_ud : undirected g;
  sv_ne : (Z.of_nat (ne g) < W32)%Z;
  sv_nv : (Z.of_nat (nv g) < W32)%Z;
  sv_null : (sumn (nv g) (vweight g) < NULL_WGT)%Z;
  sv_np : t_np t = n;
  sv_wgt : t_wgt t = replicate n w;
  sv_max : t_max t = replicate n m;
  sv_w : (0 < w <= m)%Z; sv_m : (m < W32)%Z; sv_kw : (Z.of_nat n * w < W32)%Z;
  sv_D : (0 <= D)%Z;
  sv_sum : (sumn (nv g) (vweight g) <= Z.of_nat n * w + D)%Z
}.
(** W bounds the weight of every vertex coarsening makes; the first half exceeds its share by at
    most X0, the second by at most X1. *)
Record fair_split (w e : Z) (n : nat) (D W X0 X1 : Z) : Prop := {
  fs_lim : (3 * (Z.of_nat n * w + D) <= 40 * W)%Z;
  fs_00 : (Z.of_nat (n / 2) * e + W <= X0)%Z;
  fs_01 : (Z.of_nat (n / 2) * (D + W) <= Z.of_nat (n - n / 2) * X0)%Z;
  fs_10 : (Z.of_nat (n - n / 2) * (Z.of_nat (n / 2) * e + W) <= Z.of_nat (n / 2) * X1)%Z;
  fs_11 : (D + W <= X1)%Z
}.
Definition over (X0 X1 : Z) (i : nat) : Z := if decide (i = 0) then X0 else X1.
Section Spread.
  Context (lg : nat -> f64) (Hlg : log2_spec lg) (scheme : Z) (bis : bisector) (Hb : api_bisector scheme = Ok bis) (w m : Z).
  Lemma spread_made D n W X0 X1 t g bt p s s' : 2 <= n -> (0 <= W)%Z -> spread_inv w m n D t g -> weights_below W g -> fair_split w (m - w) n D W X0 X1 -> bisect_target t (tolerance_factor lg (t_np t)) = Ok bt -> bis bt g s = Ok (p, s') ->
    forall i, i < 2 -> (label_weight g (lab p) (Some i) <= Z.of_nat (side_parts n i) * w + over X0 X1 i)%Z.
  Proof.
    intros Hn2 HW0 [Hud Hne Hnv Hnull Hnp Hw Hm Hwm Hm32 Hkw HD0 Hs] HW [Flim F00 F01 F10 F11] Ebt Ep.
    assert (Hlim : (3 * sumn (nv g) (vweight g) <= 40 * W)%Z) by lia. clear Flim.
    set (h := n / 2) in *. assert (Hh : h = n / 2) by done. set (h' := n - h) in *.
    assert (Hhh : 1 <= h /\ h <= h' /\ h' <= h + 1 /\ n = h + h').
    { pose proof (Nat.div_mod n 2 ltac:(lia)) as Hd. pose proof (Nat.mod_upper_bound n 2 ltac:(lia)) as Hu. rewrite <- Hh in Hd. unfold h'. lia. }
    assert (HS : targets_within_limits t).
    { split; [by rewrite Hw, Hm, !replicate_length|]. intros i a b H1 H2. rewrite Hw in H1. rewrite Hm in H2.
      apply lookup_replicate in H1 as [-> _]. apply lookup_replicate in H2 as [-> _]. change (2 ^ 32)%Z with W32. lia. }
    destruct (C11_bisection_targets lg t bt Hlg ltac:(lia) HS Ebt) as (Ht & ma & mb & Hmx & [A1 A2] & [B1 B2] & _ & _).
    rewrite Hnp, Hw, Hm in *. fold h in Ht, A1, A2, B1, B2. rewrite take_replicate, drop_replicate, !total_const in *.
    replace (h `min` n) with h in * by lia. fold h' in Ht, B1, B2.
    assert (Hside : forall i, side_parts n i = if decide (i = 0) then h else h') by (intros i; reflexivity).
    assert (HZh : (1 <= Z.of_nat h <= Z.of_nat h' /\ Z.of_nat h' <= Z.of_nat h + 1)%Z) by lia.
    assert (HZn : (Z.of_nat n = Z.of_nat h + Z.of_nat h')%Z) by lia. rewrite HZn in *. clear HZn.
    set (q := Z.of_nat h) in *. set (q' := Z.of_nat h') in *.
    assert (Hfr : exists f0 f1, t_frac bt = [f0; f1] /\ near (IZR (q * w) / IZR (q * w + q' * w)) f0 /\ near (IZR (q' * w) / IZR (q * w + q' * w)) f1).
    { assert (bt = target_of_weights [(q * w)%Z; (q' * w)%Z] [ma; mb]) as ->; [|apply near_weights; nia].
      unfold bisect_target in Ebt. destruct (ofold _ _ _) as [b|]; [|done]. cbn [obind] in Ebt. injection Ebt as <-. cbn in Ht, Hmx |- *. by rewrite Ht, Hmx. }
    destruct Hfr as (f0 & f1 & Hfr & N0 & N1).
    assert (Rw : (1 <= IZR w)%R) by (apply (IZR_le 1); lia). assert (Rq : (1 <= IZR q)%R) by (apply (IZR_le 1); lia).
    assert (Rq1 : (IZR q <= IZR q')%R) by (apply IZR_le; lia). assert (Rq2 : (IZR q' <= IZR q + 1)%R) by (rewrite <- (plus_IZR q 1); apply IZR_le; lia).
    set (c0 := (IZR q / (IZR q + IZR q'))%R). set (c1 := (IZR q' / (IZR q + IZR q'))%R).
    assert (E0 : (IZR (q * w) / IZR (q * w + q' * w) = c0)%R).
    { rewrite plus_IZR, !mult_IZR. unfold c0. field. split; [lra|]. assert (0 < IZR q * IZR w)%R by (apply Rmult_lt_0_compat; lra). assert (0 < IZR q' * IZR w)%R by (apply Rmult_lt_0_compat; lra). lra. }
    assert (E1 : (IZR (q' * w) / IZR (q * w + q' * w) = c1)%R).
    { rewrite plus_IZR, !mult_IZR. unfold c1. field. split; [lra|]. assert (0 < IZR q * IZR w)%R by (apply Rmult_lt_0_compat; lra). assert (0 < IZR q' * IZR w)%R by (apply Rmult_lt_0_compat; lra). lra. }
    rewrite E0 in N0. rewrite E1 in N1.
    assert (C0 : (c0 * (IZR q + IZR q') = IZR q)%R) by (unfold c0; field; lra). assert (C1 : (c1 * (IZR q + IZR q') = IZR q')%R) by (unfold c1; field; lra).
    assert (Hc0 : (3/10 <= c0 <= 1)%R) by (split; nra). assert (Hc1 : (3/10 <= c1 <= 1)%R) by (split; nra).
    pose proof (bisect_target_two _ _ _ Ebt) as Htw.
    assert (Hli : light g) by (unfold light; assert (HN : (NULL_WGT < W32)%Z) by (vm_compute; reflexivity); lia).
    intros i Hi. set (T := sumn (nv g) (vweight g)) in *.
    assert (HTi : (0 <= label_weight g (lab p) (Some i) <= T)%Z) by (apply label_weight_bounds; apply Hud).
    destruct (Z_le_gt_dec T 0) as [HT0|HT0].
    { assert (0 <= Z.of_nat (side_parts n i) * w)%Z by (apply Z.mul_nonneg_nonneg; lia). assert (0 <= q * (m - w))%Z by (apply Z.mul_nonneg_nonneg; lia).
      assert (0 <= over X0 X1 i)%Z by (unfold over; case_decide; lia). lia. }
    destruct (decide (nv g = 0)) as [Hz|Hz]; [assert (T = 0)%Z by (unfold T; rewrite Hz; reflexivity); lia|].
    unfold api_bisector in Hb. destruct (aggregator_make scheme) as [agg|] eqn:Ea; [|done]. cbn in Hb. injection Hb as <-.
    assert (M0 : max_of bt 0 = ma) by (unfold max_of; by rewrite Hmx). assert (M1 : max_of bt 1 = mb) by (unfold max_of; by rewrite Hmx).
    assert (T0 : target_of bt 0 = (q * w)%Z) by (unfold target_of; by rewrite Ht).
    (* the weight a part may reach *)
    set (de := Rmax (IZR (m - w) + IZR W / IZR q) (IZR (D + W) / IZR q')).
    set (L := ((IZR q + IZR q') * (IZR w + de))%R).
    assert (L0 : (L * c0 = IZR q * (IZR w + de))%R) by (unfold L; rewrite <- C0 at 2; ring).
    assert (L1 : (L * c1 = IZR q' * (IZR w + de))%R) by (unfold L; rewrite <- C1 at 2; ring).
    assert (D0 : (IZR (m - w) + IZR W / IZR q <= de)%R) by apply Rmax_l. assert (D1 : (IZR (D + W) / IZR q' <= de)%R) by apply Rmax_r.
    assert (RW : (0 <= IZR W)%R) by (apply (IZR_le 0); lia). assert (RD : (0 <= IZR D)%R) by (apply (IZR_le 0); lia). assert (Rm : (0 <= IZR (m - w))%R) by (apply (IZR_le 0); lia).
    assert (Q0 : (IZR W / IZR q * IZR q = IZR W)%R) by (field; lra). assert (Q1 : (IZR (D + W) / IZR q' * IZR q' = IZR (D + W))%R) by (field; lra).
    assert (QW : (0 <= IZR W / IZR q)%R) by (apply Rmult_le_pos; [lra|]; left; apply Rinv_0_lt_compat; lra).
    assert (K0 : (IZR q * IZR (m - w) + IZR W <= IZR q * de)%R).
    { replace (IZR q * IZR (m - w) + IZR W)%R with (IZR q * (IZR (m - w) + IZR W / IZR q))%R by (field; lra). apply Rmult_le_compat_l; lra. }
    assert (K1 : (IZR (D + W) <= IZR q' * de)%R) by (rewrite <- Q1; rewrite Rmult_comm; apply Rmult_le_compat_l; lra).
    assert (K2 : (IZR q' * IZR (m - w) <= IZR q' * de)%R) by (apply Rmult_le_compat_l; lra).
    assert (K3 : (0 <= IZR q * de)%R) by (apply Rmult_le_pos; lra).
    assert (HL := library_any g Hud Hne Hnv ltac:(lia) ltac:(unfold T in *; lia) bt Htw f0 f1 c0 c1 Hfr N0 N1 Hc0 Hc1 W (q' * w + D + W) L ltac:(rewrite M0, T0; nia) ltac:(rewrite T0; unfold T in *; lia) ltac:(nia)
      ltac:(rewrite M0, L0; apply Rle_trans with (IZR (q * m + W)); [apply IZR_le; lia|]; rewrite plus_IZR, mult_IZR; rewrite minus_IZR in K0; lra)
      ltac:(rewrite M1, L1; apply Rle_trans with (IZR (q' * m)); [apply IZR_le; lia|]; rewrite mult_IZR; rewrite minus_IZR in K2; lra)
      ltac:(rewrite L1; rewrite !plus_IZR, mult_IZR; rewrite plus_IZR in K1; lra)
      ltac:(apply Rle_trans with (IZR ((q + q') * w + D)); [apply IZR_le; exact Hs|]; unfold L; rewrite plus_IZR, mult_IZR, plus_IZR; rewrite plus_IZR in K1; lra)
      HW ltac:(auto) scheme agg 8 8 150 Ea ltac:(lia)).
    assert (HL' := wpm_elim _ _ _ _ _ _ HL Ep). destruct HL' as [HX [P0 P1]].
    destruct (valid_pw g p i (proj1 HX) ltac:(lia)) as [_ F].
    rewrite (light_u32 g _ _ (ud_wf _ Hud) Hli) in F. rewrite <- F. rewrite Hside.
    (* the bound in integers *)
    assert (RF00 : (IZR q * IZR (m - w) + IZR W <= IZR X0)%R) by (rewrite <- mult_IZR, <- plus_IZR; apply IZR_le; exact F00).
    assert (RF01 : (IZR q * IZR (D + W) <= IZR q' * IZR X0)%R) by (rewrite <- !mult_IZR; apply IZR_le; exact F01).
    assert (RF10 : (IZR q' * (IZR q * IZR (m - w) + IZR W) <= IZR q * IZR X1)%R) by (rewrite <- !mult_IZR, <- plus_IZR, <- mult_IZR; apply IZR_le; exact F10).
    assert (RF11 : (IZR (D + W) <= IZR X1)%R) by (apply IZR_le; exact F11).
    assert (U0 : (IZR q * de <= IZR X0)%R).
    { unfold de. rewrite <- RmaxRmult by lra. apply Rmax_lub.
      - replace (IZR q * (IZR (m - w) + IZR W / IZR q))%R with (IZR q * IZR (m - w) + IZR W)%R by (field; lra). done.
      - apply Rmult_le_reg_r with (IZR q'); [lra|]. replace (IZR q * (IZR (D + W) / IZR q') * IZR q')%R with (IZR q * IZR (D + W))%R by (field; lra). lra. }
    assert (U1 : (IZR q' * de <= IZR X1)%R).
    { unfold de. rewrite <- RmaxRmult by lra. apply Rmax_lub.
      - apply Rmult_le_reg_r with (IZR q); [lra|]. replace (IZR q' * (IZR (m - w) + IZR W / IZR q) * IZR q)%R with (IZR q' * (IZR q * IZR (m - w) + IZR W))%R by (field; lra). lra.
      - replace (IZR q' * (IZR (D + W) / IZR q'))%R with (IZR (D + W)) by (field; lra). done. }
    assert (V : forall x r X, (IZR x <= IZR r * (IZR w + de) + / 100)%R -> (IZR r * de <= IZR X)%R -> (x <= r * w + X)%Z).
    { intros x r X Hx Hr. assert (HA : (IZR x < IZR (r * w + X + 1))%R); [|apply lt_IZR in HA; lia].
      rewrite !plus_IZR, mult_IZR. lra. }
    rewrite L0 in P0. rewrite L1 in P1. destruct i as [|[|i]]; [| |lia].
    - unfold over. rewrite !decide_True by done. exact (V _ q X0 P0 U0).
    - unfold over. rewrite !decide_False by done. exact (V _ q' X1 P1 U1).
  Qed.
  Lemma spread_sub D n t g p i sg off c t' X : spread_inv w m n D t g -> induced g (lab p) i sg -> 1 <= c -> c <= n -> off + c <= t_np t ->
    (label_weight g (lab p) (Some i) <= Z.of_nat c * w + X)%Z -> (0 <= X)%Z -> sub_target t off c = Ok t' -> spread_inv w m c X t' sg.
  Proof.
    intros [Hud Hne Hnv Hnull Hnp Hw Hm Hwm Hm32 Hkw HD Hs] Hin Hc1 Hc2 Hoc HL HX Et. pose proof Hud as [Hwf Hsy Hl Hf].
    pose proof (sub_target_len _ _ _ _ Et) as Hnp'. unfold sub_target in Et. destruct (_ || _); [done|]. injection Et as <-.
    assert (HSum : sumn (nv sg) (vweight sg) = label_weight g (lab p) (Some i)).
    { rewrite (sum_members g (lab p) i sg Hin (vweight g) (vweight sg)); [done|]. intros x v Hx. by apply (in_vw _ _ _ _ Hin). }
    pose proof (label_weight_bounds g (lab p) (Some i) Hwf) as HB.
    constructor.
    - split; [by eapply in_wf|by eapply induced_symmetric|by eapply induced_loopless|by eapply induced_fits].
    - pose proof (induced_ne g Hwf _ _ _ Hin). lia.
    - pose proof (induced_nv g _ _ _ Hin). lia.
    - lia.
    - lia.
    - cbn [t_wgt target_of_weights]. rewrite Hw, drop_replicate, take_replicate. f_equal. lia.
    - cbn [t_max target_of_weights]. rewrite Hm, drop_replicate, take_replicate. f_equal. lia.
    - done.
    - done.
    - assert (Z.of_nat c * w <= Z.of_nat n * w)%Z by (apply Z.mul_le_mono_nonneg_r; lia). lia.
    - done.
    - lia.
  Qed.
End Spread.

(** Enough is left for every part: a graph to be divided into n parts weighs at least n w - L and at
    most n w + D; no graph handed down is empty, and no part falls short of w by more than B.  Wv
    bounds the weight of the vertices, e is the difference of limit and target. *)
Inductive spare (w e Wv B : Z) : nat -> Z -> Z -> Prop :=
  | sp_part D L : (L <= B)%Z -> spare w e Wv B 1 D L
  | sp_split n D L W X0 X1 : 2 <= n -> (Wv <= W)%Z -> (L < Z.of_nat n * w)%Z -> fair_split w e n D W X0 X1 -> (0 <= X0)%Z -> (0 <= X1)%Z ->
      spare w e Wv B (n / 2) X0 (L + X1) -> spare w e Wv B (n - n / 2) X1 (L + X0) -> spare w e Wv B n D L.
Lemma sub_below g p i sg Wv : induced g (lab p) i sg -> weights_below Wv g -> weights_below Wv sg.
Proof.
  intros Hin Hbel x Hx. assert (Hx' : x < length (members (nv g) (lab p) i)) by (rewrite <- (in_nv _ _ _ _ Hin); done).
  destruct (lookup_lt_is_Some_2 _ _ Hx') as [v Hv]. rewrite (in_vw _ _ _ _ Hin x v Hv). apply Hbel. apply members_inv in Hv. tauto.
Qed.
Lemma sub_sum g p i sg : induced g (lab p) i sg -> sumn (nv sg) (vweight sg) = label_weight g (lab p) (Some i).
Proof. intros Hin. rewrite (sum_members g (lab p) i sg Hin (vweight g) (vweight sg)); [done|]. intros x v Hx. by apply (in_vw _ _ _ _ Hin). Qed.
Lemma both_sides g p : two_labels g p -> (label_weight g (lab p) (Some 0%nat) + label_weight g (lab p) (Some 1%nat) = sumn (nv g) (vweight g))%Z.
Proof.
  intros Hp. unfold label_weight, sumn. rewrite <- sumf_add. apply sumf_ext. intros v Hv%elem_of_seq.
  destruct (two_sides g p v Hp ltac:(lia)) as [Ev|Ev]; rewrite Ev; repeat case_decide; try congruence; lia.
Qed.

Section Spare.
  Context (lg : nat -> f64) (Hlg : log2_spec lg) (scheme : Z) (bis : bisector) (Hb : api_bisector scheme = Ok bis) (w m Wv B : Z) (HWv : (0 <= Wv)%Z).
  Record spared (t : target) (g : graph) : Prop := {
    sd_api : api_inv t g;
    sd_vw : g_vw g <> [];
    sd_below : weights_below Wv g;
    sd_spare : exists n D L, 2 <= n /\ spread_inv w m n D t g /\ spare w (m - w) Wv B n D L /\ (Z.of_nat n * w - L <= sumn (nv g) (vweight g))%Z /\ (3 <= n -> g_uvw g = false) /\ (5 <= n -> forall v, v < nv g -> vweight g v <> 1%Z)
  }.
  Lemma spared_nonempty g n D L : 2 <= n -> spare w (m - w) Wv B n D L -> (Z.of_nat n * w - L <= sumn (nv g) (vweight g))%Z -> 0 < nv g.
  Proof.
    intros Hn2 HS Hlow. destruct (decide (nv g = 0)) as [H0|]; [|lia]. rewrite H0 in Hlow. change (sumn 0 (vweight g)) with 0%Z in Hlow.
    inversion HS as [|? ? ? ? ? ? ? ? HL]; subst; [lia|]. lia.
  Qed.
  (** What a split leaves on either side *)
  Lemma spare_side t g n D L bt p s s' : 2 <= n -> spread_inv w m n D t g -> weights_below Wv g -> spare w (m - w) Wv B n D L ->
    (Z.of_nat n * w - L <= sumn (nv g) (vweight g))%Z -> two_labels g p ->
    bisect_target t (tolerance_factor lg (t_np t)) = Ok bt -> bis bt g s = Ok (p, s') ->
    forall i, i < 2 -> let c := side_parts n i in exists D' L', (0 <= D')%Z /\ spare w (m - w) Wv B c D' L' /\ (Z.of_nat c * w - L' <= label_weight g (lab p) (Some i) <= Z.of_nat c * w + D')%Z.
  Proof.
    intros Hn2 HI Hbel HS Hlow Hp Ebt Ep i Hi c. inversion HS as [|n' D0 L0 W X0 X1 _ HW HL HF HX0 HX1 S0 S1]; subst; [lia|].
    pose proof (spread_made lg Hlg scheme bis Hb w m D n W X0 X1 t g bt p s s' Hn2 ltac:(lia) HI ltac:(intros v Hv; specialize (Hbel v Hv); lia) HF Ebt Ep) as M.
    pose proof (M 0 ltac:(lia)) as M0. pose proof (M 1 ltac:(lia)) as M1. pose proof (both_sides g p Hp) as HT.
    assert (side_parts n 0 = n / 2) as E0 by done. assert (side_parts n 1 = n - n / 2) as E1 by done. rewrite E0 in M0. rewrite E1 in M1.
    assert (over X0 X1 0 = X0) as O0 by done. assert (over X0 X1 1 = X1) as O1 by done. rewrite O0 in M0. rewrite O1 in M1.
    assert (Hh : n = n / 2 + (n - n / 2)) by (pose proof (Nat.div_mod n 2 ltac:(lia)); lia).
    assert (HZ : (Z.of_nat n * w = Z.of_nat (n / 2) * w + Z.of_nat (n - n / 2) * w)%Z) by (rewrite <- Z.mul_add_distr_r; f_equal; lia).
    destruct i as [|[|i]]; [| |lia]; unfold c; rewrite ?E0, ?E1.
    - exists X0, (L + X1)%Z. split; [done|]. split; [done|]. lia.
    - exists X1, (L + X0)%Z. split; [done|]. split; [done|]. lia.
  Qed.
  Lemma spared_handed : handed_down lg bis never spared.
  Proof.
    split.
    - intros t g [HA Hvw Hbel (n & D & L & Hn2 & HP & HS & Hlow & _)] Hk. pose proof HA as [Hud Hne Hnv Hs Hlo Hhi].
      destruct (C11_succeeds lg t Hlg Hk Hs Hlo Hhi) as [bt Ebt]. rewrite Ebt. cbn.
      pose proof (bisect_target_two _ _ _ Ebt) as Htw.
      assert (Hn : 0 < nv g) by (exact (spared_nonempty g n D L Hn2 HS Hlow)).
      unfold api_bisector in Hb. destruct (aggregator_make scheme) as [agg|] eqn:Ea; [|done]. cbn in Hb. injection Hb as <-.
      eapply wpm_mono; [apply (library_bfs_wp g Hud Hne Hnv ltac:(lia) bt Htw scheme agg 8 8 150 Ea); lia| |].
      + intros f (_ & _ & Hx). done.
      + intros p [[H1 [H2 _]] _]. done.
    - intros t g p i sg [HA Hvw Hbel (n & D & L & Hn2 & HP & HS0 & Hlow & Hu & Hone)] Hk Hp Hi Hin Hc Hmade.
      pose proof (hd_sub _ _ _ _ (api_handed lg scheme bis Hlg Hb) t g p i sg HA Hk Hp Hi Hin Hc Hmade) as HS.
      pose proof (sv_np _ _ _ _ _ _ HP) as Hnp. rewrite Hnp in *. destruct Hmade as (bt & cs & cs' & Ebt & Ep).
      destruct (spare_side t g n D L bt p cs cs' Hn2 HP Hbel HS0 Hlow Hp Ebt Ep i Hi) as (D' & L' & HD' & HS' & HB').
      set (off := if i then 0 else n / 2) in *.
      assert (Ec : (if i then n / 2 else n - n / 2) = side_parts n i) by (destruct i; reflexivity). rewrite Ec in *. set (c := side_parts n i) in *.
      assert (Hh : n = n / 2 + (n - n / 2)) by (pose proof (Nat.div_mod n 2 ltac:(lia)); lia).
      assert (Hc2 : 2 <= c /\ off + c <= n /\ 2 * c <= n + 1).
      { pose proof (Nat.div_mod n 2 ltac:(lia)). pose proof (Nat.mod_upper_bound n 2 ltac:(lia)). unfold c, off, side_parts. destruct i as [|i]; [rewrite decide_True by done|rewrite decide_False by done]; lia. }
      destruct (sub_target t off c) as [t'|f] eqn:Est.
      2: { exfalso. unfold sub_target in Est. destruct (_ || _); [|done]. injection Est as <-. destruct HS; done. }
      cbn [wpo] in HS |- *.
      pose proof (spread_sub w m D n t g p i sg off c t' D' HP Hin ltac:(lia) ltac:(lia) ltac:(lia) ltac:(lia) HD' Est) as HP'.
      pose proof (sub_sum g p i sg Hin) as HSum.
      assert (Hlow' : (Z.of_nat c * w - L' <= sumn (nv sg) (vweight sg))%Z) by (rewrite HSum; lia).
      pose proof (spared_nonempty sg c D' L' ltac:(lia) HS' Hlow') as Hn'.
      assert (Hone' : 5 <= n -> forall v, v < nv sg -> vweight sg v <> 1%Z).
      { intros Hj3 x Hx. assert (Hx' : x < length (members (nv g) (lab p) i)) by (rewrite <- (in_nv _ _ _ _ Hin); done).
        destruct (lookup_lt_is_Some_2 _ _ Hx') as [v Hv]. rewrite (in_vw _ _ _ _ Hin x v Hv). apply Hone; [lia|]. apply members_inv in Hv. tauto. }
      split; [done| |by eapply sub_below|].
      + pose proof (in_len _ _ _ _ Hin) as Hlen. rewrite Hu in Hlen by lia. intros He. rewrite He in Hlen. cbn in Hlen. lia.
      + exists c, D', L'. split; [lia|]. split; [done|]. split; [done|]. split; [done|]. split.
        * intros Hj3. destruct (g_uvw sg) eqn:Eu; [|done]. exfalso. apply (Hone' ltac:(lia) 0 Hn'). by apply (wf_uvw_t _ (in_wf _ _ _ _ Hin)).
        * intros Hj3. apply Hone'. lia.
  Qed.
  (** ** No part falls short by more than B *)
  Lemma spare_part D L : spare w (m - w) Wv B 1 D L -> (L <= B)%Z.
  Proof. inversion 1; subst; [done|lia]. Qed.
  Lemma spare_tree t g l ps s s' : tree lg bis t g l ps s s' -> forall n D L, spread_inv w m n D t g -> weights_below Wv g -> spare w (m - w) Wv B n D L ->
    (Z.of_nat n * w - L <= sumn (nv g) (vweight g))%Z -> forall i, i < t_np t -> (w - B <= label_weight g l i)%Z.
  Proof.
    induction 1 as [t g bt p l s s' Hk H1 H2 H3 H4 | t g bt p t1 g1 l l1 ps s s1 s2 Hk H1 H2 H3 H4 H5 HT IH H6 H7
                  | t g bt p t0 t1 g0 g1 l l0 l1 ps0 ps1 s s1 s2 s3 Hk H1 H2 H3 H4 H5 HT IH H6 H7 HT1 IH1 H8 H9]; intros n D L HI Hbel HS Hlow i Hi.
    - pose proof (sv_np _ _ _ _ _ _ HI) as Hnp. rewrite Hk in Hnp. subst n. rewrite Hk in Hi.
      destruct (spare_side t g 2 D L bt p _ _ ltac:(lia) HI Hbel HS Hlow H3 H1 H2 i Hi) as (D' & L' & HD' & HS' & HB').
      assert (side_parts 2 i = 1) as E1 by (unfold side_parts; case_decide; reflexivity). rewrite E1 in *. apply spare_part in HS'.
      assert (EL : label_weight g l i = label_weight g (lab p) (Some i)); [|lia].
      apply sumf_ext. intros v Hv%elem_of_seq. rewrite H4 by lia. repeat case_decide; congruence.
    - pose proof (sv_np _ _ _ _ _ _ HI) as Hnp. rewrite Hk in Hnp. subst n.
      pose proof (spare_side t g 3 D L bt p _ _ ltac:(lia) HI Hbel HS Hlow H3 H1 H2) as M. rewrite Hk in Hi.
      destruct (M 1 ltac:(lia)) as (D' & L' & HD' & HS' & HB'). change (side_parts 3 1) with 2 in *.
      assert (HI1 : spread_inv w m 2 D' t1 g1).
      { exact (spread_sub w m D 3 t g p 1 g1 1 2 t1 D' HI H4 ltac:(lia) ltac:(lia) ltac:(rewrite Hk; lia) ltac:(lia) HD' H5). }
      specialize (IH 2 D' L' HI1 ltac:(by eapply sub_below) HS' ltac:(rewrite (sub_sum g p 1 g1 H4); lia)). rewrite (sub_target_len _ _ _ _ H5) in IH.
      assert (L1 : forall v, v < nv g -> lab p v = Some 1 -> 1 <= l v).
      { intros v Hv Ev. rewrite (H7 _ _ (members_rank (nv g) (lab p) 1 v Hv Ev)). lia. }
      destruct i as [|i].
      + destruct (M 0 ltac:(lia)) as (D2 & L2 & HD2 & HS2 & HB2). change (side_parts 3 0) with 1 in *. apply spare_part in HS2.
        assert (EL : label_weight g l 0 = label_weight g (lab p) (Some 0)); [|lia].
        apply sumf_ext. intros v Hv%elem_of_seq. destruct (two_sides g p v H3 ltac:(lia)) as [Ev|Ev]; rewrite Ev.
        * rewrite (H6 v ltac:(lia) Ev). rewrite !decide_True by done. done.
        * pose proof (L1 v ltac:(lia) Ev). rewrite !decide_False by (done || lia). done.
      + assert (EL : label_weight g l (S i) = label_weight g1 l1 i); [|rewrite EL; apply IH; lia].
        rewrite <- (side_part g p 1 g1 l l1 1 i H4 H7). apply sumf_ext. intros v Hv%elem_of_seq. change (1 + i) with (S i).
        destruct (two_sides g p v H3 ltac:(lia)) as [Ev|Ev]; rewrite Ev.
        * rewrite (H6 v ltac:(lia) Ev). rewrite !decide_False by done. done.
        * rewrite (decide_True (P := Some 1 = Some 1)) by done. done.
    - pose proof (sv_np _ _ _ _ _ _ HI) as Hnp. rewrite Hnp in *.
      pose proof (spare_side t g n D L bt p _ _ ltac:(lia) HI Hbel HS Hlow H3 ltac:(rewrite Hnp; exact H1) H2) as M.
      destruct (M 0 ltac:(lia)) as (D0 & L0' & HD0 & HS0 & HB0). destruct (M 1 ltac:(lia)) as (D1 & L1' & HD1 & HS1 & HB1).
      assert (side_parts n 0 = n / 2) as E0 by done. assert (side_parts n 1 = n - n / 2) as E1 by done. rewrite E0 in *. rewrite E1 in *.
      set (h := n / 2) in *. assert (Hhd : h = n / 2) by done.
      assert (Hh : 1 <= h /\ h <= n - h /\ n - h <= h + 1).
      { pose proof (Nat.div_mod n 2 ltac:(lia)) as Hd. pose proof (Nat.mod_upper_bound n 2 ltac:(lia)) as Hu. rewrite <- Hhd in Hd. lia. }
      assert (HI0 : spread_inv w m h D0 t0 g0).
      { exact (spread_sub w m D n t g p 0 g0 0 h t0 D0 HI H4 ltac:(lia) ltac:(lia) ltac:(rewrite Hnp; lia) ltac:(lia) HD0 H5). }
      assert (HI1 : spread_inv w m (n - h) D1 t1 g1).
      { exact (spread_sub w m D n t g p 1 g1 h (n - h) t1 D1 HI H6 ltac:(lia) ltac:(lia) ltac:(rewrite Hnp; lia) ltac:(lia) HD1 H7). }
      specialize (IH h D0 L0' HI0 ltac:(by eapply sub_below) HS0 ltac:(rewrite (sub_sum g p 0 g0 H4); lia)).
      specialize (IH1 (n - h) D1 L1' HI1 ltac:(by eapply sub_below) HS1 ltac:(rewrite (sub_sum g p 1 g1 H6); lia)).
      rewrite (sub_target_len _ _ _ _ H5) in IH. rewrite (sub_target_len _ _ _ _ H7) in IH1.
      assert (L0 : forall v, v < nv g -> lab p v = Some 0 -> l v < h).
      { intros v Hv Ev. rewrite (H8 _ _ (members_rank (nv g) (lab p) 0 v Hv Ev)).
        pose proof (tree_bound _ _ _ _ _ _ _ _ HT (rank (lab p) v)) as BB. rewrite (in_nv _ _ _ _ H4), (sub_target_len _ _ _ _ H5) in BB. apply BB. by apply rank_lt. }
      assert (L1 : forall v, v < nv g -> lab p v = Some 1 -> h <= l v).
      { intros v Hv Ev. rewrite (H9 _ _ (members_rank (nv g) (lab p) 1 v Hv Ev)). lia. }
      destruct (decide (i < h)) as [Hlt|Hge].
      + assert (EL : label_weight g l i = label_weight g0 l0 i); [|rewrite EL; by apply IH].
        rewrite <- (side_part g p 0 g0 l l0 0 i H4 H8). apply sumf_ext. intros v Hv%elem_of_seq.
        destruct (two_sides g p v H3 ltac:(lia)) as [Ev|Ev]; rewrite Ev.
        * rewrite (decide_True (P := Some 0 = Some 0)) by done. done.
        * pose proof (L1 v ltac:(lia) Ev). rewrite (decide_False (P := Some 1 = Some 0)) by done. rewrite decide_False by lia. done.
      + assert (EL : label_weight g l i = label_weight g1 l1 (i - h)); [|rewrite EL; apply IH1; lia].
        rewrite <- (side_part g p 1 g1 l l1 h (i - h) H6 H9). apply sumf_ext. intros v Hv%elem_of_seq.
        replace (h + (i - h)) with i by lia.
        destruct (two_sides g p v H3 ltac:(lia)) as [Ev|Ev]; rewrite Ev.
        * pose proof (L0 v ltac:(lia) Ev). rewrite decide_False by lia. rewrite decide_False by done. done.
        * rewrite (decide_True (P := Some 1 = Some 1)) by done. done.
  Qed.
End Spare.
