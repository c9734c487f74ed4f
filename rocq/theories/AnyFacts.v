(** * AnyFacts: how heavy a part can get for any number of parts (C71). *)
From Coq Require Import ZArith Reals Floats.SpecFloat Psatz.
From Flocq Require Import Core.Core Relative IEEE754.BinarySingleNaN.
From Verif Require Import Base F64 ModelGraph ModelPartition ModelConn ModelFM ModelAgg ModelMultilevel ModelBisect ModelRecursive ModelApi Spec Logic Sums
  GraphFacts PartFacts ConnFacts FMFacts MiscFacts FloatOrder FloatFacts FloatUse BisectFacts EvenFacts AggFacts ContractFacts MultilevelFacts SubFacts RecFacts TargetFacts PropsTarget
  LabelFacts ApiFacts TreeFacts PropsBisect QualityFacts BalanceFacts BoundFacts PowFacts.
Local Open Scope R_scope.
#[local] Arguments flt : simpl never.
#[local] Arguments fle : simpl never.
#[local] Instance Hp53a : Prec_gt_0 53 := eq_refl _.
#[local] Instance fexp_valida : Valid_exp (SpecFloat.fexp 53 1024) := fexp_correct 53 1024 Hp53a.

(** ** The imbalance for a fraction close to c *)
Definition near (c : R) (f : f64) : Prop := exists r, isR f r /\ Rabs (r - c) <= 8 * eps.
Lemma imb_near T f c w : (0 <= w <= T)%Z -> (1 <= T < W32)%Z -> 3/10 <= c <= 1 -> near c f ->
  exists b, isR (imb T f w) b /\ Rabs (b - (IZR w / IZR T / c - 1)) <= 200 * eps.
Proof.
  intros Hw HT Hc (r & Hf & Hr). apply Rabs_le_inv in Hr.
  assert (0 <= w < W32)%Z as Hw' by lia. assert (0 <= T < W32)%Z as HT' by lia.
  pose proof (f_of_Z_R _ (W32_lt_53 _ Hw')) as Rw. pose proof (f_of_Z_R _ (W32_lt_53 _ HT')) as RT.
  pose proof (IZR_W32 _ Hw') as [w0 w1]. pose proof (IZR_W32 _ HT') as [T0 T1]. rewrite W32_R in *.
  assert (1 <= IZR T) as T2 by (apply (IZR_le 1); lia).
  assert (IZR w <= IZR T) as wT by (apply IZR_le; lia).
  set (q := IZR w / IZR T) in *.
  assert (0 <= q <= 1) as Hq.
  { unfold q. split.
    - apply Rmult_le_pos; [lra|]. left. apply Rinv_0_lt_compat. lra.
    - apply Rmult_le_reg_r with (IZR T); [lra|]. unfold Rdiv. rewrite Rmult_assoc, Rinv_l by lra. lra. }
  assert (0 < eps < / 1000000) as He by (unfold eps; lra).
  pose proof (div_R _ _ _ _ Rw RT ltac:(lra) ltac:(apply rnd_small_ok; apply Rabs_le; fold q; lra)) as R1. fold q in R1.
  pose proof (rnd_near q ltac:(apply Rabs_le; lra)) as H1. set (q1 := rnd q) in *.
  assert (0 <= q1) as Hq1 by (apply (rnd_ge_int _ 0); [simpl; lia|lra]).
  assert (q1 <= 1) as Hq1' by (apply (rnd_le_int _ 1); [simpl; lia|lra]).
  assert (0 <= q / c <= 34/10) as Hqc.
  { assert (q / c * c = q) as Hqr by (unfold Rdiv; rewrite Rmult_assoc, Rinv_l by lra; ring). set (z := q / c) in *. split; nra. }
  assert (q / c - 150 * eps <= q1 / r <= q / c + 150 * eps) as H2.
  { assert (q1 / r * r = q1) as Hqr by (unfold Rdiv; rewrite Rmult_assoc, Rinv_l by lra; ring).
    assert (q / c * c = q) as Hqr' by (unfold Rdiv; rewrite Rmult_assoc, Rinv_l by lra; ring).
    set (z := q1 / r) in *. set (y := q / c) in *.
    assert (Hp : -(eps + 4 * (8 * eps)) <= (z - y) * r <= eps + 4 * (8 * eps)).
    { replace ((z - y) * r) with (q1 - q - y * (r - c)) by lra. split; nra. }
    split; nra. }
  pose proof (div_R _ _ _ _ R1 Hf ltac:(lra) ltac:(apply rnd_small_ok; apply Rabs_le; lra)) as R2.
  pose proof (rnd_near (q1 / r) ltac:(apply Rabs_le; lra)) as H3. set (z := rnd (q1 / r)) in *.
  pose proof (sub_R _ _ _ _ R2 f_one_R ltac:(apply rnd_small_ok; apply Rabs_le; lra)) as R3.
  pose proof (rnd_near (z - 1) ltac:(apply Rabs_le; lra)) as H4.
  exists (rnd (z - 1)). split; [exact R3|]. apply Rabs_le. lra.
Qed.
Lemma Rle_bool_le a b : Rle_bool a b = true -> a <= b.
Proof. destruct (Rle_bool_spec a b); [done|discriminate]. Qed.
Lemma isR_fun f a b : isR f a -> isR f b -> a = b.
Proof.
  intros Ha Hb. destruct (Rle_or_lt a b) as [H|H].
  - destruct (Rle_lt_or_eq_dec _ _ H) as [H1|]; [|done]. exfalso.
    pose proof (flt_R _ _ _ _ Ha Hb) as E1. pose proof (flt_R _ _ _ _ Ha Ha) as E2. pose proof (flt_R _ _ _ _ Hb Ha) as E3. rewrite E1 in E2.
    rewrite Rlt_bool_true in E2 by done. rewrite Rlt_bool_false in E2 by lra. done.
  - exfalso. pose proof (flt_R _ _ _ _ Hb Ha) as E1. pose proof (flt_R _ _ _ _ Ha Ha) as E2. rewrite E1 in E2.
    rewrite Rlt_bool_true in E2 by done. rewrite Rlt_bool_false in E2 by lra. done.
Qed.
(** the fractions computed from two targets *)
Lemma near_weights a b ms : (0 < a)%Z -> (0 < b)%Z -> (a + b < W32)%Z -> exists f0 f1, t_frac (target_of_weights [a; b] ms) = [f0; f1] /\
  near (IZR a / IZR (a + b)) f0 /\ near (IZR b / IZR (a + b)) f1.
Proof.
  intros Ha Hb Hab. unfold target_of_weights, calc_fractions. cbn [t_frac].
  assert (sum_u32 [a; b] = a + b)%Z as ->. { unfold sum_u32. simpl. rewrite !u32_small; try lia. rewrite u32_small; lia. }
  eexists _, _. split; [reflexivity|].
  assert (G : forall x, (0 < x < a + b)%Z -> near (IZR x / IZR (a + b)) (fmul (f_of_Z x) (fdiv f_one (f_of_Z (a + b))))); [|split; apply G; lia].
  intros w Hw. set (s := (a + b)%Z) in *. assert (0 <= w < W32)%Z as Hw' by lia. assert (0 <= s < W32)%Z as HT' by lia.
  pose proof (f_of_Z_R _ (W32_lt_53 _ Hw')) as Rw. pose proof (f_of_Z_R _ (W32_lt_53 _ HT')) as RT.
  assert (0 < IZR w) as W1 by (apply (IZR_lt 0); lia). assert (1 <= IZR s) as S1 by (apply (IZR_le 1); lia). assert (IZR w <= IZR s) as WS by (apply IZR_le; lia).
  assert (IZR s <= 4294967296) as S2 by (apply (IZR_le s 4294967296); unfold W32 in *; lia).
  unfold near. set (f := fmul _ _). set (x := IZR w) in *. set (y := IZR s) in *.
  assert (0 < / y <= 1) as Hy. { split; [apply Rinv_0_lt_compat; lra|]. rewrite <- Rinv_1. apply Rinv_le_contravar; lra. }
  assert (1 / y = / y) as E1 by (field; lra).
  pose proof (div_R _ _ _ _ f_one_R RT ltac:(fold y; lra) ltac:(apply rnd_small_ok; apply Rabs_le; fold y; lra)) as R1. fold y in R1. rewrite E1 in R1.
  assert (Rabs (rnd (/ y) - / y) <= 2 * eps * (/ y)) as HE.
  { assert (Hlow : / 4294967296 <= / y) by (apply Rinv_le_contravar; lra).
    assert (HN : bpow radix2 (-1022) <= Rabs (/ y)).
    { rewrite Rabs_pos_eq by lra. apply Rle_trans with (bpow radix2 (-40)); [apply bpow_le; lia|]. simpl. lra. }
    pose proof (relative_error_N_FLT radix2 (-1074) 53 ltac:(reflexivity) (fun z => negb (Z.even z)) (/ y) HN) as HR.
    rewrite (Rabs_pos_eq (/ y)) in HR by lra.
    eapply Rle_trans; [exact HR|]. simpl bpow. unfold eps. apply Rmult_le_compat_r; lra. }
  apply Rabs_le_inv in HE. set (z := rnd (/ y)) in *.
  assert (0 < eps < / 1000) as He by (unfold eps; lra).
  assert (0 < x * / y <= 1) as Hxy. { split; [apply Rmult_lt_0_compat; lra|]. apply Rmult_le_reg_r with y; [lra|]. rewrite Rmult_assoc, Rinv_l by lra. lra. }
  assert (x * / y - 2 * eps <= x * z <= x * / y + 2 * eps) as HB.
  { assert (- (2 * eps * (x * / y)) <= x * (z - / y) <= 2 * eps * (x * / y)) as HX.
    { replace (- (2 * eps * (x * / y))) with (x * (- (2 * eps * / y))) by ring. replace (2 * eps * (x * / y)) with (x * (2 * eps * / y)) by ring.
      split; apply Rmult_le_compat_l; lra. }
    split; nra. }
  pose proof (mul_R _ _ _ _ Rw R1 ltac:(apply rnd_small_ok; apply Rabs_le; fold x; lra)) as R2. fold f x in R2.
  exists (rnd (x * z)). split; [exact R2|]. pose proof (rnd_near (x * z) ltac:(apply Rabs_le; lra)). unfold Rdiv. apply Rabs_le. lra.
Qed.

(** ** Refinement: the imbalance stays below a bound the limits respect *)
Definition imb_at (t : target) (T : Z) (l : list Z) (be : R) : Prop :=
  forall i f x b, t_frac t !! i = Some f -> l !! i = Some x -> isR (imb T f x) b -> b <= be.
Section Refine.
  Context (g : graph) (Hwf : wf_graph g) (Hl : light g) (t : target) (f0 f1 : f64) (c0 c1 : R).
  Context (Hfr : t_frac t = [f0; f1]) (Hn0 : near c0 f0) (Hn1 : near c1 f1) (Hc0 : 3/10 <= c0 <= 1) (Hc1 : 3/10 <= c1 <= 1).
  Context (HT1 : (1 <= g_tvw g)%Z) (be : R) (Hbe : 0 <= be) (Htm : length (t_max t) = 2%nat).
  Local Notation T := (g_tvw g).
  Context (Hm0 : IZR (max_of t 0) / IZR T / c0 - 1 + 200 * eps <= be) (Hm1 : IZR (max_of t 1) / IZR T / c1 - 1 + 200 * eps <= be).
  Lemma T_range : (1 <= T < W32)%Z.
  Proof. split; [done|]. rewrite (wf_tvw g Hwf); unfold u32; apply Z.mod_pos_bound; reflexivity. Qed.
  Lemma imb_get p i x f : p_pw p !! i = Some x -> t_frac t !! i = Some f -> get_imbalance g t p i = Ok (imb T f x).
  Proof. intros Hx Hf. unfold get_imbalance, get_fraction, get_weight. rewrite (rd_ok _ _ _ Hx), (rd_ok _ _ _ Hf). reflexivity. Qed.
  Lemma imb_real p : valid_part 2 g p -> forall i, (i < 2)%nat -> exists f x b, t_frac t !! i = Some f /\ p_pw p !! i = Some x /\ (0 <= x <= T)%Z /\ isR (imb T f x) b.
  Proof.
    intros HV i Hi. destruct (two_weights g p Hwf Hl HV) as (a0 & a1 & EP & A0 & A1 & AS). rewrite EP, Hfr.
    destruct i as [|[|i]]; [| |lia].
    - destruct (imb_near T f0 c0 a0 ltac:(lia) T_range Hc0 Hn0) as (b & Rb & _). exists f0, a0, b. split; [done|]. split; [done|]. split; [lia|done].
    - destruct (imb_near T f1 c1 a1 ltac:(lia) T_range Hc1 Hn1) as (b & Rb & _). exists f1, a1, b. split; [done|]. split; [done|]. split; [lia|done].
  Qed.
  Lemma max_real p m : valid_part 2 g p -> calc_max_imbalance g t p = Ok m -> exists r, isR m r /\ (imb_at t T (p_pw p) be -> r <= be).
  Proof.
    intros HV Hm. destruct (max_imbalance_spec _ _ _ _ Hm) as (_ & _ & [->|(i & Hi & Hx)] & _); [exists 0; split; [apply f_zero_R|done]|].
    rewrite (proj1 (proj2 HV)) in Hi. destruct (imb_real p HV i Hi) as (f & x & b & H1 & H2 & H3 & H4).
    rewrite (imb_get p i x f H2 H1) in Hx. injection Hx as <-. exists b. split; [done|]. intros HQ. by eapply HQ.
  Qed.
  Lemma improves_imb p p' : valid_part 2 g p -> improves g t p p' -> imb_at t T (p_pw p) be -> imb_at t T (p_pw p') be.
  Proof.
    intros HV Him HQ. pose proof (proj1 Him) as [HV' _]. destruct (improves_spec g t p p' Him ltac:(rewrite (proj1 (proj2 HV')); lia)) as (b & b' & Hb & Hb' & Hor).
    assert (Hbal : balanced t p' -> imb_at t T (p_pw p') be).
    { intros HB i f x r Hf Hx Hr. destruct (two_weights g p' Hwf Hl HV') as (a0 & a1 & EP & A0 & A1 & AS).
      assert (Hix : (x <= max_of t i)%Z). { pose proof (lookup_lt_Some _ _ _ Hx) as Hi. specialize (HB i Hi). rewrite (nth_lt_eq _ _ _ x Hx) in HB. exact HB. }
      assert (HTp : 0 < IZR T) by (apply (IZR_lt 0); lia).
      assert (Hmon : forall m c, (x <= m)%Z -> 3/10 <= c -> IZR x / IZR T / c <= IZR m / IZR T / c).
      { intros m c Hxm Hc. apply IZR_le in Hxm. assert (0 < / c) by (apply Rinv_0_lt_compat; lra). assert (0 < / IZR T) by (apply Rinv_0_lt_compat; lra).
        unfold Rdiv. apply Rmult_le_compat_r; [lra|]. apply Rmult_le_compat_r; lra. }
      rewrite Hfr in Hf. rewrite EP in Hx. destruct i as [|[|i]]; cbn in Hf, Hx; [| |done].
      - injection Hf as <-. injection Hx as <-. destruct (imb_near T f0 c0 a0 ltac:(lia) T_range Hc0 Hn0) as (b1 & Rb & Eb). rewrite (isR_fun _ _ _ Hr Rb).
        apply Rabs_le_inv in Eb. specialize (Hmon _ c0 Hix ltac:(lra)). lra.
      - injection Hf as <-. injection Hx as <-. destruct (imb_near T f1 c1 a1 ltac:(lia) T_range Hc1 Hn1) as (b1 & Rb & Eb). rewrite (isR_fun _ _ _ Hr Rb).
        apply Rabs_le_inv in Eb. specialize (Hmon _ c1 Hix ltac:(lra)). lra. }
    assert (Hle : fle b' b = true -> imb_at t T (p_pw p') be).
    { intros Hle i f x r Hf Hx Hr. destruct (max_real p b HV Hb) as (rb & Rb & Hrb). destruct (max_real p' b' HV' Hb') as (rb' & Rb' & _).
      specialize (Hrb HQ). rewrite (fle_R _ _ _ _ Rb' Rb) in Hle. apply Rle_bool_le in Hle.
      destruct (max_imbalance_spec _ _ _ _ Hb') as (_ & _ & _ & Hall). destruct (Hall i (lookup_lt_Some _ _ _ Hx)) as (y & Hy & Hyle).
      rewrite (imb_get p' i x f Hx Hf) in Hy. injection Hy as <-.
      assert (Hnn : ~ is_nan (imb T f x)). { intros Hn. destruct Hr as (z & Hz & Hfin & _). unfold is_nan in Hn. rewrite Hn in Hz. destruct z; simpl in *; congruence. }
      specialize (Hyle Hnn). rewrite (fle_R _ _ _ _ Hr Rb') in Hyle. apply Rle_bool_le in Hyle. lra. }
    destruct Hor as [H|[_ [H|H]]]; [apply Hle; by apply flt_le|by apply Hbal|by apply Hle].
  Qed.
  Lemma rtc_imb p p' : exact_part 2 g p -> rtc (improves g t) p p' -> imb_at t T (p_pw p) be -> imb_at t T (p_pw p') be.
  Proof.
    intros Hp H. revert Hp. induction H as [p|p p1 p' H1 H2 IH]; intros Hp HQ; [done|]. apply IH; [apply H1|]. eapply improves_imb; [apply Hp|done|done].
  Qed.
End Refine.

(** ** Growing: side 0 exceeds its limit, side 1 what the target leaves, by at most a vertex *)
Definition pw_two (b0 b1 : Z) (l : list Z) : Prop := (nth 0 l 0 <= b0)%Z /\ (nth 1 l 0 <= b1)%Z.
Local Open Scope nat_scope.
Lemma bfs_two g (Hwf : wf_graph g) (Hl : light g) t (Ht : two_way t) W b1 : (0 <= target_of t 0 <= max_of t 0)%Z -> (0 <= W)%Z ->
  weights_below W g -> (sumn (nv g) (vweight g) + W <= target_of t 0 + b1)%Z -> (0 <= b1)%Z -> 0 < nv g ->
  wpm (bfs_execute t g) (no_weights g) (fun p => valid_part 2 g p /\ (symmetric g -> fits g -> exact_part 2 g p) /\ pw_two (max_of t 0 + W) b1 (p_pw p)).
Proof.
  intros Hm0 HW0 HW Htot Hb1 Hn. eapply wpm_post; [apply (bfs_execute_wp g Hwf t Ht Hn)|]. intros p [HV HX (q & p1 & HG & HS & HC)].
  split; [done|]. split; [done|]. pose proof (gi_valid _ _ _ _ HG) as HV1.
  destruct (grown_of g t q p1 Hwf Hl ltac:(lia) HG HS) as ([Hlab Hmax Hstop] & E0 & E1). pose proof (two_sum g p1 HV1) as HT.
  destruct (valid_pw g p 0 HV ltac:(lia)) as [_ F0]. destruct (valid_pw g p 1 HV ltac:(lia)) as [_ F1].
  rewrite (light_u32 g _ _ Hwf Hl) in F0. rewrite (light_u32 g _ _ Hwf Hl) in F1.
  unfold pw_two. change (nth 0 (p_pw p) 0%Z) with (pw p 0). change (nth 1 (p_pw p) 0%Z) with (pw p 1). rewrite F0, F1.
  change (label_weight g (lab p) (Some 0)) with (side_weight g (p_where p) 0). change (label_weight g (lab p) (Some 1)) with (side_weight g (p_where p) 1).
  assert (HR : (side_weight g (p_where p1) 1 <= b1)%Z).
  { destruct Hstop as [Hs|Hs]; [lia|].
    destruct (decide (Exists (fun v => p_where p1 !! v = Some (Some 1)) (seq 0 (nv g)))) as [(v & Hv%elem_of_seq & Hv1)%Exists_exists|Hno].
    - specialize (Hs v ltac:(lia) Hv1). specialize (HW v ltac:(lia)). lia.
    - assert (side_weight g (p_where p1) 1 = 0)%Z as ->; [|lia]. apply sumf_zero. intros v Hv.
      destruct (decide (nth v (p_where p1) None = Some 1)) as [E|]; [|done]. exfalso. apply Hno. apply Exists_exists. exists v. split; [done|].
      apply elem_of_seq in Hv. rewrite <- E. apply lookup_nth. rewrite (proj1 Hlab). lia. }
  destruct HC as [[_ ->]|[_ (p2 & H2 & HB)]]; [lia|]. rewrite !H2. destruct HB as [->|(v & Hv & Hv1 & Hw & _)]; [lia|].
  assert (HLW : forall i, side_weight g (p_where p2) i = label_weight g (upd (lab p1) v (Some 0)) (Some i)).
  { intros i. apply label_weight_ext. intros u Hu'. rewrite Hw. unfold upd, lab.
    destruct (decide (u = v)) as [->|Hne].
    - rewrite nth_lookup, list_lookup_insert; [done|]. rewrite (proj1 Hlab). lia.
    - rewrite !nth_lookup, list_lookup_insert_ne by done. done. }
  assert (Hlv : lab p1 v = Some 1) by (unfold lab; rewrite nth_lookup, Hv1; done).
  pose proof (wf_vw_range _ Hwf v). specialize (HW v Hv).
  rewrite !HLW, !label_weight_upd, Hlv by done. change (label_weight g (lab p1) (Some 0)) with (side_weight g (p_where p1) 0).
  change (label_weight g (lab p1) (Some 1)) with (side_weight g (p_where p1) 1). repeat (case_decide; try congruence); lia.
Qed.

Section Library.
  Context (g0 : graph) (Hg0 : undirected g0) (Hne : (Z.of_nat (ne g0) < W32)%Z) (Hnv : (Z.of_nat (nv g0) < W32)%Z) (Hn0 : 0 < nv g0).
  Context (Hsum : (1 <= sumn (nv g0) (vweight g0) < NULL_WGT)%Z) (t : target) (Ht : two_way t) (f0 f1 : f64) (c0 c1 : R).
  Context (Hfr : t_frac t = [f0; f1]) (Hf0 : near c0 f0) (Hf1 : near c1 f1) (Hc0 : (3/10 <= c0 <= 1)%R) (Hc1 : (3/10 <= c1 <= 1)%R).
  Context (W b1 : Z) (L : R) (Htm : (0 <= target_of t 0 <= max_of t 0)%Z) (Htot : (sumn (nv g0) (vweight g0) + W <= target_of t 0 + b1)%Z) (Hb1 : (0 <= b1)%Z).
  Context (HL0 : (IZR (max_of t 0 + W) <= L * c0)%R) (HL1 : (IZR (max_of t 1) <= L * c1)%R) (HL2 : (IZR b1 <= L * c1)%R) (HL3 : (IZR (sumn (nv g0) (vweight g0)) <= L)%R).
  Context (HW : weights_below W g0) (Hlim : nv g0 <= 20 \/ ne g0 = 0 \/ (3 * sumn (nv g0) (vweight g0) <= 40 * W)%Z).
  Let T := sumn (nv g0) (vweight g0).
  Let be := (L / IZR T - 1 + 200 * eps)%R.
  Lemma T_pos : (1 <= IZR T <= 4294967296)%R.
  Proof.
    assert (HNW : (NULL_WGT < W32)%Z) by (vm_compute; reflexivity). unfold W32 in *.
    split; [apply (IZR_le 1); unfold T; lia|apply (IZR_le T 4294967296); unfold T; lia].
  Qed.
  Lemma be_pos : (0 <= be)%R.
  Proof.
    pose proof T_pos as HT. assert (1 <= L / IZR T)%R.
    { apply Rmult_le_reg_r with (IZR T); [lra|]. unfold Rdiv. rewrite Rmult_assoc, Rinv_l by lra. unfold T in *. lra. }
    unfold be, eps. lra.
  Qed.
  Lemma below_be x c : (3/10 <= c <= 1)%R -> (IZR x <= L * c)%R -> (IZR x / IZR T / c - 1 + 200 * eps <= be)%R.
  Proof.
    intros Hc Hx. pose proof T_pos as HT. unfold be. apply Rplus_le_compat_r. unfold Rminus. apply Rplus_le_compat_r.
    apply Rmult_le_reg_r with c; [lra|]. unfold Rdiv at 1. rewrite Rmult_assoc, Rinv_l, Rmult_1_r by lra.
    unfold Rdiv. replace (L * / IZR T * c)%R with (L * c * / IZR T)%R by ring. apply Rmult_le_compat_r; [|done]. left. apply Rinv_0_lt_compat. lra.
  Qed.
  Lemma library_any scheme agg n it mv : aggregator_make scheme = Ok agg -> (1 <= n)%Z ->
    wpm (ml_execute agg (multi_execute n bfs_execute) (fm_refine it mv) t g0) (no_weights g0)
      (fun p => exact_part 2 g0 p /\ (IZR (pw p 0) <= L * c0 + /100)%R /\ (IZR (pw p 1) <= L * c1 + /100)%R).
  Proof.
    intros Hagg Hn. assert (Hli : light g0) by (unfold light; assert (HN : (NULL_WGT < W32)%Z) by (vm_compute; reflexivity); lia).
    destruct (ml_max_weight_ok g0) as (mw & Emw & Hmw).
    { rewrite (wf_tvw _ (ud_wf _ Hg0)). apply u32_range. }
    assert (Htf : 2 <= length (t_frac t)) by (rewrite (tw_frac t Ht); done). assert (Htx : 2 <= length (t_max t)) by (rewrite (tw_max t Ht); done).
    assert (HW0 : (0 <= W)%Z).
    { etrans; [|apply (HW 0 Hn0)]. apply (wf_vw_range _ (ud_wf _ Hg0)). }
    assert (HTW : g_tvw g0 = T) by (rewrite (wf_tvw _ (ud_wf _ Hg0)), u32_small; [done|]; unfold light in Hli; lia).
    assert (Hml : nv g0 <= 20 \/ ne g0 = 0 \/ (mw <= W)%Z).
    { destruct Hlim as [?|[?|Hlm]]; [by left|by right; left|right; right]. destruct (Z_lt_le_dec W W32) as [HWs|HWb]; [|lia].
      eapply (ml_max_weight_le g0 mw W); [|lia| |done]; rewrite HTW; [unfold light in Hli; unfold T; lia|done]. }
    assert (Hend : forall p, exact_part 2 g0 p -> imb_at t T (p_pw p) be -> (IZR (pw p 0) <= L * c0 + /100)%R /\ (IZR (pw p 1) <= L * c1 + /100)%R).
    { intros p [HV _] HQ. destruct (two_weights g0 p (ud_wf _ Hg0) Hli HV) as (a0 & a1 & EP & A0 & A1 & AS). rewrite HTW in AS.
      assert (HTr : (1 <= T < W32)%Z) by (unfold light in Hli; unfold T; lia). pose proof T_pos as HT.
      assert (G : forall i a c f, t_frac t !! i = Some f -> p_pw p !! i = Some a -> (0 <= a <= T)%Z -> near c f -> (3/10 <= c <= 1)%R -> (IZR a <= L * c + /100)%R).
      { intros i a c f Hf Ha Har Hnr Hc. destruct (imb_near T f c a Har HTr Hc Hnr) as (b & Rb & Eb). specialize (HQ i f a b Hf Ha Rb).
        apply Rabs_le_inv in Eb. assert (H1 : (IZR a / IZR T / c <= L / IZR T + 400 * eps)%R) by (unfold be in HQ; lra).
        assert (H2 : (IZR a = IZR a / IZR T / c * (IZR T * c))%R) by (field; lra).
        assert (H3 : ((L / IZR T + 400 * eps) * (IZR T * c) = L * c + 400 * eps * (IZR T * c))%R) by (field; lra).
        assert (H4 : (IZR a / IZR T / c * (IZR T * c) <= (L / IZR T + 400 * eps) * (IZR T * c))%R) by (apply Rmult_le_compat_r; [apply Rmult_le_pos; lra|done]).
        assert (H5 : (0 <= IZR T * c <= 4294967296)%R) by (split; [apply Rmult_le_pos; lra|]; rewrite <- (Rmult_1_r 4294967296); apply Rmult_le_compat; lra).
        unfold eps in *. lra. }
      unfold pw. rewrite EP. cbn [nth]. split; [apply (G 0 a0 c0 f0)|apply (G 1 a1 c1 f1)]; try done; try (rewrite Hfr; done); try (rewrite EP; done); lia. }
    eapply wpm_post; [apply (ml_execute_carry g0 Hg0 Hne _ _ _ t mw _ (weights_below W) (fun l => imb_at t T l be)); [| | |done|done]|].
    - intros g cm HL HR Hbig Hbig2. pose proof (level_inv _ _ _ Hg0 HL) as HLo. pose proof (lo_ud _ _ _ HLo) as [Hwf Hs Hl Hf].
      destruct Hml as [Hml|[Hml|Hml]]; [pose proof (lo_nv _ _ _ HLo); lia|pose proof (lo_ne _ _ _ HLo); lia|].
      assert (HT : (sumn (nv g) (vweight g) < NULL_WGT)%Z) by (rewrite (lo_vsum _ _ _ HLo Hli); lia).
      assert (HA : wpm (agg mw g) (no_weights g0) (agg_result g mw)).
      { unfold aggregator_make in Hagg. destruct (scheme =? 0)%Z; [|destruct (scheme =? 1)%Z; [|done]]; injection Hagg as <-; (eapply wpm_mono; [first [by apply rm_aggregate_wp|by apply shemrm_aggregate_wp]|done|done]). }
      eapply wpm_post; [exact HA|]. intros a Ha. split; [by eapply result_coarsening|]. intros cg Hcg. by eapply contract_weights.
    - intros g cm HL HR. pose proof (level_inv _ _ _ Hg0 HL) as HLo. pose proof (lo_ud _ _ _ HLo) as [Hwf Hs Hl Hf].
      apply multi_execute_wp; try done; [|intros p [Hp _]; apply Hp].
      pose proof (level_light _ _ _ Hg0 HL Hli) as Hlg.
      assert (HSg : sumn (nv g) (vweight g) = T) by (by rewrite (lo_vsum _ _ _ HLo Hli)).
      assert (HTg : g_tvw g = T) by (rewrite (lo_tvw _ _ _ HLo); done).
      eapply wpm_mono; [apply (bfs_two g Hwf Hlg t Ht W b1 Htm HW0 HR)| |].
      + rewrite HSg. done.
      + done.
      + by eapply level_nonempty.
      + intros f (Hq1 & Hq2 & Hq3). destruct (level_shape g0 g cm Hg0 HL) as [->|Hx]; [done|congruence].
      + intros p (H1 & H2 & H3 & H4). split; [by apply H2|]. intros i f x b Hf' Hx Hb.
        destruct (two_weights g p Hwf Hlg H1) as (a0 & a1 & EP & A0 & A1 & AS). rewrite EP in *. cbn in H3, H4. rewrite HTg in AS.
        assert (HTr : (1 <= T < W32)%Z) by (unfold light in Hli; unfold T; lia).
        rewrite Hfr in Hf'. destruct i as [|[|i]]; cbn in Hf', Hx; [| |done]; injection Hf' as <-; injection Hx as <-.
        * destruct (imb_near T f0 c0 a0 ltac:(lia) HTr Hc0 Hf0) as (b' & Rb & Eb). rewrite (isR_fun _ _ _ Hb Rb). apply Rabs_le_inv in Eb.
          pose proof (below_be a0 c0 Hc0 ltac:(eapply Rle_trans; [apply IZR_le; exact H3|done])). lra.
        * destruct (imb_near T f1 c1 a1 ltac:(lia) HTr Hc1 Hf1) as (b' & Rb & Eb). rewrite (isR_fun _ _ _ Hb Rb). apply Rabs_le_inv in Eb.
          pose proof (below_be a1 c1 Hc1 ltac:(eapply Rle_trans; [apply IZR_le; exact H4|done])). lra.
    - intros g cm c p HL (G1 & G2 & G3) HQ. pose proof (level_inv _ _ _ Hg0 HL) as HLo. pose proof (lo_ud _ _ _ HLo) as [Hwf Hs Hl Hf].
      pose proof (level_light _ _ _ Hg0 HL Hli) as Hlg. pose proof (lo_nv _ _ _ HLo). cbn [fst snd] in *.
      assert (HTg : g_tvw g = T) by (rewrite (lo_tvw _ _ _ HLo); done).
      destruct (max_bad_moves_ok mv (nv g) ltac:(lia)) as [mb Hmb].
      eapply wpm_post; [apply (fm_refine_wp g Hwf Hs Hl Hf t ltac:(lia) ltac:(lia) (no_weights g0) it mv c p mb); done|].
      intros r (A & B & C & D). split; [done|]. rewrite <- HTg in HQ |- *.
      apply (rtc_imb g Hwf Hlg t f0 f1 c0 c1 Hfr Hf0 Hf1 Hc0 Hc1 ltac:(rewrite HTg; unfold T; lia) be be_pos (tw_max t Ht) ltac:(rewrite HTg; apply below_be; [done|]; eapply Rle_trans; [|exact HL0]; apply IZR_le; lia)
        ltac:(rewrite HTg; by apply below_be) p); done.
    - intros p [H1 H2]. split; [done|]. by apply Hend.
  Qed.
End Library.

(** ** One bisection of equal targets *)
Record any_inv (w m W E D : Z) (n : nat) (t : target) (g : graph) : Prop := {
  ai_ud : undirected g;
  ai_ne : (Z.of_nat (ne g) < W32)%Z;
  ai_nv : (Z.of_nat (nv g) < W32)%Z;
  ai_null : (sumn (nv g) (vweight g) < NULL_WGT)%Z;
  ai_heavy : weights_below W g;
  ai_lim : (3 * sumn (nv g) (vweight g) <= 40 * W)%Z;
  ai_np : t_np t = n;
  ai_wgt : t_wgt t = replicate n w;
  ai_max : t_max t = replicate n m;
  ai_w : (0 < w <= m)%Z; ai_m : (m < W32)%Z; ai_kw : (Z.of_nat n * w < W32)%Z;
  ai_E : (Z.of_nat (n - n / 2) * (m - w) <= E)%Z;
  ai_D : (E + W <= D)%Z;
  ai_sum : (sumn (nv g) (vweight g) <= Z.of_nat n * w + D)%Z
}.
Definition side_parts (n i : nat) : nat := if decide (i = 0) then n / 2 else n - n / 2.
Section Any.
  Context (lg : nat -> f64) (Hlg : log2_spec lg) (scheme : Z) (bis : bisector) (Hb : api_bisector scheme = Ok bis) (w m W E : Z).
  Lemma any_made D n t g bt p s s' : 2 <= n -> (0 <= W)%Z -> any_inv w m W E D n t g -> bisect_target t (tolerance_factor lg (t_np t)) = Ok bt -> bis bt g s = Ok (p, s') ->
    forall i, i < 2 -> (label_weight g (lab p) (Some i) <= Z.of_nat (side_parts n i) * w + D + W)%Z.
  Proof.
    intros Hn2 HW0 [Hud Hne Hnv Hnull HW Hlim Hnp Hw Hm Hwm Hm32 Hkw HE HD Hs] Ebt Ep.
    set (h := n / 2) in *. assert (Hh : h = n / 2) by done. set (h' := n - h) in *.
    assert (Hhh : 1 <= h /\ h <= h' /\ h' <= h + 1 /\ n = h + h').
    { pose proof (Nat.div_mod n 2 ltac:(lia)) as Hd. pose proof (Nat.mod_upper_bound n 2 ltac:(lia)) as Hu. rewrite <- Hh in Hd. unfold h'. lia. }
    assert (HS : targets_within_limits t).
    { split; [by rewrite Hw, Hm, !replicate_length|]. intros i a b H1 H2. rewrite Hw in H1. rewrite Hm in H2.
      apply lookup_replicate in H1 as [-> _]. apply lookup_replicate in H2 as [-> _]. change (2 ^ 32)%Z with W32. lia. }
    destruct (C11_bisection_targets lg t bt Hlg ltac:(lia) HS Ebt) as (Ht & ma & mb & Hmx & [A1 A2] & [B1 B2] & _ & _).
    rewrite Hnp, Hw, Hm in *. fold h in Ht, A1, A2, B1, B2. rewrite take_replicate, drop_replicate, !total_const in *.
    replace (h `min` n) with h in * by lia. fold h' in Ht, B1, B2.
    assert (Hside : forall i, side_parts n i = if decide (i = 0) then h else h') by (intros i; reflexivity).
    assert (HZh : (1 <= Z.of_nat h <= Z.of_nat h' /\ Z.of_nat h' <= Z.of_nat h + 1)%Z) by lia.
    assert (HZn : (Z.of_nat n = Z.of_nat h + Z.of_nat h')%Z) by lia. rewrite HZn in *. clear HZn.
    set (q := Z.of_nat h) in *. set (q' := Z.of_nat h') in *.
    assert (Hfr : exists f0 f1, t_frac bt = [f0; f1] /\ near (IZR (q * w) / IZR (q * w + q' * w)) f0 /\ near (IZR (q' * w) / IZR (q * w + q' * w)) f1).
    { assert (bt = target_of_weights [(q * w)%Z; (q' * w)%Z] [ma; mb]) as ->; [|apply near_weights; nia].
      unfold bisect_target in Ebt. destruct (ofold _ _ _) as [b|]; [|done]. cbn [obind] in Ebt. injection Ebt as <-. cbn in Ht, Hmx |- *. by rewrite Ht, Hmx. }
    destruct Hfr as (f0 & f1 & Hfr & N0 & N1).
    assert (Rw : (1 <= IZR w)%R) by (apply (IZR_le 1); lia). assert (Rq : (1 <= IZR q)%R) by (apply (IZR_le 1); lia).
    assert (Rq1 : (IZR q <= IZR q')%R) by (apply IZR_le; lia). assert (Rq2 : (IZR q' <= IZR q + 1)%R) by (rewrite <- (plus_IZR q 1); apply IZR_le; lia).
    set (c0 := (IZR q / (IZR q + IZR q'))%R). set (c1 := (IZR q' / (IZR q + IZR q'))%R).
    assert (E0 : (IZR (q * w) / IZR (q * w + q' * w) = c0)%R).
    { rewrite plus_IZR, !mult_IZR. unfold c0. field. split; [lra|]. assert (0 < IZR q * IZR w)%R by (apply Rmult_lt_0_compat; lra). assert (0 < IZR q' * IZR w)%R by (apply Rmult_lt_0_compat; lra). lra. }
    assert (E1 : (IZR (q' * w) / IZR (q * w + q' * w) = c1)%R).
    { rewrite plus_IZR, !mult_IZR. unfold c1. field. split; [lra|]. assert (0 < IZR q * IZR w)%R by (apply Rmult_lt_0_compat; lra). assert (0 < IZR q' * IZR w)%R by (apply Rmult_lt_0_compat; lra). lra. }
    rewrite E0 in N0. rewrite E1 in N1.
    assert (C0 : (c0 * (IZR q + IZR q') = IZR q)%R) by (unfold c0; field; lra). assert (C1 : (c1 * (IZR q + IZR q') = IZR q')%R) by (unfold c1; field; lra).
    assert (Hc0 : (3/10 <= c0 <= 1)%R) by (split; nra). assert (Hc1 : (3/10 <= c1 <= 1)%R) by (split; nra).
    pose proof (bisect_target_two _ _ _ Ebt) as Htw.
    assert (Hli : light g) by (unfold light; assert (HN : (NULL_WGT < W32)%Z) by (vm_compute; reflexivity); lia).
    intros i Hi. set (T := sumn (nv g) (vweight g)) in *.
    assert (HTi : (0 <= label_weight g (lab p) (Some i) <= T)%Z) by (apply label_weight_bounds; apply Hud).
    destruct (Z_le_gt_dec T 0) as [HT0|HT0].
    { assert (0 <= Z.of_nat (side_parts n i) * w)%Z by (apply Z.mul_nonneg_nonneg; lia). nia. }
    destruct (decide (nv g = 0)) as [Hz|Hz]; [assert (T = 0)%Z by (unfold T; rewrite Hz; reflexivity); lia|].
    unfold api_bisector in Hb. destruct (aggregator_make scheme) as [agg|] eqn:Ea; [|done]. cbn in Hb. injection Hb as <-.
    assert (M0 : max_of bt 0 = ma) by (unfold max_of; by rewrite Hmx). assert (M1 : max_of bt 1 = mb) by (unfold max_of; by rewrite Hmx).
    assert (T0 : target_of bt 0 = (q * w)%Z) by (unfold target_of; by rewrite Ht).
    (* the weight a part may reach *)
    assert (HD0 : (0 <= D)%Z) by nia.
    set (de := Rmax (IZR (m - w) + IZR W / IZR q) (IZR (D + W) / IZR q')).
    set (L := ((IZR q + IZR q') * (IZR w + de))%R).
    assert (L0 : (L * c0 = IZR q * (IZR w + de))%R) by (unfold L; rewrite <- C0 at 2; ring).
    assert (L1 : (L * c1 = IZR q' * (IZR w + de))%R) by (unfold L; rewrite <- C1 at 2; ring).
    assert (D0 : (IZR (m - w) + IZR W / IZR q <= de)%R) by apply Rmax_l. assert (D1 : (IZR (D + W) / IZR q' <= de)%R) by apply Rmax_r.
    assert (RW : (0 <= IZR W)%R) by (apply (IZR_le 0); lia). assert (RD : (0 <= IZR D)%R) by (apply (IZR_le 0); lia). assert (Rm : (0 <= IZR (m - w))%R) by (apply (IZR_le 0); lia).
    assert (Q0 : (IZR W / IZR q * IZR q = IZR W)%R) by (field; lra). assert (Q1 : (IZR (D + W) / IZR q' * IZR q' = IZR (D + W))%R) by (field; lra).
    assert (QW : (0 <= IZR W / IZR q)%R) by (apply Rmult_le_pos; [lra|]; left; apply Rinv_0_lt_compat; lra).
    assert (K0 : (IZR q * IZR (m - w) + IZR W <= IZR q * de)%R).
    { replace (IZR q * IZR (m - w) + IZR W)%R with (IZR q * (IZR (m - w) + IZR W / IZR q))%R by (field; lra). apply Rmult_le_compat_l; lra. }
    assert (K1 : (IZR (D + W) <= IZR q' * de)%R) by (rewrite <- Q1; rewrite Rmult_comm; apply Rmult_le_compat_l; lra).
    assert (K2 : (IZR q' * IZR (m - w) <= IZR q' * de)%R) by (apply Rmult_le_compat_l; lra).
    assert (K3 : (0 <= IZR q * de)%R) by (apply Rmult_le_pos; lra).
    assert (HL := library_any g Hud Hne Hnv ltac:(lia) ltac:(unfold T in *; lia) bt Htw f0 f1 c0 c1 Hfr N0 N1 Hc0 Hc1 W (q' * w + D + W) L ltac:(rewrite M0, T0; nia) ltac:(rewrite T0; unfold T in *; lia) ltac:(nia)
      ltac:(rewrite M0, L0; apply Rle_trans with (IZR (q * m + W)); [apply IZR_le; lia|]; rewrite plus_IZR, mult_IZR; rewrite minus_IZR in K0; lra)
      ltac:(rewrite M1, L1; apply Rle_trans with (IZR (q' * m)); [apply IZR_le; lia|]; rewrite mult_IZR; rewrite minus_IZR in K2; lra)
      ltac:(rewrite L1; rewrite !plus_IZR, mult_IZR; rewrite plus_IZR in K1; lra)
      ltac:(apply Rle_trans with (IZR ((q + q') * w + D)); [apply IZR_le; exact Hs|]; unfold L; rewrite plus_IZR, mult_IZR, plus_IZR; rewrite plus_IZR in K1; lra)
      HW ltac:(auto) scheme agg 8 8 150 Ea ltac:(lia)).
    assert (HL' := wpm_elim _ _ _ _ _ _ HL Ep). destruct HL' as [HX [P0 P1]].
    destruct (valid_pw g p i (proj1 HX) ltac:(lia)) as [_ F].
    rewrite (light_u32 g _ _ (ud_wf _ Hud) Hli) in F. rewrite <- F. rewrite Hside.
    (* the bound in integers *)
    assert (U : forall r, (IZR r <= IZR q')%R -> (1 <= IZR r)%R -> (IZR r * de <= IZR (D + W))%R).
    { intros r Hr1 Hr2. unfold de. rewrite <- RmaxRmult by lra. apply Rmax_lub.
      - assert (IZR q' * IZR (m - w) <= IZR E)%R by (rewrite <- mult_IZR; apply IZR_le; lia).
        assert (IZR r * IZR (m - w) <= IZR q' * IZR (m - w))%R by (apply Rmult_le_compat_r; lra).
        assert (IZR r * (IZR W / IZR q) <= 2 * IZR W)%R.
        { rewrite <- Q0 at 2. replace (2 * (IZR W / IZR q * IZR q))%R with ((2 * IZR q) * (IZR W / IZR q))%R by ring. apply Rmult_le_compat_r; lra. }
        assert (IZR (E + W) <= IZR D)%R by (apply IZR_le; lia). rewrite plus_IZR in *. lra.
      - replace (IZR r * (IZR (D + W) / IZR q'))%R with (IZR (D + W) * (IZR r / IZR q'))%R by (field; lra).
        assert (IZR r / IZR q' <= 1)%R by (apply Rmult_le_reg_r with (IZR q'); [lra|]; unfold Rdiv; rewrite Rmult_assoc, Rinv_l by lra; lra).
        rewrite <- (Rmult_1_r (IZR (D + W))) at 2. apply Rmult_le_compat_l; [rewrite plus_IZR; lra|done]. }
    assert (V : forall x r, (IZR x <= IZR r * (IZR w + de) + / 100)%R -> (IZR r <= IZR q')%R -> (1 <= IZR r)%R -> (x <= r * w + D + W)%Z).
    { intros x r Hx Hr1 Hr2. specialize (U r Hr1 Hr2). assert (HA : (IZR x < IZR (r * w + (D + W) + 1))%R); [|apply lt_IZR in HA; lia].
      rewrite !plus_IZR, mult_IZR. rewrite plus_IZR in U. lra. }
    rewrite L0 in P0. rewrite L1 in P1. destruct i as [|[|i]]; [| |lia].
    - rewrite decide_True by done. apply (V _ q); [done|lra|lra].
    - rewrite decide_False by done. apply (V _ q'); [done|lra|lra].
  Qed.
  Lemma any_sub D n t g p i sg off c t' : 2 <= n -> any_inv w m W E D n t g -> induced g (lab p) i sg -> 1 <= c -> c <= n - n / 2 -> off + c <= t_np t ->
    (label_weight g (lab p) (Some i) <= Z.of_nat c * w + D + W)%Z -> (0 <= W)%Z -> sub_target t off c = Ok t' -> any_inv w m W E (D + W) c t' sg.
  Proof.
    intros Hn2 [Hud Hne Hnv Hnull HW Hlim Hnp Hw Hm Hwm Hm32 Hkw HE HD Hs] Hin Hc1 Hc2 Hoc HL HW0 Et. pose proof Hud as [Hwf Hsy Hl Hf].
    pose proof (sub_target_len _ _ _ _ Et) as Hnp'. unfold sub_target in Et. destruct (_ || _); [done|]. injection Et as <-.
    assert (HSum : sumn (nv sg) (vweight sg) = label_weight g (lab p) (Some i)).
    { rewrite (sum_members g (lab p) i sg Hin (vweight g) (vweight sg)); [done|]. intros x v Hx. by apply (in_vw _ _ _ _ Hin). }
    pose proof (label_weight_bounds g (lab p) (Some i) Hwf) as HB.
    constructor.
    - split; [by eapply in_wf|by eapply induced_symmetric|by eapply induced_loopless|by eapply induced_fits].
    - pose proof (induced_ne g Hwf _ _ _ Hin). lia.
    - pose proof (induced_nv g _ _ _ Hin). lia.
    - lia.
    - intros x Hx. assert (Hx' : x < length (members (nv g) (lab p) i)) by (rewrite <- (in_nv _ _ _ _ Hin); done).
      destruct (lookup_lt_is_Some_2 _ _ Hx') as [v Hv]. rewrite (in_vw _ _ _ _ Hin x v Hv). apply HW. apply members_inv in Hv. tauto.
    - lia.
    - done.
    - cbn [t_wgt target_of_weights]. rewrite Hw, drop_replicate, take_replicate. f_equal. lia.
    - cbn [t_max target_of_weights]. rewrite Hm, drop_replicate, take_replicate. f_equal. lia.
    - done.
    - done.
    - assert (Z.of_nat c * w <= Z.of_nat n * w)%Z by (apply Z.mul_le_mono_nonneg_r; lia). lia.
    - assert (Z.of_nat (c - c / 2) * (m - w) <= Z.of_nat (n - n / 2) * (m - w))%Z by (apply Z.mul_le_mono_nonneg_r; lia). lia.
    - lia.
    - lia.
  Qed.
  (** ** The whole tree *)
  Lemma any_tree t g l ps s s' : (0 <= W)%Z -> tree lg bis t g l ps s s' -> forall n j D, any_inv w m W E D n t g -> n <= 2 ^ j -> forall i, i < t_np t -> (label_weight g l i <= w + D + Z.of_nat j * W)%Z.
  Proof.
    intros HW0. induction 1 as [t g bt p l s s' Hk H1 H2 H3 H4 | t g bt p t1 g1 l l1 ps s s1 s2 Hk H1 H2 H3 H4 H5 HT IH H6 H7
                  | t g bt p t0 t1 g0 g1 l l0 l1 ps0 ps1 s s1 s2 s3 Hk H1 H2 H3 H4 H5 HT IH H6 H7 HT1 IH1 H8 H9]; intros n j D HI Hnj i Hi.
    - pose proof (ai_np _ _ _ _ _ _ _ _ HI) as Hnp. rewrite Hk in Hnp. subst n.
      destruct j as [|j]; [cbn in Hnj; lia|].
      pose proof (any_made D 2 t g bt p _ _ ltac:(lia) HW0 HI H1 H2) as M. rewrite Hk in Hi. specialize (M i Hi).
      assert (side_parts 2 i = 1) as E1 by (unfold side_parts; case_decide; reflexivity). rewrite E1 in M.
      assert (EL : label_weight g l i = label_weight g (lab p) (Some i)); [|nia].
      apply sumf_ext. intros v Hv%elem_of_seq. rewrite H4 by lia. repeat case_decide; congruence.
    - (* three parts: side 0 is one part *)
      pose proof (ai_np _ _ _ _ _ _ _ _ HI) as Hnp. rewrite Hk in Hnp. subst n.
      destruct j as [|[|j]]; [cbn in Hnj; lia|cbn in Hnj; lia|].
      pose proof (any_made D 3 t g bt p _ _ ltac:(lia) HW0 HI H1 H2) as M.
      assert (HI1 : any_inv w m W E (D + W) 2 t1 g1).
      { exact (any_sub D 3 t g p 1 g1 1 2 t1 ltac:(lia) HI H4 ltac:(lia) ltac:(cbn; lia) ltac:(rewrite Hk; lia) (M 1 ltac:(lia)) HW0 H5). }
      specialize (IH 2 (S j) _ HI1 ltac:(cbn; pose proof (Nat.pow_nonzero 2 j); lia)). rewrite (sub_target_len _ _ _ _ H5) in IH.
      assert (L1 : forall v, v < nv g -> lab p v = Some 1 -> 1 <= l v).
      { intros v Hv Ev. rewrite (H7 _ _ (members_rank (nv g) (lab p) 1 v Hv Ev)). lia. }
      rewrite Hk in Hi. destruct i as [|i].
      + specialize (M 0 ltac:(lia)). change (side_parts 3 0) with 1 in M.
        assert (EL : label_weight g l 0 = label_weight g (lab p) (Some 0)); [|nia].
        apply sumf_ext. intros v Hv%elem_of_seq. destruct (two_sides g p v H3 ltac:(lia)) as [Ev|Ev]; rewrite Ev.
        * rewrite (H6 v ltac:(lia) Ev). rewrite !decide_True by done. done.
        * pose proof (L1 v ltac:(lia) Ev). rewrite !decide_False by (done || lia). done.
      + assert (EL : label_weight g l (S i) = label_weight g1 l1 i); [|specialize (IH i ltac:(lia)); lia].
        rewrite <- (side_part g p 1 g1 l l1 1 i H4 H7). apply sumf_ext. intros v Hv%elem_of_seq. change (1 + i) with (S i).
        destruct (two_sides g p v H3 ltac:(lia)) as [Ev|Ev]; rewrite Ev.
        * rewrite (H6 v ltac:(lia) Ev). rewrite !decide_False by done. done.
        * rewrite (decide_True (P := Some 1 = Some 1)) by done. done.
    - pose proof (ai_np _ _ _ _ _ _ _ _ HI) as Hnp. rewrite Hnp in *.
      destruct j as [|j]; [cbn in Hnj; lia|]. cbn [Nat.pow] in Hnj.
      pose proof (any_made D n t g bt p _ _ ltac:(lia) HW0 HI ltac:(rewrite Hnp; exact H1) H2) as M.
      set (h := n / 2) in *. assert (Hhd : h = n / 2) by done.
      assert (Hh : 1 <= h /\ h <= n - h /\ n - h <= h + 1).
      { pose proof (Nat.div_mod n 2 ltac:(lia)) as Hd. pose proof (Nat.mod_upper_bound n 2 ltac:(lia)) as Hu. rewrite <- Hhd in Hd. lia. }
      assert (HI0 : any_inv w m W E (D + W) h t0 g0).
      { exact (any_sub D n t g p 0 g0 0 h t0 ltac:(lia) HI H4 ltac:(lia) ltac:(lia) ltac:(rewrite Hnp; lia) (M 0 ltac:(lia)) HW0 H5). }
      assert (HI1 : any_inv w m W E (D + W) (n - h) t1 g1).
      { exact (any_sub D n t g p 1 g1 h (n - h) t1 ltac:(lia) HI H6 ltac:(lia) ltac:(lia) ltac:(rewrite Hnp; lia) (M 1 ltac:(lia)) HW0 H7). }
      specialize (IH h j _ HI0 ltac:(lia)). specialize (IH1 (n - h) j _ HI1 ltac:(lia)). rewrite (sub_target_len _ _ _ _ H5) in IH. rewrite (sub_target_len _ _ _ _ H7) in IH1.
      assert (L0 : forall v, v < nv g -> lab p v = Some 0 -> l v < h).
      { intros v Hv Ev. rewrite (H8 _ _ (members_rank (nv g) (lab p) 0 v Hv Ev)).
        pose proof (tree_bound _ _ _ _ _ _ _ _ HT (rank (lab p) v)) as B. rewrite (in_nv _ _ _ _ H4), (sub_target_len _ _ _ _ H5) in B. apply B. by apply rank_lt. }
      assert (L1 : forall v, v < nv g -> lab p v = Some 1 -> h <= l v).
      { intros v Hv Ev. rewrite (H9 _ _ (members_rank (nv g) (lab p) 1 v Hv Ev)). lia. }
      destruct (decide (i < h)) as [Hlt|Hge].
      + assert (EL : label_weight g l i = label_weight g0 l0 i); [|specialize (IH i Hlt); lia].
        rewrite <- (side_part g p 0 g0 l l0 0 i H4 H8). apply sumf_ext. intros v Hv%elem_of_seq.
        destruct (two_sides g p v H3 ltac:(lia)) as [Ev|Ev]; rewrite Ev.
        * rewrite (decide_True (P := Some 0 = Some 0)) by done. done.
        * pose proof (L1 v ltac:(lia) Ev). rewrite (decide_False (P := Some 1 = Some 0)) by done. rewrite decide_False by lia. done.
      + assert (EL : label_weight g l i = label_weight g1 l1 (i - h)); [|specialize (IH1 (i - h) ltac:(lia)); lia].
        rewrite <- (side_part g p 1 g1 l l1 h (i - h) H6 H9). apply sumf_ext. intros v Hv%elem_of_seq.
        replace (h + (i - h)) with i by lia.
        destruct (two_sides g p v H3 ltac:(lia)) as [Ev|Ev]; rewrite Ev.
        * pose proof (L0 v ltac:(lia) Ev). rewrite decide_False by lia. rewrite decide_False by done. done.
        * rewrite (decide_True (P := Some 1 = Some 1)) by done. done.
  Qed.
End Any.
