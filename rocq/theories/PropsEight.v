(** * PropsEight: every number of parts from two to eight (C03), three parts (C62). *)
From Coq Require Import ZArith.
From Verif Require Import Base F64 ModelGraph ModelPartition ModelAgg ModelMultilevel ModelBisect ModelRecursive ModelApi Spec Logic Sums GraphFacts BisectFacts MultilevelFacts
  Examples FloatFacts FloatUse SubFacts RecFacts TargetFacts LabelFacts ApiFacts TreeFacts PropsTarget PropsApi PropsTree PropsBisect PropsBalance BalanceFacts BoundFacts PowFacts AnyFacts SpreadFacts PropsPow PropsFour PropsEmpty.
From Coq Require Import Reals Floats.SpecFloat Psatz.
From Flocq Require Import Core.Core IEEE754.BinarySingleNaN.
Local Close Scope R_scope.
Local Open Scope nat_scope.
#[local] Arguments seq : simpl nomatch.

(** The target and the limit of each of k parts, and what follows for the graph. *)
Lemma call_spread n prefix adj vw ew k g t : valid_csr n prefix adj vw ew -> graph_of_csr prefix adj vw ew = Ok g -> undirected g ->
  (Z.of_nat n < 2 ^ 32)%Z -> (Z.of_nat (length adj) < 2 ^ 32)%Z -> let T := sumn n (vweight g) in
  (T < NULL_WGT)%Z -> 2 <= k -> (2 * Z.of_nat k <= T)%Z -> target_of_fractions (g_tvw g) default_tolerance (default_fractions k) = Ok t ->
  exists w m, (T / Z.of_nat k - 1 <= w <= T / Z.of_nat k)%Z /\ (0 <= m - w)%Z /\ (10000 * (Z.of_nat k * (m - w)) <= 301 * T + 20000 * Z.of_nat k)%Z /\
    (T <= Z.of_nat k * w + 2 * Z.of_nat k)%Z /\ spread_inv w m k (2 * Z.of_nat k) t g.
Proof.
  intros HC Eg Hud Hn Hne T HT Hk2 HkT Et.
  destruct (graph_of_csr_ok _ _ _ _ _ HC) as (g' & Eg' & Hwf & _ & Hadj & Hvw & _ & Hnv & Ht & _). rewrite Eg in Eg'. injection Eg' as <-.
  assert (HNW : (NULL_WGT < W32)%Z) by (vm_compute; reflexivity).
  assert (HTT : g_tvw g = T) by (rewrite (wf_tvw _ Hwf), Hnv; apply u32_small; fold T; lia).
  assert (HkW : (Z.of_nat k < 2 ^ 32)%Z) by (unfold W32 in *; lia).
  destruct (C36_default_tolerance k T ltac:(lia) HkW ltac:(unfold W32 in *; lia) ltac:(lia)) as (t' & E' & Hm). unfold target_uniform in E'. fold (default_fractions k) in E'.
  rewrite HTT, E' in Et. injection Et as ->.
  assert (isR f_0_03 (F2R (Float radix2 8646911284551352 (-58)))) as Hl by (apply lit_R; vm_compute; reflexivity).
  destruct (C36_uniform_targets k T default_tolerance _ t ltac:(lia) HkW ltac:(unfold W32 in *; lia) Hl ltac:(unfold max_u32_tolerance; lit; lra) E') as (HLt & [HSl HS] & Hw & _).
  destruct (uniform_equal _ _ _ _ E') as (w & m & Ew & Em).
  assert (Lw : t_wgt t !! 0 = Some w) by (rewrite Ew; apply lookup_replicate; split; [done|lia]).
  assert (Lm : t_max t !! 0 = Some m) by (rewrite Em; apply lookup_replicate; split; [done|lia]).
  specialize (Hw 0 w Lw). specialize (HS 0 w m Lw Lm). specialize (Hm 0 m Lm). set (K := Z.of_nat k) in *. assert (HK : (2 <= K)%Z) by lia.
  assert (Hdiv : (T = K * (T / K) + T mod K)%Z) by (apply Z.div_mod; lia). assert (Hmod : (0 <= T mod K < K)%Z) by (apply Z.mod_pos_bound; lia).
  assert (Hq2 : (2 <= T / K)%Z) by (apply Z.div_le_lower_bound; lia).
  assert (Kw1 : (K * w <= K * (T / K))%Z) by (apply Z.mul_le_mono_nonneg_l; lia).
  assert (Kw2 : (K * (T / K - 1) <= K * w)%Z) by (apply Z.mul_le_mono_nonneg_l; lia).
  assert (HTg : sumn (nv g) (vweight g) = T) by (by rewrite Hnv).
  exists w, m. split; [lia|]. split; [lia|]. split; [rewrite Z.mul_sub_distr_l; lia|]. split; [lia|].
  assert (t_np t = k) as Hnp by exact HLt.
  constructor; rewrite ?HTg; try done; try lia.
  - unfold ne. by rewrite Hadj.
  - by rewrite Hnv.
  - apply HS.
Qed.

Lemma spare_2 T w e B : (4000 <= T)%Z -> (T / 2 - 1 <= w <= T / 2)%Z -> (0 <= e)%Z -> (10000 * (2 * e) <= 301 * T + 40000)%Z -> (T <= B)%Z ->
  spare w e (T / 25) B 2 (2 * 2) 0.
Proof.
  intros HT Hw He0 He HB.
  assert (Q0 : (T = 2 * (T / 2) + T mod 2 /\ 0 <= T mod 2 < 2)%Z) by (split; [by apply Z.div_mod|by apply Z.mod_pos_bound]).
  assert (Q1 : (T = 25 * (T / 25) + T mod 25 /\ 0 <= T mod 25 < 25)%Z) by (split; [by apply Z.div_mod|by apply Z.mod_pos_bound]).
  assert (exists W, 750 * T + 20000 < 10000 * W <= 750 * T + 30000)%Z as (W & HW).
  { exists (750 * T / 10000 + 3)%Z. pose proof (Z.div_mod (750 * T) 10000 ltac:(lia)). pose proof (Z.mod_pos_bound (750 * T) 10000 ltac:(lia)). lia. }
  assert (exists X, 901 * T + 70000 < 10000 * X <= 901 * T + 80000)%Z as (X & HX).
  { exists (901 * T / 10000 + 8)%Z. pose proof (Z.div_mod (901 * T) 10000 ltac:(lia)). pose proof (Z.mod_pos_bound (901 * T) 10000 ltac:(lia)). lia. }
  assert (exists Y, 901 * T + 70000 < 10000 * Y <= 901 * T + 80000)%Z as (Y & HY).
  { exists (901 * T / 10000 + 8)%Z. pose proof (Z.div_mod (901 * T) 10000 ltac:(lia)). pose proof (Z.mod_pos_bound (901 * T) 10000 ltac:(lia)). lia. }
  set (V := (T / 25)%Z) in *. set (q := (T / 2)%Z) in *. clearbody V q.
  refine (sp_split w e V B 2 (2 * 2) (0) W X Y _ _ _ _ _ _ (_ : spare _ _ _ _ 1 _ _) (_ : spare _ _ _ _ 1 _ _)); [lia|lia|lia| |lia|lia| |].
    { constructor; change (2 / 2) with 1; change (2 - 1) with 1; lia. }
    { apply sp_part. lia. }
    { apply sp_part. lia. }
Qed.
Lemma spare_3 T w e B : (4000 <= T)%Z -> (T / 3 - 1 <= w <= T / 3)%Z -> (0 <= e)%Z -> (10000 * (3 * e) <= 301 * T + 60000)%Z -> (T <= B)%Z ->
  spare w e (T / 25) B 3 (2 * 3) 0.
Proof.
  intros HT Hw He0 He HB.
  assert (Q0 : (T = 3 * (T / 3) + T mod 3 /\ 0 <= T mod 3 < 3)%Z) by (split; [by apply Z.div_mod|by apply Z.mod_pos_bound]).
  assert (Q1 : (T = 25 * (T / 25) + T mod 25 /\ 0 <= T mod 25 < 25)%Z) by (split; [by apply Z.div_mod|by apply Z.mod_pos_bound]).
  assert (exists W, 750 * T + 20000 < 10000 * W <= 750 * T + 30000)%Z as (W & HW).
  { exists (750 * T / 10000 + 3)%Z. pose proof (Z.div_mod (750 * T) 10000 ltac:(lia)). pose proof (Z.mod_pos_bound (750 * T) 10000 ltac:(lia)). lia. }
  assert (exists X, 851 * T + 50000 < 10000 * X <= 851 * T + 60000)%Z as (X & HX).
  { exists (851 * T / 10000 + 6)%Z. pose proof (Z.div_mod (851 * T) 10000 ltac:(lia)). pose proof (Z.mod_pos_bound (851 * T) 10000 ltac:(lia)). lia. }
  assert (exists Y, 1701 * T + 100000 < 10000 * Y <= 1701 * T + 110000)%Z as (Y & HY).
  { exists (1701 * T / 10000 + 11)%Z. pose proof (Z.div_mod (1701 * T) 10000 ltac:(lia)). pose proof (Z.mod_pos_bound (1701 * T) 10000 ltac:(lia)). lia. }
  assert (exists W1, 628 * T + 20000 < 10000 * W1 <= 628 * T + 30000)%Z as (W1 & HW1).
  { exists (628 * T / 10000 + 3)%Z. pose proof (Z.div_mod (628 * T) 10000 ltac:(lia)). pose proof (Z.mod_pos_bound (628 * T) 10000 ltac:(lia)). lia. }
  assert (exists X1, 2329 * T + 140000 < 10000 * X1 <= 2329 * T + 150000)%Z as (X1 & HX1).
  { exists (2329 * T / 10000 + 15)%Z. pose proof (Z.div_mod (2329 * T) 10000 ltac:(lia)). pose proof (Z.mod_pos_bound (2329 * T) 10000 ltac:(lia)). lia. }
  assert (exists Y1, 2329 * T + 140000 < 10000 * Y1 <= 2329 * T + 150000)%Z as (Y1 & HY1).
  { exists (2329 * T / 10000 + 15)%Z. pose proof (Z.div_mod (2329 * T) 10000 ltac:(lia)). pose proof (Z.mod_pos_bound (2329 * T) 10000 ltac:(lia)). lia. }
  set (V := (T / 25)%Z) in *. set (q := (T / 3)%Z) in *. clearbody V q.
  refine (sp_split w e V B 3 (2 * 3) (0) W X Y _ _ _ _ _ _ (_ : spare _ _ _ _ 1 _ _) (_ : spare _ _ _ _ 2 _ _)); [lia|lia|lia| |lia|lia| |].
    { constructor; change (3 / 2) with 1; change (3 - 1) with 2; lia. }
    { apply sp_part. lia. }
    { refine (sp_split w e V B 2 (Y) (0 + X) W1 X1 Y1 _ _ _ _ _ _ (_ : spare _ _ _ _ 1 _ _) (_ : spare _ _ _ _ 1 _ _)); [lia|lia|lia| |lia|lia| |].
      { constructor; change (2 / 2) with 1; change (2 - 1) with 1; lia. }
      { apply sp_part. lia. }
      { apply sp_part. lia. }
    }
Qed.
Lemma spare_4 T w e B : (4000 <= T)%Z -> (T / 4 - 1 <= w <= T / 4)%Z -> (0 <= e)%Z -> (10000 * (4 * e) <= 301 * T + 80000)%Z -> (T <= B)%Z ->
  spare w e (T / 25) B 4 (2 * 4) 0.
Proof.
  intros HT Hw He0 He HB.
  assert (Q0 : (T = 4 * (T / 4) + T mod 4 /\ 0 <= T mod 4 < 4)%Z) by (split; [by apply Z.div_mod|by apply Z.mod_pos_bound]).
  assert (Q1 : (T = 25 * (T / 25) + T mod 25 /\ 0 <= T mod 25 < 25)%Z) by (split; [by apply Z.div_mod|by apply Z.mod_pos_bound]).
  assert (exists W, 750 * T + 20000 < 10000 * W <= 750 * T + 30000)%Z as (W & HW).
  { exists (750 * T / 10000 + 3)%Z. pose proof (Z.div_mod (750 * T) 10000 ltac:(lia)). pose proof (Z.mod_pos_bound (750 * T) 10000 ltac:(lia)). lia. }
  assert (exists X, 901 * T + 110000 < 10000 * X <= 901 * T + 120000)%Z as (X & HX).
  { exists (901 * T / 10000 + 12)%Z. pose proof (Z.div_mod (901 * T) 10000 ltac:(lia)). pose proof (Z.mod_pos_bound (901 * T) 10000 ltac:(lia)). lia. }
  assert (exists Y, 901 * T + 110000 < 10000 * Y <= 901 * T + 120000)%Z as (Y & HY).
  { exists (901 * T / 10000 + 12)%Z. pose proof (Z.div_mod (901 * T) 10000 ltac:(lia)). pose proof (Z.mod_pos_bound (901 * T) 10000 ltac:(lia)). lia. }
  assert (exists W0, 443 * T + 20000 < 10000 * W0 <= 443 * T + 30000)%Z as (W0 & HW0).
  { exists (443 * T / 10000 + 3)%Z. pose proof (Z.div_mod (443 * T) 10000 ltac:(lia)). pose proof (Z.mod_pos_bound (443 * T) 10000 ltac:(lia)). lia. }
  assert (exists X0, 1344 * T + 150000 < 10000 * X0 <= 1344 * T + 160000)%Z as (X0 & HX0).
  { exists (1344 * T / 10000 + 16)%Z. pose proof (Z.div_mod (1344 * T) 10000 ltac:(lia)). pose proof (Z.mod_pos_bound (1344 * T) 10000 ltac:(lia)). lia. }
  assert (exists Y0, 1344 * T + 150000 < 10000 * Y0 <= 1344 * T + 160000)%Z as (Y0 & HY0).
  { exists (1344 * T / 10000 + 16)%Z. pose proof (Z.div_mod (1344 * T) 10000 ltac:(lia)). pose proof (Z.mod_pos_bound (1344 * T) 10000 ltac:(lia)). lia. }
  assert (exists W1, 443 * T + 20000 < 10000 * W1 <= 443 * T + 30000)%Z as (W1 & HW1).
  { exists (443 * T / 10000 + 3)%Z. pose proof (Z.div_mod (443 * T) 10000 ltac:(lia)). pose proof (Z.mod_pos_bound (443 * T) 10000 ltac:(lia)). lia. }
  assert (exists X1, 1344 * T + 150000 < 10000 * X1 <= 1344 * T + 160000)%Z as (X1 & HX1).
  { exists (1344 * T / 10000 + 16)%Z. pose proof (Z.div_mod (1344 * T) 10000 ltac:(lia)). pose proof (Z.mod_pos_bound (1344 * T) 10000 ltac:(lia)). lia. }
  assert (exists Y1, 1344 * T + 150000 < 10000 * Y1 <= 1344 * T + 160000)%Z as (Y1 & HY1).
  { exists (1344 * T / 10000 + 16)%Z. pose proof (Z.div_mod (1344 * T) 10000 ltac:(lia)). pose proof (Z.mod_pos_bound (1344 * T) 10000 ltac:(lia)). lia. }
  set (V := (T / 25)%Z) in *. set (q := (T / 4)%Z) in *. clearbody V q.
  refine (sp_split w e V B 4 (2 * 4) (0) W X Y _ _ _ _ _ _ (_ : spare _ _ _ _ 2 _ _) (_ : spare _ _ _ _ 2 _ _)); [lia|lia|lia| |lia|lia| |].
    { constructor; change (4 / 2) with 2; change (4 - 2) with 2; lia. }
    { refine (sp_split w e V B 2 (X) (0 + Y) W0 X0 Y0 _ _ _ _ _ _ (_ : spare _ _ _ _ 1 _ _) (_ : spare _ _ _ _ 1 _ _)); [lia|lia|lia| |lia|lia| |].
      { constructor; change (2 / 2) with 1; change (2 - 1) with 1; lia. }
      { apply sp_part. lia. }
      { apply sp_part. lia. }
    }
    { refine (sp_split w e V B 2 (Y) (0 + X) W1 X1 Y1 _ _ _ _ _ _ (_ : spare _ _ _ _ 1 _ _) (_ : spare _ _ _ _ 1 _ _)); [lia|lia|lia| |lia|lia| |].
      { constructor; change (2 / 2) with 1; change (2 - 1) with 1; lia. }
      { apply sp_part. lia. }
      { apply sp_part. lia. }
    }
Qed.
Lemma spare_5 T w e B : (4000 <= T)%Z -> (T / 5 - 1 <= w <= T / 5)%Z -> (0 <= e)%Z -> (10000 * (5 * e) <= 301 * T + 100000)%Z -> (T <= B)%Z ->
  spare w e (T / 25) B 5 (2 * 5) 0.
Proof.
  intros HT Hw He0 He HB.
  assert (Q0 : (T = 5 * (T / 5) + T mod 5 /\ 0 <= T mod 5 < 5)%Z) by (split; [by apply Z.div_mod|by apply Z.mod_pos_bound]).
  assert (Q1 : (T = 25 * (T / 25) + T mod 25 /\ 0 <= T mod 25 < 25)%Z) by (split; [by apply Z.div_mod|by apply Z.mod_pos_bound]).
  assert (exists W, 750 * T + 20000 < 10000 * W <= 750 * T + 30000)%Z as (W & HW).
  { exists (750 * T / 10000 + 3)%Z. pose proof (Z.div_mod (750 * T) 10000 ltac:(lia)). pose proof (Z.mod_pos_bound (750 * T) 10000 ltac:(lia)). lia. }
  assert (exists X, 871 * T + 90000 < 10000 * X <= 871 * T + 100000)%Z as (X & HX).
  { exists (871 * T / 10000 + 10)%Z. pose proof (Z.div_mod (871 * T) 10000 ltac:(lia)). pose proof (Z.mod_pos_bound (871 * T) 10000 ltac:(lia)). lia. }
  assert (exists Y, 1306 * T + 130000 < 10000 * Y <= 1306 * T + 140000)%Z as (Y & HY).
  { exists (1306 * T / 10000 + 14)%Z. pose proof (Z.div_mod (1306 * T) 10000 ltac:(lia)). pose proof (Z.mod_pos_bound (1306 * T) 10000 ltac:(lia)). lia. }
  assert (exists W0, 400 * T + 20000 < 10000 * W0 <= 400 * T + 30000)%Z as (W0 & HW0).
  { exists (400 * T / 10000 + 3)%Z. pose proof (Z.div_mod (400 * T) 10000 ltac:(lia)). pose proof (Z.mod_pos_bound (400 * T) 10000 ltac:(lia)). lia. }
  assert (exists X0, 1271 * T + 130000 < 10000 * X0 <= 1271 * T + 140000)%Z as (X0 & HX0).
  { exists (1271 * T / 10000 + 14)%Z. pose proof (Z.div_mod (1271 * T) 10000 ltac:(lia)). pose proof (Z.mod_pos_bound (1271 * T) 10000 ltac:(lia)). lia. }
  assert (exists Y0, 1271 * T + 130000 < 10000 * Y0 <= 1271 * T + 140000)%Z as (Y0 & HY0).
  { exists (1271 * T / 10000 + 14)%Z. pose proof (Z.div_mod (1271 * T) 10000 ltac:(lia)). pose proof (Z.mod_pos_bound (1271 * T) 10000 ltac:(lia)). lia. }
  assert (exists W1, 548 * T + 30000 < 10000 * W1 <= 548 * T + 40000)%Z as (W1 & HW1).
  { exists (548 * T / 10000 + 4)%Z. pose proof (Z.div_mod (548 * T) 10000 ltac:(lia)). pose proof (Z.mod_pos_bound (548 * T) 10000 ltac:(lia)). lia. }
  assert (exists X1, 927 * T + 90000 < 10000 * X1 <= 927 * T + 100000)%Z as (X1 & HX1).
  { exists (927 * T / 10000 + 10)%Z. pose proof (Z.div_mod (927 * T) 10000 ltac:(lia)). pose proof (Z.mod_pos_bound (927 * T) 10000 ltac:(lia)). lia. }
  assert (exists Y1, 1854 * T + 180000 < 10000 * Y1 <= 1854 * T + 190000)%Z as (Y1 & HY1).
  { exists (1854 * T / 10000 + 19)%Z. pose proof (Z.div_mod (1854 * T) 10000 ltac:(lia)). pose proof (Z.mod_pos_bound (1854 * T) 10000 ltac:(lia)). lia. }
  assert (exists W11, 440 * T + 30000 < 10000 * W11 <= 440 * T + 40000)%Z as (W11 & HW11).
  { exists (440 * T / 10000 + 4)%Z. pose proof (Z.div_mod (440 * T) 10000 ltac:(lia)). pose proof (Z.mod_pos_bound (440 * T) 10000 ltac:(lia)). lia. }
  assert (exists X11, 2294 * T + 230000 < 10000 * X11 <= 2294 * T + 240000)%Z as (X11 & HX11).
  { exists (2294 * T / 10000 + 24)%Z. pose proof (Z.div_mod (2294 * T) 10000 ltac:(lia)). pose proof (Z.mod_pos_bound (2294 * T) 10000 ltac:(lia)). lia. }
  assert (exists Y11, 2294 * T + 230000 < 10000 * Y11 <= 2294 * T + 240000)%Z as (Y11 & HY11).
  { exists (2294 * T / 10000 + 24)%Z. pose proof (Z.div_mod (2294 * T) 10000 ltac:(lia)). pose proof (Z.mod_pos_bound (2294 * T) 10000 ltac:(lia)). lia. }
  set (V := (T / 25)%Z) in *. set (q := (T / 5)%Z) in *. clearbody V q.
  refine (sp_split w e V B 5 (2 * 5) (0) W X Y _ _ _ _ _ _ (_ : spare _ _ _ _ 2 _ _) (_ : spare _ _ _ _ 3 _ _)); [lia|lia|lia| |lia|lia| |].
    { constructor; change (5 / 2) with 2; change (5 - 2) with 3; lia. }
    { refine (sp_split w e V B 2 (X) (0 + Y) W0 X0 Y0 _ _ _ _ _ _ (_ : spare _ _ _ _ 1 _ _) (_ : spare _ _ _ _ 1 _ _)); [lia|lia|lia| |lia|lia| |].
      { constructor; change (2 / 2) with 1; change (2 - 1) with 1; lia. }
      { apply sp_part. lia. }
      { apply sp_part. lia. }
    }
    { refine (sp_split w e V B 3 (Y) (0 + X) W1 X1 Y1 _ _ _ _ _ _ (_ : spare _ _ _ _ 1 _ _) (_ : spare _ _ _ _ 2 _ _)); [lia|lia|lia| |lia|lia| |].
      { constructor; change (3 / 2) with 1; change (3 - 1) with 2; lia. }
      { apply sp_part. lia. }
      { refine (sp_split w e V B 2 (Y1) (0 + X + X1) W11 X11 Y11 _ _ _ _ _ _ (_ : spare _ _ _ _ 1 _ _) (_ : spare _ _ _ _ 1 _ _)); [lia|lia|lia| |lia|lia| |].
        { constructor; change (2 / 2) with 1; change (2 - 1) with 1; lia. }
        { apply sp_part. lia. }
        { apply sp_part. lia. }
      }
    }
Qed.
Lemma spare_6 T w e B : (4000 <= T)%Z -> (T / 6 - 1 <= w <= T / 6)%Z -> (0 <= e)%Z -> (10000 * (6 * e) <= 301 * T + 120000)%Z -> (T <= B)%Z ->
  spare w e (T / 25) B 6 (2 * 6) 0.
Proof.
  intros HT Hw He0 He HB.
  assert (Q0 : (T = 6 * (T / 6) + T mod 6 /\ 0 <= T mod 6 < 6)%Z) by (split; [by apply Z.div_mod|by apply Z.mod_pos_bound]).
  assert (Q1 : (T = 25 * (T / 25) + T mod 25 /\ 0 <= T mod 25 < 25)%Z) by (split; [by apply Z.div_mod|by apply Z.mod_pos_bound]).
  assert (exists W, 750 * T + 20000 < 10000 * W <= 750 * T + 30000)%Z as (W & HW).
  { exists (750 * T / 10000 + 3)%Z. pose proof (Z.div_mod (750 * T) 10000 ltac:(lia)). pose proof (Z.mod_pos_bound (750 * T) 10000 ltac:(lia)). lia. }
  assert (exists X, 901 * T + 150000 < 10000 * X <= 901 * T + 160000)%Z as (X & HX).
  { exists (901 * T / 10000 + 16)%Z. pose proof (Z.div_mod (901 * T) 10000 ltac:(lia)). pose proof (Z.mod_pos_bound (901 * T) 10000 ltac:(lia)). lia. }
  assert (exists Y, 901 * T + 150000 < 10000 * Y <= 901 * T + 160000)%Z as (Y & HY).
  { exists (901 * T / 10000 + 16)%Z. pose proof (Z.div_mod (901 * T) 10000 ltac:(lia)). pose proof (Z.mod_pos_bound (901 * T) 10000 ltac:(lia)). lia. }
  assert (exists W0, 443 * T + 30000 < 10000 * W0 <= 443 * T + 40000)%Z as (W0 & HW0).
  { exists (443 * T / 10000 + 4)%Z. pose proof (Z.div_mod (443 * T) 10000 ltac:(lia)). pose proof (Z.mod_pos_bound (443 * T) 10000 ltac:(lia)). lia. }
  assert (exists X0, 672 * T + 100000 < 10000 * X0 <= 672 * T + 110000)%Z as (X0 & HX0).
  { exists (672 * T / 10000 + 11)%Z. pose proof (Z.div_mod (672 * T) 10000 ltac:(lia)). pose proof (Z.mod_pos_bound (672 * T) 10000 ltac:(lia)). lia. }
  assert (exists Y0, 1344 * T + 200000 < 10000 * Y0 <= 1344 * T + 210000)%Z as (Y0 & HY0).
  { exists (1344 * T / 10000 + 21)%Z. pose proof (Z.div_mod (1344 * T) 10000 ltac:(lia)). pose proof (Z.mod_pos_bound (1344 * T) 10000 ltac:(lia)). lia. }
  assert (exists W01, 400 * T + 30000 < 10000 * W01 <= 400 * T + 40000)%Z as (W01 & HW01).
  { exists (400 * T / 10000 + 4)%Z. pose proof (Z.div_mod (400 * T) 10000 ltac:(lia)). pose proof (Z.mod_pos_bound (400 * T) 10000 ltac:(lia)). lia. }
  assert (exists X01, 1744 * T + 250000 < 10000 * X01 <= 1744 * T + 260000)%Z as (X01 & HX01).
  { exists (1744 * T / 10000 + 26)%Z. pose proof (Z.div_mod (1744 * T) 10000 ltac:(lia)). pose proof (Z.mod_pos_bound (1744 * T) 10000 ltac:(lia)). lia. }
  assert (exists Y01, 1744 * T + 250000 < 10000 * Y01 <= 1744 * T + 260000)%Z as (Y01 & HY01).
  { exists (1744 * T / 10000 + 26)%Z. pose proof (Z.div_mod (1744 * T) 10000 ltac:(lia)). pose proof (Z.mod_pos_bound (1744 * T) 10000 ltac:(lia)). lia. }
  assert (exists W1, 443 * T + 30000 < 10000 * W1 <= 443 * T + 40000)%Z as (W1 & HW1).
  { exists (443 * T / 10000 + 4)%Z. pose proof (Z.div_mod (443 * T) 10000 ltac:(lia)). pose proof (Z.mod_pos_bound (443 * T) 10000 ltac:(lia)). lia. }
  assert (exists X1, 672 * T + 100000 < 10000 * X1 <= 672 * T + 110000)%Z as (X1 & HX1).
  { exists (672 * T / 10000 + 11)%Z. pose proof (Z.div_mod (672 * T) 10000 ltac:(lia)). pose proof (Z.mod_pos_bound (672 * T) 10000 ltac:(lia)). lia. }
  assert (exists Y1, 1344 * T + 200000 < 10000 * Y1 <= 1344 * T + 210000)%Z as (Y1 & HY1).
  { exists (1344 * T / 10000 + 21)%Z. pose proof (Z.div_mod (1344 * T) 10000 ltac:(lia)). pose proof (Z.mod_pos_bound (1344 * T) 10000 ltac:(lia)). lia. }
  assert (exists W11, 400 * T + 30000 < 10000 * W11 <= 400 * T + 40000)%Z as (W11 & HW11).
  { exists (400 * T / 10000 + 4)%Z. pose proof (Z.div_mod (400 * T) 10000 ltac:(lia)). pose proof (Z.mod_pos_bound (400 * T) 10000 ltac:(lia)). lia. }
  assert (exists X11, 1744 * T + 250000 < 10000 * X11 <= 1744 * T + 260000)%Z as (X11 & HX11).
  { exists (1744 * T / 10000 + 26)%Z. pose proof (Z.div_mod (1744 * T) 10000 ltac:(lia)). pose proof (Z.mod_pos_bound (1744 * T) 10000 ltac:(lia)). lia. }
  assert (exists Y11, 1744 * T + 250000 < 10000 * Y11 <= 1744 * T + 260000)%Z as (Y11 & HY11).
  { exists (1744 * T / 10000 + 26)%Z. pose proof (Z.div_mod (1744 * T) 10000 ltac:(lia)). pose proof (Z.mod_pos_bound (1744 * T) 10000 ltac:(lia)). lia. }
  set (V := (T / 25)%Z) in *. set (q := (T / 6)%Z) in *. clearbody V q.
  refine (sp_split w e V B 6 (2 * 6) (0) W X Y _ _ _ _ _ _ (_ : spare _ _ _ _ 3 _ _) (_ : spare _ _ _ _ 3 _ _)); [lia|lia|lia| |lia|lia| |].
    { constructor; change (6 / 2) with 3; change (6 - 3) with 3; lia. }
    { refine (sp_split w e V B 3 (X) (0 + Y) W0 X0 Y0 _ _ _ _ _ _ (_ : spare _ _ _ _ 1 _ _) (_ : spare _ _ _ _ 2 _ _)); [lia|lia|lia| |lia|lia| |].
      { constructor; change (3 / 2) with 1; change (3 - 1) with 2; lia. }
      { apply sp_part. lia. }
      { refine (sp_split w e V B 2 (Y0) (0 + Y + X0) W01 X01 Y01 _ _ _ _ _ _ (_ : spare _ _ _ _ 1 _ _) (_ : spare _ _ _ _ 1 _ _)); [lia|lia|lia| |lia|lia| |].
        { constructor; change (2 / 2) with 1; change (2 - 1) with 1; lia. }
        { apply sp_part. lia. }
        { apply sp_part. lia. }
      }
    }
    { refine (sp_split w e V B 3 (Y) (0 + X) W1 X1 Y1 _ _ _ _ _ _ (_ : spare _ _ _ _ 1 _ _) (_ : spare _ _ _ _ 2 _ _)); [lia|lia|lia| |lia|lia| |].
      { constructor; change (3 / 2) with 1; change (3 - 1) with 2; lia. }
      { apply sp_part. lia. }
      { refine (sp_split w e V B 2 (Y1) (0 + X + X1) W11 X11 Y11 _ _ _ _ _ _ (_ : spare _ _ _ _ 1 _ _) (_ : spare _ _ _ _ 1 _ _)); [lia|lia|lia| |lia|lia| |].
        { constructor; change (2 / 2) with 1; change (2 - 1) with 1; lia. }
        { apply sp_part. lia. }
        { apply sp_part. lia. }
      }
    }
Qed.
Lemma spare_7 T w e B : (4000 <= T)%Z -> (T / 7 - 1 <= w <= T / 7)%Z -> (0 <= e)%Z -> (10000 * (7 * e) <= 301 * T + 140000)%Z -> (T <= B)%Z ->
  spare w e (T / 25) B 7 (2 * 7) 0.
Proof.
  intros HT Hw He0 He HB.
  assert (Q0 : (T = 7 * (T / 7) + T mod 7 /\ 0 <= T mod 7 < 7)%Z) by (split; [by apply Z.div_mod|by apply Z.mod_pos_bound]).
  assert (Q1 : (T = 25 * (T / 25) + T mod 25 /\ 0 <= T mod 25 < 25)%Z) by (split; [by apply Z.div_mod|by apply Z.mod_pos_bound]).
  assert (exists W, 750 * T + 30000 < 10000 * W <= 750 * T + 40000)%Z as (W & HW).
  { exists (750 * T / 10000 + 4)%Z. pose proof (Z.div_mod (750 * T) 10000 ltac:(lia)). pose proof (Z.mod_pos_bound (750 * T) 10000 ltac:(lia)). lia. }
  assert (exists X, 879 * T + 140000 < 10000 * X <= 879 * T + 150000)%Z as (X & HX).
  { exists (879 * T / 10000 + 15)%Z. pose proof (Z.div_mod (879 * T) 10000 ltac:(lia)). pose proof (Z.mod_pos_bound (879 * T) 10000 ltac:(lia)). lia. }
  assert (exists Y, 1172 * T + 180000 < 10000 * Y <= 1172 * T + 190000)%Z as (Y & HY).
  { exists (1172 * T / 10000 + 19)%Z. pose proof (Z.div_mod (1172 * T) 10000 ltac:(lia)). pose proof (Z.mod_pos_bound (1172 * T) 10000 ltac:(lia)). lia. }
  assert (exists W0, 400 * T + 30000 < 10000 * W0 <= 400 * T + 40000)%Z as (W0 & HW0).
  { exists (400 * T / 10000 + 4)%Z. pose proof (Z.div_mod (400 * T) 10000 ltac:(lia)). pose proof (Z.mod_pos_bound (400 * T) 10000 ltac:(lia)). lia. }
  assert (exists X0, 640 * T + 100000 < 10000 * X0 <= 640 * T + 110000)%Z as (X0 & HX0).
  { exists (640 * T / 10000 + 11)%Z. pose proof (Z.div_mod (640 * T) 10000 ltac:(lia)). pose proof (Z.mod_pos_bound (640 * T) 10000 ltac:(lia)). lia. }
  assert (exists Y0, 1279 * T + 190000 < 10000 * Y0 <= 1279 * T + 200000)%Z as (Y0 & HY0).
  { exists (1279 * T / 10000 + 20)%Z. pose proof (Z.div_mod (1279 * T) 10000 ltac:(lia)). pose proof (Z.mod_pos_bound (1279 * T) 10000 ltac:(lia)). lia. }
  assert (exists W01, 400 * T + 30000 < 10000 * W01 <= 400 * T + 40000)%Z as (W01 & HW01).
  { exists (400 * T / 10000 + 4)%Z. pose proof (Z.div_mod (400 * T) 10000 ltac:(lia)). pose proof (Z.mod_pos_bound (400 * T) 10000 ltac:(lia)). lia. }
  assert (exists X01, 1679 * T + 240000 < 10000 * X01 <= 1679 * T + 250000)%Z as (X01 & HX01).
  { exists (1679 * T / 10000 + 25)%Z. pose proof (Z.div_mod (1679 * T) 10000 ltac:(lia)). pose proof (Z.mod_pos_bound (1679 * T) 10000 ltac:(lia)). lia. }
  assert (exists Y01, 1679 * T + 240000 < 10000 * Y01 <= 1679 * T + 250000)%Z as (Y01 & HY01).
  { exists (1679 * T / 10000 + 25)%Z. pose proof (Z.div_mod (1679 * T) 10000 ltac:(lia)). pose proof (Z.mod_pos_bound (1679 * T) 10000 ltac:(lia)). lia. }
  assert (exists W1, 517 * T + 30000 < 10000 * W1 <= 517 * T + 40000)%Z as (W1 & HW1).
  { exists (517 * T / 10000 + 4)%Z. pose proof (Z.div_mod (517 * T) 10000 ltac:(lia)). pose proof (Z.mod_pos_bound (517 * T) 10000 ltac:(lia)). lia. }
  assert (exists X1, 1689 * T + 230000 < 10000 * X1 <= 1689 * T + 240000)%Z as (X1 & HX1).
  { exists (1689 * T / 10000 + 24)%Z. pose proof (Z.div_mod (1689 * T) 10000 ltac:(lia)). pose proof (Z.mod_pos_bound (1689 * T) 10000 ltac:(lia)). lia. }
  assert (exists Y1, 1689 * T + 230000 < 10000 * Y1 <= 1689 * T + 240000)%Z as (Y1 & HY1).
  { exists (1689 * T / 10000 + 24)%Z. pose proof (Z.div_mod (1689 * T) 10000 ltac:(lia)). pose proof (Z.mod_pos_bound (1689 * T) 10000 ltac:(lia)). lia. }
  assert (exists W10, 400 * T + 30000 < 10000 * W10 <= 400 * T + 40000)%Z as (W10 & HW10).
  { exists (400 * T / 10000 + 4)%Z. pose proof (Z.div_mod (400 * T) 10000 ltac:(lia)). pose proof (Z.mod_pos_bound (400 * T) 10000 ltac:(lia)). lia. }
  assert (exists X10, 2089 * T + 280000 < 10000 * X10 <= 2089 * T + 290000)%Z as (X10 & HX10).
  { exists (2089 * T / 10000 + 29)%Z. pose proof (Z.div_mod (2089 * T) 10000 ltac:(lia)). pose proof (Z.mod_pos_bound (2089 * T) 10000 ltac:(lia)). lia. }
  assert (exists Y10, 2089 * T + 280000 < 10000 * Y10 <= 2089 * T + 290000)%Z as (Y10 & HY10).
  { exists (2089 * T / 10000 + 29)%Z. pose proof (Z.div_mod (2089 * T) 10000 ltac:(lia)). pose proof (Z.mod_pos_bound (2089 * T) 10000 ltac:(lia)). lia. }
  assert (exists W11, 400 * T + 30000 < 10000 * W11 <= 400 * T + 40000)%Z as (W11 & HW11).
  { exists (400 * T / 10000 + 4)%Z. pose proof (Z.div_mod (400 * T) 10000 ltac:(lia)). pose proof (Z.mod_pos_bound (400 * T) 10000 ltac:(lia)). lia. }
  assert (exists X11, 2089 * T + 280000 < 10000 * X11 <= 2089 * T + 290000)%Z as (X11 & HX11).
  { exists (2089 * T / 10000 + 29)%Z. pose proof (Z.div_mod (2089 * T) 10000 ltac:(lia)). pose proof (Z.mod_pos_bound (2089 * T) 10000 ltac:(lia)). lia. }
  assert (exists Y11, 2089 * T + 280000 < 10000 * Y11 <= 2089 * T + 290000)%Z as (Y11 & HY11).
  { exists (2089 * T / 10000 + 29)%Z. pose proof (Z.div_mod (2089 * T) 10000 ltac:(lia)). pose proof (Z.mod_pos_bound (2089 * T) 10000 ltac:(lia)). lia. }
  set (V := (T / 25)%Z) in *. set (q := (T / 7)%Z) in *. clearbody V q.
  refine (sp_split w e V B 7 (2 * 7) (0) W X Y _ _ _ _ _ _ (_ : spare _ _ _ _ 3 _ _) (_ : spare _ _ _ _ 4 _ _)); [lia|lia|lia| |lia|lia| |].
    { constructor; change (7 / 2) with 3; change (7 - 3) with 4; lia. }
    { refine (sp_split w e V B 3 (X) (0 + Y) W0 X0 Y0 _ _ _ _ _ _ (_ : spare _ _ _ _ 1 _ _) (_ : spare _ _ _ _ 2 _ _)); [lia|lia|lia| |lia|lia| |].
      { constructor; change (3 / 2) with 1; change (3 - 1) with 2; lia. }
      { apply sp_part. lia. }
      { refine (sp_split w e V B 2 (Y0) (0 + Y + X0) W01 X01 Y01 _ _ _ _ _ _ (_ : spare _ _ _ _ 1 _ _) (_ : spare _ _ _ _ 1 _ _)); [lia|lia|lia| |lia|lia| |].
        { constructor; change (2 / 2) with 1; change (2 - 1) with 1; lia. }
        { apply sp_part. lia. }
        { apply sp_part. lia. }
      }
    }
    { refine (sp_split w e V B 4 (Y) (0 + X) W1 X1 Y1 _ _ _ _ _ _ (_ : spare _ _ _ _ 2 _ _) (_ : spare _ _ _ _ 2 _ _)); [lia|lia|lia| |lia|lia| |].
      { constructor; change (4 / 2) with 2; change (4 - 2) with 2; lia. }
      { refine (sp_split w e V B 2 (X1) (0 + X + Y1) W10 X10 Y10 _ _ _ _ _ _ (_ : spare _ _ _ _ 1 _ _) (_ : spare _ _ _ _ 1 _ _)); [lia|lia|lia| |lia|lia| |].
        { constructor; change (2 / 2) with 1; change (2 - 1) with 1; lia. }
        { apply sp_part. lia. }
        { apply sp_part. lia. }
      }
      { refine (sp_split w e V B 2 (Y1) (0 + X + X1) W11 X11 Y11 _ _ _ _ _ _ (_ : spare _ _ _ _ 1 _ _) (_ : spare _ _ _ _ 1 _ _)); [lia|lia|lia| |lia|lia| |].
        { constructor; change (2 / 2) with 1; change (2 - 1) with 1; lia. }
        { apply sp_part. lia. }
        { apply sp_part. lia. }
      }
    }
Qed.
Lemma spare_8 T w e B : (4000 <= T)%Z -> (T / 8 - 1 <= w <= T / 8)%Z -> (0 <= e)%Z -> (10000 * (8 * e) <= 301 * T + 160000)%Z -> (T <= B)%Z ->
  spare w e (T / 25) B 8 (2 * 8) 0.
Proof.
  intros HT Hw He0 He HB.
  assert (Q0 : (T = 8 * (T / 8) + T mod 8 /\ 0 <= T mod 8 < 8)%Z) by (split; [by apply Z.div_mod|by apply Z.mod_pos_bound]).
  assert (Q1 : (T = 25 * (T / 25) + T mod 25 /\ 0 <= T mod 25 < 25)%Z) by (split; [by apply Z.div_mod|by apply Z.mod_pos_bound]).
  assert (exists W, 750 * T + 30000 < 10000 * W <= 750 * T + 40000)%Z as (W & HW).
  { exists (750 * T / 10000 + 4)%Z. pose proof (Z.div_mod (750 * T) 10000 ltac:(lia)). pose proof (Z.mod_pos_bound (750 * T) 10000 ltac:(lia)). lia. }
  assert (exists X, 901 * T + 200000 < 10000 * X <= 901 * T + 210000)%Z as (X & HX).
  { exists (901 * T / 10000 + 21)%Z. pose proof (Z.div_mod (901 * T) 10000 ltac:(lia)). pose proof (Z.mod_pos_bound (901 * T) 10000 ltac:(lia)). lia. }
  assert (exists Y, 901 * T + 200000 < 10000 * Y <= 901 * T + 210000)%Z as (Y & HY).
  { exists (901 * T / 10000 + 21)%Z. pose proof (Z.div_mod (901 * T) 10000 ltac:(lia)). pose proof (Z.mod_pos_bound (901 * T) 10000 ltac:(lia)). lia. }
  assert (exists W0, 443 * T + 30000 < 10000 * W0 <= 443 * T + 40000)%Z as (W0 & HW0).
  { exists (443 * T / 10000 + 4)%Z. pose proof (Z.div_mod (443 * T) 10000 ltac:(lia)). pose proof (Z.mod_pos_bound (443 * T) 10000 ltac:(lia)). lia. }
  assert (exists X0, 1344 * T + 250000 < 10000 * X0 <= 1344 * T + 260000)%Z as (X0 & HX0).
  { exists (1344 * T / 10000 + 26)%Z. pose proof (Z.div_mod (1344 * T) 10000 ltac:(lia)). pose proof (Z.mod_pos_bound (1344 * T) 10000 ltac:(lia)). lia. }
  assert (exists Y0, 1344 * T + 250000 < 10000 * Y0 <= 1344 * T + 260000)%Z as (Y0 & HY0).
  { exists (1344 * T / 10000 + 26)%Z. pose proof (Z.div_mod (1344 * T) 10000 ltac:(lia)). pose proof (Z.mod_pos_bound (1344 * T) 10000 ltac:(lia)). lia. }
  assert (exists W00, 400 * T + 30000 < 10000 * W00 <= 400 * T + 40000)%Z as (W00 & HW00).
  { exists (400 * T / 10000 + 4)%Z. pose proof (Z.div_mod (400 * T) 10000 ltac:(lia)). pose proof (Z.mod_pos_bound (400 * T) 10000 ltac:(lia)). lia. }
  assert (exists X00, 1744 * T + 300000 < 10000 * X00 <= 1744 * T + 310000)%Z as (X00 & HX00).
  { exists (1744 * T / 10000 + 31)%Z. pose proof (Z.div_mod (1744 * T) 10000 ltac:(lia)). pose proof (Z.mod_pos_bound (1744 * T) 10000 ltac:(lia)). lia. }
  assert (exists Y00, 1744 * T + 300000 < 10000 * Y00 <= 1744 * T + 310000)%Z as (Y00 & HY00).
  { exists (1744 * T / 10000 + 31)%Z. pose proof (Z.div_mod (1744 * T) 10000 ltac:(lia)). pose proof (Z.mod_pos_bound (1744 * T) 10000 ltac:(lia)). lia. }
  assert (exists W01, 400 * T + 30000 < 10000 * W01 <= 400 * T + 40000)%Z as (W01 & HW01).
  { exists (400 * T / 10000 + 4)%Z. pose proof (Z.div_mod (400 * T) 10000 ltac:(lia)). pose proof (Z.mod_pos_bound (400 * T) 10000 ltac:(lia)). lia. }
  assert (exists X01, 1744 * T + 300000 < 10000 * X01 <= 1744 * T + 310000)%Z as (X01 & HX01).
  { exists (1744 * T / 10000 + 31)%Z. pose proof (Z.div_mod (1744 * T) 10000 ltac:(lia)). pose proof (Z.mod_pos_bound (1744 * T) 10000 ltac:(lia)). lia. }
  assert (exists Y01, 1744 * T + 300000 < 10000 * Y01 <= 1744 * T + 310000)%Z as (Y01 & HY01).
  { exists (1744 * T / 10000 + 31)%Z. pose proof (Z.div_mod (1744 * T) 10000 ltac:(lia)). pose proof (Z.mod_pos_bound (1744 * T) 10000 ltac:(lia)). lia. }
  assert (exists W1, 443 * T + 30000 < 10000 * W1 <= 443 * T + 40000)%Z as (W1 & HW1).
  { exists (443 * T / 10000 + 4)%Z. pose proof (Z.div_mod (443 * T) 10000 ltac:(lia)). pose proof (Z.mod_pos_bound (443 * T) 10000 ltac:(lia)). lia. }
  assert (exists X1, 1344 * T + 250000 < 10000 * X1 <= 1344 * T + 260000)%Z as (X1 & HX1).
  { exists (1344 * T / 10000 + 26)%Z. pose proof (Z.div_mod (1344 * T) 10000 ltac:(lia)). pose proof (Z.mod_pos_bound (1344 * T) 10000 ltac:(lia)). lia. }
  assert (exists Y1, 1344 * T + 250000 < 10000 * Y1 <= 1344 * T + 260000)%Z as (Y1 & HY1).
  { exists (1344 * T / 10000 + 26)%Z. pose proof (Z.div_mod (1344 * T) 10000 ltac:(lia)). pose proof (Z.mod_pos_bound (1344 * T) 10000 ltac:(lia)). lia. }
  assert (exists W10, 400 * T + 30000 < 10000 * W10 <= 400 * T + 40000)%Z as (W10 & HW10).
  { exists (400 * T / 10000 + 4)%Z. pose proof (Z.div_mod (400 * T) 10000 ltac:(lia)). pose proof (Z.mod_pos_bound (400 * T) 10000 ltac:(lia)). lia. }
  assert (exists X10, 1744 * T + 300000 < 10000 * X10 <= 1744 * T + 310000)%Z as (X10 & HX10).
  { exists (1744 * T / 10000 + 31)%Z. pose proof (Z.div_mod (1744 * T) 10000 ltac:(lia)). pose proof (Z.mod_pos_bound (1744 * T) 10000 ltac:(lia)). lia. }
  assert (exists Y10, 1744 * T + 300000 < 10000 * Y10 <= 1744 * T + 310000)%Z as (Y10 & HY10).
  { exists (1744 * T / 10000 + 31)%Z. pose proof (Z.div_mod (1744 * T) 10000 ltac:(lia)). pose proof (Z.mod_pos_bound (1744 * T) 10000 ltac:(lia)). lia. }
  assert (exists W11, 400 * T + 30000 < 10000 * W11 <= 400 * T + 40000)%Z as (W11 & HW11).
  { exists (400 * T / 10000 + 4)%Z. pose proof (Z.div_mod (400 * T) 10000 ltac:(lia)). pose proof (Z.mod_pos_bound (400 * T) 10000 ltac:(lia)). lia. }
  assert (exists X11, 1744 * T + 300000 < 10000 * X11 <= 1744 * T + 310000)%Z as (X11 & HX11).
  { exists (1744 * T / 10000 + 31)%Z. pose proof (Z.div_mod (1744 * T) 10000 ltac:(lia)). pose proof (Z.mod_pos_bound (1744 * T) 10000 ltac:(lia)). lia. }
  assert (exists Y11, 1744 * T + 300000 < 10000 * Y11 <= 1744 * T + 310000)%Z as (Y11 & HY11).
  { exists (1744 * T / 10000 + 31)%Z. pose proof (Z.div_mod (1744 * T) 10000 ltac:(lia)). pose proof (Z.mod_pos_bound (1744 * T) 10000 ltac:(lia)). lia. }
  set (V := (T / 25)%Z) in *. set (q := (T / 8)%Z) in *. clearbody V q.
  refine (sp_split w e V B 8 (2 * 8) (0) W X Y _ _ _ _ _ _ (_ : spare _ _ _ _ 4 _ _) (_ : spare _ _ _ _ 4 _ _)); [lia|lia|lia| |lia|lia| |].
    { constructor; change (8 / 2) with 4; change (8 - 4) with 4; lia. }
    { refine (sp_split w e V B 4 (X) (0 + Y) W0 X0 Y0 _ _ _ _ _ _ (_ : spare _ _ _ _ 2 _ _) (_ : spare _ _ _ _ 2 _ _)); [lia|lia|lia| |lia|lia| |].
      { constructor; change (4 / 2) with 2; change (4 - 2) with 2; lia. }
      { refine (sp_split w e V B 2 (X0) (0 + Y + Y0) W00 X00 Y00 _ _ _ _ _ _ (_ : spare _ _ _ _ 1 _ _) (_ : spare _ _ _ _ 1 _ _)); [lia|lia|lia| |lia|lia| |].
        { constructor; change (2 / 2) with 1; change (2 - 1) with 1; lia. }
        { apply sp_part. lia. }
        { apply sp_part. lia. }
      }
      { refine (sp_split w e V B 2 (Y0) (0 + Y + X0) W01 X01 Y01 _ _ _ _ _ _ (_ : spare _ _ _ _ 1 _ _) (_ : spare _ _ _ _ 1 _ _)); [lia|lia|lia| |lia|lia| |].
        { constructor; change (2 / 2) with 1; change (2 - 1) with 1; lia. }
        { apply sp_part. lia. }
        { apply sp_part. lia. }
      }
    }
    { refine (sp_split w e V B 4 (Y) (0 + X) W1 X1 Y1 _ _ _ _ _ _ (_ : spare _ _ _ _ 2 _ _) (_ : spare _ _ _ _ 2 _ _)); [lia|lia|lia| |lia|lia| |].
      { constructor; change (4 / 2) with 2; change (4 - 2) with 2; lia. }
      { refine (sp_split w e V B 2 (X1) (0 + X + Y1) W10 X10 Y10 _ _ _ _ _ _ (_ : spare _ _ _ _ 1 _ _) (_ : spare _ _ _ _ 1 _ _)); [lia|lia|lia| |lia|lia| |].
        { constructor; change (2 / 2) with 1; change (2 - 1) with 1; lia. }
        { apply sp_part. lia. }
        { apply sp_part. lia. }
      }
      { refine (sp_split w e V B 2 (Y1) (0 + X + X1) W11 X11 Y11 _ _ _ _ _ _ (_ : spare _ _ _ _ 1 _ _) (_ : spare _ _ _ _ 1 _ _)); [lia|lia|lia| |lia|lia| |].
        { constructor; change (2 / 2) with 1; change (2 - 1) with 1; lia. }
        { apply sp_part. lia. }
        { apply sp_part. lia. }
      }
    }
Qed.
Lemma spare_low_3 T w e B : (2000 <= T)%Z -> (T / 3 - 1 <= w <= T / 3)%Z -> (0 <= e)%Z -> (10000 * (3 * e) <= 301 * T + 60000)%Z -> (T / 3 - T / 80 + 20 <= B)%Z ->
  spare w e (T / 16) B 3 (2 * 3) 0.
Proof.
  intros HT Hw He0 He HB.
  assert (Q0 : (T = 3 * (T / 3) + T mod 3 /\ 0 <= T mod 3 < 3)%Z) by (split; [by apply Z.div_mod|by apply Z.mod_pos_bound]).
  assert (Q1 : (T = 16 * (T / 16) + T mod 16 /\ 0 <= T mod 16 < 16)%Z) by (split; [by apply Z.div_mod|by apply Z.mod_pos_bound]).
  assert (exists W, 750 * T + 20000 < 10000 * W <= 750 * T + 30000)%Z as (W & HW).
  { exists (750 * T / 10000 + 3)%Z. pose proof (Z.div_mod (750 * T) 10000 ltac:(lia)). pose proof (Z.mod_pos_bound (750 * T) 10000 ltac:(lia)). lia. }
  assert (exists X, 851 * T + 50000 < 10000 * X <= 851 * T + 60000)%Z as (X & HX).
  { exists (851 * T / 10000 + 6)%Z. pose proof (Z.div_mod (851 * T) 10000 ltac:(lia)). pose proof (Z.mod_pos_bound (851 * T) 10000 ltac:(lia)). lia. }
  assert (exists Y, 1701 * T + 100000 < 10000 * Y <= 1701 * T + 110000)%Z as (Y & HY).
  { exists (1701 * T / 10000 + 11)%Z. pose proof (Z.div_mod (1701 * T) 10000 ltac:(lia)). pose proof (Z.mod_pos_bound (1701 * T) 10000 ltac:(lia)). lia. }
  assert (exists W1, 628 * T + 20000 < 10000 * W1 <= 628 * T + 30000)%Z as (W1 & HW1).
  { exists (628 * T / 10000 + 3)%Z. pose proof (Z.div_mod (628 * T) 10000 ltac:(lia)). pose proof (Z.mod_pos_bound (628 * T) 10000 ltac:(lia)). lia. }
  assert (exists X1, 2329 * T + 140000 < 10000 * X1 <= 2329 * T + 150000)%Z as (X1 & HX1).
  { exists (2329 * T / 10000 + 15)%Z. pose proof (Z.div_mod (2329 * T) 10000 ltac:(lia)). pose proof (Z.mod_pos_bound (2329 * T) 10000 ltac:(lia)). lia. }
  assert (exists Y1, 2329 * T + 140000 < 10000 * Y1 <= 2329 * T + 150000)%Z as (Y1 & HY1).
  { exists (2329 * T / 10000 + 15)%Z. pose proof (Z.div_mod (2329 * T) 10000 ltac:(lia)). pose proof (Z.mod_pos_bound (2329 * T) 10000 ltac:(lia)). lia. }
  set (V := (T / 16)%Z) in *. set (q := (T / 3)%Z) in *. clearbody V q.
  refine (sp_split w e V B 3 (2 * 3) (0) W X Y _ _ _ _ _ _ (_ : spare _ _ _ _ 1 _ _) (_ : spare _ _ _ _ 2 _ _)); [lia|lia|lia| |lia|lia| |].
    { constructor; change (3 / 2) with 1; change (3 - 1) with 2; lia. }
    { apply sp_part. lia. }
    { refine (sp_split w e V B 2 (Y) (0 + X) W1 X1 Y1 _ _ _ _ _ _ (_ : spare _ _ _ _ 1 _ _) (_ : spare _ _ _ _ 1 _ _)); [lia|lia|lia| |lia|lia| |].
      { constructor; change (2 / 2) with 1; change (2 - 1) with 1; lia. }
      { apply sp_part. lia. }
      { apply sp_part. lia. }
    }
Qed.

Lemma spare_few k T w e : 2 <= k <= 8 -> (4000 <= T)%Z -> (T / Z.of_nat k - 1 <= w <= T / Z.of_nat k)%Z -> (0 <= e)%Z ->
  (10000 * (Z.of_nat k * e) <= 301 * T + 20000 * Z.of_nat k)%Z -> spare w e (T / 25) T k (2 * Z.of_nat k) 0.
Proof.
  intros Hk HT Hw He0 He. destruct k as [|[|[|[|[|[|[|[|[|k]]]]]]]]]; [lia|lia| | | | | | | |lia].
  - exact (spare_2 T w e T HT Hw He0 He ltac:(lia)).
  - exact (spare_3 T w e T HT Hw He0 He ltac:(lia)).
  - exact (spare_4 T w e T HT Hw He0 He ltac:(lia)).
  - exact (spare_5 T w e T HT Hw He0 He ltac:(lia)).
  - exact (spare_6 T w e T HT Hw He0 He ltac:(lia)).
  - exact (spare_7 T w e T HT Hw He0 He ltac:(lia)).
  - exact (spare_8 T w e T HT Hw He0 He ltac:(lia)).
Qed.

(** ** C03: from two to eight parts.  Vertex weights are given, the total is at least 4000 and no
    vertex weighs more than a twenty-fifth of it; from three parts on not every vertex weighs one,
    from five parts on none does. *)
Theorem C03_up_to_eight_parts : forall lg n prefix adj vw ew k o s g, log2_spec lg -> valid_csr n prefix adj (Some vw) ew ->
  graph_of_csr prefix adj (Some vw) ew = Ok g -> undirected g -> (Z.of_nat n < 2 ^ 32)%Z -> (Z.of_nat (length adj) < 2 ^ 32)%Z ->
  let T := sumn n (vweight g) in
  2 <= k <= 8 -> (4000 <= T < NULL_WGT)%Z -> (forall v, v < n -> (25 * vweight g v <= T)%Z) ->
  (3 <= k -> exists v, v < n /\ vweight g v <> 1%Z) -> (5 <= k -> forall v, v < n -> vweight g v <> 1%Z) ->
  (o_scheme o = 0 \/ o_scheme o = 1)%Z ->
  exists r s', part_graph_recursive lg prefix adj (Some vw) ew k (Some o) s = Ok (r, s') /\ r_ret r = 1%Z.
Proof.
  intros lg n prefix adj vw ew k o s g Hlg HC Eg Hud Hn Hne T Hk HT Hheavy Hsome Hall Ho.
  destruct (graph_of_csr_ok _ _ _ _ _ HC) as (g' & Eg' & Hwf & _ & Hadj & Hvw & _ & Hnv & Ht & _). rewrite Eg in Eg'. injection Eg' as <-.
  assert (exists bis, api_bisector (o_scheme o) = Ok bis) as [bis Eb].
  { unfold api_bisector, aggregator_make. destruct Ho as [-> | ->]; cbn; eauto. }
  assert (HNW : (NULL_WGT < W32)%Z) by (vm_compute; reflexivity).
  assert (HTT : g_tvw g = T) by (rewrite (wf_tvw _ Hwf), Hnv; apply u32_small; fold T; lia).
  assert (HkW : (Z.of_nat k < 2 ^ 32)%Z) by lia.
  destruct (api_target k (g_tvw g) ltac:(lia) HkW ltac:(rewrite HTT; unfold W32 in *; lia)) as (t & Et & Hnp & Hs & H1 & H2).
  destruct (call_spread n prefix adj (Some vw) ew k g t HC Eg Hud Hn Hne ltac:(fold T; lia) ltac:(lia) ltac:(fold T; lia) Et) as (w & m & Hw & He0 & He & Hlow & HI).
  fold T in Hw, He, Hlow.
  rewrite (call_eq _ _ _ _ _ _ _ _ HC). rewrite Eg, Eb. unfold mbindM, lift. cbn [obind fst snd]. rewrite Et. cbn [obind fst snd].
  assert (HTg : sumn (nv g) (vweight g) = T) by (by rewrite Hnv).
  assert (HRo : spared w m (T / 25) T t g).
  { split.
    - split; [done|unfold ne; by rewrite Hadj|by rewrite Hnv|done| |]; by rewrite Hnp.
    - rewrite Hvw. cbn. destruct (vc_vw _ _ _ _ _ HC vw eq_refl) as [Hlv _]. intros ->. cbn in Hlv.
      assert (T = 0)%Z by (unfold T; rewrite <- Hlv; reflexivity). lia.
    - intros v Hv. rewrite Hnv in Hv. specialize (Hheavy v Hv). apply Z.div_le_lower_bound; lia.
    - exists k, (2 * Z.of_nat k)%Z, 0%Z. split; [lia|]. split; [exact HI|]. split; [exact (spare_few k T w (m - w) Hk ltac:(lia) Hw He0 He)|].
      assert (HK2 : (T <= Z.of_nat k * w + 2 * Z.of_nat k)%Z) by exact Hlow.
      split.
      { rewrite HTg. assert (Z.of_nat k * w <= Z.of_nat k * (T / Z.of_nat k))%Z by (apply Z.mul_le_mono_nonneg_l; lia). pose proof (Z.mul_div_le T (Z.of_nat k) ltac:(lia)). lia. }
      split.
      + intros H3. destruct (g_uvw g) eqn:Eu; [|done]. exfalso. destruct (Hsome H3) as (v & Hv & Hv1). apply Hv1. apply (wf_uvw_t _ Hwf Eu). by rewrite Hnv.
      + intros H5 v Hv. rewrite Hnv in Hv. by apply Hall. }
  assert (HW : wpm (mfold (fun st (_ : nat) => do! p := rb_execute lg bis t g in ret (keep_best st p)) None (seq 0 (Z.to_nat (o_num_cuts o)))) never (fun _ => True)).
  { apply (mfold_inv (fun _ => True)); [done|]. intros a st _ _. eapply wpm_bind; [|intros p _; by apply wpm_ret].
    eapply wpm_post; [eapply rb_execute_wp; [exact (spared_handed lg Hlg (o_scheme o) bis Eb w m (T / 25) T ltac:(apply Z.div_pos; lia))|exact HRo|done|lia]|]. intros; exact I. }
  specialize (HW s). unfold mbindM in HW. destruct (mfold _ None _ s) as [[best s1]|f]; cbn in HW |- *; [eauto|exact (False_ind _ HW)].
Qed.
Print Assumptions C03_up_to_eight_parts.
(** The ring of 30 vertices of weight 134 meets the hypotheses for every number of parts up to eight. *)
Example C03_up_to_eight_nonvacuous : exists g, valid_csr 30 (ring_prefix 30) (ring_adj 30) (Some (replicate 30 134%Z)) None /\ graph_of_csr (ring_prefix 30) (ring_adj 30) (Some (replicate 30 134%Z)) None = Ok g /\ undirected g /\ sumn 30 (vweight g) = 4020%Z /\ (forall v, v < 30 -> vweight g v <> 1%Z /\ (25 * vweight g v <= 4020)%Z).
Proof. exact C03_eight_nonvacuous. Qed.

(** ** C62: three parts *)
Theorem C62_three_parts : forall lg n prefix adj vw ew o s r s' g labels, log2_spec lg -> valid_csr n prefix adj vw ew ->
  graph_of_csr prefix adj vw ew = Ok g -> undirected g -> (Z.of_nat n < 2 ^ 32)%Z -> (Z.of_nat (length adj) < 2 ^ 32)%Z ->
  let T := sumn n (vweight g) in (2000 <= T < NULL_WGT)%Z -> (forall v, v < n -> (16 * vweight g v <= T)%Z) ->
  part_graph_recursive lg prefix adj vw ew 3 (Some o) s = Ok (r, s') -> r_labels r = Some labels ->
  forall i, i < 3 -> (T <= 80 * part_weight g labels i + 1760)%Z /\ exists v, v < n /\ labels !! v = Some (Some i).
Proof.
  intros lg n prefix adj vw ew o s r s' g labels Hlg HC Eg Hud Hn Hne T HT Hheavy E EL i Hi.
  destruct (graph_of_csr_ok _ _ _ _ _ HC) as (g' & Eg' & Hwf & _ & Hadj & Hvw & _ & Hnv & Ht & _). rewrite Eg in Eg'. injection Eg' as <-.
  destruct (call_runs _ _ _ _ _ _ _ _ _ _ _ HC E) as (g1 & bis & t & Ps & (Eg1 & Eb & Et) & Hnp & HR & HL & ->). rewrite Eg in Eg1. injection Eg1 as <-.
  destruct (call_spread n prefix adj vw ew 3 g t HC Eg Hud Hn Hne ltac:(fold T; lia) ltac:(lia) ltac:(fold T; lia) Et) as (w & m & Hw & He0 & He & Hlow & HI).
  fold T in Hw, He, Hlow.
  assert (HTg : sumn (nv g) (vweight g) = T) by (by rewrite Hnv).
  set (B := (T / 3 - T / 80 + 20)%Z).
  assert (HG : wpm (rb_execute lg bis t g) anyf (fun P => (w - B <= label_weight g (lab P) (Some i))%Z)).
  { intros cs. destruct (rb_execute lg bis t g cs) as [[P cs']|f] eqn:Er; [|done]. cbn [wpo fst].
    destruct (rb_execute_tree lg bis t g cs P cs' Hwf ltac:(lia)) as (l & ps & HTr & HLab & [[HPl _] _] & _); [|done|].
    { intros t1 tol bt gg cs1 p cs1' Ebt Hwg Ep. pose proof (bisect_target_two _ _ _ Ebt) as Htw.
      exact (wpm_elim _ _ _ _ _ _ (api_bisector_lab (o_scheme o) bis bt gg Eb (tw_wgt _ Htw)) Ep). }
    refine (Z.le_trans _ _ _ (spare_tree lg Hlg (o_scheme o) bis Eb w m (T / 16) B ltac:(apply Z.div_pos; lia) t g l ps cs cs' HTr 3 6%Z 0%Z HI _ _ _ i _) _).
    - intros v Hv. rewrite Hnv in Hv. specialize (Hheavy v Hv). apply Z.div_le_lower_bound; lia.
    - exact (spare_low_3 T w (m - w) B ltac:(lia) Hw He0 He ltac:(unfold B; lia)).
    - rewrite HTg. pose proof (Z.mul_div_le T 3 ltac:(lia)). lia.
    - lia.
    - apply Z.eq_le_incl. apply sumf_ext. intros v Hv%elem_of_seq. rewrite HLab by lia. repeat case_decide; congruence. }
  pose proof (runs_all _ _ _ _ _ HG HR) as HF. pose proof (keep_best_first Ps) as HB.
  destruct (fold_left keep_best Ps None) as [b|]; [|cbn in EL; discriminate EL]. destruct HB as (P & (x & Hx & _) & ->). cbn in EL. injection EL as <-.
  rewrite Forall_lookup in HF. pose proof (HF x P Hx) as HP. cbn in HP. change (label_weight g (lab P) (Some i)) with (part_weight g (p_where P) i) in HP.
  assert (HB80 : (T <= 80 * part_weight g (p_where P) i + 1760)%Z).
  { change (Z.of_nat 3) with 3%Z in *. unfold B in HP. clear -HP Hw HT. clearbody T. set (pw := part_weight _ _ _) in *. clearbody pw. Z.div_mod_to_equations; lia. }
  split; [exact HB80|]. rewrite <- Hnv. apply weight_member. lia.
Qed.
Print Assumptions C62_three_parts.
(** A ring of 24 vertices of weight 100, in three parts. *)
Example C62_three_nonvacuous : exists g, valid_csr 24 (ring_prefix 24) (ring_adj 24) (Some (replicate 24 100%Z)) None /\
  graph_of_csr (ring_prefix 24) (ring_adj 24) (Some (replicate 24 100%Z)) None = Ok g /\ undirected g /\ sumn 24 (vweight g) = 2400%Z /\ (forall v, v < 24 -> (20 * vweight g v <= 2400)%Z) /\
  exists r s' labels, part_graph_recursive floor_log2 (ring_prefix 24) (ring_adj 24) (Some (replicate 24 100%Z)) None 3 (Some some_options) [] = Ok (r, s') /\ r_labels r = Some labels /\
    part_weight g labels 2 = 800%Z.
Proof.
  destruct C62_nonvacuous as (g & H1 & H2 & H3 & H4 & H5 & _).
  exists g. split; [exact H1|]. split; [exact H2|]. split; [exact H3|]. split; [exact H4|]. split; [exact H5|].
  clear H1 H3 H4 H5. vm_compute in H2. injection H2 as <-.
  eexists _, _, _. split; [vm_compute; reflexivity|]. split; [reflexivity|]. vm_compute. reflexivity.
Qed.
