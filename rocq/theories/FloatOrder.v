(** * FloatOrder: SpecFloat comparisons are a total order on non-NaN values (axiom-free). *)
From Coq Require Import ZArith Floats.SpecFloat.
From Verif Require Import Base F64.
Local Open Scope Z_scope.

Definition fkey (x : f64) : Z * Z * Z :=
  match x with
  | S754_nan => (9, 0, 0)
  | S754_infinity true => (-2, 0, 0)
  | S754_finite true m e => (-1, - e, - Z.pos m)
  | S754_zero _ => (0, 0, 0)
  | S754_finite false m e => (1, e, Z.pos m)
  | S754_infinity false => (2, 0, 0)
  end.
Definition is_nan (x : f64) : Prop := x = S754_nan.
Definition lex (a b : Z * Z * Z) : Prop :=
  let '(a1, a2, a3) := a in let '(b1, b2, b3) := b in
  a1 < b1 \/ (a1 = b1 /\ (a2 < b2 \/ (a2 = b2 /\ a3 < b3))).

Lemma flt_lex x y : ~ is_nan x -> ~ is_nan y -> flt x y = true <-> lex (fkey x) (fkey y).
Proof.
  unfold is_nan, flt, SFltb, SFcompare, lex, fkey. intros Hx Hy.
  destruct x as [sx|sx| |sx mx ex], y as [sy|sy| |sy my ey]; try done; try (destruct sx); try (destruct sy);
    try (split; [intros H; try done; lia|intros H; try done; lia]).
  - destruct (Z.compare_spec ex ey) as [->|H|H].
    + change (Pos.compare_cont Eq mx my) with (Pos.compare mx my); destruct (Pos.compare_spec mx my); cbn [CompOpp]; split; intros; try done; lia.
    + split; intros; try done; lia.
    + split; intros; try done; lia.
  - destruct (Z.compare_spec ex ey) as [->|H|H].
    + change (Pos.compare_cont Eq mx my) with (Pos.compare mx my); destruct (Pos.compare_spec mx my); cbn [CompOpp]; split; intros; try done; lia.
    + split; intros; try done; lia.
    + split; intros; try done; lia.
Qed.
Lemma fle_lex x y : ~ is_nan x -> ~ is_nan y -> fle x y = true <-> ~ lex (fkey y) (fkey x).
Proof.
  unfold is_nan, fle, SFleb, SFcompare, lex, fkey. intros Hx Hy.
  destruct x as [sx|sx| |sx mx ex], y as [sy|sy| |sy my ey]; try done; try (destruct sx); try (destruct sy);
    try (split; [intros H; try done; lia|intros H; try done; lia]).
  - destruct (Z.compare_spec ex ey) as [->|H|H].
    + change (Pos.compare_cont Eq mx my) with (Pos.compare mx my); destruct (Pos.compare_spec mx my); cbn [CompOpp]; split; intros; try done; lia.
    + split; intros; try done; lia.
    + split; intros; try done; lia.
  - destruct (Z.compare_spec ex ey) as [->|H|H].
    + change (Pos.compare_cont Eq mx my) with (Pos.compare mx my); destruct (Pos.compare_spec mx my); cbn [CompOpp]; split; intros; try done; lia.
    + split; intros; try done; lia.
    + split; intros; try done; lia.
Qed.
Lemma flt_nan_l y : flt S754_nan y = false. Proof. by destruct y. Qed.
Lemma flt_nan_r x : flt x S754_nan = false. Proof. by destruct x as [|[]| |[]]. Qed.
Lemma flt_not_nan x y : flt x y = true -> ~ is_nan x /\ ~ is_nan y.
Proof.
  intros H. unfold is_nan. split; intros ->; [by rewrite flt_nan_l in H|by rewrite flt_nan_r in H].
Qed.
Lemma flt_trans x y z : flt x y = true -> flt y z = true -> flt x z = true.
Proof.
  intros H1 H2. destruct (flt_not_nan _ _ H1), (flt_not_nan _ _ H2).
  rewrite flt_lex in * by done. unfold lex in *.
  destruct (fkey x) as [[]], (fkey y) as [[]], (fkey z) as [[]]. lia.
Qed.
Lemma fle_trans x y z : ~ is_nan x -> ~ is_nan y -> ~ is_nan z -> fle x y = true -> fle y z = true -> fle x z = true.
Proof.
  intros ? ? ? H1 H2. rewrite fle_lex in * by done. unfold lex in *.
  destruct (fkey x) as [[]], (fkey y) as [[]], (fkey z) as [[]]. lia.
Qed.
Lemma flt_le_trans x y z : ~ is_nan z -> flt x y = true -> fle y z = true -> flt x z = true.
Proof.
  intros Hz H1 H2. destruct (flt_not_nan _ _ H1). rewrite flt_lex, fle_lex in * by done. unfold lex in *.
  destruct (fkey x) as [[]], (fkey y) as [[]], (fkey z) as [[]]. lia.
Qed.
Lemma fle_lt_trans x y z : ~ is_nan x -> fle x y = true -> flt y z = true -> flt x z = true.
Proof.
  intros Hz H1 H2. destruct (flt_not_nan _ _ H2). rewrite flt_lex, fle_lex in * by done. unfold lex in *.
  destruct (fkey x) as [[]], (fkey y) as [[]], (fkey z) as [[]]. lia.
Qed.
Lemma flt_le x y : flt x y = true -> fle x y = true.
Proof.
  intros H. destruct (flt_not_nan _ _ H). rewrite flt_lex, fle_lex in * by done. unfold lex in *.
  destruct (fkey x) as [[]], (fkey y) as [[]]. lia.
Qed.
Lemma fle_refl x : ~ is_nan x -> fle x x = true.
Proof. intros H. rewrite fle_lex by done. unfold lex. destruct (fkey x) as [[]]. lia. Qed.
Lemma flt_nle x y : ~ is_nan x -> ~ is_nan y -> flt x y = false <-> fle y x = true.
Proof.
  intros Hx Hy. rewrite fle_lex by done. rewrite <- flt_lex by done. destruct (flt x y); naive_solver.
Qed.
Lemma flt_irrefl x : flt x x = false.
Proof.
  destruct (decide (flt x x = true)) as [H|H]; [|by destruct (flt x x)].
  destruct (flt_not_nan _ _ H) as [H1 _]. rewrite flt_lex in H by done. unfold lex in H.
  destruct (fkey x) as [[]]. lia.
Qed.
