(** * RelLogic: two runs side by side (C73). *)
From Verif Require Import Base Logic.

(** Both return related values, or both fail in the same way. *)
Definition orel {A B} (R : A -> B -> Prop) (a : outcome A) (b : outcome B) : Prop :=
  match a, b with Ok x, Ok y => R x y | Fail f, Fail f' => f = f' | _, _ => False end.
(** ... having consumed the same choices. *)
Definition mrel {A B} (R : A -> B -> Prop) (m : M A) (m' : M B) : Prop :=
  forall cs, orel (fun x y => R (fst x) (fst y) /\ snd x = snd y) (m cs) (m' cs).

Lemma orel_mono {A B} (R R' : A -> B -> Prop) a b : orel R a b -> (forall x y, R x y -> R' x y) -> orel R' a b.
Proof. intros H HR. destruct a, b; cbn in *; auto. Qed.
Lemma orel_bind {A B A' B'} (R : A -> A' -> Prop) (Q : B -> B' -> Prop) a a' k k' :
  orel R a a' -> (forall x y, R x y -> orel Q (k x) (k' y)) -> orel Q (obind a k) (obind a' k').
Proof. intros H HK. destruct a, a'; cbn in *; [auto|done|done|congruence]. Qed.
Lemma orel_refl {A} (a : outcome A) : orel eq a a.
Proof. by destruct a. Qed.
Lemma orel_eq {A} (a b : outcome A) : a = b -> orel eq a b.
Proof. intros ->. apply orel_refl. Qed.
Lemma orel_wp {A B} (R : A -> B -> Prop) a b P Q : wpo a never P -> wpo b never Q -> (forall x y, P x -> Q y -> R x y) -> orel R a b.
Proof. intros HP HQ H. destruct a, b; cbn in *; try done. auto. Qed.
Lemma orel_and {A B} (R : A -> B -> Prop) a b (P : A -> Prop) (Q : B -> Prop) : orel R a b -> wpo a anyf P -> wpo b anyf Q -> orel (fun x y => R x y /\ P x /\ Q y) a b.
Proof. intros H HP HQ. destruct a, b; cbn in *; auto. Qed.
Lemma orel_fold {S S' A} (R : S -> S' -> Prop) (f : S -> A -> outcome S) (f' : S' -> A -> outcome S') l :
  (forall s s' a, a ∈ l -> R s s' -> orel R (f s a) (f' s' a)) -> forall s s', R s s' -> orel R (ofold f s l) (ofold f' s' l).
Proof.
  induction l as [|a l IH]; intros HF s s' HR; [exact HR|]. cbn [ofold]. eapply orel_bind; [apply HF; [by left|exact HR]|].
  intros x y Hxy. apply IH; [|exact Hxy]. intros s1 s2 b Hb. apply HF. by right.
Qed.

Lemma mrel_mono {A B} (R R' : A -> B -> Prop) m m' : mrel R m m' -> (forall x y, R x y -> R' x y) -> mrel R' m m'.
Proof. intros H HR cs. eapply orel_mono; [apply H|]. intros x y [H1 H2]. split; [auto|done]. Qed.
Lemma mrel_ret {A B} (R : A -> B -> Prop) x y : R x y -> mrel R (ret x) (ret y).
Proof. intros H cs. cbn. done. Qed.
Lemma mrel_bind {A B A' B'} (R : A -> A' -> Prop) (Q : B -> B' -> Prop) m m' k k' :
  mrel R m m' -> (forall x y, R x y -> mrel Q (k x) (k' y)) -> mrel Q (mbindM m k) (mbindM m' k').
Proof.
  intros H HK cs. unfold mbindM. eapply orel_bind; [apply H|]. intros [x s] [y s'] [H1 H2]. cbn [fst snd] in *. subst s'. by apply HK.
Qed.
Lemma mrel_lift {A B} (R : A -> B -> Prop) a b : orel R a b -> mrel R (lift a) (lift b).
Proof. intros H cs. unfold lift. destruct a, b; cbn in *; auto. Qed.
Lemma mrel_ok {A A' B B'} (Q : B -> B' -> Prop) (x : A) (x' : A') k k' : mrel Q (k x) (k' x') -> mrel Q (mbindM (lift (Ok x)) k) (mbindM (lift (Ok x')) k').
Proof. intros H cs. apply (H cs). Qed.
Lemma mrel_eq {A} (m m' : M A) : (forall cs, m cs = m' cs) -> mrel eq m m'.
Proof. intros H cs. rewrite H. destruct (m' cs) as [[x s]|f]; cbn; done. Qed.
Lemma mrel_refl {A} (m : M A) : mrel eq m m.
Proof. by apply mrel_eq. Qed.
Lemma mrel_same {A B B'} (Q : B -> B' -> Prop) (m : M A) k k' : (forall x, mrel Q (k x) (k' x)) -> mrel Q (mbindM m k) (mbindM m k').
Proof. intros H. eapply mrel_bind; [apply mrel_refl|]. intros x y ->. apply H. Qed.
Lemma mrel_fail {A B} (R : A -> B -> Prop) f : mrel R (mfail f) (mfail f).
Proof. intros cs. done. Qed.
Lemma mrel_and {A B} (R : A -> B -> Prop) m m' (P : A -> Prop) (Q : B -> Prop) : mrel R m m' -> wpm m anyf P -> wpm m' anyf Q -> mrel (fun x y => R x y /\ P x /\ Q y) m m'.
Proof. intros H HP HQ cs. specialize (H cs). specialize (HP cs). specialize (HQ cs). destruct (m cs) as [[x s]|], (m' cs) as [[y s']|]; cbn in *; try done. destruct H. done. Qed.
(** A fact about the first run alone, before the two are compared further. *)
Lemma mrel_bind_wp {A B A' B'} (R : A -> A' -> Prop) (Q : B -> B' -> Prop) (P : A -> Prop) m m' k k' :
  mrel R m m' -> wpm m anyf P -> (forall x y, R x y -> P x -> mrel Q (k x) (k' y)) -> mrel Q (mbindM m k) (mbindM m' k').
Proof.
  intros H HP HK. eapply mrel_bind; [apply (mrel_and R _ _ P (fun _ => True)); [exact H|exact HP|]|].
  - intros cs. destruct (m' cs); exact Logic.I.
  - intros x y (H1 & H2 & _). by apply HK.
Qed.
Lemma mrel_fold {S S' A} (R : S -> S' -> Prop) (f : S -> A -> M S) (f' : S' -> A -> M S') l :
  (forall s s' a, a ∈ l -> R s s' -> mrel R (f s a) (f' s' a)) -> forall s s', R s s' -> mrel R (mfold f s l) (mfold f' s' l).
Proof.
  induction l as [|a l IH]; intros HF s s' HR; cbn [mfold]; [by apply mrel_ret|]. eapply mrel_bind; [apply HF; [by left|exact HR]|].
  intros x y Hxy. apply IH; [|exact Hxy]. intros s1 s2 b Hb. apply HF. by right.
Qed.
