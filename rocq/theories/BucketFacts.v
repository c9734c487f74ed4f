(** * BucketFacts: arrays filled bucket by bucket through cursors (counting sort). *)
From Verif Require Import Base ModelBuilders Spec Logic Sums GraphFacts.

Definition monoto (nb : nat) (start : nat -> nat) : Prop := forall c, c < nb -> start c <= start (S c).
Lemma monoto_le nb start c c' : monoto nb start -> c <= c' -> c' <= nb -> start c <= start c'.
Proof. intros H Hc Hn. induction c' as [|c' IH]; [replace c with 0 by lia; lia|].
  destruct (decide (c = S c')) as [->|]; [lia|]. specialize (H c' ltac:(lia)). specialize (IH ltac:(lia) ltac:(lia)). lia. Qed.

Section Buckets.
  Context {A : Type} (nb N : nat) (start : nat -> nat) (Hmono : monoto nb start) (HN : start nb <= N).
  Implicit Types (content : nat -> list A) (arr : list (option A)).

  Definition buckets content arr : Prop :=
    length arr = N /\ (forall c, c < nb -> start c + length (content c) <= start (S c)) /\
    forall c j a, c < nb -> content c !! j = Some a -> arr !! (start c + j) = Some (Some a).

  Lemma buckets_empty : buckets (fun _ => []) (alloc N).
  Proof.
    split; [apply replicate_length|]. split; [intros c Hc; simpl; specialize (Hmono c Hc); lia|].
    intros c j a _ H. destruct j; done.
  Qed.
  Lemma buckets_room content arr c : buckets content arr -> c < nb ->
    start c + length (content c) < start (S c) -> start c + length (content c) < N.
  Proof.
    intros _ Hc H. pose proof (monoto_le nb start (S c) nb Hmono ltac:(lia) ltac:(lia)). lia.
  Qed.
  Lemma buckets_add content arr c a : buckets content arr -> c < nb -> start c + length (content c) < start (S c) ->
    buckets (upd content c (content c ++ [a])) (<[start c + length (content c) := Some a]> arr).
  Proof.
    intros (HL & HB & HC) Hc Hr. pose proof (buckets_room _ _ c (conj HL (conj HB HC)) Hc Hr) as Hlt.
    split; [rewrite insert_length; done|]. split.
    - intros c' Hc'. destruct (decide (c' = c)) as [->|Hne]; [rewrite upd_same, app_length; simpl; lia|].
      rewrite upd_other by done. apply HB; done.
    - intros c' j b Hc' Hj. destruct (decide (c' = c)) as [->|Hne].
      + rewrite upd_same in Hj. destruct (decide (j = length (content c))) as [->|Hj'].
        * rewrite lookup_app_r, Nat.sub_diag in Hj by lia. injection Hj as ->. apply list_lookup_insert. lia.
        * assert (j < length (content c)).
          { pose proof (lookup_lt_Some _ _ _ Hj) as HH. rewrite app_length in HH. simpl in HH. lia. }
          rewrite lookup_app_l in Hj by done. rewrite list_lookup_insert_ne by lia. apply HC; done.
      + rewrite upd_other in Hj by done. pose proof (lookup_lt_Some _ _ _ Hj) as Hjl.
        pose proof (HB c' Hc') as HBc'. rewrite list_lookup_insert_ne; [apply HC; done|].
        destruct (decide (c' < c)).
        * pose proof (monoto_le nb start (S c') c Hmono ltac:(lia) ltac:(lia)). lia.
        * pose proof (monoto_le nb start (S c) c' Hmono ltac:(lia) ltac:(lia)). lia.
  Qed.
  Lemma buckets_wri content arr c a : buckets content arr -> c < nb -> start c + length (content c) < start (S c) ->
    exists arr', wri arr (start c + length (content c)) a = Ok arr' /\ buckets (upd content c (content c ++ [a])) arr'.
  Proof.
    intros HB Hc Hr. eexists. split; [|apply buckets_add; eassumption].
    apply wri_ok. pose proof (buckets_room _ _ c HB Hc Hr). destruct HB. lia.
  Qed.
  Lemma buckets_ext content content' arr : (forall c, c < nb -> content c = content' c) -> buckets content arr -> buckets content' arr.
  Proof.
    intros He (HL & HB & HC). split; [done|]. split.
    - intros c Hc. rewrite <- He by done. apply HB; done.
    - intros c j a Hc. rewrite <- He by done. apply HC; done.
  Qed.

  Lemma find_bucket i : start 0 = 0 -> i < start nb -> exists c, c < nb /\ start c <= i < start (S c).
  Proof.
    intros H0. clear HN. induction nb as [|m IH]; intros Hi; [lia|].
    destruct (decide (i < start m)) as [Hlt|Hge].
    - destruct IH as (c & Hc & Hs); [intros c Hc; apply Hmono; lia|done|exists c; split; [lia|done]].
    - exists m. split; [lia|]. lia.
  Qed.
  Lemma buckets_full content arr : start 0 = 0 -> start nb = N -> buckets content arr ->
    (forall c, c < nb -> start c + length (content c) = start (S c)) ->
    exists l, frozen arr = Ok l /\ length l = N /\
      (forall c, c < nb -> take (start (S c) - start c) (drop (start c) l) = content c) /\
      (forall c j a, c < nb -> content c !! j = Some a -> l !! (start c + j) = Some a).
  Proof.
    intros H0 HNb (HL & HB & HC) Hfull.
    assert (exists l, arr = Some <$> l) as [l ->].
    { assert (Forall is_Some arr) as HF.
      { apply Forall_lookup. intros i x Hi. pose proof (lookup_lt_Some _ _ _ Hi).
        destruct (find_bucket i H0 ltac:(lia)) as (c & Hc & Hs).
        specialize (Hfull c Hc). assert (i - start c < length (content c)) as Hj by lia.
        apply lookup_lt_is_Some in Hj as [a Ha]. specialize (HC c _ a Hc Ha).
        replace (start c + (i - start c)) with i in HC by lia. rewrite Hi in HC. injection HC as ->. eauto. }
      clear -HF. induction HF as [|x arr [a ->] HF [l ->]]; [exists []; done|exists (a :: l); done]. }
    exists l. split; [apply frozen_some|]. rewrite fmap_length in HL. split; [done|].
    assert (forall c j a, c < nb -> content c !! j = Some a -> l !! (start c + j) = Some a) as HC'.
    { intros c j a Hc Hj. specialize (HC c j a Hc Hj). rewrite list_lookup_fmap in HC.
      destruct (l !! (start c + j)); [|done]. injection HC as ->. done. }
    split; [|done]. intros c Hc. specialize (Hfull c Hc).
    pose proof (monoto_le nb start (S c) nb Hmono ltac:(lia) ltac:(lia)).
    apply list_eq. intros j. destruct (decide (j < length (content c))) as [Hj|Hj].
    - rewrite lookup_take by lia. rewrite lookup_drop.
      pose proof Hj as Hj'. apply lookup_lt_is_Some in Hj' as [a Ha]. rewrite Ha. apply HC'; done.
    - rewrite (lookup_ge_None_2 (content c)) by lia. apply lookup_ge_None_2. rewrite take_length, drop_length. lia.
  Qed.
End Buckets.

(** Natural-number partial sums, and the library's exclusive prefix sum. *)
Fixpoint nsum (f : nat -> nat) (n : nat) : nat := match n with 0 => 0 | S n' => nsum f n' + f n' end.
Lemma nsum_ext f h n : (forall i, i < n -> f i = h i) -> nsum f n = nsum h n.
Proof. induction n as [|n IH]; intros H; simpl; [done|]. rewrite IH, (H n) by (try intros; try apply H; lia). done. Qed.
Lemma nsum_mono f nb : monoto nb (nsum f).
Proof. intros c _. simpl. lia. Qed.
Lemma nsum_succ_l f n : nsum f (S n) = f 0 + nsum (fun i => f (S i)) n.
Proof. induction n as [|n IH]; simpl in *; [lia|]. rewrite IH. lia. Qed.
Lemma nsum_add f h n : nsum (fun i => f i + h i) n = nsum f n + nsum h n.
Proof. induction n; simpl; lia. Qed.
Lemma nsum_zero n : nsum (fun _ => 0) n = 0.
Proof. induction n; simpl; lia. Qed.
Lemma nsum_single n c : c < n -> nsum (fun i => if decide (i = c) then 1 else 0) n = 1.
Proof.
  induction n as [|n IH]; intros H; [lia|]. simpl. destruct (decide (n = c)) as [->|Hne].
  - rewrite (nsum_ext _ (fun _ => 0)); [rewrite nsum_zero; done|]. intros i Hi. rewrite decide_False by lia. done.
  - rewrite IH by lia. done.
Qed.
Lemma prefix_sum_from_lookup l : forall s i, i < length l ->
  prefix_sum_from s l !! i = Some (s + nsum (fun j => nth j l 0) i).
Proof.
  induction l as [|x l IH]; intros s i Hi; simpl in *; [lia|]. destruct i as [|i]; simpl; [f_equal; lia|].
  rewrite IH by lia. f_equal. pose proof (nsum_succ_l (fun j => nth j (x :: l) 0) i) as E. simpl in E. rewrite E. lia.
Qed.
Lemma prefix_sum_from_length s l : length (prefix_sum_from s l) = length l.
Proof. revert s. induction l; intros s; simpl; [done|]. f_equal. done. Qed.
Lemma prefix_sum_lookup l i : i < length l -> prefix_sum_exclusive l !! i = Some (nsum (fun j => nth j l 0) i).
Proof. intros H. unfold prefix_sum_exclusive. rewrite prefix_sum_from_lookup by done. done. Qed.
Lemma prefix_sum_length l : length (prefix_sum_exclusive l) = length l.
Proof. apply prefix_sum_from_length. Qed.
