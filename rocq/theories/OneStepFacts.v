(** * OneStepFacts: whole call histories of OneStepGraphBuilder (C41). *)
From Verif Require Import Base ModelGraph ModelBuilders ModelAgg Spec Logic Sums GraphFacts ConnFacts BucketFacts BuilderFacts.

(** A history: for each vertex in turn the addEdge(destination, weight) calls made for it and
    the weight given to finishVertex; then finish(). *)
Definition run_one_step (n maxE : nat) (calls : list (list arc * Z)) : outcome graph :=
  let! b := os_new n maxE in
  let! b := ofold (fun b c =>
      let! b := ofold (fun b a => os_add_edge b (fst a) (snd a)) b (fst c) in
      os_finish_vertex b (snd c)) b calls in
  os_finish b.
(** The addEdge calls made for vertex v. *)
Definition adds (calls : list (list arc * Z)) (v : nat) : list arc := nth v (fst <$> calls) [].

Lemma adds_app_l a b v : v < length a -> adds (a ++ b) v = adds a v.
Proof. intros H. unfold adds. rewrite fmap_app. apply app_nth1. rewrite fmap_length. done. Qed.
Lemma adds_at a c b : adds (a ++ c :: b) (length a) = fst c.
Proof. unfold adds. rewrite fmap_app, app_nth2; rewrite fmap_length; [|lia]. rewrite Nat.sub_diag. done. Qed.

Lemma others_prefix v a b : length (others v a) <= length (others v (a ++ b)).
Proof.
  apply submseteq_length. apply NoDup_submseteq; [apply NoDup_remove_dups|].
  intros u. unfold others. rewrite !elem_of_remove_dups, !elem_of_list_filter, fmap_app, elem_of_app. tauto.
Qed.

Lemma run_one_step_ok n maxE calls : length calls = n ->
  Forall (fun c => Forall (fun a => fst a < n /\ (0 <= snd a < W32)%Z) (fst c) /\ (0 <= snd c < W32)%Z) calls ->
  needed (adds calls) n <= maxE ->
  exists g, run_one_step n maxE calls = Ok g /\ built n (adds calls) (snd <$> calls) g.
Proof.
  intros Hlen HF Hcap.
  assert (H : wpo (run_one_step n maxE calls) never (built n (adds calls) (snd <$> calls))).
  { unfold run_one_step. eapply wpo_bind; [apply (os_state_start n maxE (adds calls))|].
    intros b0 H0. cbn beta in H0.
    eapply (wpo_bind _ _ _ (os_state n maxE n (adds calls) [] (snd <$> calls))).
    - eapply wpo_post; [apply (ofold_wp (fun pre b => os_state n maxE (length pre) (adds calls) [] (snd <$> pre) b))|].
      + exact H0.
      + intros pre [l vw] post b E Hb. cbn [fst snd].
        assert (Hk : length pre < n) by (rewrite <- Hlen, E, app_length; simpl; lia).
        assert (HL : adds calls (length pre) = l) by (rewrite E, adds_at; done).
        assert (Hl : Forall (fun a => fst a < n /\ (0 <= snd a < W32)%Z) l).
        { rewrite E in HF. apply Forall_app in HF as [_ HF]. apply Forall_cons in HF as [[HF _] _]. done. }
        assert (Hn : needed (adds calls) (length pre) + length (others (length pre) l) <= maxE).
        { etransitivity; [|exact Hcap]. rewrite <- HL. change (needed (adds calls) (S (length pre)) <= needed (adds calls) n).
          apply (rstart_le (fun v => (fun u => (u, 0%Z)) <$> others v (adds calls v))) in Hk as Hk2. unfold rstart in Hk2. unfold needed.
          rewrite !(nsum_ext (fun v => length ((fun u => (u, 0%Z)) <$> others v (adds calls v))) (fun v => length (others v (adds calls v)))) in Hk2 by (intros; apply fmap_length). exact Hk2. }
        eapply (wpo_bind _ _ _ (os_state n maxE (length pre) (adds calls) l (snd <$> pre))).
        * eapply wpo_post; [apply (ofold_wp (fun l' b => os_state n maxE (length pre) (adds calls) l' (snd <$> pre) b))|].
          -- exact Hb.
          -- intros l1 [d w] l2 b1 El Hb1. cbn [fst snd].
             rewrite El in Hl. apply Forall_app in Hl as [_ Hl]. apply Forall_cons in Hl as [[Hd Hw] _]. cbn [fst snd] in Hd, Hw.
             apply os_state_add; try done. etransitivity; [|exact Hn]. apply Nat.add_le_mono_l.
             rewrite El. replace (l1 ++ (d, w) :: l2) with ((l1 ++ [(d, w)]) ++ l2) by (rewrite <- app_assoc; done). apply others_prefix.
          -- intros b1 Hb1. exact Hb1.
        * intros b1 Hb1. eapply wpo_post; [apply (os_state_finish_vertex _ _ _ _ _ _ _ vw Hb1 Hk)|].
          intros b2 Hb2. rewrite app_length, Nat.add_1_r, fmap_app. cbn [fmap list_fmap].
          eapply os_state_ext; [|exact Hb2]. intros v Hv. unfold upd. destruct (decide (v = length pre)) as [->|]; [done|done].
      + intros b Hb. cbn beta in Hb. rewrite Hlen in Hb. exact Hb.
    - intros b Hb. apply (os_state_finish n maxE). { exact Hb. }
      intros v w Hv Hw. rewrite list_lookup_fmap in Hw. destruct (calls !! v) as [c|] eqn:Ec; [|done]. injection Hw as <-.
      rewrite Forall_lookup in HF. apply (HF v c Ec). }
  apply wpo_never in H as (g & E & H). exists g. done.
Qed.
