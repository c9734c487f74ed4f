(** * MiscFacts: balance analysis (C46), monotone FM (C31), vertex sets (C43), visit tracker (C44). *)
From Coq Require Import ZArith.
From Verif Require Import Base F64 ModelGraph ModelPartition ModelConn ModelFM Spec Logic Sums GraphFacts PartFacts ConnFacts FMFacts FloatOrder.

#[local] Arguments flt : simpl never.
#[local] Arguments fle : simpl never.
(** ** C46 *)
Lemma zero_not_nan : ~ is_nan f_zero. Proof. discriminate. Qed.
Lemma find_max_spec g t p i m : find_max g t p = Ok (i, m) ->
  fle f_zero m = true /\ ~ is_nan m /\
  ((i = 0 /\ m = f_zero) \/ (i < length (p_pw p) /\ get_imbalance g t p i = Ok m /\ flt f_zero m = true)) /\
  forall j, j < length (p_pw p) -> exists f, get_imbalance g t p j = Ok f /\ (~ is_nan f -> fle f m = true).
Proof.
  unfold find_max. intros H.
  pose (I := fun (n : nat) (r : nat * f64) => fle f_zero (snd r) = true /\ ~ is_nan (snd r) /\
    ((fst r = 0 /\ snd r = f_zero) \/ (fst r < n /\ get_imbalance g t p (fst r) = Ok (snd r) /\ flt f_zero (snd r) = true)) /\
    forall j, j < n -> exists f, get_imbalance g t p j = Ok f /\ (~ is_nan f -> fle f (snd r) = true)).
  cut (wpo (ofold (fun mx i => let! f := get_imbalance g t p i in
      Ok (if fgt f (snd mx) then (i, f) else mx)) (0, f_zero) (seq 0 (length (p_pw p)))) anyf (I (length (p_pw p)))).
  { intros HW. rewrite H in HW. exact HW. }
  clear H. apply ofold_seq_wp.
  - split; [reflexivity|]. split; [discriminate|]. split; [left; done|]. intros j Hj; lia.
  - intros j [i' m'] Hj (A & B & C & D). simpl in *. destruct (get_imbalance g t p j) as [f|] eqn:Ef; [|exact Logic.I].
    simpl. change (fgt f m') with (flt m' f). destruct (flt m' f) eqn:Hlt; unfold I; simpl.
    + pose proof (flt_not_nan _ _ Hlt) as [N1 N2].
      assert (flt f_zero f = true) as Hz by (eapply fle_lt_trans; eauto; exact zero_not_nan).
      split; [apply flt_le; done|]. split; [done|]. split; [right; split; [lia|done]|].
      intros j' Hj'. destruct (decide (j' = j)) as [->|]; [exists f; split; [done|]; intros; apply fle_refl; done|].
      destruct (D j') as (f' & E1 & E2); [lia|]. exists f'. split; [done|]. intros Hn.
      eapply fle_trans; [| | |apply E2; done|apply flt_le; done]; done.
    + split; [done|]. split; [done|]. split; [destruct C as [C|(C1 & C2)]; [left; done|right; split; [lia|done]]|].
      intros j' Hj'. destruct (decide (j' = j)) as [->|]; [exists f; split; [done|]; intros; apply flt_nle; done|].
      apply D. lia.
Qed.
Lemma max_imbalance_spec g t p m : calc_max_imbalance g t p = Ok m ->
  fle f_zero m = true /\ ~ is_nan m /\
  (m = f_zero \/ exists i, i < length (p_pw p) /\ get_imbalance g t p i = Ok m) /\
  forall j, j < length (p_pw p) -> exists f, get_imbalance g t p j = Ok f /\ (~ is_nan f -> fle f m = true).
Proof.
  unfold calc_max_imbalance. destruct (find_max g t p) as [[i m']|] eqn:E; [|discriminate]. intros [= <-].
  apply find_max_spec in E as (A & B & C & D). simpl. split; [done|]. split; [done|]. split; [|done].
  destruct C as [C|C]; [left; apply C|right; exists i; split; apply C].
Qed.
Lemma most_overweight_spec g t p i : find_most_overweight g t p = Ok i ->
  exists m, calc_max_imbalance g t p = Ok m /\
   ((i = 0 /\ m = f_zero) \/ (i < length (p_pw p) /\ get_imbalance g t p i = Ok m /\ flt f_zero m = true)).
Proof.
  unfold find_most_overweight, calc_max_imbalance. destruct (find_max g t p) as [[i' m']|] eqn:E; [|discriminate]. intros [= <-].
  apply find_max_spec in E as (A & B & C & D). exists m'. split; done.
Qed.

(** ** C31 *)
Definition balanced (t : target) (p : part) : Prop :=
  forall i, i < length (p_pw p) -> (nth i (p_pw p) 0 <= nth i (t_max t) 0)%Z.
(** The limits never turn a partitioning down that has at most the balance of an accepted one. *)
Definition limits_monotone (g : graph) (t : target) : Prop :=
  forall p p' b b', exact_part 2 g p -> exact_part 2 g p' ->
    calc_max_imbalance g t p = Ok b -> calc_max_imbalance g t p' = Ok b' ->
    balanced t p -> fle b' b = true -> balanced t p'.
(** p' is at least as good as p. *)
Definition no_worse (g : graph) (t : target) (p p' : part) : Prop :=
  (balanced t p -> balanced t p' /\ (p_cut p' <= p_cut p)%Z) /\
  (~ balanced t p -> balanced t p' \/
     exists b b', calc_max_imbalance g t p = Ok b /\ calc_max_imbalance g t p' = Ok b' /\
       (flt b' b = true \/ (fle b' b = true /\ (p_cut p' <= p_cut p)%Z))).

Lemma balanced_dec t p b : length (p_pw p) <= length (t_max t) -> is_balanced t p = Ok b -> (b = true <-> balanced t p).
Proof. intros H E. destruct (is_balanced_ok t p H) as (b' & E' & H'). rewrite E in E'. injection E' as <-. exact H'. Qed.

Section Mono.
  Context (g : graph) (t : target) (Htf : 2 <= length (t_frac t)) (Htm : 2 <= length (t_max t)).
  Context (Hmono : limits_monotone g t).
  Lemma exact_pw2 p : exact_part 2 g p -> length (p_pw p) = 2.
  Proof. intros ((_ & H & _) & _). exact H. Qed.
  Lemma no_worse_refl p : exact_part 2 g p -> no_worse g t p p.
  Proof.
    intros Hp. split; [intros; split; [done|lia]|]. intros _. right.
    destruct (calc_max_imbalance_ok g t p) as [b Eb]; [rewrite exact_pw2; done|].
    exists b, b. split; [done|]. split; [done|]. right. split; [|lia]. apply fle_refl.
    apply (max_imbalance_spec g t p b Eb).
  Qed.
  Lemma no_worse_step p p' p'' : exact_part 2 g p -> exact_part 2 g p' ->
    no_worse g t p p' -> improves g t p' p'' -> no_worse g t p p''.
  Proof.
    intros Hp Hp' [N1 N2] (Hp'' & isb & b' & b'' & E1 & E2 & E3 & Acc).
    pose proof (exact_pw2 _ Hp'') as L''.
    assert (isb = true <-> balanced t p'') as HB by (apply balanced_dec; [lia|done]).
    pose proof (max_imbalance_spec _ _ _ _ E2) as (_ & Nb' & _).
    pose proof (max_imbalance_spec _ _ _ _ E3) as (_ & Nb'' & _).
    unfold fm_accept in Acc. apply orb_true_iff in Acc.
    assert (Hstep : balanced t p' -> balanced t p'' /\ (p_cut p'' < p_cut p')%Z).
    { intros Hb. destruct Acc as [Acc|Acc]; apply andb_true_iff in Acc as [A1 A2].
      - exfalso. assert (balanced t p'') as H by (eapply (Hmono p' p''); eauto; apply flt_le; done).
        apply HB in H. rewrite H in A1. discriminate.
      - apply Z.ltb_lt in A1. split; [|lia]. apply orb_true_iff in A2 as [A2|A2]; [apply HB; done|].
        eapply (Hmono p' p''); eauto. }
    split.
    - intros Hb. destruct (N1 Hb) as [C D]. destruct (Hstep C). split; [done|lia].
    - intros Hnb. destruct (N2 Hnb) as [C|(b & b1 & F1 & F2 & F3)]; [left; apply Hstep; done|].
      rewrite E2 in F2. injection F2 as <-.
      pose proof (max_imbalance_spec _ _ _ _ F1) as (_ & Nb & _).
      destruct isb; [left; apply HB; done|]. right. exists b, b''. split; [done|]. split; [done|].
      simpl in Acc. destruct Acc as [Acc|Acc].
      + left. destruct F3 as [F3|[F3 _]]; [eapply flt_trans; eauto|eapply flt_le_trans; eauto].
      + apply andb_true_iff in Acc as [A1 A2]. apply Z.ltb_lt in A1.
        destruct F3 as [F3|[F3 F4]].
        * left. eapply fle_lt_trans; eauto.
        * right. split; [eapply fle_trans; [| | |eassumption|eassumption]; done|lia].
  Qed.
  Lemma no_worse_rtc p p' : exact_part 2 g p -> rtc (improves g t) p p' -> no_worse g t p p'.
  Proof.
    intros Hp H.
    assert (forall a, exact_part 2 g a -> no_worse g t p a -> forall b, rtc (improves g t) a b -> no_worse g t p b) as G.
    { intros a Ha Na b Hab. induction Hab as [a|a a' b Haa' Hab IH]; [done|].
      apply IH; [apply Haa'|eapply no_worse_step; [| |exact Na|exact Haa']; done]. }
    eapply G; [exact Hp|apply no_worse_refl; done|done].
  Qed.
End Mono.

(** Unconditionally: what every single accepted change does. *)
Lemma improves_spec g t p p' : improves g t p p' -> length (p_pw p') <= length (t_max t) ->
  exists b b', calc_max_imbalance g t p = Ok b /\ calc_max_imbalance g t p' = Ok b' /\
   (flt b' b = true \/ ((p_cut p' < p_cut p)%Z /\ (balanced t p' \/ fle b' b = true))).
Proof.
  intros (Hp & isb & b & b' & E1 & E2 & E3 & Acc) Hl. exists b, b'. split; [done|]. split; [done|].
  pose proof (balanced_dec t p' isb Hl E1) as HB.
  unfold fm_accept in Acc. apply orb_true_iff in Acc as [A|A]; apply andb_true_iff in A as [A1 A2]; [left; done|].
  right. split; [apply Z.ltb_lt; done|]. apply orb_true_iff in A2 as [A2|A2]; [left; apply HB; done|right; done].
Qed.

(** ** C43 *)
Lemma vs_iter_spec s v : v ∈ vs_iter s <-> vs_begin s <= v < vs_end s.
Proof. unfold vs_iter, range. rewrite elem_of_seq. lia. Qed.
Lemma vs_iter_nodup s : NoDup (vs_iter s).
Proof. apply NoDup_seq. Qed.
Lemma vs_iter_size s : length (vs_iter s) = vs_size s.
Proof. apply seq_length. Qed.
Lemma vs_iter_lookup s i : i < vs_size s -> vs_iter s !! i = Some (vs_begin s + i).
Proof. intros H. unfold vs_iter, range. apply lookup_seq. unfold vs_size in H. split; [done|lia]. Qed.
Lemma random_order_wp E s : vs_begin s = 0 -> wpm (random_order s) E (fun l => l ≡ₚ vs_iter s).
Proof. intros H. unfold random_order, vs_iter, range, vs_size. rewrite H. apply wpm_choose_perm. Qed.

Lemma insert_by_perm key x l : insert_by key x l ≡ₚ x :: l.
Proof.
  induction l as [|y l IH]; [done|]. simpl. destruct (Nat.leb (key x) (key y)); [done|].
  rewrite IH. constructor.
Qed.
Lemma sort_by_perm key l : sort_by key l ≡ₚ l.
Proof. induction l as [|x l IH]; [done|]. simpl. rewrite insert_by_perm. constructor. exact IH. Qed.
Definition sorted_by (key : nat -> nat) (l : list nat) : Prop :=
  forall i j a b, i <= j -> l !! i = Some a -> l !! j = Some b -> key a <= key b.
Lemma sorted_by_cons key x l : (forall y, y ∈ l -> key x <= key y) -> sorted_by key l -> sorted_by key (x :: l).
Proof.
  intros H1 H2 [|i] [|j] a b Hij; simpl; intros Ha Hb.
  - assert (a = b) by congruence; subst; lia.
  - injection Ha as <-. apply H1. eapply elem_of_list_lookup_2; eauto.
  - lia.
  - eapply H2; [|eassumption|eassumption]; lia.
Qed.
Lemma sorted_by_inv key x l : sorted_by key (x :: l) -> (forall y, y ∈ l -> key x <= key y) /\ sorted_by key l.
Proof.
  intros H. split.
  - intros y Hy. apply elem_of_list_lookup in Hy as [j Hj]. apply (H 0 (S j) x y); [lia|done|done].
  - intros i j a b Hij Ha Hb. apply (H (S i) (S j)); [lia|done|done].
Qed.
Lemma insert_by_sorted key x l : sorted_by key l -> sorted_by key (insert_by key x l).
Proof.
  induction l as [|y l IH]; intros H; [apply sorted_by_cons; [intros z Hz; inversion Hz|done]|].
  simpl. destruct (Nat.leb_spec (key x) (key y)).
  - apply sorted_by_cons; [|done]. intros z Hz. apply sorted_by_inv in H as [H1 H2].
    apply elem_of_cons in Hz as [->|Hz]; [done|]. specialize (H1 z Hz). lia.
  - apply sorted_by_inv in H as [H1 H2]. apply sorted_by_cons; [|apply IH; done].
    intros z Hz. rewrite insert_by_perm in Hz. apply elem_of_cons in Hz as [->|Hz]; [lia|apply H1; done].
Qed.
Lemma sort_by_sorted key l : sorted_by key (sort_by key l).
Proof. induction l as [|x l IH]; [intros i j a b _ Ha; done|]. apply insert_by_sorted. exact IH. Qed.

Lemma degree_sorted_wp E g s : wf_graph g -> vs_begin s = 0 -> vs_end s <= nv g ->
  wpm (degree_sorted_random s g) E (fun l => l ≡ₚ vs_iter s /\ sorted_by (fun v => length (out g v)) l).
Proof.
  intros Hwf Hb He. unfold degree_sorted_random, vs_iter, range, vs_size. rewrite Hb, Nat.sub_0_r.
  set (n := vs_end s) in *.
  assert (wpo (ofold (fun (a : list (option nat)) v => let! d := degree g v in wri a v d) (alloc n) (seq 0 n)) E
     (filled n n (fun v => length (out g v)))) as H.
  { apply (ofold_seq_wp (fun i => filled n i (fun v => length (out g v)))); [apply filled_alloc|].
    intros i l Hi Hl. rewrite degree_ok by (auto; lia). simpl.
    destruct (filled_wri n i _ l Hl Hi) as (l' & -> & Hl'). exact Hl'. }
  eapply wpm_bind; [apply wpm_lift; exact H|]. intros l Hl.
  rewrite (filled_frozen _ _ _ Hl). apply wpm_liftk.
  eapply wpm_bind; [apply wpm_choose_perm|]. intros p Hp. apply wpm_ret. split; [rewrite sort_by_perm; done|].
  intros i j a b Hij Ha Hb'.
  assert (forall i a, sort_by (λ v, default 0 (((λ v0 : nat, length (out g v0)) <$> seq 0 n) !! v)) p !! i = Some a -> a < n) as Hin.
  { intros i' a' Ha'. apply elem_of_list_lookup_2 in Ha'. rewrite sort_by_perm, Hp in Ha'. apply elem_of_seq in Ha'. lia. }
  pose proof (Hin _ _ Ha). pose proof (Hin _ _ Hb').
  pose proof (sort_by_sorted _ p i j a b Hij Ha Hb') as HS.
  cbv beta in HS; rewrite !fmap_seq_lookup in HS by lia. exact HS.
Qed.

(** ** C44 *)
Inductive vop := Visit (v : nat) | Unvisit (v : nat) | ClearAll.
Definition run_vop (t : list bool) (o : vop) : outcome (list bool) :=
  match o with Visit v => vt_visit t v | Unvisit v => vt_unvisit t v | ClearAll => Ok (vt_clear t) end.
Definition run_vops (t : list bool) (os : list vop) : outcome (list bool) := ofold run_vop t os.
(** v was visited after the last unvisit of v and the last clear; newest operation first. *)
Fixpoint visited_since (newest_first : list vop) (v : nat) : Prop :=
  match newest_first with
  | [] => False
  | Visit u :: os => u = v \/ visited_since os v
  | Unvisit u :: os => u <> v /\ visited_since os v
  | ClearAll :: _ => False
  end.
Definition vop_ok (n : nat) (o : vop) : Prop := match o with Visit v | Unvisit v => v < n | ClearAll => True end.
Lemma visit_tracker_set n os : Forall (vop_ok n) os ->
  exists t, run_vops (vt_new n) os = Ok t /\
    forall v, v < n -> exists b, vt_has t v = Ok b /\ (b = true <-> visited_since (rev os) v).
Proof.
  intros H.
  cut (wpo (run_vops (vt_new n) os) never (fun t => length t = n /\
    forall v, v < n -> exists b, t !! v = Some b /\ (b = true <-> visited_since (rev os) v))).
  { intros HW. apply wpo_never in HW as (t & E & _ & HW). exists t. split; [done|]. intros v Hv.
    destruct (HW v Hv) as (b & Eb & Hb). exists b. split; [apply rd_ok; done|done]. }
  apply (ofold_wp (fun pre t => length t = n /\ forall v, v < n -> exists b, t !! v = Some b /\ (b = true <-> visited_since (rev pre) v))).
  - split; [apply replicate_length|]. intros v Hv. exists false. split; [apply lookup_replicate_2; done|]. simpl. done.
  - intros pre o post t El [Lt Ht]. rewrite rev_app_distr. simpl.
    assert (vop_ok n o) as Ho. { rewrite El in H. apply Forall_app in H as [_ H]. inversion H; done. }
    destruct o as [u|u|]; simpl in *.
    + apply wpo_wr; [lia|]. split; [rewrite insert_length; done|]. intros v Hv.
      destruct (decide (u = v)) as [->|Hne].
      * exists true. split; [apply list_lookup_insert; lia|]. tauto.
      * rewrite list_lookup_insert_ne by done. destruct (Ht v Hv) as (b & Eb & Hb). exists b. split; [done|]. rewrite Hb. tauto.
    + apply wpo_wr; [lia|]. split; [rewrite insert_length; done|]. intros v Hv.
      destruct (decide (u = v)) as [->|Hne].
      * exists false. split; [apply list_lookup_insert; lia|]. split; [done|]. tauto.
      * rewrite list_lookup_insert_ne by done. destruct (Ht v Hv) as (b & Eb & Hb). exists b. split; [done|]. rewrite Hb. tauto.
    + split; [unfold vt_clear; rewrite replicate_length; done|]. intros v Hv. exists false.
      split; [apply lookup_replicate_2; lia|]. done.
Qed.
