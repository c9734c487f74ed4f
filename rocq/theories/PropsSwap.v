(** * PropsSwap: random bisection exchanges two vertices whenever its rule finds a pair (C47), and BFS
    bisection balances whenever its rule says so (C34, C66). *)
From Verif Require Import Base F64 ModelGraph ModelPartition ModelConn ModelBisect Spec Logic Sums GraphFacts PartFacts FMFacts MiscFacts BisectFacts RandomFacts TreeFacts PropsBisect PropsGrow Examples.
From Coq Require Import Psatz.
#[local] Arguments seq : simpl nomatch.

(** Sorting is by weight. *)
Definition by_weight (l : list (nat * Z)) : Prop := forall i j a b, l !! i = Some a -> l !! j = Some b -> i <= j -> (snd a <= snd b)%Z.
Lemma by_weight_cons x l : by_weight l -> (forall y, y ∈ l -> (snd x <= snd y)%Z) -> by_weight (x :: l).
Proof.
  intros Hl Hx i j a b Hi Hj Hij. destruct i as [|i], j as [|j]; cbn in *; [|..].
  - injection Hi as <-. injection Hj as <-. done.
  - injection Hi as <-. apply Hx. by eapply elem_of_list_lookup_2.
  - lia.
  - apply (Hl i j a b Hi Hj). lia.
Qed.
Lemma by_weight_tail x l : by_weight (x :: l) -> by_weight l.
Proof. intros H i j a b Hi Hj Hij. apply (H (S i) (S j) a b Hi Hj). lia. Qed.
Lemma insert_w_in x l y : y ∈ insert_w x l -> y = x \/ y ∈ l.
Proof.
  induction l as [|z l IH]; cbn; [set_solver|]. destruct (snd x <=? snd z)%Z; [set_solver|]. intros [->|H]%elem_of_cons; [right; by left|].
  destruct (IH H); [by left|right; by right].
Qed.
Lemma insert_w_sorted x l : by_weight l -> by_weight (insert_w x l).
Proof.
  induction l as [|z l IH]; intros Hl; cbn.
  - apply by_weight_cons; [done|]. intros y Hy. by apply not_elem_of_nil in Hy.
  - destruct (Z.leb_spec (snd x) (snd z)) as [Hle|Hgt].
    + apply by_weight_cons; [done|]. intros y Hy. apply elem_of_list_lookup in Hy as [j Hj].
      pose proof (Hl 0 j z y eq_refl Hj ltac:(lia)). lia.
    + apply by_weight_cons; [apply IH; by eapply by_weight_tail|]. intros y Hy. apply insert_w_in in Hy as [->|Hy]; [lia|].
      apply elem_of_list_lookup in Hy as [j Hj]. apply (Hl 0 (S j) z y eq_refl Hj). lia.
Qed.
Lemma sort_w_sorted l : by_weight (sort_w l).
Proof. unfold sort_w. induction l as [|x l IH]; cbn; [intros i j a b Hi; by rewrite lookup_nil in Hi|]. by apply insert_w_sorted. Qed.
Lemma lower_bound_first l x i a : by_weight l -> l !! i = Some a -> (x <= snd a)%Z -> lower_bound l x <= i.
Proof.
  revert i. induction l as [|y l IH]; intros i Hl Hi Hx; cbn; [lia|]. destruct (Z.ltb_spec (snd y) x) as [Hlt|]; [|lia].
  destruct i as [|i]; cbn in Hi; [injection Hi as ->; lia|]. apply le_n_S, IH; [by eapply by_weight_tail|done|done].
Qed.
Lemma lower_bound_beyond l x i a : by_weight l -> l !! i = Some a -> (snd a < x)%Z -> i < lower_bound l x.
Proof.
  revert i. induction l as [|y l IH]; intros i Hl Hi Hx; cbn; [by rewrite lookup_nil in Hi|]. destruct (Z.ltb_spec (snd y) x) as [Hlt|Hge].
  - destruct i as [|i]; [lia|]. cbn in Hi. apply -> Nat.succ_lt_mono. apply IH; [by eapply by_weight_tail|done|done].
  - exfalso. pose proof (Hl 0 i y a eq_refl Hi ltac:(lia)). lia.
Qed.

Section Swap.
  Context (g : graph) (Hwf : wf_graph g) (t : target) (Ht : two_way t).
  Local Notation n := (nv g).
  Local Notation max0 := (nth 0 (t_max t) 0%Z).
  Local Notation max1 := (nth 1 (t_max t) 0%Z).
  Context (Hs : (sumn n (vweight g) < 2 ^ 30)%Z) (Hm0 : (0 <= max0 < 2 ^ 30)%Z) (Hm1 : (0 <= max1 < 2 ^ 30)%Z).
  Local Notation lw p i := (label_weight g (lab p) (Some i%nat)).
  Definition on_side (p : part) (i v : nat) : Prop := p_where p !! v = Some (Some i).
  Definition heaviest_right (p : part) (r : nat) : Prop := on_side p 1 r /\ forall v, on_side p 1 v -> (vweight g v <= vweight g r)%Z.
  (** Exchanging r (right) and l (left) puts both sides within their maxima, the right one strictly. *)
  Definition fitting (p : part) (r l : nat) : Prop := on_side p 0 l /\
    (lw p 0 + vweight g r - vweight g l <= max0)%Z /\ (lw p 1 - vweight g r + vweight g l < max1)%Z.
  (** What the exchange step does. *)
  Definition exchange (p p2 : part) : Prop :=
    (exists r l, heaviest_right p r /\ on_side p 0 l /\ p_where p2 = <[l := Some 1]> (<[r := Some 0]> (p_where p)) /\
      (lw p 0 + vweight g r - vweight g l <= max0)%Z /\
      (forall l', on_side p 0 l' -> (lw p 0 + vweight g r - vweight g l' <= max0)%Z -> (vweight g l <= vweight g l')%Z)) \/
    (p_where p2 = p_where p /\ forall r l, heaviest_right p r -> (max0 <= lw p 0 + vweight g r)%Z -> ~ fitting p r l).
  Lemma swap_spec E p : 0 < n -> valid_part 2 g p -> (lw p 0 <= max0)%Z -> (max1 < lw p 1)%Z ->
    wpm (swap_balance_right g t p) E (fun p2 => valid_part 2 g p2 /\ exchange p p2).
  Proof.
    assert (Hli : light g) by (unfold light, W32; change (2^30)%Z with 1073741824%Z in *; lia).
    intros Hn HV Hle0 Hov. unfold swap_balance_right. eapply wpm_bind; [apply wpm_lift; by apply (fill_pairs_wp g Hwf t Ht)|].
    intros [l r] [HC HP]. cbn [fst snd] in *. eapply wpm_bind; [apply wpm_choose_perm|]. intros ls Hls.
    eapply wpm_bind; [apply wpm_choose_perm|]. intros rs Hrs.
    cbn beta in Hls, Hrs. rewrite <- (sort_w_perm ls) in Hls. rewrite <- (sort_w_perm rs) in Hrs.
    pose proof (sort_w_sorted ls) as SL. pose proof (sort_w_sorted rs) as SR. set (L := sort_w ls) in *. set (R := sort_w rs) in *.
    rewrite !tmax_rd by (done || lia). do 2 apply wpm_liftk.
    destruct (valid_pw g p 0 HV ltac:(lia)) as [-> E0]. destruct (valid_pw g p 1 HV ltac:(lia)) as [-> E1]. do 2 apply wpm_liftk.
    rewrite (light_u32 g _ _ Hwf Hli) in E0. rewrite (light_u32 g _ _ Hwf Hli) in E1.
    (* every vertex is in one of the two lists, with its weight *)
    assert (HIn : forall v, v < n -> (v, vweight g v) ∈ L \/ (v, vweight g v) ∈ R).
    { intros v Hv. specialize (HC v Hv). apply elem_of_list_fmap in HC as ([v' w] & Ev & Hin). cbn in Ev. subst v'.
      destruct (HP v w) as (_ & _ & H2). destruct (H2 Hin) as [_ ->]. rewrite Hls, Hrs. by apply elem_of_app. }
    assert (HL0 : forall v w, (v, w) ∈ L -> on_side p 0 v /\ v < n /\ w = vweight g v).
    { intros v w Hin. rewrite Hls in Hin. destruct (HP v w) as (H0 & _ & H2). split; [by apply H0|]. apply H2. apply elem_of_app. by left. }
    assert (HR1 : forall v w, (v, w) ∈ R -> on_side p 1 v /\ v < n /\ w = vweight g v).
    { intros v w Hin. rewrite Hrs in Hin. destruct (HP v w) as (_ & H1 & H2). split; [by apply H1|]. apply H2. apply elem_of_app. by right. }
    assert (Hlen : length (p_where p) = n) by apply HV.
    assert (HLs : forall v, on_side p 0 v -> (v, vweight g v) ∈ L).
    { intros v Hv. destruct (HIn v) as [H|H]; [rewrite <- Hlen; by eapply lookup_lt_Some|done|]. apply HR1 in H as (H & _). unfold on_side in *. congruence. }
    assert (HRs : forall v, on_side p 1 v -> (v, vweight g v) ∈ R).
    { intros v Hv. destruct (HIn v) as [H|H]; [rewrite <- Hlen; by eapply lookup_lt_Some| |done]. apply HL0 in H as (H & _). unfold on_side in *. congruence. }
    assert (HR : R <> []).
    { intros HR. enough (lw p 1 = 0%Z) by lia. apply sumf_zero. intros v Hv%elem_of_seq. rewrite decide_False; [done|].
      destruct (HIn v ltac:(lia)) as [H|H]; [|rewrite HR in H; by apply not_elem_of_nil in H]. apply HL0 in H as (H & _). unfold lab, on_side in *. erewrite nth_lookup_Some by exact H. done. }
    rewrite last_app. destruct (last R) as [[rv rw]|] eqn:El; [|apply last_None in El; done].
    assert (El' := El). apply last_Some_elem_of in El.
    destruct (HR1 _ _ El) as (Hrv & Hrvn & ->).
    assert (Hheavy : heaviest_right p rv).
    { split; [done|]. intros v Hv. apply HRs in Hv. apply elem_of_list_lookup in Hv as [i Hi]. rewrite last_lookup in El'.
      apply (SR i _ _ _ Hi El'). apply lookup_lt_Some in Hi. lia. }
    pose proof (label_weight_bounds g (lab p) (Some 0) Hwf) as B0. pose proof (label_weight_bounds g (lab p) (Some 1) Hwf) as B1.
    pose proof (wf_vw_range g Hwf rv) as Bv.
    assert (vweight g rv <= sumn n (vweight g))%Z by (apply sumn_elem_le; [intros u _; pose proof (wf_vw_range g Hwf u); lia|done]).
    rewrite E0, E1. rewrite !i32_of_diff by lia. replace (i32_of_u32 (vweight g rv)) with (vweight g rv).
    2: { unfold i32_of_u32, H32. change (2 ^ 30)%Z with 1073741824%Z in *. destruct (Z.ltb_spec (vweight g rv) 2147483648); lia. }
    rewrite !i32_small by (change (2 ^ 30)%Z with 1073741824%Z in *; change (2 ^ 31)%Z with 2147483648%Z; lia). do 2 apply wpm_liftk.
    set (minO := (vweight g rv - (max0 - lw p 0))%Z). set (maxO := (vweight g rv - (lw p 1 - max1))%Z).
    destruct (Nat.ltb_spec (lower_bound L (u32 minO)) (lower_bound L (u32 maxO))) as [Hlt|Hnot].
    2: { apply wpm_ret. split; [done|]. right. split; [done|]. intros r1 l1 [Hr1 Hmx] Hmin (Hl1 & F0 & F1).
      assert (vweight g r1 = vweight g rv) as Ew by (pose proof (proj2 Hheavy r1 Hr1); pose proof (Hmx rv Hrv); lia). rewrite Ew in *.
      pose proof (HLs l1 Hl1) as Hin. apply elem_of_list_lookup in Hin as [i Hi]. pose proof (wf_vw_range g Hwf l1) as Bl.
      assert (0 <= minO < W32)%Z by (unfold minO, W32; change (2 ^ 30)%Z with 1073741824%Z in *; lia).
      assert (0 <= maxO < W32)%Z by (unfold maxO, W32; change (2 ^ 30)%Z with 1073741824%Z in *; lia).
      rewrite !u32_small in Hnot by done.
      pose proof (lower_bound_first L minO i _ SL Hi ltac:(cbn; unfold minO; lia)).
      pose proof (lower_bound_beyond L maxO i _ SL Hi ltac:(cbn; unfold maxO; lia)). lia. }
    pose proof (lower_bound_le L (u32 maxO)) as Hle.
    destruct (lookup_lt_is_Some_2 L (lower_bound L (u32 minO)) ltac:(lia)) as [[lv w] Hlv].
    pose proof (lower_bound_at _ _ _ _ Hlv) as W1. pose proof (lower_bound_before _ _ _ _ _ Hlt Hlv) as W2.
    destruct (HL0 lv w ltac:(by eapply elem_of_list_lookup_2)) as (Hl0 & Hlvn & ->).
    assert (vweight g lv <= sumn n (vweight g))%Z by (apply sumn_elem_le; [intros u _; pose proof (wf_vw_range g Hwf u); lia|done]).
    pose proof (wf_vw_range g Hwf lv) as Bl. unfold on_side in Hl0, Hrv.
    eapply wpm_bind; [apply wpm_lift; apply (move_valid g Hwf _ p rv 1 0 HV Hrv); lia|]. intros p1 [HV1 Hw1].
    rewrite (rd_ok _ _ _ Hlv). apply wpm_liftk. cbn [fst].
    assert (Hpl : p_where p1 !! lv = Some (Some 0)).
    { rewrite Hw1, list_lookup_insert_ne; [done|]. intros ->. congruence. }
    apply wpm_lift. eapply wpo_post; [apply (move_valid g Hwf _ p1 lv 0 1 HV1 Hpl); lia|]. intros p2 [HV2 Hw2]. split; [done|]. left.
    assert (Hge : (0 <= minO)%Z).
    { destruct (decide (0 <= minO)%Z); [done|exfalso]. unfold u32, W32 in W1. change (2 ^ 30)%Z with 1073741824%Z in *.
      rewrite <- (Z.mod_add minO 1), Z.mod_small in W1 by lia. lia. }
    rewrite u32_small in W1, Hlv by (unfold minO, W32 in *; change (2 ^ 30)%Z with 1073741824%Z in *; lia).
    exists rv, lv. split; [done|]. split; [done|]. split; [by rewrite Hw2, Hw1|]. split; [unfold minO in W1; lia|].
    intros l' Hl' Hf. apply HLs in Hl'. apply elem_of_list_lookup in Hl' as [j Hj].
    assert (lower_bound L minO <= j). { apply (lower_bound_first L minO j _ SL Hj). cbn. unfold minO. lia. }
    pose proof (SL _ _ _ _ Hlv Hj ltac:(done)) as HH. exact HH.
  Qed.
  Lemma random_swap_spec E : 0 < n -> wpm (random_execute t g) E (fun p => exists p1, valid_part 2 g p1 /\ (lw p1 0 <= max0)%Z /\
    ((lw p1 1 <= max1)%Z /\ p_where p = p_where p1 \/ (max1 < lw p1 1)%Z /\ exchange p1 p)).
  Proof.
    assert (Hli : light g) by (unfold light, W32; change (2^30)%Z with 1073741824%Z in *; lia).
    intros Hn. unfold random_execute.
    eapply wpm_bind; [apply wpm_lift; apply (assign_all_wp g Hwf 2 _ (part_new 2 g) 1)|].
    { simpl. done. } { simpl. apply replicate_length. } { lia. }
    intros p (_ & Hw & Hlab & Hwx). assert (HV : valid_part 2 g p) by (split; done).
    eapply wpm_bind; [apply random_order_wp; done|]. intros vs Hvs.
    assert (Hvs' : vs ≡ₚ seq 0 n). { rewrite Hvs. unfold vs_iter, range. simpl. rewrite Nat.sub_0_r. done. }
    eapply wpm_bind; [apply wpm_lift; apply (fill_left_wp g Hwf t Ht _ vs p HV)|].
    { rewrite Hvs'. apply NoDup_seq. }
    { apply Forall_forall. intros v Hv. rewrite Hvs' in Hv. apply elem_of_seq in Hv. rewrite Hw. apply lookup_replicate. split; [done|lia]. }
    { intros Hm. destruct (valid_pw g p 0 HV ltac:(lia)) as [_ ->].
      replace (label_weight g (lab p) (Some 0)) with 0%Z; [rewrite u32_0; done|]. symmetry. apply sumf_zero.
      intros v Hv%elem_of_seq. rewrite lab_labw, Hw. unfold labw. rewrite nth_lookup, lookup_replicate_2 by lia. done. }
    intros p1 [HV1 HM1]. specialize (HM1 (proj1 Hm0)). destruct (valid_pw g p1 0 HV1 ltac:(lia)) as [_ E0]. rewrite (light_u32 g _ _ Hwf Hli) in E0. rewrite E0 in HM1.
    destruct (valid_pw g p1 1 HV1 ltac:(lia)) as [-> E1]. apply wpm_liftk. rewrite tmax_rd by (done || lia). apply wpm_liftk.
    rewrite E1, (light_u32 g _ _ Hwf Hli).
    eapply (wpm_bind _ _ _ (fun p2 => valid_part 2 g p2 /\ ((lw p1 1 <= max1)%Z /\ p_where p2 = p_where p1 \/ (max1 < lw p1 1)%Z /\ exchange p1 p2))).
    - destruct (Z.ltb_spec max1 (lw p1 1)) as [Ho|Ho].
      + eapply wpm_post; [by apply swap_spec|]. intros p2 (HV2 & HX). split; [done|]. by right.
      + apply wpm_ret. split; [done|by left].
    - intros p2 [HV2 HW2]. apply wpm_lift. eapply wpo_post; [apply (recalc_cut_all _ 2 g p2 Hwf HV2)|].
      intros p3 (HV3 & Hw3 & _ & HX3). exists p1. split; [done|]. split; [done|]. unfold exchange in *. rewrite Hw3. exact HW2.
  Qed.
End Swap.

(** ** C47: the exchange *)
(** r is a heaviest vertex of side i. *)
Definition heaviest_of (g : graph) (L : list (option nat)) (i r : nat) : Prop :=
  L !! r = Some (Some i) /\ forall v, L !! v = Some (Some i) -> (vweight g v <= vweight g r)%Z.
(** Exchanging r of the right and l of the left side leaves the left side within its maximum. *)
Definition left_fits (g : graph) (t : target) (L : list (option nat)) (r l : nat) : Prop :=
  (side_weight g L 0 + vweight g r - vweight g l <= max_of t 0)%Z.
Definition right_fits (g : graph) (t : target) (L : list (option nat)) (r l : nat) : Prop :=
  (side_weight g L 1 - vweight g r + vweight g l < max_of t 1)%Z.
Theorem C47_exchange_rule : forall g t s p s', wf_graph g -> two_way t -> 0 < nv g -> moderate g t ->
  random_execute t g s = Ok (p, s') ->
  (* L: the labels after the fill phase *)
  exists L, labels_ok 2 (nv g) L /\ (side_weight g L 0 <= max_of t 0)%Z /\
    (* the right side is within its maximum: nothing is exchanged *)
    ((side_weight g L 1 <= max_of t 1)%Z /\ p_where p = L \/
    (* it is not: a heaviest right vertex for the lightest left one with which the left side fits ... *)
     (max_of t 1 < side_weight g L 1)%Z /\
     ((exists r l, heaviest_of g L 1 r /\ L !! l = Some (Some 0) /\ p_where p = <[l := Some 1]> (<[r := Some 0]> L) /\
        left_fits g t L r l /\ (forall l', L !! l' = Some (Some 0) -> left_fits g t L r l' -> (vweight g l <= vweight g l')%Z)) \/
    (* ... or nothing, and then (if that vertex does not fit on the left by itself) no left vertex would have done *)
      p_where p = L /\ forall r l, heaviest_of g L 1 r -> (max_of t 0 <= side_weight g L 0 + vweight g r)%Z ->
        L !! l = Some (Some 0) -> ~ (left_fits g t L r l /\ right_fits g t L r l))).
Proof.
  intros g t s p s' Hwf Ht Hn (Hs & Hm0 & Hm1) E.
  pose proof (random_swap_spec g Hwf t Ht Hs Hm0 Hm1 never Hn s) as H. rewrite E in H. destruct H as (p1 & HV1 & HL0 & HC).
  exists (p_where p1). split; [apply HV1|]. split; [exact HL0|]. destruct HC as [HC|[Hov HX]]; [by left|]. right. split; [exact Hov|].
  destruct HX as [(r & l & H1 & H2 & H3 & H4 & H5)|[H1 H2]]; [left|right].
  - exists r, l. done.
  - split; [done|]. intros r l Hr Hm Hl [F0 F1]. exact (H2 r l Hr Hm (conj Hl (conj F0 F1))).
Qed.
Print Assumptions C47_exchange_rule.
(** The hypothesis in the last line is needed: when the heaviest right vertex fits on the left by itself,
    the exchange is not found (an int32_t offset below zero is compared as uint32_t).  Weights
    3, 3, 4, 5, 5, maxima 30 and 9: filling gives 10 | 10, exchanging 3 and 5 would give 12 | 8. *)
Definition ex47_m : graph := the_graph [0; 1; 3; 5; 7; 8] [1; 0; 2; 1; 3; 2; 4; 3] (Some [3; 3; 4; 5; 5]%Z) None.
Definition ex47_mt : target := target_of_weights [10; 10]%Z [30; 9]%Z.
Theorem C47_missed_exchange_refuted : exists g t s p s' r l, wf_graph g /\ two_way t /\ moderate g t /\
  random_execute t g s = Ok (p, s') /\ (max_of t 1 < side_weight g (p_where p) 1)%Z /\
  heaviest_of g (p_where p) 1 r /\ p_where p !! l = Some (Some 0) /\ left_fits g t (p_where p) r l /\ right_fits g t (p_where p) r l.
Proof.
  exists ex47_m, ex47_mt, []. do 2 eexists. exists 4, 0. split; [apply (the_graph_wf 5); reflexivity|]. split; [split; reflexivity|].
  split; [unfold moderate; vm_compute; intuition congruence|]. split; [vm_compute; reflexivity|]. split; [vm_compute; reflexivity|].
  split; [|split; [reflexivity|split; vm_compute; [discriminate|reflexivity]]].
  split; [reflexivity|]. intros v Hv. do 5 (destruct v as [|v]; [vm_compute; discriminate|]). cbn in Hv. discriminate.
Qed.
Print Assumptions C47_missed_exchange_refuted.
(** Both cases occur: C47_swapping_case exchanges; here it does not, with a right side that is over its maximum. *)
Example C47_exchange_nonvacuous : wf_graph ex47_s /\ two_way (target_of_weights [10; 10]%Z [11; 11]%Z) /\ moderate ex47_s (target_of_weights [10; 10]%Z [11; 11]%Z) /\
  exists p s', random_execute (target_of_weights [10; 10]%Z [11; 11]%Z) ex47_s [] = Ok (p, s') /\ p_where p = [Some 0; Some 1; Some 0; Some 1].
Proof. destruct C47_swapping_case as (A & B & C & p & s' & D & _ & F). exact (conj A (conj B (conj C (ex_intro _ p (ex_intro _ s' (conj D F)))))). Qed.

(** ** The balancing step of BFS bisection *)
Section Balance.
  Context (g : graph) (Hwf : wf_graph g) (Hli : light g) (Hew : (total_edge_weight g < H32 - 1)%Z) (t : target) (Ht : two_way t) (seed : nat) (Hseed : seed < nv g).
  Local Notation n := (nv g).
  Local Notation max0 := (nth 0 (t_max t) 0%Z).
  Local Notation max1 := (nth 1 (t_max t) 0%Z).
  Definition better_by (w0 w1 : Z) : bool := flt (load w0 max0) (load w1 max1).
  (** One vertex of rem is moved if that is judged better, and only then. *)
  Definition moved_one (rem : list nat) (p p' : part) : Prop :=
    (p' = p /\ (rem = [] \/ better_by (u32 (1 + pw p 0)) (pw p 1) = false)) \/
    (better_by (u32 (1 + pw p 0)) (pw p 1) = true /\ exists v, v ∈ rem /\ p_where p' = <[v := Some 0]> (p_where p)).
  Lemma unit_moved E p rem : valid_part 2 g p -> Forall (fun v => p_where p !! v = Some (Some 1)) rem ->
    wpo (bfs_unit_balance g t rem p) E (fun p' => valid_part 2 g p' /\ moved_one rem p p').
  Proof.
    intros HV HF. destruct (better_by (u32 (1 + pw p 0)) (pw p 1)) eqn:EB.
    - destruct rem as [|v rem]; [split; [done|]; left; split; [done|by left]|]. apply Forall_cons in HF as [Hv HF]. cbn [bfs_unit_balance].
      destruct (valid_pw g p 0 HV ltac:(lia)) as [-> _]. cbn [obind]. rewrite (balance_improves_ok g t Ht) by done. cbn [obind].
      unfold better_by in EB. rewrite EB. eapply wpo_post; [apply (move_valid g Hwf E p v 1 0 HV Hv); lia|]. intros p' [HV' Hw]. split; [done|]. right. split; [done|]. exists v. split; [by left|done].
    - assert (H : bfs_unit_balance g t rem p = Ok p).
      { clear HF. induction rem as [|v rem IH]; [done|]. cbn [bfs_unit_balance]. destruct (valid_pw g p 0 HV ltac:(lia)) as [-> _]. cbn [obind].
        rewrite (balance_improves_ok g t Ht) by done. cbn [obind]. unfold better_by in EB. rewrite EB. exact IH. }
      rewrite H. split; [done|]. left. split; [done|by right].
  Qed.
  Lemma weight_moved E p fuel : length (g_vw g) = n -> (forall v, v < n -> vweight g v = 1%Z) -> valid_part 2 g p -> forall q, length q = n ->
    (forall v k, q !! v = Some (Some k) -> p_where p !! v = Some (Some 1)) -> q_size q <= fuel ->
    wpm (bfs_weight_balance_loop g t fuel q p) E (fun p' => valid_part 2 g p' /\ moved_one (q_members q) p p').
  Proof.
    intros Hvw H1 HV. assert (Hz0 : forall q, q_size q = 0 -> q_members q = []).
    { intros q Hz. unfold q_size in Hz. by destruct (q_members q). }
    induction fuel as [|fuel IH]; intros q HL HR Hf; cbn [bfs_weight_balance_loop].
    - replace (q_size q) with 0 by lia. simpl. apply wpm_ret. split; [done|]. left. split; [done|left; apply Hz0; lia].
    - destruct (Nat.eqb_spec (q_size q) 0) as [Hz|Hz]; [apply wpm_ret; split; [done|]; left; split; [done|left; by apply Hz0]|].
      eapply wpm_bind; [by apply q_pop_wp|]. intros [v q'] (Hq' & k & Hv & _). cbn [fst snd] in *. subst q'.
      pose proof (HR v k Hv) as Hp. assert (Hvn : v < n). { rewrite <- HL. eapply lookup_lt_Some; eauto. }
      rewrite (vwt_true g) by done. apply wpm_liftk. rewrite (H1 v Hvn). destruct (valid_pw g p 0 HV ltac:(lia)) as [-> _]. apply wpm_liftk.
      rewrite (balance_improves_ok g t Ht) by done. apply wpm_liftk. fold (better_by (u32 (1 + pw p 0%nat)) (pw p 1%nat)).
      destruct (better_by (u32 (1 + pw p 0%nat)) (pw p 1%nat)) eqn:EB.
      + apply wpm_lift. eapply wpo_post; [apply (move_valid g Hwf E p v 1 0 HV Hp); lia|]. intros p' [HV' Hw]. split; [done|]. right. split; [done|]. exists v.
        split; [apply q_members_spec; by exists k|done].
      + pose proof (q_size_pop q v k Hv). eapply wpm_post; [apply IH|].
        * rewrite insert_length; done.
        * intros u k' Hu. destruct (decide (u = v)) as [->|Hn]; [rewrite list_lookup_insert in Hu by lia; done|].
          rewrite list_lookup_insert_ne in Hu by done. eauto.
        * lia.
        * intros p' [HV' HM]. split; [done|]. destruct HM as [[-> _]|[HB _]]; [left; split; [done|by right]|congruence].
  Qed.
  Lemma wb_moved E p rem : length (g_vw g) = n -> (forall v, v < n -> vweight g v = 1%Z) -> valid_part 2 g p -> NoDup rem ->
    Forall (fun v => p_where p !! v = Some (Some 1)) rem ->
    wpm (bfs_weight_balance g t rem p) E (fun p' => valid_part 2 g p' /\ moved_one rem p p').
  Proof.
    intros Hvw H1 HV HN HF. unfold bfs_weight_balance.
    eapply (wpm_bind _ _ _ (fun q => length q = n /\ forall v, v ∈ rem <-> exists k, q !! v = Some (Some k))).
    - apply wpm_lift. apply (ofold_wp (fun pre q => length q = n /\ forall v, v ∈ pre <-> exists k, q !! v = Some (Some k))).
      + split; [apply replicate_length|]. intros v. split; [intros Hv; by apply not_elem_of_nil in Hv|]. intros [k Hv]. apply lookup_replicate in Hv as [? _]. done.
      + intros pre v post q Er [HL HM]. assert (Hv : v ∈ rem) by (rewrite Er; set_solver).
        rewrite Forall_forall in HF. pose proof (HF v Hv) as Hp.
        assert (Hvn : v < n). { rewrite <- (proj1 (proj1 HV)). eapply lookup_lt_Some; eauto. }
        rewrite (vwt_true g) by done. cbn [obind]. unfold q_add.
        destruct (lookup_lt_is_Some_2 q v ltac:(lia)) as [x Hx]. rewrite (rd_ok _ _ _ Hx). cbn [obind].
        destruct x as [k|].
        { exfalso. assert (v ∈ pre) as Hpre by (apply HM; by exists k). rewrite Er in HN. apply NoDup_app in HN as (_ & HN & _). apply (HN v Hpre). set_solver. }
        rewrite wr_ok by lia. simpl. split; [rewrite insert_length; done|]. intros u.
        destruct (decide (u = v)) as [->|Hn].
        * rewrite list_lookup_insert by lia. split; [eauto|]. intros _. set_solver.
        * rewrite list_lookup_insert_ne by done. rewrite <- HM. set_solver.
    - intros q [HL HM]. eapply wpm_post; [apply weight_moved; try done|].
      + intros v k Hv. rewrite Forall_forall in HF. apply HF, HM. eauto.
      + rewrite <- HL. apply q_size_le.
      + intros p' [HV' HO]. split; [done|]. destruct HO as [[-> [He|He]]|[HB (v & Hv & Hw)]].
        * left. split; [done|]. left. destruct rem as [|v rem]; [done|]. exfalso. destruct (proj1 (HM v) ltac:(by left)) as [k Hk].
          assert (v ∈ q_members q) as Hin by (apply q_members_spec; by exists k). rewrite He in Hin. by apply not_elem_of_nil in Hin.
        * left. split; [done|by right].
        * right. split; [done|]. exists v. split; [|done]. apply q_members_spec in Hv. by apply HM.
  Qed.
  (** One vertex more on the left is judged better. *)
  Definition would_help (h : history) : Prop :=
    flt (fdiv (f_of_Z (region_weight g h + 1)) (f_of_Z (max_of t 0))) (fdiv (f_of_Z (side_weight g (region_labels n h) 1)) (f_of_Z (max_of t 1))) = true.
  Definition balanced_outcome (h : history) (p : part) : Prop :=
    (p_where p = region_labels n h /\ ((side_weight g (region_labels n h) 1 <= max_of t 1)%Z \/ length h = n \/ ~ would_help h)) \/
    ((max_of t 1 < side_weight g (region_labels n h) 1)%Z /\ would_help h /\
      exists v, v < n /\ v ∉ (fst <$> h) /\ p_where p = <[v := Some 0]> (region_labels n h)).
  Lemma bfs_from_balanced : (0 <= max1)%Z -> wpm (bfs_from seed t g) anyf (fun p => exists h, greedy g t seed h /\
    ((target_of t 0 <= region_weight g h)%Z \/ length h = n) /\ balanced_outcome h p).
  Proof.
    intros Hm1. unfold bfs_from.
    assert (Hq := queue_init g seed Hseed anyf).
    eapply (wpm_bind _ _ _ (fun q => wpo (ofold (fun q v => if Nat.eqb v seed then Ok q else q_add q 0%Z v) q (seq 0 n)) anyf
      (fun q => length q = n /\ forall v, v < n -> q !! v = Some (Some (if decide (v = seed) then 1 else 0)%Z)))).
    { apply wpm_lift. destruct (q_add (q_new n) 1 seed); simpl in *; done. }
    intros q0 H0. eapply wpm_bind; [apply wpm_lift; exact H0|]. clear Hq q0 H0. intros q [HL HQ].
    eapply wpm_bind; [apply wpm_lift; apply (assign_all_wp g Hwf 2)|].
    { simpl. rewrite replicate_length. unfold t_np. apply Ht. } { simpl. apply replicate_length. } { lia. }
    intros p (_ & Hw & Hlab & Hwx).
    assert (HV : valid_part 2 g p) by (split; done).
    assert (HI : sofar g t seed [] q p).
    { constructor; try done.
      - constructor; [apply NoDup_nil_2|intros x Hx; by apply not_elem_of_nil in Hx|intros x Hx; by rewrite lookup_nil in Hx|intros i v b Hx; by rewrite lookup_nil in Hx].
      - rewrite Hw. unfold region_labels. apply list_eq. intros v. rewrite list_lookup_fmap. destruct (decide (v < n)).
        + rewrite lookup_replicate_2, lookup_seq_lt by done. cbn. by rewrite decide_False by apply not_elem_of_nil.
        + rewrite !lookup_ge_None_2; [done|rewrite seq_length; lia|rewrite replicate_length; lia]. }
    eapply wpm_bind; [apply (grow_greedy g Hwf Hli Hew t Ht seed Hseed n [] q p HI)|].
    intros [q1 p1] (h & HI1 & HS1). cbn [fst snd] in *. pose proof HI1 as [HG1 HV1 HW1 HL1 HK1].
    pose proof (sf_region g Hwf Hli t seed Hseed h q1 p1 HI1) as ER.
    destruct (valid_pw g p1 1 HV1 ltac:(lia)) as [-> E1]. rewrite (light_u32 g _ _ Hwf Hli) in E1. apply wpm_liftk. rewrite (tmax_rd t Ht) by lia. apply wpm_liftk.
    assert (ES : pw p1 1 = side_weight g (region_labels n h) 1) by (rewrite <- HW1; exact E1).
    eapply (wpm_bind _ _ _ (fun p2 => valid_part 2 g p2 /\ balanced_outcome h p2)).
    - destruct (Z.ltb_spec max1 (pw p1 1%nat)) as [Hov|Hok].
      2: { apply wpm_ret. split; [done|]. left. split; [done|]. left. rewrite <- ES. exact Hok. }
      eapply wpm_bind; [apply wpm_choose_perm|]. intros rem Hrem.
      assert (Hmem : forall v, v ∈ rem <-> v < n /\ v ∉ (fst <$> h)).
      { intros v. rewrite Hrem, q_members_spec. split.
        - intros [k Hk]. assert (Hvn : v < n) by (rewrite <- HL1; by eapply lookup_lt_Some). split; [done|]. rewrite HK1 in Hk by done. by destruct (decide (v ∈ fst <$> h)).
        - intros [Hvn Hn]. rewrite HK1 by done. rewrite decide_False by done. eauto. }
      assert (HF : Forall (fun v => p_where p1 !! v = Some (Some 1)) rem).
      { apply Forall_forall. intros v Hv. apply Hmem in Hv as [Hvn Hn].
        rewrite HW1. unfold region_labels. rewrite list_lookup_fmap, lookup_seq_lt by done. cbn. rewrite decide_False; [done|]. intros Hin. by apply Hn, taken_in. }
      assert (Hsm : u32 (1 + pw p1 0) = (region_weight g h + 1)%Z).
      { rewrite ER. rewrite Z.add_comm. apply u32_small. rewrite <- ER.
        assert (HT : (label_weight g (lab p1) (Some 0%nat) + label_weight g (lab p1) (Some 1%nat) = sumn n (vweight g))%Z) by (by apply two_sides_total).
        destruct (valid_pw g p1 0 HV1 ltac:(lia)) as [_ E0]. rewrite (light_u32 g _ _ Hwf Hli) in E0.
        pose proof (label_weight_bounds g (lab p1) (Some 0) Hwf) as B0. unfold light in Hli. lia. }
      assert (Hbb : better_by (u32 (1 + pw p1 0)) (pw p1 1) = true <-> would_help h).
      { rewrite Hsm, ES. unfold better_by, would_help, load, max_of. done. }
      assert (Hstep : forall p2, valid_part 2 g p2 /\ moved_one rem p1 p2 -> valid_part 2 g p2 /\ balanced_outcome h p2).
      { intros p2 [HV2 HB]. split; [done|]. destruct HB as [[-> HB]|[HB (v & Hv & Hw2)]].
        - left. split; [done|]. right. destruct HB as [->|HB]; [left|right].
          + rewrite <- (fmap_length fst h), <- (seq_length n 0). apply Permutation_length. apply NoDup_Permutation.
            * apply HG1. * apply NoDup_ListNoDup, seq_NoDup.
            * intros v. rewrite elem_of_seq. split.
              -- intros (x & -> & Hx)%elem_of_list_fmap. apply (gd_range _ _ _ _ HG1) in Hx. lia.
              -- intros Hv. destruct (decide (v ∈ fst <$> h)) as [|Hn]; [done|]. exfalso. apply (not_elem_of_nil v). apply Hmem. split; [lia|done].
          + rewrite <- Hbb. congruence.
        - right. split; [rewrite <- ES; exact Hov|]. split; [by apply Hbb|]. apply Hmem in Hv as [Hvn Hnot]. exists v. split; [done|]. split; [done|]. by rewrite Hw2, HW1. }
      destruct (g_uvw g) eqn:Hu.
      + destruct (wf_vw_len g Hwf) as [Hnil|Hlen].
        * destruct rem as [|v rem].
          { assert (HO : moved_one [] p1 p1) by (left; split; [done|by left]). unfold bfs_weight_balance. apply wpm_liftk.
            assert (Hz : q_size (q_new n) = 0). { apply q_size_zero. intros v k Hv. apply lookup_replicate in Hv as [? _]. done. }
            destruct n as [|n'] eqn:En; cbn [bfs_weight_balance_loop]; rewrite Hz; simpl; apply wpm_ret; rewrite <- En in *; by apply Hstep. }
          unfold bfs_weight_balance. simpl. unfold vwt, rd_weight. rewrite Hnil. intros cs. done.
        * eapply wpm_post; [apply (wb_moved anyf p1 rem Hlen)|apply Hstep]; [|done| |done].
          -- intros v Hv. by apply (wf_uvw_t g Hwf Hu).
          -- rewrite Hrem. apply NoDup_filter, NoDup_seq.
      + apply wpm_lift. eapply wpo_post; [apply (unit_moved anyf p1 rem HV1 HF)|apply Hstep].
    - intros p2 [HV2 HB]. apply wpm_lift.
      eapply wpo_post; [apply (recalc_cut_all _ 2 g p2 Hwf HV2)|]. intros p3 (HV3 & Hw3 & Hp3 & HX3). exists h. split; [done|]. split; [done|].
      unfold balanced_outcome. rewrite Hw3. exact HB.
  Qed.
End Balance.
Theorem C66_balancing_rule : forall g t s p s', wf_graph g -> light g -> (total_edge_weight g < H32 - 1)%Z -> two_way t -> (0 <= max_of t 1)%Z ->
  bfs_execute t g s = Ok (p, s') ->
  exists seed h, seed < nv g /\ greedy g t seed h /\
    ((target_of t 0 <= region_weight g h)%Z \/ length h = nv g) /\
    let right := side_weight g (region_labels (nv g) h) 1 in
    (* counting one vertex more as weight 1, the left side stays relatively lighter than the right side (in doubles) *)
    let would_help := flt (fdiv (f_of_Z (region_weight g h + 1)) (f_of_Z (max_of t 0))) (fdiv (f_of_Z right) (f_of_Z (max_of t 1))) = true in
    (* the region is the result: the right side is within its maximum, or no vertex is left, or it would not help *)
    (p_where p = region_labels (nv g) h /\ ((right <= max_of t 1)%Z \/ length h = nv g \/ ~ would_help) \/
    (* otherwise one vertex not considered so far is added *)
     (max_of t 1 < right)%Z /\ would_help /\
     exists v, v < nv g /\ v ∉ (fst <$> h) /\ p_where p = <[v := Some 0]> (region_labels (nv g) h)).
Proof.
  intros g t s p s' Hwf Hli Hew Ht Hm1 E. unfold bfs_execute in E. apply mbind_inv in E as (seed & s1 & E1 & E2).
  assert (Hs : seed < nv g).
  { destruct (Nat.eq_dec (nv g) 0) as [E0|E0]; [rewrite E0 in E1; by destruct s|].
    pose proof (wpm_choose_below (nv g) anyf (fun v => v < nv g) ltac:(lia) ltac:(done) s) as H0. rewrite E1 in H0. exact H0. }
  pose proof (bfs_from_balanced g Hwf Hli Hew t Ht seed Hs Hm1 s1) as H0. rewrite E2 in H0. destruct H0 as (h & A & B & C). exists seed, h. done.
Qed.
Print Assumptions C66_balancing_rule.
Example C66_balancing_nonvacuous : wf_graph ex34b /\ light ex34b /\ (total_edge_weight ex34b < H32 - 1)%Z /\ two_way ex34b_t /\ (0 <= max_of ex34b_t 1)%Z /\
  exists p s', bfs_execute ex34b_t ex34b [0; 0; 0; 0; 0] = Ok (p, s') /\ p_pw p = [2; 3]%Z.
Proof.
  destruct C34_moving_case as (A & B & C & D & F). split; [exact A|]. split; [exact B|]. split; [vm_compute; reflexivity|]. split; [exact C|]. split; [vm_compute; discriminate|]. exact F.
Qed.
