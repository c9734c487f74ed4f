(** * RandomFacts: what the swap step of random bisection does (moderate weights). *)
From Verif Require Import Base F64 ModelGraph ModelPartition ModelBisect Spec Logic Sums GraphFacts PartFacts MiscFacts BisectFacts.
From Coq Require Import Psatz.

Lemma lower_bound_at l x v w : l !! lower_bound l x = Some (v, w) -> (x <= w)%Z.
Proof.
  induction l as [|y l IH]; simpl; [done|]. destruct (Z.ltb_spec (snd y) x); simpl; [done|]. intros [= ->]. done.
Qed.
Lemma lower_bound_before l x i v w : i < lower_bound l x -> l !! i = Some (v, w) -> (w < x)%Z.
Proof.
  revert i. induction l as [|y l IH]; intros i; simpl; [lia|]. destruct (Z.ltb_spec (snd y) x); [|lia].
  destruct i as [|i]; simpl; [intros _ [= ->]; done|]. intros Hi. apply IH. lia.
Qed.

Section Two.
  Context (g : graph) (Hwf : wf_graph g) (t : target) (Ht : two_way t).
  Local Notation n := (nv g).
  Local Notation max0 := (nth 0 (t_max t) 0%Z).
  Local Notation max1 := (nth 1 (t_max t) 0%Z).
  Context (Hs : (sumn n (vweight g) < 2 ^ 30)%Z) (Hm0 : (0 <= max0 < 2 ^ 30)%Z) (Hm1 : (0 <= max1 < 2 ^ 30)%Z).
  Local Notation lw p i := (label_weight g (lab p) (Some i%nat)).

  (** The labelling is unchanged, or one right vertex and one left vertex changed sides. *)
  Definition swapped (p p2 : part) : Prop :=
    exists r l, p_where p !! r = Some (Some 1) /\ p_where p !! l = Some (Some 0) /\
      p_where p2 = <[l := Some 1]> (<[r := Some 0]> (p_where p)) /\
      (lw p 0 + vweight g r - vweight g l <= max0)%Z /\ (max0 - lw p 0 <= vweight g r)%Z /\
      ((lw p 1 - max1 <= vweight g r)%Z -> (lw p 1 - vweight g r + vweight g l < max1)%Z).

  Lemma swap_exact E p : 0 < n -> valid_part 2 g p -> (lw p 0 <= max0)%Z -> (max1 < lw p 1)%Z ->
    wpm (swap_balance_right g t p) E (fun p2 => valid_part 2 g p2 /\ (p_where p2 = p_where p \/ swapped p p2)).
  Proof.
    assert (Hli : light g) by (unfold light, W32; change (2^30)%Z with 1073741824%Z in *; lia).
    intros Hn HV Hle0 Hov. unfold swap_balance_right. eapply wpm_bind; [apply wpm_lift; by apply (fill_pairs_wp g Hwf t Ht)|].
    intros [l r] [HC HP]. cbn [fst snd] in *. eapply wpm_bind; [apply wpm_choose_perm|]. intros ls Hls.
    eapply wpm_bind; [apply wpm_choose_perm|]. intros rs Hrs.
    cbn beta in Hls, Hrs. rewrite <- (sort_w_perm ls) in Hls. rewrite <- (sort_w_perm rs) in Hrs. set (L := sort_w ls) in *. set (R := sort_w rs) in *.
    rewrite !tmax_rd by (done || lia). do 2 apply wpm_liftk.
    destruct (valid_pw g p 0 HV ltac:(lia)) as [-> E0]. destruct (valid_pw g p 1 HV ltac:(lia)) as [-> E1]. do 2 apply wpm_liftk.
    rewrite (light_u32 g _ _ Hwf Hli) in E0. rewrite (light_u32 g _ _ Hwf Hli) in E1.
    assert (HR : R <> []).
    { intros HR. enough (lw p 1 = 0%Z) by lia. apply sumf_zero. intros v Hv%elem_of_seq. rewrite decide_False; [done|].
      specialize (HC v ltac:(lia)). rewrite <- Hls, <- Hrs, HR, app_nil_r in HC. apply elem_of_list_fmap in HC as ([v' w] & -> & Hin). cbn [fst].
      rewrite Hls in Hin. destruct (HP v' w) as (H0 & _). specialize (H0 Hin). unfold lab. erewrite nth_lookup_Some by exact H0. done. }
    rewrite last_app. destruct (last R) as [[rv rw]|] eqn:El.
    2: { apply last_None in El. done. }
    apply last_Some_elem_of in El.
    assert (p_where p !! rv = Some (Some 1) /\ rv < n /\ rw = vweight g rv) as (Hrv & Hrvn & ->).
    { rewrite Hrs in El. destruct (HP rv rw) as (_ & H1 & H2). split; [by apply H1|]. apply H2. apply elem_of_app. by right. }
    pose proof (label_weight_bounds g (lab p) (Some 0) Hwf) as B0. pose proof (label_weight_bounds g (lab p) (Some 1) Hwf) as B1.
    pose proof (wf_vw_range g Hwf rv) as Bv.
    assert (vweight g rv <= sumn n (vweight g))%Z by (apply sumn_elem_le; [intros u _; pose proof (wf_vw_range g Hwf u); lia|done]).
    rewrite E0, E1. rewrite !i32_of_diff by lia. replace (i32_of_u32 (vweight g rv)) with (vweight g rv).
    2: { unfold i32_of_u32, H32. change (2 ^ 30)%Z with 1073741824%Z in *. destruct (Z.ltb_spec (vweight g rv) 2147483648); lia. }
    rewrite !i32_small by (change (2 ^ 30)%Z with 1073741824%Z in *; change (2 ^ 31)%Z with 2147483648%Z; lia). do 2 apply wpm_liftk.
    set (minO := (vweight g rv - (max0 - lw p 0))%Z). set (maxO := (vweight g rv - (lw p 1 - max1))%Z).
    destruct (Nat.ltb_spec (lower_bound L (u32 minO)) (lower_bound L (u32 maxO))) as [Hlt|_]; [|apply wpm_ret; split; [done|by left]].
    pose proof (lower_bound_le L (u32 maxO)) as Hle.
    destruct (lookup_lt_is_Some_2 L (lower_bound L (u32 minO)) ltac:(lia)) as [[lv w] Hlv].
    pose proof (lower_bound_at _ _ _ _ Hlv) as W1. pose proof (lower_bound_before _ _ _ _ _ Hlt Hlv) as W2.
    assert (p_where p !! lv = Some (Some 0) /\ lv < n /\ w = vweight g lv) as (Hl0 & Hlvn & ->).
    { apply elem_of_list_lookup_2 in Hlv. rewrite Hls in Hlv. destruct (HP lv w) as (H0 & _ & H2). split; [by apply H0|]. apply H2. apply elem_of_app. by left. }
    assert (vweight g lv <= sumn n (vweight g))%Z by (apply sumn_elem_le; [intros u _; pose proof (wf_vw_range g Hwf u); lia|done]).
    pose proof (wf_vw_range g Hwf lv) as Bl.
    eapply wpm_bind; [apply wpm_lift; apply (move_valid g Hwf _ p rv 1 0 HV Hrv); lia|]. intros p1 [HV1 Hw1].
    rewrite (rd_ok _ _ _ Hlv). apply wpm_liftk. cbn [fst].
    assert (Hpl : p_where p1 !! lv = Some (Some 0)).
    { rewrite Hw1, list_lookup_insert_ne; [done|]. intros ->. congruence. }
    apply wpm_lift. eapply wpo_post; [apply (move_valid g Hwf _ p1 lv 0 1 HV1 Hpl); lia|]. intros p2 [HV2 Hw2]. split; [done|]. right.
    exists rv, lv. split; [done|]. split; [done|]. split; [by rewrite Hw2, Hw1|].
    assert (Hge : (0 <= minO)%Z).
    { destruct (decide (0 <= minO)%Z); [done|exfalso]. unfold u32, W32 in W1. change (2 ^ 30)%Z with 1073741824%Z in *.
      rewrite <- (Z.mod_add minO 1), Z.mod_small in W1 by lia. lia. }
    rewrite u32_small in W1 by (unfold W32; change (2 ^ 30)%Z with 1073741824%Z in *; lia). split; [lia|]. split; [lia|]. intros Hge2.
    rewrite u32_small in W2 by (unfold W32; change (2 ^ 30)%Z with 1073741824%Z in *; lia). lia.
  Qed.

  Lemma swapped_weights p p2 r l : valid_part 2 g p -> p_where p !! r = Some (Some 1) -> p_where p !! l = Some (Some 0) ->
    p_where p2 = <[l := Some 1]> (<[r := Some 0]> (p_where p)) ->
    lw p2 0 = (lw p 0 + vweight g r - vweight g l)%Z /\ lw p2 1 = (lw p 1 - vweight g r + vweight g l)%Z.
  Proof.
    intros HV Hr Hl Hw. assert (HL : length (p_where p) = n) by apply HV.
    assert (Hrn : r < n) by (rewrite <- HL; by eapply lookup_lt_Some). assert (Hln : l < n) by (rewrite <- HL; by eapply lookup_lt_Some).
    assert (Hne : l <> r) by (intros ->; congruence).
    assert (Hlab : forall x, label_weight g (lab p2) x = label_weight g (upd (upd (lab p) r (Some 0)) l (Some 1)) x).
    { intros x. apply label_weight_ext. intros u Hu. rewrite !lab_labw, Hw, labw_insert by (rewrite insert_length, HL; done).
      unfold upd. destruct (decide _); [done|]. rewrite labw_insert by (rewrite HL; done). done. }
    assert (Hlr : lab p r = Some 1) by (rewrite lab_labw; by apply labw_lookup).
    assert (Hll : lab p l = Some 0) by (rewrite lab_labw; by apply labw_lookup).
    assert (Hul : upd (lab p) r (Some 0) l = Some 0) by (unfold upd; rewrite decide_False by done; done).
    rewrite !Hlab, !label_weight_upd, !Hul, !Hlr by done. repeat (case_decide; try congruence). lia.
  Qed.

  Lemma two_sides_total p : valid_part 2 g p -> (lw p 0 + lw p 1 = sumn n (vweight g))%Z.
  Proof.
    intros [HL _]. unfold label_weight. rewrite <- sumf_add. apply sumf_ext. intros v Hv%elem_of_seq.
    destruct (proj2 HL v ltac:(lia)) as (i & Hi & E). rewrite lab_labw, (labw_lookup _ _ _ E).
    destruct i as [|[|]]; [| |lia]; repeat case_decide; try congruence; lia.
  Qed.
  Record random_exact (p : part) : Prop := {
    re_valid : valid_part 2 g p;
    re_exact : symmetric g -> fits g -> exact_part 2 g p;
    re_left : (lw p 0 <= max0)%Z;
    re_fill : exists p1, valid_part 2 g p1 /\ (lw p1 0 <= max0)%Z /\
      (p_where p = p_where p1 \/ (max1 < lw p1 1)%Z /\ swapped p1 p)
  }.
  Lemma random_execute_exact E : 0 < n -> wpm (random_execute t g) E random_exact.
  Proof.
    assert (Hli : light g) by (unfold light, W32; change (2^30)%Z with 1073741824%Z in *; lia).
    intros Hn. unfold random_execute.
    eapply wpm_bind; [apply wpm_lift; apply (assign_all_wp g Hwf 2 _ (part_new 2 g) 1)|].
    { simpl. done. } { simpl. apply replicate_length. } { lia. }
    intros p (_ & Hw & Hlab & Hwx). assert (HV : valid_part 2 g p) by (split; done).
    eapply wpm_bind; [apply random_order_wp; done|]. intros vs Hvs.
    assert (Hvs' : vs ≡ₚ seq 0 n). { rewrite Hvs. unfold vs_iter, range. simpl. rewrite Nat.sub_0_r. done. }
    eapply wpm_bind; [apply wpm_lift; apply (fill_left_wp g Hwf t Ht _ vs p HV)|].
    { rewrite Hvs'. apply NoDup_seq. }
    { apply Forall_forall. intros v Hv. rewrite Hvs' in Hv. apply elem_of_seq in Hv. rewrite Hw. apply lookup_replicate. split; [done|lia]. }
    { intros Hm. destruct (valid_pw g p 0 HV ltac:(lia)) as [_ ->].
      replace (label_weight g (lab p) (Some 0)) with 0%Z; [rewrite u32_0; done|]. symmetry. apply sumf_zero.
      intros v Hv%elem_of_seq. rewrite lab_labw, Hw. unfold labw. rewrite nth_lookup, lookup_replicate_2 by lia. done. }
    intros p1 [HV1 HM1]. specialize (HM1 (proj1 Hm0)). destruct (valid_pw g p1 0 HV1 ltac:(lia)) as [_ E0]. rewrite (light_u32 g _ _ Hwf Hli) in E0. rewrite E0 in HM1.
    destruct (valid_pw g p1 1 HV1 ltac:(lia)) as [-> E1]. apply wpm_liftk. rewrite tmax_rd by (done || lia). apply wpm_liftk.
    rewrite E1, (light_u32 g _ _ Hwf Hli).
    eapply (wpm_bind _ _ _ (fun p2 => valid_part 2 g p2 /\ (p_where p2 = p_where p1 \/ (max1 < lw p1 1)%Z /\ swapped p1 p2))).
    - destruct (Z.ltb_spec max1 (lw p1 1)) as [Ho|Ho].
      + eapply wpm_post; [by apply swap_exact|]. intros p2 (HV2 & [H|H]); split; try done; [by left|by right].
      + apply wpm_ret. split; [done|by left].
    - intros p2 [HV2 HW2]. apply wpm_lift. eapply wpo_post; [apply (recalc_cut_all _ 2 g p2 Hwf HV2)|].
      intros p3 (HV3 & Hw3 & _ & HX3).
      assert (HW3 : p_where p3 = p_where p1 \/ (max1 < lw p1 1)%Z /\ swapped p1 p3).
      { destruct HW2 as [H|[H (r & l & H1 & H2 & H3 & H4)]]; [left; congruence|right]. split; [done|]. exists r, l. rewrite Hw3. done. }
      constructor; try done.
      + destruct HW3 as [H|[H (r & l & H1 & H2 & H3 & H4 & _ & _)]].
        * erewrite label_weight_ext; [exact HM1|]. intros u Hu. unfold lab. by rewrite H.
        * destruct (swapped_weights p1 p3 r l HV1 H1 H2 H3) as [-> _]. done.
      + exists p1. done.
  Qed.
End Two.
