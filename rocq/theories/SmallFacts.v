(** * SmallFacts: graphs of at most twenty unit-weight vertices are divided evenly (C57). *)
From Coq Require Import ZArith.
From Verif Require Import Base F64 ModelGraph ModelPartition ModelConn ModelFM ModelAgg ModelMultilevel ModelBisect ModelRecursive ModelApi Spec Logic Sums
  GraphFacts PartFacts MiscFacts BisectFacts MultilevelFacts SubFacts RecFacts TargetFacts PropsTarget LabelFacts ApiFacts TreeFacts PropsBisect BalanceFacts.

(** ** The comparison of imbalances, checked on all pairs of weights *)
Definition dummy (T : Z) : graph := mkGraph [] [] [] [] T 0 false false.
Definition imb (T : Z) (t : target) (x y : Z) : outcome f64 := calc_max_imbalance (dummy T) t (mkPart 0 [x; y] []).
Definition fitb (t : target) (x y : Z) : bool := ((x <=? max_of t 0) && (y <=? max_of t 1))%Z.
Definition mono (a b : nat) : bool :=
  let t := target_of_weights [Z.of_nat a; Z.of_nat b] [Z.of_nat a; Z.of_nat b] in
  let T := Z.of_nat (a + b) in
  forallb (fun x => if fitb t (Z.of_nat x) (T - Z.of_nat x) then forallb (fun y =>
    match imb T t (Z.of_nat y) (T - Z.of_nat y), imb T t (Z.of_nat x) (T - Z.of_nat x) with
    | Ok b', Ok b => implb (fle b' b) (fitb t (Z.of_nat y) (T - Z.of_nat y))
    | _, _ => true end) (seq 0 (S (a + b))) else true) (seq 0 (S (a + b))).
Lemma mono_all : forallb (fun n => forallb (fun a => mono a (n - a)) (seq 0 (S n))) (seq 0 21) = true.
Proof. vm_compute. reflexivity. Qed.
Lemma mono_small a b : a + b <= 20 -> mono a b = true.
Proof.
  intros H. pose proof mono_all as HA. rewrite forallb_forall in HA. specialize (HA (a + b) ltac:(apply in_seq; lia)). rewrite forallb_forall in HA.
  specialize (HA a ltac:(apply in_seq; lia)). replace (a + b - a) with b in HA by lia. exact HA.
Qed.
Lemma two_pw g p : wf_graph g -> light g -> exact_part 2 g p -> exists x : nat, Z.of_nat x = (pw p 0)%Z /\ p_pw p = [Z.of_nat x; (sumn (nv g) (vweight g) - Z.of_nat x)%Z] /\
  (Z.of_nat x <= sumn (nv g) (vweight g))%Z.
Proof.
  intros Hwf Hl [HV _]. destruct (valid_pw g p 0 HV ltac:(lia)) as [_ E0]. destruct (valid_pw g p 1 HV ltac:(lia)) as [_ E1].
  rewrite (light_u32 g _ _ Hwf Hl) in E0. rewrite (light_u32 g _ _ Hwf Hl) in E1.
  pose proof (label_weight_bounds g (lab p) (Some 0) Hwf) as HB. pose proof (two_sum g p HV) as HS.
  change (label_weight g (lab p) (Some 0%nat) + label_weight g (lab p) (Some 1%nat) = sumn (nv g) (vweight g))%Z in HS.
  exists (Z.to_nat (pw p 0)). rewrite Z2Nat.id by lia. split; [done|]. split; [|lia].
  destruct HV as [_ [HL _]]. unfold pw in *. destruct (p_pw p) as [|x [|y [|]]]; try done. cbn [nth] in *. f_equal. f_equal. lia.
Qed.
Lemma small_monotone g a b : wf_graph g -> sumn (nv g) (vweight g) = Z.of_nat (a + b) -> a + b <= 20 ->
  limits_monotone g (target_of_weights [Z.of_nat a; Z.of_nat b] [Z.of_nat a; Z.of_nat b]).
Proof.
  intros Hwf HT Hab p p' r r' HX HX' Hr Hr' HB Hle. set (t := target_of_weights _ _) in *.
  assert (Hl : light g) by (unfold light; rewrite HT; unfold W32; lia).
  destruct (two_pw g p Hwf Hl HX) as (x & _ & Ex & Hx). destruct (two_pw g p' Hwf Hl HX') as (y & _ & Ey & Hy). rewrite HT in *.
  assert (Htv : g_tvw g = Z.of_nat (a + b)) by (rewrite (wf_tvw g Hwf), HT; apply u32_small; unfold W32; lia).
  assert (HI : forall q z, p_pw q = [Z.of_nat z; (Z.of_nat (a + b) - Z.of_nat z)%Z] -> calc_max_imbalance g t q = imb (Z.of_nat (a + b)) t (Z.of_nat z) (Z.of_nat (a + b) - Z.of_nat z)).
  { intros q z Ez. unfold imb. apply QualityFacts.imbalance_ext; [by rewrite Htv|by rewrite Ez]. }
  rewrite (HI p x Ex) in Hr. rewrite (HI p' y Ey) in Hr'.
  assert (HF : forall q z, p_pw q = [Z.of_nat z; (Z.of_nat (a + b) - Z.of_nat z)%Z] -> balanced t q <-> fitb t (Z.of_nat z) (Z.of_nat (a + b) - Z.of_nat z) = true).
  { intros q z Ez. unfold balanced, fitb. rewrite Ez. cbn [length]. rewrite andb_true_iff, !Z.leb_le. split.
    - intros H. split; [apply (H 0); lia|apply (H 1); lia].
    - intros [H0 H1] [|[|i]] Hi; [exact H0|exact H1|lia]. }
  apply (HF p' y Ey). apply (HF p x Ex) in HB.
  pose proof (mono_small a b Hab) as HM. unfold mono in HM. fold t in HM. rewrite forallb_forall in HM. specialize (HM x ltac:(apply in_seq; lia)).
  rewrite HB in HM. rewrite forallb_forall in HM. specialize (HM y ltac:(apply in_seq; lia)). rewrite Hr, Hr', Hle in HM. exact HM.
Qed.

(** ** One bisection *)
Record small_inv (c : nat) (t : target) (g : graph) : Prop := {
  sm_ud : undirected g;
  sm_ne : (Z.of_nat (ne g) < W32)%Z;
  sm_unit : forall v, v < nv g -> vweight g v = 1%Z;
  sm_nv : nv g = t_np t * c;
  sm_c : 1 <= c;
  sm_20 : nv g <= 20;
  sm_wgt : t_wgt t = replicate (t_np t) (Z.of_nat c);
  sm_max : t_max t = replicate (t_np t) (Z.of_nat c)
}.
Lemma total_replicate n (c : nat) : total (replicate n (Z.of_nat c)) = Z.of_nat (n * c).
Proof. unfold total. induction n as [|n IH]; cbn [replicate foldr]; [done|]. rewrite IH. lia. Qed.
Lemma unit_sum g : (forall v, v < nv g -> vweight g v = 1%Z) -> sumn (nv g) (vweight g) = Z.of_nat (nv g).
Proof. intros H. rewrite (sumn_ext _ _ (fun _ => 1%Z)) by (intros v Hv; by apply H). rewrite sumf_const, seq_length. lia. Qed.
Lemma unit_count g (f : nat -> option nat) i : (forall v, v < nv g -> vweight g v = 1%Z) ->
  label_weight g f (Some i) = Z.of_nat (length (members (nv g) f i)).
Proof.
  intros H. unfold label_weight, members. transitivity (sumf (fun _ => 1%Z) (filter (fun v => f v = Some i) (seq 0 (nv g)))).
  - rewrite sumf_filter. apply sumf_ext. intros v Hv%elem_of_seq. case_decide; [apply H; lia|done].
  - rewrite sumf_const. lia.
Qed.
Section Small.
  Context (lg : nat -> f64) (Hlg : log2_spec lg) (scheme : Z) (bis : bisector) (Hb : api_bisector scheme = Ok bis) (c : nat).
  Lemma small_target t g : small_inv c t g -> 2 <= t_np t ->
    let a := t_np t / 2 * c in let b := (t_np t - t_np t / 2) * c in
    bisect_target t (tolerance_factor lg (t_np t)) = Ok (target_of_weights [Z.of_nat a; Z.of_nat b] [Z.of_nat a; Z.of_nat b]).
  Proof.
    intros [Hud Hne Hu Hn Hc H20 Hw Hm] Hk a b. pose proof (half_le (t_np t)) as Hh. set (k := t_np t) in *. set (h := k / 2) in *.
    assert (Hkc : k * c <= 20) by lia.
    assert (HS : targets_within_limits t).
    { split; [by rewrite Hw, Hm|]. intros i w m H1 H2. rewrite Hw in H1. rewrite Hm in H2. apply lookup_replicate in H1 as [-> _]. apply lookup_replicate in H2 as [-> _].
      assert (c <= 20) by nia. change (2 ^ 32)%Z with W32. unfold W32. lia. }
    assert (Ha : a + b <= 20) by (unfold a, b; nia).
    assert (E1 : total (take h (t_max t)) = Z.of_nat a) by (rewrite Hm, take_replicate, total_replicate; unfold a; f_equal; f_equal; lia).
    assert (E2 : total (drop h (t_max t)) = Z.of_nat b) by (rewrite Hm, drop_replicate, total_replicate; done).
    assert (E3 : total (take h (t_wgt t)) = Z.of_nat a) by (rewrite Hw, take_replicate, total_replicate; unfold a; f_equal; f_equal; lia).
    assert (E4 : total (drop h (t_wgt t)) = Z.of_nat b) by (rewrite Hw, drop_replicate, total_replicate; done).
    pose proof (bisect_target_wp t _ HS (factor_unit lg _ Hlg Hk)) as H. fold k in H. 
    destruct HS as [HL _]. rewrite !(low_total k), !(high_total k) in H by (unfold k, t_np; lia). fold h in H. rewrite E1, E2, E3, E4 in H.
    destruct (bisect_target t (tolerance_factor lg k)) as [bt|f]; cbn [wpo] in H.
    - destruct H as (ma & mb & -> & H1 & H2 & _). replace ma with (Z.of_nat a) by lia. replace mb with (Z.of_nat b) by lia. done.
    - exfalso. destruct H as [_ H]. apply H. unfold W32. lia.
  Qed.
  Lemma small_bisection E g a b : undirected g -> (Z.of_nat (ne g) < W32)%Z -> (forall v, v < nv g -> vweight g v = 1%Z) -> nv g = a + b -> a + b <= 20 -> 1 <= a -> 1 <= b ->
    wpm (bis (target_of_weights [Z.of_nat a; Z.of_nat b] [Z.of_nat a; Z.of_nat b]) g) E
      (fun p => two_labels g p /\ length (members (nv g) (lab p) 0) = a /\ length (members (nv g) (lab p) 1) = b).
  Proof.
    intros Hud Hne Hu Hn H20 Ha Hbb. set (t := target_of_weights _ _).
    assert (Hsum : sumn (nv g) (vweight g) = Z.of_nat (a + b)) by (rewrite unit_sum by done; by rewrite Hn).
    assert (Hl : light g) by (unfold light; rewrite Hsum; unfold W32; lia).
    unfold api_bisector in Hb. destruct (aggregator_make scheme) as [agg|] eqn:Ea; [|done]. cbn in Hb. injection Hb as <-.
    eapply wpm_post; [apply (library_balanced g Hud Hne ltac:(unfold W32; lia) ltac:(lia) ltac:(rewrite Hsum; unfold NULL_WGT; lia) t) with (scheme := scheme)|].
    - intros g1 cm HL. pose proof (level_inv _ _ _ Hud HL) as HLo. apply small_monotone; [apply HLo| |done]. rewrite (lo_vsum _ _ _ HLo Hl). done.
    - split; done.
    - unfold max_of, t. cbn [t_max target_of_weights nth]. unfold W32. lia.
    - unfold max_of, t. cbn [t_max target_of_weights nth]. lia.
    - unfold target_of, t. cbn [t_wgt target_of_weights nth]. lia.
    - intros v Hv. rewrite Hu by done. unfold max_of, target_of, t. cbn [t_max t_wgt target_of_weights nth]. lia.
    - rewrite Hsum. unfold max_of, target_of, t. cbn [t_max t_wgt target_of_weights nth]. lia.
    - left. lia.
    - done.
    - lia.
    - intros p [HX [F0 F1]]. destruct (two_pw g p (ud_wf _ Hud) Hl HX) as (x & _ & Ex & Hx). rewrite Hsum in *.
      unfold max_of, t in F0, F1. cbn [t_max target_of_weights nth] in F0, F1. rewrite Ex in F0, F1. cbn [nth] in F0, F1.
      assert (x = a) as -> by lia.
      pose proof HX as [[Hlab [HpL HpW]] _]. split; [split; [done|done]|].
      pose proof (HpW 0 ltac:(lia)) as W0. pose proof (HpW 1 ltac:(lia)) as W1. rewrite Ex in W0, W1.
      rewrite (light_u32 g _ _ (ud_wf _ Hud) Hl), unit_count in W0 by done. rewrite (light_u32 g _ _ (ud_wf _ Hud) Hl), unit_count in W1 by done.
      cbn in W0, W1. injection W0 as W0. injection W1 as W1. lia.
  Qed.

  (** Both sides of a bisection made for a target: sizes, and the invariant of the subgraphs. *)
  Lemma small_made t g bt p s s' : small_inv c t g -> 2 <= t_np t -> bisect_target t (tolerance_factor lg (t_np t)) = Ok bt -> bis bt g s = Ok (p, s') ->
    two_labels g p /\ length (members (nv g) (lab p) 0) = t_np t / 2 * c /\ length (members (nv g) (lab p) 1) = (t_np t - t_np t / 2) * c.
  Proof.
    intros HI Hk Ebt Ep. rewrite (small_target t g HI Hk) in Ebt. injection Ebt as <-. destruct HI as [Hud Hne Hu Hn Hc H20 Hw Hm].
    pose proof (half_le (t_np t)) as Hh. pose proof (Nat.div_mod (t_np t) 2 ltac:(lia)) as HD. pose proof (Nat.mod_upper_bound (t_np t) 2 ltac:(lia)) as HD2.
    assert (HW := small_bisection anyf g (t_np t / 2 * c) ((t_np t - t_np t / 2) * c) Hud Hne Hu ltac:(nia) ltac:(nia) ltac:(nia) ltac:(nia)).
    exact (wpm_elim _ _ _ _ _ _ HW Ep).
  Qed.
  Lemma small_sub t g p i sg off cnt t' : small_inv c t g -> induced g (lab p) i sg -> off + cnt <= t_np t -> 1 <= cnt ->
    length (members (nv g) (lab p) i) = cnt * c -> sub_target t off cnt = Ok t' -> small_inv c t' sg.
  Proof.
    intros [Hud Hne Hu Hn Hc H20 Hw Hm] Hin Hoc Hcnt HL Et. pose proof Hud as [Hwf Hs Hl Hf].
    pose proof (sub_target_len _ _ _ _ Et) as Hnp. unfold sub_target in Et. destruct (_ || _); [done|]. injection Et as <-.
    constructor.
    - split; [by eapply in_wf|by eapply induced_symmetric|by eapply induced_loopless|by eapply induced_fits].
    - pose proof (induced_ne g Hwf _ _ _ Hin). lia.
    - intros j Hj. assert (Hj' : j < length (members (nv g) (lab p) i)) by (rewrite <- (in_nv _ _ _ _ Hin); done).
      destruct (lookup_lt_is_Some_2 _ _ Hj') as [v Hv]. rewrite (in_vw _ _ _ _ Hin j v Hv). apply Hu. apply members_inv in Hv. tauto.
    - rewrite Hnp, (in_nv _ _ _ _ Hin). done.
    - done.
    - pose proof (induced_nv g _ _ _ Hin). lia.
    - rewrite Hnp. cbn [t_wgt target_of_weights]. rewrite Hw, drop_replicate, take_replicate. f_equal. lia.
    - rewrite Hnp. cbn [t_max target_of_weights]. rewrite Hm, drop_replicate, take_replicate. f_equal. lia.
  Qed.
  Lemma small_handed : handed_down lg bis never (small_inv c).
  Proof.
    split.
    - intros t g HI Hk. rewrite (small_target t g HI Hk). cbn [wpo]. destruct HI as [Hud Hne Hu Hn Hc H20 Hw Hm].
      pose proof (half_le (t_np t)) as Hh. pose proof (Nat.div_mod (t_np t) 2 ltac:(lia)) as HD. pose proof (Nat.mod_upper_bound (t_np t) 2 ltac:(lia)) as HD2.
      eapply wpm_post; [apply (small_bisection never g (t_np t / 2 * c) ((t_np t - t_np t / 2) * c)); try done; nia|]. intros p H. apply H.
    - intros t g p i sg HI Hk Hp Hi Hin Hc (bt & cs & cs' & Ebt & Ep). destruct (small_made t g bt p cs cs' HI ltac:(lia) Ebt Ep) as (_ & M0 & M1).
      pose proof (half_le (t_np t)) as Hh. pose proof (half_bounds (t_np t) Hk) as HB.
      destruct (sub_target t _ _) as [t'|f] eqn:Et; cbn [wpo].
      + destruct i as [|[|i]]; [| |lia].
        * apply (small_sub t g p 0 sg 0 (t_np t / 2)); try done; lia.
        * apply (small_sub t g p 1 sg (t_np t / 2) (t_np t - t_np t / 2)); try done; lia.
      + unfold sub_target in Et. destruct (_ || _) eqn:Eo; [|done]. exfalso. destruct HI as [_ _ _ _ _ _ Hw Hm].
        rewrite Hw, Hm, !replicate_length in Eo. apply orb_true_iff in Eo as [Eo|Eo]; apply Nat.ltb_lt in Eo; destruct i; lia.
  Qed.

  (** ** The parts of the whole tree *)
  Definition in_part (n : nat) (l : nat -> nat) (i : nat) : Z := sumn n (fun v => if decide (l v = i) then 1 else 0)%Z.
  Lemma side_count g p i sg l (l1 : nat -> nat) off (j : nat) : induced g (lab p) i sg ->
    (forall x v, members (nv g) (lab p) i !! x = Some v -> l v = off + l1 x) ->
    sumn (nv g) (fun v => if decide (lab p v = Some i) then (if decide (l v = (off + j)%nat) then 1 else 0) else 0)%Z = in_part (nv sg) l1 j.
  Proof.
    intros Hin Hl. unfold in_part. symmetry. apply (sum_members g (lab p) i sg Hin (fun v => if decide (l v = (off + j)%nat) then 1 else 0)%Z).
    intros x v Hx. rewrite (Hl x v Hx). repeat case_decide; lia.
  Qed.
  Lemma small_tree t g l ps s s' : tree lg bis t g l ps s s' -> small_inv c t g -> forall i, i < t_np t -> in_part (nv g) l i = Z.of_nat c.
  Proof.
    induction 1 as [t g bt p l s s' Hk H1 H2 H3 H4 | t g bt p t1 g1 l l1 ps s s1 s2 Hk H1 H2 H3 H4 H5 HT IH H6 H7
                  | t g bt p t0 t1 g0 g1 l l0 l1 ps0 ps1 s s1 s2 s3 Hk H1 H2 H3 H4 H5 HT IH H6 H7 HT1 IH1 H8 H9]; intros HI i Hi.
    - destruct (small_made t g bt p _ _ HI ltac:(lia) H1 H2) as (_ & M0 & M1). rewrite Hk in *. change (2 / 2) with 1 in *.
      assert (E : in_part (nv g) l i = Z.of_nat (length (members (nv g) (lab p) i))).
      { unfold in_part, members. rewrite <- (Z.mul_1_l (Z.of_nat _)), <- sumf_const, sumf_filter. apply sumf_ext. intros v Hv%elem_of_seq.
        rewrite H4 by lia. repeat case_decide; congruence. }
      rewrite E. destruct i as [|[|i]]; lia.
    - destruct (small_made t g bt p _ _ HI ltac:(lia) H1 H2) as (_ & M0 & M1). rewrite Hk in *. change (3 / 2) with 1 in *.
      assert (HI1 : small_inv c t1 g1) by (eapply (small_sub t g p 1 g1 1 2); try done; lia).
      specialize (IH HI1). rewrite (sub_target_len _ _ _ _ H5) in IH. destruct i as [|i].
      + assert (E : in_part (nv g) l 0 = Z.of_nat (length (members (nv g) (lab p) 0))); [|rewrite E; lia].
        unfold in_part, members. rewrite <- (Z.mul_1_l (Z.of_nat _)), <- sumf_const, sumf_filter. apply sumf_ext. intros v Hv%elem_of_seq.
        destruct (two_sides g p v H3 ltac:(lia)) as [E|E].
        * rewrite (H6 v ltac:(lia) E), E. done.
        * rewrite (H7 _ _ (members_rank (nv g) (lab p) 1 v ltac:(lia) E)), E. repeat case_decide; done.
      + rewrite <- (IH i) by lia. rewrite <- (side_count g p 1 g1 l l1 1 i H4 H7). unfold in_part. apply sumf_ext. intros v Hv%elem_of_seq.
        destruct (two_sides g p v H3 ltac:(lia)) as [E|E]; rewrite E; [|done]. rewrite (H6 v ltac:(lia) E). done.
    - destruct (small_made t g bt p _ _ HI ltac:(lia) H1 H2) as (_ & M0 & M1). pose proof (half_bounds' _ Hk) as HB.
      assert (HI0 : small_inv c t0 g0) by (eapply (small_sub t g p 0 g0 0 (t_np t / 2)); try done; lia).
      assert (HI1 : small_inv c t1 g1) by (eapply (small_sub t g p 1 g1 (t_np t / 2) (t_np t - t_np t / 2)); try done; lia).
      specialize (IH HI0). specialize (IH1 HI1). rewrite (sub_target_len _ _ _ _ H5) in IH. rewrite (sub_target_len _ _ _ _ H7) in IH1.
      assert (L0 : forall v, v < nv g -> lab p v = Some 0 -> l v < t_np t / 2).
      { intros v Hv E. rewrite (H8 _ _ (members_rank (nv g) (lab p) 0 v Hv E)).
        pose proof (tree_bound _ _ _ _ _ _ _ _ HT (rank (lab p) v)) as B. rewrite (in_nv _ _ _ _ H4), (sub_target_len _ _ _ _ H5) in B. apply B. by apply rank_lt. }
      assert (L1 : forall v, v < nv g -> lab p v = Some 1 -> t_np t / 2 <= l v).
      { intros v Hv E. rewrite (H9 _ _ (members_rank (nv g) (lab p) 1 v Hv E)). lia. }
      destruct (decide (i < t_np t / 2)) as [Hlt|Hge].
      + rewrite <- (IH i) by lia. rewrite <- (side_count g p 0 g0 l l0 0 i H4 H8). unfold in_part. apply sumf_ext. intros v Hv%elem_of_seq.
        destruct (two_sides g p v H3 ltac:(lia)) as [E|E]; rewrite E.
        * rewrite (decide_True (P := Some 0 = Some 0)) by done. done.
        * pose proof (L1 v ltac:(lia) E). rewrite (decide_False (P := Some 1 = Some 0)) by done. rewrite decide_False by lia. done.
      + rewrite <- (IH1 (i - t_np t / 2)) by lia. rewrite <- (side_count g p 1 g1 l l1 (t_np t / 2) (i - t_np t / 2) H6 H9). unfold in_part. apply sumf_ext. intros v Hv%elem_of_seq.
        replace (t_np t / 2 + (i - t_np t / 2)) with i by lia.
        destruct (two_sides g p v H3 ltac:(lia)) as [E|E]; rewrite E.
        * pose proof (L0 v ltac:(lia) E). rewrite decide_False by lia. rewrite decide_False by done. done.
        * rewrite (decide_True (P := Some 1 = Some 1)) by done. done.
  Qed.
End Small.

(** ** The targets of the call *)
Lemma small_targets_all : forallb (fun n => forallb (fun k => if Nat.eqb (n mod k) 0 then
    match target_of_fractions (Z.of_nat n) default_tolerance (default_fractions k) with
    | Ok t => bool_decide (t_wgt t = replicate k (Z.of_nat (n / k))) && bool_decide (t_max t = replicate k (Z.of_nat (n / k)))
    | Fail _ => false end else true) (seq 2 19)) (seq 1 20) = true.
Proof. vm_compute. reflexivity. Qed.
Lemma small_target_of n k t : 1 <= n <= 20 -> 2 <= k <= 20 -> n mod k = 0 -> target_of_fractions (Z.of_nat n) default_tolerance (default_fractions k) = Ok t ->
  t_wgt t = replicate k (Z.of_nat (n / k)) /\ t_max t = replicate k (Z.of_nat (n / k)).
Proof.
  intros Hn Hk Hm E. pose proof small_targets_all as H. rewrite forallb_forall in H. specialize (H n ltac:(apply in_seq; lia)).
  rewrite forallb_forall in H. specialize (H k ltac:(apply in_seq; lia)). rewrite Hm in H. cbn [Nat.eqb] in H. rewrite E in H.
  apply andb_true_iff in H as [H1 H2]. by apply bool_decide_eq_true in H1, H2.
Qed.
