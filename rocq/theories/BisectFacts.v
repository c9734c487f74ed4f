(** * BisectFacts: BFS and random bisection (C33, C34, C47). *)
From Verif Require Import Base F64 ModelGraph ModelPartition ModelConn ModelFM ModelAgg ModelMultilevel ModelBisect Spec Logic Sums
  GraphFacts PartFacts ConnFacts FMFacts MiscFacts.
#[local] Arguments flt : simpl never.
#[local] Arguments fle : simpl never.

(** A target for two parts. *)
Record two_way (t : target) : Prop := {
  tw_wgt : length (t_wgt t) = 2;
  tw_max : length (t_max t) = 2;
  tw_frac : length (t_frac t) = 2
}.
(** All vertices together weigh less than 2^32, so no part weight wraps around. *)
Definition light (g : graph) : Prop := (sumn (nv g) (vweight g) < W32)%Z.

Lemma label_weight_bounds {L} `{EqDecision L} g (f : nat -> L) x : wf_graph g ->
  (0 <= label_weight g f x <= sumn (nv g) (vweight g))%Z.
Proof.
  intros Hwf. unfold label_weight. split.
  - apply sumf_nonneg. intros v _. pose proof (wf_vw_range g Hwf v). destruct (decide _); lia.
  - apply sumf_le. intros v _. pose proof (wf_vw_range g Hwf v). destruct (decide _); lia.
Qed.
Lemma light_u32 {L} `{EqDecision L} g (f : nat -> L) x : wf_graph g -> light g -> u32 (label_weight g f x) = label_weight g f x.
Proof. intros Hwf Hl. apply u32_small. pose proof (label_weight_bounds g f x Hwf). unfold light in Hl. lia. Qed.

Lemma recalc_cut_all E k g p : wf_graph g -> valid_part k g p ->
  wpo (recalc_cut g p) E (fun p' => valid_part k g p' /\ p_where p' = p_where p /\ p_pw p' = p_pw p /\
    (symmetric g -> fits g -> exact_part k g p')).
Proof.
  intros Hwf HV. pose proof (recalc_cut_exact g Hwf k E p HV) as HX. pose proof (proj1 (proj1 HV)) as HL.
  unfold recalc_cut in *. rewrite sum_cut_ok in * by done. simpl in *.
  split; [destruct HV; split; done|]. split; [done|]. split; [done|]. intros H1 H2. by apply (HX H1 H2).
Qed.

Section Two.
  Context (g : graph) (Hwf : wf_graph g) (t : target) (Ht : two_way t).
  Local Notation n := (nv g).
  Local Notation max0 := (nth 0 (t_max t) 0%Z).
  Local Notation max1 := (nth 1 (t_max t) 0%Z).
  Local Notation tgt0 := (nth 0 (t_wgt t) 0%Z).

  Definition pw (p : part) (i : nat) : Z := nth i (p_pw p) 0%Z.
  Lemma valid_pw p i : valid_part 2 g p -> i < 2 -> get_weight p i = Ok (pw p i) /\ pw p i = u32 (label_weight g (lab p) (Some i)).
  Proof.
    intros [_ [HL HW]] Hi. specialize (HW i Hi). unfold get_weight, pw. rewrite (rd_ok _ _ _ HW). split; [f_equal; symmetry|]; by apply nth_lt_eq.
  Qed.
  Lemma tmax_rd i : i < 2 -> rd (t_max t) i = Ok (nth i (t_max t) 0%Z).
  Proof. intros Hi. apply rd_nth. rewrite (tw_max t Ht). done. Qed.
  Lemma twgt_rd i : i < 2 -> rd (t_wgt t) i = Ok (nth i (t_wgt t) 0%Z).
  Proof. intros Hi. apply rd_nth. rewrite (tw_wgt t Ht). done. Qed.

  Lemma move_valid E p v a i : valid_part 2 g p -> p_where p !! v = Some (Some a) -> i < 2 ->
    wpo (part_move g p v i) E (fun p' => valid_part 2 g p' /\ p_where p' = <[v := Some i]> (p_where p)).
  Proof.
    intros [HL HW] Hv Hi. assert (Hlt : v < n). { rewrite <- (proj1 HL). eapply lookup_lt_Some; eauto. }
    destruct (proj2 HL v Hlt) as (a' & Ha & Hv'). rewrite Hv in Hv'. injection Hv' as <-.
    eapply wpo_post; [apply (part_move_wp g Hwf 2 E p v a i); try done; apply HL|].
    intros p' (_ & Hw & Hx). split; [|done]. split; [|done]. rewrite Hw. by apply labels_ok_insert.
  Qed.
  (** moving a vertex from right to left adds its weight to the left *)
  Lemma pw_moved p p' v : valid_part 2 g p -> valid_part 2 g p' -> p_where p !! v = Some (Some 1) ->
    p_where p' = <[v := Some 0]> (p_where p) ->
    pw p' 0%nat = u32 (vweight g v + pw p 0%nat) /\ pw p' 1%nat = u32 (pw p 1%nat - vweight g v) /\
    label_weight g (lab p') (Some 0) = (label_weight g (lab p) (Some 0%nat) + vweight g v)%Z.
  Proof.
    intros H H' Hv Hw. assert (Hlt : v < n). { rewrite <- (proj1 (proj1 H)). eapply lookup_lt_Some; eauto. }
    assert (Hlab : forall x, label_weight g (lab p') x = label_weight g (upd (lab p) v (Some 0)) x).
    { intros x. apply label_weight_ext. intros u Hu. rewrite !lab_labw, Hw. apply labw_insert. rewrite (proj1 (proj1 H)). done. }
    assert (Hlv : lab p v = Some 1) by (rewrite lab_labw; by apply labw_lookup).
    destruct (valid_pw p 0%nat H ltac:(lia)) as [_ E0]. destruct (valid_pw p' 0%nat H' ltac:(lia)) as [_ E0'].
    destruct (valid_pw p 1%nat H ltac:(lia)) as [_ E1]. destruct (valid_pw p' 1%nat H' ltac:(lia)) as [_ E1'].
    rewrite E0, E0', E1, E1', !Hlab, !label_weight_upd, Hlv by done. repeat (case_decide; try congruence).
    rewrite u32_add_r, u32_sub_l. split; [f_equal; lia|]. split; [f_equal; lia|lia].
  Qed.

  (** ** Growing *)
  Record grow_inv (q : queue) (p : part) : Prop := {
    gi_valid : valid_part 2 g p;
    gi_len : length q = n;
    gi_right : forall v k, q !! v = Some (Some k) -> p_where p !! v = Some (Some 1);
    gi_max : (0 <= max0)%Z -> (pw p 0%nat <= max0)%Z;
    gi_heavy : light g -> forall v, v < n -> p_where p !! v = Some (Some 1) ->
       (exists k, q !! v = Some (Some k)) \/ (max0 < vweight g v + pw p 0%nat)%Z
  }.
  Definition same_members (q q' : queue) : Prop :=
    length q' = length q /\ forall v, (exists k, q' !! v = Some (Some k)) <-> (exists k, q !! v = Some (Some k)).
  Lemma same_members_size q q' : same_members q q' -> q_size q' = q_size q.
  Proof.
    intros [HL H]. unfold q_size, q_members. rewrite HL. f_equal. apply list_filter_iff. intros v. specialize (H v).
    destruct (q' !! v) as [[k'|]|], (q !! v) as [[k|]|]; simpl; split; intros Hs; try (by eexists); try (by destruct Hs); exfalso.
    all: try (destruct (proj1 H ltac:(eauto)) as [? ?]; done); try (destruct (proj2 H ltac:(eauto)) as [? ?]; done).
  Qed.
  Lemma update_neighbors_wp E v q : v < n -> length q = n ->
    wpo (bfs_update_neighbors g v q) E (same_members q).
  Proof.
    intros Hv Hl. unfold bfs_update_neighbors. apply (for_edges_wp g Hwf v (fun _ q' => same_members q q')); [done|split; done|].
    intros pre e a post q' _ (He & Hd & Hw & _ & Hlt & _) [HL HM]. rewrite Hd. cbn [obind]. unfold q_contains.
    destruct (lookup_lt_is_Some_2 q' (fst a) ltac:(lia)) as [x Hx]. rewrite (rd_ok _ _ _ Hx). cbn [obind].
    destruct x as [k|]; [|rewrite bool_decide_false by (intros [? ?]; done); split; done].
    rewrite bool_decide_true by eauto. rewrite Hw. cbn [obind]. unfold q_update_by_delta. rewrite (rd_ok _ _ _ Hx). cbn [obind].
    rewrite wr_ok by lia. simpl. split; [rewrite insert_length; done|]. intros u. rewrite <- HM.
    destruct (decide (u = fst a)) as [->|Hn].
    - rewrite list_lookup_insert by lia. rewrite Hx. split; intros _; eauto.
    - rewrite list_lookup_insert_ne by done. done.
  Qed.
  Lemma q_size_pop q v k : q !! v = Some (Some k) -> S (q_size (<[v := None]> q)) = q_size q.
  Proof.
    intros Hv. unfold q_size. enough (q_members q ≡ₚ v :: q_members (<[v:=None]> q)) as -> by done.
    apply NoDup_Permutation.
    - apply NoDup_filter, NoDup_seq.
    - apply NoDup_cons. split; [|apply NoDup_filter, NoDup_seq]. rewrite q_members_spec. intros (k' & Hk').
      rewrite list_lookup_insert in Hk' by (eapply lookup_lt_Some; eauto). done.
    - intros u. rewrite elem_of_cons, !q_members_spec. destruct (decide (u = v)) as [->|Hn].
      + split; [by left|]. intros _. eauto.
      + rewrite list_lookup_insert_ne by done. naive_solver.
  Qed.

  Definition stopped (q : queue) (p : part) : Prop := q_size q = 0 \/ (tgt0 <= pw p 0%nat)%Z.
  Lemma grow_wp E fuel : forall q p, grow_inv q p -> q_size q <= fuel ->
    wpm (bfs_priority_move g t fuel q p) E (fun r => grow_inv (fst r) (snd r) /\ stopped (fst r) (snd r)).
  Proof.
    induction fuel as [|fuel IH]; intros q p HI Hf; cbn [bfs_priority_move].
    - replace (q_size q) with 0 by lia. simpl. apply wpm_ret. split; [done|]. left. simpl. lia.
    - destruct (Nat.eqb_spec (q_size q) 0) as [Hz|Hz]; [apply wpm_ret; split; [done|by left]|].
      pose proof HI as [HV HL HR HM HH]. destruct (valid_pw p 0%nat HV ltac:(lia)) as [-> _]. apply wpm_liftk.
      rewrite twgt_rd by lia. apply wpm_liftk.
      destruct (Z.ltb_spec (pw p 0%nat) tgt0) as [Hlt|Hge]; simpl negb; cbn iota; [|apply wpm_ret; split; [done|by right]].
      eapply wpm_bind; [by apply q_pop_wp|]. intros [v q'] (Hq' & k & Hv & _). cbn [fst snd] in *. subst q'.
      pose proof (HR v k Hv) as Hp. assert (Hvn : v < n). { rewrite <- HL. eapply lookup_lt_Some; eauto. }
      rewrite vwt_ok by done. apply wpm_liftk. rewrite tmax_rd by lia. apply wpm_liftk.
      assert (Hsz : S (q_size (<[v := None]> q)) = q_size q) by (eapply q_size_pop; eauto).
      destruct (Z.leb_spec (u32 (vweight g v + pw p 0%nat)) max0) as [Hfit|Hno].
      + eapply wpm_bind; [apply wpm_lift; apply (move_valid E p v 1 0 HV Hp); lia|]. intros p' [HV' Hw'].
        destruct (pw_moved p p' v HV HV' Hp Hw') as (E0 & E1 & E2).
        eapply wpm_bind; [apply wpm_lift; apply update_neighbors_wp; [done|rewrite insert_length; done]|].
        intros q' HS. apply IH.
        * destruct HS as [HSl HSm]. rewrite insert_length in HSl. constructor.
          -- done.
          -- lia.
          -- intros u k' Hu. destruct (proj1 (HSm u) ltac:(eauto)) as [k2 Hk2].
             destruct (decide (u = v)) as [->|Hn]; [rewrite list_lookup_insert in Hk2 by lia; done|].
             rewrite list_lookup_insert_ne in Hk2 by done. rewrite Hw', list_lookup_insert_ne by done. eauto.
          -- intros _. lia.
          -- intros Hli u Hu Hu1. rewrite Hw' in Hu1. destruct (decide (u = v)) as [->|Hn].
             { rewrite list_lookup_insert in Hu1; [done|]. rewrite (proj1 (proj1 HV)). done. }
             rewrite list_lookup_insert_ne in Hu1 by done. destruct (HH Hli u Hu Hu1) as [[k2 Hk2]|Hk2].
             { left. apply HSm. exists k2. rewrite list_lookup_insert_ne by done. done. }
             right. destruct (valid_pw p' 0%nat HV' ltac:(lia)) as [_ E3]. destruct (valid_pw p 0%nat HV ltac:(lia)) as [_ E4].
             rewrite (light_u32 g _ _ Hwf Hli) in E3. rewrite (light_u32 g _ _ Hwf Hli) in E4. pose proof (wf_vw_range g Hwf v). lia.
        * rewrite (same_members_size _ _ HS). lia.
      + apply IH; [|lia]. constructor; try done.
        * rewrite insert_length. done.
        * intros u k' Hu. destruct (decide (u = v)) as [->|Hn]; [rewrite list_lookup_insert in Hu by lia; done|].
          rewrite list_lookup_insert_ne in Hu by done. eauto.
        * intros Hli u Hu Hu1. destruct (decide (u = v)) as [->|Hn].
          { right. destruct (valid_pw p 0%nat HV ltac:(lia)) as [_ E4]. rewrite (light_u32 g _ _ Hwf Hli) in E4.
            destruct (decide (vweight g v + pw p 0%nat < W32)%Z) as [Hs|Hs].
            - rewrite u32_small in Hno; [done|]. pose proof (wf_vw_range g Hwf v).
              pose proof (label_weight_bounds g (lab p) (Some 0) Hwf). lia.
            - exfalso. (* the left side and v weigh at most the whole graph *)
              assert (label_weight g (lab p) (Some 0%nat) + vweight g v <= sumn n (vweight g))%Z.
              { pose proof (label_weight_bounds g (upd (lab p) v (Some 0)) (Some 0) Hwf) as HB.
                rewrite label_weight_upd in HB by done. rewrite lab_labw, (labw_lookup _ _ _ Hp) in HB.
                repeat (case_decide; try congruence). lia. }
              unfold light in Hli. lia. }
          rewrite list_lookup_insert_ne by done. by apply HH.
  Qed.

  (** ** The balancing step: at most one vertex goes from right to left, and only if the new
      load of the left is judged better than the load of the right. *)
  Definition load (w m : Z) : f64 := fdiv (f_of_Z w) (f_of_Z m).
  Definition balance_step (nw : nat -> Z) (p p' : part) : Prop :=
    p' = p \/ exists v, v < n /\ p_where p !! v = Some (Some 1) /\ p_where p' = <[v := Some 0]> (p_where p) /\
      flt (load (u32 (nw v + pw p 0%nat)) max0) (load (pw p 1%nat) max1) = true.
  Lemma balance_improves_ok p w : valid_part 2 g p ->
    balance_improves t p w = Ok (flt (load w max0) (load (pw p 1%nat) max1)).
  Proof.
    intros HV. unfold balance_improves. rewrite !tmax_rd by lia. cbn [obind].
    destruct (valid_pw p 1 HV ltac:(lia)) as [-> _]. done.
  Qed.
  Lemma unit_balance_wp E p rem : valid_part 2 g p -> Forall (fun v => p_where p !! v = Some (Some 1)) rem ->
    wpo (bfs_unit_balance g t rem p) E (fun p' => valid_part 2 g p' /\ balance_step (fun _ => 1%Z) p p').
  Proof.
    intros HV. induction rem as [|v rem IH]; intros HF; cbn [bfs_unit_balance].
    - split; [done|by left].
    - apply Forall_cons in HF as [Hv HF]. destruct (valid_pw p 0 HV ltac:(lia)) as [-> _]. cbn [obind].
      rewrite balance_improves_ok by done. cbn [obind].
      destruct (flt (load (u32 (1 + pw p 0%nat)) max0) (load (pw p 1%nat) max1)) eqn:E1; [|by apply IH].
      eapply wpo_post; [apply (move_valid E p v 1 0 HV Hv); lia|]. intros p' [HV' Hw]. split; [done|]. right. exists v.
      split; [rewrite <- (proj1 (proj1 HV)); eapply lookup_lt_Some; eauto|]. done.
  Qed.
  Lemma vwt_true v : length (g_vw g) = n -> v < n -> vwt true g v = Ok (vweight g v).
  Proof.
    intros HL Hv. unfold vwt, rd_weight, vweight, wgt_at. destruct (g_vw g) as [|w l] eqn:E; [simpl in HL; lia|].
    rewrite <- E in *. rewrite (rd_nth _ _ 0%Z) by lia. done.
  Qed.
  Lemma weight_balance_loop_wp E fuel : length (g_vw g) = n -> forall q p, valid_part 2 g p -> length q = n ->
    (forall v k, q !! v = Some (Some k) -> p_where p !! v = Some (Some 1)) -> q_size q <= fuel ->
    wpm (bfs_weight_balance_loop g t fuel q p) E (fun p' => valid_part 2 g p' /\ balance_step (vweight g) p p').
  Proof.
    intros Hvw. induction fuel as [|fuel IH]; intros q p HV HL HR Hf; cbn [bfs_weight_balance_loop].
    - replace (q_size q) with 0 by lia. simpl. apply wpm_ret. split; [done|by left].
    - destruct (Nat.eqb_spec (q_size q) 0) as [Hz|Hz]; [apply wpm_ret; split; [done|by left]|].
      eapply wpm_bind; [by apply q_pop_wp|]. intros [v q'] (Hq' & k & Hv & _). cbn [fst snd] in *. subst q'.
      pose proof (HR v k Hv) as Hp. assert (Hvn : v < n). { rewrite <- HL. eapply lookup_lt_Some; eauto. }
      rewrite vwt_true by done. apply wpm_liftk. destruct (valid_pw p 0 HV ltac:(lia)) as [-> _]. apply wpm_liftk.
      rewrite balance_improves_ok by done. apply wpm_liftk.
      destruct (flt (load (u32 (vweight g v + pw p 0%nat)) max0) (load (pw p 1%nat) max1)) eqn:E1.
      + apply wpm_lift. eapply wpo_post; [apply (move_valid E p v 1 0 HV Hp); lia|]. intros p' [HV' Hw]. split; [done|]. right. exists v. done.
      + pose proof (q_size_pop q v k Hv). apply IH; [done|rewrite insert_length; done| |lia].
        intros u k' Hu. destruct (decide (u = v)) as [->|Hn]; [rewrite list_lookup_insert in Hu by lia; done|].
        rewrite list_lookup_insert_ne in Hu by done. eauto.
  Qed.
  Lemma q_size_le q : q_size q <= length q.
  Proof. unfold q_size, q_members. etransitivity; [apply filter_length|]. rewrite seq_length. done. Qed.
  Lemma weight_balance_wp E p rem : length (g_vw g) = n -> valid_part 2 g p -> NoDup rem ->
    Forall (fun v => p_where p !! v = Some (Some 1)) rem ->
    wpm (bfs_weight_balance g t rem p) E (fun p' => valid_part 2 g p' /\ balance_step (vweight g) p p').
  Proof.
    intros Hvw HV HN HF. unfold bfs_weight_balance.
    eapply (wpm_bind _ _ _ (fun q => length q = n /\ forall v k, q !! v = Some (Some k) -> v ∈ rem)).
    - apply wpm_lift. apply (ofold_wp (fun pre q => length q = n /\ forall v k, q !! v = Some (Some k) -> v ∈ pre)).
      + split; [apply replicate_length|]. intros v k Hv. apply lookup_replicate in Hv as [? _]. done.
      + intros pre v post q Er [HL HM]. assert (Hv : v ∈ rem) by (rewrite Er; set_solver).
        rewrite Forall_forall in HF. pose proof (HF v Hv) as Hp.
        assert (Hvn : v < n). { rewrite <- (proj1 (proj1 HV)). eapply lookup_lt_Some; eauto. }
        rewrite vwt_true by done. cbn [obind]. unfold q_add.
        destruct (lookup_lt_is_Some_2 q v ltac:(lia)) as [x Hx]. rewrite (rd_ok _ _ _ Hx). cbn [obind].
        destruct x as [k|].
        { exfalso. apply HM in Hx. rewrite Er in HN. apply NoDup_app in HN as (_ & HN & _). apply (HN v Hx). set_solver. }
        rewrite wr_ok by lia. simpl. split; [rewrite insert_length; done|]. intros u k Hu.
        destruct (decide (u = v)) as [->|Hn]; [set_solver|]. rewrite list_lookup_insert_ne in Hu by done. apply HM in Hu. set_solver.
    - intros q [HL HM]. apply weight_balance_loop_wp; try done.
      + intros v k Hv. rewrite Forall_forall in HF. apply HF. eauto.
      + rewrite <- HL. apply q_size_le.
  Qed.

  (** ** The whole bisection *)
  Lemma bfs_queue_wp E seed : seed < n ->
    wpo (let! q := q_add (q_new n) 1%Z seed in
         ofold (fun q v => if Nat.eqb v seed then Ok q else q_add q 0%Z v) q (seq 0 n)) E
      (fun q => length q = n /\ forall v, v < n -> exists k, q !! v = Some (Some k)).
  Proof.
    intros Hs. unfold q_add at 1, q_new. rewrite (rd_ok _ _ None) by (apply lookup_replicate; done). cbn [obind].
    rewrite wr_ok by (rewrite replicate_length; done). cbn [obind].
    eapply wpo_post; [apply (ofold_seq_wp (fun m q => length q = n /\ (exists k, q !! seed = Some (Some k)) /\
       forall v, v < n -> v <> seed -> q !! v = Some (if decide (v < m) then Some 0%Z else None)))|].
    - split; [rewrite insert_length; apply replicate_length|]. split; [exists 1%Z; apply list_lookup_insert; rewrite replicate_length; done|].
      intros v Hv Hn. rewrite list_lookup_insert_ne by done. destruct (decide (v < 0)); [lia|]. apply lookup_replicate; done.
    - intros m q Hm (HL & [k Hk] & HM). destruct (Nat.eqb_spec m seed) as [->|Hne].
      + simpl. split; [done|]. split; [eauto|]. intros v Hv Hn. rewrite HM by done.
        destruct (decide (v < seed)), (decide (v < S seed)); try done; lia.
      + unfold q_add. rewrite (rd_ok _ _ None). 2: { rewrite HM by lia. destruct (decide (m < m)); [lia|done]. }
        cbn [obind]. rewrite wr_ok by lia. simpl. split; [rewrite insert_length; done|].
        split; [exists k; rewrite list_lookup_insert_ne by done; done|]. intros v Hv Hn.
        destruct (decide (v = m)) as [->|Hvm].
        * rewrite list_lookup_insert by lia. destruct (decide (m < S m)); [done|lia].
        * rewrite list_lookup_insert_ne by done. rewrite HM by done. destruct (decide (v < m)), (decide (v < S m)); try done; lia.
    - intros q (HL & [k Hk] & HM). split; [done|]. intros v Hv. destruct (decide (v = seed)) as [->|Hn]; [eauto|].
      rewrite HM by done. destruct (decide (v < n)); [eauto|lia].
  Qed.

  (** The only failure: no weight array although the unit-weight branch reads it. *)
  Definition no_weights (f : failure) : Prop := f = UB NoWeights /\ g_uvw g = true /\ g_vw g = [].
  Record bfs_result (p : part) : Prop := {
    br_valid : valid_part 2 g p;
    br_exact : symmetric g -> fits g -> exact_part 2 g p;
    br_grown : exists q p1, grow_inv q p1 /\ stopped q p1 /\
      ((pw p1 1%nat <= max1)%Z /\ p_where p = p_where p1 \/
       (max1 < pw p1 1%nat)%Z /\ exists p2, p_where p = p_where p2 /\ balance_step (if g_uvw g then vweight g else fun _ => 1%Z) p1 p2)
  }.
  Lemma bfs_from_wp seed : seed < n -> wpm (bfs_from seed t g) no_weights bfs_result.
  Proof.
    intros Hs. unfold bfs_from.
    assert (Hq := bfs_queue_wp no_weights seed Hs).
    eapply (wpm_bind _ _ _ (fun q => wpo (ofold (fun q v => if Nat.eqb v seed then Ok q else q_add q 0%Z v) q (seq 0 n)) no_weights
      (fun q => length q = n /\ forall v, v < n -> exists k, q !! v = Some (Some k)))).
    { apply wpm_lift. destruct (q_add (q_new n) 1 seed); simpl in *; done. }
    intros q0 H0. eapply wpm_bind; [apply wpm_lift; exact H0|]. clear Hq q0 H0. intros q [HL HQ].
    eapply wpm_bind; [apply wpm_lift; apply (assign_all_wp g Hwf 2)|].
    { simpl. rewrite replicate_length. unfold t_np. apply Ht. } { simpl. apply replicate_length. } { lia. }
    intros p (_ & Hw & Hlab & Hwx).
    assert (HV : valid_part 2 g p) by (split; done).
    assert (HI : grow_inv q p).
    { constructor; try done.
      - intros v k Hv. rewrite Hw. apply lookup_replicate. split; [done|]. rewrite <- HL. eapply lookup_lt_Some; eauto.
      - intros Hm. destruct (valid_pw p 0 HV ltac:(lia)) as [_ ->].
        replace (label_weight g (lab p) (Some 0)) with 0%Z; [rewrite u32_0; done|]. symmetry. apply sumf_zero.
        intros v Hv%elem_of_seq. rewrite lab_labw, Hw. unfold labw. rewrite nth_lookup, lookup_replicate_2 by lia. done.
      - intros _ v Hv _. left. by apply HQ. }
    eapply wpm_bind; [apply (grow_wp no_weights n q p HI)|].
    { rewrite <- HL. apply q_size_le. }
    intros [q1 p1] [HI1 HS1]. cbn [fst snd] in *. pose proof HI1 as [HV1 HL1 HR1 HM1 HH1].
    destruct (valid_pw p1 1 HV1 ltac:(lia)) as [-> _]. apply wpm_liftk. rewrite tmax_rd by lia. apply wpm_liftk.
    eapply (wpm_bind _ _ _ (fun p2 => valid_part 2 g p2 /\
       ((pw p1 1%nat <= max1)%Z /\ p_where p2 = p_where p1 \/
       (max1 < pw p1 1%nat)%Z /\ balance_step (if g_uvw g then vweight g else fun _ => 1%Z) p1 p2))).
    - destruct (Z.ltb_spec max1 (pw p1 1%nat)) as [Hov|Hok]; [|apply wpm_ret; split; [done|left; done]].
      eapply wpm_bind; [apply wpm_choose_perm|]. intros rem Hrem.
      assert (HF : Forall (fun v => p_where p1 !! v = Some (Some 1)) rem).
      { apply Forall_forall. intros v Hv. rewrite Hrem in Hv. apply q_members_spec in Hv as [k Hk]. eauto. }
      destruct (g_uvw g) eqn:Hu.
      + destruct (wf_vw_len g Hwf) as [Hnil|Hlen].
        * (* no array *)
          destruct rem as [|v rem].
          { unfold bfs_weight_balance. apply wpm_liftk.
            assert (Hz : q_size (q_new n) = 0). { apply q_size_zero. intros v k Hv. apply lookup_replicate in Hv as [? _]. done. }
            destruct n as [|n'] eqn:En; cbn [bfs_weight_balance_loop]; rewrite Hz; simpl; apply wpm_ret; split; try done; right; (split; [done|by left]). }
          unfold bfs_weight_balance. simpl. unfold vwt, rd_weight. rewrite Hnil. intros cs. split; done.
        * eapply wpm_post; [apply (weight_balance_wp no_weights p1 rem Hlen HV1)|].
          { rewrite Hrem. apply NoDup_filter, NoDup_seq. } { done. }
          intros p2 [HV2 HB]. split; [done|]. right. done.
      + apply wpm_lift. eapply wpo_post; [apply (unit_balance_wp no_weights p1 rem HV1 HF)|].
        intros p2 [HV2 HB]. split; [done|]. right. done.
    - intros p2 [HV2 HB]. apply wpm_lift.
      eapply wpo_post; [apply (recalc_cut_all _ 2 g p2 Hwf HV2)|]. intros p3 (HV3 & Hw3 & Hp3 & HX3). constructor; try done.
      exists q1, p1. split; [done|]. split; [done|]. destruct HB as [[H1 H2]|[H1 H2]]; [left|right].
      + split; [done|]. congruence.
      + split; [done|]. exists p2. done.
  Qed.
  Lemma bfs_execute_wp : 0 < n -> wpm (bfs_execute t g) no_weights bfs_result.
  Proof.
    intros Hn. unfold bfs_execute. eapply (wpm_bind _ _ _ (fun s => s < n)); [apply wpm_choose_below; [lia|done]|]. intros seed Hs. by apply bfs_from_wp.
  Qed.

  (** ** Random bisection *)
  Lemma fill_left_wp E vs : forall p, valid_part 2 g p -> NoDup vs -> Forall (fun v => p_where p !! v = Some (Some 1)) vs ->
    ((0 <= max0)%Z -> (pw p 0%nat <= max0)%Z) ->
    wpo (fill_left g t vs p) E (fun p' => valid_part 2 g p' /\ ((0 <= max0)%Z -> (pw p' 0%nat <= max0)%Z)).
  Proof.
    induction vs as [|v vs IH]; intros p HV HN HF HM; cbn [fill_left]; [done|].
    apply Forall_cons in HF as [Hv HF]. apply NoDup_cons in HN as [Hnv HN].
    assert (Hvn : v < n). { rewrite <- (proj1 (proj1 HV)). eapply lookup_lt_Some; eauto. }
    destruct (valid_pw p 0 HV ltac:(lia)) as [-> E0]. cbn [obind]. rewrite vwt_ok by done. cbn [obind].
    rewrite tmax_rd by lia. cbn [obind]. destruct (Z.ltb_spec max0 (u32 (pw p 0%nat + vweight g v))) as [Hov|Hok]; [done|].
    assert (HB : forall p, valid_part 2 g p -> exists b, calc_max_imbalance g t p = Ok b).
    { intros p0 [_ [HL0 _]]. apply calc_max_imbalance_ok. rewrite HL0, (tw_frac t Ht). done. }
    destruct (HB p HV) as [bal ->]. cbn [obind].
    eapply wpo_bind; [apply (move_valid E p v 1 0 HV Hv); lia|]. intros p1 [HV1 Hw1].
    destruct (pw_moved p p1 v HV HV1 Hv Hw1) as (E1 & _ & _).
    destruct (HB p1 HV1) as [bal1 ->]. cbn [obind]. destruct (flt bal bal1).
    - eapply wpo_post; [apply (move_valid E p1 v 0 1 HV1)|].
      { rewrite Hw1. apply list_lookup_insert. rewrite (proj1 (proj1 HV)). done. } { lia. }
      intros p2 [HV2 Hw2]. split; [done|]. intros Hm.
      assert (Hsame : p_where p2 = p_where p). { rewrite Hw2, Hw1, list_insert_insert. by apply list_insert_id. }
      destruct (valid_pw p2 0 HV2 ltac:(lia)) as [_ ->].
      rewrite (label_weight_ext g (lab p2) (lab p)); [|intros u Hu; unfold lab; rewrite Hsame; done].
      rewrite <- E0. auto.
    - apply IH; try done.
      + apply Forall_forall. intros u Hu. rewrite Forall_forall in HF. rewrite Hw1, list_lookup_insert_ne; [auto|]. intros ->. done.
      + intros _. rewrite E1. rewrite Z.add_comm. done.
  Qed.
  Lemma fill_pairs_wp E p : valid_part 2 g p ->
    wpo (fill_pairs g p) E (fun lr => (forall v, v < n -> v ∈ fst <$> fst lr ++ snd lr) /\ forall v w, ((v, w) ∈ fst lr -> p_where p !! v = Some (Some 0)) /\
       ((v, w) ∈ snd lr -> p_where p !! v = Some (Some 1)) /\ ((v, w) ∈ fst lr ++ snd lr -> v < n /\ w = vweight g v)).
  Proof.
    intros HV. unfold fill_pairs.
    apply (for_vertices_wp g (fun m (lr : list (nat * Z) * list (nat * Z)) => (forall v, v < m -> v ∈ fst <$> fst lr ++ snd lr) /\ forall v w, ((v, w) ∈ fst lr -> p_where p !! v = Some (Some 0)) /\
       ((v, w) ∈ snd lr -> p_where p !! v = Some (Some 1)) /\ ((v, w) ∈ fst lr ++ snd lr -> v < n /\ w = vweight g v))).
    - split; [intros v Hv; lia|]. intros v w. simpl. set_solver.
    - intros v [l r] Hv [HC HI]. rewrite vwt_ok by done. cbn [obind]. unfold get_assignment.
      destruct (proj2 (proj1 HV) v Hv) as (i & Hi & Ha). rewrite (rd_ok _ _ _ Ha). simpl.
      destruct (decide (Some i = Some 0)) as [[= ->]|Hn]; simpl;
        (split; [intros u Hu; destruct (decide (u = v)) as [->|Huv]; rewrite ?fmap_app, ?elem_of_app in *; simpl;
           [set_solver|specialize (HC u ltac:(lia)); cbn [fst snd] in HC; rewrite ?fmap_app in HC; set_solver]|]); intros u w; destruct (HI u w) as (H1 & H2 & H3); simpl in *.
      + split; [|split].
        * rewrite elem_of_app, elem_of_list_singleton. intros [H|[= -> ->]]; auto.
        * auto.
        * rewrite !elem_of_app, elem_of_list_singleton in *. intros [[H|[= -> ->]]|H]; auto.
      + assert (i = 1) as -> by (assert (i <> 0) by congruence; lia). split; [auto|]. split.
        * rewrite elem_of_cons. intros [[= -> ->]|H]; auto.
        * rewrite !elem_of_app, elem_of_cons in *. intros [H|[[= -> ->]|H]]; auto.
  Qed.
  Lemma sort_w_perm l : sort_w l ≡ₚ l.
  Proof.
    assert (HI : forall x l, insert_w x l ≡ₚ x :: l).
    { intros x l0. induction l0 as [|y l0 IH]; simpl; [done|]. destruct (snd x <=? snd y)%Z; [done|]. rewrite IH. apply Permutation_swap. }
    unfold sort_w. induction l as [|x l IH]; simpl; [done|]. rewrite HI, IH. done.
  Qed.
  Lemma lower_bound_le l x : lower_bound l x <= length l.
  Proof. induction l as [|y l IH]; simpl; [lia|]. destruct (snd y <? x)%Z; lia. Qed.
  (** Failure of the swap: 32-bit overflow of weight differences. *)
  Definition big_weights (f : failure) : Prop := f = UB SignedOverflow /\ ~ ((sumn n (vweight g) < 2 ^ 30)%Z /\ (0 <= max0 < 2 ^ 30)%Z /\ (0 <= max1 < 2 ^ 30)%Z).
  Lemma i32_small z : (- 2 ^ 31 <= z < 2 ^ 31)%Z -> i32 z = Ok z.
  Proof. intros H. unfold i32, H32. rewrite decide_True by (change (2^31)%Z with 2147483648%Z in *; lia). done. Qed.
  Lemma i32_of_diff x y : (0 <= x < 2 ^ 30)%Z -> (0 <= y < 2 ^ 30)%Z -> i32_of_u32 (u32 (x - y)) = (x - y)%Z.
  Proof.
    intros Hx Hy. unfold i32_of_u32, u32, H32, W32. change (2 ^ 30)%Z with 1073741824%Z in *.
    destruct (decide (0 <= x - y)%Z).
    - rewrite Z.mod_small by lia. destruct (Z.ltb_spec (x - y) 2147483648); lia.
    - replace ((x - y) mod 4294967296)%Z with (x - y + 4294967296)%Z by (rewrite <- (Z.mod_small (x - y + 4294967296) 4294967296) by lia;
        rewrite <- Zplus_mod_idemp_r; rewrite Z_mod_same_full, Z.add_0_r; done).
      destruct (Z.ltb_spec (x - y + 4294967296) 2147483648); lia.
  Qed.
  Lemma swap_wp p : 0 < n -> valid_part 2 g p ->
    wpm (swap_balance_right g t p) big_weights (valid_part 2 g).
  Proof.
    intros Hn HV. unfold swap_balance_right. eapply wpm_bind; [apply wpm_lift; by apply fill_pairs_wp|].
    intros [l r] [HC HP]. cbn [fst snd] in *. eapply wpm_bind; [apply wpm_choose_perm|]. intros ls Hls.
    eapply wpm_bind; [apply wpm_choose_perm|]. intros rs Hrs.
    cbn beta in Hls, Hrs. rewrite <- (sort_w_perm ls) in Hls. rewrite <- (sort_w_perm rs) in Hrs. set (L := sort_w ls) in *. set (R := sort_w rs) in *.
    rewrite !tmax_rd by lia. do 2 apply wpm_liftk.
    destruct (valid_pw p 0 HV ltac:(lia)) as [-> E0]. destruct (valid_pw p 1 HV ltac:(lia)) as [-> E1]. do 2 apply wpm_liftk.
    destruct (last (L ++ R)) as [[rv rw]|] eqn:El.
    2: { exfalso. apply last_None in El. specialize (HC 0 Hn). rewrite <- Hls, <- Hrs, El in HC. simpl in HC. set_solver. }
    assert (Hin : forall v w, (v, w) ∈ L ++ R -> v < n /\ w = vweight g v).
    { intros v w. rewrite Hls, Hrs. apply HP. }
    apply last_Some_elem_of in El. apply Hin in El as [Hrv ->].
    assert (Hi32 : forall x, wpm (lift (i32 x)) big_weights (fun _ => True) \/ True) by (right; done).
    assert (Hsm : (sumn n (vweight g) < 2 ^ 30)%Z /\ (0 <= max0 < 2 ^ 30)%Z /\ (0 <= max1 < 2 ^ 30)%Z ->
      i32 (i32_of_u32 (vweight g rv) - i32_of_u32 (u32 (max0 - pw p 0%nat))) = Ok (vweight g rv - (max0 - pw p 0%nat))%Z /\
      i32 (i32_of_u32 (vweight g rv) - i32_of_u32 (u32 (pw p 1%nat - max1))) = Ok (vweight g rv - (pw p 1%nat - max1))%Z).
    { intros (Hs & H0 & H1). assert (Hli : light g) by (unfold light, W32; change (2^30)%Z with 1073741824%Z in *; lia).
      rewrite (light_u32 g _ _ Hwf Hli) in E0. rewrite (light_u32 g _ _ Hwf Hli) in E1.
      pose proof (label_weight_bounds g (lab p) (Some 0) Hwf). pose proof (label_weight_bounds g (lab p) (Some 1) Hwf).
      pose proof (wf_vw_range g Hwf rv).
      assert (vweight g rv <= sumn n (vweight g))%Z by (apply sumn_elem_le; [intros u _; pose proof (wf_vw_range g Hwf u); lia|done]).
      rewrite !i32_of_diff by lia. replace (i32_of_u32 (vweight g rv)) with (vweight g rv).
      - change (2 ^ 30)%Z with 1073741824%Z in *. split; apply i32_small; change (2 ^ 31)%Z with 2147483648%Z; lia.
      - unfold i32_of_u32, H32. change (2 ^ 30)%Z with 1073741824%Z in *. destruct (Z.ltb_spec (vweight g rv) 2147483648); lia. }
    assert (Hany : forall x (P : Z -> Prop), (forall z, P z) -> (~ ((sumn n (vweight g) < 2 ^ 30)%Z /\ (0 <= max0 < 2 ^ 30)%Z /\ (0 <= max1 < 2 ^ 30)%Z) \/ exists z, i32 x = Ok z) ->
       wpm (lift (i32 x)) big_weights P).
    { intros x P HPz [Hnot|[z ->]]; [|apply wpm_lift; simpl; auto]. apply wpm_lift. unfold i32. destruct (decide _); simpl; [auto|split; done]. }
    clear Hi32. assert (Hdec : ~ ((sumn n (vweight g) < 2 ^ 30)%Z /\ (0 <= max0 < 2 ^ 30)%Z /\ (0 <= max1 < 2 ^ 30)%Z) \/
       ((sumn n (vweight g) < 2 ^ 30)%Z /\ (0 <= max0 < 2 ^ 30)%Z /\ (0 <= max1 < 2 ^ 30)%Z)) by lia.
    eapply (wpm_bind _ _ _ (fun _ => True)).
    { apply Hany; [done|]. destruct Hdec as [?|H]; [by left|right]. destruct (Hsm H) as [-> _]. eauto. }
    intros minO _. eapply (wpm_bind _ _ _ (fun _ => True)).
    { apply Hany; [done|]. destruct Hdec as [?|H]; [by left|right]. destruct (Hsm H) as [_ ->]. eauto. }
    intros maxO _. destruct (Nat.ltb_spec (lower_bound L (u32 minO)) (lower_bound L (u32 maxO))) as [Hlt|_]; [|by apply wpm_ret].
    destruct (proj2 (proj1 HV) rv Hrv) as (a & Ha & Hpa).
    eapply wpm_bind; [apply wpm_lift; apply (move_valid _ p rv a 0 HV Hpa); lia|]. intros p1 [HV1 _].
    pose proof (lower_bound_le L (u32 maxO)) as Hle.
    destruct (lookup_lt_is_Some_2 L (lower_bound L (u32 minO)) ltac:(lia)) as [[lv lw] Hlv]. rewrite (rd_ok _ _ _ Hlv). apply wpm_liftk.
    assert (Hlvn : lv < n). { apply (Hin lv lw). apply elem_of_app. left. eapply elem_of_list_lookup_2; eauto. }
    destruct (proj2 (proj1 HV1) lv Hlvn) as (b & Hb & Hpb). cbn [fst].
    apply wpm_lift. eapply wpo_post; [apply (move_valid _ p1 lv b 1 HV1 Hpb); lia|]. intros p2 [HV2 _]. done.
  Qed.

  Record random_result (p : part) : Prop := {
    rr_valid : valid_part 2 g p;
    rr_exact : symmetric g -> fits g -> exact_part 2 g p;
    (* unless the right side was overweight after filling, the left side is within its maximum *)
    rr_left : exists p1, valid_part 2 g p1 /\ ((0 <= max0)%Z -> (pw p1 0%nat <= max0)%Z) /\
      ((pw p1 1%nat <= max1)%Z -> p_where p = p_where p1)
  }.
  Lemma random_execute_wp : 0 < n -> wpm (random_execute t g) big_weights random_result.
  Proof.
    intros Hn. unfold random_execute.
    eapply wpm_bind; [apply wpm_lift; apply (assign_all_wp g Hwf 2 _ (part_new 2 g) 1)|].
    { simpl. done. } { simpl. apply replicate_length. } { lia. }
    intros p (_ & Hw & Hlab & Hwx). assert (HV : valid_part 2 g p) by (split; done).
    eapply wpm_bind; [apply random_order_wp; done|]. intros vs Hvs.
    assert (Hvs' : vs ≡ₚ seq 0 n). { rewrite Hvs. unfold vs_iter, range. simpl. rewrite Nat.sub_0_r. done. }
    eapply wpm_bind; [apply wpm_lift; apply (fill_left_wp _ vs p HV)|].
    { rewrite Hvs'. apply NoDup_seq. }
    { apply Forall_forall. intros v Hv. rewrite Hvs' in Hv. apply elem_of_seq in Hv. rewrite Hw. apply lookup_replicate. split; [done|lia]. }
    { intros Hm. destruct (valid_pw p 0 HV ltac:(lia)) as [_ ->].
      replace (label_weight g (lab p) (Some 0)) with 0%Z; [rewrite u32_0; done|]. symmetry. apply sumf_zero.
      intros v Hv%elem_of_seq. rewrite lab_labw, Hw. unfold labw. rewrite nth_lookup, lookup_replicate_2 by lia. done. }
    intros p1 [HV1 HM1]. destruct (valid_pw p1 1 HV1 ltac:(lia)) as [-> _]. apply wpm_liftk. rewrite tmax_rd by lia. apply wpm_liftk.
    eapply (wpm_bind _ _ _ (fun p2 => valid_part 2 g p2 /\ ((pw p1 1%nat <= max1)%Z -> p_where p2 = p_where p1))).
    - destruct (Z.ltb_spec max1 (pw p1 1%nat)) as [Ho|Ho].
      + eapply wpm_post; [by apply swap_wp|]. intros p2 HV2. split; [done|]. lia.
      + apply wpm_ret. done.
    - intros p2 [HV2 HW2]. apply wpm_lift. eapply wpo_post; [apply (recalc_cut_all _ 2 g p2 Hwf HV2)|].
      intros p3 (HV3 & Hw3 & _ & HX3). constructor; try done. exists p1. split; [done|]. split; [done|]. intros Ho. rewrite Hw3. auto.
  Qed.
End Two.
