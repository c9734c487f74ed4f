(** * AggFacts: Aggregation (C24), matchings (C20-C23). *)
From Verif Require Import Base ModelGraph ModelBuilders ModelAgg Spec Logic Sums GraphFacts ConnFacts MiscFacts BucketFacts.

(** ** Grouping arrays *)
(** The fine vertices mapped to c, in increasing order. *)
Definition members_of (cmap : list nat) (c : nat) : list nat :=
  filter (fun v => cmap !! v = Some c) (seq 0 (length cmap)).
Definition upto (cmap : list nat) (n c : nat) : list nat := filter (fun v => cmap !! v = Some c) (seq 0 n).
Lemma upto_S cmap n c : upto cmap (S n) c = upto cmap n c ++ (if decide (cmap !! n = Some c) then [n] else []).
Proof.
  unfold upto. rewrite seq_S, filter_app. f_equal.
Qed.
Lemma members_upto cmap c : members_of cmap c = upto cmap (length cmap) c.
Proof. done. Qed.
Lemma elem_members cmap c v : v ∈ members_of cmap c <-> cmap !! v = Some c.
Proof.
  unfold members_of. rewrite elem_of_list_filter, elem_of_seq. split; [tauto|]. intros H. split; [done|].
  apply lookup_lt_Some in H. lia.
Qed.

Section Agg.
  Context (cmap : list nat) (nc : nat) (Hr : Forall (fun c => c < nc) cmap).
  Local Notation n := (length cmap).
  Definition gstart (c : nat) : nat := nsum (fun c => length (members_of cmap c)) c.

  Lemma cmap_lt v : v < n -> exists c, cmap !! v = Some c /\ c < nc.
  Proof. intros H. destruct (lookup_lt_is_Some_2 cmap v H) as [c Hc]. exists c. split; [done|].
    eapply Forall_lookup_1 in Hr; eauto. Qed.
  Lemma upto_len_total m : m <= n -> nsum (fun c => length (upto cmap m c)) nc = m.
  Proof.
    induction m as [|m IH]; intros Hm.
    - rewrite (nsum_ext _ (fun _ => 0)); [apply nsum_zero|]. done.
    - destruct (cmap_lt m ltac:(lia)) as (c & Hc & Hcn).
      rewrite (nsum_ext _ (fun i => length (upto cmap m i) + (if decide (i = c) then 1 else 0))).
      + rewrite nsum_add, IH, nsum_single by lia. lia.
      + intros i _. rewrite upto_S, app_length. f_equal. rewrite Hc.
        destruct (decide (i = c)) as [->|]; [rewrite decide_True by done; done|].
        rewrite decide_False by congruence. done.
  Qed.
  Lemma gstart_total : gstart nc = n.
  Proof. apply (upto_len_total n). lia. Qed.
  Lemma upto_le m c : m <= n -> length (upto cmap m c) <= length (members_of cmap c).
  Proof.
    intros Hm. rewrite members_upto. induction n as [|k IH] in m, Hm |- *; [replace m with 0 by lia; done|].
    destruct (decide (m = S k)) as [->|]; [lia|]. rewrite (upto_S _ k), app_length. specialize (IH m ltac:(lia)). lia.
  Qed.
  Lemma upto_lt m c : m < n -> cmap !! m = Some c -> length (upto cmap m c) < length (members_of cmap c).
  Proof.
    intros Hm Hc. pose proof (upto_le (S m) c ltac:(lia)) as H. rewrite upto_S, app_length, decide_True in H by done.
    simpl in H. lia.
  Qed.

  (** counting *)
  Lemma agg_count_ok : exists p, agg_count cmap nc = Ok p /\ length p = S nc /\ nth 0 p 0 = 0 /\
     forall c, c < nc -> nth (S c) p 0 = length (members_of cmap c).
  Proof.
    assert (H : wpo (agg_count cmap nc) never (fun p => length p = S nc /\ nth 0 p 0 = 0 /\
       forall c, c < nc -> nth (S c) p 0 = length (upto cmap n c))).
    { unfold agg_count.
      apply (ofold_wp (fun pre p => length p = S nc /\ nth 0 p 0 = 0 /\
         forall c, c < nc -> nth (S c) p 0 = length (upto cmap (length pre) c))).
      - split; [apply replicate_length|]. split; [done|]. intros c Hc. apply nth_lt_eq. apply lookup_replicate. split; [done|lia].
      - intros pre c post p E (HL & H0 & HC).
        assert (Hc : cmap !! length pre = Some c) by (rewrite E, lookup_app_r, Nat.sub_diag by lia; done).
        assert (c < nc) by (eapply (Forall_lookup_1 (fun c => c < nc)) in Hr; eauto).
        rewrite (rd_nth p (S c) 0) by lia. simpl. rewrite wr_ok by lia. simpl.
        split; [rewrite insert_length; done|]. split.
        + rewrite nth_insert_ne by lia. done.
        + intros c' Hc'. rewrite app_length. simpl. rewrite Nat.add_1_r, upto_S, app_length, Hc, <- HC by done.
          destruct (decide (c' = c)) as [->|Hne].
          * rewrite nth_insert_same, decide_True by (done || lia). simpl. lia.
          * rewrite nth_insert_ne, decide_False by (congruence || lia). simpl. lia. }
    apply wpo_never in H. destruct H as (p & E & H). exists p. split; done.
  Qed.

  Lemma agg_starts p c : length p = S nc -> nth 0 p 0 = 0 ->
     (forall c, c < nc -> nth (S c) p 0 = length (members_of cmap c)) -> c < nc ->
     prefix_sum_exclusive p !! S c = Some (gstart c).
  Proof.
    intros HL H0 HC Hc. rewrite prefix_sum_lookup by lia. f_equal. rewrite nsum_succ_l, H0. simpl.
    apply nsum_ext. intros i Hi. apply HC. lia.
  Qed.

  Lemma agg_fill_ok p : length p = S nc -> p !! 0 = Some 0 ->
     (forall c, c < nc -> p !! S c = Some (gstart c)) ->
     exists p' f, agg_fill cmap p = Ok (p', f) /\ length p' = S nc /\
       (forall c, c <= nc -> p' !! c = Some (gstart c)) /\
       buckets nc n gstart (members_of cmap) f.
  Proof.
    intros HL H0 HC.
    assert (H : wpo (agg_fill cmap p) never (fun pf => length (fst pf) = S nc /\ fst pf !! 0 = Some 0 /\
       (forall c, c < nc -> fst pf !! S c = Some (gstart c + length (upto cmap n c))) /\
       buckets nc n gstart (upto cmap n) (snd pf))).
    { unfold agg_fill. apply (ofold_seq_wp (fun k pf => length (fst pf) = S nc /\ fst pf !! 0 = Some 0 /\
       (forall c, c < nc -> fst pf !! S c = Some (gstart c + length (upto cmap k c))) /\
       buckets nc n gstart (upto cmap k) (snd pf))).
      - simpl. split; [done|]. split; [done|]. split; [intros c Hc; rewrite HC by done; f_equal; unfold upto; simpl; lia|].
        apply buckets_empty; [apply nsum_mono|..]; try (rewrite gstart_total; lia).
      - intros v [q f] Hv (HqL & Hq0 & Hqc & HB). simpl in *. destruct (cmap_lt v Hv) as (c & Hc & Hcn).
        rewrite (rd_ok _ _ _ Hc). simpl. rewrite (rd_ok _ _ _ (Hqc c Hcn)). simpl.
        destruct (buckets_wri nc n gstart (nsum_mono _ nc) ltac:(rewrite gstart_total; lia) _ _ c v HB Hcn) as (f' & Ef & HB').
        { unfold gstart at 2. simpl. pose proof (upto_lt v c Hv Hc). fold (gstart c). lia. }
        rewrite Ef. simpl. rewrite wr_ok by lia. simpl.
        split; [rewrite insert_length; done|]. split; [rewrite list_lookup_insert_ne by lia; done|]. split.
        + intros c' Hc'. rewrite upto_S, app_length, Hc. destruct (decide (c' = c)) as [->|Hne].
          * rewrite list_lookup_insert, decide_True by (done || lia). simpl. f_equal. lia.
          * rewrite list_lookup_insert_ne, decide_False by (congruence || lia). rewrite Hqc by done. simpl. f_equal. lia.
        + eapply buckets_ext; [|exact HB']. intros c' Hc'. rewrite upto_S, Hc. destruct (decide (c' = c)) as [->|Hne].
          * rewrite upd_same, decide_True by done. done.
          * rewrite upd_other, decide_False by congruence. rewrite app_nil_r. done. }
    apply wpo_never in H. destruct H as ([p' f] & E & HL' & H0' & HC' & HB). simpl in *. exists p', f.
    split; [done|]. split; [done|]. split; [|exact HB].
    intros c Hc. destruct c as [|c]; [rewrite H0'; done|]. rewrite HC' by lia. f_equal.
  Qed.

  Theorem agg_make_ok : exists a, agg_make cmap nc = Ok a /\ a_num_coarse a = nc /\ a_cmap a = cmap /\
     (forall c, c < nc -> agg_group a c = Ok (members_of cmap c)).
  Proof.
    destruct agg_count_ok as (p & Ep & HpL & Hp0 & Hpc).
    destruct (agg_fill_ok (prefix_sum_exclusive p)) as (p' & f & Ef & HL' & HC' & HB).
    { rewrite prefix_sum_length; done. }
    { rewrite prefix_sum_lookup by lia. done. }
    { intros c Hc. apply agg_starts; done. }
    destruct (buckets_full nc n gstart (nsum_mono _ nc) ltac:(rewrite gstart_total; lia) (members_of cmap) f) as (l & El & HlL & Hsl & _).
    { done. } { apply gstart_total. } { exact HB. } { intros c Hc. done. }
    unfold agg_make. rewrite Ep. simpl. rewrite Ef. simpl. rewrite El. simpl.
    eexists. split; [reflexivity|]. split; [done|]. split; [done|]. intros c Hc. unfold agg_group. simpl.
    rewrite (rd_ok _ _ _ (HC' c ltac:(lia))). simpl. rewrite (rd_ok _ _ _ (HC' (S c) ltac:(lia))). simpl.
    assert (gstart c <= gstart (S c)) by (apply (nsum_mono _ nc); done).
    pose proof (monoto_le nc gstart (S c) nc (nsum_mono _ nc) ltac:(lia) ltac:(lia)). rewrite gstart_total in *.
    rewrite (proj2 (Nat.ltb_ge _ _)) by lia. rewrite (proj2 (Nat.ltb_ge _ _)) by lia. rewrite Hsl by done. done.
  Qed.
End Agg.

(** ** Matchings *)
(** A matching of the vertices 0..n-1: partner is an involution without fixed points. *)
Definition matching_ok (n : nat) (m : matching) : Prop :=
  length m = n /\ forall a b, m !! a = Some (Some b) -> m !! b = Some (Some a) /\ a <> b.
Lemma matching_new n : matching_ok n (mb_new n).
Proof. split; [apply replicate_length|]. intros a b H. apply lookup_replicate_1 in H as [? ?]. done. Qed.
Lemma matching_lt n m a b : matching_ok n m -> m !! a = Some (Some b) -> a < n /\ b < n.
Proof. intros [HL H] Ha. pose proof (lookup_lt_Some _ _ _ Ha). destruct (H _ _ Ha) as [Hb _].
  apply lookup_lt_Some in Hb. lia. Qed.
Lemma mb_is_matched_ok m v x : m !! v = Some x -> mb_is_matched m v = Ok (bool_decide (is_Some x)).
Proof. intros H. unfold mb_is_matched. rewrite (rd_ok _ _ _ H). done. Qed.
Lemma mb_match_ok n m a b : matching_ok n m -> m !! a = Some None -> m !! b = Some None -> a <> b ->
  exists m', mb_match m a b = Ok m' /\ matching_ok n m' /\ m' = <[b := Some a]> (<[a := Some b]> m).
Proof.
  intros [HL H] Ha Hb Hne. unfold mb_match. pose proof (lookup_lt_Some _ _ _ Ha). pose proof (lookup_lt_Some _ _ _ Hb).
  rewrite wr_ok by done. simpl. rewrite wr_ok by (rewrite insert_length; done). eexists. split; [done|]. split; [|done].
  split; [rewrite !insert_length; done|]. intros x y Hx. 
  destruct (decide (x = b)) as [->|Hxb].
  - rewrite list_lookup_insert in Hx by (rewrite insert_length; done). injection Hx as <-.
    split; [|done]. rewrite list_lookup_insert_ne, list_lookup_insert by done. done.
  - rewrite list_lookup_insert_ne in Hx by done. destruct (decide (x = a)) as [->|Hxa].
    + rewrite list_lookup_insert in Hx by done. injection Hx as <-. split; [|done].
      rewrite list_lookup_insert by (rewrite insert_length; done). done.
    + rewrite list_lookup_insert_ne in Hx by done. destruct (H _ _ Hx) as [Hy Hxy]. split; [|done].
      rewrite !list_lookup_insert_ne by congruence. done.
Qed.


(** The coarse map built from a matching numbers the classes consecutively, in the order of
    their smallest vertices. *)
Definition lead (m : matching) (v : nat) : nat := match m !! v with Some (Some u) => Nat.min v u | _ => v end.
Definition rank (m : matching) (v : nat) : nat := length (filter (fun x => lead m x = x) (seq 0 v)).
Lemma lead_le m v : lead m v <= v.
Proof. unfold lead. destruct (m !! v) as [[u|]|]; lia. Qed.
Lemma rank_S m v : rank m (S v) = rank m v + (if decide (lead m v = v) then 1 else 0).
Proof.
  unfold rank. rewrite seq_S, filter_app, app_length. f_equal. rewrite filter_cons. simpl.
  destruct (decide (lead m v = v)); done.
Qed.
Lemma rank_mono m v w : v <= w -> rank m v <= rank m w.
Proof. induction w as [|w IH]; intros H; [replace v with 0 by lia; lia|].
  destruct (decide (v = S w)) as [->|]; [lia|]. rewrite rank_S. specialize (IH ltac:(lia)). lia. Qed.
Lemma rank_lt m v w : lead m v = v -> v < w -> rank m v < rank m w.
Proof. intros H Hw. pose proof (rank_mono m (S v) w ltac:(lia)). rewrite rank_S, decide_True in * by done. lia. Qed.
Lemma rank_inj m v w : lead m v = v -> lead m w = w -> rank m v = rank m w -> v = w.
Proof. intros Hv Hw E. destruct (lt_eq_lt_dec v w) as [[H|H]|H]; [|done|].
  - pose proof (rank_lt m v w Hv H). lia.
  - pose proof (rank_lt m w v Hw H). lia. Qed.
Lemma rank_surj m n c : c < rank m n -> exists v, v < n /\ lead m v = v /\ rank m v = c.
Proof.
  induction n as [|n IH]; intros H; [unfold rank in H; simpl in H; lia|].
  rewrite rank_S in H. destruct (decide (lead m n = n)) as [E|E].
  - destruct (decide (c = rank m n)) as [->|]; [exists n; split; [lia|]; done|].
    destruct (IH ltac:(lia)) as (v & ? & ? & ?). exists v. split; [lia|]; done.
  - destruct (IH ltac:(lia)) as (v & ? & ? & ?). exists v. split; [lia|]; done.
Qed.
Section MatchMap.
  Context (n : nat) (m : matching) (Hm : matching_ok n m).
  Lemma lead_lead v : lead m (lead m v) = lead m v.
  Proof.
    destruct Hm as [HL H]. unfold lead at 2 3. destruct (m !! v) as [[u|]|] eqn:E.
    - destruct (H _ _ E) as [E' Hne]. destruct (decide (v < u)).
      + replace (Nat.min v u) with v by lia. unfold lead. rewrite E. lia.
      + replace (Nat.min v u) with u by lia. unfold lead. rewrite E'. lia.
    - unfold lead. rewrite E. done.
    - unfold lead. rewrite E. done.
  Qed.
  Lemma lead_eq v w : lead m v = lead m w <-> v = w \/ m !! v = Some (Some w).
  Proof.
    destruct Hm as [HL H]. split.
    - unfold lead. intros E. destruct (decide (v = w)) as [|Hne]; [by left|]. right.
      destruct (m !! v) as [[u|]|] eqn:Ev; destruct (m !! w) as [[x|]|] eqn:Ew.
      + pose proof (H _ _ Ev) as [Hu Hu2]. pose proof (H _ _ Ew) as [Hx Hx2].
        assert (u = w \/ x = v \/ u = x) as Hc by lia. destruct Hc as [Hc|[Hc|Hc]]; subst; congruence.
      + destruct (H _ _ Ev) as [Hu Hu2]. assert (u = w) by lia. congruence.
      + destruct (H _ _ Ev) as [Hu Hu2]. assert (u = w) by lia. congruence.
      + destruct (H _ _ Ew) as [Hx Hx2]. assert (x = v) by lia. subst. congruence.
      + done.
      + done.
      + destruct (H _ _ Ew) as [Hx Hx2]. assert (x = v) by lia. subst. congruence.
      + done.
      + done.
    - intros [->|E]; [done|]. destruct (H _ _ E) as [E' _]. unfold lead. rewrite E, E'. lia.
  Qed.
  Lemma mb_cmap_ok : exists a, mb_cmap m = Ok (a, rank m n) /\ frozen a = Ok ((fun v => rank m (lead m v)) <$> seq 0 n).
  Proof.
    destruct Hm as [HL H].
    assert (HH : wpo (mb_cmap m) never (fun st => length (fst st) = n /\ snd st = rank m n /\
      forall w, w < n -> fst st !! w = Some (if decide (lead m w < n) then Some (rank m (lead m w)) else None))).
    { unfold mb_cmap. rewrite HL.
      eapply wpo_post; [apply (ofold_seq_wp (fun k st => length (fst st) = n /\ snd st = rank m k /\
        forall w, w < n -> fst st !! w = Some (if decide (lead m w < k) then Some (rank m (lead m w)) else None)))|intros ? Hx; exact Hx].
      - cbn [fst snd]. split; [apply replicate_length|]. split; [done|]. intros w Hw. rewrite decide_False by lia.
        apply lookup_replicate. done.
      - intros v [c k] Hv (HcL & Hk & HC). simpl in *. subst k.
        destruct (lookup_lt_is_Some_2 m v ltac:(lia)) as [x Hx]. rewrite (rd_ok _ _ _ Hx). simpl.
        destruct x as [u|].
        + destruct (H _ _ Hx) as [Hu Hne]. assert (u < n) by (apply lookup_lt_Some in Hu; lia).
          destruct (Nat.ltb_spec v u).
          * rewrite wri_ok by lia. simpl. rewrite wri_ok by (rewrite insert_length; lia). simpl.
            assert (Hlv : lead m v = v) by (unfold lead; rewrite Hx; lia).
            assert (Hlu : lead m u = v) by (unfold lead; rewrite Hu; lia).
            split; [rewrite !insert_length; done|]. split; [rewrite rank_S, decide_True by done; lia|].
            intros w Hw. destruct (decide (w = u)) as [->|Hwu].
            -- rewrite list_lookup_insert by (rewrite insert_length; lia). rewrite Hlu, decide_True by lia. done.
            -- rewrite list_lookup_insert_ne by done. destruct (decide (w = v)) as [->|Hwv].
               ++ rewrite list_lookup_insert by lia. rewrite Hlv, decide_True by lia. done.
               ++ rewrite list_lookup_insert_ne by done. rewrite HC by done. f_equal.
                  assert (lead m w <> v).
                  { intros E. rewrite <- Hlv in E. apply lead_eq in E as [|E]; [done|].
                    destruct (H _ _ E) as [E' _]. congruence. }
                  destruct (decide (lead m w < v)); [rewrite decide_True by lia; done|rewrite decide_False by lia; done].
          * simpl. assert (Hlv : lead m v = u) by (unfold lead; rewrite Hx; lia).
            split; [done|]. split; [rewrite rank_S, decide_False by lia; lia|].
            intros w Hw. rewrite HC by done. f_equal.
            assert (lead m w <> v). { intros E. pose proof (lead_lead w) as E2. rewrite E in E2. lia. }
            destruct (decide (lead m w < v)); [rewrite decide_True by lia; done|rewrite decide_False by lia; done].
        + rewrite wri_ok by lia. simpl. assert (Hlv : lead m v = v) by (unfold lead; rewrite Hx; lia).
          split; [rewrite insert_length; done|]. split; [rewrite rank_S, decide_True by done; lia|].
          intros w Hw. destruct (decide (w = v)) as [->|Hwv].
          * rewrite list_lookup_insert by lia. rewrite Hlv, decide_True by lia. done.
          * rewrite list_lookup_insert_ne by done. rewrite HC by done. f_equal.
            assert (lead m w <> v).
            { intros E. rewrite <- Hlv in E. apply lead_eq in E as [|E]; [done|].
              destruct (H _ _ E) as [E' _]. congruence. }
            destruct (decide (lead m w < v)); [rewrite decide_True by lia; done|rewrite decide_False by lia; done]. }
    apply wpo_never in HH. destruct HH as ([a k] & E & HaL & Hk & HC). simpl in *. exists a. subst k. split; [done|].
    rewrite (frozen_ok a (fun v => rank m (lead m v))), HaL; [done|].
    intros i Hi. rewrite HC by lia. rewrite decide_True by (pose proof (lead_le m i); lia). done.
  Qed.

  (** Aggregation built from a matching *)
  Record agg_of_matching (a : aggregation) : Prop := {
    am_len : length (a_cmap a) = n;
    am_range : forall v, v < n -> exists c, a_cmap a !! v = Some c /\ c < a_num_coarse a;
    am_onto : forall c, c < a_num_coarse a -> exists v, v < n /\ a_cmap a !! v = Some c;
    am_same : forall v w, v < n -> w < n -> (a_cmap a !! v = a_cmap a !! w <-> v = w \/ m !! v = Some (Some w));
    am_group : forall c, c < a_num_coarse a -> agg_group a c = Ok (members_of (a_cmap a) c)
  }.
  Lemma mb_build_ok : exists a, mb_build m = Ok a /\ agg_of_matching a.
  Proof.
    destruct mb_cmap_ok as (a & E & Ef). unfold mb_build. rewrite E. simpl. rewrite Ef. simpl.
    set (cm := (fun v => rank m (lead m v)) <$> seq 0 n).
    assert (HcL : length cm = n) by (unfold cm; rewrite fmap_length, seq_length; done).
    assert (Hc : forall v, v < n -> cm !! v = Some (rank m (lead m v))).
    { intros v Hv. unfold cm. rewrite list_lookup_fmap, lookup_seq_lt by done. done. }
    assert (Hr : Forall (fun c => c < rank m n) cm).
    { apply Forall_lookup_2. intros i x Hx. assert (i < n) by (apply lookup_lt_Some in Hx; lia). rewrite Hc in Hx by done.
      injection Hx as <-. pose proof (lead_le m i). apply rank_lt; [apply lead_lead|lia]. }
    destruct (agg_make_ok cm (rank m n) Hr) as (b & Eb & Hnc & Hcm & Hg). exists b. split; [done|].
    constructor; rewrite ?Hcm, ?Hnc.
    - done.
    - intros v Hv. rewrite Hc by done. eexists. split; [done|]. pose proof (lead_le m v). apply rank_lt; [apply lead_lead|lia].
    - intros c Hcr. destruct (rank_surj m n c Hcr) as (v & Hv & Hl & Hk). exists v. split; [done|]. rewrite Hc by done.
      rewrite Hl. congruence.
    - intros v w Hv Hw. rewrite !Hc by done. rewrite <- lead_eq. split; [|congruence].
      intros [= E2]. apply rank_inj in E2; [done|apply lead_lead..].
    - done.
  Qed.
  Lemma members_le2 a : agg_of_matching a -> forall c, c < a_num_coarse a ->
    exists v, members_of (a_cmap a) c = [v] \/ exists w, members_of (a_cmap a) c = [v; w] /\ m !! v = Some (Some w).
  Proof.
    intros Ha c Hc. destruct (am_onto a Ha c Hc) as (v0 & Hv0 & E0).
    assert (Hnd : NoDup (members_of (a_cmap a) c)) by (apply NoDup_filter, NoDup_seq).
    assert (Hin : forall v, v ∈ members_of (a_cmap a) c -> v < n /\ a_cmap a !! v = Some c).
    { intros v Hv. apply elem_members in Hv. split; [|done]. rewrite <- (am_len a Ha). eapply lookup_lt_Some; eauto. }
    destruct (members_of (a_cmap a) c) as [|v [|w [|x l]]] eqn:E.
    - exfalso. assert (v0 ∈ members_of (a_cmap a) c) as H by (apply elem_members; done). rewrite E in H. set_solver.
    - exists v. by left.
    - exists v. right. exists w. split; [done|].
      destruct (Hin v ltac:(set_solver)) as [Hv Ev]. destruct (Hin w ltac:(set_solver)) as [Hw Ew].
      destruct (proj1 (am_same a Ha v w Hv Hw) ltac:(congruence)) as [->|]; [|done].
      apply NoDup_cons in Hnd as [Hnd _]. set_solver.
    - exfalso. destruct (Hin v ltac:(set_solver)) as [Hv Ev]. destruct (Hin w ltac:(set_solver)) as [Hw Ew].
      destruct (Hin x ltac:(set_solver)) as [Hx Ex].
      assert (v <> w /\ v <> x /\ w <> x) as (? & ? & ?).
      { apply NoDup_cons in Hnd as [H1 Hnd]. apply NoDup_cons in Hnd as [H2 Hnd]. set_solver. }
      destruct (proj1 (am_same a Ha v w Hv Hw) ltac:(congruence)) as [|E1]; [done|].
      destruct (proj1 (am_same a Ha v x Hv Hx) ltac:(congruence)) as [|E2]; [done|]. congruence.
  Qed.
End MatchMap.

(** ** Visiting one vertex *)
(** u is a possible partner of v: an unmatched neighbour whose combined weight the code accepts. *)
Definition cand (g : graph) (maxW : Z) (m : matching) (v : nat) (a : nat * Z) : Prop :=
  a ∈ out g v /\ m !! fst a = Some None /\ is_allowed_vertex_weight maxW (u32 (vweight g v + vweight g (fst a))) = true.

Section Visit.
  Context (g : graph) (Hwf : wf_graph g) (maxW : Z).

  Lemma first_allowed_ok m v es : length m = nv g -> v < nv g ->
    (forall e, e ∈ es -> e < ne g /\ (nth e (g_adj g) 0, wgt_at (g_ew g) e) ∈ out g v) ->
    exists r, first_allowed g maxW (vweight g v) m es = Ok r /\
      match r with
      | Some u => exists w, cand g maxW m v (u, w)
      | None => forall e, e ∈ es -> ~ cand g maxW m v (nth e (g_adj g) 0, wgt_at (g_ew g) e)
      end.
  Proof.
    intros Hm Hv. induction es as [|e es IH]; intros Hes; simpl.
    - eexists. split; [done|]. simpl. intros e He. set_solver.
    - destruct (Hes e ltac:(set_solver)) as [He Ho]. rewrite dst_ok by done. simpl.
      set (u := nth e (g_adj g) 0) in *. assert (Hu : u < nv g) by (apply wf_dst; done).
      rewrite vwt_ok by done. simpl. destruct (lookup_lt_is_Some_2 m u ltac:(lia)) as [x Hx].
      rewrite (mb_is_matched_ok _ _ _ Hx). simpl.
      destruct (negb (bool_decide (is_Some x)) && is_allowed_vertex_weight maxW (u32 (vweight g v + vweight g u))) eqn:E.
      + eexists. split; [done|]. simpl. exists (wgt_at (g_ew g) e).
        apply andb_true_iff in E as [E1 E2]. split; [done|]. split; [|done]. simpl.
        destruct x; [|done]. rewrite bool_decide_eq_true_2 in E1 by eauto. done.
      + destruct IH as (r & Er & Hr); [intros; apply Hes; set_solver|]. rewrite Er. eexists. split; [done|].
        destruct r as [y|]; [done|]. intros e' He'. apply elem_of_cons in He' as [->|He']; [|apply Hr; done].
        intros (H1 & H2 & H3). simpl in H2, H3. fold u in H2, H3. rewrite Hx in H2. injection H2 as ->. rewrite H3 in E. done.
  Qed.

  (** The outcome of a visit that respects the candidates. *)
  Definition visit_res (m : matching) (v : nat) (m' : matching) : Prop :=
    (m' = m /\ (m !! v = Some None -> forall a, ~ cand g maxW m v a)) \/
    (m !! v = Some None /\ exists u w, cand g maxW m v (u, w) /\ m' = <[u := Some v]> (<[v := Some u]> m)).

  Lemma out_of_range v e : v < nv g -> e ∈ seq (pre_at g v) (pre_at g (S v) - pre_at g v) ->
    e < ne g /\ (nth e (g_adj g) 0, wgt_at (g_ew g) e) ∈ out g v.
  Proof.
    intros Hv He. split; [eapply edge_in_range; eauto|]. unfold out.
    apply elem_of_list_fmap. exists e. done.
  Qed.

  Lemma rm_visit_ok m v : loopless g -> matching_ok (nv g) m -> v < nv g ->
    exists m', rm_visit g maxW m v = Ok m' /\ visit_res m v m'.
  Proof.
    intros Hl Hm Hv. pose proof Hm as [HL _]. unfold rm_visit.
    destruct (lookup_lt_is_Some_2 m v ltac:(lia)) as [x Hx]. rewrite (mb_is_matched_ok _ _ _ Hx). simpl.
    destruct x as [u|]; [rewrite bool_decide_eq_true_2 by eauto; eexists; split; [done|]; left; split; [done|]; congruence|].
    rewrite bool_decide_eq_false_2 by (intros [? ?]; done).
    rewrite vwt_ok by done. simpl. rewrite edge_range_ok by done. simpl.
    destruct (first_allowed_ok m v (seq (pre_at g v) (pre_at g (S v) - pre_at g v))) as (r & Er & Hr);
      [done|done|intros; apply out_of_range; done|]. rewrite Er. simpl. destruct r as [u|].
    - destruct Hr as (w & Hc). pose proof Hc as (H1 & H2 & H3). simpl in *.
      destruct (mb_match_ok (nv g) m v u) as (m' & E & Hm' & Hmm); [done..|intros ->; eapply Hl; eauto|].
      exists m'. split; [done|]. right. split; [done|]. exists u, w. done.
    - exists m. split; [done|]. left. split; [done|]. intros _ a Ha. pose proof Ha as (H1 & _).
      unfold out in H1. apply elem_of_list_fmap in H1 as (e & -> & He). eapply Hr; eauto.
  Qed.

  (** Heavy-edge choice: a heaviest candidate. *)
  Lemma heaviest_ok m v : length (g_ew g) = ne g -> length m = nv g -> v < nv g ->
    exists r, heaviest g maxW (vweight g v) m (seq (pre_at g v) (pre_at g (S v) - pre_at g v)) = Ok r /\
      match fst r with
      | Some u => cand g maxW m v (u, snd r) /\ forall a, cand g maxW m v a -> (snd a <= snd r)%Z
      | None => forall a, ~ cand g maxW m v a
      end.
  Proof.
    intros Hew Hm Hv.
    pose (okc := fun a : nat * Z => m !! fst a = Some None /\ is_allowed_vertex_weight maxW (u32 (vweight g v + vweight g (fst a))) = true).
    assert (H : wpo (for_edges g v (fun best e =>
      let! u := dst g e in let! uw := vwt (has_vw g) g u in let! mt := mb_is_matched m u in
      if negb mt && is_allowed_vertex_weight maxW (u32 (vweight g v + uw)) then
        let! pr := ewt true g e in
        Ok (if bool_decide (fst best = None) || (snd best <? pr)%Z then (Some u, pr) else best)
      else Ok best) (None, 0%Z)) never (fun r => match fst r with
      | Some u => (u, snd r) ∈ out g v /\ okc (u, snd r) /\ forall a, a ∈ out g v -> okc a -> (snd a <= snd r)%Z
      | None => forall a, a ∈ out g v -> ~ okc a
      end)).
    { eapply wpo_post; [apply (for_edges_wp g Hwf v (fun pre (r : option nat * Z) => match fst r with
      | Some u => (u, snd r) ∈ pre /\ okc (u, snd r) /\ forall a, a ∈ pre -> okc a -> (snd a <= snd r)%Z
      | None => forall a, a ∈ pre -> ~ okc a end)); [done|set_solver|]|intros ? Hx; exact Hx].
      intros pre e [u w] post best Eo (He & Hd & Hw & Hwe & Hu & Hwr) IH. simpl in *. rewrite Hd. simpl.
      rewrite vwt_ok by done. simpl. destruct (lookup_lt_is_Some_2 m u ltac:(lia)) as [x Hx].
      rewrite (mb_is_matched_ok _ _ _ Hx). simpl.
      destruct (negb (bool_decide (is_Some x)) && is_allowed_vertex_weight maxW (u32 (vweight g v + vweight g u))) eqn:E.
      - pose proof (ewt_true_ok g e Hew He) as Hewt. simpl in Hewt. rewrite Hewt. simpl. rewrite <- Hwe.
        apply andb_true_iff in E as [E1 E2].
        assert (okc (u, w)). { split; [|done]. simpl. destruct x; [|done]. rewrite bool_decide_eq_true_2 in E1 by eauto. done. }
        destruct best as [[bu|] bw]; simpl in *.
        + destruct IH as (I1 & I2 & I3). destruct (Z.ltb_spec bw w); simpl.
          * split; [set_solver|]. split; [done|]. intros a Ha Hoa. apply elem_of_app in Ha as [Ha|Ha].
            -- specialize (I3 a Ha Hoa). lia.
            -- apply elem_of_list_singleton in Ha as ->. simpl. lia.
          * split; [set_solver|]. split; [done|]. intros a Ha Hoa. apply elem_of_app in Ha as [Ha|Ha].
            -- specialize (I3 a Ha Hoa). lia.
            -- apply elem_of_list_singleton in Ha as ->. simpl. lia.
        + split; [set_solver|]. split; [done|]. intros a Ha Hoa. apply elem_of_app in Ha as [Ha|Ha].
          * exfalso. eapply IH; eauto.
          * apply elem_of_list_singleton in Ha as ->. simpl. lia.
      - assert (~ okc (u, w)). { intros [O1 O2]. simpl in O1, O2. rewrite Hx in O1. injection O1 as ->. rewrite O2 in E. done. }
        simpl. destruct best as [[bu|] bw]; simpl in *.
        + destruct IH as (I1 & I2 & I3). split; [set_solver|]. split; [done|]. intros a Ha Hoa.
          apply elem_of_app in Ha as [Ha|Ha]; [by apply I3|]. apply elem_of_list_singleton in Ha as ->. done.
        + intros a Ha Hoa. apply elem_of_app in Ha as [Ha|Ha]; [by eapply IH|]. apply elem_of_list_singleton in Ha as ->. done. }
    unfold for_edges in H. rewrite edge_range_ok in H by done. simpl in H.
    apply wpo_never in H. destruct H as (r & E & H). exists r. split; [exact E|].
    destruct (fst r).
    - destruct H as (H1 & [H2 H3] & H4). split; [split; [done|]; done|]. intros a (A1 & A2 & A3). apply H4; [done|]. split; done.
    - intros a (A1 & A2 & A3). eapply H; [exact A1|]. split; done.
  Qed.

  Lemma shem_visit_ok m v : loopless g -> length (g_ew g) = ne g -> matching_ok (nv g) m -> v < nv g ->
    exists m', shem_visit g maxW m v = Ok m' /\
      ((m' = m /\ (m !! v = Some None -> forall a, ~ cand g maxW m v a)) \/
       (m !! v = Some None /\ exists u w, cand g maxW m v (u, w) /\ (forall a, cand g maxW m v a -> (snd a <= w)%Z) /\
          m' = <[u := Some v]> (<[v := Some u]> m))).
  Proof.
    intros Hl Hew Hm Hv. pose proof Hm as [HL _]. unfold shem_visit.
    destruct (lookup_lt_is_Some_2 m v ltac:(lia)) as [x Hx]. rewrite (mb_is_matched_ok _ _ _ Hx). simpl.
    destruct x as [u|]; [rewrite bool_decide_eq_true_2 by eauto; eexists; split; [done|]; left; split; [done|]; congruence|].
    rewrite bool_decide_eq_false_2 by (intros [? ?]; done).
    rewrite vwt_ok by done. simpl. rewrite edge_range_ok by done. simpl.
    destruct (heaviest_ok m v) as ([r wr'] & Er & Hr); [done..|]. rewrite Er. simpl in *. destruct r as [u|].
    - destruct Hr as [Hc Hmax]. pose proof Hc as (H1 & H2 & H3). simpl in *.
      destruct (mb_match_ok (nv g) m v u) as (m' & E & Hm' & Hmm); [done..|intros ->; eapply Hl; eauto|].
      exists m'. split; [done|]. right. split; [done|]. exists u, wr'. done.
    - exists m. split; [done|]. left. split; [done|]. intros _ a Ha. eapply Hr; eauto.
  Qed.

  (** ** The whole sweep *)
  Record sweep_ok (visited : nat -> Prop) (m : matching) : Prop := {
    sw_m : matching_ok (nv g) m;
    sw_adj : forall a b, m !! a = Some (Some b) -> exists w, (b, w) ∈ out g a \/ (a, w) ∈ out g b;
    sw_allowed : forall a b, m !! a = Some (Some b) -> is_allowed_vertex_weight maxW (u32 (vweight g a + vweight g b)) = true;
    sw_max : forall v, visited v -> m !! v = Some None -> forall a, ~ cand g maxW m v a
  }.
  Lemma sweep_step (vis vis' : nat -> Prop) m v m' : loopless g -> v < nv g -> (forall x, vis' x -> vis x \/ x = v) ->
    sweep_ok vis m -> visit_res m v m' -> sweep_ok vis' m'.
  Proof.
    intros Hl Hv Hvis [S1 S2 S3 S4] [[-> Hno]|(Hvn & u & w & Hc & ->)].
    - constructor; [done..|]. intros x Hx Hn. destruct (Hvis x Hx) as [| ->]; [by apply S4|]. by apply Hno.
    - pose proof Hc as (C1 & C2 & C3). simpl in *. pose proof S1 as [SL Sm].
      assert (Hne : v <> u) by (intros ->; eapply Hl; eauto).
      destruct (mb_match_ok (nv g) m v u) as (m' & E & Hm' & Hmm); [done..|].
      assert (Hlk : forall x y, <[u := Some v]> (<[v := Some u]> m) !! x = Some y ->
         (x = u /\ y = Some v) \/ (x = v /\ y = Some u) \/ (x <> u /\ x <> v /\ m !! x = Some y)).
      { intros x y Hx. destruct (decide (x = u)) as [->|].
        - rewrite list_lookup_insert in Hx by (rewrite insert_length; apply lookup_lt_Some in C2; lia). left. split; congruence.
        - rewrite list_lookup_insert_ne in Hx by done. destruct (decide (x = v)) as [->|].
          + rewrite list_lookup_insert in Hx by lia. right. left. split; congruence.
          + rewrite list_lookup_insert_ne in Hx by done. right. right. done. }
      constructor.
      + rewrite <- Hmm. done.
      + intros a b Hab. destruct (Hlk _ _ Hab) as [[-> [= ->]]|[[-> [= ->]]|(_ & _ & H)]].
        * exists w. by right.
        * exists w. by left.
        * by apply S2.
      + intros a b Hab. destruct (Hlk _ _ Hab) as [[-> [= ->]]|[[-> [= ->]]|(_ & _ & H)]].
        * rewrite Z.add_comm. done.
        * done.
        * by apply S3.
      + intros x Hx Hn [y wy] (Y1 & Y2 & Y3). simpl in *.
        destruct (Hlk _ _ Hn) as [[_ ?]|[[_ ?]|(X1 & X2 & HX)]]; [done..|].
        destruct (Hlk _ _ Y2) as [[_ ?]|[[_ ?]|(X3 & X4 & HY)]]; [done..|].
        destruct (Hvis x Hx) as [Hx'|]; [|done]. eapply (S4 x Hx' HX (y, wy)). split; [done|]. split; done.
  Qed.
  Lemma sweep_start : sweep_ok (fun _ => False) (mb_new (nv g)).
  Proof.
    constructor; [apply matching_new|..]; try done.
    - intros a b H. apply lookup_replicate_1 in H as [? ?]. done.
    - intros a b H. apply lookup_replicate_1 in H as [? ?]. done.
  Qed.
  Lemma sweep_wp (visit : matching -> nat -> outcome matching) perm : loopless g -> perm ≡ₚ seq 0 (nv g) ->
    (forall m v, matching_ok (nv g) m -> v < nv g -> exists m', visit m v = Ok m' /\ visit_res m v m') ->
    wpo (ofold visit (mb_new (nv g)) perm) never (sweep_ok (fun v => v < nv g)).
  Proof.
    intros Hl Hp Hvisit. eapply wpo_post.
    - apply (ofold_wp (fun pre m => sweep_ok (fun v => v ∈ pre) m)).
      + pose proof sweep_start as [S1 S2 S3 S4]. constructor; try done. intros v Hv. set_solver.
      + intros pre v post m E Hs. assert (Hv : v < nv g).
        { assert (v ∈ perm) as H by (rewrite E; set_solver). rewrite Hp in H. apply elem_of_seq in H. lia. }
        destruct (Hvisit m v (sw_m _ _ Hs) Hv) as (m' & Em & Hm'). rewrite Em. simpl.
        eapply sweep_step; [done|exact Hv| |exact Hs|exact Hm']. intros x Hx. set_solver.
    - intros m [S1 S2 S3 S4]. constructor; [done..|]. intros v Hv. apply S4. rewrite Hp. apply elem_of_seq. lia.
  Qed.
  Lemma rm_matching_wp : loopless g -> wpm (rm_matching maxW g) never (sweep_ok (fun v => v < nv g)).
  Proof.
    intros Hl. unfold rm_matching. eapply wpm_bind; [apply random_order_wp; done|]. intros perm Hp.
    apply wpm_lift. apply sweep_wp; [done| |intros; apply rm_visit_ok; done].
    unfold vs_iter, range in Hp. simpl in Hp. rewrite Nat.sub_0_r in Hp. exact Hp.
  Qed.
  Lemma shem_matching_wp : loopless g -> length (g_ew g) = ne g -> wpm (shem_matching maxW g) never (sweep_ok (fun v => v < nv g)).
  Proof.
    intros Hl Hew. unfold shem_matching. eapply wpm_bind; [apply degree_sorted_wp; done|]. intros perm [Hp _].
    unfold vs_iter, range in Hp. simpl in Hp. rewrite Nat.sub_0_r in Hp.
    apply wpm_lift. apply sweep_wp; [done|exact Hp|].
    - intros m v Hm Hv. destruct (shem_visit_ok m v Hl Hew Hm Hv) as (m' & E & H). exists m'. split; [done|].
      destruct H as [H|(H1 & u & w & H2 & _ & H3)]; [by left|]. right. split; [done|]. exists u, w. done.
  Qed.
End Visit.

(** ** Aggregators *)
(** What all three aggregators deliver. *)
Record agg_result (g : graph) (maxW : Z) (a : aggregation) : Prop := {
  ar_grouping : grouping (nv g) a;
  ar_size : forall c, c < a_num_coarse a -> exists v, agg_group a c = Ok [v] \/ exists w, agg_group a c = Ok [v; w] /\ v <> w /\ adjacent g v w;
  ar_adj : forall v w, together a v w -> v <> w -> adjacent g v w;
  ar_allowed : forall v w, together a v w -> v <> w -> is_allowed_vertex_weight maxW (u32 (vweight g v + vweight g w)) = true;
  ar_max : forall v w, v < nv g -> w < nv g -> adjacent g v w -> v <> w ->
    (forall x, together a v x -> x = v) -> (forall x, together a w x -> x = w) -> (maxW < vweight g v + vweight g w)%Z
}.
Lemma build_result g maxW m : wf_graph g -> sweep_ok g maxW (fun v => v < nv g) m ->
  exists a, mb_build m = Ok a /\ agg_result g maxW a.
Proof.
  intros Hwf [S1 S2 S3 S4]. destruct (mb_build_ok _ _ S1) as (a & E & Ha). exists a. split; [done|].
  destruct Ha as [A1 A2 A3 A4 A5] eqn:EA. clear EA.
  assert (Hlt : forall v c, a_cmap a !! v = Some c -> v < nv g) by (intros v c H; rewrite <- A1; eapply lookup_lt_Some; eauto).
  assert (Htog : forall v w, together a v w -> v <> w -> m !! v = Some (Some w)).
  { intros v w (c & Hv & Hw) Hne. destruct (proj1 (A4 v w (Hlt _ _ Hv) (Hlt _ _ Hw)) ltac:(congruence)); done. }
  assert (Hsingle : forall v, v < nv g -> (forall x, together a v x -> x = v) -> m !! v = Some None).
  { intros v Hv H. pose proof S1 as [SL SI]. destruct (lookup_lt_is_Some_2 m v ltac:(lia)) as [[u|] Hu]; [|done].
    exfalso. destruct (SI _ _ Hu) as [Hu' Hne]. apply Hne. symmetry. apply H.
    destruct (A2 v Hv) as (c & Hc & _). exists c. split; [done|].
    rewrite <- Hc. symmetry. apply A4; [done|apply lookup_lt_Some in Hu'; lia|]. by right. }
  constructor.
  - split; [done|]. split.
    + apply Forall_lookup_2. intros i c Hc. destruct (A2 i (Hlt _ _ Hc)) as (c' & Hc' & ?). congruence.
    + intros c Hc. rewrite A5 by done. unfold members_of. rewrite A1. done.
  - intros c Hc. destruct (members_le2 _ _ S1 a Ha c Hc) as (v & [H|(w & H & Hm)]); exists v.
    + left. rewrite A5, H by done. done.
    + right. exists w. split; [rewrite A5, H by done; done|]. split; [apply S1 in Hm; tauto|]. apply S2. done.
  - intros v w Ht Hne. apply S2. apply Htog; done.
  - intros v w Ht Hne. apply S3. apply Htog; done.
  - intros v w Hv Hw (x & Hx) Hne Hsv Hsw. apply Hsingle in Hsv; [|done]. apply Hsingle in Hsw; [|done].
    assert (Hal : is_allowed_vertex_weight maxW (u32 (vweight g v + vweight g w)) <> true).
    { intros HH. destruct Hx as [Hx|Hx].
      - apply (S4 v Hv Hsv (w, x)). split; [done|]. split; done.
      - apply (S4 w Hw Hsw (v, x)). split; [done|]. split; [done|]. simpl. rewrite Z.add_comm. done. }
    unfold is_allowed_vertex_weight in Hal. rewrite orb_true_iff, Z.leb_le in Hal.
    pose proof (wf_vw_range g Hwf v). pose proof (wf_vw_range g Hwf w). unfold u32, W32 in *. lia.
Qed.
Lemma rm_aggregate_wp g maxW : wf_graph g -> loopless g -> wpm (rm_aggregate maxW g) never (agg_result g maxW).
Proof.
  intros Hwf Hl. unfold rm_aggregate. eapply wpm_bind; [apply rm_matching_wp; done|]. intros m Hm.
  destruct (build_result g maxW m Hwf Hm) as (a & E & Ha). rewrite E. apply wpm_lift. done.
Qed.
Lemma shem_aggregate_wp g maxW : wf_graph g -> loopless g -> length (g_ew g) = ne g -> wpm (shem_aggregate maxW g) never (agg_result g maxW).
Proof.
  intros Hwf Hl Hew. unfold shem_aggregate. eapply wpm_bind; [apply shem_matching_wp; done|]. intros m Hm.
  destruct (build_result g maxW m Hwf Hm) as (a & E & Ha). rewrite E. apply wpm_lift. done.
Qed.
Lemma shemrm_aggregate_wp g maxW : wf_graph g -> loopless g -> wpm (shemrm_aggregate maxW g) never (agg_result g maxW).
Proof.
  intros Hwf Hl. unfold shemrm_aggregate. destruct (g_uew g) eqn:E; [apply rm_aggregate_wp; done|].
  apply shem_aggregate_wp; [done..|]. apply wf_uew_f; done.
Qed.
Lemma result_weight g maxW a v w : wf_graph g -> (sumn (nv g) (vweight g) < NULL_WGT)%Z -> agg_result g maxW a ->
  together a v w -> v <> w -> (vweight g v + vweight g w <= maxW)%Z.
Proof.
  intros Hwf Ht Ha Hvw Hne. pose proof (ar_allowed _ _ _ Ha v w Hvw Hne) as H.
  unfold is_allowed_vertex_weight in H. rewrite orb_true_iff, Z.leb_le, Z.eqb_eq in H.
  destruct (ar_grouping _ _ _ Ha) as (GL & _). destruct Hvw as (c & Hv & Hw).
  apply lookup_lt_Some in Hv, Hw. rewrite GL in Hv, Hw.
  assert (vweight g v + vweight g w <= sumn (nv g) (vweight g))%Z.
  { rewrite (sumn_split _ _ v) by done.
    pose proof (sumn_elem_le (nv g) (fun u => if decide (u = v) then 0 else vweight g u)%Z w) as H2.
    cbv beta in H2. destruct (decide (w = v)); [done|].
    apply Zplus_le_compat_l. apply H2; [|done]. intros u _. pose proof (wf_vw_range g Hwf u). destruct (decide (u = v)); lia. }
  pose proof (wf_vw_range g Hwf v). pose proof (wf_vw_range g Hwf w).
  rewrite u32_small in H by (unfold W32, NULL_WGT in *; lia). unfold NULL_WGT in *. lia.
Qed.
