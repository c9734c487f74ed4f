(** * SafeFM: FM refinement on EVERY well-formed graph.

    Symmetry, absence of self loops and fitting weights are not assumed: the connectivity may
    then be wrong (it wraps around), but every access stays in bounds, every queue operation
    respects its contract and every pass ends.  The only failure left is the int32 overflow of
    a gain. *)
From Verif Require Import Base F64 ModelGraph ModelPartition ModelConn ModelFM Spec Logic Sums GraphFacts PartFacts ConnFacts FMFacts RecFacts LabelFacts.

Definition overflow : failure -> Prop := fun f => f = UB SignedOverflow.

Definition conn_safe (n : nat) (c : conn) : Prop :=
  length (c_int c) = n /\ length (c_ext c) = n /\ length (c_border c) = n /\
  (forall v x, c_int c !! v = Some x -> 0 <= x)%Z /\ (forall v x, c_ext c !! v = Some x -> 0 <= x)%Z.
(** u is in the queue of side i. *)
Definition queued (s : fm) (i u : nat) : Prop :=
  nth u (fm_vis s) false = false /\ lab (fm_part s) u = Some i /\ nth u (c_border (fm_conn s)) false = true.
Definition qsafe (n : nat) (s : fm) : Prop := forall u i, u < n -> i < 2 ->
  exists x, fm_q s i !! u = Some x /\ (is_Some x <-> queued s i u).

Section Safe.
  Context (g : graph) (Hwf : wf_graph g).
  Context (E : failure -> Prop) (HE : E (UB SignedOverflow)).
  Definition fm_safe (s : fm) : Prop := two_labels g (fm_part s) /\ conn_safe (nv g) (fm_conn s) /\
    length (fm_q0 s) = nv g /\ length (fm_q1 s) = nv g /\ length (fm_vis s) = nv g.

  Lemma two_lab p u : two_labels g p -> u < nv g -> exists h, h < 2 /\ p_where p !! u = Some (Some h) /\ lab p u = Some h.
  Proof. intros [_ [_ H]] Hu. destruct (H u Hu) as (h & Hh & Eh). exists h. split; [done|]. split; [done|]. by apply labw_lookup. Qed.
  Lemma i32_wp z : wpo (i32 z) E (fun _ => True).
  Proof. unfold i32. case_decide; done. Qed.
  Lemma vertex_delta_wp c v : conn_safe (nv g) c -> v < nv g -> wpo (vertex_delta c v) E (fun _ => True).
  Proof.
    intros (Li & Le & _) Hv. unfold vertex_delta. rewrite (rd_nth _ _ 0%Z) by lia. cbn [obind]. rewrite (rd_nth _ _ 0%Z) by lia. apply i32_wp.
  Qed.
  Lemma neg_delta_wp c v : conn_safe (nv g) c -> v < nv g -> wpo (neg_delta c v) E (fun _ => True).
  Proof. intros Hc Hv. unfold neg_delta. eapply wpo_bind; [by apply vertex_delta_wp|]. intros d _. apply i32_wp. Qed.

  Lemma part_move_safe p v i : two_labels g p -> v < nv g -> i < 2 ->
    exists p', part_move g p v i = Ok p' /\ two_labels g p' /\ p_where p' = <[v := Some i]> (p_where p).
  Proof.
    intros HT Hv Hi. destruct (two_lab p v HT Hv) as (h & Hh & Eh & _). pose proof HT as [HL [HW _]]. unfold part_move.
    rewrite vwt_ok by done. cbn [obind]. rewrite (rd_ok _ _ _ Eh) || (unfold get_assignment; rewrite (rd_ok _ _ _ Eh)). cbn [obind].
    unfold add_pw at 1. cbn [pw_index obind]. rewrite (rd_nth _ _ 0%Z) by lia. cbn [obind]. rewrite wr_ok by lia. cbn [obind].
    unfold add_pw. cbn [pw_index obind]. rewrite (rd_nth _ _ 0%Z) by (rewrite insert_length; lia). cbn [obind].
    rewrite wr_ok by (rewrite insert_length; lia). cbn [obind]. rewrite wr_ok by lia. cbn [obind].
    eexists. split; [reflexivity|]. split; [|done]. split; cbn [p_pw p_where]; [by rewrite !insert_length|]. apply labels_insert; [done|]. apply HT.
  Qed.

  (** A connectivity array update at u followed by the border update. *)
  Lemma set_conn_safe c u i e : conn_safe (nv g) c -> u < nv g -> (0 <= i)%Z -> (0 <= e)%Z ->
    exists b, c_border c !! u = Some b /\
      update_border (mkConn (<[u := i]> (c_int c)) (<[u := e]> (c_ext c)) (c_border c)) u =
        Ok (mkConn (<[u := i]> (c_int c)) (<[u := e]> (c_ext c)) (<[u := (0 <? e)%Z]> (c_border c)), status_of b (0 <? e)%Z) /\
      conn_safe (nv g) (mkConn (<[u := i]> (c_int c)) (<[u := e]> (c_ext c)) (<[u := (0 <? e)%Z]> (c_border c))).
  Proof.
    intros (Li & Le & Lb & Hi & Hx) Hu Pi Pe. destruct (lookup_lt_is_Some_2 (c_border c) u ltac:(lia)) as [b Hb].
    exists b. split; [done|]. split.
    - apply (update_border_ok (mkConn (<[u := i]> (c_int c)) (<[u := e]> (c_ext c)) (c_border c)) u b e); cbn [c_border c_ext]; [done| |done].
      apply list_lookup_insert. lia.
    - unfold conn_safe. cbn [c_int c_ext c_border]. rewrite !insert_length. split_and!; auto.
      + intros v x. destruct (decide (v = u)) as [->|]; [rewrite list_lookup_insert by lia; congruence|]. rewrite list_lookup_insert_ne by done. apply Hi.
      + intros v x. destruct (decide (v = u)) as [->|]; [rewrite list_lookup_insert by lia; congruence|]. rewrite list_lookup_insert_ne by done. apply Hx.
  Qed.

  (** One neighbour of the moved vertex; the moved vertex itself (a self loop) is already visited. *)
  Lemma neighbor_safe track to vis p s e a : is_arc g e a -> fm_safe s -> fm_part s = p -> fm_vis s = vis ->
    (track = true -> qsafe (nv g) s) ->
    wpo (fm_neighbor g track to s e) E (fun s' => fm_safe s' /\ fm_part s' = p /\ fm_vis s' = vis /\ (track = true -> qsafe (nv g) s')).
  Proof.
    intros (He & Hd & Hw & _ & Hu & Hwr) HS Hp Hvis HQ. destruct a as [u w]. cbn [fst snd] in *.
    destruct HS as (HT & HC & Hq0 & Hq1 & Hvl). unfold fm_neighbor. rewrite Hd. cbn [obind].
    destruct (two_lab (fm_part s) u HT Hu) as (h & Hh & Eh & Elab).
    unfold get_assignment. rewrite (rd_ok _ _ _ Eh). cbn [obind]. rewrite Hw. cbn [obind].
    unfold update_neighbor. pose proof HC as (Li & Le & Lb & Hi & Hx).
    rewrite (rd_nth (c_int _) _ 0%Z) by lia. cbn [obind]. rewrite (rd_nth (c_ext _) _ 0%Z) by lia. cbn [obind]. rewrite !wr_ok by lia. cbn [obind].

    set (i' := u32 _). set (e' := u32 _).
    destruct (set_conn_safe (fm_conn s) u i' e' HC Hu (proj1 (u32_range _)) (proj1 (u32_range _))) as (b & Hb & Eb & HC').
    rewrite Eb. cbn [obind fst snd]. clear Eb.
    set (c' := mkConn (<[u:=i']> (c_int (fm_conn s))) (<[u:=e']> (c_ext (fm_conn s))) (<[u:=(0 <? e')%Z]> (c_border (fm_conn s)))) in *.
    assert (Hfin : forall q0 q1, length q0 = nv g -> length q1 = nv g ->
       (track = true -> qsafe (nv g) (mkFm (fm_part s) c' q0 q1 (fm_vis s))) ->
       let s' := mkFm (fm_part s) c' q0 q1 (fm_vis s) in fm_safe s' /\ fm_part s' = p /\ fm_vis s' = vis /\ (track = true -> qsafe (nv g) s')).
    { intros q0 q1 H0 H1 H2 s1. unfold fm_safe, s1. cbn [fm_part fm_conn fm_q0 fm_q1 fm_vis]. split_and!; auto; apply HT. }
    cbn [fm_vis fm_conn fm_part fm_q0 fm_q1].
    destruct track; [|by apply Hfin]. specialize (HQ eq_refl).
    destruct (lookup_lt_is_Some_2 (fm_vis s) u ltac:(lia)) as [vu Hvu]. unfold vt_has. rewrite (rd_ok _ _ _ Hvu). cbn [obind].
    assert (Hnv : nth u (fm_vis s) false = vu) by (by apply nth_lt_eq).
    assert (Hsame : forall x i q0 q1, x <> u -> queued (mkFm (fm_part s) c' q0 q1 (fm_vis s)) i x <-> queued s i x).
    { intros x i q0 q1 Hne. unfold queued, c'. cbn [fm_vis fm_part fm_conn c_border]. by rewrite nth_insert_ne by done. }
    destruct vu.
    { apply Hfin; auto. intros _ x i Hxn Hin. destruct (HQ x i Hxn Hin) as (y & Ey & Hy). exists y. split; [exact Ey|]. rewrite Hy.
      destruct (decide (x = u)) as [->|Hne]; [|by rewrite Hsame]. unfold queued. cbn [fm_vis]. rewrite Hnv. split; intros (? & _); done. }
    assert (Hnb : nth u (c_border (fm_conn s)) false = b) by (by apply nth_lt_eq).
    assert (Hnb' : nth u (c_border c') false = (0 <? e')%Z) by (unfold c'; cbn [c_border]; rewrite nth_insert_same by lia; done).
    destruct (HQ u h Hu Hh) as (old & Eold & Hold).
    assert (Hold' : is_Some old <-> b = true).
    { rewrite Hold. unfold queued. rewrite Hnv, Elab, Hnb. split; [intros (_ & _ & ?); done|done]. }
    assert (Hlq : length (fm_q s h) = nv g) by (unfold fm_q; destruct (Nat.eqb h 0); done).
    assert (Hgo : forall (f : queue -> outcome queue) new, (is_Some new <-> (0 <? e')%Z = true) -> f (fm_q s h) = Ok (<[u := new]> (fm_q s h)) ->
       wpo (set_q (mkFm (fm_part s) c' (fm_q0 s) (fm_q1 s) (fm_vis s)) (Some h) f) E
         (fun s' => fm_safe s' /\ fm_part s' = p /\ fm_vis s' = vis /\ (true = true -> qsafe (nv g) s'))).
    { intros f new Hnew Hf.
      assert (Hq : qsafe (nv g) (mkFm (fm_part s) c' (if Nat.eqb h 0 then <[u := new]> (fm_q s h) else fm_q0 s) (if Nat.eqb h 0 then fm_q1 s else <[u := new]> (fm_q s h)) (fm_vis s))).
      { intros x i Hxn Hin.
        assert (Hqq : forall q0 q1, fm_q (mkFm (fm_part s) c' (if Nat.eqb h 0 then <[u := new]> (fm_q s h) else fm_q0 s) (if Nat.eqb h 0 then fm_q1 s else <[u := new]> (fm_q s h)) (fm_vis s)) i
           = if decide (i = h) then <[u := new]> (fm_q s h) else fm_q (mkFm q0 q1 (fm_q0 s) (fm_q1 s) (fm_vis s)) i).
        { intros q0 q1. unfold fm_q; cbn [fm_q0 fm_q1]. destruct h as [|[|]], i as [|[|]]; try lia; done. }
        rewrite (Hqq p c'). change (fm_q (mkFm p c' (fm_q0 s) (fm_q1 s) (fm_vis s)) i) with (fm_q s i).
        destruct (HQ x i Hxn Hin) as (y & Ey & Hy).
        destruct (decide (x = u)) as [->|Hne].
        - destruct (decide (i = h)) as [->|Hih].
          + exists new. rewrite list_lookup_insert by lia. split; [done|]. rewrite Hnew. unfold queued. cbn [fm_vis fm_part fm_conn]. rewrite Hnv, Elab, Hnb'.
            split; [done|]. intros (_ & _ & ?). done.
          + exists y. split; [done|]. rewrite Hy. unfold queued. cbn [fm_part fm_conn fm_vis]. rewrite Elab. split; intros (_ & ? & _); congruence.
        - exists y. rewrite Hsame by done. split; [|done]. case_decide as Hih; [|done]. subst. by rewrite list_lookup_insert_ne. }
      unfold fm_q in Hf, Hq, Hlq. destruct h as [|[|]]; [| |lia]; cbn [set_q fm_q0 fm_q1 Nat.eqb] in *; rewrite Hf; cbn [obind wpo fm_part fm_conn fm_vis];
        apply Hfin; rewrite ?insert_length; auto. }
    rewrite Elab || idtac. destruct b; destruct (0 <? e')%Z eqn:Ee; cbn [status_of].
    - eapply wpo_bind; [by apply neg_delta_wp|]. intros k _. apply (Hgo _ (Some k)); [split; eauto|].
      unfold q_update. rewrite (rd_ok _ _ _ Eold). cbn [obind]. destruct old; [|by destruct (proj2 Hold' eq_refl)]. by rewrite wr_ok by lia.
    - apply (Hgo _ None); [split; [intros [? ?]; done|done]|].
      unfold q_remove. rewrite (rd_ok _ _ _ Eold). cbn [obind]. destruct old; [|by destruct (proj2 Hold' eq_refl)]. by rewrite wr_ok by lia.
    - eapply wpo_bind; [by apply neg_delta_wp|]. intros k _. apply (Hgo _ (Some k)); [split; eauto|].
      unfold q_add. rewrite (rd_ok _ _ _ Eold). cbn [obind]. destruct old; [discriminate (proj1 Hold' ltac:(eauto))|]. by rewrite wr_ok by lia.
    - cbn [wpo]. apply Hfin; auto. intros _ x i Hxn Hin. destruct (HQ x i Hxn Hin) as (y & Ey & Hy). exists y. split; [exact Ey|]. rewrite Hy.
      destruct (decide (x = u)) as [->|Hne]; [|by rewrite Hsame]. unfold queued. cbn [fm_vis fm_part fm_conn]. rewrite Hnb, Hnb'. done.
  Qed.

  Lemma fm_move_safe track v to s : v < nv g -> to < 2 -> fm_safe s -> (track = true -> qsafe (nv g) s /\ nth v (fm_vis s) false = true) ->
    wpo (fm_move g track v to s) E (fun s' => fm_safe s' /\ fm_vis s' = fm_vis s /\
      p_where (fm_part s') = <[v := Some to]> (p_where (fm_part s)) /\ (track = true -> qsafe (nv g) s')).
  Proof.
    intros Hv Hto HS HQ. pose proof HS as (HT & HC & Hq0 & Hq1 & Hvl). unfold fm_move.
    eapply wpo_bind; [by apply vertex_delta_wp|]. intros d _. unfold conn_move. pose proof HC as (Li & Le & Lb & Hi & Hx).
    destruct (lookup_lt_is_Some_2 (c_int (fm_conn s)) v ltac:(lia)) as [i Ei]. destruct (lookup_lt_is_Some_2 (c_ext (fm_conn s)) v ltac:(lia)) as [e Ee].
    rewrite (rd_ok _ _ _ Ei), (rd_ok _ _ _ Ee). cbn [obind]. rewrite !wr_ok by lia. cbn [obind].
    destruct (set_conn_safe (fm_conn s) v e i HC Hv (Hx _ _ Ee) (Hi _ _ Ei)) as (b & Hb & Eb & HC'). rewrite Eb. cbn [obind fst].
    destruct (part_move_safe (fm_part s) v to HT Hv Hto) as (p' & Ep & HT' & Hw'). rewrite Ep. cbn [obind].
    clear Eb. set (c' := mkConn (<[v:=e]> (c_int (fm_conn s))) (<[v:=i]> (c_ext (fm_conn s))) (<[v:=(0 <? i)%Z]> (c_border (fm_conn s)))) in *. set (p2 := add_cut p' d).
    eapply wpo_post.
    - apply (for_edges_wp g Hwf v (fun _ s' => fm_safe s' /\ fm_part s' = p2 /\ fm_vis s' = fm_vis s /\ (track = true -> qsafe (nv g) s'))); [done| |].
      + unfold fm_safe. cbn [fm_part fm_conn fm_q0 fm_q1 fm_vis]. split_and!; auto.
        intros Ht. destruct (HQ Ht) as [Hq Hvis]. intros x j Hxn Hj. destruct (Hq x j Hxn Hj) as (y & Ey & Hy). exists y. split; [exact Ey|]. rewrite Hy.
        unfold queued, p2, add_cut, c'. cbn [fm_vis fm_part fm_conn c_border]. rewrite !lab_labw. cbn [p_where]. rewrite Hw'. pose proof HT as [_ [HLw _]].
        destruct (decide (x = v)) as [->|Hne]; [rewrite Hvis; split; intros (? & _); done|].
        rewrite labw_insert by lia. rewrite upd_other by done. rewrite nth_insert_ne by done. done.
      + intros pre e' a post s' Hout Harc (H1 & H2 & H3 & H4). eapply wpo_post; [eapply (neighbor_safe track to (fm_vis s) p2); eauto|]. intros s'' (A & B & C & D). split_and!; auto.
    - intros s' (H1 & H2 & H3 & H4). split_and!; auto. by rewrite H2.
  Qed.

  Context (t : target) (Htf : 2 <= length (t_frac t)) (Htm : 2 <= length (t_max t)).
  Lemma pick_side_safe s : length (p_pw (fm_part s)) = 2 -> queues_empty s = false ->
    wpm (pick_side t s) E (fun i => i < 2 /\ q_size (fm_q s i) <> 0).
  Proof.
    intros Hpw He.
    assert (He' : q_size (fm_q0 s) <> 0 \/ q_size (fm_q1 s) <> 0).
    { unfold queues_empty in He. destruct (Nat.eqb_spec (q_size (fm_q0 s)) 0), (Nat.eqb_spec (q_size (fm_q1 s)) 0); try done; auto. }
    unfold pick_side. rewrite !is_overweight_ok by lia.
    apply wpm_liftk. generalize (nth 0 (t_max t) 0 <? nth 0 (p_pw (fm_part s)) 0)%Z (nth 1 (t_max t) 0 <? nth 1 (p_pw (fm_part s)) 0)%Z. intros o0 o1.
    destruct (Nat.eqb_spec (q_size (fm_q0 s)) 0) as [E0|E0]; destruct (Nat.eqb_spec (q_size (fm_q1 s)) 0) as [E1|E1];
      simpl negb; rewrite ?andb_true_r, ?andb_false_r; try (exfalso; lia).
    - apply wpm_liftk. rewrite andb_true_r. destruct o1; apply wpm_ret; (split; [lia|done]).
    - destruct o0; [apply wpm_ret; (split; [lia|done])|].
      apply wpm_liftk. rewrite andb_false_r.
      apply wpm_ret; (split; [lia|done]).
    - destruct o0; [apply wpm_ret; (split; [lia|done])|].
      apply wpm_liftk. rewrite andb_true_r.
      destruct o1; [apply wpm_ret; (split; [lia|done])|].
      destruct (q_max_ok _ E0) as (m0 & -> & _). destruct (q_max_ok _ E1) as (m1 & -> & _).
      apply wpm_liftk.
      apply wpm_liftk.
      destruct (m1 <? m0)%Z; [apply wpm_ret; (split; [lia|done])|].
      destruct (m0 <? m1)%Z; [apply wpm_ret; (split; [lia|done])|].
      eapply wpm_bind; [by apply q_peek_wp|]. intros v0 _.
      eapply wpm_bind; [by apply q_peek_wp|]. intros v1 _.
      apply wpm_ret. pose proof (Nat.mod_upper_bound (v0 + v1) 2 ltac:(lia)) as Hb.
      split; [done|]. destruct ((v0 + v1) mod 2) as [|[|]]; [done|done|lia].
  Qed.

  Definition pass_safe (ps : pass) : Prop := fm_safe (ps_fm ps) /\ qsafe (nv g) (ps_fm ps) /\
    ps_num_moved ps = length (visited (nv g) (fm_vis (ps_fm ps))) /\ Forall (fun v => v < nv g) (ps_moves ps).
  Lemma fm_step_safe ps : pass_safe ps -> queues_empty (ps_fm ps) = false ->
    wpm (fm_step g t ps) E (fun ps' => pass_safe ps' /\ ps_num_moved ps' = S (ps_num_moved ps)).
  Proof.
    intros (HS & HQ & Hnum & Hmv) He. pose proof HS as (HT & HC & Hq0 & Hq1 & Hvl). unfold fm_step.
    eapply wpm_bind; [apply pick_side_safe; [apply HT|done]|]. intros from (Hfrom & Hne).
    eapply wpm_bind; [by apply q_pop_wp|]. intros [v q'] (Hq' & k & Hv & _). cbn [fst snd] in *. subst q'.
    assert (Hvn : v < nv g). { apply lookup_lt_Some in Hv. unfold fm_q in Hv. destruct (Nat.eqb from 0); lia. }
    destruct (HQ v from Hvn Hfrom) as (y & Ey & Hy). rewrite Hv in Ey. injection Ey as <-.
    destruct (proj1 Hy ltac:(eauto)) as (Hnvis & Hlf & Hbd).
    set (s := ps_fm ps) in *.
    set (s1 := mkFm (fm_part s) (fm_conn s) (if Nat.eqb from 0 then <[v:=None]> (fm_q0 s) else fm_q0 s)
                 (if Nat.eqb from 0 then fm_q1 s else <[v:=None]> (fm_q1 s)) (fm_vis s)).
    eapply wpm_bind with (P := fun x => x = s1).
    { apply wpm_lift. destruct from as [|[|]]; [done|done|lia]. }
    intros ? ->. unfold vt_visit. rewrite wr_ok by (simpl; lia). apply wpm_liftk.
    set (s2 := mkFm (fm_part s1) (fm_conn s1) (fm_q0 s1) (fm_q1 s1) (<[v:=true]> (fm_vis s))).
    assert (HS2 : fm_safe s2).
    { unfold fm_safe, s2, s1. cbn [fm_part fm_conn fm_q0 fm_q1 fm_vis]. split; [done|]. split; [done|]. destruct (Nat.eqb from 0); rewrite ?insert_length; auto. }
    assert (HQ2 : qsafe (nv g) s2).
    { intros u i Hu Hi. destruct (HQ u i Hu Hi) as (y & Ey & Hy'). destruct (decide (u = v)) as [->|Huv].
      - exists None. assert (forall q, queued s2 i v -> q) as Hno.
        { intros q (Hx & _). unfold s2 in Hx. cbn [fm_vis] in Hx. rewrite nth_insert_same in Hx by lia. done. }
        split; [|split; [intros [? ?]; done|apply Hno]].
        unfold fm_q in *. cbn [s2 s1 fm_q0 fm_q1].
        assert (i <> from -> y = None).
        { intros Hif. destruct y; [|done]. exfalso. destruct (proj1 Hy' ltac:(eauto)) as (_ & Hl & _). congruence. }
        destruct from as [|[|]]; [| |lia]; destruct i as [|[|]]; try lia; cbn [Nat.eqb] in *; rewrite ?list_lookup_insert by lia; auto;
          rewrite Ey; f_equal; auto.
      - exists y. split.
        + rewrite <- Ey. unfold fm_q, s2, s1. cbn [fm_q0 fm_q1]. destruct (Nat.eqb from 0), (Nat.eqb i 0); rewrite ?list_lookup_insert_ne by done; done.
        + rewrite Hy'. unfold queued, s2, s1. cbn [fm_vis fm_part fm_conn]. by rewrite nth_insert_ne by done. }
    set (to := if Nat.eqb from 0 then 1 else 0).
    eapply wpm_bind.
    { apply wpm_lift. apply (fm_move_safe true v to s2); auto; [unfold to; destruct (Nat.eqb from 0); lia|].
      intros _. split; [done|]. cbn. apply nth_insert_same. lia. }
    intros s3 (HS3 & Hvis3 & Hwh3 & HQ3). specialize (HQ3 eq_refl). pose proof (proj1 (proj1 HS3)) as Hp3.
    destruct (calc_max_imbalance_ok g t (fm_part s3)) as [bal Hbal]; [lia|].
    destruct (is_balanced_ok t (fm_part s3)) as (isb & Hisb & _); [lia|].
    rewrite Hbal, Hisb. apply wpm_liftk. apply wpm_liftk. apply wpm_ret.
    assert (Hnum3 : S (ps_num_moved ps) = length (visited (nv g) (fm_vis s3))).
    { rewrite Hvis3. cbn [fm_vis s2]. rewrite (visited_insert g t Htf Htm) by done. by rewrite Hnum. }
    destruct (fm_accept _ _ _ _ _); cbn [ps_num_moved]; (split; [|done]); unfold pass_safe; cbn [ps_fm ps_num_moved ps_moves]; split_and!; auto; apply HS3.
  Qed.
  Lemma fm_loop_safe maxBad fuel ps : pass_safe ps -> nv g <= fuel + ps_num_moved ps -> wpm (fm_loop g t maxBad fuel ps) E pass_safe.
  Proof.
    revert ps. induction fuel as [|fuel IH]; intros ps HI Hf; cbn [fm_loop].
    - destruct (queues_empty (ps_fm ps)) eqn:He; [by apply wpm_ret|]. exfalso.
      destruct HI as (HS & HQ & Hnum & _). pose proof HS as (HT & HC & Hq0 & Hq1 & Hvl).
      assert (Hall : forall v, v < nv g -> nth v (fm_vis (ps_fm ps)) false = true).
      { intros v Hv. destruct (nth v (fm_vis (ps_fm ps)) false) eqn:E'; [done|]. exfalso.
        pose proof (visited_insert g t Htf Htm (fm_vis (ps_fm ps)) v Hvl Hv E').
        pose proof (visited_le g (<[v:=true]> (fm_vis (ps_fm ps)))). lia. }
      assert (Hz : forall i, i < 2 -> q_size (fm_q (ps_fm ps) i) = 0).
      { intros i Hi. apply q_size_zero. intros v k Hv.
        assert (v < nv g) as Hvn by (apply lookup_lt_Some in Hv; unfold fm_q in Hv; destruct (Nat.eqb i 0); lia).
        destruct (HQ v i Hvn Hi) as (y & Ey & Hy). rewrite Hv in Ey. injection Ey as <-. destruct (proj1 Hy ltac:(eauto)) as (Hx & _).
        rewrite Hall in Hx by done. done. }
      unfold queues_empty in He. pose proof (Hz 0 ltac:(lia)) as Hz0. pose proof (Hz 1 ltac:(lia)) as Hz1.
      unfold fm_q in Hz0, Hz1; cbn [Nat.eqb] in Hz0, Hz1. rewrite Hz0, Hz1 in He. done.
    - destruct (queues_empty (ps_fm ps)) eqn:He; cbn [orb]; [by apply wpm_ret|].
      destruct (negb _); [by apply wpm_ret|].
      eapply wpm_bind; [by apply fm_step_safe|]. intros ps' (HI' & Hn). apply IH; [done|lia].
  Qed.
  Lemma fm_undo_safe moves s : fm_safe s -> Forall (fun v => v < nv g) moves -> wpo (fm_undo g moves s) E fm_safe.
  Proof.
    intros HS Hm. unfold fm_undo. apply ofold_inv; [done|]. intros v s' Hv HS'.
    assert (Hvn : v < nv g) by (by eapply (Forall_forall (fun v => v < nv g)) in Hm).
    destruct (two_lab (fm_part s') v (proj1 HS') Hvn) as (h & Hh & Eh & _). unfold get_assignment. rewrite (rd_ok _ _ _ Eh). cbn [obind pw_index].
    eapply wpo_post; [apply fm_move_safe; [done|destruct (Nat.eqb h 0); lia|done|done]|]. intros s'' (A & _). exact A.
  Qed.
  Definition cleared (s : fm) : Prop :=
    fm_q0 s = replicate (nv g) None /\ fm_q1 s = replicate (nv g) None /\ fm_vis s = replicate (nv g) false.
  Lemma fm_fill_safe s : fm_safe s -> cleared s ->
    wpm (fm_fill s) E (fun s' => fm_safe s' /\ qsafe (nv g) s' /\ fm_vis s' = replicate (nv g) false).
  Proof.
    intros HS (E0 & E1 & Ev). pose proof HS as (HT & HC & Hq0 & Hq1 & Hvl). unfold fm_fill.
    eapply wpm_bind; [apply wpm_choose_perm|]. intros vs Hvs. apply wpm_lift.
    assert (Hnd : NoDup vs) by (rewrite Hvs; apply members_nodup).
    assert (Hmem : forall v, v ∈ vs <-> c_border (fm_conn s) !! v = Some true) by (intros; rewrite Hvs; apply members_spec).
    pose proof HC as (Li & Le & Lb & _ & _).
    eapply wpo_post.
    { apply (ofold_wp (fun pre s' => fm_part s' = fm_part s /\ fm_conn s' = fm_conn s /\ fm_vis s' = fm_vis s /\
         length (fm_q0 s') = nv g /\ length (fm_q1 s') = nv g /\
         forall u i, u < nv g -> i < 2 -> exists x, fm_q s' i !! u = Some x /\ (is_Some x <-> u ∈ pre /\ lab (fm_part s) u = Some i))).
      - split_and!; auto. intros u i Hu Hi. exists None. split; [|split; [intros [? ?]; done|set_solver]].
        unfold fm_q. rewrite E0, E1. destruct (Nat.eqb i 0); by rewrite lookup_replicate_2.
      - intros pre v post s' Heq (Hp & Hc & Hv & Hl0 & Hl1 & Hq).
        assert (Hin : c_border (fm_conn s) !! v = Some true) by (apply Hmem; rewrite Heq; set_solver).
        assert (Hvn : v < nv g) by (apply lookup_lt_Some in Hin; lia).
        assert (Hnot : v ∉ pre). { rewrite Heq in Hnd. apply NoDup_app in Hnd as (_ & Hd & _). intros Hx. apply (Hd v Hx). set_solver. }
        destruct (two_lab (fm_part s) v HT Hvn) as (h & Hh & Eh & Elab).
        rewrite Hp. unfold get_assignment. rewrite (rd_ok _ _ _ Eh). cbn [obind]. rewrite Hc.
        eapply wpo_bind; [by apply neg_delta_wp|]. intros k _.
        destruct (Hq v h Hvn Hh) as (y & Ey & Hy). destruct y; [exfalso; destruct (proj1 Hy ltac:(eauto)); done|].
        assert (Hlen : length (fm_q s' h) = nv g) by (unfold fm_q; destruct (Nat.eqb h 0); done).
        assert (Hadd : q_add (fm_q s' h) k v = Ok (<[v := Some k]> (fm_q s' h))).
        { unfold q_add. rewrite (rd_ok _ _ _ Ey). cbn [obind]. by rewrite wr_ok by lia. }
        assert (Hfin : forall u j, u < nv g -> j < 2 -> exists x,
            (if decide (j = h) then <[v := Some k]> (fm_q s' h) else fm_q s' j) !! u = Some x /\ (is_Some x <-> u ∈ pre ++ [v] /\ lab (fm_part s) u = Some j)).
        { intros u j Hu Hj. destruct (Hq u j Hu Hj) as (z & Ez & Hz). destruct (decide (j = h)) as [->|Hjh].
          - destruct (decide (u = v)) as [->|Huv].
            + exists (Some k). rewrite list_lookup_insert by lia. split; [done|]. split; [set_solver|eauto].
            + exists z. rewrite list_lookup_insert_ne by done. split; [done|]. rewrite Hz. set_solver.
          - exists z. split; [done|]. rewrite Hz. destruct (decide (u = v)) as [->|Huv]; [|set_solver]. rewrite Elab. split; [set_solver|]. intros [_ ?]. congruence. }
        destruct h as [|[|]]; [| |lia]; cbn [set_q]; unfold fm_q in Hadd; cbn [Nat.eqb] in Hadd; rewrite Hadd;
          cbn [obind wpo fm_part fm_conn fm_vis fm_q0 fm_q1]; split_and!; auto; rewrite ?insert_length; auto;
          intros u j Hu Hj; specialize (Hfin u j Hu Hj); destruct j as [|[|]]; [| |lia| | |lia]; cbn in *; exact Hfin. }
    intros s' (Hp & Hc & Hv & Hl0 & Hl1 & Hq). split_and!; auto.
    - unfold fm_safe. rewrite Hp, Hc, Hv. split_and!; auto; apply HT.
    - intros u i Hu Hi. destruct (Hq u i Hu Hi) as (y & Ey & Hy). exists y. split; [done|]. rewrite Hy, Hmem. unfold queued. rewrite Hp, Hc, Hv, Ev.
      rewrite (nth_lt_eq _ _ _ false) by (by apply lookup_replicate_2). rewrite (lookup_nth (c_border _) _ false) by lia. split; [intros [[= ->] ->]|intros (_ & -> & ->)]; auto.
    - congruence.
  Qed.
  Lemma fm_iters_safe maxBad iters s : fm_safe s -> (iters <> 0 -> cleared s) -> wpm (fm_iters g t maxBad iters s) E fm_safe.
  Proof.
    revert s. induction iters as [|iters IH]; intros s HS HE'; cbn [fm_iters]; [by apply wpm_ret|].
    eapply wpm_bind; [apply fm_fill_safe; [done|by apply HE']|]. intros s1 (HS1 & HQ1 & Hv1).
    destruct (calc_max_imbalance_ok g t (fm_part s1)) as [bal Hbal]; [rewrite (proj1 (proj1 HS1)); lia|].
    rewrite Hbal. apply wpm_liftk.
    assert (Hvis0 : visited (nv g) (fm_vis s1) = []).
    { unfold visited. destruct (filter _ _) as [|x l] eqn:Ef; [done|]. exfalso.
      assert (x ∈ filter (fun v => nth v (fm_vis s1) false = true) (seq 0 (nv g))) as [Hx Hx']%elem_of_list_filter by (rewrite Ef; set_solver).
      apply elem_of_seq in Hx'. rewrite Hv1, nth_lookup, lookup_replicate_2 in Hx by lia. done. }
    eapply wpm_bind.
    { apply fm_loop_safe; [|cbn [ps_num_moved]; lia]. unfold pass_safe. cbn [ps_fm ps_num_moved ps_moves]. rewrite Hvis0. split; [done|]. split; [done|]. split; [done|]. constructor. }
    intros ps (HSp & _ & _ & Hm).
    eapply wpm_bind; [apply wpm_lift; by apply fm_undo_safe|]. intros s2 HS2.
    destruct (Nat.eqb _ _); [by apply wpm_ret|]. apply IH; destruct iters; try done; destruct HS2 as (A & B & L0 & L1 & Lv).
    - unfold fm_safe. cbn [fm_part fm_conn fm_q0 fm_q1 fm_vis]. unfold q_clear, vt_clear. rewrite !replicate_length. split_and!; auto; apply A.
    - intros _. unfold cleared. cbn [fm_part fm_conn fm_q0 fm_q1 fm_vis]. unfold q_clear, vt_clear. by rewrite L0, L1, Lv.
  Qed.
  Lemma fm_refine_safe maxIters maxMoves c p mb : max_bad_moves maxMoves (nv g) = Ok mb -> two_labels g p -> conn_safe (nv g) c ->
    wpm (fm_refine maxIters maxMoves g t c p) E (fun r => two_labels g (snd r) /\ conn_safe (nv g) (fst r)).
  Proof.
    intros Hmb HT HC. unfold fm_refine. rewrite Hmb. apply wpm_liftk.
    eapply wpm_bind.
    - apply fm_iters_safe; [|done]. unfold fm_safe. cbn [fm_part fm_conn fm_q0 fm_q1 fm_vis]. unfold q_new, vt_new. rewrite !replicate_length. split_and!; auto; apply HT.
    - intros s (A & B & _). apply wpm_ret. done.
  Qed.
End Safe.
