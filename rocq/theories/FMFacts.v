(** * FMFacts: FM refinement (C30-C32). *)
From Coq Require Import ZArith.
From Verif Require Import Base F64 ModelGraph ModelPartition ModelConn ModelFM Spec Logic Sums GraphFacts PartFacts ConnFacts.

(** ** Queues *)
Lemma q_members_spec q v : v ∈ q_members q <-> exists k, q !! v = Some (Some k).
Proof.
  unfold q_members. rewrite elem_of_list_filter, elem_of_seq. split.
  - intros [[k Hk] _]. exists k. destruct (q !! v) as [[x|]|]; simpl in Hk; congruence.
  - intros [k Hk]. rewrite Hk. split; [by exists k|]. apply lookup_lt_Some in Hk. lia.
Qed.
Lemma q_size_zero q : q_size q = 0 <-> forall v k, q !! v <> Some (Some k).
Proof.
  unfold q_size. split.
  - intros H%nil_length_inv v k Hv. assert (v ∈ q_members q) by (apply q_members_spec; eauto).
    rewrite H in *. set_solver.
  - intros H. destruct (q_members q) as [|v l] eqn:E; [done|].
    assert (v ∈ q_members q) as [k Hk]%q_members_spec by (rewrite E; set_solver). by destruct (H v k).
Qed.
Lemma q_key_lookup q v k : q !! v = Some (Some k) -> q_key q v = k.
Proof. unfold q_key. by intros ->. Qed.
Lemma q_max_ok q : q_size q <> 0 -> exists m, q_max q = Ok m /\
  (exists v, q !! v = Some (Some m)) /\ forall u k, q !! u = Some (Some k) -> (k <= m)%Z.
Proof.
  intros Hs. unfold q_max, q_size in *. destruct (q_members q) as [|v vs] eqn:E; [done|].
  eexists. split; [done|].
  assert (G : forall l m0, (m0 <= fold_left (fun m u => Z.max m (q_key q u)) l m0)%Z /\
     (forall u, u ∈ l -> (q_key q u <= fold_left (fun m u => Z.max m (q_key q u)) l m0)%Z) /\
     (fold_left (fun m u => Z.max m (q_key q u)) l m0 = m0 \/
      exists u, u ∈ l /\ fold_left (fun m u => Z.max m (q_key q u)) l m0 = q_key q u)).
  { induction l as [|x l IH]; intros m0; simpl.
    - split_and!; [lia|set_solver|by left].
    - destruct (IH (Z.max m0 (q_key q x))) as (A & B & C). split_and!; [lia| |].
      + intros u [->|Hu]%elem_of_cons; [lia|by apply B].
      + destruct C as [C|(u & Hu & C)]; [|right; exists u; split; [set_solver|done]].
        destruct (Z.max_spec m0 (q_key q x)) as [[? Em]|[? Em]]; rewrite Em in C.
        * right. exists x. rewrite Em. split; [set_solver|done].
        * left. rewrite Em. done. }
  destruct (G vs (q_key q v)) as (A & B & C). split.
  - destruct C as [C|(u & Hu & C)].
    + assert (v ∈ q_members q) as [k Hk]%q_members_spec by (rewrite E; set_solver).
      exists v. rewrite C, (q_key_lookup _ _ _ Hk). done.
    + assert (u ∈ q_members q) as [k Hk]%q_members_spec by (rewrite E; set_solver).
      exists u. rewrite C, (q_key_lookup _ _ _ Hk). done.
  - intros u k Hu. assert (u ∈ q_members q) as Hm by (apply q_members_spec; eauto).
    rewrite E in Hm. apply elem_of_cons in Hm as [->|Hm]; [|specialize (B u Hm)];
      rewrite (q_key_lookup _ _ _ Hu) in *; lia.
Qed.
Lemma q_peek_wp q E : q_size q <> 0 ->
  wpm (q_peek q) E (fun v => exists k, q !! v = Some (Some k) /\ forall u k', q !! u = Some (Some k') -> (k' <= k)%Z).
Proof.
  intros Hs. unfold q_peek. destruct (Nat.eqb_spec (q_size q) 0) as [?|_]; [done|].
  destruct (q_max_ok q Hs) as (m & Em & (v & Hv) & Hmax).
  apply wpm_choose_from.
  - unfold q_tops. rewrite Em. intros H.
    assert (v ∈ filter (fun v => q_key q v = m) (q_members q)) as Hin.
    { apply elem_of_list_filter. split; [by apply q_key_lookup|]. apply q_members_spec. eauto. }
    rewrite H in Hin. set_solver.
  - intros u. unfold q_tops. rewrite Em. intros [Hk (k & Hu)%q_members_spec]%elem_of_list_filter.
    rewrite (q_key_lookup _ _ _ Hu) in Hk. subst. eauto.
Qed.
Lemma q_pop_wp q E : q_size q <> 0 ->
  wpm (q_pop q) E (fun r => snd r = <[fst r := None]> q /\
    exists k, q !! (fst r) = Some (Some k) /\ forall u k', q !! u = Some (Some k') -> (k' <= k)%Z).
Proof.
  intros Hs. unfold q_pop. eapply wpm_bind; [by apply q_peek_wp|].
  intros v (k & Hv & Hmax). eapply wpm_bind with (P := fun q' => q' = <[v:=None]> q).
  - apply wpm_lift. unfold q_remove. rewrite (rd_ok _ _ _ Hv). cbn [obind].
    rewrite wr_ok by (by eapply lookup_lt_Some). done.
  - intros ? ->. apply wpm_ret. simpl. eauto.
Qed.

(** ** Exact partitionings are determined by their labels *)
Lemma weights_exact_inj k g p p' : weights_exact k g p -> weights_exact k g p' -> p_where p = p_where p' ->
  p_pw p = p_pw p'.
Proof.
  intros [L1 H1] [L2 H2] E. apply list_eq. intros i. destruct (decide (i < k)) as [Hi|Hi].
  - rewrite H1, H2 by done. unfold lab. by rewrite E.
  - rewrite !lookup_ge_None_2 by lia. done.
Qed.
Lemma exact_part_inj k g p p' : exact_part k g p -> exact_part k g p' -> p_where p = p_where p' -> p = p'.
Proof.
  intros [[HL HW] HC] [[HL' HW'] HC'] E. pose proof (weights_exact_inj k g p p' HW HW' E) as Epw.
  destruct p as [c pw wh], p' as [c' pw' wh']; simpl in *. subst. f_equal. rewrite HC, HC'. done.
Qed.

(** ** Flipping *)
Definition other (x : option nat) : option nat := match x with Some 0 => Some 1 | Some _ => Some 0 | None => None end.
Definition flip (v : nat) (wh : list (option nat)) : list (option nat) := <[v := other (labw wh v)]> wh.
Lemma flip_length v wh : length (flip v wh) = length wh.
Proof. apply insert_length. Qed.
Lemma flip_flip n v wh : labels_ok 2 n wh -> v < n -> flip v (flip v wh) = wh.
Proof.
  intros [Hl HL] Hv. unfold flip. rewrite labw_insert by lia. rewrite upd_same, list_insert_insert.
  apply list_insert_id. destruct (HL v Hv) as (i & Hi & E). rewrite E, (labw_lookup _ _ _ E).
  destruct i as [|[|]]; [done|done|lia].
Qed.
Lemma flip_labels_ok n v wh : labels_ok 2 n wh -> v < n -> labels_ok 2 n (flip v wh).
Proof.
  intros HL Hv. destruct (labels_ok_lab _ _ _ v HL Hv) as (i & Hi & E). unfold flip. rewrite E.
  destruct i as [|[|]]; [apply labels_ok_insert; auto; lia|apply labels_ok_insert; auto; lia|lia].
Qed.

(** ** Float outcomes of the analysis *)
Lemma get_imbalance_ok g t p i : i < length (t_frac t) -> i < length (p_pw p) -> exists f, get_imbalance g t p i = Ok f.
Proof.
  intros Ht Hp. unfold get_imbalance, get_fraction.
  apply lookup_lt_is_Some in Ht as [x Hx]. apply lookup_lt_is_Some in Hp as [y Hy].
  rewrite (rd_ok _ _ _ Hx). cbn [obind]. rewrite (rd_ok _ _ _ Hy). cbn [obind]. eauto.
Qed.
Lemma find_max_ok g t p : length (p_pw p) <= length (t_frac t) -> exists r, find_max g t p = Ok r.
Proof.
  intros H. cut (wpo (find_max g t p) never (fun _ => True)); [intros (r & -> & _)%wpo_never; eauto|].
  apply ofold_inv; [done|]. intros i s Hi%elem_of_seq _.
  destruct (get_imbalance_ok g t p i) as [f ->]; [lia|lia|]. done.
Qed.
Lemma calc_max_imbalance_ok g t p : length (p_pw p) <= length (t_frac t) -> exists r, calc_max_imbalance g t p = Ok r.
Proof. intros H. unfold calc_max_imbalance. destruct (find_max_ok g t p H) as [r ->]. simpl. eauto. Qed.
Lemma is_overweight_ok t p i : i < length (t_max t) -> i < length (p_pw p) ->
  is_overweight t p i = Ok (nth i (t_max t) 0 <? nth i (p_pw p) 0)%Z.
Proof. intros H1 H2. unfold is_overweight. rewrite (rd_nth _ _ 0%Z) by done. cbn [obind]. by rewrite (rd_nth _ _ 0%Z). Qed.
(** isBalanced decides "no part above its maximum" (C46). *)
Lemma is_balanced_ok t p : length (p_pw p) <= length (t_max t) ->
  exists b, is_balanced t p = Ok b /\
   (b = true <-> forall i, i < length (p_pw p) -> (nth i (p_pw p) 0 <= nth i (t_max t) 0)%Z).
Proof.
  intros H.
  cut (wpo (is_balanced t p) never (fun b => b = true <-> forall i, i < length (p_pw p) -> (nth i (p_pw p) 0 <= nth i (t_max t) 0)%Z)).
  { intros (b & E & Hb)%wpo_never. eauto. }
  unfold is_balanced. apply (ofold_seq_wp (fun n b => b = true <-> forall i, i < n -> (nth i (p_pw p) 0 <= nth i (t_max t) 0)%Z)).
  - split; [lia|done].
  - intros i b Hi Hb. destruct b.
    + rewrite is_overweight_ok by lia. simpl. destruct Hb as [Hb _]. specialize (Hb eq_refl).
      destruct (Z.ltb_spec (nth i (t_max t) 0) (nth i (p_pw p) 0))%Z; simpl.
      * split; [done|]. intros H'. specialize (H' i). lia.
      * split; [|done]. intros _ j Hj. destruct (decide (j = i)) as [->|]; [lia|]. apply Hb. lia.
    + simpl. split; [done|]. intros H'. apply Hb. intros j Hj. apply H'. lia.
Qed.

(** One accepted improvement (FMRefiner.cpp:235-237). *)
Definition improves (g : graph) (t : target) (p p' : part) : Prop :=
  exact_part 2 g p' /\ exists isb bal bal', is_balanced t p' = Ok isb /\ calc_max_imbalance g t p = Ok bal /\
    calc_max_imbalance g t p' = Ok bal' /\ fm_accept isb bal' bal (p_cut p') (p_cut p) = true.

Definition unvisited (n : nat) (vis : list bool) : list nat := filter (fun v => nth v vis false = false) (seq 0 n).
Definition visited (n : nat) (vis : list bool) : list nat := filter (fun v => nth v vis false = true) (seq 0 n).

  Lemma members_spec b v : v ∈ members b <-> b !! v = Some true.
  Proof.
    unfold members. rewrite elem_of_list_filter, elem_of_seq. split; [by intros [? _]|].
    intros H. split; [done|]. apply lookup_lt_Some in H. lia.
  Qed.
  Lemma members_nodup b : NoDup (members b).
  Proof. apply NoDup_filter, NoDup_seq. Qed.

Section FM.
  Context (g : graph) (Hwf : wf_graph g) (Hsym : symmetric g) (Hloop : loopless g) (Hfit : fits g).
  Context (t : target) (Htf : 2 <= length (t_frac t)) (Htm : 2 <= length (t_max t)).

  Lemma pick_side_wp E s : fm_data g s -> queues_empty s = false ->
    wpm (pick_side t s) E (fun i => i < 2 /\ q_size (fm_q s i) <> 0).
  Proof.
    intros HD He. destruct HD as ([[_ [Hpw _]] _] & _).
    assert (He' : q_size (fm_q0 s) <> 0 \/ q_size (fm_q1 s) <> 0).
    { unfold queues_empty in He. destruct (Nat.eqb_spec (q_size (fm_q0 s)) 0), (Nat.eqb_spec (q_size (fm_q1 s)) 0); try done; auto. }
    unfold pick_side. rewrite !is_overweight_ok by lia.
    apply wpm_liftk. generalize (nth 0 (t_max t) 0 <? nth 0 (p_pw (fm_part s)) 0)%Z (nth 1 (t_max t) 0 <? nth 1 (p_pw (fm_part s)) 0)%Z. intros o0 o1.
    destruct (Nat.eqb_spec (q_size (fm_q0 s)) 0) as [E0|E0]; destruct (Nat.eqb_spec (q_size (fm_q1 s)) 0) as [E1|E1];
      simpl negb; rewrite ?andb_true_r, ?andb_false_r; try (exfalso; lia).
    - apply wpm_liftk. rewrite andb_true_r. destruct o1; apply wpm_ret; (split; [lia|done]).
    - destruct o0; [apply wpm_ret; (split; [lia|done])|].
      apply wpm_liftk. rewrite andb_false_r.
      apply wpm_ret; (split; [lia|done]).
    - destruct o0; [apply wpm_ret; (split; [lia|done])|].
      apply wpm_liftk. rewrite andb_true_r.
      destruct o1; [apply wpm_ret; (split; [lia|done])|].
      destruct (q_max_ok _ E0) as (m0 & -> & _). destruct (q_max_ok _ E1) as (m1 & -> & _).
      apply wpm_liftk.
      apply wpm_liftk.
      destruct (m1 <? m0)%Z; [apply wpm_ret; (split; [lia|done])|].
      destruct (m0 <? m1)%Z; [apply wpm_ret; (split; [lia|done])|].
      eapply wpm_bind; [by apply q_peek_wp|]. intros v0 _.
      eapply wpm_bind; [by apply q_peek_wp|]. intros v1 _.
      apply wpm_ret. pose proof (Nat.mod_upper_bound (v0 + v1) 2 ltac:(lia)) as Hb.
      split; [done|]. destruct ((v0 + v1) mod 2) as [|[|]]; [done|done|lia].
  Qed.

  (** State of a pass that started from partitioning p0. *)
  Definition pass_inv (p0 : part) (ps : pass) : Prop :=
    fm_data g (ps_fm ps) /\ qinv g (ps_fm ps) /\
    (forall v, v < nv g -> lab (fm_part (ps_fm ps)) v =
        if nth v (fm_vis (ps_fm ps)) false then other (lab p0 v) else lab p0 v) /\
    ps_num_moved ps = length (visited (nv g) (fm_vis (ps_fm ps))) /\
    length (ps_moves ps) <= ps_num_moved ps /\
    exists bp, exact_part 2 g bp /\ p_cut bp = ps_best_cut ps /\ calc_max_imbalance g t bp = Ok (ps_best_bal ps) /\
      p_where (fm_part (ps_fm ps)) = foldr flip (p_where bp) (ps_moves ps) /\
      Forall (fun v => v < nv g) (ps_moves ps) /\
      rtc (improves g t) p0 bp /\
      (ps_num_moved ps = length (ps_moves ps) -> bp = p0).

  Lemma visited_insert vis v : length vis = nv g -> v < nv g -> nth v vis false = false ->
    length (visited (nv g) (<[v:=true]> vis)) = S (length (visited (nv g) vis)).
  Proof.
    intros Hl Hv Hn. unfold visited.
    assert (G : forall n, n <= nv g -> length (filter (fun u => nth u (<[v:=true]> vis) false = true) (seq 0 n)) =
       length (filter (fun u => nth u vis false = true) (seq 0 n)) + if decide (v < n) then 1 else 0).
    { induction n as [|n IH]; intros Hn'; [done|].
      rewrite seq_S, !filter_app, !app_length, IH by lia. simpl.
      rewrite !filter_cons, !filter_nil. destruct (decide (n = v)) as [->|Hne].
      - rewrite nth_insert_same by lia. rewrite Hn. repeat case_decide; simpl; try done; lia.
      - rewrite nth_insert_ne by done. repeat case_decide; simpl; try done; lia. }
    rewrite G by lia. rewrite decide_True by done. lia.
  Qed.
  Lemma visited_le vis : length (visited (nv g) vis) <= nv g.
  Proof. unfold visited. etransitivity; [apply filter_length|]. by rewrite seq_length. Qed.

  (** One step moves one unvisited vertex v, which had the largest key of the queue of the side it
      was on, to the other side and marks it visited. *)
  Definition moved_one (ps ps' : pass) : Prop := exists v from to k,
    v < nv g /\ from + to = 1 /\ fm_q (ps_fm ps) from !! v = Some (Some k) /\
    (forall u k', fm_q (ps_fm ps) from !! u = Some (Some k') -> (k' <= k)%Z) /\
    nth v (fm_vis (ps_fm ps)) false = false /\ lab (fm_part (ps_fm ps)) v = Some from /\
    p_where (fm_part (ps_fm ps')) = <[v := Some to]> (p_where (fm_part (ps_fm ps))) /\
    fm_vis (ps_fm ps') = <[v := true]> (fm_vis (ps_fm ps)).
  Lemma fm_step_wp E p0 ps : pass_inv p0 ps -> queues_empty (ps_fm ps) = false ->
    wpm (fm_step g t ps) E (fun ps' => pass_inv p0 ps' /\ ps_num_moved ps' = S (ps_num_moved ps) /\ moved_one ps ps').
  Proof.
    intros (HD & HQ & Hlab & Hnum & Hmv & bp & Hbp & Hbc & Hbb & Hwh & Hmr & Hch & Hno) He.
    unfold fm_step. eapply wpm_bind; [by apply pick_side_wp|]. intros from (Hfrom & Hne).
    eapply wpm_bind; [by apply q_pop_wp|]. intros [v q'] (Hq' & k & Hv & Hmax). simpl in Hq', Hv. subst q'.
    cbn [fst snd].
    destruct HD as (HP & HC & HB & Hl0 & Hl1 & Hlv).
    assert (Hvn : v < nv g).
    { apply lookup_lt_Some in Hv. unfold fm_q in Hv. destruct (Nat.eqb from 0); lia. }
    pose proof (HQ v from Hvn Hfrom) as Hcell. rewrite Hv in Hcell. injection Hcell as Hcell. symmetry in Hcell.
    unfold qcell in Hcell. destruct (nth v (fm_vis (ps_fm ps)) false) eqn:Hnvis; [done|].
    destruct (decide (lab (fm_part (ps_fm ps)) v = Some from)) as [Hlf|]; [|done].
    set (s := ps_fm ps) in *.
    set (s1 := mkFm (fm_part s) (fm_conn s) (if Nat.eqb from 0 then <[v:=None]> (fm_q0 s) else fm_q0 s)
                 (if Nat.eqb from 0 then fm_q1 s else <[v:=None]> (fm_q1 s)) (fm_vis s)).
    eapply wpm_bind with (P := fun x => x = s1).
    { apply wpm_lift. destruct from as [|[|]]; [done|done|lia]. }
    intros ? ->. unfold vt_visit. rewrite wr_ok by (simpl; lia).
    apply wpm_liftk.
    set (s2 := mkFm (fm_part s1) (fm_conn s1) (fm_q0 s1) (fm_q1 s1) (<[v:=true]> (fm_vis s))).
    assert (HD2 : fm_data g s2).
    { unfold fm_data, s2, s1; simpl. split_and!; auto; destruct (Nat.eqb from 0); rewrite ?insert_length; auto. }
    assert (HQ2 : qinv g s2).
    { intros u i Hu Hi. destruct (decide (u = v)) as [->|Huv].
      - unfold qcell, s2; simpl. rewrite nth_insert_same by lia.
        pose proof (HQ v i Hvn Hi) as Hqi. unfold qcell in Hqi. fold s in Hqi. rewrite Hnvis, Hlf in Hqi.
        unfold fm_q in *; simpl. destruct from as [|[|]]; [| |lia]; destruct i as [|[|]]; try lia; simpl in *;
          rewrite ?list_lookup_insert by lia; auto;
          (rewrite decide_False in Hqi by congruence; done).
      - transitivity (Some (qcell s i u)).
        + rewrite <- (HQ u i Hu Hi). unfold fm_q, s2, s1; simpl.
          destruct (Nat.eqb from 0), (Nat.eqb i 0); rewrite ?list_lookup_insert_ne by done; done.
        + f_equal. unfold qcell, s2, s1; simpl. by rewrite nth_insert_ne by done. }
    set (to := if Nat.eqb from 0 then 1 else 0).
    assert (Hft : from + to = 1) by (unfold to; destruct from as [|[|]]; simpl; lia).
    eapply wpm_bind.
    { apply wpm_lift. apply (fm_move_wp g Hwf Hsym Hloop Hfit E true v from to s2); auto.
      intros _. split; [done|]. simpl. apply nth_insert_same. lia. }
    intros s3 (HD3 & Hwh3 & Hvis3 & HQ3). specialize (HQ3 eq_refl).
    assert (Hp3 : length (p_pw (fm_part s3)) = 2) by apply HD3.
    destruct (calc_max_imbalance_ok g t (fm_part s3)) as [bal Hbal]; [lia|].
    destruct (is_balanced_ok t (fm_part s3)) as (isb & Hisb & _); [lia|].
    rewrite Hbal, Hisb.
    apply wpm_liftk.
    apply wpm_liftk.
    apply wpm_ret.
    assert (Hlw : length (p_where (fm_part s)) = nv g) by apply HP.
    assert (Hlab3 : forall u, u < nv g -> lab (fm_part s3) u =
       if nth u (fm_vis s3) false then other (lab p0 u) else lab p0 u).
    { intros u Hu. rewrite lab_labw, Hwh3, Hvis3. simpl. rewrite labw_insert by lia.
      destruct (decide (u = v)) as [->|Huv].
      - rewrite upd_same, nth_insert_same by lia. pose proof (Hlab v Hvn) as Hx. fold s in Hx.
        rewrite Hnvis, Hlf in Hx. rewrite <- Hx. unfold to. destruct from as [|[|]]; [done|done|lia].
      - rewrite upd_other, nth_insert_ne by done. by apply Hlab. }
    assert (Hnum3 : S (ps_num_moved ps) = length (visited (nv g) (fm_vis s3))).
    { rewrite Hvis3. simpl. rewrite visited_insert by done. by rewrite Hnum. }
    assert (Hflip : p_where (fm_part s3) = flip v (p_where (fm_part s))).
    { rewrite Hwh3. unfold flip. simpl. f_equal. rewrite <- lab_labw, Hlf.
      unfold to. destruct from as [|[|]]; [done|done|lia]. }
    assert (Hone : forall ps', ps_fm ps' = s3 -> moved_one ps ps').
    { intros ps' E3. exists v, from, to, k. rewrite E3. split_and!; auto. }
    destruct (fm_accept isb bal (ps_best_bal ps) (p_cut (fm_part s3)) (ps_best_cut ps)) eqn:Hacc; cbn [ps_num_moved]; (split; [|split; [done|by apply Hone]]);
      unfold pass_inv; cbn [ps_fm ps_num_moved ps_moves ps_best_cut ps_best_bal].
    - split_and!; auto; [simpl; lia|]. exists (fm_part s3). split_and!; auto.
      + apply HD3.
      + eapply rtc_r; [exact Hch|]. split; [apply HD3|]. exists isb, (ps_best_bal ps), bal. split_and!; auto. by rewrite Hbc.
      + simpl. lia.
    - split_and!; auto; [simpl; lia|]. exists bp. split_and!; auto.
      + simpl. rewrite Hflip, Hwh. done.
  Qed.

  Lemma fm_loop_wp E maxBad p0 fuel ps : pass_inv p0 ps -> nv g <= fuel + ps_num_moved ps ->
    wpm (fm_loop g t maxBad fuel ps) E (pass_inv p0).
  Proof.
    revert ps. induction fuel as [|fuel IH]; intros ps HI Hf; simpl.
    - destruct (queues_empty (ps_fm ps)) eqn:He; simpl; [by apply wpm_ret|].
      exfalso. (* everything visited, so the queues are empty *)
      destruct HI as (HD & HQ & _ & Hnum & _).
      assert (Hall : forall v, v < nv g -> nth v (fm_vis (ps_fm ps)) false = true).
      { intros v Hv. destruct (nth v (fm_vis (ps_fm ps)) false) eqn:E'; [done|]. exfalso.
        pose proof (visited_insert (fm_vis (ps_fm ps)) v ltac:(apply HD) Hv E').
        pose proof (visited_le (<[v:=true]> (fm_vis (ps_fm ps)))). lia. }
      assert (Hz : forall i, i < 2 -> q_size (fm_q (ps_fm ps) i) = 0).
      { intros i Hi. apply q_size_zero. intros v k Hv.
        assert (v < nv g) as Hvn.
        { apply lookup_lt_Some in Hv. destruct HD as (_ & _ & _ & H0 & H1 & _). unfold fm_q in Hv.
          destruct (Nat.eqb i 0); lia. }
        rewrite (HQ v i Hvn Hi) in Hv. unfold qcell in Hv. rewrite Hall in Hv by done. done. }
      unfold queues_empty in He. pose proof (Hz 0 ltac:(lia)) as Hz0. pose proof (Hz 1 ltac:(lia)) as Hz1.
      unfold fm_q in Hz0, Hz1; simpl in Hz0, Hz1. rewrite Hz0, Hz1 in He. done.
    - destruct (queues_empty (ps_fm ps)) eqn:He; simpl; [by apply wpm_ret|].
      destruct (Z.ltb_spec (Z.of_nat (length (ps_moves ps))) maxBad); simpl; [|by apply wpm_ret].
      eapply wpm_bind; [by apply fm_step_wp|]. intros ps' (HI' & Hn & _). apply IH; [done|lia].
  Qed.

  (** Rolling back. *)
  Lemma fm_undo_wp E moves s wh : fm_data g s -> Forall (fun v => v < nv g) moves ->
    labels_ok 2 (nv g) wh -> p_where (fm_part s) = foldr flip wh moves ->
    wpo (fm_undo g moves s) E (fun s' => fm_data g s' /\ p_where (fm_part s') = wh).
  Proof.
    unfold fm_undo. revert s. induction moves as [|v moves IH]; intros s HD Hm HL Hwh; simpl.
    - simpl in Hwh. done.
    - apply Forall_cons in Hm as [Hv Hm]. simpl in Hwh.
      assert (HL' : labels_ok 2 (nv g) (foldr flip wh moves)).
      { clear -HL Hm Hfit. induction moves as [|u moves IH]; simpl; [done|]. apply Forall_cons in Hm as [Hu Hm].
        apply flip_labels_ok; auto. }
      assert (HLs : labels_ok 2 (nv g) (p_where (fm_part s))) by apply HD.
      destruct HLs as [Hl HLs]. destruct (HLs v Hv) as (i & Hi & Ei).
      rewrite (get_assignment_ok g) by done. cbn [obind]. rewrite lab_labw, (labw_lookup _ _ _ Ei). cbn [pw_index obind].
      eapply wpo_bind.
      + apply (fm_move_wp g Hwf Hsym Hloop Hfit E false v i); auto.
        * destruct i as [|[|]]; simpl; lia.
        * by rewrite lab_labw, (labw_lookup _ _ _ Ei).
        * done.
      + intros s' (HD' & Hwh' & _ & _). apply IH; auto.
        rewrite Hwh'. rewrite <- (flip_flip (nv g) v (foldr flip wh moves)) by done.
        rewrite <- Hwh. unfold flip. rewrite (labw_lookup _ _ _ Ei).
        f_equal. destruct i as [|[|]]; [done|done|lia].
  Qed.

  (** Filling the queues. *)
  Definition empty_queues (s : fm) : Prop :=
    fm_q0 s = replicate (nv g) None /\ fm_q1 s = replicate (nv g) None /\ fm_vis s = replicate (nv g) false.

  Lemma fm_fill_wp E s : fm_data g s -> empty_queues s ->
    wpm (fm_fill s) E (fun s' => fm_data g s' /\ qinv g s' /\ fm_part s' = fm_part s /\ fm_vis s' = replicate (nv g) false).
  Proof.
    intros HD (E0 & E1 & Ev). unfold fm_fill.
    eapply wpm_bind; [apply wpm_choose_perm|]. intros vs Hvs.
    apply wpm_lift.
    destruct HD as (HP & HC & HB & Hl0 & Hl1 & Hlv).
    assert (Hnd : NoDup vs) by (rewrite Hvs; apply members_nodup).
    assert (Hmem : forall v, v ∈ vs <-> c_border (fm_conn s) !! v = Some true) by (intros; rewrite Hvs; apply members_spec).
    destruct HC as (Li & Le & Lb & HC).
    assert (HP' := HP). destruct HP' as [[[Hlw HL] HPW] _].
    eapply wpo_post.
    { apply (ofold_wp (fun pre s' => fm_part s' = fm_part s /\ fm_conn s' = fm_conn s /\ fm_vis s' = fm_vis s /\
         length (fm_q0 s') = nv g /\ length (fm_q1 s') = nv g /\
         forall u i, u < nv g -> i < 2 -> fm_q s' i !! u = Some (if decide (u ∈ pre) then qcell s i u else None))).
      - split_and!; auto. intros u i Hu Hi. rewrite decide_False by set_solver.
        unfold fm_q. rewrite E0, E1. destruct (Nat.eqb i 0); by rewrite lookup_replicate_2.
      - intros pre v post s' Heq (Hp & Hc & Hv & Hq0 & Hq1 & Hq).
        assert (Hin : c_border (fm_conn s) !! v = Some true) by (apply Hmem; rewrite Heq; set_solver).
        assert (Hvn : v < nv g) by (apply lookup_lt_Some in Hin; lia).
        assert (Hnot : v ∉ pre). { rewrite Heq in Hnd. apply NoDup_app in Hnd as (_ & Hd & _). intros Hx. apply (Hd v Hx). set_solver. }
        rewrite Hp, (get_assignment_ok g) by done. cbn [obind]. rewrite Hc.
        destruct (HC v Hvn) as [Ci Ce].
        pose proof (incident_H32 g Hwf Hsym Hloop Hfit v Hvn). pose proof (internal_nonneg g Hwf (lab (fm_part s)) v Hvn).
        pose proof (external_nonneg g Hwf (lab (fm_part s)) v Hvn). pose proof (int_ext_total g (lab (fm_part s)) v).
        rewrite (neg_delta_ok _ _ _ _ Ci Ce) by lia. cbn [obind].
        destruct (HL v Hvn) as (i & Hi & Ei). rewrite lab_labw, (labw_lookup _ _ _ Ei).
        assert (Hcell : qcell s i v = Some (external g (lab (fm_part s)) v - internal g (lab (fm_part s)) v)%Z).
        { unfold qcell. rewrite Ev. rewrite nth_lookup, lookup_replicate_2 by done. simpl.
          rewrite lab_labw, (labw_lookup _ _ _ Ei), decide_True by done.
          rewrite (nth_lt_eq _ _ _ _ Hin). by rewrite (nth_lt_eq _ _ _ _ Ci), (nth_lt_eq _ _ _ _ Ce). }
        pose proof (Hq v i Hvn Hi) as Hqv. rewrite decide_False in Hqv by done.
        assert (Hfin : forall q', q' = <[v := qcell s i v]> (fm_q s' i) -> forall u j, u < nv g -> j < 2 ->
            (if decide (j = i) then q' else fm_q s' j) !! u = Some (if decide (u ∈ pre ++ [v]) then qcell s j u else None)).
        { intros q' -> u j Hu Hj. destruct (decide (j = i)) as [->|Hji].
          - destruct (decide (u = v)) as [->|Huv].
            + rewrite list_lookup_insert by (by eapply lookup_lt_Some). rewrite decide_True by set_solver. done.
            + rewrite list_lookup_insert_ne by done. rewrite (Hq u i Hu Hi).
              destruct (decide (u ∈ pre)); [rewrite decide_True by set_solver|rewrite decide_False by set_solver]; done.
          - rewrite (Hq u j Hu Hj). destruct (decide (u = v)) as [->|Huv].
            + rewrite decide_False by done. rewrite decide_True by set_solver.
              unfold qcell. rewrite (decide_False (P := lab (fm_part s) v = Some j)).
              * by destruct (nth v (fm_vis s) false).
              * rewrite lab_labw, (labw_lookup _ _ _ Ei). congruence.
            + destruct (decide (u ∈ pre)); [rewrite decide_True by set_solver|rewrite decide_False by set_solver]; done. }
        assert (Hlen : length (fm_q s' i) = nv g) by (unfold fm_q; destruct (Nat.eqb i 0); done).
        assert (Hadd : q_add (fm_q s' i) (external g (lab (fm_part s)) v - internal g (lab (fm_part s)) v)%Z v
           = Ok (<[v := qcell s i v]> (fm_q s' i))).
        { unfold q_add. rewrite (rd_ok _ _ _ Hqv). cbn [obind]. rewrite wr_ok by lia. by rewrite Hcell. }
        specialize (Hfin _ eq_refl).
        destruct i as [|[|]]; [| |lia]; cbn [set_q]; unfold fm_q in Hadd; simpl in Hadd; rewrite Hadd;
          cbn [obind wpo fm_part fm_conn fm_vis fm_q0 fm_q1]; split_and!; auto; rewrite ?insert_length; auto;
          intros u j Hu Hj; specialize (Hfin u j Hu Hj); destruct j as [|[|]]; [| |lia| | |lia]; simpl in *; exact Hfin. }
    intros s' (Hp & Hc & Hv & Hq0 & Hq1 & Hq). split_and!; auto.
    - unfold fm_data. rewrite Hp, Hc, Hv. split_and!; auto. split_and!; auto.
    - intros u i Hu Hi. rewrite (Hq u i Hu Hi). unfold qcell. rewrite Hp, Hc, Hv.
      f_equal. destruct (decide (u ∈ vs)) as [Hin|Hin]; [done|].
      destruct (nth u (fm_vis s) false); [done|]. case_decide; [|done].
      destruct (nth u (c_border (fm_conn s)) false) eqn:Eb; [|done].
      exfalso. apply Hin, Hmem. rewrite (lookup_nth _ _ false) by lia. by rewrite Eb.
    - congruence.
  Qed.

  (** All iterations. *)
  Lemma fm_iters_wp E maxBad iters s p0 : fm_data g s -> (iters <> 0 -> empty_queues s) -> fm_part s = p0 ->
    wpm (fm_iters g t maxBad iters s) E (fun s' => fm_data g s' /\ rtc (improves g t) p0 (fm_part s')).
  Proof.
    revert s p0. induction iters as [|iters IH]; intros s p0 HD HE Hp0; cbn [fm_iters].
    - apply wpm_ret. split; [done|]. rewrite Hp0. apply rtc_refl.
    - eapply wpm_bind; [apply fm_fill_wp; [done|by apply HE]|].
      intros s1 (HD1 & HQ1 & Hp1 & Hv1). rewrite Hp0 in Hp1. 
      assert (HP0 : exact_part 2 g p0) by (rewrite <- Hp1; apply HD1).
      destruct (calc_max_imbalance_ok g t (fm_part s1)) as [bal Hbal]; [rewrite (proj1 (proj2 (proj1 (proj1 HD1)))); lia|].
      rewrite Hbal. apply wpm_liftk.
      assert (Hvis0 : visited (nv g) (fm_vis s1) = []).
      { unfold visited. destruct (filter _ _) as [|x l] eqn:Ef; [done|]. exfalso.
        assert (x ∈ filter (fun v => nth v (fm_vis s1) false = true) (seq 0 (nv g))) as [Hx Hx']%elem_of_list_filter by (rewrite Ef; set_solver).
        apply elem_of_seq in Hx'. rewrite Hv1, nth_lookup, lookup_replicate_2 in Hx by lia. done. }
      eapply wpm_bind.
      { apply (fm_loop_wp E maxBad p0).
        - unfold pass_inv. cbn [ps_fm ps_num_moved ps_moves ps_best_cut ps_best_bal]. rewrite Hvis0.
          split_and!; auto.
          + intros v Hv. rewrite Hv1, nth_lookup, lookup_replicate_2 by done. simpl. by rewrite Hp1.
          + exists p0. split_and!; auto; [congruence|congruence|simpl; congruence|apply rtc_refl].
        - cbn [ps_num_moved]. lia. }
      intros ps (HDp & HQp & Hlab & Hnum & Hmv & bp & Hbp & Hbc & Hbb & Hwh & Hmr & Hch & Hno).
      eapply wpm_bind.
      { apply wpm_lift. apply (fm_undo_wp E (ps_moves ps) (ps_fm ps) (p_where bp)); auto. apply Hbp. }
      intros s2 [HD2 Hwh2].
      assert (Hp2 : fm_part s2 = bp) by (apply (exact_part_inj 2 g); [apply HD2|done|done]).
      destruct (Nat.eqb_spec (ps_num_moved ps) (length (ps_moves ps))) as [Heq|Hneq].
      + apply wpm_ret. split; [done|]. by rewrite Hp2.
      + eapply wpm_post.
        * apply (IH _ bp).
          -- destruct iters; [done|]. destruct HD2 as (A & B & C & L0 & L1 & Lv).
             unfold fm_data; simpl. unfold q_clear, vt_clear. rewrite !replicate_length. split_and!; auto.
          -- intros Hn. destruct iters; [done|]. destruct HD2 as (A & B & C & L0 & L1 & Lv).
             unfold empty_queues; simpl. unfold q_clear, vt_clear. rewrite L0, L1, Lv. done.
          -- destruct iters; done.
        * intros s3 [HD3 Hch3]. split; [done|]. by etrans.
  Qed.

  Lemma fm_refine_wp E maxIters maxMoves c p mb :
    max_bad_moves maxMoves (nv g) = Ok mb ->
    exact_part 2 g p -> conn_exact g (lab p) c -> border_exact g (lab p) c ->
    wpm (fm_refine maxIters maxMoves g t c p) E (fun r =>
      exact_part 2 g (snd r) /\ conn_exact g (lab (snd r)) (fst r) /\ border_exact g (lab (snd r)) (fst r) /\
      rtc (improves g t) p (snd r)).
  Proof.
    intros Hmb HP HC HB. unfold fm_refine. rewrite Hmb.
    eapply wpm_bind; [apply wpm_lift, wpo_ok; exact I|]. intros ? _.
    eapply wpm_bind.
    - apply (fm_iters_wp E _ _ _ p).
      + unfold fm_data; simpl. unfold q_new, vt_new. rewrite !replicate_length. split_and!; auto.
        all: split_and!; auto; apply HC.
      + done.
      + done.
    - intros s [(A & B & C & _) Hch]. apply wpm_ret. simpl. split_and!; auto; apply B.
  Qed.

  (** ** C32: the states of a pass that starts with partitioning p0 *)
  Inductive in_pass (p0 : part) : pass -> Prop :=
  | pass_start s s' cs cs' bal :
      fm_data g s -> empty_queues s -> fm_part s = p0 -> fm_fill s cs = Ok (s', cs') ->
      calc_max_imbalance g t (fm_part s') = Ok bal ->
      in_pass p0 (mkPass s' (p_cut (fm_part s')) bal [] 0)
  | pass_next ps ps' cs cs' :
      in_pass p0 ps -> queues_empty (ps_fm ps) = false -> fm_step g t ps cs = Ok (ps', cs') -> in_pass p0 ps'.
  Lemma pass_start_inv s bal : fm_data g s -> qinv g s -> fm_vis s = replicate (nv g) false ->
    calc_max_imbalance g t (fm_part s) = Ok bal -> pass_inv (fm_part s) (mkPass s (p_cut (fm_part s)) bal [] 0).
  Proof.
    intros HD HQ Hv Hb. unfold pass_inv. cbn [ps_fm ps_num_moved ps_moves ps_best_cut ps_best_bal].
    split; [done|]. split; [done|]. split.
    - intros v Hvn. rewrite Hv. rewrite (nth_lt_eq _ _ _ false); [done|]. by apply lookup_replicate_2.
    - split.
      + rewrite Hv. unfold visited. simpl. symmetry. apply nil_length_inv || idtac.
        rewrite (proj2 (list_filter_nil_iff _ _)) || idtac.
        induction (seq 0 (nv g)) as [|a l IH]; [done|]. rewrite filter_cons. rewrite decide_False; [done|].
        intros E. destruct (decide (a < nv g)).
        * rewrite (nth_lt_eq _ _ _ false) in E; [done|]. by apply lookup_replicate_2.
        * rewrite nth_overflow in E; [done|]. rewrite replicate_length. lia.
      + split; [simpl; lia|]. exists (fm_part s). split_and!; auto; [apply HD|apply rtc_refl].
  Qed.
  Lemma in_pass_inv p0 ps : in_pass p0 ps -> pass_inv p0 ps.
  Proof.
    induction 1 as [s s' cs cs' bal Hd He Hp Hf Hb|ps ps' cs cs' H IH He Hs].
    - pose proof (wpm_elim _ anyf _ _ _ _ (fm_fill_wp anyf s Hd He) Hf) as (A & B & C & D).
      rewrite <- Hp, <- C. apply pass_start_inv; auto.
    - pose proof (wpm_elim _ anyf _ _ _ _ (fm_step_wp anyf p0 ps IH He) Hs) as (A & _). exact A.
  Qed.
  Lemma in_pass_step p0 ps ps' cs cs' : in_pass p0 ps -> queues_empty (ps_fm ps) = false ->
    fm_step g t ps cs = Ok (ps', cs') -> moved_one ps ps'.
  Proof.
    intros H He Hs. pose proof (wpm_elim _ anyf _ _ _ _ (fm_step_wp anyf p0 ps (in_pass_inv _ _ H) He) Hs) as (_ & _ & A).
    exact A.
  Qed.
  (** The queues hold only unvisited border vertices of their side, keyed by their gain. *)
  Lemma in_pass_queue p0 ps i v k : in_pass p0 ps -> i < 2 -> fm_q (ps_fm ps) i !! v = Some (Some k) ->
    v < nv g /\ lab (fm_part (ps_fm ps)) v = Some i /\ nth v (fm_vis (ps_fm ps)) false = false /\
    c_border (fm_conn (ps_fm ps)) !! v = Some true /\
    k = (external g (lab (fm_part (ps_fm ps))) v - internal g (lab (fm_part (ps_fm ps))) v)%Z.
  Proof.
    intros H Hi Hq. apply in_pass_inv in H as (HD & HQ & _).
    destruct HD as (_ & (L1 & L2 & L3 & HC) & _ & H0 & H1 & _).
    assert (v < nv g) as Hv.
    { apply lookup_lt_Some in Hq. unfold fm_q in Hq. destruct (Nat.eqb i 0); lia. }
    rewrite (HQ v i Hv Hi) in Hq. unfold qcell in Hq.
    destruct (nth v (fm_vis (ps_fm ps)) false); [done|]. destruct (decide _) as [Hl|]; [|done].
    destruct (nth v (c_border (fm_conn (ps_fm ps))) false) eqn:Hb; [|done].
    destruct (HC v Hv) as [C1 C2].
    rewrite (nth_lt_eq _ _ _ _ C1), (nth_lt_eq _ _ _ _ C2) in Hq. injection Hq as <-.
    split_and!; auto. rewrite (lookup_nth _ _ false) by lia. by rewrite Hb.
  Qed.
End FM.
