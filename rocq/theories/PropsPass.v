(** * PropsPass: what FM refinement does, without its queues (C67).  The labels are those of a
    bisection, 0 and 1. *)
From Verif Require Import Base F64 ModelGraph ModelPartition ModelConn ModelFM Spec Logic Sums GraphFacts PartFacts ConnFacts FMFacts BisectFacts PropsBisect PropsData HistFacts TreeFacts ModelBisect LimitFacts Examples.
#[local] Arguments seq : simpl nomatch.

(** ** Specification *)
Notation labels := (list (option nat)).
Definition at_ (L : labels) (v : nat) : option nat := nth v L None.
(** The labels after moving the vertices ms, in this order, to the respective other side. *)
Definition swap_side (L : labels) (v : nat) : labels := <[v := match at_ L v with Some 0 => Some 1 | Some _ => Some 0 | None => None end]> L.
Definition after (L : labels) (ms : list nat) : labels := foldl swap_side L ms.
(** What moving v takes off the cut. *)
Definition gain (g : graph) (L : labels) (v : nat) : Z := (external g (at_ L) v - internal g (at_ L) v)%Z.
(** Not moved yet in this pass, and with an edge across or among the vertices I without edges
    that refinement also considers. *)
Definition movable (g : graph) (I : list nat) (L : labels) (ms : list nat) (v : nat) : Prop := v < nv g /\ v ∉ ms /\ ((0 < external g (at_ L) v)%Z \/ v ∈ I).
(** Side i is too heavy, and can give a vertex away. *)
Definition must_give (g : graph) (I : list nat) (t : target) (L : labels) (ms : list nat) (i : nat) : Prop :=
  (max_of t i < side_weight g L i)%Z /\ exists u, movable g I L ms u /\ at_ L u = Some i.
Record best_move (g : graph) (I : list nat) (t : target) (L : labels) (ms : list nat) (v : nat) : Prop := {
  bm_movable : movable g I L ms v;
  (* no vertex of its side has a larger gain *)
  bm_gain : forall u, movable g I L ms u -> at_ L u = at_ L v -> (gain g L u <= gain g L v)%Z;
  (* too heavy sides give first; otherwise no vertex at all has a larger gain *)
  bm_give0 : must_give g I t L ms 0 -> at_ L v = Some 0;
  bm_give1 : ~ must_give g I t L ms 0 -> must_give g I t L ms 1 -> at_ L v = Some 1;
  bm_any : ~ must_give g I t L ms 0 -> ~ must_give g I t L ms 1 -> forall u, movable g I L ms u -> (gain g L u <= gain g L v)%Z
}.
(** L' replaces L as the best labels of the pass. *)
Definition imbalance (g : graph) (t : target) (L : labels) (b : f64) : Prop :=
  exists p, exact_part 2 g p /\ p_where p = L /\ calc_max_imbalance g t p = Ok b.
Definition within (g : graph) (t : target) (L : labels) : Prop := forall i, i < 2 -> (side_weight g L i <= max_of t i)%Z.
Definition preferred (g : graph) (t : target) (L' L : labels) : Prop :=
  exists b b', imbalance g t L b /\ imbalance g t L' b' /\
    (~ within g t L' /\ flt b' b = true \/
     (edge_cut g (at_ L') < edge_cut g (at_ L))%Z /\ (within g t L' \/ fle b' b = true)).
(** Moves ms have been made, and the best labels were those after the first k of them. *)
Inductive passing (g : graph) (I : list nat) (t : target) (L : labels) : list nat -> nat -> Prop :=
| no_move : passing g I t L [] 0
| one_more ms k v (keep : bool) : passing g I t L ms k -> best_move g I t (after L ms) ms v ->
    (keep = true <-> preferred g t (after L (ms ++ [v])) (after L (take k ms))) ->
    passing g I t L (ms ++ [v]) (if keep then S (length ms) else k).
(** A pass ends when nothing is movable or after enough moves without success. *)
Definition full_pass (g : graph) (I : list nat) (t : target) (maxBad : Z) (L : labels) (ms : list nat) (k : nat) : Prop :=
  passing g I t L ms k /\ ((forall v, ~ movable g I (after L ms) ms v) \/ (maxBad <= Z.of_nat (length ms - k))%Z).
(** Passes follow each other, at most [iters], until one is without success.  A vertex without
    edges that has been moved is not considered again. *)
Inductive passes (g : graph) (t : target) (maxBad : Z) : nat -> list nat -> labels -> labels -> Prop :=
| passes_out I L : passes g t maxBad 0 I L L
| passes_end i I L ms : full_pass g I t maxBad L ms 0 -> passes g t maxBad (S i) I L L
| passes_on i I L ms k L' : full_pass g I t maxBad L ms k -> 0 < k ->
    passes g t maxBad i (filter (fun v => v ∉ ms) I) (after L (take k ms)) L' -> passes g t maxBad (S i) I L L'.
(** No edge at v, in or out. *)
Definition lone (g : graph) (v : nat) : Prop := out g v = [] /\ forall u a, u < nv g -> a ∈ out g u -> fst a <> v.

(** ** Proof *)
Lemma swap_flip L v : swap_side L v = flip v L. Proof. done. Qed.
Lemma after_app L ms ms' : after L (ms ++ ms') = after (after L ms) ms'.
Proof. unfold after. by rewrite foldl_app. Qed.
Lemma after_rev L ms : after L ms = foldr flip L (reverse ms).
Proof. unfold after. rewrite <- foldl_foldr_rev || idtac. revert L. induction ms as [|v ms IH]; intros L; [done|]. cbn [foldl]. rewrite IH, reverse_cons, foldr_app. done. Qed.
Lemma drop_snoc_le {A} (l : list A) x k : k <= length l -> drop k (l ++ [x]) = drop k l ++ [x].
Proof. intros Hk. by rewrite drop_app_le. Qed.

Section Pass.
  Context (g : graph) (Hwf : wf_graph g) (Hsym : symmetric g) (Hloop : loopless g) (Hfit : fits g) (Hli : light g).
  Context (t : target) (Htf : 2 <= length (t_frac t)) (Htm : 2 <= length (t_max t)).
  Context (Hinc : forall v, v < nv g -> (0 < sumf snd (out g v))%Z \/ lone g v).
  Local Notation n := (nv g).

  Definition over (s : fm) (i : nat) : Prop := (max_of t i < side_weight g (p_where (fm_part s)) i)%Z.
  Lemma over_b s i : exact_part 2 g (fm_part s) -> i < 2 -> (nth i (t_max t) 0 <? nth i (p_pw (fm_part s)) 0)%Z = true <-> over s i.
  Proof.
    intros [HV _] Hi. destruct (valid_pw g (fm_part s) i HV Hi) as [_ E]. unfold pw in E. rewrite (light_u32 g _ _ Hwf Hli) in E.
    unfold over, max_of, side_weight. rewrite Z.ltb_lt, E. done.
  Qed.
  Definition side_rule (s : fm) (i : nat) : Prop :=
    (over s 0 /\ q_size (fm_q0 s) <> 0 -> i = 0) /\
    (~ (over s 0 /\ q_size (fm_q0 s) <> 0) -> over s 1 /\ q_size (fm_q1 s) <> 0 -> i = 1) /\
    (~ (over s 0 /\ q_size (fm_q0 s) <> 0) -> ~ (over s 1 /\ q_size (fm_q1 s) <> 0) ->
      forall j u k, j < 2 -> fm_q s j !! u = Some (Some k) -> exists u' k', fm_q s i !! u' = Some (Some k') /\ (k <= k')%Z).
  Lemma pick_rule E s : fm_data g s -> queues_empty s = false ->
    wpm (pick_side t s) E (fun i => i < 2 /\ q_size (fm_q s i) <> 0 /\ side_rule s i).
  Proof.
    intros HD He. pose proof (over_b s 0 (proj1 HD) ltac:(lia)) as O0. pose proof (over_b s 1 (proj1 HD) ltac:(lia)) as O1.
    destruct HD as ([[_ [Hpw _]] _] & _).
    assert (He' : q_size (fm_q0 s) <> 0 \/ q_size (fm_q1 s) <> 0).
    { unfold queues_empty in He. destruct (Nat.eqb_spec (q_size (fm_q0 s)) 0), (Nat.eqb_spec (q_size (fm_q1 s)) 0); try done; auto. }
    assert (Hself : forall i u k, fm_q s i !! u = Some (Some k) -> exists u' k', fm_q s i !! u' = Some (Some k') /\ (k <= k')%Z) by (intros i u k Hk; exists u, k; split; [done|lia]).
    assert (Hemp : forall i, q_size (fm_q s i) = 0 -> forall u k, fm_q s i !! u <> Some (Some k)) by (intros i Hz; by apply q_size_zero).
    unfold pick_side. rewrite !is_overweight_ok by lia.
    apply wpm_liftk. revert O0 O1. generalize (nth 0 (t_max t) 0 <? nth 0 (p_pw (fm_part s)) 0)%Z (nth 1 (t_max t) 0 <? nth 1 (p_pw (fm_part s)) 0)%Z. intros o0 o1 O0 O1.
    destruct (Nat.eqb_spec (q_size (fm_q0 s)) 0) as [E0|E0]; destruct (Nat.eqb_spec (q_size (fm_q1 s)) 0) as [E1|E1];
      simpl negb; rewrite ?andb_true_r, ?andb_false_r; try (exfalso; lia).
    - apply wpm_liftk. rewrite andb_true_r. assert (HR : side_rule s 1).
      { split; [tauto|]. split; [done|]. intros _ _ j u k Hj Hk. destruct j as [|[|]]; [|by apply (Hself 1 u k)|lia]. exfalso. by apply (Hemp 0 E0 u k). }
      destruct o1; apply wpm_ret; (split; [lia|done]).
    - assert (HR : side_rule s 0).
      { split; [done|]. split; [tauto|]. intros _ _ j u k Hj Hk. destruct j as [|[|]]; [by apply (Hself 0 u k)| |lia]. exfalso. by apply (Hemp 1 E1 u k). }
      destruct o0; [apply wpm_ret; (split; [lia|done])|].
      apply wpm_liftk. rewrite andb_false_r.
      apply wpm_ret; (split; [lia|done]).
    - destruct o0; [apply wpm_ret; split; [lia|]; split; [done|]; (split; [done|]; split; intros Hn; exfalso; apply Hn; (split; [by apply O0|done]))|].
      assert (N0 : ~ over s 0) by (intros Hx; by apply O0 in Hx).
      apply wpm_liftk. rewrite andb_true_r.
      destruct o1; [apply wpm_ret; split; [lia|]; split; [done|]; (split; [tauto|]; split; [done|]; intros _ Hn; exfalso; apply Hn; split; [by apply O1|done])|].
      assert (N1 : ~ over s 1) by (intros Hx; by apply O1 in Hx).
      destruct (q_max_ok _ E0) as (m0 & -> & (x0 & X0) & M0). destruct (q_max_ok _ E1) as (m1 & -> & (x1 & X1) & M1).
      apply wpm_liftk.
      apply wpm_liftk.
      assert (HR0 : (m1 <= m0)%Z -> side_rule s 0).
      { intros Hm. split; [done|]. split; [tauto|]. intros _ _ j u k Hj Hk. exists x0, m0. split; [done|]. destruct j as [|[|]]; [by eapply M0| |lia]. etrans; [by eapply M1|done]. }
      assert (HR1 : (m0 <= m1)%Z -> side_rule s 1).
      { intros Hm. split; [tauto|]. split; [done|]. intros _ _ j u k Hj Hk. exists x1, m1. split; [done|]. destruct j as [|[|]]; [|by eapply M1|lia]. etrans; [by eapply M0|done]. }
      destruct (Z.ltb_spec m1 m0); [apply wpm_ret; (split; [lia|]; split; [done|]; apply HR0; lia)|].
      destruct (Z.ltb_spec m0 m1); [apply wpm_ret; (split; [lia|]; split; [done|]; apply HR1; lia)|].
      eapply wpm_bind; [by apply q_peek_wp|]. intros v0 _.
      eapply wpm_bind; [by apply q_peek_wp|]. intros v1 _.
      apply wpm_ret. pose proof (Nat.mod_upper_bound (v0 + v1) 2 ltac:(lia)) as Hb.
      split; [done|]. destruct ((v0 + v1) mod 2) as [|[|]]; [|split; [done|apply HR1; lia]|lia]. split; [done|apply HR0; lia].
  Qed.

  (** The border flags of vertices without edges. *)
  Lemma update_border_other c v : wpo (update_border c v) anyf (fun r => (forall u, u <> v -> c_border (fst r) !! u = c_border c !! u) /\
    (c_ext c !! v = Some 0%Z -> c_border (fst r) !! v = Some false)).
  Proof.
    unfold update_border, rd, wr. destruct (c_border c !! v) as [b|] eqn:Eb; [|exact Logic.I]. destruct (c_ext c !! v) as [e|] eqn:Ee; [|exact Logic.I]. cbn [obind].
    pose proof (lookup_lt_Some _ _ _ Eb) as Hl. destruct b.
    - destruct (Z.eqb_spec e 0) as [->|Hne]; [|cbn; split; [done|]; intros [=]; done]. destruct (decide (v < length (c_border c))) as [Hd|]; [|done]. cbn.
      split; [intros u Hu; by rewrite list_lookup_insert_ne|]. intros _. by apply list_lookup_insert.
    - destruct (Z.ltb_spec 0 e) as [Hlt|Hge]; [|cbn; done]. destruct (decide (v < length (c_border c))) as [Hd|]; [|done]. cbn. split; [intros u Hu; by rewrite list_lookup_insert_ne|]. intros [=]. lia.
  Qed.
  Lemma lone_move track v to s : v < n -> fm_data g s -> wpo (fm_move g track v to s) anyf (fun s' =>
    (forall u, u < n -> lone g u -> u <> v -> c_border (fm_conn s') !! u = c_border (fm_conn s) !! u) /\
    (lone g v -> c_border (fm_conn s') !! v = Some false)).
  Proof.
    intros Hv (HP & (L1 & L2 & L3 & HC) & _). unfold fm_move. destruct (vertex_delta (fm_conn s) v) as [delta|]; [|exact Logic.I]. cbn [obind].
    eapply (wpo_bind _ _ _ (fun r => (forall u, u <> v -> c_border (fst r) !! u = c_border (fm_conn s) !! u) /\ (lone g v -> c_border (fst r) !! v = Some false))).
    { unfold conn_move. destruct (HC v Hv) as [C1 C2]. rewrite (rd_ok _ _ _ C1), (rd_ok _ _ _ C2). cbn [obind]. rewrite !wr_ok by lia. cbn [obind].
      eapply wpo_post; [apply update_border_other|]. intros r [A B]. split; [exact A|]. intros [Ho _]. apply B. cbn [c_ext]. rewrite list_lookup_insert by lia. f_equal.
      unfold internal. rewrite Ho. done. }
    intros [c st] [A B]. cbn [fst] in A, B. destruct (part_move g (fm_part s) v to) as [p|]; [|exact Logic.I]. cbn [obind].
    eapply wpo_post; [apply (for_edges_wp g Hwf v (fun _ s' => forall u, u < n -> lone g u -> c_border (fm_conn s') !! u = c_border c !! u)); [done|done|]|].
    - intros pre e a post s' Ho (He & Hd & Hw & Hx) HS. unfold fm_neighbor. rewrite Hd. cbn [obind]. destruct (get_assignment _ _) as [home|]; [|exact Logic.I]. cbn [obind].
      rewrite Hw. cbn [obind].
      eapply (wpo_bind _ _ _ (fun r => forall u, u <> fst a -> c_border (fst r) !! u = c_border (fm_conn s') !! u)).
      { unfold update_neighbor, rd, wr. destruct (c_int (fm_conn s') !! fst a) as [i|]; [|exact Logic.I]. destruct (c_ext (fm_conn s') !! fst a) as [x|]; [|exact Logic.I]. cbn [obind].
        destruct (decide _); [|exact Logic.I]. cbn [obind]. destruct (decide _); [|exact Logic.I]. cbn [obind]. eapply wpo_post; [apply update_border_other|]. intros r [A' _]. exact A'. }
      intros [c' st'] HA. cbn [fst snd] in *.
      assert (HF : forall u, u < n -> lone g u -> c_border c' !! u = c_border c !! u).
      { intros u Hu Hlo. rewrite HA; [by apply HS|]. intros ->. destruct Hlo as [_ Hno]. apply (Hno v a Hv); [|done]. rewrite Ho. apply elem_of_app. right. by left. }
      assert (Hset : forall f, wpo (set_q (mkFm (fm_part s') c' (fm_q0 s') (fm_q1 s') (fm_vis s')) home f) anyf (fun s'' => forall u, u < n -> lone g u -> c_border (fm_conn s'') !! u = c_border c !! u)).
      { intros f. unfold set_q. destruct home as [[|[|]]|]; try exact Logic.I; cbn [fm_q0 fm_q1]; destruct (f _); exact Logic.I || exact HF. }
      destruct track; [|exact HF]. cbn [fm_vis fm_conn]. destruct (vt_has (fm_vis s') (fst a)) as [[]|]; [exact HF| |exact Logic.I]. cbn [obind].
      destruct st'; try exact HF; try apply Hset; (destruct (neg_delta c' (fst a)); [cbn [obind]; apply Hset|exact Logic.I]).
    - intros s' HS. split.
      + intros u Hu Hlo Hne. rewrite HS by done. by apply A.
      + intros Hlo. rewrite HS by done. by apply B.
  Qed.
  Definition loose (I ms : list nat) (s : fm) : Prop := forall v, v < n -> lone g v -> c_border (fm_conn s) !! v = Some true <-> v ∈ I /\ v ∉ ms.
  Lemma loose_move I ms ms' track v to s : v < n -> fm_data g s -> loose I ms s -> (forall u, u ∈ ms' <-> u ∈ ms \/ u = v) ->
    wpo (fm_move g track v to s) anyf (loose I ms').
  Proof.
    intros Hv HD HL Hms. eapply wpo_post; [by apply lone_move|]. intros s' [A B] u Hu Hlo. rewrite Hms. destruct (decide (u = v)) as [->|Hne].
    - rewrite B by done. split; [done|]. tauto.
    - rewrite A by done. rewrite (HL u Hu Hlo). tauto.
  Qed.
  Lemma loose_undo I ms moves : forall s wh, fm_data g s -> Forall (fun v => v < n) moves -> labels_ok 2 n wh -> p_where (fm_part s) = foldr flip wh moves ->
    Forall (fun v => v ∈ ms) moves -> loose I ms s -> wpo (fm_undo g moves s) anyf (loose I ms).
  Proof.
    unfold fm_undo. induction moves as [|v moves IH]; intros s wh HD Hm HL Hwh HF HJ; simpl; [done|].
    apply Forall_cons in Hm as [Hv Hm]. apply Forall_cons in HF as [Hv' HF]. simpl in Hwh.
    assert (HL' : labels_ok 2 n (foldr flip wh moves)).
    { clear -HL Hm Hfit. induction moves as [|u moves IH]; simpl; [done|]. apply Forall_cons in Hm as [Hu Hm]. apply flip_labels_ok; auto. }
    assert (HLs : labels_ok 2 n (p_where (fm_part s))) by apply HD. destruct HLs as [Hl HLs]. destruct (HLs v Hv) as (i & Hi & Ei).
    rewrite (get_assignment_ok g) by done. cbn [obind]. rewrite lab_labw, (labw_lookup _ _ _ Ei). cbn [pw_index obind].
    eapply wpo_bind.
    - apply wpo_conj with (E2 := anyf); [apply (fm_move_wp g Hwf Hsym Hloop Hfit anyf false v i)|apply (loose_move I ms ms)]; auto.
      + destruct i as [|[|]]; simpl; lia.
      + by rewrite lab_labw, (labw_lookup _ _ _ Ei).
      + done.
      + intros u. split; [auto|]. intros [?| ->]; done.
    - intros s' [(HD' & Hwh' & _ & _) HJ']. apply (IH s' wh); auto.
      rewrite Hwh'. rewrite <- (flip_flip n v (foldr flip wh moves)) by done.
      rewrite <- Hwh. unfold flip. rewrite (labw_lookup _ _ _ Ei).
      f_equal. destruct i as [|[|]]; [done|done|lia].
  Qed.
  Lemma fill_conn s : wpm (fm_fill s) anyf (fun s' => fm_conn s' = fm_conn s).
  Proof.
    unfold fm_fill. eapply wpm_bind; [apply wpm_choose_perm|]. intros vs _. apply wpm_lift. apply (ofold_inv (fun s' => fm_conn s' = fm_conn s)); [done|].
    intros s' v _ Hs. destruct (get_assignment _ _) as [side|]; [|exact Logic.I]. cbn [obind]. destruct (neg_delta _ _) as [k|]; [|exact Logic.I]. cbn [obind].
    unfold set_q. destruct side as [[|[|]]|]; try exact Logic.I; destruct (q_add _ _ _); exact Logic.I || exact Hs.
  Qed.

  (** One pass, with the vertices I. *)
  Section Given.
  Context (I : list nat) (HI : forall v, v ∈ I -> v < n /\ lone g v).
  (** The queues, in terms of the labels. *)
  Lemma queue_cand s ms i u k : fm_data g s -> qinv g s -> (forall v, v < n -> nth v (fm_vis s) false = true <-> v ∈ ms) -> loose I ms s -> i < 2 ->
    fm_q s i !! u = Some (Some k) <-> movable g I (p_where (fm_part s)) ms u /\ at_ (p_where (fm_part s)) u = Some i /\ k = gain g (p_where (fm_part s)) u.
  Proof.
    intros (HP & (L1 & L2 & L3 & HC) & HB & Hl0 & Hl1 & Hlv) HQ Hvis HJ Hi. split.
    - intros Hk. assert (Hu : u < n) by (apply lookup_lt_Some in Hk; unfold fm_q in Hk; destruct (Nat.eqb i 0); lia).
      rewrite (HQ u i Hu Hi) in Hk. unfold qcell in Hk. destruct (nth u (fm_vis s) false) eqn:Ev; [done|]. destruct (decide _) as [Hl|]; [|done].
      destruct (nth u (c_border (fm_conn s)) false) eqn:Eb; [|done]. injection Hk as <-. destruct (HC u Hu) as [C1 C2].
      rewrite (nth_lt_eq _ _ _ _ C1), (nth_lt_eq _ _ _ _ C2). split; [|split; [exact Hl|done]]. split; [done|]. split; [intros Hin; apply Hvis in Hin; [congruence|done]|].
      assert (Hbt : c_border (fm_conn s) !! u = Some true) by (rewrite (lookup_nth _ _ false) by lia; by rewrite Eb).
      destruct (Hinc u Hu) as [Hpos|Hlo]; [left; by apply (HB u Hu Hpos)|right; by apply (HJ u Hu Hlo)].
    - intros ((Hu & Hn & He) & Hl & ->). rewrite (HQ u i Hu Hi). unfold qcell. destruct (nth u (fm_vis s) false) eqn:Ev; [exfalso; apply Hn; by apply Hvis|].
      rewrite decide_True by exact Hl. destruct (HC u Hu) as [C1 C2]. rewrite (nth_lt_eq _ _ _ _ C1), (nth_lt_eq _ _ _ _ C2).
      assert (Hbt : c_border (fm_conn s) !! u = Some true).
      { destruct He as [He|He]; [|destruct (HI u He) as [_ Hlo]; by apply (HJ u Hu Hlo)].
        apply (HB u Hu); [|done]. pose proof (int_ext_total g (lab (fm_part s)) u). pose proof (internal_nonneg g Hwf (lab (fm_part s)) u Hu). unfold at_, lab in *. lia. }
      by rewrite (nth_lt_eq _ _ _ _ Hbt).
  Qed.
  Lemma queue_size s ms i : fm_data g s -> qinv g s -> (forall v, v < n -> nth v (fm_vis s) false = true <-> v ∈ ms) -> loose I ms s -> i < 2 ->
    q_size (fm_q s i) <> 0 <-> exists u, movable g I (p_where (fm_part s)) ms u /\ at_ (p_where (fm_part s)) u = Some i.
  Proof.
    intros HD HQ Hvis HJ Hi. split.
    - intros Hne. destruct (q_max_ok _ Hne) as (m & _ & (u & Hu) & _). apply (queue_cand s ms i u m HD HQ Hvis HJ Hi) in Hu as (A & B & _). by exists u.
    - intros (u & A & B) Hz. rewrite q_size_zero in Hz. apply (Hz u (gain g (p_where (fm_part s)) u)). apply (queue_cand s ms i u _ HD HQ Hvis HJ Hi). done.
  Qed.
  Lemma movable_label s ms u : exact_part 2 g (fm_part s) -> movable g I (p_where (fm_part s)) ms u -> exists i, i < 2 /\ at_ (p_where (fm_part s)) u = Some i.
  Proof. intros [[HL _] _] [Hu _]. by apply (labels_ok_lab 2 n). Qed.
  Lemma pick_best s ms from v k : fm_data g s -> qinv g s -> (forall v, v < n -> nth v (fm_vis s) false = true <-> v ∈ ms) -> loose I ms s ->
    from < 2 -> side_rule s from -> fm_q s from !! v = Some (Some k) -> (forall u k', fm_q s from !! u = Some (Some k') -> (k' <= k)%Z) ->
    best_move g I t (p_where (fm_part s)) ms v.
  Proof.
    intros HD HQ Hvis HJ Hf (R0 & R1 & R2) Hv Hmax. pose proof (proj1 (queue_cand s ms from v k HD HQ Hvis HJ Hf) Hv) as (A & B & ->).
    assert (HG : forall i, i < 2 -> must_give g I t (p_where (fm_part s)) ms i <-> over s i /\ q_size (fm_q s i) <> 0).
    { intros i Hi. unfold must_give, over. by rewrite (queue_size s ms i HD HQ Hvis HJ Hi). }
    pose proof (HG 0 ltac:(lia)) as G0. pose proof (HG 1 ltac:(lia)) as G1. unfold fm_q in G0, G1. cbn [Nat.eqb] in G0, G1. rewrite <- G0, <- G1 in R2. rewrite <- G0 in R0, R1. rewrite <- G1 in R1.
    constructor; [done| | | |].
    - intros u Hu Hsame. apply (Hmax u). apply (queue_cand s ms from u _ HD HQ Hvis HJ Hf). rewrite Hsame. done.
    - intros M. rewrite B. by rewrite (R0 M).
    - intros N M. rewrite B. by rewrite (R1 N M).
    - intros N M u Hu. destruct (movable_label s ms u (proj1 HD) Hu) as (j & Hj & Hju).
      destruct (R2 N M j u (gain g (p_where (fm_part s)) u) Hj) as (u' & k' & Hq & Hle).
      { apply (queue_cand s ms j u _ HD HQ Hvis HJ Hj). done. }
      etrans; [exact Hle|]. by eapply Hmax.
  Qed.

  Record tracks (p0 : part) (ps : pass) (ms : list nat) (k : nat) : Prop := {
    tk_inv : pass_inv g t p0 ps;
    tk_pass : passing g I t (p_where p0) ms k;
    tk_k : k <= length ms;
    tk_num : ps_num_moved ps = length ms;
    tk_moves : ps_moves ps = reverse (drop k ms);
    tk_labels : p_where (fm_part (ps_fm ps)) = after (p_where p0) ms;
    tk_vis : forall v, v < n -> nth v (fm_vis (ps_fm ps)) false = true <-> v ∈ ms;
    tk_loose : loose I ms (ps_fm ps);
    tk_best : exists bp, exact_part 2 g bp /\ p_where bp = after (p_where p0) (take k ms) /\ p_cut bp = ps_best_cut ps /\ calc_max_imbalance g t bp = Ok (ps_best_bal ps)
  }.
  Lemma fm_accept_iff bp p isb b b' : exact_part 2 g bp -> exact_part 2 g p -> is_balanced t p = Ok isb ->
    (isb = true <-> within g t (p_where p)) -> calc_max_imbalance g t bp = Ok b -> calc_max_imbalance g t p = Ok b' ->
    fm_accept isb b' b (p_cut p) (p_cut bp) = true <-> preferred g t (p_where p) (p_where bp).
  Proof.
    intros Hbp Hp Hb Hw Eb Eb'. unfold fm_accept, preferred. rewrite orb_true_iff, !andb_true_iff, orb_true_iff, negb_true_iff, Z.ltb_lt.
    assert (Ec : p_cut p = edge_cut g (at_ (p_where p))) by apply Hp. assert (Ecb : p_cut bp = edge_cut g (at_ (p_where bp))) by apply Hbp. rewrite Ec, Ecb.
    assert (Hf : isb = false <-> ~ within g t (p_where p)) by (rewrite <- Hw; destruct isb; split; done || (by intros []) || done).
    rewrite Hf, Hw. split.
    - intros Hc. exists b, b'. split; [by exists bp|]. split; [by exists p|]. exact Hc.
    - intros (c & c' & (q & Hq & Eq & Ei) & (q' & Hq' & Eq' & Ei') & Hc).
      rewrite (exact_part_inj 2 g q bp Hq Hbp Eq) in Ei. rewrite (exact_part_inj 2 g q' p Hq' Hp Eq') in Ei'.
      rewrite Eb in Ei. rewrite Eb' in Ei'. injection Ei as <-. injection Ei' as <-. exact Hc.
  Qed.
  Lemma within_b p isb : exact_part 2 g p -> is_balanced t p = Ok isb -> isb = true <-> within g t (p_where p).
  Proof.
    intros Hp E. destruct Hp as [HV _]. destruct (is_balanced_ok t p) as (b & E' & Hb); [rewrite (proj1 (proj2 HV)); done|]. rewrite E in E'. injection E' as <-. rewrite Hb.
    rewrite (proj1 (proj2 HV)). unfold within. apply forall_iff_compat || idtac. split; intros HA i Hi; specialize (HA i Hi); destruct (valid_pw g p i HV Hi) as [_ Ep]; unfold pw in Ep;
      rewrite (light_u32 g _ _ Hwf Hli) in Ep; unfold max_of, side_weight in *; rewrite Ep in *; exact HA.
  Qed.
  Lemma tracks_step E p0 ps ms k : tracks p0 ps ms k -> queues_empty (ps_fm ps) = false ->
    wpm (fm_step g t ps) E (fun ps' => ps_num_moved ps' = S (ps_num_moved ps) /\ exists v k', tracks p0 ps' (ms ++ [v]) k').
  Proof.
    intros HT He. pose proof HT as [HPI HPs Hk Hnum Hmv Hlb Hvs HJ (bp & Hbp & Hbw & Hbc & Hbb)].
    eapply wpm_post; [apply (wpm_conj _ _ E _ (fun ps' => exists v k', passing g I t (p_where p0) (ms ++ [v]) k' /\
       k' <= length (ms ++ [v]) /\ ps_moves ps' = reverse (drop k' (ms ++ [v])) /\ p_where (fm_part (ps_fm ps')) = after (p_where p0) (ms ++ [v]) /\
       (forall u, u < n -> nth u (fm_vis (ps_fm ps')) false = true <-> u ∈ ms ++ [v]) /\ loose I (ms ++ [v]) (ps_fm ps') /\
       exists bp, exact_part 2 g bp /\ p_where bp = after (p_where p0) (take k' (ms ++ [v])) /\ p_cut bp = ps_best_cut ps' /\ calc_max_imbalance g t bp = Ok (ps_best_bal ps'))
       (fm_step_wp g Hwf Hsym Hloop Hfit t Htf Htm E p0 ps HPI He))|].
    2: { intros ps' [(HI' & Hn & _) (v & k' & A1 & A2 & A3 & A4 & A5 & A5' & A6)]. split; [done|]. exists v, k'. constructor; try done. rewrite Hn, Hnum, app_length. cbn. lia. }
    destruct HPI as (HD & HQ & _).
    unfold fm_step. eapply wpm_bind; [by apply pick_rule|]. intros from (Hfrom & Hne & Hrule).
    eapply wpm_bind; [by apply q_pop_wp|]. intros [v q'] (Hq' & kv & Hv & Hmax). simpl in Hq', Hv. subst q'.
    cbn [fst snd].
    pose proof (pick_best (ps_fm ps) ms from v kv HD HQ Hvs HJ Hfrom Hrule Hv Hmax) as Hbest. rewrite Hlb in Hbest.
    destruct HD as (HP & HC & HB & Hl0 & Hl1 & Hlv).
    assert (Hvn : v < nv g).
    { apply lookup_lt_Some in Hv. unfold fm_q in Hv. destruct (Nat.eqb from 0); lia. }
    pose proof (HQ v from Hvn Hfrom) as Hcell. rewrite Hv in Hcell. injection Hcell as Hcell. symmetry in Hcell.
    unfold qcell in Hcell. destruct (nth v (fm_vis (ps_fm ps)) false) eqn:Hnvis; [done|].
    destruct (decide (lab (fm_part (ps_fm ps)) v = Some from)) as [Hlf|]; [|done].
    set (s := ps_fm ps) in *.
    set (s1 := mkFm (fm_part s) (fm_conn s) (if Nat.eqb from 0 then <[v:=None]> (fm_q0 s) else fm_q0 s)
                 (if Nat.eqb from 0 then fm_q1 s else <[v:=None]> (fm_q1 s)) (fm_vis s)).
    eapply wpm_bind with (P := fun x => x = s1).
    { apply wpm_lift. destruct from as [|[|]]; [done|done|lia]. }
    intros ? ->. unfold vt_visit. rewrite wr_ok by (simpl; lia).
    apply wpm_liftk.
    set (s2 := mkFm (fm_part s1) (fm_conn s1) (fm_q0 s1) (fm_q1 s1) (<[v:=true]> (fm_vis s))).
    assert (HD2 : fm_data g s2).
    { unfold fm_data, s2, s1; simpl. split_and!; auto; destruct (Nat.eqb from 0); rewrite ?insert_length; auto. }
    assert (HQ2 : qinv g s2).
    { intros u i Hu Hi. destruct (decide (u = v)) as [->|Huv].
      - unfold qcell, s2; simpl. rewrite nth_insert_same by lia.
        pose proof (HQ v i Hvn Hi) as Hqi. unfold qcell in Hqi. fold s in Hqi. rewrite Hnvis, Hlf in Hqi.
        unfold fm_q in *; simpl. destruct from as [|[|]]; [| |lia]; destruct i as [|[|]]; try lia; simpl in *;
          rewrite ?list_lookup_insert by lia; auto;
          (rewrite decide_False in Hqi by congruence; done).
      - transitivity (Some (qcell s i u)).
        + rewrite <- (HQ u i Hu Hi). unfold fm_q, s2, s1; simpl.
          destruct (Nat.eqb from 0), (Nat.eqb i 0); rewrite ?list_lookup_insert_ne by done; done.
        + f_equal. unfold qcell, s2, s1; simpl. by rewrite nth_insert_ne by done. }
    set (to := if Nat.eqb from 0 then 1 else 0).
    assert (Hft : from + to = 1) by (unfold to; destruct from as [|[|]]; simpl; lia).
    eapply wpm_bind.
    { apply wpm_lift. apply wpo_conj with (E2 := anyf) (Q := loose I (ms ++ [v])).
      - apply (fm_move_wp g Hwf Hsym Hloop Hfit E true v from to s2); auto.
        intros _. split; [done|]. simpl. apply nth_insert_same. lia.
      - apply (loose_move I ms); [done|done|exact HJ|]. intros u. by rewrite elem_of_app, elem_of_list_singleton. }
    intros s3 [(HD3 & Hwh3 & Hvis3 & HQ3) HJ3]. specialize (HQ3 eq_refl).
    assert (Hp3 : length (p_pw (fm_part s3)) = 2) by apply HD3.
    destruct (calc_max_imbalance_ok g t (fm_part s3)) as [bal Hbal]; [lia|].
    destruct (is_balanced_ok t (fm_part s3)) as (isb & Hisb & _); [lia|].
    rewrite Hbal, Hisb.
    apply wpm_liftk.
    apply wpm_liftk.
    apply wpm_ret.
    assert (Hafter : p_where (fm_part s3) = after (p_where p0) (ms ++ [v])).
    { rewrite after_app. unfold after at 1. cbn [foldl]. rewrite <- Hlb, swap_flip, Hwh3. unfold flip. cbn [fm_part s2 s1]. f_equal. rewrite <- lab_labw. fold s. rewrite Hlf.
      unfold to. destruct from as [|[|]]; [done|done|lia]. }
    assert (Hvis' : forall u, u < n -> nth u (fm_vis s3) false = true <-> u ∈ ms ++ [v]).
    { intros u Hu. rewrite Hvis3. cbn [fm_vis s2]. rewrite elem_of_app, elem_of_list_singleton. destruct (decide (u = v)) as [->|Hne']; [rewrite nth_insert_same by lia; tauto|].
      rewrite nth_insert_ne by done. rewrite (Hvs u Hu). tauto. }
    assert (Hacc : fm_accept isb bal (ps_best_bal ps) (p_cut (fm_part s3)) (ps_best_cut ps) = true <-> preferred g t (after (p_where p0) (ms ++ [v])) (after (p_where p0) (take k ms))).
    { rewrite <- Hafter, <- Hbw, <- Hbc. eapply fm_accept_iff; try done; [apply HD3|apply within_b; [apply HD3|done]]. }
    exists v. pose proof (one_more g I t (p_where p0) ms k v _ HPs Hbest Hacc) as Hnext.
    destruct (fm_accept isb bal (ps_best_bal ps) (p_cut (fm_part s3)) (ps_best_cut ps)); cbn [ps_fm ps_moves ps_best_cut ps_best_bal].
    - exists (S (length ms)). split; [done|]. split; [rewrite app_length; cbn; lia|]. split; [rewrite drop_ge by (rewrite app_length; cbn; lia); done|]. split; [done|]. split; [done|]. split; [done|].
      exists (fm_part s3). split; [apply HD3|]. split; [|done]. rewrite take_ge by (rewrite app_length; cbn; lia). done.
    - exists k. split; [done|]. split; [rewrite app_length; lia|]. split; [rewrite drop_snoc_le, reverse_app, Hmv by done; done|]. split; [done|]. split; [done|]. split; [done|].
      exists bp. split; [done|]. rewrite take_app_le by done. done.
  Qed.
  Lemma tracks_loop E maxBad p0 : forall fuel ps ms k, tracks p0 ps ms k -> n <= fuel + ps_num_moved ps ->
    wpm (fm_loop g t maxBad fuel ps) E (fun ps' => exists ms' k', tracks p0 ps' ms' k' /\ full_pass g I t maxBad (p_where p0) ms' k').
  Proof.
    assert (Hend : forall ps ms k, tracks p0 ps ms k -> queues_empty (ps_fm ps) = true -> forall v, ~ movable g I (after (p_where p0) ms) ms v).
    { intros ps ms k [(HD & HQ & _) _ _ _ _ Hlb Hvs HJ _] He v Hm. rewrite <- Hlb in Hm. destruct (movable_label (ps_fm ps) ms v (proj1 HD) Hm) as (i & Hi & Hl).
      apply andb_true_iff in He as [H0 H1]. apply Nat.eqb_eq in H0, H1. assert (Hz : q_size (fm_q (ps_fm ps) i) <> 0) by (apply (queue_size _ ms i HD HQ Hvs HJ Hi); by exists v).
      unfold fm_q in Hz. destruct (Nat.eqb i 0); done. }
    assert (Hbad : forall ps ms k, tracks p0 ps ms k -> (maxBad <= Z.of_nat (length (ps_moves ps)))%Z -> full_pass g I t maxBad (p_where p0) ms k).
    { intros ps ms k HT Hm. split; [apply HT|]. right. rewrite (tk_moves _ _ _ _ HT), reverse_length, drop_length in Hm. done. }
    induction fuel as [|fuel IH]; intros ps ms k HT Hf; simpl.
    - destruct (queues_empty (ps_fm ps)) eqn:He; simpl.
      { apply wpm_ret. exists ms, k. split; [done|]. split; [apply HT|]. left. by eapply Hend. }
      pose proof (fm_loop_wp g Hwf Hsym Hloop Hfit t Htf Htm never maxBad p0 0 ps (tk_inv _ _ _ _ HT) ltac:(lia)) as HN. cbn [fm_loop] in HN. rewrite He in HN. simpl in HN.
      destruct (Z.ltb_spec (Z.of_nat (length (ps_moves ps))) maxBad); simpl in *; [exfalso; exact (HN [])|]. apply wpm_ret. exists ms, k. split; [done|]. by eapply Hbad.
    - destruct (queues_empty (ps_fm ps)) eqn:He; simpl.
      { apply wpm_ret. exists ms, k. split; [done|]. split; [apply HT|]. left. by eapply Hend. }
      destruct (Z.ltb_spec (Z.of_nat (length (ps_moves ps))) maxBad); simpl; [|apply wpm_ret; exists ms, k; split; [done|by eapply Hbad]].
      eapply wpm_bind; [by apply (tracks_step E p0 ps ms k)|]. intros ps' (Hn & v & k' & HT'). apply (IH _ _ _ HT'). lia.
  Qed.
  End Given.
  Lemma passes_wp E maxBad : forall iters I s, fm_data g s -> (iters <> 0 -> empty_queues g s) -> (forall v, v ∈ I -> v < n /\ lone g v) -> loose I [] s ->
    wpm (fm_iters g t maxBad iters s) E (fun s' => passes g t maxBad iters I (p_where (fm_part s)) (p_where (fm_part s'))).
  Proof.
    induction iters as [|iters IH]; intros I s HD HE HI HJ; cbn [fm_iters]; [apply wpm_ret; constructor|].
    eapply wpm_bind; [apply (wpm_conj _ _ _ _ _ (fm_fill_wp g Hwf Hsym Hloop Hfit t Htf Htm E s HD (HE ltac:(done))) (fill_conn s))|]. intros s1 [(HD1 & HQ1 & Hp1 & Hv1) Hc1].
    destruct (calc_max_imbalance_ok g t (fm_part s1)) as [bal Hbal]; [rewrite (proj1 (proj2 (proj1 (proj1 HD1)))); lia|].
    rewrite Hbal. apply wpm_liftk.
    assert (HT : tracks I (fm_part s1) (mkPass s1 (p_cut (fm_part s1)) bal [] 0) [] 0).
    { constructor; try done.
      - apply (pass_start_inv g t); done.
      - constructor.
      - intros v Hv. cbn [ps_fm]. rewrite Hv1, nth_lookup, lookup_replicate_2 by done. cbn. split; [done|]. intros Hx. by apply not_elem_of_nil in Hx.
      - unfold loose. cbn [ps_fm]. rewrite Hc1. exact HJ.
      - exists (fm_part s1). split; [apply HD1|]. done. }
    eapply wpm_bind; [apply (tracks_loop I HI E maxBad _ n _ _ _ HT); cbn [ps_num_moved]; lia|]. intros ps (ms & k & HT' & HF).
    pose proof HT' as [HI' _ Hk Hnum Hmv Hlb _ HJ' (bp & Hbp & Hbw & _)]. rewrite Hp1 in *.
    assert (Hmr : Forall (fun v => v < n) (ps_moves ps)) by (destruct HI' as (_ & _ & _ & _ & _ & bp' & _ & _ & _ & _ & Hmr & _); exact Hmr).
    assert (Hfl : p_where (fm_part (ps_fm ps)) = foldr flip (p_where bp) (ps_moves ps)) by (rewrite Hmv, Hbw, <- after_rev, <- after_app, take_drop; exact Hlb).
    eapply wpm_bind.
    { apply wpm_lift. apply wpo_conj with (E2 := anyf) (Q := loose I ms).
      - apply (fm_undo_wp g Hwf Hsym Hloop Hfit t Htf Htm E (ps_moves ps) (ps_fm ps) (p_where bp)); [apply HI'|done|apply Hbp|done].
      - apply (loose_undo I ms (ps_moves ps) (ps_fm ps) (p_where bp)); [apply HI'|done|apply Hbp|done| |done].
        apply Forall_forall. intros v Hv. rewrite Hmv, elem_of_reverse in Hv. by eapply elem_of_list_In, in_drop_in || (rewrite <- (take_drop k ms); apply elem_of_app; by right). }
    intros s2 [[HD2 Hw2] HJ2]. rewrite Hnum, Hmv, reverse_length, drop_length.
    destruct (Nat.eqb_spec (length ms) (length ms - k)) as [Heq|Hneq].
    - apply wpm_ret. assert (k = 0 \/ ms = []) as Hz by (destruct ms; [by right|left; cbn in *; lia]).
      assert (k = 0) as -> by (destruct Hz as [|Hz]; [done|]; rewrite Hz in Hk; cbn in Hk; lia).
      rewrite Hw2, Hbw. cbn [take]. unfold after. cbn [foldl]. by eapply passes_end.
    - eapply wpm_post; [apply (IH (filter (fun v => v ∉ ms) I))|].
      + destruct iters; [done|]. destruct HD2 as (A & B & C & L0 & L1 & Lv). unfold fm_data; simpl. unfold q_clear, vt_clear. rewrite !replicate_length. split_and!; auto.
      + intros Hn. destruct iters; [done|]. destruct HD2 as (A & B & C & L0 & L1 & Lv).
        unfold empty_queues; simpl. unfold q_clear, vt_clear. rewrite L0, L1, Lv. done.
      + intros v [_ Hv]%elem_of_list_filter. by apply HI.
      + assert (HJ3 : loose (filter (fun v => v ∉ ms) I) [] s2).
        { intros v Hv Hlo. rewrite (HJ2 v Hv Hlo), elem_of_list_filter. pose proof (not_elem_of_nil v). tauto. }
        destruct iters; exact HJ3.
      + intros s3 HP. eapply passes_on; [exact HF|lia|]. rewrite <- Hbw, <- Hw2. destruct iters; exact HP.
  Qed.
End Pass.

(** ** C67: every vertex has incident weight, or no edges at all (true if edge weights are positive,
    next lemma). *)
Definition no_edges (g : graph) : list nat := filter (fun v => out g v = []) (seq 0 (nv g)).
Lemma positive_lone g : wf_graph g -> symmetric g -> (forall u a, u < nv g -> a ∈ out g u -> (0 < snd a)%Z) ->
  forall v, v < nv g -> (0 < sumf snd (out g v))%Z \/ lone g v.
Proof.
  intros Hwf Hs Hp v Hv. destruct (out g v) as [|a l] eqn:E.
  - right. split; [done|]. intros u [x w] Hu Ha. cbn [fst]. intros ->.
    assert (H1 : (0 < W g u v)%Z).
    { unfold W. eapply Z.lt_le_trans; [exact (Hp u (v, w) Hu Ha)|]. etrans; [|apply (sumf_elem_le (fun a => if decide (fst a = v) then snd a else 0%Z) _ (v, w)); [|exact Ha]].
      - cbn [fst snd]. rewrite decide_True by done. cbn. lia.
      - intros b Hb. apply (Hp u b Hu) in Hb. case_decide; lia. }
    rewrite Hs in H1 by done. unfold W in H1. rewrite E, sumf_nil in H1. lia.
  - left. rewrite sumf_cons. assert (H0 := sumf_nonneg snd l ltac:(intros b Hb; assert (Hb' := Hp v b Hv ltac:(rewrite E; by right)); lia)).
    assert (H1 := Hp v a Hv ltac:(rewrite E; by left)). lia.
Qed.
Theorem C67_refinement_is_fm : forall g t c p maxIters maxMoves cs c' p' cs' maxBad,
  wf_graph g -> symmetric g -> loopless g -> fits g -> light g -> (forall v, v < nv g -> (0 < sumf snd (out g v))%Z \/ lone g v) ->
  2 <= length (t_frac t) -> 2 <= length (t_max t) -> max_bad_moves maxMoves (nv g) = Ok maxBad ->
  exact_part 2 g p -> conn_exact g (lab p) c -> border_fresh g (lab p) c ->
  fm_refine maxIters maxMoves g t c p cs = Ok ((c', p'), cs') ->
  passes g t maxBad (Z.to_nat maxIters) (no_edges g) (p_where p) (p_where p').
Proof.
  intros g t c p mi mm cs c' p' cs' mb Hwf Hs Hl Hf Hli Hinc Htf Htm Hmb HP HC HB E. unfold fm_refine in E. rewrite Hmb in E.
  apply mbind_inv in E as (mb' & s1 & E1 & E2). injection E1 as <- <-. apply mbind_inv in E2 as (s & s2 & E3 & E4). injection E4 as <- <- <-.
  assert (HN : forall v, v ∈ no_edges g <-> v < nv g /\ lone g v).
  { intros v. unfold no_edges. rewrite elem_of_list_filter, elem_of_seq. split; [|intros [? [? _]]; split; [done|lia]]. intros [Ho Hv]. split; [lia|].
    destruct (Hinc v ltac:(lia)) as [Hp|Hlo]; [|done]. rewrite Ho, sumf_nil in Hp. lia. }
  refine (wpm_elim _ anyf _ _ _ _ (passes_wp g Hwf Hs Hl Hf Hli t Htf Htm Hinc anyf mb (Z.to_nat mi) (no_edges g) _ _ _ _ _) E3).
  - unfold fm_data; simpl. unfold q_new, vt_new. rewrite !replicate_length. pose proof (fresh_exact g Hwf _ _ HB). pose proof HC as (? & ? & ?). split_and!; auto.
  - done.
  - intros v Hv. by apply HN.
  - intros v Hv Hlo. cbn [fm_conn]. rewrite (HB v Hv). split; [|intros _; right; unfold internal; by rewrite (proj1 Hlo)].
    intros _. split; [by apply HN|apply not_elem_of_nil].
Qed.
Print Assumptions C67_refinement_is_fm.
(** The refiner of the library: at most 8 passes; a pass gives up after one percent of the
    vertices, at least 25 and at most 150, were moved without success. *)
Theorem C67_library_refiner : forall g t ref c p cs c' p' cs',
  wf_graph g -> symmetric g -> loopless g -> fits g -> light g -> (Z.of_nat (nv g) < W32)%Z ->
  (forall u a, u < nv g -> a ∈ out g u -> (0 < snd a)%Z) ->
  2 <= length (t_frac t) -> 2 <= length (t_max t) -> refiner_make 0 = Ok ref ->
  exact_part 2 g p -> conn_exact g (lab p) c -> border_fresh g (lab p) c ->
  ref g t c p cs = Ok ((c', p'), cs') ->
  passes g t (Z.min 150 (Z.max (Z.of_nat (nv g) / 100) 25)) 8 (no_edges g) (p_where p) (p_where p').
Proof.
  intros g t ref c p cs c' p' cs' Hwf Hs Hl Hf Hli Hn Hpos Htf Htm Hr HP HC HB E. injection Hr as <-.
  exact (C67_refinement_is_fm g t c p 8 150 cs c' p' cs' _ Hwf Hs Hl Hf Hli (positive_lone g Hwf Hs Hpos) Htf Htm (max_bad_moves_eq 150 (nv g) Hn) HP HC HB E).
Qed.
Print Assumptions C67_library_refiner.
Example C67_nonvacuous : wf_graph ex /\ symmetric ex /\ loopless ex /\ fits ex /\ light ex /\ (forall u a, u < nv ex -> a ∈ out ex u -> (0 < snd a)%Z) /\
  exists c, from_partitioning ex ex_part = Ok c /\ conn_exact ex (lab ex_part) c /\ border_fresh ex (lab ex_part) c /\ exact_part 2 ex ex_part /\
  exists c' p' cs', fm_refine 8 150 ex ex_target c ex_part [] = Ok ((c', p'), cs') /\ p_where p' <> p_where ex_part /\ (p_cut p' < p_cut ex_part)%Z.
Proof.
  split; [exact ex_wf|]. split; [exact ex_sym|]. split; [exact ex_loopless|]. split; [exact ex_fits|]. split; [reflexivity|].
  split.
  { assert (HF : forall u, u < 4 -> Forall (fun a => (0 < snd a)%Z) (out ex u)) by (intros u Hu; do 4 (destruct u as [|u]; [vm_compute; by repeat constructor|]); lia).
    intros u a Hu Ha. specialize (HF u Hu). rewrite Forall_forall in HF. by apply HF. }
  destruct (start_ok ex ex_wf ex_fits ex_part ex_part_exact) as (c & E & A & B & _).
  exists c. split; [done|]. split; [done|]. split; [done|]. split; [exact ex_part_exact|].
  vm_compute in E. injection E as <-. do 3 eexists. split; [vm_compute; reflexivity|]. split; [vm_compute; discriminate|vm_compute; reflexivity].
Qed.
