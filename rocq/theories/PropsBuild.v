(** * PropsBuild: matchings and connectivity built call by call (C59, C60). *)
From Verif Require Import Base F64 ModelGraph ModelPartition ModelConn ModelAgg Spec Logic Sums AggFacts ConnFacts.
#[local] Arguments seq : simpl nomatch.

(** ** C59: MatchedAggregationBuilder.  A history of calls: match two vertices, or ask for the next
    unmatched vertex.  The state is the matching and the cursor m_nextUnmatched. *)
Inductive mcall := MMatch (a b : nat) | MNext.
Definition run_mcall (st : matching * nat) (c : mcall) : outcome (matching * nat) :=
  match c with
  | MMatch a b => let! m := mb_match (fst st) a b in Ok (m, snd st)
  | MNext => Ok (fst st, mb_get_next_unmatched (fst st) (snd st))
  end.
Definition run_matching (n : nat) (cs : list mcall) : outcome (matching * nat) := ofold run_mcall (mb_new n, 0) cs.
(** The pairs of a history and the vertices they use.  A history is legal if it matches vertices of
    the graph, each at most once. *)
Definition pairs (cs : list mcall) : list (nat * nat) := omap (fun c => match c with MMatch a b => Some (a, b) | MNext => None end) cs.
Definition paired (cs : list mcall) (v w : nat) : Prop := (v, w) ∈ pairs cs \/ (w, v) ∈ pairs cs.
Definition ends (cs : list mcall) : list nat := concat ((fun p => [fst p; snd p]) <$> pairs cs).
Definition legal (n : nat) (cs : list mcall) : Prop := NoDup (ends cs) /\ Forall (fun v => v < n) (ends cs).
(** x is the smallest vertex that is not in l, or n if there is none. *)
Definition first_missing (n : nat) (l : list nat) (x : nat) : Prop := x <= n /\ (x < n -> x ∉ l) /\ forall y, y < x -> y ∈ l.

Lemma pairs_app cs ds : pairs (cs ++ ds) = pairs cs ++ pairs ds.
Proof. unfold pairs. induction cs as [|[a b|] cs IH]; cbn; [done|by rewrite IH|done]. Qed.
Lemma ends_app cs ds : ends (cs ++ ds) = ends cs ++ ends ds.
Proof. unfold ends. by rewrite pairs_app, fmap_app, concat_app. Qed.
Lemma elem_ends cs v : v ∈ ends cs <-> exists w, paired cs v w.
Proof.
  unfold ends, paired. rewrite elem_of_list_In, in_concat. split.
  - intros (l & Hl & Hv). apply elem_of_list_In, elem_of_list_fmap in Hl as ((a & b) & -> & Hp). cbn in Hv.
    destruct Hv as [->|[->|[]]]; [exists b; by left|exists a; by right].
  - intros [w [H|H]]; eexists; (split; [apply elem_of_list_In, elem_of_list_fmap; eexists; split; [reflexivity|exact H]|cbn; tauto]).
Qed.
Lemma next_spec fuel m cur : cur <= length m -> length m <= cur + fuel ->
  let x := mb_next_unmatched fuel m cur in cur <= x <= length m /\ (x < length m -> m !! x = Some None) /\ forall y, cur <= y < x -> exists u, m !! y = Some (Some u).
Proof.
  revert cur. induction fuel as [|fuel IH]; intros cur H1 H2; cbn [mb_next_unmatched].
  - split; [lia|]. split; [lia|]. lia.
  - destruct (m !! cur) as [[u|]|] eqn:E.
    + pose proof (lookup_lt_Some _ _ _ E). destruct (IH (S cur)) as (A & B & C); [lia|lia|]. split; [lia|]. split; [done|].
      intros y Hy. destruct (decide (y = cur)) as [->|]; [eauto|]. apply C. lia.
    + split; [lia|]. split; [done|]. lia.
    + split; [lia|]. apply lookup_ge_None in E. split; [lia|]. lia.
Qed.
Record mb_inv (n : nat) (cs : list mcall) (st : matching * nat) : Prop := {
  mi_ok : matching_ok n (fst st);
  mi_pair : forall v w, fst st !! v = Some (Some w) <-> paired cs v w;
  mi_cur : snd st <= n;
  mi_below : forall y, y < snd st -> y ∈ ends cs;
  mi_rank : rank (fst st) n + length (pairs cs) = n
}.
Lemma filter_same {A} (P Q : A -> Prop) `{!forall x, Decision (P x), !forall x, Decision (Q x)} (l : list A) :
  (forall x, x ∈ l -> P x <-> Q x) -> filter P l = filter Q l.
Proof.
  induction l as [|x l IH]; intros HE; [done|]. rewrite !filter_cons. rewrite IH by (intros y Hy; apply HE; by right).
  pose proof (HE x ltac:(by left)). destruct (decide (P x)), (decide (Q x)); tauto.
Qed.
Lemma filter_one {A} `{EqDecision A} (P Q : A -> Prop) `{!forall x, Decision (P x), !forall x, Decision (Q x)} (l : list A) z :
  NoDup l -> z ∈ l -> P z -> ~ Q z -> (forall x, x ∈ l -> x <> z -> P x <-> Q x) -> length (filter P l) = S (length (filter Q l)).
Proof.
  intros Hnd Hz HP HQ HE. induction l as [|x l IH]; [by apply elem_of_nil in Hz|].
  apply NoDup_cons in Hnd as [Hx Hnd]. rewrite !filter_cons. destruct (decide (x = z)) as [->|Hne].
  - rewrite decide_True by done. rewrite decide_False by done. cbn. f_equal. f_equal.
    apply filter_same. intros y Hy. apply HE; [by right|]. intros ->. done.
  - apply elem_of_cons in Hz as [->|Hz]; [done|]. specialize (IH Hnd Hz ltac:(intros y Hy Hyz; apply HE; [by right|done])).
    pose proof (HE x ltac:(by left) Hne) as Hi. destruct (decide (P x)), (decide (Q x)); try tauto; cbn; lia.
Qed.
Lemma rank_new n : forall k, k <= n -> rank (mb_new n) k = k.
Proof.
  induction k as [|k IH]; intros Hk; [done|]. rewrite rank_S, IH, decide_True; [lia| |lia].
  unfold lead, mb_new. rewrite lookup_replicate_2 by lia. done.
Qed.
Lemma rank_match n m a b : matching_ok n m -> m !! a = Some None -> m !! b = Some None -> a <> b ->
  S (rank (<[b := Some a]> (<[a := Some b]> m)) n) = rank m n.
Proof.
  intros [HL _] Ha Hb Hne. pose proof (lookup_lt_Some _ _ _ Ha). pose proof (lookup_lt_Some _ _ _ Hb). unfold rank. symmetry.
  set (m' := <[b := Some a]> (<[a := Some b]> m)).
  assert (La : m' !! a = Some (Some b)) by (unfold m'; rewrite list_lookup_insert_ne, list_lookup_insert by done; done).
  assert (Lb : m' !! b = Some (Some a)) by (unfold m'; rewrite list_lookup_insert by (by rewrite insert_length); done).
  assert (Lo : forall x, x <> a -> x <> b -> m' !! x = m !! x) by (intros x X1 X2; unfold m'; rewrite !list_lookup_insert_ne by congruence; done).
  apply (filter_one _ _ _ (Nat.max a b)).
  - apply NoDup_seq.
  - apply elem_of_seq. lia.
  - unfold lead. destruct (Nat.max_dec a b) as [->| ->]; by rewrite ?Ha, ?Hb.
  - unfold lead. destruct (Nat.max_dec a b) as [E|E]; rewrite E, ?La, ?Lb; lia.
  - intros x Hx Hmx. unfold lead. destruct (decide (x = a)) as [->|Hxa].
    + rewrite Ha, La. lia.
    + destruct (decide (x = b)) as [->|Hxb]; [rewrite Hb, Lb; lia|]. by rewrite Lo.
Qed.
Lemma run_inv n cs : legal n cs -> exists st, run_matching n cs = Ok st /\ mb_inv n cs st.
Proof.
  induction cs as [|c cs IH] using rev_ind; intros [Hnd Hlt].
  - eexists. split; [reflexivity|]. constructor; cbn [fst snd].
    + apply matching_new.
    + intros v w. unfold paired, pairs. cbn. rewrite !elem_of_nil. split; [|tauto]. intros H. apply lookup_replicate in H as [? _]. done.
    + lia.
    + lia.
    + rewrite rank_new by lia. cbn. lia.
  - rewrite ends_app in Hnd, Hlt. apply NoDup_app in Hnd as (Hnd & Hdis & Hnd2). apply Forall_app in Hlt as [Hlt Hlt2].
    destruct (IH (conj Hnd Hlt)) as (st & E & [Hok Hp Hc Hb Hr]). unfold run_matching in *. rewrite ofold_app, E. cbn [obind ofold].
    destruct c as [a b|]; cbn [run_mcall].
    + assert (E2 : ends [MMatch a b] = [a; b]) by done. rewrite E2 in *.
      assert (Hun : forall x, x ∈ [a; b] -> fst st !! x = Some None).
      { intros x Hx. rewrite Forall_forall in Hlt2. specialize (Hlt2 x Hx). destruct Hok as [HL _].
        destruct (lookup_lt_is_Some_2 (fst st) x ltac:(lia)) as [[u|] Hu]; [|done]. exfalso.
        apply (Hdis x); [|done]. apply elem_ends. exists u. by apply Hp. }
      assert (Hab : a <> b) by (apply NoDup_cons in Hnd2 as [H _]; intros ->; apply H; by left).
      destruct (mb_match_ok n (fst st) a b Hok) as (m' & Em & Hok' & ->); [apply Hun; by left|apply Hun; right; by left|done|].
      rewrite Em. cbn [obind]. eexists. split; [reflexivity|]. assert (Ha := Hun a ltac:(by left)). assert (Hbn := Hun b ltac:(right; by left)).
      pose proof (lookup_lt_Some _ _ _ Ha). pose proof (lookup_lt_Some _ _ _ Hbn).
      constructor; cbn [fst snd].
      * done.
      * intros v w. unfold paired. rewrite pairs_app. change (pairs [MMatch a b]) with [(a, b)]. rewrite !elem_of_app, !elem_of_list_singleton.
        destruct (decide (v = b)) as [->|Hvb].
        -- rewrite list_lookup_insert by (by rewrite insert_length). split; [intros [= <-]; tauto|].
           intros [[H3|H3]|[H3|H3]]; [| | |congruence]; [|injection H3; congruence|].
           ++ exfalso. assert (fst st !! b = Some (Some w)) by (apply Hp; by left). congruence.
           ++ exfalso. assert (fst st !! b = Some (Some w)) by (apply Hp; by right). congruence.
        -- rewrite list_lookup_insert_ne by done. destruct (decide (v = a)) as [->|Hva].
           ++ rewrite list_lookup_insert by done. split; [intros [= <-]; tauto|].
              intros [[H3|H3]|[H3|H3]]; [|congruence| |injection H3; congruence].
              ** exfalso. assert (fst st !! a = Some (Some w)) by (apply Hp; by left). congruence.
              ** exfalso. assert (fst st !! a = Some (Some w)) by (apply Hp; by right). congruence.
           ++ rewrite list_lookup_insert_ne by done. rewrite Hp. unfold paired. split; [tauto|]. intros [[H3|H3]|[H3|H3]]; try tauto; congruence.
      * done.
      * intros y Hy. rewrite ends_app. apply elem_of_app. left. by apply Hb.
      * rewrite pairs_app, app_length. cbn [length]. change (length (pairs [MMatch a b])) with 1.
        pose proof (rank_match n (fst st) a b Hok Ha Hbn Hab). lia.
    + eexists. split; [reflexivity|]. destruct Hok as [HL Hm]. destruct (next_spec (length (fst st)) (fst st) (snd st) ltac:(lia) ltac:(lia)) as (A & B & C).
      assert (EP : pairs (cs ++ [MNext]) = pairs cs) by (rewrite pairs_app; cbn; by rewrite app_nil_r).
      assert (EE : ends (cs ++ [MNext]) = ends cs) by (unfold ends; by rewrite EP).
      constructor; cbn [fst snd]; unfold paired in *; rewrite ?EP, ?EE; try done.
      * unfold mb_get_next_unmatched. lia.
      * intros y Hy. unfold mb_get_next_unmatched in Hy. destruct (decide (y < snd st)) as [|]; [by apply Hb|].
        destruct (C y ltac:(lia)) as [u Hu]. apply elem_ends. exists u. by apply Hp.
Qed.

Theorem C59_matching_builder : forall n cs, legal n cs -> exists m cur,
  run_matching n cs = Ok (m, cur) /\
  (forall v, v < n -> mb_is_matched m v = Ok (bool_decide (v ∈ ends cs))) /\
  first_missing n (ends cs) (mb_get_next_unmatched m cur) /\
  exists a, mb_build m = Ok a /\ a_num_coarse a + length (pairs cs) = n /\ length (a_cmap a) = n /\
    (forall v c, a_cmap a !! v = Some c -> c < a_num_coarse a) /\
    (forall v w, v < n -> w < n -> (a_cmap a !! v = a_cmap a !! w <-> v = w \/ paired cs v w)) /\
    (* groups are numbered in the order of their smallest vertices *)
    (forall v w c d, a_cmap a !! v = Some c -> a_cmap a !! w = Some d -> (forall u, paired cs v u -> v < u) -> (forall u, paired cs w u -> w < u) -> v < w -> c < d) /\
    (forall c, c < a_num_coarse a -> agg_group a c = Ok (filter (fun v => a_cmap a !! v = Some c) (seq 0 n))).
Proof.
  intros n cs HL. destruct (run_inv n cs HL) as ([m cur] & E & [Hok Hp Hc Hb Hr]). cbn [fst snd] in *. exists m, cur. split; [done|].
  pose proof Hok as [HmL Hm]. split; [|split].
  - intros v Hv. destruct (lookup_lt_is_Some_2 m v ltac:(lia)) as [x Hx]. rewrite (mb_is_matched_ok _ _ _ Hx). f_equal. apply bool_decide_ext.
    rewrite elem_ends. split.
    + intros [w ->]. exists w. by apply Hp.
    + intros [w Hw]. apply Hp in Hw. rewrite Hx in Hw. injection Hw as ->. done.
  - destruct (next_spec (length m) m cur ltac:(lia) ltac:(lia)) as (A & B & C). fold (mb_get_next_unmatched m cur) in A, B, C. rewrite HmL in *. split; [lia|]. split.
    + intros H. specialize (B H). rewrite elem_ends. intros [w Hw]. apply Hp in Hw. congruence.
    + intros y Hy. destruct (decide (y < cur)) as [|]; [by apply Hb|]. destruct (C y ltac:(lia)) as [u Hu]. apply elem_ends. exists u. by apply Hp.
  - destruct (mb_cmap_ok n m Hok) as (a0 & Ec & Ef). unfold mb_build. rewrite Ec. cbn [obind fst snd]. rewrite Ef. cbn [obind].
    set (cm := (fun v => rank m (lead m v)) <$> seq 0 n).
    assert (HcL : length cm = n) by (unfold cm; rewrite fmap_length, seq_length; done).
    assert (Hcm : forall v, v < n -> cm !! v = Some (rank m (lead m v))).
    { intros v Hv. unfold cm. rewrite list_lookup_fmap, lookup_seq_lt by done. done. }
    assert (Hrg : Forall (fun c => c < rank m n) cm).
    { apply Forall_lookup_2. intros i x Hx. assert (i < n) by (apply lookup_lt_Some in Hx; lia). rewrite Hcm in Hx by done.
      injection Hx as <-. pose proof (lead_le m i). apply rank_lt; [by eapply lead_lead|lia]. }
    destruct (agg_make_ok cm (rank m n) Hrg) as (b & Eb & Hnc & Hbc & Hg). exists b. split; [done|]. rewrite Hnc, Hbc. split; [lia|]. split; [done|]. split; [|split; [|split]].
    + intros v c Hv. rewrite Forall_lookup in Hrg. by eapply Hrg.
    + intros v w Hv Hw. rewrite !Hcm by done. rewrite <- Hp. rewrite <- (lead_eq n m Hok). split; [|congruence].
      intros [= E2]. apply rank_inj in E2; [done|by eapply lead_lead..].
    + intros v w c d Hv Hw H1 H2 Hvw. pose proof (lookup_lt_Some _ _ _ Hv). pose proof (lookup_lt_Some _ _ _ Hw). rewrite Hcm in Hv, Hw by lia.
      injection Hv as <-. injection Hw as <-.
      assert (Hld : forall x, (forall u, paired cs x u -> x < u) -> lead m x = x).
      { intros x Hx. unfold lead. destruct (m !! x) as [[u|]|] eqn:Ex; try done. apply Hp in Ex. specialize (Hx u Ex). lia. }
      rewrite !Hld by done. apply rank_lt; [by apply Hld|done].
    + intros c Hcl. rewrite Hg by done. unfold members_of. by rewrite HcL.
Qed.
Print Assumptions C59_matching_builder.
Example C59_nonvacuous : legal 5 [MMatch 3 1; MNext; MMatch 0 2] /\ exists a, (let! st := run_matching 5 [MMatch 3 1; MNext; MMatch 0 2] in mb_build (fst st)) = Ok a /\
  a_cmap a = [0; 1; 0; 1; 2] /\ a_num_coarse a = 3.
Proof.
  split; [split; [apply (bool_decide_unpack _); vm_compute; exact I|apply (bool_decide_unpack _); vm_compute; exact I]|].
  eexists. split; [vm_compute; reflexivity|]. split; reflexivity.
Qed.
(** Matching a vertex with itself is accepted, but the aggregation then reads memory it never wrote. *)
Theorem C59_self_match_refuted : (let! st := run_matching 2 [MMatch 0 0] in mb_build (fst st)) = Fail (UB Uninit).
Proof. vm_compute. reflexivity. Qed.
Print Assumptions C59_self_match_refuted.

(** ** C60: TwoWayConnectivityBuilder.  A history of calls on a builder begun for n vertices: set the
    internal or the external connectivity of a vertex, in any order and any number of times. *)
Inductive ccall := SetInternal (v : nat) (w : Z) | SetExternal (v : nat) (w : Z).
Definition run_ccall (b : conn_builder) (c : ccall) : outcome conn_builder :=
  match c with SetInternal v w => cb_set_int b v w | SetExternal v w => cb_set_ext b v w end.
Definition run_conn (n : nat) (cs : list ccall) : outcome conn_builder := ofold run_ccall (cb_begin n) cs.
Definition cvertex (c : ccall) : nat := match c with SetInternal v _ => v | SetExternal v _ => v end.
(** The last value a history gives to a vertex, from the end of the history. *)
Fixpoint last_internal (rcs : list ccall) (v : nat) : option Z :=
  match rcs with
  | [] => None
  | SetInternal u w :: r => if Nat.eqb u v then Some w else last_internal r v
  | SetExternal _ _ :: r => last_internal r v
  end.
Fixpoint last_external (rcs : list ccall) (v : nat) : option Z :=
  match rcs with
  | [] => None
  | SetExternal u w :: r => if Nat.eqb u v then Some w else last_external r v
  | SetInternal _ _ :: r => last_external r v
  end.
Lemma run_conn_inv n cs : Forall (fun c => cvertex c < n) cs -> exists b, run_conn n cs = Ok b /\
  length (cb_int b) = n /\ length (cb_ext b) = n /\
  forall v, v < n -> cb_int b !! v = Some (last_internal (rev cs) v) /\ cb_ext b !! v = Some (last_external (rev cs) v).
Proof.
  induction cs as [|c cs IH] using rev_ind; intros HF.
  - eexists. split; [reflexivity|]. cbn [cb_int cb_ext cb_begin]. unfold alloc. rewrite replicate_length. split; [done|]. split; [done|].
    intros v Hv. rewrite lookup_replicate_2 by done. done.
  - apply Forall_app in HF as [HF HF2]. apply Forall_cons in HF2 as [Hc _]. destruct (IH HF) as (b & E & L1 & L2 & HV).
    unfold run_conn in *. rewrite ofold_app, E. cbn [obind ofold]. rewrite rev_app_distr. cbn [rev app].
    destruct c as [u w|u w]; cbn [run_ccall cvertex] in *; unfold cb_set_int, cb_set_ext; rewrite wri_ok by lia; cbn [obind];
      (eexists; split; [reflexivity|]); cbn [cb_int cb_ext]; rewrite ?insert_length; (split; [done|]); (split; [done|]); intros v Hv; destruct (HV v Hv) as [H1 H2].
    + split; [|done]. cbn [last_internal]. destruct (Nat.eqb_spec u v) as [->|Hne].
      * rewrite list_lookup_insert by lia. done.
      * by rewrite list_lookup_insert_ne.
    + split; [done|]. cbn [last_external]. destruct (Nat.eqb_spec u v) as [->|Hne].
      * rewrite list_lookup_insert by lia. done.
      * by rewrite list_lookup_insert_ne.
Qed.
Lemma frozen_hole {A} (l : list (option A)) v : l !! v = Some None -> frozen l = Fail (UB Uninit).
Proof.
  revert v. induction l as [|x l IH]; intros [|v] H; cbn in H; try done.
  - injection H as ->. done.
  - destruct x as [a|]; [|done]. cbn. by rewrite (IH v).
Qed.
Theorem C60_connectivity_builder : forall n cs, Forall (fun c => cvertex c < n) cs ->
  (* every vertex given both values: the data holds the last ones, and the border follows from them *)
  ((forall v, v < n -> is_Some (last_internal (rev cs) v) /\ is_Some (last_external (rev cs) v)) ->
   exists c, (let! b := run_conn n cs in cb_finish b) = Ok c /\ length (c_int c) = n /\ length (c_ext c) = n /\
     forall v, v < n -> exists i e, last_internal (rev cs) v = Some i /\ last_external (rev cs) v = Some e /\
       c_int c !! v = Some i /\ c_ext c !! v = Some e /\ is_in_border c v = Ok (bool_decide ((0 < e)%Z \/ i = 0%Z)) /\
       ((-H32 <= i32_of_u32 i - i32_of_u32 e < H32)%Z -> vertex_delta c v = Ok (i32_of_u32 i - i32_of_u32 e)%Z)) /\
  (* a value left out: finishing reads memory that was never written *)
  ((exists v, v < n /\ (last_internal (rev cs) v = None \/ last_external (rev cs) v = None)) ->
   (let! b := run_conn n cs in cb_finish b) = Fail (UB Uninit)).
Proof.
  intros n cs HF. destruct (run_conn_inv n cs HF) as (b & E & L1 & L2 & HV). rewrite E. cbn [obind]. unfold cb_finish. split.
  - intros HS.
    assert (HI : frozen (cb_int b) = Ok ((fun v => default 0%Z (last_internal (rev cs) v)) <$> seq 0 n)).
    { rewrite <- L1. apply frozen_ok. intros v Hv. destruct (HV v ltac:(lia)) as [-> _]. by destruct (HS v ltac:(lia)) as [[i ->] _]. }
    assert (HE : frozen (cb_ext b) = Ok ((fun v => default 0%Z (last_external (rev cs) v)) <$> seq 0 n)).
    { rewrite <- L2. apply frozen_ok. intros v Hv. destruct (HV v ltac:(lia)) as [_ ->]. by destruct (HS v ltac:(lia)) as [_ [e ->]]. }
    rewrite HI, HE. cbn [obind]. eexists. split; [reflexivity|]. cbn [c_int c_ext conn_make]. rewrite !fmap_length, !seq_length. split; [done|]. split; [done|].
    intros v Hv. destruct (HS v Hv) as [[i Hi] [e He]]. exists i, e. split; [done|]. split; [done|].
    assert (A1 : ((fun v => default 0%Z (last_internal (rev cs) v)) <$> seq 0 n) !! v = Some i)
      by (rewrite list_lookup_fmap, lookup_seq_lt by done; cbn; by rewrite Hi).
    assert (A2 : ((fun v => default 0%Z (last_external (rev cs) v)) <$> seq 0 n) !! v = Some e)
      by (rewrite list_lookup_fmap, lookup_seq_lt by done; cbn; by rewrite He).
    split; [done|]. split; [done|]. split.
    + unfold is_in_border, conn_make. cbn [c_border]. rewrite (rd_ok _ v (should_be_in_border i e)).
      2:{ rewrite lookup_zip_with, A1, A2. done. }
      f_equal. unfold should_be_in_border. destruct (0 <? e)%Z eqn:E1, (i =? 0)%Z eqn:E2; cbn; symmetry;
        first [apply bool_decide_eq_true_2|apply bool_decide_eq_false_2]; lia.
    + intros HB. unfold vertex_delta. cbn [c_int c_ext conn_make]. rewrite (rd_ok _ v i A1), (rd_ok _ v e A2). cbn [obind]. unfold i32.
      case_decide; [done|exfalso; lia].
  - intros (v & Hv & [H|H]); destruct (HV v Hv) as [H1 H2].
    + rewrite H in H1. by rewrite (frozen_hole _ v H1).
    + rewrite H in H2. rewrite (frozen_hole (cb_ext b) v H2). destruct (frozen (cb_int b)) as [?|f] eqn:Ef; [done|].
      cbn [obind]. f_equal. clear -Ef. revert f Ef. induction (cb_int b) as [|[x|] l IH]; intros f Ef; cbn in Ef; [done| |congruence].
      destruct (frozen l) as [?|f']; [done|]. cbn in Ef. injection Ef as <-. by apply IH.
Qed.
Print Assumptions C60_connectivity_builder.
(** A history with an overwritten value. *)
Example C60_nonvacuous : exists cs c, Forall (fun c => cvertex c < 2) cs /\
  (forall v, v < 2 -> is_Some (last_internal (rev cs) v) /\ is_Some (last_external (rev cs) v)) /\
  (let! b := run_conn 2 cs in cb_finish b) = Ok c /\ c_int c = [7; 5]%Z /\ c_ext c = [0; 2]%Z /\ c_border c = [false; true].
Proof.
  exists [SetExternal 1 2; SetInternal 0 3; SetInternal 1 5; SetExternal 0 0; SetInternal 0 7]. eexists.
  split; [repeat constructor; cbn; lia|]. split; [intros [|[|v]] Hv; [split; eexists; reflexivity..|lia]|].
  split; [vm_compute; reflexivity|]. split; [reflexivity|]. split; reflexivity.
Qed.
