(** * PropsPlain: the plainest call - no weights at all, two parts - stated on the arrays (C77). *)
From Coq Require Import ZArith Reals Floats.SpecFloat Psatz.
From Verif Require Import Base F64 ModelGraph ModelBuilders ModelPartition ModelConn ModelFM ModelAgg ModelMultilevel ModelBisect ModelRecursive ModelApi
  Spec Logic Sums GraphFacts Examples FloatFacts FloatUse BisectFacts MultilevelFacts SubFacts RecFacts LabelFacts TargetFacts PropsTarget ApiFacts PropsApi
  BalanceFacts PropsBalance PropsPow PropsEmpty PropsGrid SmallFacts PropsSmall PropsCalls PropsTwo.
Local Open Scope nat_scope.
Local Close Scope R_scope.

(** ** The graph, as the caller sees it: the slice of the adjacency array that belongs to a vertex *)
Definition neighbours (prefix adj : list nat) (v : nat) : list nat := take (nth (S v) prefix 0 - nth v prefix 0) (drop (nth v prefix 0) adj).
(** How often a number occurs in a list. *)
Definition times (u : nat) (l : list nat) : nat := length (filter (fun x => x = u) l).
Record plain_graph (n : nat) (prefix adj : list nat) : Prop := {
  pg_csr : valid_csr n prefix adj None None;
  (* every edge is listed from both ends, equally often *)
  pg_sym : forall u v, u < n -> v < n -> times v (neighbours prefix adj u) = times u (neighbours prefix adj v);
  pg_loop : forall v, v < n -> v ∉ neighbours prefix adj v
}.
(** The entries (u, v) of the adjacency lists, and how many edges join different labels (each
    edge counted at the end with the larger number). *)
Definition arcs (n : nat) (prefix adj : list nat) : list (nat * nat) := seq 0 n ≫= (fun u => pair u <$> neighbours prefix adj u).
Definition crossing (n : nat) (prefix adj : list nat) (labels : list (option nat)) : nat :=
  length (filter (fun a => snd a < fst a /\ labels !! fst a <> labels !! snd a) (arcs n prefix adj)).
(** How many vertices have a label. *)
Definition part_size (labels : list (option nat)) (i : nat) : nat := length (filter (fun l => l = Some i) labels).

Lemma slice_nth {A} (d : A) (l : list A) a m : a + m <= length l -> (fun e => nth e l d) <$> seq a m = take m (drop a l).
Proof.
  revert a. induction m as [|m IH]; intros a H; [done|]. change (seq a (S m)) with (a :: seq (S a) m). rewrite fmap_cons.
  destruct (lookup_lt_is_Some_2 l a ltac:(lia)) as [x Hx]. rewrite (nth_lookup_Some _ _ d x Hx). rewrite (drop_S l x a Hx). cbn [take]. f_equal. apply IH. lia.
Qed.
Section Plain.
  Context (n : nat) (prefix adj : list nat) (HP : plain_graph n prefix adj) (g : graph) (Hwf : wf_graph g)
    (Hp : g_prefix g = prefix) (Ha : g_adj g = adj) (He : g_ew g = []) (Hv : g_vw g = []) (Hnv : nv g = n).
  Local Notation nb := (neighbours prefix adj).
  Lemma plain_out v : v < n -> out g v = (fun u => (u, 1%Z)) <$> nb v.
  Proof.
    intros Hvn. unfold neighbours. rewrite <- (slice_nth 0).
    - unfold out, pre_at. rewrite Hp, Ha, He. rewrite <- list_fmap_compose. apply list_fmap_ext. intros i e _. reflexivity.
    - pose proof (wf_mono g Hwf v ltac:(lia)) as H1. pose proof (pre_le g Hwf (S v) ltac:(lia)) as H2. unfold pre_at, ne in *. rewrite Hp in H1, H2. rewrite Ha in H2. lia.
  Qed.
  Lemma plain_W u v : u < n -> W g u v = Z.of_nat (times v (nb u)).
  Proof.
    intros Hu. unfold W. rewrite plain_out by done. rewrite sumf_map. cbn [fst snd]. unfold times. rewrite <- (Z.mul_1_l (Z.of_nat _)), <- sumf_const, sumf_filter. done.
  Qed.
  Lemma plain_symmetric : symmetric g.
  Proof. intros u v Hu Hv'. rewrite Hnv in *. rewrite !plain_W by done. by rewrite (pg_sym _ _ _ HP). Qed.
  Lemma plain_loopless : loopless g.
  Proof.
    intros u v w Hu Hin ->. rewrite Hnv in *. rewrite plain_out in Hin by done. apply elem_of_list_fmap in Hin as (x & [= -> _] & Hx). by apply (pg_loop _ _ _ HP x Hu).
  Qed.
  Lemma plain_fits : (Z.of_nat (length adj) < W32)%Z -> fits g.
  Proof.
    intros H. unfold fits. eapply Z.le_lt_trans; [apply (total_le g 1 Hwf)|].
    - intros v a Hvn. rewrite Hnv in Hvn. rewrite plain_out by done. intros (x & -> & _)%elem_of_list_fmap. done.
    - unfold ne. rewrite Ha. lia.
  Qed.
  Lemma count_sum {A} (P : A -> Prop) `{forall x, Decision (P x)} l : Z.of_nat (length (filter P l)) = sumf (fun a => if decide (P a) then 1%Z else 0%Z) l.
  Proof. rewrite <- (Z.mul_1_l (Z.of_nat _)), <- sumf_const, sumf_filter. done. Qed.
  Lemma sum_one x u (c : nat -> Z) : sumf (fun v => if decide (x = v) then c v else 0%Z) (seq 0 u) = if decide (x < u) then c x else 0%Z.
  Proof.
    induction u as [|u IH]; [done|]. rewrite seq_S, sumf_snoc, IH. cbn [Nat.add]. repeat case_decide; subst; lia.
  Qed.
  Lemma plain_cut labels : length labels = n -> edge_cut g (fun v => nth v labels None) = Z.of_nat (crossing n prefix adj labels).
  Proof.
    intros HL. unfold crossing, arcs. rewrite count_sum, sumf_concat. unfold edge_cut. rewrite Hnv. apply sumf_ext. intros u Hu%elem_of_seq.
    rewrite sumf_map. cbn [fst snd].
    transitivity (sumf (fun v => sumf (fun x => if decide (x = v) then if decide (nth u labels None = nth v labels None) then 0%Z else 1%Z else 0%Z) (nb u)) (seq 0 u)).
    - apply sumf_ext. intros v Hv'%elem_of_seq. unfold W. rewrite plain_out by lia. rewrite sumf_map. cbn [fst snd].
      case_decide; [symmetry; apply sumf_zero; intros x _; by case_decide|done].
    - rewrite sumf_exch. apply sumf_ext. intros x Hx. rewrite (sum_one x u (fun v => if decide (nth u labels None = nth v labels None) then 0%Z else 1%Z)).
      destruct (decide (x < u)) as [Hlt|Hge]; [|rewrite decide_False by tauto; done].
      destruct (lookup_lt_is_Some_2 labels u ltac:(lia)) as [lu Eu]. destruct (lookup_lt_is_Some_2 labels x ltac:(lia)) as [lx Ex].
      rewrite (nth_lookup_Some _ _ None lu Eu), (nth_lookup_Some _ _ None lx Ex), Eu, Ex. repeat case_decide; try done; exfalso; naive_solver.
  Qed.
  Lemma plain_weight v : v < nv g -> vweight g v = 1%Z.
  Proof. intros _. unfold vweight. by rewrite Hv. Qed.
  Lemma plain_size labels i : length labels = n -> part_weight g labels i = Z.of_nat (part_size labels i).
  Proof.
    intros HL. unfold part_weight, part_size. rewrite count_sum. unfold label_weight. rewrite Hnv.
    transitivity (sumf (fun l => if decide (l = Some i) then 1%Z else 0%Z) ((fun v => nth v labels None) <$> seq 0 n)).
    - rewrite sumf_map. apply sumf_ext. intros v Hv'%elem_of_seq. case_decide; [apply plain_weight; lia|done].
    - rewrite slice_nth by lia. rewrite drop_0, take_ge by lia. done.
  Qed.
End Plain.

(** ** C77: a graph without weights, two parts *)
Theorem C77_plainest_call : forall lg n prefix adj o s, log2_spec lg -> plain_graph n prefix adj -> 100 <= n -> adj <> [] ->
  (Z.of_nat n < 2 ^ 32 - 1)%Z -> (Z.of_nat (length adj) < 2 ^ 32)%Z -> known_scheme o -> (1 <= o_num_cuts o)%Z ->
  exists cut labels s',
    part_graph_recursive lg prefix adj None None 2 (Some o) s = Ok (mkResult 1 (Some cut) (Some labels), s') /\
    (* every vertex in one of the two parts *)
    length labels = n /\ (forall v, v < n -> labels !! v = Some (Some 0) \/ labels !! v = Some (Some 1)) /\
    (* the number of edges cut *)
    cut = Z.of_nat (crossing n prefix adj labels) /\
    (* neither part too small or too large *)
    (forall i, i < 2 -> n <= 12 * part_size labels i + 84 /\ part_size labels i <= n / 2 + n / 60 + 4 + (3 * n / 40 + 1)).
Proof.
  intros lg n prefix adj o s Hlg HP Hn Had Hn32 Ha32 Ho Hc. pose proof (pg_csr _ _ _ HP) as HC.
  destruct (graph_of_csr_ok _ _ _ _ _ HC) as (g & Eg & Hwf & Hp & Ha & Hv & He & Hnv & _). cbn in Hv, He.
  assert (Hud : undirected g).
  { split; [done|by eapply plain_symmetric|by eapply plain_loopless|]. by eapply plain_fits. }
  destruct (C03_two_parts_null lg n prefix adj None o s g Hlg HC ltac:(lia) Had Eg Hud ltac:(lia) Ha32 Ho) as (r & s' & E & Hr).
  destruct (C01_labels_in_range lg n prefix adj None None 2 o s r s' HC ltac:(lia) Hc E) as (_ & labels & El & HL & HA).
  destruct (C02_cut_exact lg n prefix adj None None 2 o s r s' g HC ltac:(lia) Hc Eg (ud_sym _ Hud) (ud_fits _ Hud) E) as (_ & cut & labels' & Ec & El' & Hcut).
  rewrite El in El'. injection El' as <-. exists cut, labels, s'.
  assert (Eres : r = mkResult 1 (Some cut) (Some labels)) by (destruct r; cbn in *; congruence).
  split; [by rewrite <- Eres|]. split; [done|]. split.
  { intros v Hvn. destruct (HA v Hvn) as (l & Hl & ->). destruct l as [|[|]]; [by left|by right|lia]. }
  split; [rewrite Hcut; by eapply plain_cut|]. intros i Hi.
  assert (HT : sumn n (vweight g) = Z.of_nat n) by (rewrite <- Hnv; apply unit_sum; intros v Hvn; by eapply plain_weight).
  assert (HN : NULL_WGT = 4294967295%Z) by (vm_compute; reflexivity).
  assert (Hw : forall v, vweight g v = 1%Z) by (intros v; unfold vweight; by rewrite Hv).
  pose proof (plain_size n g Hv Hnv labels i HL) as HS.
  split.
  - destruct (C62_two_parts lg n _ _ _ _ o s r s' g labels Hlg HC Eg Hud ltac:(lia) Ha32 ltac:(rewrite HT; lia) ltac:(intros v _; rewrite HT, Hw; lia) E El i Hi) as [H _].
    rewrite HT, HS in H. lia.
  - pose proof (C58_imbalance_bounded lg n _ _ _ _ 1 o s r s' g labels (Z.of_nat (3 * n / 40 + 1)) Hlg HC Eg Hud ltac:(lia) Ha32 ltac:(rewrite HT; lia) ltac:(lia)
      ltac:(change (Z.of_nat (2 ^ 1)) with 2%Z; rewrite HT; lia)) as H.
    pose proof (Nat.div_mod (3 * n) 40 ltac:(lia)) as D. pose proof (Nat.mod_upper_bound (3 * n) 40 ltac:(lia)) as D'.
    specialize (H ltac:(intros v _; rewrite Hw; lia)). rewrite HT in H. specialize (H ltac:(lia) E El i Hi).
    change (Z.of_nat (2 ^ 1)) with 2%Z in H. change (Z.of_nat 1) with 1%Z in H. fold (part_weight g labels i) in H. rewrite HS in H.
    apply Nat2Z.inj_le. rewrite !Nat2Z.inj_add, !Nat2Z.inj_div in *. change (Z.of_nat 2) with 2%Z. change (Z.of_nat 60) with 60%Z. lia.
Qed.
Print Assumptions C77_plainest_call.
(** A cycle of a hundred vertices. *)
Lemma times_zero u l : u ∉ l -> times u l = 0.
Proof.
  intros H. unfold times. destruct (filter (fun x => x = u) l) as [|y m] eqn:E; [done|]. exfalso. apply H.
  assert (Hy : y ∈ filter (fun x => x = u) l) by (rewrite E; apply elem_of_list_here). apply elem_of_list_filter in Hy as [-> Hy]. done.
Qed.
Lemma plain_check n prefix adj : csrb n prefix adj None None = true ->
  forallb (fun u => forallb (fun v => Nat.eqb (times v (neighbours prefix adj u)) (times u (neighbours prefix adj v))) (neighbours prefix adj u) && Nat.eqb (times u (neighbours prefix adj u)) 0) (seq 0 n) = true ->
  plain_graph n prefix adj.
Proof.
  intros H1 H2. rewrite forallb_forall in H2.
  assert (H3 : forall u, u < n -> (forall v, v ∈ neighbours prefix adj u -> times v (neighbours prefix adj u) = times u (neighbours prefix adj v)) /\ times u (neighbours prefix adj u) = 0).
  { intros u Hu. specialize (H2 u ltac:(apply in_seq; lia)). apply andb_true_iff in H2 as [Ha Hb]. rewrite forallb_forall in Ha. split.
    - intros v Hv. apply Nat.eqb_eq. apply Ha. by apply elem_of_list_In.
    - by apply Nat.eqb_eq. }
  split; [by apply csrb_sound| |].
  - intros u v Hu Hv. destruct (decide (v ∈ neighbours prefix adj u)) as [H|H]; [by apply (H3 u Hu)|].
    destruct (decide (u ∈ neighbours prefix adj v)) as [H'|H']; [symmetry; by apply (H3 v Hv)|]. by rewrite !times_zero.
  - intros v Hv Hin. destruct (H3 v Hv) as [_ H]. unfold times in H. apply nil_length_inv in H.
    assert (v ∈ filter (fun x => x = v) (neighbours prefix adj v)) as HX by (by apply elem_of_list_filter). rewrite H in HX. by apply not_elem_of_nil in HX.
Qed.
Definition ring_outcome (x : outcome (call_result * list nat)) : bool :=
  match x with
  | Ok (mkResult 1%Z (Some 2%Z) (Some labels), _) => Nat.eqb (crossing 100 (ring_prefix 100) (ring_adj 100) labels) 2 && Nat.eqb (part_size labels 0) 48
  | _ => false
  end.
Lemma ring_outcome_true x : ring_outcome x = true -> exists labels s', x = Ok (mkResult 1 (Some 2%Z) (Some labels), s') /\
    crossing 100 (ring_prefix 100) (ring_adj 100) labels = 2 /\ part_size labels 0 = 48.
Proof.
  unfold ring_outcome. destruct x as [[[r [c|] [l|]] s']|f]; try (repeat case_match; discriminate).
  intros H. assert (r = 1%Z) as -> by (repeat case_match; done). assert (c = 2%Z) as -> by (repeat case_match; done).
  apply andb_true_iff in H as [H1 H2]. apply Nat.eqb_eq in H1, H2. eauto.
Qed.
Example C77_nonvacuous : plain_graph 100 (ring_prefix 100) (ring_adj 100) /\ ring_adj 100 <> [] /\ known_scheme default_options /\ (1 <= o_num_cuts default_options)%Z /\
  exists labels s', part_graph_recursive floor_log2 (ring_prefix 100) (ring_adj 100) None None 2 (Some default_options) [] = Ok (mkResult 1 (Some 2%Z) (Some labels), s') /\
    crossing 100 (ring_prefix 100) (ring_adj 100) labels = 2 /\ part_size labels 0 = 48.
Proof.
  split; [apply plain_check; vm_compute; reflexivity|]. split; [discriminate|]. split; [right; reflexivity|]. split; [discriminate|].
  apply ring_outcome_true. vm_compute. reflexivity.
Qed.
