(** * PropsWeighted: weighted graphs into up to eight parts, stated on the arrays (C78). *)
From Coq Require Import ZArith Reals Floats.SpecFloat Psatz.
From Verif Require Import Base F64 ModelGraph ModelBuilders ModelPartition ModelConn ModelFM ModelAgg ModelMultilevel ModelBisect ModelRecursive ModelApi
  Spec Logic Sums GraphFacts Examples FloatFacts FloatUse BisectFacts MultilevelFacts SubFacts RecFacts LabelFacts TargetFacts PropsTarget ApiFacts PropsApi
  BalanceFacts PropsBalance PropsPow PropsAny PropsFour PropsEmpty PropsEight PropsGrid SmallFacts PropsCalls PropsPlain.
Local Open Scope nat_scope.
Local Close Scope R_scope.

(** ** The graph, as the caller sees it: the entries (u, v, w) of the adjacency arrays *)
Definition entries (n : nat) (prefix adj : list nat) (ew : list Z) : list (nat * nat * Z) :=
  seq 0 n ≫= (fun u => (fun e => (u, nth e adj 0, nth e ew 0%Z)) <$> seq (nth u prefix 0) (nth (S u) prefix 0 - nth u prefix 0)).
Definition esrc (a : nat * nat * Z) : nat := fst (fst a).
Definition edst (a : nat * nat * Z) : nat := snd (fst a).
Definition ewgt (a : nat * nat * Z) : Z := snd a.
(** The weight of the entries from u to v. *)
Definition between (n : nat) (prefix adj : list nat) (ew : list Z) (u v : nat) : Z :=
  sumf ewgt (filter (fun a => esrc a = u /\ edst a = v) (entries n prefix adj ew)).
Record weighted_graph (n : nat) (prefix adj : list nat) (vw ew : list Z) : Prop := {
  wg_csr : valid_csr n prefix adj (Some vw) (Some ew);
  (* undirected, no self loops, and the edge weights, counted from both ends, fit *)
  wg_sym : forall u v, u < n -> v < n -> between n prefix adj ew u v = between n prefix adj ew v u;
  wg_loop : forall a, a ∈ entries n prefix adj ew -> esrc a <> edst a;
  wg_fits : (sumf ewgt (entries n prefix adj ew) < 2 ^ 32)%Z
}.
(** The weight of the edges that join different labels (each edge at the end with the larger
    number), and of the vertices with a label. *)
Definition cut_weight (n : nat) (prefix adj : list nat) (ew : list Z) (labels : list (option nat)) : Z :=
  sumf ewgt (filter (fun a => edst a < esrc a /\ labels !! esrc a <> labels !! edst a) (entries n prefix adj ew)).
Definition weight_of (vw : list Z) (labels : list (option nat)) (i : nat) : Z :=
  sumf snd (filter (fun x => fst x = Some i) (zip labels vw)).

Lemma pick_one x u (c : nat -> Z) : sumf (fun v => if decide (x = v) then c v else 0%Z) (seq 0 u) = if decide (x < u) then c x else 0%Z.
Proof.
  induction u as [|u IH]; [done|]. rewrite seq_S, sumf_snoc, IH. cbn [Nat.add]. repeat case_decide; subst; lia.
Qed.
Section Weighted.
  Context (n : nat) (prefix adj : list nat) (vw ew : list Z) (g : graph) (Hwf : wf_graph g)
    (Hp : g_prefix g = prefix) (Ha : g_adj g = adj) (He : g_ew g = ew) (Hv : g_vw g = vw) (Hnv : nv g = n)
    (Hle : length ew = length adj) (Hlv : length vw = n).
  Lemma weighted_out u : u < n -> out g u = (fun e => (nth e adj 0, nth e ew 0%Z)) <$> seq (nth u prefix 0) (nth (S u) prefix 0 - nth u prefix 0).
  Proof.
    intros Hu. unfold out, pre_at. rewrite Hp, Ha, He. apply list_fmap_ext. intros i e Hi. f_equal.
    assert (e < ne g). { apply (edge_in_range g Hwf u); [lia|]. unfold pre_at. rewrite Hp. by eapply elem_of_list_lookup_2. }
    unfold ne in H. rewrite Ha in H. destruct ew as [|x l]; [cbn in Hle; lia|done].
  Qed.
  Lemma entries_sum (f : nat -> nat * Z -> Z) (F : nat * nat * Z -> Z) : (forall u v w, F (u, v, w) = f u (v, w)) ->
    sumf F (entries n prefix adj ew) = sumn n (fun u => sumf (f u) (out g u)).
  Proof.
    intros HF. unfold entries. rewrite sumf_concat. apply sumf_ext. intros u Hu%elem_of_seq. rewrite weighted_out by lia. rewrite !sumf_map.
    apply sumf_ext. intros e _. apply HF.
  Qed.
  Lemma weighted_W u v : u < n -> W g u v = between n prefix adj ew u v.
  Proof.
    intros Hu. unfold between. rewrite sumf_filter.
    rewrite (entries_sum (fun u' a => if decide (u' = u /\ fst a = v) then snd a else 0%Z)) by done.
    rewrite (sumf_ext _ (fun u' => if decide (u = u') then W g u' v else 0%Z)).
    - rewrite (pick_one u n (fun u' => W g u' v)). by rewrite decide_True.
    - intros u' _. unfold W. destruct (decide (u = u')) as [<-|Hne].
      + apply sumf_ext. intros a _. repeat case_decide; try done; naive_solver.
      + apply sumf_zero. intros a _. case_decide; [naive_solver|done].
  Qed.
  Lemma weighted_total : total_edge_weight g = sumf ewgt (entries n prefix adj ew).
  Proof. rewrite (entries_sum (fun _ a => snd a)) by done. unfold total_edge_weight. by rewrite Hnv. Qed.
  Lemma weighted_cut labels : length labels = n -> edge_cut g (fun v => nth v labels None) = cut_weight n prefix adj ew labels.
  Proof.
    intros HL. unfold cut_weight. rewrite sumf_filter.
    rewrite (entries_sum (fun u a => if decide (fst a < u /\ labels !! u <> labels !! fst a) then snd a else 0%Z)) by done.
    unfold edge_cut. rewrite Hnv. apply sumf_ext. intros u Hu%elem_of_seq.
    transitivity (sumf (fun v => sumf (fun a => if decide (fst a = v) then if decide (nth u labels None = nth v labels None) then 0%Z else snd a else 0%Z) (out g u)) (seq 0 u)).
    - apply sumf_ext. intros v Hv'%elem_of_seq. unfold W.
      case_decide; [symmetry; apply sumf_zero; intros x _; by case_decide|done].
    - rewrite sumf_exch. apply sumf_ext. intros a Hin. rewrite (pick_one (fst a) u (fun v => if decide (nth u labels None = nth v labels None) then 0%Z else snd a)).
      destruct (decide (fst a < u)) as [Hlt|Hge]; [|rewrite decide_False by tauto; done].
      destruct (lookup_lt_is_Some_2 labels u ltac:(lia)) as [lu Eu]. destruct (lookup_lt_is_Some_2 labels (fst a) ltac:(lia)) as [lx Ex].
      rewrite (nth_lookup_Some _ _ None lu Eu), (nth_lookup_Some _ _ None lx Ex), Eu, Ex. repeat case_decide; try done; exfalso; naive_solver.
  Qed.
  Lemma weighted_at v : v < n -> vweight g v = nth v vw 0%Z.
  Proof. intros H. unfold vweight. rewrite Hv. destruct vw as [|x l]; [cbn in Hlv; lia|done]. Qed.
  Lemma weighted_sum : sumn n (vweight g) = sumf (fun w => w) vw.
  Proof.
    transitivity (sumf (fun w : Z => w) ((fun v => nth v vw 0%Z) <$> seq 0 n)).
    - rewrite sumf_map. apply sumf_ext. intros v Hv'%elem_of_seq. apply weighted_at. lia.
    - rewrite slice_nth by lia. rewrite drop_0, take_ge by lia. done.
  Qed.
  Lemma weighted_part labels i : length labels = n -> part_weight g labels i = weight_of vw labels i.
  Proof.
    intros HL. unfold part_weight, weight_of, label_weight. rewrite sumf_filter, Hnv.
    transitivity (sumf (fun x : option nat * Z => if decide (fst x = Some i) then snd x else 0%Z) ((fun v => nth v (zip labels vw) (None, 0%Z)) <$> seq 0 n)).
    - rewrite sumf_map. apply sumf_ext. intros v Hv'%elem_of_seq.
      destruct (lookup_lt_is_Some_2 labels v ltac:(lia)) as [lu Eu]. destruct (lookup_lt_is_Some_2 vw v ltac:(lia)) as [w Ew].
      assert (Ez : zip labels vw !! v = Some (lu, w)) by (apply lookup_zip_with_Some; eauto).
      rewrite (nth_lookup_Some _ _ (None, 0%Z) _ Ez), (nth_lookup_Some _ _ None _ Eu), weighted_at, (nth_lookup_Some _ _ 0%Z _ Ew) by lia. done.
    - rewrite slice_nth by (rewrite zip_with_length; lia). rewrite drop_0, take_ge by (rewrite zip_with_length; lia). done.
  Qed.
End Weighted.

(** ** C78: a graph with vertex and edge weights, up to eight parts *)
Theorem C78_weighted_call : forall lg n prefix adj vw ew k o s, log2_spec lg -> weighted_graph n prefix adj vw ew ->
  (Z.of_nat n < 2 ^ 32)%Z -> (Z.of_nat (length adj) < 2 ^ 32)%Z ->
  let T := sumf (fun w => w) vw in
  2 <= k <= 8 -> (4000 <= T < 2 ^ 32 - 1)%Z -> Forall (fun w => 25 * w <= T)%Z vw ->
  (3 <= k -> exists w, w ∈ vw /\ w <> 1%Z) -> (5 <= k -> 1%Z ∉ vw) -> known_scheme o -> (1 <= o_num_cuts o)%Z ->
  exists cut labels s',
    part_graph_recursive lg prefix adj (Some vw) (Some ew) k (Some o) s = Ok (mkResult 1 (Some cut) (Some labels), s') /\
    (* every vertex in one of the parts *)
    length labels = n /\ (forall v, v < n -> exists l, l < k /\ labels !! v = Some (Some l)) /\
    (* the weight of the edges cut *)
    cut = cut_weight n prefix adj ew labels /\
    (* no part too heavy *)
    (forall i j, i < k -> k <= 2 ^ j -> (weight_of vw labels i <= T / Z.of_nat k + T / 49 + 2 * Z.of_nat k + (Z.of_nat j + 1) * (3 * T / 40 + 1))%Z) /\
    (* up to four parts: none is empty *)
    (k <= 4 -> forall i, i < k -> exists v, v < n /\ labels !! v = Some (Some i)).
Proof.
  intros lg n prefix adj vw ew k o s Hlg HG Hn32 Ha32 T Hk HT Hheavy Hsome Hall Ho Hc. pose proof (wg_csr _ _ _ _ _ HG) as HC.
  destruct (graph_of_csr_ok _ _ _ _ _ HC) as (g & Eg & Hwf & Hp & Ha & Hv & He & Hnv & _). cbn in Hv, He.
  assert (Hle : length ew = length adj) by (destruct HC; naive_solver).
  assert (Hlv : length vw = n) by (destruct HC; naive_solver).
  assert (HNW : NULL_WGT = (2 ^ 32 - 1)%Z) by (vm_compute; reflexivity).
  assert (HTT : sumn n (vweight g) = T) by (by eapply weighted_sum).
  assert (Hat : forall v, v < n -> vw !! v = Some (vweight g v)).
  { intros v Hvn. destruct (lookup_lt_is_Some_2 vw v ltac:(lia)) as [w Ew]. rewrite Ew. f_equal.
    rewrite (weighted_at n adj vw ew g Hv Hnv Hle Hlv v Hvn). symmetry. by apply nth_lookup_Some. }
  assert (Hin : forall v, v < n -> vweight g v ∈ vw) by (intros v Hvn; eapply elem_of_list_lookup_2; by apply Hat).
  assert (H25 : forall v, v < n -> (25 * vweight g v <= T)%Z) by (intros v Hvn; rewrite Forall_forall in Hheavy; by apply Hheavy, Hin).
  assert (Hud : undirected g).
  { split; [done| | |].
    - intros u v Hu Hv'. rewrite Hnv in *. rewrite !(weighted_W n prefix adj vw ew g Hwf Hp Ha He Hv Hnv Hle Hlv) by done. by apply (wg_sym _ _ _ _ _ HG).
    - intros u v w Hu Hx Heq. subst v. rewrite Hnv in Hu. assert ((u, u, w) ∈ entries n prefix adj ew) as Hb.
      { unfold entries. apply elem_of_list_bind. exists u. split; [|apply elem_of_seq; lia].
        rewrite (weighted_out n prefix adj vw ew g Hwf Hp Ha He Hnv Hle Hlv u Hu) in Hx. apply elem_of_list_fmap in Hx as (e & Hpe & Hi).
        apply elem_of_list_fmap. exists e. split; [congruence|done]. }
      by apply (wg_loop _ _ _ _ _ HG _ Hb).
    - unfold fits. rewrite (weighted_total n prefix adj vw ew g) by done. exact (wg_fits _ _ _ _ _ HG). }
  destruct (C03_up_to_eight_parts lg n prefix adj vw (Some ew) k o s g Hlg HC Eg Hud Hn32 Ha32 Hk ltac:(rewrite HTT; lia) ltac:(rewrite HTT; done)) as (r & s' & E & Hr).
  { intros H3. destruct (Hsome H3) as (w & Hw & Hne). apply elem_of_list_lookup in Hw as [v Hw]. exists v.
    assert (v < n) by (apply lookup_lt_Some in Hw; lia). split; [done|]. rewrite Hat in Hw by done. congruence. }
  { intros H5 v Hvn Heq. apply (Hall H5). rewrite <- Heq. by apply Hin. }
  { exact Ho. }
  assert (Hkn : 2 <= k) by lia.
  destruct (C01_labels_in_range lg n prefix adj _ _ k o s r s' HC Hkn Hc E) as (_ & labels & El & HL & HA).
  destruct (C02_cut_exact lg n prefix adj _ _ k o s r s' g HC Hkn Hc Eg (ud_sym _ Hud) (ud_fits _ Hud) E) as (_ & cut & labels' & Ec & El' & Hcut).
  rewrite El in El'. injection El' as <-. exists cut, labels, s'.
  assert (Eres : r = mkResult 1 (Some cut) (Some labels)) by (destruct r; cbn in *; congruence).
  split; [by rewrite <- Eres|]. split; [done|]. split.
  { intros v Hvn. destruct (HA v Hvn) as (l & Hl & HlL). by exists l. }
  split; [rewrite Hcut; by eapply weighted_cut|]. split.
  - intros i j Hi Hkj. rewrite <- (weighted_part n adj vw ew g Hv Hnv Hle Hlv labels i HL).
    pose proof (C71_imbalance_bounded_any lg n prefix adj _ _ k j o s r s' g labels (3 * T / 40 + 1) Hlg HC Eg Hud Hn32 Ha32) as H. rewrite HTT in H.
    apply H; [lia|lia|lia| |Z.div_mod_to_equations; lia|done|done|done].
    intros v Hvn. rewrite Hnv in Hvn. specialize (H25 v Hvn). Z.div_mod_to_equations. lia.
  - intros Hk4 i Hi. assert (k = 2 \/ k = 3 \/ k = 4) as [-> | [-> | ->]] by lia.
    + apply (C62_two_parts lg n _ _ _ _ o s r s' g labels Hlg HC Eg Hud Hn32 Ha32); [rewrite HTT; lia| |done|done|done].
      intros v Hvn. specialize (H25 v Hvn). rewrite HTT. lia.
    + apply (C62_three_parts lg n _ _ _ _ o s r s' g labels Hlg HC Eg Hud Hn32 Ha32); [rewrite HTT; lia| |done|done|done].
      intros v Hvn. specialize (H25 v Hvn). rewrite HTT. lia.
    + apply (C62_four_parts lg n _ _ _ _ o s r s' g labels Hlg HC Eg Hud Hn32 Ha32); [rewrite HTT; lia| |done|done|done].
      intros v Hvn. specialize (H25 v Hvn). rewrite HTT. lia.
Qed.
Print Assumptions C78_weighted_call.
(** A cycle of thirty vertices with weights 190 and 210 and edges of weight 1, 2 and 3, in three parts. *)
Lemma weighted_check n prefix adj vw ew : csrb n prefix adj (Some vw) (Some ew) = true ->
  forallb (fun u => forallb (fun v => Z.eqb (between n prefix adj ew u v) (between n prefix adj ew v u)) (seq 0 n)) (seq 0 n) = true ->
  forallb (fun a => negb (Nat.eqb (esrc a) (edst a))) (entries n prefix adj ew) = true ->
  (sumf ewgt (entries n prefix adj ew) <? 2 ^ 32)%Z = true -> weighted_graph n prefix adj vw ew.
Proof.
  intros H1 H2 H3 H4. rewrite !forallb_forall in *. split.
  - by apply csrb_sound.
  - intros u v Hu Hv. specialize (H2 u ltac:(apply in_seq; lia)). rewrite forallb_forall in H2. apply Z.eqb_eq. apply H2. apply in_seq. lia.
  - intros a Ha. specialize (H3 a ltac:(by apply elem_of_list_In)). apply negb_true_iff, Nat.eqb_neq in H3. done.
  - by apply Z.ltb_lt.
Qed.
Definition ring30_vw : list Z := (fun v => if Nat.even v then 190%Z else 210%Z) <$> seq 0 30.
Definition ring30_ew : list Z := seq 0 30 ≫= (fun i => [Z.of_nat (S (((i + 29) mod 30) mod 3)); Z.of_nat (S (i mod 3))]).
Definition ring30_outcome (x : outcome (call_result * list nat)) : option (Z * list Z * Z) :=
  match x with
  | Ok (mkResult 1%Z (Some cut) (Some labels), _) => Some (cut, weight_of ring30_vw labels <$> seq 0 3, cut_weight 30 (ring_prefix 30) (ring_adj 30) ring30_ew labels)
  | _ => None
  end.
Lemma ring30_outcome_true x l c : ring30_outcome x = Some (6%Z, l, c) -> exists labels s', x = Ok (mkResult 1 (Some 6%Z) (Some labels), s') /\
  weight_of ring30_vw labels <$> seq 0 3 = l /\ cut_weight 30 (ring_prefix 30) (ring_adj 30) ring30_ew labels = c.
Proof.
  unfold ring30_outcome. destruct x as [[[r [d|] [m|]] s']|f]; try (repeat case_match; discriminate).
  intros H. assert (r = 1%Z) as -> by (repeat case_match; done). injection H as -> <- <-. eauto.
Qed.
Example C78_nonvacuous : log2_spec floor_log2 /\ weighted_graph 30 (ring_prefix 30) (ring_adj 30) ring30_vw ring30_ew /\
  sumf (fun w => w) ring30_vw = 6000%Z /\ Forall (fun w => 25 * w <= 6000)%Z ring30_vw /\ 1%Z ∉ ring30_vw /\ known_scheme default_options /\ (1 <= o_num_cuts default_options)%Z /\
  exists labels s', part_graph_recursive floor_log2 (ring_prefix 30) (ring_adj 30) (Some ring30_vw) (Some ring30_ew) 3 (Some default_options) [] = Ok (mkResult 1 (Some 6%Z) (Some labels), s') /\
    weight_of ring30_vw labels <$> seq 0 3 = [2000; 2000; 2000]%Z /\ cut_weight 30 (ring_prefix 30) (ring_adj 30) ring30_ew labels = 6%Z.
Proof.
  split; [exact floor_log2_spec|]. split; [apply weighted_check; vm_compute; reflexivity|]. split; [vm_compute; reflexivity|].
  assert (HF : Forall (fun w => w = 190 \/ w = 210)%Z ring30_vw).
  { apply Forall_fmap, Forall_forall. intros v _. cbn. destruct (Nat.even v); tauto. }
  split; [eapply Forall_impl; [exact HF|]; intros w [-> | ->]; lia|].
  split; [intros Hin; rewrite Forall_forall in HF; destruct (HF _ Hin); discriminate|]. split; [right; reflexivity|]. split; [discriminate|].
  apply ring30_outcome_true. vm_compute. reflexivity.
Qed.
