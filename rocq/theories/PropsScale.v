(** * PropsScale: the unit in which edge weights are counted does not matter (C73). *)
From Coq Require Import ZArith Psatz.
From Verif Require Import Base F64 ModelGraph ModelPartition ModelMultilevel ModelBisect ModelRecursive ModelApi Spec Logic RelLogic Sums GraphFacts PartFacts
  MultilevelFacts PropsMultilevel RecFacts ApiFacts PropsApi PropsTarget NullFacts Examples ScaleFM ScaleRef ScaleBfs ScaleMl ScaleRec.
Local Open Scope nat_scope.

Section Call.
  Context (c : Z) (Hc : (0 < c)%Z) (lg : nat -> f64) (scheme : Z) (bis : bisector) (Hbis : api_bisector scheme = Ok bis) (g g' : graph) (HB : both c g g') (HK : kind scheme g).
  Lemma finish_rel t ls : orel (fun a b => p_where b = p_where a) (rb_finish t g ls) (rb_finish t g' ls).
  Proof.
    destruct HB as [Hs Hud Hud']. unfold rb_finish. eapply orel_bind; [apply orel_refl|]. intros x ? <-. unfold part_of_labels. cbv zeta.
    replace (sum_partition_weight g' (Some <$> x) (replicate (t_np t) 0%Z)) with (sum_partition_weight g (Some <$> x) (replicate (t_np t) 0%Z)).
    2: { unfold sum_partition_weight, for_vertices. rewrite (sc_nv c g g' Hs), (sc_has_vw c g g' Hs). apply ofold_ext. intros a v _. by rewrite (sc_vwt c g g' Hs). }
    eapply (orel_bind (fun a b => p_where b = p_where a)).
    - eapply orel_bind; [apply orel_refl|]. intros pw ? <-. eapply orel_bind; [apply (sum_cut_rel c g g' Hs (ud_wf _ Hud) (ud_wf _ Hud'))|]. intros a b _. cbn. done.
    - intros p q E. unfold recalc_cut. rewrite E. eapply orel_bind; [apply (sum_cut_rel c g g' Hs (ud_wf _ Hud) (ud_wf _ Hud'))|]. intros a b _. cbn. done.
  Qed.
  Lemma execute_rel t : 2 <= t_np t -> mrel (fun p q => q = ptimes c p) (rb_execute lg bis t g) (rb_execute lg bis t g').
  Proof.
    intros Hk. pose proof HB as [Hs Hud Hud'].
    assert (H : mrel (fun a b => p_where b = p_where a) (rb_execute lg bis t g) (rb_execute lg bis t g')).
    { intros cs. rewrite !rb_execute_eq. revert cs. rewrite (sc_nv c g g' Hs).
      refine (mrel_bind eq (fun a b => p_where b = p_where a) (rb_recurse lg bis (S (t_np t)) t (MWrap g) 0 (alloc (nv g))) (rb_recurse lg bis (S (t_np t)) t (MWrap g') 0 (alloc (nv g))) (fun ls => lift (rb_finish t g ls)) (fun ls => lift (rb_finish t g' ls)) _ _).
      - apply (rec_rel c Hc scheme bis Hbis lg); [by constructor|done].
      - intros ls ? <-. apply mrel_lift, finish_rel. }
    eapply mrel_mono; [apply (mrel_and _ _ _ _ _ H (rb_execute_lab lg scheme bis t g Hbis (ud_wf _ Hud) Hk) (rb_execute_lab lg scheme bis t g' Hbis (ud_wf _ Hud') Hk))|].
    intros p q (E & [_ HX] & [_ HY]). exact (sc_exact c g g' Hs (ud_wf _ Hud) _ p q (HX (ud_sym _ Hud) (ud_fits _ Hud)) (HY (ud_sym _ Hud') (ud_fits _ Hud')) E).
  Qed.
  Definition otimes (b : option (Z * list (option nat))) : option (Z * list (option nat)) := (fun x => ((c * fst x)%Z, snd x)) <$> b.
  Lemma keep_rel b p : keep_best (otimes b) (ptimes c p) = otimes (keep_best b p).
  Proof.
    destruct b as [[bc ls]|]; [|done]. cbn -[Z.mul]. assert ((c * p_cut p <? c * bc)%Z = (p_cut p <? bc)%Z) as -> by (destruct (Z.ltb_spec (p_cut p) bc), (Z.ltb_spec (c * p_cut p) (c * bc)); nia).
    destruct (p_cut p <? bc)%Z; done.
  Qed.
End Call.
(** What a call leaves behind when the cut is counted in another unit. *)
Definition cut_times (c : Z) (r : call_result) : call_result := mkResult (r_ret r) (Z.mul c <$> r_cut r) (r_labels r).
Lemma after_rel c lg k o g g' : (0 < c)%Z -> both c g g' -> kind (o_scheme o) g -> 2 <= k -> mrel (fun a b => b = cut_times c a) (after lg k o g) (after lg k o g').
Proof.
  intros Hc HB HK Hk. unfold after. destruct (api_bisector (o_scheme o)) as [bis|] eqn:Eb; [apply mrel_ok|intros s; done].
  rewrite (sc_tvw _ _ _ (bo_sc _ _ _ HB)). destruct (target_of_fractions _ _ _) as [t|] eqn:Et; [apply mrel_ok|intros s; done].
  apply np_uniform in Et as Hnp. eapply mrel_bind.
  - apply (mrel_fold (fun a b => b = otimes c a)); [|done]. intros b ? i _ ->. eapply mrel_bind; [apply (execute_rel c Hc lg (o_scheme o) bis Eb g g' HB HK); lia|].
    intros p ? ->. apply mrel_ret. by rewrite keep_rel.
  - intros b ? ->. apply mrel_ret. unfold cut_times. destruct b as [[x ls]|]; done.
Qed.

Lemma scaled_ud c g g' : (0 < c)%Z -> scaled c g g' -> undirected g -> wf_graph g' -> (c * total_edge_weight g < W32)%Z -> undirected g'.
Proof.
  intros Hc Hs [Hwf Hsy Hl Hf] Hwf' HT. constructor; [done| | |].
  - intros u v Hu Hv. rewrite (sc_nv c g g' Hs) in Hu, Hv. rewrite !(sc_W c g g' Hs Hwf) by done. by rewrite Hsy.
  - intros u v w Hu Hin. rewrite (sc_nv c g g' Hs) in Hu. rewrite (sc_out c g g' Hs Hwf u Hu) in Hin. apply elem_of_list_fmap in Hin as ([v' w'] & E & Hin). injection E as -> ->. by eapply Hl.
  - unfold fits. by rewrite (sc_total c g g' Hs Hwf).
Qed.

(** Counting every edge weight in a unit c times smaller: the same labels, return value, failures and random choices; the cut in the new unit.
    Under the sorted heavy edge scheme no edge may have weight 1 (see C73_unit_refuted). *)
Theorem C73_edge_weight_unit : forall lg n prefix adj vw ew ew' c k o s g, valid_csr n prefix adj vw ew -> valid_csr n prefix adj vw ew' ->
  graph_of_csr prefix adj vw ew = Ok g -> symmetric g -> loopless g -> (0 < c)%Z -> (c * total_edge_weight g < W32)%Z ->
  (forall e, e < length adj -> wgt_at (default [] ew') e = (c * wgt_at (default [] ew) e)%Z) ->
  (o_scheme o = 0%Z \/ forall e, e < length adj -> wgt_at (default [] ew) e <> 1%Z) -> 2 <= k ->
  part_graph_recursive lg prefix adj vw ew' k (Some o) s =
  match part_graph_recursive lg prefix adj vw ew k (Some o) s with
  | Ok (r, s') => Ok (mkResult (r_ret r) (Z.mul c <$> r_cut r) (r_labels r), s')
  | Fail f => Fail f
  end.
Proof.
  intros lg n prefix adj vw ew ew' c k o s g HC HC' Eg Hsy Hl Hc HT HW HK Hk.
  destruct (graph_of_csr_ok _ _ _ _ _ HC) as (g1 & Eg1 & Hwf & P1 & A1 & V1 & W1 & N1 & T1 & _ & U1 & _). rewrite Eg in Eg1. injection Eg1 as <-.
  destruct (graph_of_csr_ok _ _ _ _ _ HC') as (g' & Eg' & Hwf' & P2 & A2 & V2 & W2 & N2 & T2 & _ & U2 & _).
  assert (Hs : scaled c g g').
  { constructor; [congruence|congruence|congruence|congruence| |].
    - assert (Hu : g_uvw g' = true <-> g_uvw g = true) by (by rewrite U1, U2). destruct (g_uvw g), (g_uvw g'); [done| | |done]; exfalso; [discriminate (proj2 Hu eq_refl)|discriminate (proj1 Hu eq_refl)].
    - intros e He. unfold ne in He. rewrite A1 in He. rewrite W1, W2. by apply HW. }
  assert (Hud : undirected g). { constructor; [done|done|done|]. unfold fits. pose proof (W_nonneg g Hwf). assert (0 <= total_edge_weight g)%Z; [|nia].
    unfold total_edge_weight. apply sumn_nonneg. intros u Hu. apply sumf_nonneg. intros a Ha. destruct (out_elem g Hwf u a Hu Ha) as (e & _ & _ & ->). cbn. apply (wf_ew_range g Hwf). }
  pose proof (scaled_ud c g g' Hc Hs Hud Hwf' HT) as Hud'.
  assert (Hkind : kind (o_scheme o) g). { destruct HK as [HK|HK]; [by left|]. right. intros v a Hv Ha. destruct (out_elem g Hwf v a Hv Ha) as (e & _ & He & ->). cbn. rewrite W1. apply HK. unfold ne in He. by rewrite A1 in He. }
  rewrite !call_shape. rewrite (read_edges _ _ _ _ _ HC). destruct (Nat.ltb_spec (length adj) (length adj)); [lia|]. rewrite firstn_all, Eg, Eg'.
  pose proof (after_rel c lg k o g g' Hc ltac:(by constructor) Hkind Hk s) as HR. unfold orel in HR.
  destruct (after lg k o g s) as [[r s1]|], (after lg k o g' s) as [[r' s2]|]; try done; [|by rewrite HR]. cbn in HR. destruct HR as [-> ->]. done.
Qed.
Print Assumptions C73_edge_weight_unit.
(** A ring of 30 with edge weights 4 and 9 (both directions alike), partitioned three ways under the sorted heavy edge scheme: the same with weights 12 and 27. *)
Definition ring_ew (a b : Z) (n : nat) : list Z := (fun e => let v := Nat.div2 e in let u := nth e (ring_adj n) 0 in if Nat.eqb ((v * u) mod 4) 0 then a else b) <$> seq 0 (2 * n).
Example C73_nonvacuous : exists g r s', valid_csr 30 (ring_prefix 30) (ring_adj 30) None (Some (ring_ew 4 9 30)) /\ valid_csr 30 (ring_prefix 30) (ring_adj 30) None (Some (ring_ew 12 27 30)) /\
  graph_of_csr (ring_prefix 30) (ring_adj 30) None (Some (ring_ew 4 9 30)) = Ok g /\ symmetric g /\ loopless g /\ (3 * total_edge_weight g < W32)%Z /\
  ring_ew 12 27 30 = Z.mul 3 <$> ring_ew 4 9 30 /\ 1%Z ∉ ring_ew 4 9 30 /\ 9%Z ∈ ring_ew 4 9 30 /\ 4%Z ∈ ring_ew 4 9 30 /\ o_scheme some_options = 1%Z /\
  part_graph_recursive floor_log2 (ring_prefix 30) (ring_adj 30) None (Some (ring_ew 4 9 30)) 3 (Some some_options) [5; 7] = Ok (r, s') /\
  part_graph_recursive floor_log2 (ring_prefix 30) (ring_adj 30) None (Some (ring_ew 12 27 30)) 3 (Some some_options) [5; 7] = Ok (cut_times 3 r, s').
Proof.
  destruct (part_graph_recursive floor_log2 (ring_prefix 30) (ring_adj 30) None (Some (ring_ew 4 9 30)) 3 (Some some_options) [5; 7]) as [[r s']|] eqn:E; [|vm_compute in E; discriminate].
  exists (the_graph (ring_prefix 30) (ring_adj 30) None (Some (ring_ew 4 9 30))), r, s'.
  split; [apply csrb_sound; vm_compute; reflexivity|]. split; [apply csrb_sound; vm_compute; reflexivity|]. split; [vm_compute; reflexivity|].
  split; [apply symb_sound; vm_compute; reflexivity|]. split; [apply looplessb_sound; vm_compute; reflexivity|]. split; [vm_compute; reflexivity|]. split; [vm_compute; reflexivity|].
  split; [apply (bool_decide_unpack (1%Z ∉ ring_ew 4 9 30)); vm_compute; exact Logic.I|]. split; [apply (bool_decide_unpack (9%Z ∈ ring_ew 4 9 30)); vm_compute; exact Logic.I|].
  split; [apply (bool_decide_unpack (4%Z ∈ ring_ew 4 9 30)); vm_compute; exact Logic.I|]. split; [done|]. split; [exact eq_refl|].
  rewrite (C73_edge_weight_unit floor_log2 30 _ _ _ (Some (ring_ew 4 9 30)) _ 3 _ _ _ (the_graph (ring_prefix 30) (ring_adj 30) None (Some (ring_ew 4 9 30)))).
  - rewrite E. reflexivity.
  - apply csrb_sound; vm_compute; reflexivity.
  - apply csrb_sound; vm_compute; reflexivity.
  - vm_compute; reflexivity.
  - apply symb_sound; vm_compute; reflexivity.
  - apply looplessb_sound; vm_compute; reflexivity.
  - lia.
  - vm_compute; reflexivity.
  - change (length (ring_adj 30)) with 60. intros e He. assert (HF : Forall (fun e => wgt_at (ring_ew 12 27 30) e = (3 * wgt_at (ring_ew 4 9 30) e)%Z) (seq 0 60)).
    { apply (bool_decide_unpack (Forall (fun e => wgt_at (ring_ew 12 27 30) e = (3 * wgt_at (ring_ew 4 9 30) e)%Z) (seq 0 60))). vm_compute. exact Logic.I. }
    rewrite Forall_forall in HF. apply HF, elem_of_seq. lia.
  - right. change (length (ring_adj 30)) with 60. intros e He. assert (HF : Forall (fun e => wgt_at (ring_ew 4 9 30) e <> 1%Z) (seq 0 60)).
    { apply (bool_decide_unpack (Forall (fun e => wgt_at (ring_ew 4 9 30) e <> 1%Z) (seq 0 60))). vm_compute. exact Logic.I. }
    rewrite Forall_forall in HF. apply HF, elem_of_seq. lia.
  - lia.
Qed.

(** ** Weight 1 is special
    Under the sorted heavy edge scheme a graph whose edge weights are all 1 is matched at random instead, so twice the weights can give another partitioning. *)
Definition knot_next (n v : nat) : list nat :=
  filter (fun u => u < n /\ (u = S v \/ v = S u \/ (u + v = 10 /\ u <> v) \/ (v mod 3 = 0 /\ u = v + 7) \/ (u mod 3 = 0 /\ v = u + 7))) (seq 0 n).
Definition knot_adj (n : nat) : list nat := concat (knot_next n <$> seq 0 n).
Definition knot_prefix (n : nat) : list nat := (fun v => length (concat (knot_next n <$> seq 0 v))) <$> seq 0 (S n).
Definition knot_stream : list nat := [0; 72; 43; 68; 79; 17; 75; 93].
Definition differ (m m' : outcome (call_result * list nat)) : bool := match m, m' with Ok (r, _), Ok (r', _) => negb (bool_decide (r_labels r = r_labels r')) | _, _ => false end.
Lemma differ_sound m m' : differ m m' = true -> exists r s r' s', m = Ok (r, s) /\ m' = Ok (r', s') /\ r_labels r <> r_labels r'.
Proof.
  intros H. destruct m as [[r s]|]; [|done]. destruct m' as [[r' s']|]; [|done]. exists r, s, r', s'. split; [done|]. split; [done|]. cbn [differ] in H. apply negb_true_iff, bool_decide_eq_false in H. exact H.
Qed.
Lemma knot_differ : differ (part_graph_recursive floor_log2 (knot_prefix 34) (knot_adj 34) None (Some (replicate (length (knot_adj 34)) 1%Z)) 2 (Some default_options) knot_stream)
  (part_graph_recursive floor_log2 (knot_prefix 34) (knot_adj 34) None (Some (replicate (length (knot_adj 34)) 2%Z)) 2 (Some default_options) knot_stream) = true. Proof. vm_compute. reflexivity. Qed.
Theorem C73_unit_refuted : exists g ones twos s r s1 r' s2, ones = replicate (length (knot_adj 34)) 1%Z /\ twos = Z.mul 2 <$> ones /\ o_scheme default_options = 1%Z /\
  valid_csr 34 (knot_prefix 34) (knot_adj 34) None (Some ones) /\ valid_csr 34 (knot_prefix 34) (knot_adj 34) None (Some twos) /\
  graph_of_csr (knot_prefix 34) (knot_adj 34) None (Some ones) = Ok g /\ symmetric g /\ loopless g /\ (2 * total_edge_weight g < W32)%Z /\
  part_graph_recursive floor_log2 (knot_prefix 34) (knot_adj 34) None (Some ones) 2 (Some default_options) s = Ok (r, s1) /\
  part_graph_recursive floor_log2 (knot_prefix 34) (knot_adj 34) None (Some twos) 2 (Some default_options) s = Ok (r', s2) /\ r_labels r <> r_labels r'.
Proof.
  destruct (differ_sound _ _ knot_differ) as (r & s1 & r' & s2 & H1 & H2 & H3).
  eexists (the_graph (knot_prefix 34) (knot_adj 34) None (Some (replicate (length (knot_adj 34)) 1%Z))), _, _, _, r, s1, r', s2.
  split; [exact eq_refl|]. split; [symmetry; exact (fmap_replicate (Z.mul 2) _ 1%Z)|]. split; [exact eq_refl|].
  split; [apply csrb_sound; vm_compute; reflexivity|]. split; [apply csrb_sound; vm_compute; reflexivity|]. split; [vm_compute; reflexivity|].
  split; [apply symb_sound; vm_compute; reflexivity|]. split; [apply looplessb_sound; vm_compute; reflexivity|]. split; [vm_compute; reflexivity|].
  split; [exact H1|]. split; [exact H2|]. exact H3.
Qed.
Print Assumptions C73_unit_refuted.
