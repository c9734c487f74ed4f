(** * PropsRecursive: C10, C12, C13, C14. *)
From Verif Require Import Base F64 ModelGraph ModelBuilders ModelPartition ModelMultilevel ModelBisect ModelRecursive Spec Logic Sums GraphFacts PartFacts
  Examples TwoStepFacts SubFacts RecFacts BisectFacts PropsMultilevel.

(** The vertices labelled i, in increasing order. *)
Definition vertices_in (g : graph) (p : part) (i : nat) : list nat := filter (fun v => lab p v = Some i) (seq 0 (nv g)).
(** The names under which the vertices are listed: themselves, or the names passed in. *)
Definition named (names : option (list nat)) (v : nat) : nat := match names with Some l => nth v l 0 | None => v end.

(** ** C12 *)
Theorem C12_partition_vertices : forall g k p names, wf_graph g -> length (p_pw p) = k -> labels_ok k (nv g) (p_where p) ->
  (forall l, names = Some l -> length l = nv g) ->
  exists subs, sub_partitions g p names = Ok subs /\ length subs = k /\
    (forall i, i < k -> exists s, subs !! i = Some s /\ sg_super s = (named names <$> vertices_in g p i) /\
       nv (sg_graph s) = length (vertices_in g p i) /\ wf_graph (sg_graph s)) /\
    (names = None -> concat (sg_super <$> subs) ≡ₚ seq 0 (nv g)).
Proof.
  intros g k p names Hwf Hpw Hlab Hn. destruct (sub_partitions_ok g Hwf k p Hpw Hlab names Hn) as (subs & E & HL & HS).
  exists subs. split; [done|]. split; [done|]. split.
  - intros i Hi. destruct (HS i Hi) as (s & Hs & Hsup & Hin). exists s. split; [done|]. split; [exact Hsup|]. split; [apply Hin|apply Hin].
  - intros ->. apply NoDup_Permutation.
    + apply NoDup_ListNoDup. apply NoDup_ListNoDup.
      assert (G : forall j (l : list subgraph), (forall i s, l !! i = Some s -> sg_super s = vertices_in g p (j + i)) -> NoDup (concat (sg_super <$> l))).
      { intros j l. revert j. induction l as [|s l IH]; intros j H; [constructor|]. cbn [fmap list_fmap concat]. apply NoDup_app. split; [|split].
        - rewrite (H 0 s eq_refl). apply NoDup_filter, NoDup_ListNoDup, seq_NoDup.
        - intros x Hx Hc. rewrite (H 0 s eq_refl) in Hx. apply elem_of_list_filter in Hx as [E0 _].
          apply elem_of_list_In, in_concat in Hc as (l' & Hl' & Hc%elem_of_list_In). apply elem_of_list_In, elem_of_list_fmap in Hl' as (s' & -> & [i Hi]%elem_of_list_lookup_1).
          rewrite (H (S i) s' Hi) in Hc. apply elem_of_list_filter in Hc as [E1 _]. rewrite E0 in E1. injection E1. lia.
        - apply (IH (S j)). intros i s' Hi. rewrite (H (S i) s' Hi). f_equal. lia. }
      apply (G 0). intros i s Hi. assert (i < k) by (rewrite <- HL; by eapply lookup_lt_Some).
      destruct (HS i ltac:(done)) as (s' & Hs' & Hsup & _). rewrite Hi in Hs'. injection Hs' as <-. rewrite Hsup. cbn. apply list_fmap_id.
    + apply NoDup_ListNoDup, seq_NoDup.
    + intros x. rewrite elem_of_list_In, in_concat, elem_of_seq. split.
      * intros (l & Hl%elem_of_list_In & Hx%elem_of_list_In). apply elem_of_list_fmap in Hl as (s & -> & [i Hi]%elem_of_list_lookup_1).
        assert (i < k) by (rewrite <- HL; by eapply lookup_lt_Some).
        destruct (HS i ltac:(done)) as (s' & Hs' & Hsup & _). rewrite Hi in Hs'. injection Hs' as <-. rewrite Hsup in Hx. cbn in Hx.
        rewrite list_fmap_id in Hx. apply elem_of_list_filter in Hx as [_ Hx%elem_of_seq]. exact Hx.
      * intros Hx. destruct (lab_some g k p Hlab x ltac:(lia)) as (Hf & Hlt & _). destruct (HS _ Hlt) as (s & Hs & Hsup & _).
        exists (sg_super s). split; [apply elem_of_list_In, elem_of_list_fmap; exists s; split; [done|by eapply elem_of_list_lookup_2]|].
        apply elem_of_list_In. rewrite Hsup. cbn. rewrite list_fmap_id. apply members_elem. split; [lia|done].
Qed.
Print Assumptions C12_partition_vertices.

(** ** C13: the edges of subgraph i are the parent's edges with both ends labelled i; the
    destinations of the subgraph are translated through its super-map. *)
Theorem C13_induced : forall g k p subs i s, wf_graph g -> length (p_pw p) = k -> labels_ok k (nv g) (p_where p) ->
  sub_partitions g p None = Ok subs -> subs !! i = Some s ->
  (forall j v, sg_super s !! j = Some v ->
     (fun a => (nth (fst a) (sg_super s) 0, snd a)) <$> out (sg_graph s) j = filter (fun a => lab p (fst a) = Some i) (out g v) /\
     vweight (sg_graph s) j = vweight g v) /\
  (forall j j' v v', sg_super s !! j = Some v -> sg_super s !! j' = Some v' -> W (sg_graph s) j j' = W g v v').
Proof.
  intros g k p subs i s Hwf Hpw Hlab E Hs.
  destruct (sub_partitions_ok g Hwf k p Hpw Hlab None) as (subs' & E' & HL & HS); [done|]. rewrite E in E'. injection E' as <-.
  destruct (HS i) as (s' & Hs' & Hsup & Hin); [rewrite <- HL; by eapply lookup_lt_Some|]. rewrite Hs in Hs'. injection Hs' as <-.
  cbn in Hsup. rewrite list_fmap_id in Hsup. rewrite Hsup. split.
  - intros j v Hj. split; [by apply (in_out _ _ _ _ Hin)|by apply (in_vw _ _ _ _ Hin)].
  - intros j j' v v' Hj Hj'. by eapply induced_W.
Qed.
Print Assumptions C13_induced.
(** Validity is inherited; the totals are those of the part. *)
Theorem C13_inherits : forall g k p names subs i s, wf_graph g -> length (p_pw p) = k -> labels_ok k (nv g) (p_where p) ->
  (forall l, names = Some l -> length l = nv g) -> sub_partitions g p names = Ok subs -> subs !! i = Some s ->
  wf_graph (sg_graph s) /\ (symmetric g -> symmetric (sg_graph s)) /\ (loopless g -> loopless (sg_graph s)) /\ (fits g -> fits (sg_graph s)) /\
  nv (sg_graph s) <= nv g /\ ne (sg_graph s) <= ne g /\ g_tvw (sg_graph s) = u32 (label_weight g (lab p) (Some i)).
Proof.
  intros g k p names subs i s Hwf Hpw Hlab Hn E Hs.
  destruct (sub_partitions_ok g Hwf k p Hpw Hlab names Hn) as (subs' & E' & HL & HS). rewrite E in E'. injection E' as <-.
  destruct (HS i) as (s' & Hs' & Hsup & Hin); [rewrite <- HL; by eapply lookup_lt_Some|]. rewrite Hs in Hs'. injection Hs' as <-.
  split; [apply Hin|]. split; [by eapply induced_symmetric|]. split; [by eapply induced_loopless|]. split; [by eapply induced_fits|].
  split; [by eapply induced_nv|]. split; [by eapply induced_ne|].
  rewrite (wf_tvw _ (in_wf _ _ _ _ Hin)). by rewrite (induced_vsum _ _ _ _ Hin).
Qed.
Print Assumptions C13_inherits.
(** A cycle of 24 vertices labelled 0,0,1,0,0,1,... *)
Definition ex13_p : part := mkPart 0 [0; 0]%Z ((fun v => Some (v mod 3 / 2)) <$> seq 0 24).
Example C13_nonvacuous : wf_graph (ring 24) /\ length (p_pw ex13_p) = 2 /\ labels_ok 2 24 (p_where ex13_p) /\
  exists s0 s1, sub_partitions (ring 24) ex13_p None = Ok [s0; s1] /\ sg_super s1 = [2; 5; 8; 11; 14; 17; 20; 23] /\
    ne (sg_graph s0) = 16 /\ ne (sg_graph s1) = 0.
Proof.
  split; [apply ring24|]. split; [done|]. split; [apply labels_ok_compute; vm_compute; reflexivity|].
  eexists _, _. split; [vm_compute; reflexivity|]. repeat split; vm_compute; reflexivity.
Qed.

(** ** C14 *)
Theorem C14_map_back : forall s p k off labels, wf_graph (sg_graph s) -> length (sg_super s) = nv (sg_graph s) -> NoDup (sg_super s) ->
  Forall (fun x => x < length labels) (sg_super s) -> labels_ok k (nv (sg_graph s)) (p_where p) ->
  exists labels', map_partitioning (MSub s) p off labels = Ok labels' /\ length labels' = length labels /\
    (forall v x i, sg_super s !! v = Some x -> lab p v = Some i -> labels' !! x = Some (Some (i + off))) /\
    (forall x, x ∉ sg_super s -> labels' !! x = labels !! x).
Proof.
  intros s p k off labels Hwf HL Hnd HF Hlab. apply (map_partitioning_ok (length labels) (MSub s) p k off labels); [|done|done].
  by constructor.
Qed.
Print Assumptions C14_map_back.
Theorem C14_whole_graph : forall g p k off labels, wf_graph g -> length labels = nv g -> labels_ok k (nv g) (p_where p) ->
  map_partitioning (MWrap g) p off labels = Ok ((fun v => option_map (fun i => i + off) (lab p v)) <$> seq 0 (nv g)).
Proof.
  intros g p k off labels Hwf HL Hlab. destruct (map_partitioning_ok (nv g) (MWrap g) p k off labels (wrap_ok g Hwf) Hlab HL) as (ls & E & HLs & H1 & _).
  rewrite E. f_equal. apply list_eq. intros v. rewrite list_lookup_fmap. destruct (decide (v < nv g)) as [Hv|Hv].
  - rewrite lookup_seq_lt by done. cbn. destruct (lab_some g k p Hlab v Hv) as (Hf & _). rewrite Hf. cbn. apply (H1 v); [cbn; by rewrite lookup_seq_lt|done].
  - rewrite !lookup_ge_None_2; [done|rewrite seq_length; lia|lia].
Qed.
Print Assumptions C14_whole_graph.
Example C14_nonvacuous : exists s0 s1 ls, sub_partitions (ring 24) ex13_p None = Ok [s0; s1] /\
  NoDup (sg_super s1) /\ Forall (fun x => x < 24) (sg_super s1) /\ length (sg_super s1) = nv (sg_graph s1) /\ wf_graph (sg_graph s1) /\
  map_partitioning (MSub s1) (mkPart 0 [0; 0]%Z ((fun v => Some (v mod 2)) <$> seq 0 8)) 5 (replicate 24 (Some 9)) = Ok ls /\
  ls !! 2 = Some (Some 5) /\ ls !! 5 = Some (Some 6) /\ ls !! 6 = Some (Some 9).
Proof.
  destruct C13_nonvacuous as (Hwf & Hpw & Hlab & s0 & s1 & E & Hsup & _).
  destruct (C13_inherits (ring 24) 2 ex13_p None _ 1 s1 Hwf Hpw Hlab ltac:(done) E eq_refl) as (Hwf1 & _).
  destruct (C12_partition_vertices (ring 24) 2 ex13_p None Hwf Hpw Hlab ltac:(done)) as (subs & E' & _ & HS & _).
  rewrite E in E'. injection E' as <-. destruct (HS 1 ltac:(lia)) as (s & Hs & Hsup' & Hn & _). injection Hs as <-.
  assert (Hlen : length (sg_super s1) = nv (sg_graph s1)) by (rewrite Hn, Hsup', fmap_length; done).
  assert (Hnd : NoDup (sg_super s1)) by (rewrite Hsup; apply (bool_decide_unpack _); vm_compute; exact I).
  assert (HF : Forall (fun x => x < length (replicate 24 (Some 9))) (sg_super s1)) by (rewrite Hsup; apply (bool_decide_unpack _); vm_compute; exact I).
  destruct (C14_map_back s1 (mkPart 0 [0; 0]%Z ((fun v => Some (v mod 2)) <$> seq 0 8)) 2 5 (replicate 24 (Some 9)) Hwf1 Hlen Hnd HF)
    as (ls & El & _ & H1 & H2).
  { rewrite <- Hlen, Hsup. apply labels_ok_compute; vm_compute; reflexivity. }
  exists s0, s1, ls. split; [done|]. split; [done|]. split; [exact HF|]. split; [done|]. split; [done|]. split; [done|].
  split; [apply (H1 0 2 0); [by rewrite Hsup|done]|]. split; [apply (H1 1 5 1); [by rewrite Hsup|done]|].
  rewrite H2; [done|]. rewrite Hsup. apply (bool_decide_unpack _). vm_compute. exact I.
Qed.

(** ** C10: whatever bisector is plugged in. *)
Theorem C10_label_ranges : forall lg (bis : bisector) t g s P s', wf_graph g -> 2 <= t_np t ->
  (forall t' g' cs p cs', wf_graph g' -> bis t' g' cs = Ok (p, cs') -> length (p_pw p) = 2 /\ labels_ok 2 (nv g') (p_where p)) ->
  rb_execute lg bis t g s = Ok (P, s') ->
  labels_ok (t_np t) (nv g) (p_where P) /\
  exists bt p s1, bisect_target t (tolerance_factor lg (t_np t)) = Ok bt /\ bis bt g s = Ok (p, s1) /\
    forall v, v < nv g -> exists l, lab P v = Some l /\
      ((lab p v = Some 0 /\ l < t_np t / 2) \/ (lab p v = Some 1 /\ t_np t / 2 <= l < t_np t)).
Proof.
  intros lg bis t g s P s' Hwf Hk Hb HP.
  assert (HD : handed_down lg bis anyf (fun _ g => wf_graph g)).
  { split.
    - intros t' g' Hg' _. destruct (bisect_target t' _); [|done]. cbn. intros cs. destruct (bis a g' cs) as [[p cs']|] eqn:E; [|done]. cbn. by eapply Hb.
    - intros t' g' p i sg Hg' _ _ _ Hin _ _. destruct (sub_target _ _ _); [|done]. cbn. apply Hin. }
  split.
  - pose proof (rb_execute_wp lg bis anyf _ t g HD Hwf Hwf Hk s) as H. rewrite HP in H. exact (proj1 (proj1 H)).
  - destruct (rb_execute_split lg bis anyf _ t g s P s' HD Hwf Hwf Hk HP) as (bt & p & s1 & E1 & E2 & _ & H). eauto 6.
Qed.
Print Assumptions C10_label_ranges.
(** The result is exact as a k-way partitioning. *)
Theorem C10_exact : forall lg (bis : bisector) t g s P s', wf_graph g -> 2 <= t_np t ->
  (forall t' g' cs p cs', wf_graph g' -> bis t' g' cs = Ok (p, cs') -> length (p_pw p) = 2 /\ labels_ok 2 (nv g') (p_where p)) ->
  rb_execute lg bis t g s = Ok (P, s') -> valid_part (t_np t) g P /\ (symmetric g -> fits g -> exact_part (t_np t) g P).
Proof.
  intros lg bis t g s P s' Hwf Hk Hb HP.
  assert (HD : handed_down lg bis anyf (fun _ g => wf_graph g)).
  { split.
    - intros t' g' Hg' _. destruct (bisect_target t' _); [|done]. cbn. intros cs. destruct (bis a g' cs) as [[p cs']|] eqn:E; [|done]. cbn. by eapply Hb.
    - intros t' g' p i sg Hg' _ _ _ Hin _ _. destruct (sub_target _ _ _); [|done]. cbn. apply Hin. }
  pose proof (rb_execute_wp lg bis anyf _ t g HD Hwf Hwf Hk s) as H. rewrite HP in H. exact H.
Qed.
Print Assumptions C10_exact.
(** A bisector meeting the hypothesis: the first half of the vertices goes left. *)
Definition halver : bisector := fun _ g => lift (part_of_labels 2 g ((fun v => if Nat.ltb v (nv g / 2) then 0 else 1) <$> seq 0 (nv g))).
Example C10_nonvacuous :
  (forall t' g' cs p cs', wf_graph g' -> halver t' g' cs = Ok (p, cs') -> length (p_pw p) = 2 /\ labels_ok 2 (nv g') (p_where p)) /\
  (2 <= t_np (target_of_weights [10; 10; 9; 9; 10] [10; 10; 10; 10; 11])%Z) /\
  exists P s', rb_execute (fun _ => f_one) halver (target_of_weights [10; 10; 9; 9; 10] [10; 10; 10; 10; 11])%Z (ring 24) [] = Ok (P, s') /\
    lab P 0 = Some 0 /\ lab P 7 = Some 1 /\ lab P 12 = Some 2 /\ lab P 18 = Some 3 /\ lab P 23 = Some 4.
Proof.
  split; [|split; [cbn; lia|]].
  - intros t' g' cs p cs' Hwf E. unfold halver, lift in E.
    pose proof (part_of_labels_wp g' Hwf 2 never ((fun v => if Nat.ltb v (nv g' / 2) then 0 else 1) <$> seq 0 (nv g'))) as H.
    destruct (part_of_labels 2 g' _) as [p'|]; [|done]. cbn in E. injection E as <- <-.
    destruct H as (_ & [Hv [Hw _]] & _).
    + by rewrite fmap_length, seq_length.
    + apply Forall_fmap, Forall_forall. intros v _. unfold compose. case_match; lia.
    + done.
  - eexists _, _. split; [vm_compute; reflexivity|]. repeat split; vm_compute; reflexivity.
Qed.
