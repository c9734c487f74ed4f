(** * PropsValid: property theorems about Graph::isValid (C49). *)
From Verif Require Import Base F64 ModelGraph Spec Logic Sums GraphFacts Examples.
#[local] Arguments seq : simpl nomatch.

(** The CSR arrays have consistent sizes and the unit flags are right.  Nothing is assumed about
    the destinations, the stored totals or the symmetry: these are what isValid checks. *)
Record arrays_ok (g : graph) : Prop := {
  ao_len : length (g_prefix g) = S (nv g);
  ao_first : pre_at g 0 = 0;
  ao_mono : forall v, v < nv g -> pre_at g v <= pre_at g (S v);
  ao_last : pre_at g (nv g) = ne g;
  ao_vw_len : g_vw g = [] \/ length (g_vw g) = nv g;
  ao_ew_len : g_ew g = [] \/ length (g_ew g) = ne g;
  ao_vw_range : forall v, (0 <= vweight g v < W32)%Z;
  ao_ew_range : forall e, (0 <= wgt_at (g_ew g) e < W32)%Z;
  ao_uvw_t : g_uvw g = true -> forall v, v < nv g -> vweight g v = 1%Z;
  ao_uvw_f : g_uvw g = false -> length (g_vw g) = nv g;
  ao_uew_t : g_uew g = true -> forall e, e < ne g -> wgt_at (g_ew g) e = 1%Z;
  ao_uew_f : g_uew g = false -> length (g_ew g) = ne g
}.
Definition totals_right (g : graph) : Prop :=
  g_tvw g = u32 (sumn (nv g) (vweight g)) /\ g_tew g = u32 (total_edge_weight g).
Definition destinations_right (g : graph) : Prop := Forall (fun d => d < nv g) (g_adj g).
(** Every edge v -> u of weight w is answered: the first edge from u back to v has weight w. *)
Definition answered (g : graph) : Prop := forall v u w, v < nv g -> (u, w) ∈ out g v ->
  head (filter (fun a => fst a = v) (out g u)) = Some (v, w).
(** No two edges between the same two vertices in the same direction. *)
Definition simple (g : graph) : Prop := forall v, v < nv g -> NoDup (fst <$> out g v).

Section Valid.
  Context (g : graph) (Ha : arrays_ok g).

  Lemma ao_wf : totals_right g -> destinations_right g -> wf_graph g.
  Proof.
    intros [T1 T2] D. destruct Ha. split; try assumption.
    intros e He. unfold destinations_right in D. rewrite Forall_forall in D. apply D.
    apply elem_of_list_In, nth_In. exact He.
  Qed.
  Lemma wf_parts : wf_graph g -> totals_right g /\ destinations_right g.
  Proof.
    intros Hwf. split; [split; [apply (wf_tvw g Hwf)|apply (wf_tew g Hwf)]|].
    unfold destinations_right. apply Forall_lookup. intros i d Hi.
    rewrite <- (nth_lt_eq _ _ 0 _ Hi). apply (wf_dst g Hwf). apply lookup_lt_Some in Hi. exact Hi.
  Qed.
  Lemma ao_vwt v : v < nv g -> vwt (has_vw g) g v = Ok (vweight g v).
  Proof.
    intros Hv. unfold has_vw. destruct (g_uvw g) eqn:E; cbn [negb].
    - cbn. by rewrite (ao_uvw_t g Ha E v Hv).
    - apply vwt_true_ok; [|done]. by apply (ao_uvw_f g Ha).
  Qed.
  Lemma ao_ewt e : e < ne g -> ewt (has_ew g) g e = Ok (wgt_at (g_ew g) e).
  Proof.
    intros He. unfold has_ew. destruct (g_uew g) eqn:E; cbn [negb].
    - cbn. by rewrite (ao_uew_t g Ha E e He).
    - apply ewt_true_ok; [|done]. by apply (ao_uew_f g Ha).
  Qed.
  Lemma wsum_ok (f : nat -> outcome Z) (h : nat -> Z) n : (forall i, i < n -> f i = Ok (h i)) ->
    ofold (fun s i => let! w := f i in Ok (u32 (s + w))) 0%Z (seq 0 n) = Ok (u32 (sumn n h)).
  Proof.
    intros H. rewrite (ofold_ext _ (fun s i => Ok (u32 (s + h i))) (seq 0 n)).
    - rewrite (ofold_pure _ (fun s i => u32 (s + h i))); [|done].
      change 0%Z with (u32 0) at 1. rewrite fold_u32. f_equal.
    - intros s i Hi. rewrite H; [done|]. apply elem_of_seq in Hi. lia.
  Qed.
  Lemma oall_ok {A} (p : A -> outcome bool) (q : A -> bool) l : (forall a, a ∈ l -> p a = Ok (q a)) ->
    oall p l = Ok (forallb q l).
  Proof.
    intros H. unfold oall.
    assert (G : forall b, ofold (fun (b : bool) a => if b then p a else Ok false) b l = Ok (b && forallb q l)).
    { induction l as [|a l IH]; intros b; cbn; [by rewrite andb_true_r|].
      destruct b; cbn.
      - rewrite (H a) by set_solver. cbn. rewrite IH by set_solver. done.
      - rewrite IH by set_solver. done. }
    apply G.
  Qed.
  Lemma first_reverse_ok (Hwf : wf_graph g) v l : (forall e, e ∈ l -> e < ne g) ->
    exists r, first_reverse g v l = Ok r /\
      match r with
      | None => filter (fun a => fst a = v) ((fun e => (nth e (g_adj g) 0, wgt_at (g_ew g) e)) <$> l) = []
      | Some f => f ∈ l /\
          head (filter (fun a => fst a = v) ((fun e => (nth e (g_adj g) 0, wgt_at (g_ew g) e)) <$> l)) = Some (v, wgt_at (g_ew g) f)
      end.
  Proof.
    induction l as [|e l IH]; intros Hl; [exists None; split; reflexivity|].
    change (first_reverse g v (e :: l)) with (let! d := dst g e in if Nat.eqb v d then Ok (Some e) else first_reverse g v l).
    rewrite dst_ok by (apply Hl; set_solver). cbn [obind]. rewrite fmap_cons, filter_cons. cbn [fst].
    destruct (Nat.eqb_spec v (nth e (g_adj g) 0)) as [->|Hn].
    - exists (Some e). split; [done|]. rewrite decide_True by done. split; [set_solver|done].
    - destruct IH as (r & E & Hr); [intros; apply Hl; set_solver|]. exists r. split; [exact E|].
      rewrite decide_False by done. destruct r; [|exact Hr]. destruct Hr. split; [set_solver|done].
  Qed.
  Lemma edge_symmetric_ok (Hwf : wf_graph g) v e : e < ne g ->
    edge_symmetric g v e = Ok (bool_decide
      (head (filter (fun a => fst a = v) (out g (nth e (g_adj g) 0))) = Some (v, wgt_at (g_ew g) e))).
  Proof.
    intros He. unfold edge_symmetric. rewrite dst_ok by done. cbn [obind].
    set (u := nth e (g_adj g) 0). pose proof (wf_dst g Hwf e He) as Hu. fold u in Hu.
    rewrite edge_range_ok by done. cbn [obind].
    destruct (first_reverse_ok Hwf v (seq (pre_at g u) (pre_at g (S u) - pre_at g u))) as (r & E & Hr).
    { intros f Hf. apply (edge_in_range g Hwf u); done. }
    rewrite E. cbn [obind]. fold (out g u) in Hr. destruct r as [f|].
    - destruct Hr as [Hf Hr]. rewrite Hr. assert (Hfe : f < ne g) by (apply (edge_in_range g Hwf u); done).
      destruct (g_uew g) eqn:U.
      + rewrite (wf_uew_t g Hwf U f Hfe), (wf_uew_t g Hwf U e He). by rewrite bool_decide_true by done.
      + rewrite !ewt_true_ok by (done || by apply (wf_uew_f g Hwf)). cbn [obind]. f_equal.
        destruct (Z.eqb_spec (wgt_at (g_ew g) e) (wgt_at (g_ew g) f)) as [->|Hne]; [by rewrite bool_decide_true|].
        rewrite bool_decide_false; congruence.
    - rewrite Hr. done.
  Qed.

  Lemma is_valid_ok : exists b, is_valid g = Ok b /\
    (b = true <-> totals_right g /\ destinations_right g /\ answered g).
  Proof.
    assert (Htot : total_edge_weight g = sumn (ne g) (fun e => wgt_at (g_ew g) e)).
    { unfold total_edge_weight. rewrite (sum_out_edges g snd (ao_first g Ha) (ao_mono g Ha) (nv g) (Nat.le_refl _)).
      rewrite (ao_last g Ha). done. }
    unfold is_valid. rewrite (wsum_ok _ (vweight g)) by (intros; apply ao_vwt; done). cbn [obind].
    destruct (Z.eqb_spec (u32 (sumn (nv g) (vweight g))) (g_tvw g)) as [T1|T1]; cbn [negb];
      [|exists false; split; [done|]; unfold totals_right; split; [done|intros [[]]; congruence]].
    rewrite (oall_ok _ (fun e => Nat.ltb (nth e (g_adj g) 0) (nv g))).
    2: { intros e He. apply elem_of_seq in He. rewrite dst_ok by lia. done. }
    cbn [obind].
    destruct (forallb (fun e => Nat.ltb (nth e (g_adj g) 0) (nv g)) (seq 0 (ne g))) eqn:D; cbn [negb].
    2: { exists false. split; [done|]. split; [done|]. intros (_ & Hd & _). exfalso.
      apply Bool.not_true_iff_false in D. apply D. apply forallb_forall. intros e He. apply in_seq in He.
      apply Nat.ltb_lt. unfold destinations_right in Hd. rewrite Forall_forall in Hd. apply Hd.
      apply elem_of_list_In, nth_In. unfold ne in He. lia. }
    assert (Hd : destinations_right g).
    { rewrite forallb_forall in D. unfold destinations_right. apply Forall_lookup. intros e d He.
      rewrite <- (nth_lt_eq _ _ 0 _ He). apply Nat.ltb_lt, D. apply in_seq. apply lookup_lt_Some in He. unfold ne. lia. }
    rewrite (wsum_ok _ (fun e => wgt_at (g_ew g) e)) by (intros; apply ao_ewt; done). cbn [obind].
    rewrite <- Htot.
    destruct (Z.eqb_spec (u32 (total_edge_weight g)) (g_tew g)) as [T2|T2]; cbn [negb];
      [|exists false; split; [done|]; unfold totals_right; split; [done|intros [[]]; congruence]].
    assert (Hwf : wf_graph g) by (apply ao_wf; [split; congruence|done]).
    rewrite (oall_ok _ (fun v => forallb (fun e => bool_decide
      (head (filter (fun a => fst a = v) (out g (nth e (g_adj g) 0))) = Some (v, wgt_at (g_ew g) e)))
      (seq (pre_at g v) (pre_at g (S v) - pre_at g v)))).
    2: { intros v Hv. apply elem_of_seq in Hv. rewrite edge_range_ok by (done || lia). cbn [obind].
      apply oall_ok. intros e He. apply (edge_symmetric_ok Hwf). apply (edge_in_range g Hwf v); [lia|done]. }
    eexists. split; [reflexivity|]. rewrite forallb_forall. split.
    - intros H. split_and!; [split; congruence|done|]. intros v u w Hv Hu.
      specialize (H v ltac:(apply in_seq; lia)). rewrite forallb_forall in H.
      unfold out in Hu at 1. apply elem_of_list_fmap in Hu as (e & Eq & He). injection Eq as -> ->.
      specialize (H e ltac:(apply elem_of_list_In; exact He)). apply bool_decide_eq_true in H. exact H.
    - intros (_ & _ & H) v Hv. apply in_seq in Hv. apply forallb_forall. intros e He. apply bool_decide_eq_true.
      apply H; [lia|]. unfold out at 1. apply elem_of_list_fmap. exists e. split; [done|]. apply elem_of_list_In; done.
  Qed.
End Valid.

(** ** C49: what isValid answers, for every graph object with consistent arrays. *)
Theorem C49_decides : forall g, arrays_ok g -> exists b, is_valid g = Ok b /\
  (b = true <-> totals_right g /\ destinations_right g /\ answered g).
Proof. exact is_valid_ok. Qed.
Print Assumptions C49_decides.
(** Acceptance implies right totals, valid destinations and a reverse edge of equal weight. *)
Theorem C49_accepts_only : forall g, arrays_ok g -> is_valid g = Ok true ->
  wf_graph g /\ forall v u w, v < nv g -> (u, w) ∈ out g v -> (v, w) ∈ out g u.
Proof.
  intros g Ha H. destruct (is_valid_ok g Ha) as (b & E & [Hb _]). rewrite H in E. injection E as <-.
  destruct (Hb eq_refl) as (T & D & A). split; [apply ao_wf; done|]. intros v u w Hv Hu.
  specialize (A v u w Hv Hu). destruct (filter (fun a => fst a = v) (out g u)) as [|a l] eqn:F; [done|].
  injection A as ->. apply (elem_of_list_filter (fun a => fst a = v) (out g u)). rewrite F. left.
Qed.
Print Assumptions C49_accepts_only.
Lemma wf_arrays g : wf_graph g -> arrays_ok g.
Proof. intros []. split; assumption. Qed.
Lemma simple_first (l : list (nat * Z)) v w : NoDup (fst <$> l) -> (v, w) ∈ l ->
  filter (fun a => fst a = v) l = [(v, w)].
Proof.
  induction l as [|[x y] l IH]; intros Hn H; [by apply elem_of_nil in H|].
  rewrite fmap_cons in Hn. apply NoDup_cons in Hn as [Hx Hn]. cbn [fst] in Hx. rewrite filter_cons. cbn [fst]. apply elem_of_cons in H as [[= -> ->]|H].
  - rewrite decide_True by done. f_equal. destruct (filter _ l) as [|[a b] l'] eqn:F; [done|]. exfalso.
    assert (Hin : (a, b) ∈ filter (fun a => fst a = x) l) by (rewrite F; left).
    apply elem_of_list_filter in Hin as [Hax Hin]. cbn in Hax. subst a. apply Hx. apply elem_of_list_fmap. exists (x, b). done.
  - rewrite decide_False; [by apply IH|]. intros ->. apply Hx. apply elem_of_list_fmap. exists (v, w). done.
Qed.
(** Every symmetric graph without parallel edges whose totals are right is accepted. *)
Theorem C49_accepts_symmetric : forall g, wf_graph g -> simple g ->
  (forall v u w, v < nv g -> (u, w) ∈ out g v -> (v, w) ∈ out g u) -> is_valid g = Ok true.
Proof.
  intros g Hwf Hs H. destruct (is_valid_ok g (wf_arrays g Hwf)) as (b & -> & [_ Hb]). f_equal. apply Hb.
  destruct (wf_parts g Hwf) as [T D]. split_and!; try done. intros v u w Hv Hu.
  assert (Hun : u < nv g).
  { unfold out in Hu. apply elem_of_list_fmap in Hu as (e & Eq & He). injection Eq as -> _.
    apply (wf_dst g Hwf), (edge_in_range g Hwf v); done. }
  rewrite (simple_first _ v w); [done|by apply Hs|]. by apply H.
Qed.
Print Assumptions C49_accepts_symmetric.
(** Without parallel edges acceptance means that the graph is undirected. *)
Theorem C49_simple_symmetric : forall g, arrays_ok g -> simple g -> is_valid g = Ok true -> symmetric g.
Proof.
  intros g Ha Hs H. destruct (C49_accepts_only g Ha H) as [Hwf Hr].
  assert (Hw : forall u v, u < nv g -> W g u v = sumf snd (filter (fun a => fst a = v) (out g u))).
  { intros u v _. unfold W. induction (out g u) as [|a l IH]; [done|]. rewrite filter_cons, sumf_cons.
    destruct (decide (fst a = v)); [rewrite sumf_cons|]; rewrite IH; done. }
  assert (Hc : forall u v, u < nv g -> (exists w, (v, w) ∈ out g u /\ W g u v = w) \/ ((forall w, (v, w) ∉ out g u) /\ W g u v = 0%Z)).
  { intros u v Hu. rewrite Hw by done. destruct (filter (fun a => fst a = v) (out g u)) as [|[x w] l] eqn:F.
    - right. split; [|done]. intros w Hin. assert (X : (v, w) ∈ filter (fun a => fst a = v) (out g u)) by (apply elem_of_list_filter; done).
      rewrite F in X. by apply elem_of_nil in X.
    - left. assert (X : (x, w) ∈ filter (fun a => fst a = v) (out g u)) by (rewrite F; left).
      apply elem_of_list_filter in X as [Hx X]. cbn in Hx. subst x.
      rewrite (simple_first _ v w (Hs u Hu) X) in F. injection F as <-. exists w. split; [done|].
      rewrite sumf_cons, sumf_nil. cbn. lia. }
  intros u v Hu Hv. destruct (Hc u v Hu) as [(w & Hin & Hwt)|[Hno Hwt]], (Hc v u Hv) as [(w' & Hin' & Hwt')|[Hno' Hwt']].
  - specialize (Hr u v w Hu Hin). rewrite Hwt, Hwt'.
    pose proof (simple_first _ u w (Hs v Hv) Hr) as F1. pose proof (simple_first _ u w' (Hs v Hv) Hin') as F2. congruence.
  - exfalso. apply (Hno' w). by apply Hr.
  - exfalso. apply (Hno w'). by apply Hr.
  - congruence.
Qed.
Print Assumptions C49_simple_symmetric.
Example C49_nonvacuous : wf_graph ex /\ is_valid ex = Ok true /\
  is_valid (mkGraph ex_prefix ex_adj ex_vw ex_ew 9 26 false false) = Ok false /\
  is_valid (the_graph [0; 1; 1] [1] None None) = Ok false.
Proof. split; [exact ex_wf|]. vm_compute. done. Qed.
Lemma ex_simple : simple ex.
Proof.
  intros v Hv. rewrite ex_nv in Hv. destruct v as [|[|[|[|v]]]]; [| | | |lia]; vm_compute;
    repeat (apply NoDup_cons; split; [set_solver|]); apply NoDup_nil_2.
Qed.
(** With parallel edges isValid can accept a graph that is not symmetric, and reject one that is. *)
Theorem C49_multigraph_refuted :
  (exists g, wf_graph g /\ is_valid g = Ok true /\ ~ symmetric g) /\
  (exists g, wf_graph g /\ symmetric g /\ (forall v u w, v < nv g -> (u, w) ∈ out g v -> (v, w) ∈ out g u) /\ is_valid g = Ok false).
Proof.
  split.
  - exists (the_graph [0; 2; 3] [1; 1; 0] None None). split; [apply (the_graph_wf 2); reflexivity|].
    split; [vm_compute; reflexivity|]. intros H. specialize (H 0 1 ltac:(cbn; lia) ltac:(cbn; lia)). vm_compute in H. discriminate.
  - exists (the_graph [0; 2; 4] [1; 1; 0; 0] None (Some [1; 2; 1; 2]%Z)). split; [apply (the_graph_wf 2); reflexivity|].
    split; [apply symb_sound; vm_compute; reflexivity|]. split; [|vm_compute; reflexivity].
    intros v u w Hv. change (nv (the_graph [0; 2; 4] [1; 1; 0; 0] None (Some [1; 2; 1; 2]%Z))) with 2 in Hv.
    destruct v as [|[|v]]; [| |lia]; cbn; intros [[= -> ->]|[[= -> ->]|H%elem_of_nil]%elem_of_cons]%elem_of_cons; try done;
      cbn; set_solver.
Qed.
Print Assumptions C49_multigraph_refuted.
