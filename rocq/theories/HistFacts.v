(** * HistFacts: arbitrary histories of partitioning and connectivity operations (C25, C28, C29). *)
From Verif Require Import Base F64 ModelGraph ModelPartition ModelConn ModelFM Spec Logic Sums GraphFacts PartFacts ConnFacts FMFacts.

(** ** C25 *)
Inductive pop :=
  | OAssign (v i : nat)      (* assign(v, i) *)
  | OMove (v i : nat)        (* move(v, i) *)
  | OUnassign (v : nat)      (* unassign(v) *)
  | OAssignAll (i : nat)     (* assignAll(i) *)
  | OUnassignAll.            (* unassignAll() *)
Definition run_pop (g : graph) (p : part) (o : pop) : outcome part :=
  match o with
  | OAssign v i => part_assign g p v i
  | OMove v i => part_move g p v i
  | OUnassign v => part_unassign g p v
  | OAssignAll i => assign_all g p i
  | OUnassignAll => Ok (unassign_all p)
  end.
Definition run_pops (g : graph) (p : part) (os : list pop) : outcome part := ofold (run_pop g) p os.

(** What each operation does to the labels, and when it may be called. *)
Definition op_labels (f : nat -> option nat) (o : pop) : nat -> option nat :=
  match o with
  | OAssign v i | OMove v i => fun u => if decide (u = v) then Some i else f u
  | OUnassign v => fun u => if decide (u = v) then None else f u
  | OAssignAll i => fun _ => Some i
  | OUnassignAll => fun _ => None
  end.
Definition op_legal (n k : nat) (f : nat -> option nat) (o : pop) : Prop :=
  match o with
  | OAssign v i => v < n /\ i < k /\ f v = None
  | OMove v i => v < n /\ i < k /\ f v <> None
  | OUnassign v => v < n /\ f v <> None
  | OAssignAll i => i < k
  | OUnassignAll => True
  end.
Fixpoint hist_legal (n k : nat) (f : nat -> option nat) (os : list pop) : Prop :=
  match os with
  | [] => True
  | o :: os' => op_legal n k f o /\ hist_legal n k (op_labels f o) os'
  end.
Definition hist_labels (f : nat -> option nat) (os : list pop) : nat -> option nat := fold_left op_labels os f.

Definition hist_inv (k : nat) (g : graph) (f : nat -> option nat) (p : part) : Prop :=
  length (p_where p) = nv g /\ (forall v, v < nv g -> lab p v = f v) /\
  (forall v i, v < nv g -> f v = Some i -> i < k) /\ weights_exact k g p.

Lemma hist_lookup k g f p v x : hist_inv k g f p -> v < nv g -> f v = x -> p_where p !! v = Some x.
Proof.
  intros (Hl & Hf & _) Hv <-. rewrite <- (Hf v Hv). unfold lab. apply lookup_nth. lia.
Qed.
Lemma hist_insert k g f p v x : hist_inv k g f p -> v < nv g -> forall p',
  p_where p' = <[v:=x]> (p_where p) -> length (p_where p') = nv g /\
  forall u, u < nv g -> lab p' u = if decide (u = v) then x else f u.
Proof.
  intros (Hl & Hf & _) Hv p' E. split; [rewrite E, insert_length; exact Hl|].
  intros u Hu. rewrite lab_labw, E, labw_insert by lia. unfold upd. destruct (decide (u = v)); [done|].
  apply (Hf u Hu).
Qed.

Lemma run_pop_wp E k g f p o : wf_graph g -> hist_inv k g f p -> op_legal (nv g) k f o ->
  wpo (run_pop g p o) E (hist_inv k g (op_labels f o)).
Proof.
  intros Hwf HI Ho. pose proof HI as (Hl & Hf & Hk & Hw). destruct o as [v i|v i|v|i|]; simpl in *.
  - destruct Ho as (Hv & Hi & Hn).
    eapply wpo_post; [apply (part_assign_wp g Hwf k); auto; rewrite Hf by done; done|].
    intros p' (_ & E1 & Hw'). destruct (hist_insert k g f p v _ HI Hv p' E1) as [A B].
    split; [done|split; [done|split; [|done]]].
    intros u j Hu. destruct (decide (u = v)); [intros [= <-]; done|apply Hk; done].
  - destruct Ho as (Hv & Hi & Hn). destruct (f v) as [a|] eqn:Ea; [|done].
    eapply wpo_post; [apply (part_move_wp g Hwf k) with (a := a); auto; [eapply hist_lookup; eauto|eapply Hk; eauto]|].
    intros p' (_ & E1 & Hw'). destruct (hist_insert k g f p v _ HI Hv p' E1) as [A B].
    split; [done|split; [done|split; [|done]]].
    intros u j Hu. destruct (decide (u = v)); [intros [= <-]; done|apply Hk; done].
  - destruct Ho as (Hv & Hn). destruct (f v) as [a|] eqn:Ea; [|done].
    eapply wpo_post; [apply (part_unassign_wp g Hwf k) with (a := a); auto; [eapply hist_lookup; eauto|eapply Hk; eauto]|].
    intros p' (_ & E1 & Hw'). destruct (hist_insert k g f p v _ HI Hv p' E1) as [A B].
    split; [done|split; [done|split; [|done]]].
    intros u j Hu. destruct (decide (u = v)); [done|apply Hk; done].
  - eapply wpo_post; [apply (assign_all_wp g Hwf k); auto; apply Hw|].
    intros p' (_ & E1 & _ & Hw'). split; [rewrite E1, replicate_length; done|].
    split; [|split; [|done]].
    + intros u Hu. unfold lab. rewrite E1. apply nth_lt_eq. apply lookup_replicate_2. done.
    + intros u j _ [= <-]. done.
  - split; [unfold unassign_all; simpl; rewrite replicate_length; done|].
    split; [|split].
    + intros u Hu. unfold lab, unassign_all; simpl. apply nth_lt_eq. apply lookup_replicate_2. lia.
    + done.
    + pose proof (part_new_weights g k) as [A B].
      destruct Hw as [Hw1 _]. split; unfold unassign_all; simpl; [rewrite replicate_length; done|].
      intros i Hi. rewrite Hw1. specialize (B i Hi). unfold part_new in B; simpl in B.
      rewrite Hl. exact B.
Qed.

Lemma run_pops_wp E k g os : wf_graph g -> forall f p, hist_inv k g f p -> hist_legal (nv g) k f os ->
  wpo (run_pops g p os) E (hist_inv k g (hist_labels f os)).
Proof.
  intros Hwf. induction os as [|o os IH]; intros f p HI Hl; [exact HI|].
  destruct Hl as [Ho Hl]. eapply wpo_bind; [apply run_pop_wp; eassumption|].
  intros p' HI'. apply IH; done.
Qed.
Lemma weights_ext k g p f : weights_exact k g p -> (forall v, v < nv g -> lab p v = f v) ->
  length (p_pw p) = k /\ forall i, i < k -> get_weight p i = Ok (u32 (label_weight g f (Some i))).
Proof.
  intros [A B] H. split; [done|]. intros i Hi. unfold get_weight. rewrite (rd_ok _ _ _ (B i Hi)).
  do 2 f_equal. apply label_weight_ext. done.
Qed.
(** From a new (all unassigned) partitioning. *)
Lemma history_weights k g os : wf_graph g -> hist_legal (nv g) k (fun _ => None) os ->
  exists p, run_pops g (part_new k g) os = Ok p /\
    (forall v, v < nv g -> get_assignment p v = Ok (hist_labels (fun _ => None) os v)) /\
    (forall i, i < k -> get_weight p i = Ok (u32 (label_weight g (hist_labels (fun _ => None) os) (Some i)))).
Proof.
  intros Hwf Hl.
  assert (HI : hist_inv k g (fun _ => None) (part_new k g)).
  { split; [unfold part_new; simpl; apply replicate_length|].
    split; [|split; [done|apply part_new_weights]].
    intros v Hv. unfold lab, part_new; simpl. apply nth_lt_eq. apply lookup_replicate_2. done. }
  pose proof (run_pops_wp never k g os Hwf _ _ HI Hl) as H.
  apply wpo_never in H as (p & E & H). exists p. split; [done|].
  destruct H as (H1 & H2 & H3 & H4). split.
  - intros v Hv. rewrite (get_assignment_ok g) by done. rewrite H2 by done. done.
  - apply (weights_ext k g p); done.
Qed.

(** ** C28: any sequence of single moves to the other side *)
(** A move of v to the other side with neighbour updates, and a sequence of them. *)
Definition move_over (g : graph) (s : fm) (v : nat) : outcome fm :=
  let! w := get_assignment (fm_part s) v in
  let! from := pw_index w in
  fm_move g false v (if Nat.eqb from 0 then 1 else 0) s.
Definition run_moves (g : graph) (s : fm) (vs : list nat) : outcome fm := ofold (move_over g) s vs.

Section Moves.
  Context (g : graph) (Hwf : wf_graph g) (Hsym : symmetric g) (Hloop : loopless g) (Hfit : fits g).

  Lemma other_label x : x < 2 -> other (Some x) = Some (if Nat.eqb x 0 then 1 else 0).
  Proof. destruct x as [|[|]]; simpl; done || lia. Qed.
  Lemma move_over_wp E s v : fm_data g s -> v < nv g ->
    wpo (move_over g s v) E (fun s' => fm_data g s' /\ p_where (fm_part s') = flip v (p_where (fm_part s))).
  Proof.
    intros Hd Hv. pose proof Hd as (((Hlo & _) & _) & _).
    destruct (labels_ok_lab _ _ _ v Hlo Hv) as (x & Hx & Elab).
    unfold move_over. rewrite (get_assignment_ok g) by (done || apply Hlo).
    rewrite lab_labw, Elab. simpl.
    eapply wpo_post; [apply (fm_move_wp g Hwf Hsym Hloop Hfit) with (from := x); auto|].
    - destruct x as [|[|]]; simpl; lia.
    - discriminate.
    - intros s' (A & B & _). split; [done|]. rewrite B. unfold flip. rewrite Elab, other_label by done. done.
  Qed.
  Lemma run_moves_wp E vs : forall s, fm_data g s -> Forall (fun v => v < nv g) vs ->
    wpo (run_moves g s vs) E (fun s' => fm_data g s' /\
      p_where (fm_part s') = fold_left (fun wh v => flip v wh) vs (p_where (fm_part s))).
  Proof.
    induction vs as [|v vs IH]; intros s Hd Hvs; [split; done|].
    inversion_clear Hvs. eapply wpo_bind; [apply move_over_wp; eassumption|].
    intros s' [A B]. eapply wpo_post; [apply IH; done|]. intros s'' [C D]. split; [done|].
    rewrite D, B. done.
  Qed.

  (** The gain read off before a move is the exact change of the cut. *)
  Lemma delta_exact s v x y : fm_data g s -> v < nv g -> lab (fm_part s) v = Some x -> x + y = 1 ->
    vertex_delta (fm_conn s) v =
      Ok (edge_cut g (upd (lab (fm_part s)) v (Some y)) - edge_cut g (lab (fm_part s)))%Z.
  Proof.
    intros Hd Hv Hx Hxy. destruct Hd as (((Hlo & _) & _) & (_ & _ & _ & Hc) & _).
    destruct (Hc v Hv) as [Ci Ce].
    pose proof (incident_H32 g Hwf Hsym Hloop Hfit v Hv) as HB.
    pose proof (int_ext_total g (lab (fm_part s)) v) as HT.
    pose proof (internal_nonneg g Hwf (lab (fm_part s)) v Hv).
    pose proof (external_nonneg g Hwf (lab (fm_part s)) v Hv).
    rewrite (vertex_delta_ok _ _ _ _ Ci Ce) by lia. f_equal.
    rewrite (edge_cut_move g (lab (fm_part s)) v (Some x) (Some y)); auto; [lia| |intros [= ]; lia].
    intros u Hu. destruct (labels_ok_lab _ _ _ u Hlo Hu) as (z & Hz & Elab). rewrite lab_labw, Elab.
    destruct x as [|[|]], y as [|[|]], z as [|[|]]; try lia; auto.
  Qed.

  Lemma fm_data_start p c : exact_part 2 g p -> conn_exact g (lab p) c -> border_exact g (lab p) c ->
    fm_data g (mkFm p c (q_new (nv g)) (q_new (nv g)) (vt_new (nv g))).
  Proof. intros A B C. repeat split; simpl; try apply A; try apply B; try apply C; auto; apply replicate_length. Qed.
  Lemma start_ok p : exact_part 2 g p -> exists c, from_partitioning g p = Ok c /\
    conn_exact g (lab p) c /\ border_fresh g (lab p) c /\ border_exact g (lab p) c.
  Proof.
    intros Hp. pose proof (from_partitioning_wp g Hwf Hfit never p) as H.
    destruct Hp as (((Hl & _) & _) & _). specialize (H Hl). apply wpo_never in H as (c & E & A & B).
    exists c. split; [done|]. split; [done|]. split; [done|]. apply fresh_exact; done.
  Qed.

  (** ** C29: the incremental border equals the rebuilt one *)
  Lemma oall_true {A} (p : A -> outcome bool) l : (forall a, a ∈ l -> p a = Ok true) -> oall p l = Ok true.
  Proof.
    intros H. unfold oall. induction l as [|a l IH]; [done|]. simpl. rewrite H by constructor. simpl.
    apply IH. intros b Hb. apply H. constructor; done.
  Qed.
  Lemma verify_ok s : fm_data g s -> (forall v, v < nv g -> (0 < sumf snd (out g v))%Z) ->
    conn_verify g (fm_part s) (fm_conn s) = Ok true.
  Proof.
    intros (Hp & Hc & Hb & _) Hpos. destruct (start_ok _ Hp) as (base & E & Bc & Bf & Bb).
    unfold conn_verify. rewrite E. simpl.
    destruct Hc as (L1 & L2 & L3 & Hc). destruct Bc as (M1 & M2 & M3 & Bc).
    rewrite oall_true; [|intros v Hv; apply members_spec in Hv; apply rd_ok;
      assert (v < nv g) by (rewrite <- L3; eapply lookup_lt_Some; eauto);
      apply (Bb v); auto; apply (Hb v); auto].
    simpl. rewrite oall_true; [|intros v Hv; apply members_spec in Hv; apply rd_ok;
      assert (v < nv g) by (rewrite <- M3; eapply lookup_lt_Some; eauto);
      apply (Hb v); auto; apply (Bb v); auto].
    simpl.
    assert (HF : forall l, (forall v, v ∈ l -> v < nv g) -> ofold (fun (b : bool) v =>
      let! e := rd (c_ext (fm_conn s)) v in let! e' := rd (c_ext base) v in
      let! i := rd (c_int (fm_conn s)) v in let! i' := rd (c_int base) v in
      Ok (b && (e =? e')%Z && (i =? i')%Z)) true l = Ok true).
    { induction l as [|v l IH]; intros Hl; [done|]. simpl.
      assert (v < nv g) as Hv by (apply Hl; constructor).
      destruct (Hc v Hv) as [C1 C2], (Bc v Hv) as [D1 D2].
      rewrite (rd_ok _ _ _ C2), (rd_ok _ _ _ D2), (rd_ok _ _ _ C1), (rd_ok _ _ _ D1). simpl.
      rewrite !Z.eqb_refl. simpl. apply IH. intros u Hu. apply Hl. constructor; done. }
    rewrite HF; [done|]. intros v Hv. apply elem_of_seq in Hv. lia.
  Qed.
End Moves.

(** Labels after a sequence of moves: the parity of the number of moves of each vertex. *)
Lemma flips_parity n vs : forall wh v, labels_ok 2 n wh -> Forall (fun u => u < n) vs -> v < n ->
  labw (fold_left (fun wh u => flip u wh) vs wh) v =
    if Nat.even (count_occ Nat.eq_dec vs v) then labw wh v else other (labw wh v).
Proof.
  induction vs as [|u vs IH]; intros wh v Hl Hvs Hv; [done|].
  inversion_clear Hvs. cbn [fold_left count_occ]. rewrite IH by (auto; apply flip_labels_ok; auto).
  assert (u < length wh) by (destruct Hl; lia).
  unfold flip. rewrite labw_insert by done.
  destruct (Nat.eq_dec u v) as [->|Hne].
  - rewrite upd_same. destruct (labels_ok_lab _ _ _ v Hl Hv) as (x & Hx & ->).
    rewrite Nat.even_succ, <- Nat.negb_even. destruct (Nat.even _); simpl; [done|].
    destruct x as [|[|]]; [done|done|lia].
  - rewrite upd_other by done. done.
Qed.

(** ** C26: labels outside [0,k) are out of contract *)
Lemma part_of_labels_oob k g labels : wf_graph g -> length labels = nv g ->
  Exists (fun i => k <= i) labels -> part_of_labels k g labels = Fail (UB OutOfBounds).
Proof.
  intros Hwf Hl Hex. unfold part_of_labels.
  assert (wpo (sum_partition_weight g (Some <$> labels) (replicate k 0%Z)) (eq (UB OutOfBounds))
     (fun _ => False)) as H.
  { eapply wpo_post with (P := fun pw => length pw = k /\ forall v, v < nv g -> nth v labels 0 < k).
    - apply (for_vertices_wp g (fun i pw => length pw = k /\ forall v, v < i -> nth v labels 0 < k)).
      + split; [apply replicate_length|intros; lia].
      + intros v pw Hv [Hk Hlt]. rewrite (rd_ok (Some <$> labels) v (Some (nth v labels 0))).
        2:{ rewrite list_lookup_fmap, (lookup_nth _ _ 0) by lia. done. }
        simpl. rewrite vwt_ok by done. unfold add_pw. simpl.
        destruct (decide (nth v labels 0 < k)) as [Hc|Hc].
        * rewrite (rd_nth _ _ 0%Z) by lia. simpl. apply wpo_wr; [lia|]. split; [rewrite insert_length; done|].
          intros u Hu. destruct (decide (u = v)) as [->|]; [done|apply Hlt; lia].
        * unfold rd. rewrite lookup_ge_None_2 by lia. simpl. done.
    - intros pw [_ Hlt]. apply Exists_exists in Hex as (i & Hi & Hk).
      apply elem_of_list_lookup in Hi as [v Hv]. pose proof (lookup_lt_Some _ _ _ Hv).
      specialize (Hlt v ltac:(lia)). rewrite (nth_lt_eq _ _ _ _ Hv) in Hlt. lia. }
  destruct (sum_partition_weight _ _ _) as [pw|f]; simpl in *; [done|]. subst. done.
Qed.
