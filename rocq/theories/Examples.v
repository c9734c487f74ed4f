(** * Examples: concrete graphs used to show that the hypotheses of the theorems are met. *)
From Verif Require Import Base F64 ModelGraph ModelPartition ModelConn Spec Logic Sums GraphFacts PartFacts.

(** Decision procedures for small graphs. *)
Definition csrb (n : nat) (prefix adj : list nat) (vw ew : option (list Z)) : bool :=
  Nat.eqb (length prefix) (S n) && Nat.eqb (nth 0 prefix 0) 0 &&
  forallb (fun v => Nat.leb (nth v prefix 0) (nth (S v) prefix 0)) (seq 0 n) &&
  Nat.eqb (nth n prefix 0) (length adj) && forallb (fun d => Nat.ltb d n) adj &&
  match vw with None => true | Some l => Nat.eqb (length l) n && forallb (fun w => (0 <=? w) && (w <? W32))%Z l end &&
  match ew with None => true | Some l => Nat.eqb (length l) (length adj) && forallb (fun w => (0 <=? w) && (w <? W32))%Z l end.
Lemma forallb_Forall_range l : forallb (fun w => (0 <=? w) && (w <? W32))%Z l = true -> Forall (fun w => (0 <= w < W32)%Z) l.
Proof. intros H. apply Forall_forall. intros w Hw. rewrite forallb_forall in H. apply elem_of_list_In in Hw. specialize (H w Hw). lia. Qed.
Lemma csrb_sound n prefix adj vw ew : csrb n prefix adj vw ew = true -> valid_csr n prefix adj vw ew.
Proof.
  unfold csrb. intros H. repeat (apply andb_true_iff in H as [H ?]).
  split; try (apply Nat.eqb_eq; assumption).
  - intros v Hv. rewrite forallb_forall in H4. apply Nat.leb_le. apply H4. apply in_seq. lia.
  - apply Forall_forall. intros d Hd. rewrite forallb_forall in H2. apply Nat.ltb_lt, H2. apply elem_of_list_In. exact Hd.
  - intros l ->. apply andb_true_iff in H1 as [A B]. split; [apply Nat.eqb_eq; exact A|apply forallb_Forall_range; exact B].
  - intros l ->. apply andb_true_iff in H0 as [A B]. split; [apply Nat.eqb_eq; exact A|apply forallb_Forall_range; exact B].
Qed.
Definition symb (g : graph) : bool :=
  forallb (fun u => forallb (fun v => (W g u v =? W g v u)%Z) (seq 0 (nv g))) (seq 0 (nv g)).
Lemma symb_sound g : symb g = true -> symmetric g.
Proof.
  intros H u v Hu Hv. unfold symb in H. rewrite forallb_forall in H. specialize (H u).
  rewrite forallb_forall in H. apply Z.eqb_eq. apply H; apply in_seq; lia.
Qed.
Definition looplessb (g : graph) : bool :=
  forallb (fun u => forallb (fun a => negb (Nat.eqb (fst a) u)) (out g u)) (seq 0 (nv g)).
Lemma looplessb_sound g : looplessb g = true -> loopless g.
Proof.
  intros H u v w Hu Hv. unfold looplessb in H. rewrite forallb_forall in H. specialize (H u).
  rewrite forallb_forall in H. specialize (H ltac:(apply in_seq; lia) (v, w) ltac:(apply elem_of_list_In; exact Hv)).
  simpl in H. destruct (Nat.eqb_spec v u); simpl in H; [discriminate|assumption].
Qed.

(** The graph of a valid CSR input (total on valid inputs by [graph_of_csr_ok]). *)
Definition the_graph (prefix adj : list nat) (vw ew : option (list Z)) : graph :=
  match graph_of_csr prefix adj vw ew with Ok g => g | Fail _ => mkGraph [] [] [] [] 0 0 true true end.
Lemma the_graph_wf n prefix adj vw ew : csrb n prefix adj vw ew = true -> wf_graph (the_graph prefix adj vw ew).
Proof.
  intros H. apply csrb_sound in H. destruct (graph_of_csr_ok _ _ _ _ _ H) as (g & E & Hwf & _).
  unfold the_graph. rewrite E. exact Hwf.
Qed.
Lemma fits_compute g b : (total_edge_weight g <? W32)%Z = b -> b = true -> fits g.
Proof. intros <- H. apply Z.ltb_lt. exact H. Qed.

(** A 4-cycle 0-1-2-3 with edge weights 5 (01), 1 (12), 5 (23), 2 (30) and vertex weights. *)
Definition ex_prefix : list nat := [0; 2; 4; 6; 8].
Definition ex_adj : list nat := [1; 3; 0; 2; 1; 3; 2; 0].
Definition ex_vw : list Z := [2; 1; 3; 2]%Z.
Definition ex_ew : list Z := [5; 2; 5; 1; 1; 5; 5; 2]%Z.
Definition ex : graph := the_graph ex_prefix ex_adj (Some ex_vw) (Some ex_ew).
Lemma ex_valid : valid_csr 4 ex_prefix ex_adj (Some ex_vw) (Some ex_ew).
Proof. apply csrb_sound. reflexivity. Qed.
Lemma ex_wf : wf_graph ex. Proof. apply (the_graph_wf 4). reflexivity. Qed.
Lemma ex_sym : symmetric ex. Proof. apply symb_sound. reflexivity. Qed.
Lemma ex_loopless : loopless ex. Proof. apply looplessb_sound. reflexivity. Qed.
Lemma ex_fits : fits ex. Proof. eapply fits_compute; reflexivity. Qed.
Lemma ex_nv : nv ex = 4. Proof. reflexivity. Qed.

(** The bisection {0,3} | {1,2} of the cycle: weights 4 and 4, cut 10. *)
Definition ex_part : part := mkPart 10 [4; 4]%Z [Some 0; Some 1; Some 1; Some 0].
Lemma labels_ok_compute k n wh :
  Nat.eqb (length wh) n && forallb (fun x => match x with Some i => Nat.ltb i k | None => false end) wh = true -> labels_ok k n wh.
Proof.
  intros H. apply andb_true_iff in H as [A B]. apply Nat.eqb_eq in A. split; [exact A|].
  intros v Hv. rewrite <- A in Hv. apply lookup_lt_is_Some in Hv as [x Hx]. rewrite forallb_forall in B.
  specialize (B x ltac:(apply elem_of_list_In; eapply elem_of_list_lookup_2; exact Hx)).
  destruct x as [i|]; [|discriminate]. exists i. split; [apply Nat.ltb_lt; exact B|exact Hx].
Qed.
Definition exactb (k : nat) (g : graph) (p : part) : bool :=
  (Nat.eqb (length (p_where p)) (nv g) && forallb (fun x => match x with Some i => Nat.ltb i k | None => false end) (p_where p)) &&
  Nat.eqb (length (p_pw p)) k &&
  forallb (fun i => (nth i (p_pw p) 0 =? u32 (label_weight g (lab p) (Some i)))%Z) (seq 0 k) &&
  (p_cut p =? edge_cut g (lab p))%Z.
Lemma exactb_sound k g p : exactb k g p = true -> exact_part k g p.
Proof.
  unfold exactb. intros H. apply andb_true_iff in H as [H Hc]. apply andb_true_iff in H as [H Hw].
  apply andb_true_iff in H as [H Hk]. apply Nat.eqb_eq in Hk. apply Z.eqb_eq in Hc.
  split; [|exact Hc]. split; [apply labels_ok_compute; exact H|]. split; [exact Hk|].
  intros i Hi. rewrite (lookup_nth _ _ 0%Z) by lia. f_equal. rewrite forallb_forall in Hw. apply Z.eqb_eq.
  apply Hw. apply in_seq. lia.
Qed.
Lemma ex_part_exact : exact_part 2 ex ex_part. Proof. apply exactb_sound. reflexivity. Qed.
