(** * Logic: weakest-precondition style rules for outcomes and choice computations. *)
From Verif Require Import Base.

Definition never : failure -> Prop := fun _ => False.
Definition anyf : failure -> Prop := fun _ => True.

Definition wpo {A} (m : outcome A) (E : failure -> Prop) (P : A -> Prop) : Prop :=
  match m with Ok a => P a | Fail f => E f end.
Definition wpm {A} (m : M A) (E : failure -> Prop) (P : A -> Prop) : Prop :=
  forall cs, wpo (m cs) E (fun r => P (fst r)).

Lemma wpo_mono {A} (m : outcome A) (E E' : failure -> Prop) (P Q : A -> Prop) :
  wpo m E P -> (forall f, E f -> E' f) -> (forall a, P a -> Q a) -> wpo m E' Q.
Proof. destruct m; simpl; eauto. Qed.
Lemma wpo_post {A} (m : outcome A) E (P Q : A -> Prop) :
  wpo m E P -> (forall a, P a -> Q a) -> wpo m E Q.
Proof. intros H HPQ. eapply wpo_mono; eauto. Qed.
Lemma wpo_bind {A B} (m : outcome A) (k : A -> outcome B) E P Q :
  wpo m E P -> (forall a, P a -> wpo (k a) E Q) -> wpo (obind m k) E Q.
Proof. destruct m; simpl; eauto. Qed.
Lemma wpo_ok {A} (a : A) E (P : A -> Prop) : P a -> wpo (Ok a) E P.
Proof. done. Qed.
Lemma wpo_never {A} (m : outcome A) P : wpo m never P <-> exists a, m = Ok a /\ P a.
Proof. destruct m; simpl; unfold never; naive_solver. Qed.
Lemma wpo_anyf {A} (m : outcome A) P : wpo m anyf P <-> forall a, m = Ok a -> P a.
Proof. destruct m; simpl; unfold anyf; naive_solver. Qed.
Lemma wpo_elim {A} (m : outcome A) E P a : wpo m E P -> m = Ok a -> P a.
Proof. intros H ->. exact H. Qed.
Lemma wpo_conj {A} (m : outcome A) (E1 E2 : failure -> Prop) (P Q : A -> Prop) :
  wpo m E1 P -> wpo m E2 Q -> wpo m E1 (fun a => P a /\ Q a).
Proof. destruct m; simpl; eauto. Qed.

Lemma wpm_post {A} (m : M A) E (P Q : A -> Prop) :
  wpm m E P -> (forall a, P a -> Q a) -> wpm m E Q.
Proof. intros H HPQ cs. eapply wpo_post; [apply H|]. intros [a c]; simpl; auto. Qed.
Lemma wpm_mono {A} (m : M A) (E E' : failure -> Prop) (P Q : A -> Prop) :
  wpm m E P -> (forall f, E f -> E' f) -> (forall a, P a -> Q a) -> wpm m E' Q.
Proof. intros H HE HPQ cs. eapply wpo_mono; [apply H|auto|]. intros [a c]; simpl; auto. Qed.
Lemma wpm_bind {A B} (m : M A) (k : A -> M B) E P Q :
  wpm m E P -> (forall a, P a -> wpm (k a) E Q) -> wpm (mbindM m k) E Q.
Proof.
  intros Hm Hk cs. unfold mbindM. eapply wpo_bind; [apply Hm|].
  intros [a c]; simpl; intros Ha. apply (Hk a Ha c).
Qed.
Lemma wpm_ret {A} (a : A) E (P : A -> Prop) : P a -> wpm (ret a) E P.
Proof. intros H cs. exact H. Qed.
Lemma wpm_lift {A} (m : outcome A) E P : wpo m E P -> wpm (lift m) E P.
Proof. intros H cs. unfold lift. destruct m; simpl in *; auto. Qed.
Lemma wpm_liftk {A B} (a : A) (k : A -> M B) E Q : wpm (k a) E Q -> wpm (mbindM (lift (Ok a)) k) E Q.
Proof. intros H cs. exact (H cs). Qed.
Lemma wpm_fail {A} f (E : failure -> Prop) (P : A -> Prop) : E f -> wpm (mfail f) E P.
Proof. intros H cs. exact H. Qed.
Lemma wpm_elim {A} (m : M A) E P cs a cs' : wpm m E P -> m cs = Ok (a, cs') -> P a.
Proof. intros H Hm. specialize (H cs). rewrite Hm in H. exact H. Qed.
Lemma wpm_never {A} (m : M A) P cs : wpm m never P -> exists a cs', m cs = Ok (a, cs') /\ P a.
Proof. intros H. specialize (H cs). destruct (m cs) as [[a c]|f]; simpl in H; [eauto|done]. Qed.
Lemma wpm_conj {A} (m : M A) (E1 E2 : failure -> Prop) (P Q : A -> Prop) :
  wpm m E1 P -> wpm m E2 Q -> wpm m E1 (fun a => P a /\ Q a).
Proof. intros H1 H2 cs. specialize (H1 cs). specialize (H2 cs). destruct (m cs); simpl in *; eauto. Qed.

(** Loops *)
Lemma ofold_app {A S} (f : S -> A -> outcome S) s l1 l2 :
  ofold f s (l1 ++ l2) = obind (ofold f s l1) (fun s' => ofold f s' l2).
Proof. revert s; induction l1 as [|a l1 IH]; intros s; simpl; [done|]. destruct (f s a); simpl; auto. Qed.
Lemma mfold_nil {A S} (f : S -> A -> M S) s : mfold f s [] = ret s.
Proof. done. Qed.

Lemma ofold_wp {A S} (I : list A -> S -> Prop) E (f : S -> A -> outcome S) s l :
  I [] s ->
  (forall pre a post s, l = pre ++ a :: post -> I pre s -> wpo (f s a) E (I (pre ++ [a]))) ->
  wpo (ofold f s l) E (I l).
Proof.
  intros H0 Hstep.
  enough (G : forall post pre s, l = pre ++ post -> I pre s -> wpo (ofold f s post) E (I l))
    by (apply (G l [] s); auto).
  induction post as [|a post IH]; intros pre s' Hl Hpre; simpl.
  - rewrite app_nil_r in Hl. subst. exact Hpre.
  - eapply wpo_bind; [eapply Hstep; eauto|]. intros s'' Hs''.
    apply (IH (pre ++ [a])); [|done]. rewrite <- app_assoc. exact Hl.
Qed.
Lemma mfold_wp {A S} (I : list A -> S -> Prop) E (f : S -> A -> M S) s l :
  I [] s ->
  (forall pre a post s, l = pre ++ a :: post -> I pre s -> wpm (f s a) E (I (pre ++ [a]))) ->
  wpm (mfold f s l) E (I l).
Proof.
  intros H0 Hstep.
  enough (G : forall post pre s, l = pre ++ post -> I pre s -> wpm (mfold f s post) E (I l))
    by (apply (G l [] s); auto).
  induction post as [|a post IH]; intros pre s' Hl Hpre; simpl.
  - rewrite app_nil_r in Hl. subst. apply wpm_ret. exact Hpre.
  - eapply wpm_bind; [eapply Hstep; eauto|]. intros s'' Hs''.
    apply (IH (pre ++ [a])); [|done]. rewrite <- app_assoc. exact Hl.
Qed.
Lemma ofold_inv {A S} (I : S -> Prop) E (f : S -> A -> outcome S) s l :
  I s -> (forall a s, a ∈ l -> I s -> wpo (f s a) E I) -> wpo (ofold f s l) E I.
Proof.
  intros H0 Hstep. apply (ofold_wp (fun _ => I)); [done|].
  intros pre a post s' -> Hs. apply Hstep; [set_solver|done].
Qed.
Lemma mfold_inv {A S} (I : S -> Prop) E (f : S -> A -> M S) s l :
  I s -> (forall a s, a ∈ l -> I s -> wpm (f s a) E I) -> wpm (mfold f s l) E I.
Proof.
  intros H0 Hstep. apply (mfold_wp (fun _ => I)); [done|].
  intros pre a post s' -> Hs. apply Hstep; [set_solver|done].
Qed.
Lemma seq_split_at a n pre i post :
  seq a n = pre ++ i :: post -> pre = seq a (i - a) /\ a <= i < a + n /\ post = seq (S i) (a + n - S i).
Proof.
  revert a pre. induction n as [|n IH]; intros a pre H; simpl in H.
  - destruct pre; done.
  - destruct pre as [|x pre]; simpl in H; injection H as -> H.
    + rewrite Nat.sub_diag. simpl. split_and!; [done|lia|lia|]. subst. f_equal. lia.
    + apply IH in H as (-> & ? & ->). split_and!; [|lia|lia|].
      * replace (i - x) with (S (i - S x)) by lia. done.
      * f_equal. lia.
Qed.
Lemma ofold_seq_wp {S} (I : nat -> S -> Prop) E (f : S -> nat -> outcome S) s n :
  I 0 s -> (forall i s, i < n -> I i s -> wpo (f s i) E (I (Datatypes.S i))) ->
  wpo (ofold f s (seq 0 n)) E (I n).
Proof.
  intros H0 Hstep.
  cut (wpo (ofold f s (seq 0 n)) E (fun s => I (length (seq 0 n)) s)); [by rewrite seq_length|].
  apply (ofold_wp (fun l => I (length l))); [done|].
  intros pre a post s' Heq Hs. apply seq_split_at in Heq as (-> & Ha & _).
  rewrite seq_length, Nat.sub_0_r in Hs. rewrite app_length, seq_length, Nat.sub_0_r, Nat.add_1_r.
  apply Hstep; [lia|done].
Qed.
Lemma mfold_seq_wp {S} (I : nat -> S -> Prop) E (f : S -> nat -> M S) s n :
  I 0 s -> (forall i s, i < n -> I i s -> wpm (f s i) E (I (Datatypes.S i))) ->
  wpm (mfold f s (seq 0 n)) E (I n).
Proof.
  intros H0 Hstep.
  cut (wpm (mfold f s (seq 0 n)) E (fun s => I (length (seq 0 n)) s)); [by rewrite seq_length|].
  apply (mfold_wp (fun l => I (length l))); [done|].
  intros pre a post s' Heq Hs. apply seq_split_at in Heq as (-> & Ha & _).
  rewrite seq_length, Nat.sub_0_r in Hs. rewrite app_length, seq_length, Nat.sub_0_r, Nat.add_1_r.
  apply Hstep; [lia|done].
Qed.
(** A loop whose body always succeeds is a fold. *)
Lemma ofold_pure {A S} (f : S -> A -> outcome S) (h : S -> A -> S) l :
  (forall s a, a ∈ l -> f s a = Ok (h s a)) -> forall s, ofold f s l = Ok (fold_left h l s).
Proof.
  induction l as [|a l IH]; intros Hf s; simpl; [done|].
  rewrite Hf by set_solver. simpl. apply IH. intros; apply Hf; set_solver.
Qed.
Lemma ofold_ext {A S} (f f' : S -> A -> outcome S) l :
  (forall s a, a ∈ l -> f s a = f' s a) -> forall s, ofold f s l = ofold f' s l.
Proof.
  induction l as [|a l IH]; intros Hf s; simpl; [done|].
  rewrite Hf by set_solver. destruct (f' s a); simpl; [|done]. apply IH. intros; apply Hf; set_solver.
Qed.
Lemma ofold_map {A B S} (f : S -> B -> outcome S) (h : A -> B) l :
  forall s, ofold f s (h <$> l) = ofold (fun s a => f s (h a)) s l.
Proof. induction l as [|a l IH]; intros s; simpl; [done|]. destruct (f s (h a)); simpl; auto. Qed.

(** Arrays *)
Lemma rd_ok {A} (l : list A) i a : l !! i = Some a -> rd l i = Ok a.
Proof. unfold rd. by intros ->. Qed.
Lemma rd_inv {A} (l : list A) i a : rd l i = Ok a -> l !! i = Some a.
Proof. unfold rd. destruct (l !! i); naive_solver. Qed.
Lemma rd_nth {A} (l : list A) i d : i < length l -> rd l i = Ok (nth i l d).
Proof. intros H. apply rd_ok. apply nth_lookup_Some with (d := d) in H || (rewrite nth_lookup; apply lookup_lt_is_Some in H as [x ->]; done). Qed.
Lemma wpo_rd {A} (l : list A) i E (P : A -> Prop) :
  (exists a, l !! i = Some a /\ P a) -> wpo (rd l i) E P.
Proof. intros (a & H & HP). by rewrite (rd_ok _ _ _ H). Qed.
Lemma wr_ok {A} (l : list A) i a : i < length l -> wr l i a = Ok (<[i:=a]> l).
Proof. intros H. unfold wr. by rewrite decide_True. Qed.
Lemma wr_inv {A} (l l' : list A) i a : wr l i a = Ok l' -> i < length l /\ l' = <[i:=a]> l.
Proof. unfold wr. case_decide; naive_solver. Qed.
Lemma wpo_wr {A} (l : list A) i a E (P : list A -> Prop) :
  i < length l -> P (<[i:=a]> l) -> wpo (wr l i a) E P.
Proof. intros H HP. by rewrite wr_ok. Qed.
Lemma rdi_ok {A} (l : list (option A)) i a : l !! i = Some (Some a) -> rdi l i = Ok a.
Proof. unfold rdi. by intros ->. Qed.
Lemma wri_ok {A} (l : list (option A)) i a : i < length l -> wri l i a = Ok (<[i:=Some a]> l).
Proof. apply wr_ok. Qed.
Lemma frozen_some {A} (l : list A) : frozen (Some <$> l) = Ok l.
Proof. induction l as [|a l IH]; simpl; [done|]. unfold fmap in IH. rewrite IH. done. Qed.
Lemma frozen_inv {A} (l : list (option A)) l' : frozen l = Ok l' -> l = Some <$> l'.
Proof.
  revert l'. induction l as [|[a|] l IH]; intros l' H; simpl in H; [naive_solver| |done].
  destruct (frozen l) as [r|f]; simpl in H; [|done]. injection H as <-. simpl. f_equal. by apply IH.
Qed.
Lemma frozen_ok {A} (l : list (option A)) (h : nat -> A) :
  (forall i, i < length l -> l !! i = Some (Some (h i))) -> frozen l = Ok (h <$> seq 0 (length l)).
Proof.
  intros H. rewrite <- frozen_some. f_equal. apply list_eq. intros i.
  destruct (decide (i < length l)) as [Hi|Hi].
  - rewrite H by done. rewrite !list_lookup_fmap, lookup_seq_lt by done. done.
  - rewrite lookup_ge_None_2 by lia. symmetry. apply lookup_ge_None_2. rewrite !fmap_length, seq_length. lia.
Qed.

(** Choices *)
Lemma wpm_choose_below n (E : failure -> Prop) (P : nat -> Prop) :
  (n = 0 -> E (UB EmptyRange)) -> (forall i, i < n -> P i) -> wpm (choose_below n) E P.
Proof.
  intros HE HP. unfold choose_below. eapply wpm_bind with (P := fun _ => True).
  - intros [|c cs]; exact I.
  - intros c _. destruct (Nat.eqb_spec n 0) as [->|Hn]; [by apply wpm_fail, HE|].
    apply wpm_ret, HP. apply Nat.mod_upper_bound. done.
Qed.
Lemma wpm_choose_from {A} (l : list A) E (P : A -> Prop) :
  l <> [] -> (forall a, a ∈ l -> P a) -> wpm (choose_from l) E P.
Proof.
  intros Hl HP. unfold choose_from.
  eapply wpm_bind with (P := fun i => i < length l).
  - apply wpm_choose_below; [|done]. destruct l; done.
  - intros i Hi. apply lookup_lt_is_Some in Hi as [a Ha]. rewrite Ha. apply wpm_ret, HP.
    by apply elem_of_list_lookup_2 in Ha.
Qed.
Lemma remove_nth_perm {A} (l : list A) i x : l !! i = Some x -> x :: remove_nth i l ≡ₚ l.
Proof.
  revert i. induction l as [|y l IH]; intros [|i] H; simpl in *; try done; [by simplify_eq|].
  rewrite Permutation_swap. constructor. by apply IH.
Qed.
Lemma wpm_choose_perm {A} (l : list A) E : wpm (choose_perm l) E (fun p => p ≡ₚ l).
Proof.
  unfold choose_perm. remember (length l) as n eqn:Hn. revert l Hn.
  induction n as [|n IH]; intros l Hn; simpl.
  - apply wpm_ret. destruct l; done.
  - eapply wpm_bind with (P := fun i => i < length l); [apply wpm_choose_below; [lia|done]|].
    intros i Hi. apply lookup_lt_is_Some in Hi as [x Hx]. rewrite Hx.
    pose proof (remove_nth_perm l i x Hx) as Hp.
    eapply wpm_bind; [apply IH|].
    + apply Permutation_length in Hp. simpl in Hp. lia.
    + intros r Hr. apply wpm_ret. rewrite Hr. exact Hp.
Qed.

(** u32 *)
Lemma u32_small z : (0 <= z < W32)%Z -> u32 z = z.
Proof. intros H. unfold u32. by apply Z.mod_small. Qed.
Lemma u32_range z : (0 <= u32 z < W32)%Z.
Proof. unfold u32. apply Z.mod_pos_bound. unfold W32; lia. Qed.
Lemma u32_add_l a b : u32 (u32 a + b) = u32 (a + b).
Proof. unfold u32. apply Zplus_mod_idemp_l. Qed.
Lemma u32_add_r a b : u32 (a + u32 b) = u32 (a + b).
Proof. unfold u32. apply Zplus_mod_idemp_r. Qed.
Lemma u32_sub_l a b : u32 (u32 a - b) = u32 (a - b).
Proof. unfold u32. apply Zminus_mod_idemp_l. Qed.
Lemma u32_sub_r a b : u32 (a - u32 b) = u32 (a - b).
Proof. unfold u32. apply Zminus_mod_idemp_r. Qed.
Lemma u32_0 : u32 0 = 0%Z. Proof. done. Qed.
Lemma u32_idemp z : u32 (u32 z) = u32 z.
Proof. rewrite u32_small; [done|apply u32_range]. Qed.
