(** * PropsRandom: the random engine and its handles (C65); the k-way multilevel partitioner (C10). *)
From Verif Require Import Base F64 ModelGraph ModelPartition ModelRandom Spec Logic.
From Coq Require Import NArith.
#[local] Arguments seq : simpl nomatch.

(** ** The numbers *)
(** The number drawn from an engine made with the given seed after n draws. *)
Definition nth_number (seed : N) (n : nat) : N := fst (mt_next (Nat.iter n (fun st => snd (mt_next st)) (mt_seed seed))).

Definition word (x : N) : Prop := (x < 2 ^ 32)%N.
Lemma word_bits x : word x <-> forall i, (32 <= i)%N -> N.testbit x i = false.
Proof.
  unfold word. split.
  - intros Hx i Hi. destruct (decide (x = 0%N)) as [->|Hn]; [apply N.bits_0|]. apply N.bits_above_log2. apply N.log2_lt_pow2; [lia|]. eapply N.lt_le_trans; [exact Hx|].
    apply N.pow_le_mono_r; lia.
  - intros H. destruct (decide (x = 0%N)) as [->|Hn]; [done|]. apply N.log2_lt_pow2; [lia|]. destruct (decide (N.log2 x < 32)%N) as [|Hg]; [done|].
    specialize (H (N.log2 x) ltac:(lia)). rewrite N.bit_log2 in H by done. done.
Qed.
Lemma word_lxor x y : word x -> word y -> word (N.lxor x y).
Proof. rewrite !word_bits. intros Hx Hy i Hi. rewrite N.lxor_spec, Hx, Hy; done. Qed.
Lemma word_lor x y : word x -> word y -> word (N.lor x y).
Proof. rewrite !word_bits. intros Hx Hy i Hi. rewrite N.lor_spec, Hx, Hy; done. Qed.
Lemma word_land x y : word x -> word (N.land x y).
Proof. rewrite !word_bits. intros Hx i Hi. rewrite N.land_spec, Hx; done. Qed.
Lemma word_shiftr x k : word x -> word (N.shiftr x k).
Proof. rewrite !word_bits. intros Hx i Hi. rewrite N.shiftr_spec by lia. apply Hx. lia. Qed.
Lemma word_w32 x : word (w32 x).
Proof. unfold w32. rewrite N.land_comm. apply word_land. done. Qed.
Lemma w32_mod x : w32 x = (x mod 2 ^ 32)%N.
Proof. unfold w32. change 4294967295%N with (N.ones 32). apply N.land_ones. Qed.
Lemma init_words fuel : forall i x, word x -> Forall word (mt_init fuel i x) /\ length (mt_init fuel i x) = fuel.
Proof.
  induction fuel as [|fuel IH]; intros i x Hx; [by split; constructor|]. cbn [mt_init]. destruct (IH (i + 1)%N _ (word_w32 (1812433253 * N.lxor x (N.shiftr x 30) + (i + 1)))) as [A B].
  split; [by constructor|]. cbn [length]. by rewrite B.
Qed.
Lemma nth_word st i : Forall word st -> word (nth i st 0%N).
Proof. intros H. destruct (nth_in_or_default i st 0%N) as [Hin| ->]; [|done]. rewrite Forall_forall in H. apply H. by apply elem_of_list_In. Qed.
Lemma twist_word st : Forall word st -> word (mt_twist st).
Proof.
  intros H. unfold mt_twist. apply word_lxor; [apply word_lxor; [by apply nth_word|]|by destruct (N.testbit _ 0)].
  apply word_shiftr, word_lor; apply word_land; by apply nth_word.
Qed.
Lemma temper_word x : word x -> word (mt_temper x).
Proof.
  intros H. unfold mt_temper. cbv zeta. repeat first [done | apply word_w32 | apply word_lxor | apply word_shiftr | apply word_land].
Qed.
Lemma next_words st : Forall word st -> length st = mt_n -> word (fst (mt_next st)) /\ Forall word (snd (mt_next st)) /\ length (snd (mt_next st)) = mt_n.
Proof.
  intros H HL. unfold mt_next. cbv zeta. cbn [fst snd]. pose proof (twist_word st H) as HT. split; [by apply temper_word|]. destruct st as [|a st]; [done|]. cbn [tl].
  inversion H; subst. split; [apply Forall_app; split; [done|by repeat constructor]|]. rewrite app_length. cbn [length] in *. lia.
Qed.
Lemma iter_words seed n : Forall word (Nat.iter n (fun st => snd (mt_next st)) (mt_seed seed)) /\ length (Nat.iter n (fun st => snd (mt_next st)) (mt_seed seed)) = mt_n.
Proof.
  induction n as [|n [A B]]; [apply init_words, word_w32|]. cbn [Nat.iter nat_rect]. destruct (next_words _ A B) as (_ & C & D). split; [exact C|exact D].
Qed.

(** C65a: Every number drawn, whatever the seed and however many were drawn before, lies between
    min() and max(). *)
Theorem C65_range : forall seed n, (engine_min <= nth_number seed n <= engine_max)%N.
Proof.
  intros seed n. destruct (iter_words seed n) as [A B]. destruct (next_words _ A B) as (HW & _). unfold word in HW. change (2 ^ 32)%N with (4294967295 + 1)%N in HW.
  unfold nth_number, engine_min, engine_max. lia.
Qed.
Print Assumptions C65_range.

(** ** Histories of calls through handles.  The handles of a history are numbered in the order they
    came into being, by making an engine or by copying a handle. *)
Inductive rcall := RMake (seed : N) | RCopy (x : nat) | RSeed (x : nat) (seed : N) | RCall (x : nat) (f : request N).
(** The engines, the handles, and for each call what it returned. *)
Definition rstate : Type := engines * list handle * list (option N).
Definition run_rcall (st : rstate) (c : rcall) : outcome rstate :=
  let '(es, hs, out) := st in
  match c with
  | RMake seed => Ok (snd (engine_make seed es), hs ++ [fst (engine_make seed es)], out ++ [None])
  | RCopy x => let! h := rd hs x in Ok (es, hs ++ [handle_copy h], out ++ [None])
  | RSeed x seed => let! h := rd hs x in let! es' := engine_set_seed h seed es in Ok (es', hs, out ++ [None])
  | RCall x f => let! h := rd hs x in let! r := engine_call h f es in Ok (snd r, hs, out ++ [Some (fst r)])
  end.
Definition run_rcalls (cs : list rcall) : outcome rstate := ofold run_rcall ([], [], []) cs.
(** From the end of the history.  How many handles there are; *)
Fixpoint made (rcs : list rcall) : nat := match rcs with [] => 0 | (RMake _ | RCopy _) :: r => S (made r) | _ :: r => made r end.
(** the handle that handle x is a copy (of a copy, ...) of, with which its engine was made; *)
Fixpoint origin (rcs : list rcall) (x : nat) : nat :=
  match rcs with
  | [] => x
  | RCopy y :: r => if decide (made r = x) then origin r y else origin r x
  | _ :: r => origin r x
  end.
(** and for the engine made with handle e: the seed it was last given, and the requests since then,
    oldest first, through whatever handle. *)
Fixpoint since (rcs : list rcall) (e : nat) : option (N * list (request N)) :=
  match rcs with
  | [] => None
  | RMake seed :: r => if decide (made r = e) then Some (seed, []) else since r e
  | RCopy _ :: r => since r e
  | RSeed x seed :: r => if decide (origin r x = e) then Some (seed, []) else since r e
  | RCall x f :: r => if decide (origin r x = e) then (fun a => (fst a, snd a ++ [f])) <$> since r e else since r e
  end.
(** The state of an engine of its own with that seed, after those requests. *)
Definition alone (seed : N) (fs : list (request N)) : list N := fold_left (fun st f => snd (f st)) fs (mt_seed seed).
(** Only handles that exist are used. *)
Fixpoint rlegal (rcs : list rcall) : Prop :=
  match rcs with
  | [] => True
  | RMake _ :: r => rlegal r
  | (RCopy x | RSeed x _ | RCall x _) :: r => x < made r /\ rlegal r
  end.
Record rinv (rcs : list rcall) (st : rstate) : Prop := {
  ri_len : length (snd (fst st)) = made rcs;
  ri_out : length (snd st) = length rcs;
  ri_origin : forall x, x < made rcs -> origin rcs x < made rcs;
  ri_eng : forall x h, snd (fst st) !! x = Some h -> exists seed fs, since rcs (origin rcs x) = Some (seed, fs) /\ fst (fst st) !! h = Some (alone seed fs);
  ri_same : forall x y h h', snd (fst st) !! x = Some h -> snd (fst st) !! y = Some h' -> (h = h' <-> origin rcs x = origin rcs y)
}.
Lemma alone_snoc seed fs f : alone seed (fs ++ [f]) = snd (f (alone seed fs)).
Proof. unfold alone. by rewrite fold_left_app. Qed.
Lemma seeds_mod seed seed' : (seed mod 2 ^ 32 = seed' mod 2 ^ 32)%N -> mt_seed seed = mt_seed seed'.
Proof. intros E. assert (Ew : w32 seed = w32 seed') by (rewrite !w32_mod; exact E). exact (f_equal (mt_init mt_n 0) Ew). Qed.
#[local] Opaque mt_seed.
Lemma origin_new rcs x : made rcs <= x -> origin rcs x = x.
Proof.
  revert x. induction rcs as [|[seed|y|y seed|y f] r IH]; intros x H; cbn [origin made] in *; [done|apply IH; lia| |by apply IH|by apply IH].
  rewrite decide_False by lia. apply IH. lia.
Qed.
(** One call keeps the invariant and answers as the engine on its own would. *)
Lemma rstep r st c : rinv r st -> rlegal (c :: r) -> exists st' y, run_rcall st c = Ok st' /\ snd st' = snd st ++ [y] /\ rinv (c :: r) st' /\
  forall x f, c = RCall x f -> exists seed fs, since r (origin r x) = Some (seed, fs) /\ y = Some (fst (f (alone seed fs))).
Proof.
  destruct st as [[es hs] out]. intros [H1 H2 H3 H4 H5] HL. cbn [fst snd] in *.
  assert (Hlt : forall x h, hs !! x = Some h -> x < made r) by (intros x h Hx; apply lookup_lt_Some in Hx; lia).
  destruct c as [seed|y|y seed|y f]; cbn [run_rcall rlegal] in *.
  - eexists _, _. split; [reflexivity|]. cbn [fst snd engine_make]. split; [done|]. split; [|done].
    split; cbn [fst snd made origin since]; rewrite ?app_length; cbn [length].
    + lia.
    + lia.
    + intros x Hx. destruct (decide (x = made r)) as [->|Hne]; [rewrite origin_new; lia|]. specialize (H3 x ltac:(lia)). lia.
    + intros x h Hx. destruct (decide (x = made r)) as [->|Hne].
      * rewrite origin_new by lia. rewrite decide_True by done. rewrite lookup_app_r in Hx by lia. rewrite H1, Nat.sub_diag in Hx. injection Hx as <-.
        exists seed, []. split; [done|]. by rewrite list_lookup_middle.
      * rewrite lookup_app_l in Hx by (apply lookup_lt_Some in Hx; rewrite app_length in Hx; cbn in Hx; lia).
        pose proof (H3 x (Hlt _ _ Hx)). rewrite decide_False by lia. destruct (H4 x h Hx) as (sd & fs & A & B). exists sd, fs. split; [done|].
        rewrite lookup_app_l by (by eapply lookup_lt_Some). done.
    + assert (Hc : forall x h, (hs ++ [length es]) !! x = Some h -> (x < made r /\ hs !! x = Some h /\ h < length es /\ origin r x < made r) \/ (x = made r /\ h = length es /\ origin r x = made r)).
      { intros x h Hx. destruct (decide (x < made r)) as [Hxl|Hxl].
        - left. rewrite lookup_app_l in Hx by lia. destruct (H4 x h Hx) as (? & ? & _ & B). apply lookup_lt_Some in B. auto.
        - right. pose proof (lookup_lt_Some _ _ _ Hx) as Hb. rewrite app_length in Hb. cbn in Hb. assert (x = made r) as -> by lia.
          rewrite lookup_app_r in Hx by lia. rewrite H1, Nat.sub_diag in Hx. injection Hx as <-. rewrite origin_new by lia. auto. }
      intros x z h h' Hx Hz. destruct (Hc _ _ Hx) as [(A & B & C & D)|(A & B & C)], (Hc _ _ Hz) as [(A' & B' & C' & D')|(A' & B' & C')]; [by apply H5|lia|lia|subst; lia].
  - destruct HL as [Hy HL]. destruct (lookup_lt_is_Some_2 hs y ltac:(lia)) as [hy Ey]. rewrite (rd_ok _ _ _ Ey). cbn [obind]. unfold handle_copy.
    eexists _, _. split; [reflexivity|]. cbn [fst snd]. split; [done|]. split; [|done].
    assert (Hc : forall x h, (hs ++ [hy]) !! x = Some h -> exists x', hs !! x' = Some h /\ origin (RCopy y :: r) x = origin r x').
    { intros x h Hx. cbn [origin]. destruct (decide (made r = x)) as [<-|Hne].
      - rewrite lookup_app_r in Hx by lia. rewrite H1, Nat.sub_diag in Hx. injection Hx as <-. by exists y.
      - exists x. split; [|done]. rewrite lookup_app_l in Hx; [done|]. apply lookup_lt_Some in Hx. rewrite app_length in Hx. cbn in Hx. lia. }
    split; cbn [fst snd]; rewrite ?app_length; cbn [length made].
    + lia.
    + lia.
    + intros x Hx. cbn [origin]. destruct (decide (made r = x)) as [<-|Hne]; [specialize (H3 y Hy); lia|specialize (H3 x ltac:(lia)); lia].
    + intros x h Hx. destruct (Hc x h Hx) as (x' & Hx' & ->). cbn [since]. by apply H4.
    + intros x z h h' Hx Hz. destruct (Hc x h Hx) as (x' & Hx' & ->). destruct (Hc z h' Hz) as (z' & Hz' & ->). by apply H5.
  - destruct HL as [Hy HL]. destruct (lookup_lt_is_Some_2 hs y ltac:(lia)) as [hy Ey]. rewrite (rd_ok _ _ _ Ey). cbn [obind]. unfold engine_set_seed.
    destruct (H4 y hy Ey) as (sd0 & fs0 & A0 & B0). rewrite wr_ok by (by eapply lookup_lt_Some). cbn [obind].
    eexists _, _. split; [reflexivity|]. cbn [fst snd]. split; [done|]. split; [|done].
    split; cbn [fst snd made origin since]; rewrite ?app_length; cbn [length]; [done|lia|done| |done].
    intros x h Hx. destruct (decide (origin r y = origin r x)) as [Ho|Ho].
    + exists seed, []. split; [done|]. assert (hy = h) as <- by (by apply (H5 y x hy h Ey Hx)). apply list_lookup_insert. by eapply lookup_lt_Some.
    + destruct (H4 x h Hx) as (sd & fs & A & B). exists sd, fs. split; [done|]. rewrite list_lookup_insert_ne; [done|]. intros ->. by apply Ho, (H5 y x h h Ey Hx).
  - destruct HL as [Hy HL]. destruct (lookup_lt_is_Some_2 hs y ltac:(lia)) as [hy Ey]. rewrite (rd_ok _ _ _ Ey). cbn [obind]. unfold engine_call.
    destruct (H4 y hy Ey) as (sd0 & fs0 & A0 & B0). rewrite (rd_ok _ _ _ B0). cbn [obind]. cbv zeta. rewrite wr_ok by (by eapply lookup_lt_Some). cbn [obind fst snd].
    eexists _, _. split; [reflexivity|]. cbn [fst snd]. split; [done|]. split.
    + split; cbn [fst snd made origin since]; rewrite ?app_length; cbn [length]; [done|lia|done| |done].
      intros x h Hx. destruct (decide (origin r y = origin r x)) as [Ho|Ho].
      * exists sd0, (fs0 ++ [f]). rewrite <- Ho, A0. split; [done|]. assert (hy = h) as <- by (by apply (H5 y x hy h Ey Hx)).
        rewrite list_lookup_insert by (by eapply lookup_lt_Some). by rewrite alone_snoc.
      * destruct (H4 x h Hx) as (sd & fs & A & B). exists sd, fs. split; [done|]. rewrite list_lookup_insert_ne; [done|]. intros ->. by apply Ho, (H5 y x h h Ey Hx).
    + intros x f' [= <- <-]. by exists sd0, fs0.
Qed.
Lemma run_inv cs : rlegal (rev cs) -> exists st, run_rcalls cs = Ok st /\ rinv (rev cs) st /\
  forall i x f, cs !! i = Some (RCall x f) -> exists seed fs, since (rev (take i cs)) (origin (rev (take i cs)) x) = Some (seed, fs) /\ snd st !! i = Some (Some (fst (f (alone seed fs)))).
Proof.
  unfold run_rcalls. induction cs as [|c cs IH] using rev_ind; intros HL.
  { eexists. split; [reflexivity|]. split; [|done]. split; cbn; [done|done|lia| |]; intros x h; intros; done. }
  rewrite rev_app_distr in HL |- *. cbn [rev app] in HL |- *.
  assert (HL' : rlegal (rev cs)) by (destruct c; cbn in HL; tauto). destruct (IH HL') as (st & E & HI & HO).
  destruct (rstep (rev cs) st c HI HL) as (st' & y & E' & Ey & HI' & HC). pose proof (ri_out _ _ HI) as H2. rewrite rev_length in H2.
  rewrite ofold_app, E. cbn [obind ofold]. rewrite E'. cbn [obind]. exists st'. split; [done|]. split; [done|].
  intros i x f Hc. rewrite Ey. destruct (decide (i < length cs)) as [Hi|Hi].
  - rewrite lookup_app_l in Hc by done. destruct (HO i x f Hc) as (seed & fs & A & B). exists seed, fs. rewrite take_app_le by lia. split; [done|].
    rewrite lookup_app_l by lia. done.
  - pose proof (lookup_lt_Some _ _ _ Hc) as Hlt. rewrite app_length in Hlt. cbn [length] in Hlt.
    assert (i = length cs) as -> by lia. rewrite lookup_app_r, Nat.sub_diag in Hc by lia. injection Hc as ->.
    destruct (HC x f eq_refl) as (seed & fs & A & ->). exists seed, fs. rewrite take_app. split; [done|]. rewrite <- H2. by rewrite list_lookup_middle.
Qed.

(** C65b: In every history of calls through handles and copies of handles, each request gets what an
    engine of its own would give that was made with the seed last given to its engine (by whatever
    handle) and had served the requests made since through any handle of that engine; other engines do
    not matter. *)
Theorem C65_handles_share : forall cs, rlegal (rev cs) -> exists es hs out, run_rcalls cs = Ok (es, hs, out) /\
  forall i x f, cs !! i = Some (RCall x f) -> exists seed fs, since (rev (take i cs)) (origin (rev (take i cs)) x) = Some (seed, fs) /\
    out !! i = Some (Some (fst (f (alone seed fs)))).
Proof. intros cs HL. destruct (run_inv cs HL) as ([[es hs] out] & E & _ & HO). by exists es, hs, out. Qed.
Print Assumptions C65_handles_share.

#[local] Opaque mt_next.
Lemma draws_iter seed n : alone seed (replicate n mt_next) = Nat.iter n (fun st => snd (mt_next st)) (mt_seed seed).
Proof. induction n as [|n IH]; [reflexivity|]. rewrite replicate_S_end, alone_snoc, IH. reflexivity. Qed.
(** C65c: In particular plain draws: the n-th draw since the seed was given is the n-th number of that
    seed; seeds count modulo 2^32. *)
Theorem C65_draws : forall seed n, fst (mt_next (alone seed (replicate n mt_next))) = nth_number seed n /\
  forall seed', (seed mod 2 ^ 32 = seed' mod 2 ^ 32)%N -> nth_number seed n = nth_number seed' n.
Proof.
  intros seed n. split.
  - rewrite draws_iter. reflexivity.
  - intros seed' E. unfold nth_number. rewrite (seeds_mod _ _ E). reflexivity.
Qed.
Print Assumptions C65_draws.

(** The check value of the C++ standard: the 10000th number of the default seed. *)
Example C65_standard : nth_number 5489 9999 = 4123659995%N.
Proof. vm_compute. reflexivity. Qed.
Example C65_nonvacuous : let cs := [RMake 5489; RMake 1; RCopy 0; RCall 0 mt_next; RCall 1 mt_next; RCall 2 mt_next; RSeed 1 5489; RCall 1 mt_next] in
  rlegal (rev cs) /\ exists es, run_rcalls cs = Ok (es, [0; 1; 0], [None; None; None; Some 3499211612; Some 1791095845; Some 581869302; None; Some 3499211612]%N).
Proof. cbv zeta. split; [cbn; lia|]. eexists. vm_compute. reflexivity. Qed.

(** ** C10 again: the k-way multilevel partitioner is a stub.  Whatever the target and the graph, no
    vertex gets a label, although the interface promises a partitioning. *)
Theorem C10_multilevel_partitioner_refuted : forall t g, exists p, mlp_execute t g = Ok p /\ length (p_where p) = nv g /\ forall v, v < nv g -> p_where p !! v = Some None.
Proof.
  intros t g. exists (part_new (t_np t) g). split; [done|]. unfold part_new. cbn [p_where]. split; [apply replicate_length|]. intros v Hv. by apply lookup_replicate_2.
Qed.
Print Assumptions C10_multilevel_partitioner_refuted.
