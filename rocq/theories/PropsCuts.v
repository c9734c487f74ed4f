(** * PropsCuts: asking for more cuts (C64). *)
From Verif Require Import Base F64 ModelGraph ModelPartition ModelConn ModelFM ModelAgg ModelMultilevel ModelBisect ModelRecursive ModelApi Spec Logic TreeFacts ApiFacts PropsTarget PropsApi Examples.
#[local] Arguments seq : simpl nomatch.

(** The same options with another number of cuts. *)
Definition with_cuts (o : options) (c : Z) : options := mkOptions (o_tolerance o) (o_fractions o) (o_seed o) (o_ref_iters o) (o_scheme o) (o_output_times o) c.
(** The result with the smaller cut; the first of two with equal cuts. *)
Definition better (r1 r2 : call_result) : call_result :=
  match r_cut r1, r_cut r2 with Some c1, Some c2 => if (c2 <? c1)%Z then r2 else r1 | _, _ => r1 end.

Notation best := (option (Z * list (option nat))).
Definition merge (b1 b2 : best) : best :=
  match b2 with None => b1 | Some (c2, _) => match b1 with None => b2 | Some (c1, _) => if (c2 <? c1)%Z then b2 else b1 end end.
Lemma keep_merge b1 b2 p : keep_best (merge b1 b2) p = merge b1 (keep_best b2 p).
Proof.
  destruct b1 as [[c1 l1]|], b2 as [[c2 l2]|]; cbn; unfold part_output; repeat (case_match || cbn in * ); try done;
    repeat match goal with H : (_ <? _)%Z = true |- _ => apply Z.ltb_lt in H | H : (_ <? _)%Z = false |- _ => apply Z.ltb_ge in H end; simplify_eq; try lia; try done.
Qed.
Section Fold.
  Context (run : M part).
  Definition cut_step (st : best) (_ : nat) : M best := do! p := run in ret (keep_best st p).
  Lemma fold_merge (l : list nat) : forall b1 b2 s, mfold cut_step (merge b1 b2) l s = (do! b := mfold cut_step b2 l in ret (merge b1 b)) s.
  Proof.
    induction l as [|x l IH]; intros b1 b2 s; [done|]. cbn [mfold]. unfold cut_step at 1 3, mbindM. destruct (run s) as [[p s1]|f]; [|done]. cbn [obind fst snd ret].
    rewrite keep_merge. apply IH.
  Qed.
  Lemma fold_app (l1 l2 : list nat) : forall b s, mfold cut_step b (l1 ++ l2) s = (do! b1 := mfold cut_step b l1 in mfold cut_step b1 l2) s.
  Proof.
    induction l1 as [|x l IH]; intros b s; [done|]. cbn [mfold app]. unfold mbindM at 1 2 3. destruct (cut_step b x s) as [[b1 s1]|f]; [|done]. cbn [obind fst snd]. apply IH.
  Qed.
  Lemma fold_length (l1 l2 : list nat) : length l1 = length l2 -> forall b s, mfold cut_step b l1 s = mfold cut_step b l2 s.
  Proof.
    revert l2. induction l1 as [|x l IH]; intros [|y l2] HL b s; try done. cbn [mfold]. change (cut_step b y) with (cut_step b x). unfold mbindM.
    destruct (cut_step b x s) as [[b1 s1]|f]; [|done]. cbn [obind fst snd]. apply IH. cbn in HL. lia.
  Qed.
  Lemma fold_some l : l <> [] -> forall b s b' s', mfold cut_step b l s = Ok (b', s') -> b' <> None.
  Proof.
    induction l as [|x l IH]; intros Hl b s b' s' E; [done|]. cbn [mfold] in E. unfold cut_step at 1 in E. unfold mbindM in E. destruct (run s) as [[p s1]|f]; [|done].
    cbn [obind fst snd ret] in E. destruct l as [|y l]; [|by eapply IH]. cbn in E. injection E as <- _. unfold keep_best. repeat case_match; done.
  Qed.
End Fold.
Definition setup_call (prefix adj : list nat) (vw ew : option (list Z)) (k : nat) (scheme : Z) : outcome (graph * bisector * target) :=
  let! numEdges := rd prefix (length prefix - 1) in
  let! g := if Nat.ltb (length adj) numEdges then Fail (UB OutOfBounds) else graph_of_csr prefix (take numEdges adj) vw ew in
  let! bis := api_bisector scheme in
  let! t := target_of_fractions (g_tvw g) default_tolerance (default_fractions k) in
  Ok (g, bis, t).
Lemma call_setup lg prefix adj vw ew k o s : part_graph_recursive lg prefix adj vw ew k (Some o) s =
  match setup_call prefix adj vw ew k (o_scheme o) with
  | Fail f => Fail f
  | Ok x => (do! b := mfold (cut_step (rb_execute lg (snd (fst x)) (snd x) (fst (fst x)))) None (seq 0 (Z.to_nat (o_num_cuts o))) in ret (mkResult 1 (fst <$> b) (snd <$> b))) s
  end.
Proof.
  unfold part_graph_recursive, setup_call, mbindM at 1, lift. destruct (rd prefix _) as [m|]; [|done]. cbn [obind fst snd].
  unfold mbindM at 1, lift. destruct (if Nat.ltb _ _ then _ else _) as [g|]; [|done]. cbn [obind fst snd].
  unfold mbindM at 1, lift. destruct (api_bisector _) as [bis|]; [|done]. cbn [obind fst snd].
  unfold mbindM at 1, lift. destruct (target_of_fractions _ _ _) as [t|]; [|done]. reflexivity.
Qed.

(** C64a: A call for c + d cuts is a call for c cuts, then a call for d cuts with the random numbers
    that come next, and the better of the two results: in the labels, the cut, the return value, the
    random numbers used and the failures; for every input. *)
Theorem C64_cuts_compose : forall log2 prefix adj vw ew k o c d s, (1 <= c)%Z -> (1 <= d)%Z ->
  part_graph_recursive log2 prefix adj vw ew k (Some (with_cuts o (c + d))) s =
  (do! r1 := part_graph_recursive log2 prefix adj vw ew k (Some (with_cuts o c)) in
   do! r2 := part_graph_recursive log2 prefix adj vw ew k (Some (with_cuts o d)) in
   ret (better r1 r2)) s.
Proof.
  intros lg prefix adj vw ew k o c d s Hc Hd. unfold mbindM at 1. rewrite !call_setup. cbn [o_num_cuts o_scheme with_cuts].
  destruct (setup_call prefix adj vw ew k (o_scheme o)) as [[[g bis] t]|f] eqn:ES; [|done]. cbn [fst snd].
  rewrite Z2Nat.inj_add, seq_app by lia. set (run := rb_execute lg bis t g). unfold mbindM at 1 2. rewrite fold_app. unfold mbindM at 1.
  destruct (mfold (cut_step run) None (seq 0 (Z.to_nat c)) s) as [[b1 s1]|f] eqn:E1; [|done]. cbn [obind fst snd ret]. unfold mbindM at 1.
  rewrite call_setup. cbn [o_num_cuts o_scheme with_cuts]. rewrite ES. cbn [fst snd]. fold run. unfold mbindM.
  rewrite (fold_length run _ (seq 0 (Z.to_nat d))) by by rewrite !seq_length.
  change b1 with (merge b1 None) at 1. rewrite fold_merge. unfold mbindM.
  destruct (mfold (cut_step run) None (seq 0 (Z.to_nat d)) s1) as [[b2 s2]|f] eqn:E2; [|done]. cbn [obind fst snd ret].
  assert (Hb1 : b1 <> None). { eapply fold_some; [|exact E1]. destruct (Z.to_nat c) eqn:EE; [lia|done]. }
  assert (Hb2 : b2 <> None). { eapply fold_some; [|exact E2]. destruct (Z.to_nat d) eqn:EE; [lia|done]. }
  destruct b1 as [[c1 l1]|]; [|done]. destruct b2 as [[c2 l2]|]; [|done]. unfold better, merge. cbn. by destruct (c2 <? c1)%Z.
Qed.
Print Assumptions C64_cuts_compose.

(** C64b: So with the same seed more cuts never give a larger cut, and the same labels if the cut is equal. *)
Theorem C64_more_is_no_worse : forall log2 prefix adj vw ew k o c d s r s1 r' s2, (1 <= c)%Z -> (c <= d)%Z ->
  part_graph_recursive log2 prefix adj vw ew k (Some (with_cuts o c)) s = Ok (r, s1) ->
  part_graph_recursive log2 prefix adj vw ew k (Some (with_cuts o d)) s = Ok (r', s2) ->
  exists x y, r_cut r = Some x /\ r_cut r' = Some y /\ (y <= x)%Z /\ (y = x -> r' = r).
Proof.
  intros lg prefix adj vw ew k o c d s r s1 r' s2 Hc Hd E E'.
  assert (HS : forall c s r s1, (1 <= c)%Z -> part_graph_recursive lg prefix adj vw ew k (Some (with_cuts o c)) s = Ok (r, s1) -> exists x, r_cut r = Some x).
  { clear. intros c s r s1 Hc E. rewrite call_setup in E. cbn [o_num_cuts o_scheme with_cuts] in E. destruct (setup_call _ _ _ _ _ _) as [x|]; [|done]. unfold mbindM in E.
    destruct (mfold _ None _ s) as [[b s2]|f] eqn:E1; [|done]. cbn in E. injection E as <- _. apply fold_some in E1; [|destruct (Z.to_nat c) eqn:EE; [lia|done]].
    destruct b as [[y l]|]; [|done]. by exists y. }
  destruct (HS _ _ _ _ Hc E) as [x Ex]. exists x. destruct (decide (d = c)) as [->|Hn].
  { rewrite E in E'. injection E' as <- <-. by exists x. }
  replace d with (c + (d - c))%Z in E' by lia. rewrite C64_cuts_compose in E' by lia. unfold mbindM in E'. rewrite E in E'. cbn [obind fst snd] in E'.
  destruct (part_graph_recursive _ _ _ _ _ _ _ s1) as [[r2 s3]|f] eqn:E2; [|done]. cbn [obind fst snd ret] in E'. injection E' as <- <-.
  apply HS in E2 as [y Ey]; [|lia]. unfold better. rewrite Ex, Ey. destruct (Z.ltb_spec y x) as [Hl|Hg].
  - exists y. split; [done|]. split; [done|]. split; [lia|]. lia.
  - exists x. done.
Qed.
Print Assumptions C64_more_is_no_worse.
(** A ring of 30 vertices into three parts. *)
Example C64_nonvacuous : exists r s1 r' s2,
  part_graph_recursive floor_log2 (ring_prefix 30) (ring_adj 30) (Some (replicate 30 2%Z)) None 3 (Some (with_cuts some_options 1)) [7; 5; 3; 1] = Ok (r, s1) /\
  part_graph_recursive floor_log2 (ring_prefix 30) (ring_adj 30) (Some (replicate 30 2%Z)) None 3 (Some (with_cuts some_options 3)) [7; 5; 3; 1] = Ok (r', s2) /\ r_cut r' = Some 3%Z.
Proof. eexists _, _, _, _. split; [vm_compute; reflexivity|]. split; [vm_compute; reflexivity|]. vm_compute. reflexivity. Qed.
