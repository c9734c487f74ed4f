(** * LabelFacts: whatever the input, a bisection that is returned labels every vertex 0 or 1
    (partial correctness; no assumption on weights, symmetry or sizes). *)
From Verif Require Import Base F64 ModelGraph ModelBuilders ModelPartition ModelConn ModelFM ModelAgg ModelMultilevel ModelBisect ModelRecursive ModelApi
  Spec Logic GraphFacts RecFacts.

Lemma bind_any {A B} (m : outcome A) (k : A -> outcome B) Q : (forall a, wpo (k a) anyf Q) -> wpo (obind m k) anyf Q.
Proof. intros H. destruct m; [apply H|done]. Qed.
Lemma bindm_any {A B} (m : M A) (k : A -> M B) Q : (forall a, wpm (k a) anyf Q) -> wpm (mbindM m k) anyf Q.
Proof. intros H cs. unfold mbindM. destruct (m cs) as [[a c]|]; [apply H|done]. Qed.
Lemma bindm_lift {A B} (m : outcome A) (k : A -> M B) P Q : wpo m anyf P -> (forall a, P a -> wpm (k a) anyf Q) -> wpm (mbindM (lift m) k) anyf Q.
Proof. intros Hm Hk. eapply wpm_bind; [apply wpm_lift; exact Hm|exact Hk]. Qed.

Section G.
  Context (g : graph).
  Lemma add_pw_length pw p d : wpo (add_pw pw p d) anyf (fun pw' => length pw' = length pw).
  Proof.
    unfold add_pw. apply bind_any. intros i. apply bind_any. intros w. apply wpo_anyf. intros l Hl. apply wr_inv in Hl as [_ ->]. by rewrite insert_length.
  Qed.
  Lemma labels_insert wh v i : i < 2 -> labels_ok 2 (nv g) wh -> labels_ok 2 (nv g) (<[v := Some i]> wh).
  Proof.
    intros Hi [HL H]. split; [by rewrite insert_length|]. intros u Hu. destruct (decide (u = v)) as [->|Hn].
    - exists i. split; [done|]. apply list_lookup_insert. lia.
    - destruct (H u Hu) as (j & Hj & E). exists j. split; [done|]. by rewrite list_lookup_insert_ne.
  Qed.
  Lemma move_lab g' p v i : i < 2 -> two_labels g p -> wpo (part_move g' p v i) anyf (two_labels g).
  Proof.
    intros Hi [HL HP]. unfold part_move. apply bind_any. intros w. apply bind_any. intros cur.
    eapply wpo_bind; [apply add_pw_length|]. intros pw1 H1. eapply wpo_bind; [apply add_pw_length|]. intros pw2 H2.
    apply wpo_anyf. intros p' E. destruct (wr (p_where p) v (Some i)) as [wh|] eqn:Ew; [|done]. apply wr_inv in Ew as [_ ->]. cbn in E. injection E as <-.
    split; cbn [p_pw p_where]; [cbn beta in *; congruence|by apply labels_insert].
  Qed.
  Lemma recalc_lab p : two_labels g p -> wpo (recalc_cut g p) anyf (two_labels g).
  Proof. intros H. unfold recalc_cut. apply bind_any. intros c. exact H. Qed.

  (** FM *)
  Lemma set_q_part s i f : wpo (set_q s i f) anyf (fun s' => fm_part s' = fm_part s).
  Proof. unfold set_q. destruct i as [[|[|i]]|]; try done; apply bind_any; done. Qed.
  Lemma neighbor_part g' track to s e : wpo (fm_neighbor g' track to s e) anyf (fun s' => fm_part s' = fm_part s).
  Proof.
    unfold fm_neighbor. do 4 (apply bind_any; intros ?). destruct track; [|done]. apply bind_any. intros [|]; [done|].
    destruct (snd _); [apply bind_any; intros k| |apply bind_any; intros k|done]; eapply wpo_post; try apply set_q_part; done.
  Qed.
  Lemma edges_inv {S} g' v (I : S -> Prop) body (s : S) : I s -> (forall s e, I s -> wpo (body s e) anyf I) -> wpo (for_edges g' v body s) anyf I.
  Proof. intros H0 Hs. unfold for_edges. apply bind_any. intros r. apply ofold_inv; [done|]. intros e s' _ HI. by apply Hs. Qed.
  Lemma fm_move_lab g' track v to s : to < 2 -> two_labels g (fm_part s) -> wpo (fm_move g' track v to s) anyf (fun s' => two_labels g (fm_part s')).
  Proof.
    intros Ht HP. unfold fm_move. apply bind_any. intros d. apply bind_any. intros c. eapply wpo_bind; [by apply move_lab|]. intros p Hp.
    apply edges_inv; [exact Hp|]. intros s' e Hs'. eapply wpo_post; [apply neighbor_part|]. cbn. by intros s'' ->.
  Qed.
  Lemma side_lt (b : bool) : (if b then 1 else 0) < 2.
  Proof. destruct b; lia. Qed.
  Lemma fm_step_lab g' t ps : two_labels g (fm_part (ps_fm ps)) -> wpm (fm_step g' t ps) anyf (fun ps' => two_labels g (fm_part (ps_fm ps'))).
  Proof.
    intros HP. unfold fm_step. apply bindm_any. intros from. apply bindm_any. intros r.
    eapply bindm_lift; [apply set_q_part|]. intros s Hs. apply bindm_any. intros vis.
    eapply bindm_lift; [apply fm_move_lab; [apply side_lt|]; cbn; by rewrite Hs|]. intros s' Hs'.
    apply bindm_any. intros bal. apply bindm_any. intros isb. apply wpm_ret. by destruct (fm_accept _ _ _ _ _).
  Qed.
  Lemma fm_loop_lab g' t mb fuel ps : two_labels g (fm_part (ps_fm ps)) -> wpm (fm_loop g' t mb fuel ps) anyf (fun ps' => two_labels g (fm_part (ps_fm ps'))).
  Proof.
    revert ps. induction fuel as [|fuel IH]; intros ps HP; cbn [fm_loop]; (destruct (_ || _); [by apply wpm_ret|]); [by apply wpm_fail|].
    eapply wpm_bind; [by apply fm_step_lab|]. intros ps' H. by apply IH.
  Qed.
  Lemma fm_undo_lab g' mvs s : two_labels g (fm_part s) -> wpo (fm_undo g' mvs s) anyf (fun s' => two_labels g (fm_part s')).
  Proof.
    intros HP. unfold fm_undo. apply (ofold_inv (fun s => two_labels g (fm_part s))); [done|]. intros v s' _ Hs.
    apply bind_any. intros w. apply bind_any. intros from. apply fm_move_lab; [apply side_lt|done].
  Qed.
  Lemma fm_fill_lab s : two_labels g (fm_part s) -> wpm (fm_fill s) anyf (fun s' => two_labels g (fm_part s')).
  Proof.
    intros HP. unfold fm_fill. apply bindm_any. intros vs. apply wpm_lift. apply (ofold_inv (fun s => two_labels g (fm_part s))); [done|]. intros v s' _ Hs.
    do 2 (apply bind_any; intros ?). eapply wpo_post; [apply set_q_part|]. cbn. by intros s'' ->.
  Qed.
  Lemma fm_iters_lab g' t mb it s : two_labels g (fm_part s) -> wpm (fm_iters g' t mb it s) anyf (fun s' => two_labels g (fm_part s')).
  Proof.
    revert s. induction it as [|it IH]; intros s HP; cbn [fm_iters]; [by apply wpm_ret|].
    eapply wpm_bind; [by apply fm_fill_lab|]. intros s1 H1. apply bindm_any. intros bal.
    eapply wpm_bind; [by apply fm_loop_lab|]. intros ps H2. eapply bindm_lift; [by apply fm_undo_lab|]. intros s2 H3.
    destruct (Nat.eqb _ _); [by apply wpm_ret|]. apply IH. by destruct it.
  Qed.
  Lemma fm_refine_lab it mv g' t c p : two_labels g p -> wpm (fm_refine it mv g' t c p) anyf (fun r => two_labels g (snd r)).
  Proof.
    intros HP. unfold fm_refine. apply bindm_any. intros mb. eapply wpm_bind; [by apply fm_iters_lab|]. intros s H. by apply wpm_ret.
  Qed.

  (** Growing a bisection *)
  Lemma priority_move_lab t fuel q p : two_labels g p -> wpm (bfs_priority_move g t fuel q p) anyf (fun r => two_labels g (snd r)).
  Proof.
    revert q p. induction fuel as [|fuel IH]; intros q p HP; cbn [bfs_priority_move]; (destruct (Nat.eqb (q_size q) 0); [by apply wpm_ret|]);
      apply bindm_any; intros w0; apply bindm_any; intros tw; (destruct (negb _); [by apply wpm_ret|]); [by apply wpm_fail|].
    apply bindm_any. intros r. apply bindm_any. intros vw. apply bindm_any. intros mx. destruct (_ <=? mx)%Z; [|by apply IH].
    eapply bindm_lift; [apply move_lab; [|done]; lia|]. intros p' Hp. apply bindm_any. intros q'. by apply IH.
  Qed.
  Lemma weight_loop_lab t fuel q p : two_labels g p -> wpm (bfs_weight_balance_loop g t fuel q p) anyf (two_labels g).
  Proof.
    revert q p. induction fuel as [|fuel IH]; intros q p HP; cbn [bfs_weight_balance_loop]; (destruct (Nat.eqb (q_size q) 0); [by apply wpm_ret|]); [by apply wpm_fail|].
    do 4 (apply bindm_any; intros ?). destruct a2; [|by apply IH]. apply wpm_lift. apply move_lab; [lia|done].
  Qed.
  Lemma unit_balance_lab t rem p : two_labels g p -> wpo (bfs_unit_balance g t rem p) anyf (two_labels g).
  Proof.
    intros HP. induction rem as [|v rem IH]; [done|]. cbn [bfs_unit_balance]. do 2 (apply bind_any; intros ?). destruct a0; [|done]. apply move_lab; [lia|done].
  Qed.
  Lemma assign_all_lab k i : k = 2 -> i < 2 -> wpo (assign_all g (part_new k g) i) anyf (two_labels g).
  Proof.
    intros -> Hi. unfold assign_all. apply wpo_anyf. intros p E. destruct (wr _ i _) as [pw|] eqn:Ew; [|done]. apply wr_inv in Ew as [_ ->]. cbn in E. injection E as <-.
    split; cbn [p_pw p_where]; [by rewrite insert_length|]. rewrite replicate_length. split; [by rewrite replicate_length|].
    intros v Hv. exists i. split; [done|]. by apply lookup_replicate_2.
  Qed.
  Lemma bfs_lab t : t_np t = 2 -> wpm (bfs_execute t g) anyf (two_labels g).
  Proof.
    intros Ht. unfold bfs_execute. apply bindm_any. intros seed. unfold bfs_from. do 2 (apply bindm_any; intros ?).
    eapply bindm_lift; [apply assign_all_lab; [done|lia]|]. intros p Hp. eapply wpm_bind; [by apply priority_move_lab|]. intros r Hr.
    do 2 (apply bindm_any; intros ?). eapply (wpm_bind _ _ _ (two_labels g)).
    - destruct (_ <? _)%Z; [|by apply wpm_ret]. apply bindm_any. intros rem. destruct (g_uvw g).
      + unfold bfs_weight_balance. apply bindm_any. intros q. by apply weight_loop_lab.
      + apply wpm_lift. by apply unit_balance_lab.
    - intros p' Hp'. apply wpm_lift. by apply recalc_lab.
  Qed.
  (** The best of several; at least one is needed. *)
  Lemma multi_lab n bis t : (1 <= n)%Z -> wpm (bis t g) anyf (two_labels g) -> wpm (multi_execute n bis t g) anyf (two_labels g).
  Proof.
    intros Hn Hb. unfold multi_execute. eapply wpm_bind.
    - apply (mfold_wp (fun pre best => pre <> [] -> two_labels g (mb_part best))); [done|].
      intros pre b post best E HI. eapply wpm_bind; [exact Hb|]. intros p Hp. apply wpm_lift. unfold multi_consider. do 2 (apply bind_any; intros ?). cbn. intros _.
      destruct (multi_accept _ _ _ _ _) eqn:Ea; [exact Hp|]. apply HI. intros ->. cbn in E.
      destruct (Z.to_nat n) as [|n']; [done|]. injection E as <- _. done.
    - intros best H. apply wpm_ret. apply H. destruct (Z.to_nat n) eqn:E; [lia|done].
  Qed.

  (** Projecting *)
  Lemma project_lab cg cc cp : cg_fine cg = g -> length (p_pw cp) = 2 -> wpo (project cg cc cp) anyf (fun r => two_labels g (snd r)).
  Proof.
    intros Eg HL. unfold project. eapply (wpo_bind _ _ _ (two_labels g)).
    - unfold project_labels, for_vertices. rewrite Eg, HL.
      eapply wpo_post; [apply (ofold_seq_wp (fun j p => length (p_pw p) = 2 /\ length (p_where p) = nv g /\
         forall v, v < j -> v < nv g -> exists i, i < 2 /\ p_where p !! v = Some (Some i)))|].
      + split; [done|]. cbn. rewrite replicate_length. split; [done|]. intros v; lia.
      + intros j p Hj (H1 & H2 & H3). apply bind_any. intros c. apply bind_any. intros w. apply bind_any. intros i.
        unfold part_assign. apply bind_any. intros vw. apply wpo_anyf. intros p' E.
        destruct (add_pw (p_pw p) (Some i) vw) as [pw|] eqn:Ea; [|done]. cbn [obind] in E.
        assert (i < 2 /\ length pw = 2) as [Hi Hpw].
        { unfold add_pw in Ea. cbn [pw_index obind] in Ea. destruct (rd (p_pw p) i) as [x|] eqn:Er; [|done]. cbn [obind] in Ea.
          apply wr_inv in Ea as [Hi ->]. rewrite insert_length. lia. }
        destruct (wr (p_where p) j (Some i)) as [wh|] eqn:Ew; [|done]. apply wr_inv in Ew as [_ ->]. cbn in E. injection E as <-. cbn [p_pw p_where].
        split; [done|]. split; [by rewrite insert_length|]. intros v Hv Hn. destruct (decide (v = j)) as [->|Hne].
        * exists i. split; [done|]. apply list_lookup_insert. lia.
        * rewrite list_lookup_insert_ne by done. apply H3; lia.
      + intros p (H1 & H2 & H3). split; [done|]. split; [done|]. intros v Hv. by apply H3.
    - intros p Hp. apply bind_any. intros fc. exact Hp.
  Qed.
End G.

(** The multilevel bisector, whatever its components, as long as they label 0/1. *)
Lemma ml_recurse_lab agg init ref stop mw t : (forall g, wpm (init t g) anyf (two_labels g)) ->
  (forall g c p, two_labels g p -> wpm (ref g t c p) anyf (fun r => two_labels g (snd r))) ->
  forall fuel level parent g, wpm (ml_recurse agg init ref stop mw t fuel level parent g) anyf (fun r => two_labels g (snd r)).
Proof.
  intros Hi Hr. induction fuel as [|fuel IH]; intros level parent g; cbn [ml_recurse]; apply bindm_any; intros [|].
  - eapply wpm_bind; [apply Hi|]. intros p Hp. apply bindm_any. intros c. by apply wpm_ret.
  - by apply wpm_fail.
  - eapply wpm_bind; [apply Hi|]. intros p Hp. apply bindm_any. intros c. by apply wpm_ret.
  - apply bindm_any. intros a. apply (bindm_lift _ _ (fun cg => cg_fine cg = g)).
    { unfold coarse_make. apply bind_any. intros c. by case_match. }
    intros cg Hcg. eapply wpm_bind; [apply IH|]. intros cp [Hcp _].
    eapply bindm_lift; [by apply (project_lab g cg (fst cp) (snd cp))|]. intros fp Hfp. by apply Hr.
Qed.
Lemma api_bisector_lab scheme bis t g : api_bisector scheme = Ok bis -> t_np t = 2 -> wpm (bis t g) anyf (two_labels g).
Proof.
  unfold api_bisector. destruct (aggregator_make scheme) as [agg|]; [|done]. cbn. intros [= <-] Ht.
  unfold ml_execute. do 2 (apply bindm_any; intros ?). eapply wpm_bind; [|intros r Hr; apply wpm_ret; exact Hr].
  apply ml_recurse_lab.
  - intros g'. apply multi_lab; [lia|]. by apply bfs_lab.
  - intros g' c p Hp. by apply fm_refine_lab.
Qed.
