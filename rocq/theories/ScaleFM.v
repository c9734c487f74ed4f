(** * ScaleFM: graphs whose edge weights are multiples (C73), and FM refinement of both. *)
From Coq Require Import ZArith Psatz.
From Verif Require Import Base F64 ModelGraph ModelPartition ModelConn ModelFM Spec Logic RelLogic Sums GraphFacts PartFacts ConnFacts FMFacts MultilevelFacts.
Local Open Scope nat_scope.
#[local] Arguments seq : simpl nomatch.

(** g' is g with every edge weight multiplied by c. *)
Record scaled (c : Z) (g g' : graph) : Prop := {
  sc_pre : g_prefix g' = g_prefix g;
  sc_adj : g_adj g' = g_adj g;
  sc_vw : g_vw g' = g_vw g;
  sc_tvw : g_tvw g' = g_tvw g;
  sc_uvw : g_uvw g' = g_uvw g;
  sc_ew : forall e, e < ne g -> wgt_at (g_ew g') e = (c * wgt_at (g_ew g) e)%Z
}.
Definition times (c : Z) (a : nat * Z) : nat * Z := (fst a, (c * snd a)%Z).

Section Scaled.
  Context (c : Z) (g g' : graph) (Hs : scaled c g g') (Hwf : wf_graph g).
  Lemma sc_nv : nv g' = nv g. Proof. unfold nv. by rewrite (sc_pre _ _ _ Hs). Qed.
  Lemma sc_ne : ne g' = ne g. Proof. unfold ne. by rewrite (sc_adj _ _ _ Hs). Qed.
  Lemma sc_out v : v < nv g -> out g' v = times c <$> out g v.
  Proof.
    intros Hv. unfold out, pre_at. rewrite (sc_pre _ _ _ Hs), (sc_adj _ _ _ Hs). rewrite <- list_fmap_compose. apply list_fmap_ext. intros i e He.
    unfold compose, times. cbn [fst snd]. f_equal. apply (sc_ew _ _ _ Hs). apply (edge_in_range g Hwf v); [done|]. unfold pre_at. by eapply elem_of_list_lookup_2.
  Qed.
  Lemma sc_vweight v : vweight g' v = vweight g v. Proof. unfold vweight. by rewrite (sc_vw _ _ _ Hs). Qed.
  Lemma sc_sum (h : nat * Z -> Z) v : (forall a, h (times c a) = c * h a)%Z -> v < nv g -> sumf h (out g' v) = (c * sumf h (out g v))%Z.
  Proof. intros Hh Hv. rewrite sc_out by done. rewrite sumf_map, <- sumf_scal. apply sumf_ext. intros a _. apply Hh. Qed.
  Lemma sc_W u v : u < nv g -> W g' u v = (c * W g u v)%Z.
  Proof. intros Hu. unfold W. apply sc_sum; [|done]. intros a. cbn [times fst snd]. case_decide; lia. Qed.
  Lemma sc_incident u : u < nv g -> sumf snd (out g' u) = (c * sumf snd (out g u))%Z.
  Proof. intros Hu. apply sc_sum; [|done]. intros a. done. Qed.
  Lemma sc_internal {L} `{EqDecision L} (f : nat -> L) v : v < nv g -> internal g' f v = (c * internal g f v)%Z.
  Proof. intros Hv. unfold internal. apply sc_sum; [|done]. intros a. cbn [times fst snd]. case_decide; lia. Qed.
  Lemma sc_external {L} `{EqDecision L} (f : nat -> L) v : v < nv g -> external g' f v = (c * external g f v)%Z.
  Proof. intros Hv. unfold external. apply sc_sum; [|done]. intros a. cbn [times fst snd]. case_decide; lia. Qed.
  Lemma sc_total : total_edge_weight g' = (c * total_edge_weight g)%Z.
  Proof. unfold total_edge_weight. rewrite sc_nv, <- sumf_scal. apply sumn_ext. intros u Hu. by apply sc_incident. Qed.
  Lemma sc_cut {L} `{EqDecision L} (f : nat -> L) : edge_cut g' f = (c * edge_cut g f)%Z.
  Proof.
    unfold edge_cut. rewrite sc_nv, <- sumf_scal. apply sumn_ext. intros u Hu. rewrite <- sumf_scal. apply sumf_ext. intros v _. case_decide; [lia|]. by apply sc_W.
  Qed.
  Lemma sc_label_weight {L} `{EqDecision L} (f : nat -> L) i : label_weight g' f i = label_weight g f i.
  Proof. unfold label_weight. rewrite sc_nv. apply sumn_ext. intros v _. by rewrite sc_vweight. Qed.
  Lemma sc_vwt b v : vwt b g' v = vwt b g v. Proof. unfold vwt. by rewrite (sc_vw _ _ _ Hs). Qed.
  Lemma sc_has_vw : has_vw g' = has_vw g. Proof. unfold has_vw. by rewrite (sc_uvw _ _ _ Hs). Qed.
  Lemma sc_range v : edge_range g' v = edge_range g v. Proof. unfold edge_range. by rewrite (sc_pre _ _ _ Hs). Qed.
  Lemma sc_dst e : dst g' e = dst g e. Proof. unfold dst. by rewrite (sc_adj _ _ _ Hs). Qed.
  Lemma sc_degree v : degree g' v = degree g v. Proof. unfold degree. by rewrite (sc_pre _ _ _ Hs). Qed.
  Lemma sc_part_move p v i : part_move g' p v i = part_move g p v i. Proof. unfold part_move. by rewrite sc_has_vw, sc_vwt. Qed.
  Lemma sc_part_new k : part_new k g' = part_new k g. Proof. unfold part_new. by rewrite sc_nv. Qed.
  Lemma sc_assign_all p i : assign_all g' p i = assign_all g p i. Proof. unfold assign_all. by rewrite (sc_tvw _ _ _ Hs). Qed.
  Lemma sc_imbalance t p : calc_max_imbalance g' t p = calc_max_imbalance g t p.
  Proof. unfold calc_max_imbalance, find_max, get_imbalance, get_fraction. by rewrite (sc_tvw _ _ _ Hs). Qed.
  (** ** Partitionings with the same labels *)
  Lemma sc_labels_ok k wh : labels_ok k (nv g') wh -> labels_ok k (nv g) wh. Proof. by rewrite sc_nv. Qed.
  Lemma sc_weights k p p' : weights_exact k g p -> weights_exact k g' p' -> p_where p' = p_where p -> p_pw p' = p_pw p.
  Proof.
    intros [H1 H2] [H3 H4] Hw. apply list_eq. intros i. destruct (decide (i < k)) as [Hi|Hi].
    - rewrite H2, H4 by done. rewrite sc_label_weight. unfold lab. by rewrite Hw.
    - rewrite !lookup_ge_None_2; [done|lia|lia].
  Qed.
  Lemma sc_exact k p p' : exact_part k g p -> exact_part k g' p' -> p_where p' = p_where p -> p' = mkPart (c * p_cut p) (p_pw p) (p_where p).
  Proof.
    intros [[_ H1] H2] [[_ H3] H4] Hw. destruct p' as [cut pw wh]. cbn [p_where p_cut] in *. subst wh. f_equal; [|exact (sc_weights k p _ H1 H3 eq_refl)].
    rewrite H4, H2, sc_cut. done.
  Qed.
End Scaled.
Definition ptimes (c : Z) (p : part) : part := mkPart (c * p_cut p) (p_pw p) (p_where p).
Lemma imbalance_pw g t p p' : p_pw p' = p_pw p -> calc_max_imbalance g t p' = calc_max_imbalance g t p.
Proof. intros H. unfold calc_max_imbalance, find_max, get_imbalance, get_fraction. by rewrite H. Qed.
Lemma balanced_pw t p p' : p_pw p' = p_pw p -> is_balanced t p' = is_balanced t p.
Proof. intros H. unfold is_balanced, is_overweight. by rewrite H. Qed.

(** ** Queues *)
Definition qtimes (c : Z) (q : queue) : queue := (fmap (M := option) (Z.mul c)) <$> q.
Section Queue.
  Context (c : Z) (Hc : (0 < c)%Z).
  Lemma qt_len q : length (qtimes c q) = length q. Proof. apply fmap_length. Qed.
  Lemma qt_look q v : qtimes c q !! v = (fmap (M := option) (Z.mul c)) <$> (q !! v). Proof. apply list_lookup_fmap. Qed.
  Lemma qt_members q : q_members (qtimes c q) = q_members q.
  Proof.
    unfold q_members. rewrite qt_len. apply list_filter_iff. intros v. rewrite qt_look. destruct (q !! v) as [[k|]|]; cbn; done.
  Qed.
  Lemma qt_size q : q_size (qtimes c q) = q_size q. Proof. unfold q_size. by rewrite qt_members. Qed.
  Lemma qt_key q v : q_key (qtimes c q) v = (c * q_key q v)%Z.
  Proof. unfold q_key. rewrite qt_look. destruct (q !! v) as [[k|]|]; cbn; lia. Qed.
  Lemma qt_max q : q_max (qtimes c q) = match q_max q with Ok m => Ok (c * m)%Z | Fail f => Fail f end.
  Proof.
    unfold q_max. rewrite qt_members. destruct (q_members q) as [|v vs]; [done|]. f_equal. rewrite qt_key. generalize (q_key q v) as m.
    induction vs as [|u vs IH]; intros m; [done|]. cbn [fold_left]. rewrite qt_key, <- IH. f_equal. rewrite Z.mul_max_distr_nonneg_l by lia. done.
  Qed.
  Lemma qt_tops q : q_tops (qtimes c q) = q_tops q.
  Proof.
    unfold q_tops. rewrite qt_max. destruct (q_max q) as [m|]; [|done]. rewrite qt_members. apply list_filter_iff. intros v. rewrite qt_key. nia.
  Qed.
  Lemma qt_peek q : q_peek (qtimes c q) = q_peek q.
  Proof. unfold q_peek. by rewrite qt_size, qt_tops. Qed.
  Lemma qt_insert q v : <[v := None]> (qtimes c q) = qtimes c (<[v := None]> q).
  Proof. unfold qtimes. by rewrite list_fmap_insert. Qed.
  Lemma qt_remove q v : orel (fun a b => b = qtimes c a) (q_remove q v) (q_remove (qtimes c q) v).
  Proof.
    unfold q_remove, rd, wr. rewrite qt_look, qt_len. destruct (q !! v) as [[k|]|]; cbn; try done. destruct (decide _); cbn; [|done]. apply qt_insert.
  Qed.
  Lemma qt_pop q : mrel (fun a b => b = (fst a, qtimes c (snd a))) (q_pop q) (q_pop (qtimes c q)).
  Proof.
    unfold q_pop. rewrite qt_peek. apply mrel_same. intros v. eapply mrel_bind; [apply mrel_lift, qt_remove|]. intros a b ->. by apply mrel_ret.
  Qed.
End Queue.

(** ** The border after a move *)
Lemma update_border_at cn v : wpo (update_border cn v) anyf (fun r => c_ext (fst r) = c_ext cn /\ (forall u, u <> v -> c_border (fst r) !! u = c_border cn !! u) /\
  (forall e, c_ext cn !! v = Some e -> (0 <= e)%Z -> c_border (fst r) !! v = Some (0 <? e)%Z)).
Proof.
  destruct (c_border cn !! v) as [b|] eqn:Eb; [|unfold update_border, rd; rewrite Eb; exact Logic.I]. destruct (c_ext cn !! v) as [e|] eqn:Ee; [|unfold update_border, rd; rewrite Eb, Ee; exact Logic.I].
  destruct (Z.ltb_spec e 0) as [Hn|Hn].
  - unfold update_border. rewrite (rd_ok _ _ _ Eb), (rd_ok _ _ _ Ee). cbn [obind]. destruct b.
    + destruct (Z.eqb_spec e 0); [lia|]. cbn. split; [done|]. split; [done|]. intros e' [= <-]. lia.
    + destruct (Z.ltb_spec 0 e); [lia|]. cbn. split; [done|]. split; [done|]. intros e' [= <-]. lia.
  - rewrite (update_border_ok _ _ _ _ Eb Ee) by done. cbn. split; [done|]. split; [intros u Hu; by rewrite list_lookup_insert_ne|].
    intros e' [= <-] _. apply list_lookup_insert. by eapply lookup_lt_Some.
Qed.
Definition touched (g : graph) (v u : nat) : Prop := u = v \/ u ∈ fst <$> out g v.
Lemma move_border g track v to s : wf_graph g -> v < nv g -> (forall i, c_int (fm_conn s) !! v = Some i -> (0 <= i)%Z) -> wpo (fm_move g track v to s) anyf (fun s' =>
  forall u, (touched g v u -> exists e, c_ext (fm_conn s') !! u = Some e /\ c_border (fm_conn s') !! u = Some (0 <? e)%Z) /\
            (~ touched g v u -> c_border (fm_conn s') !! u = c_border (fm_conn s) !! u)).
Proof.
  intros Hwf Hv Hi. unfold fm_move. destruct (vertex_delta (fm_conn s) v) as [delta|]; [|exact Logic.I]. cbn [obind].
  eapply (wpo_bind _ _ _ (fun r => (exists e, c_ext (fst r) !! v = Some e /\ c_border (fst r) !! v = Some (0 <? e)%Z) /\ forall u, u <> v -> c_border (fst r) !! u = c_border (fm_conn s) !! u)).
  { unfold conn_move, rd, wr. destruct (c_int (fm_conn s) !! v) as [i|] eqn:Ei; [|exact Logic.I]. destruct (c_ext (fm_conn s) !! v) as [x|]; [|exact Logic.I]. cbn [obind].
    destruct (decide _); [|exact Logic.I]. cbn [obind]. destruct (decide _) as [Hd|]; [|exact Logic.I]. cbn [obind].
    eapply wpo_post; [apply update_border_at|]. intros r (A & B & C). cbn [c_ext c_border] in *. split; [|exact B]. exists i. rewrite A.
    rewrite list_lookup_insert in * by done. split; [done|]. apply C; [done|]. by apply Hi. }
  intros [c0 st] [A B]. cbn [fst] in A, B. destruct (part_move g (fm_part s) v to) as [p|]; [|exact Logic.I]. cbn [obind].
  eapply wpo_post; [apply (for_edges_wp g Hwf v (fun pre s' => forall u, (u = v \/ u ∈ fst <$> pre -> exists e, c_ext (fm_conn s') !! u = Some e /\ c_border (fm_conn s') !! u = Some (0 <? e)%Z) /\
      (~ (u = v \/ u ∈ fst <$> pre) -> c_border (fm_conn s') !! u = c_border (fm_conn s) !! u))); [done| |]|].
  - cbn [fm_conn fmap list_fmap]. intros u. split; [intros [->|H]; [done|by apply elem_of_nil in H]|]. intros Hn. apply B. tauto.
  - intros pre e a post s' Ho (He & Hd & Hw & Hx) HS. unfold fm_neighbor. rewrite Hd. cbn [obind]. destruct (get_assignment _ _) as [home|]; [|exact Logic.I]. cbn [obind].
    rewrite Hw. cbn [obind].
    eapply (wpo_bind _ _ _ (fun r => (forall u, u <> fst a -> c_ext (fst r) !! u = c_ext (fm_conn s') !! u /\ c_border (fst r) !! u = c_border (fm_conn s') !! u) /\
       exists e, c_ext (fst r) !! (fst a) = Some e /\ c_border (fst r) !! (fst a) = Some (0 <? e)%Z)).
    { unfold update_neighbor, rd, wr. destruct (c_int (fm_conn s') !! fst a) as [i|]; [|exact Logic.I]. destruct (c_ext (fm_conn s') !! fst a) as [x|]; [|exact Logic.I]. cbn [obind].
      destruct (decide _); [|exact Logic.I]. cbn [obind]. destruct (decide _) as [Hdd|]; [|exact Logic.I]. cbn [obind].
      eapply wpo_post; [apply update_border_at|]. intros r (A1 & B1 & C1). cbn [c_ext c_border] in *. split.
      - intros u Hu. split; [rewrite A1; by rewrite list_lookup_insert_ne|by apply B1].
      - eexists. rewrite A1. rewrite list_lookup_insert in * by done. split; [done|]. apply C1; [done|]. unfold u32. apply Z.mod_pos_bound. done. }
    intros [c' st'] [HA HB]. cbn [fst snd] in *.
    set (F := fun s'' : fm => forall u, (u = v \/ u ∈ fst <$> pre ++ [a] -> exists e, c_ext (fm_conn s'') !! u = Some e /\ c_border (fm_conn s'') !! u = Some (0 <? e)%Z) /\
      (~ (u = v \/ u ∈ fst <$> pre ++ [a]) -> c_border (fm_conn s'') !! u = c_border (fm_conn s) !! u)).
    assert (HF : forall s'', fm_conn s'' = c' -> F s'').
    { intros s'' Es u. rewrite Es. rewrite fmap_app. cbn [fmap list_fmap]. destruct (decide (u = fst a)) as [->|Hne].
      - split; [intros _; exact HB|]. intros Hn. exfalso. apply Hn. right. apply elem_of_app. right. by left.
      - destruct (HA u Hne) as [-> ->]. destruct (HS u) as [S1 S2]. split.
        + intros Hu. apply S1. destruct Hu as [Hu|Hu]; [by left|]. right. apply elem_of_app in Hu as [Hu|Hu]; [done|]. apply elem_of_list_singleton in Hu. done.
        + intros Hn. apply S2. intros [Hu|Hu]; apply Hn; [by left|]. right. apply elem_of_app. by left. }
    assert (Hset : forall f, wpo (set_q (mkFm (fm_part s') c' (fm_q0 s') (fm_q1 s') (fm_vis s')) home f) anyf F).
    { intros f. unfold set_q. destruct home as [[|[|]]|]; try exact Logic.I; cbn [fm_q0 fm_q1]; destruct (f _); try exact Logic.I; by apply HF. }
    destruct track; [|by apply HF]. cbn [fm_vis fm_conn]. destruct (vt_has (fm_vis s') (fst a)) as [[]|]; [by apply HF| |exact Logic.I]. cbn [obind].
    destruct st'; try (by apply HF); try apply Hset; (destruct (neg_delta c' (fst a)); [cbn [obind]; apply Hset|exact Logic.I]).
  - intros s' HS u. destruct (HS u) as [S1 S2]. split; [exact S1|exact S2].
Qed.
