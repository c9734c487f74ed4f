(** * ScaleBfs: bisecting a graph and its multiple, side by side (C73). *)
From Coq Require Import ZArith Psatz.
From Verif Require Import Base F64 ModelGraph ModelPartition ModelConn ModelFM ModelAgg ModelMultilevel ModelBisect Spec Logic RelLogic Sums GraphFacts PartFacts ConnFacts FMFacts MultilevelFacts BisectFacts PropsGrow ScaleFM ScaleRef.
Local Open Scope nat_scope.
#[local] Arguments seq : simpl nomatch.

Section Walk.
  Context (c : Z) (g g' : graph) (Hs : scaled c g g') (Hwf : wf_graph g) (Hwf' : wf_graph g').
  Lemma for_edges_rel {S S'} (R : S -> S' -> Prop) v f f' s s' : v < nv g -> R s s' ->
    (forall e s s', e < ne g -> R s s' -> orel R (f s e) (f' s' e)) -> orel R (for_edges g v f s) (for_edges g' v f' s').
  Proof.
    intros Hv HR HF. unfold for_edges. rewrite (sc_range c g g' Hs), (edge_range_ok g Hwf v Hv). cbn [obind]. apply orel_fold; [|done].
    intros x y e He Hxy. apply HF; [|done]. by apply (edge_in_range g Hwf v).
  Qed.
  Lemma for_vertices_rel {S S'} (R : S -> S' -> Prop) f f' s s' : R s s' ->
    (forall v s s', v < nv g -> R s s' -> orel R (f s v) (f' s' v)) -> orel R (for_vertices g f s) (for_vertices g' f' s').
  Proof. intros HR HF. unfold for_vertices. rewrite (sc_nv c g g' Hs). apply orel_fold; [|done]. intros x y v Hv Hxy. apply HF; [|done]. apply elem_of_seq in Hv. lia. Qed.
  Lemma ewt_rel e : e < ne g -> orel (fun a b => b = (c * a)%Z) (ewt (has_ew g) g e) (ewt (has_ew g') g' e).
  Proof. intros He. rewrite (ewt_ok g Hwf e He), (ewt_ok g' Hwf' e) by (by rewrite (sc_ne c g g' Hs)). cbn. by apply (sc_ew _ _ _ Hs). Qed.
  Lemma sum_cut_rel wh : orel (fun _ _ => True) (sum_cut g wh) (sum_cut g' wh).
  Proof.
    unfold sum_cut. eapply orel_bind; [|intros x y _; exact Logic.I]. apply (for_vertices_rel (fun _ _ => True)); [done|]. intros v s s' Hv _.
    eapply orel_bind; [apply orel_refl|]. intros x ? <-. apply (for_edges_rel (fun _ _ => True)); [done|done|]. intros e a b He _. rewrite (sc_dst c g g' Hs).
    eapply orel_bind; [apply orel_refl|]. intros u ? <-. eapply orel_bind; [apply orel_refl|]. intros y ? <-. destruct (decide _); [done|].
    eapply orel_bind; [by apply ewt_rel|]. done.
  Qed.
  Lemma recalc_rel p : orel (fun a b => p_where a = p_where p /\ p_where b = p_where p) (recalc_cut g p) (recalc_cut g' p).
  Proof. unfold recalc_cut. eapply orel_bind; [apply sum_cut_rel|]. intros x y _. done. Qed.
End Walk.

Section Bfs.
  Context (c : Z) (Hc : (0 < c)%Z) (g g' : graph) (Hs : scaled c g g') (Hud : undirected g) (Hud' : undirected g').
  Context (t : target) (Ht : two_way t).
  Local Notation n := (nv g).
  Let Hwf : wf_graph g := ud_wf g Hud.
  Let Hwf' : wf_graph g' := ud_wf g' Hud'.
  Let Hnv : nv g' = n := sc_nv c g g' Hs.

  (** The keys are the connections to the region S. *)
  Record keyed (S : list nat) (q : queue) : Prop := {
    ky_nodup : NoDup S;
    ky_range : forall v, v ∈ S -> v < n;
    ky_len : length q = n;
    ky_key : forall u k, q !! u = Some (Some k) -> k = toward g S u /\ u ∉ S
  }.
  Lemma toward_incident S u : NoDup S -> (forall v, v ∈ S -> v < n) -> u < n -> (0 <= toward g S u <= sumf snd (out g u))%Z.
  Proof.
    intros HD HS Hu. pose proof Hud as [_ Hsy Hlo Hfi]. split; [apply sumf_nonneg; intros v Hv; by apply W_nonneg, HS|].
    etrans; [apply (sum_set_le n (fun m => W g m u) S HD HS)|]; [intros v Hv; by apply W_nonneg|]. rewrite (out_total g Hwf u Hu). apply Z.eq_le_incl, sumn_ext. intros v Hv. by apply Hsy.
  Qed.
  Lemma sc_toward S u : (forall v, v ∈ S -> v < n) -> toward g' S u = (c * toward g S u)%Z.
  Proof. intros HS. unfold toward. rewrite <- sumf_scal. apply sumf_ext. intros v Hv. apply (sc_W c g g' Hs Hwf). by apply HS. Qed.
  Lemma keyed_skip S q v : keyed S q -> keyed S (<[v := None]> q).
  Proof.
    intros [A B C D]. split; [done|done|by rewrite insert_length|]. intros u k Hu. apply D. destruct (decide (u = v)) as [->|Hn]; [|by rewrite list_lookup_insert_ne in Hu].
    pose proof (lookup_lt_Some _ _ _ Hu) as Hl. rewrite insert_length in Hl. by rewrite list_lookup_insert in Hu.
  Qed.
  Lemma update_keyed v S q : v < n -> keyed S q -> v ∉ S -> q !! v = Some None -> wpo (bfs_update_neighbors g v q) never (fun q1 => keyed (v :: S) q1 /\
     forall u, u < n -> q1 !! u = (fun o => (fun k => (k + W g v u)%Z) <$> o) <$> q !! u).
  Proof.
    intros Hv [A B C D] Hn Hq. pose proof Hud as [_ Hsy Hlo Hfi].
    assert (HD : NoDup (v :: S)) by (by apply NoDup_cons). assert (HR : forall u, u ∈ v :: S -> u < n) by (intros u [->|?]%elem_of_cons; [done|by apply B]).
    assert (HT : forall u, toward g (v :: S) u = (toward g S u + W g v u)%Z) by (intros u; unfold toward; rewrite sumf_cons; lia).
    pose proof (upd_wp g Hwf v Hv v q Hv C) as U. pose proof (update_neighbors_wp g Hwf never v q Hv C) as U'.
    assert (HK : forall u k, u < n -> q !! u = Some (Some k) -> (0 <= k /\ k + W g v u < H32)%Z).
    { intros u k Hu Hk. destruct (D u k Hk) as [-> Hnu]. pose proof (toward_incident (v :: S) u HD HR Hu) as T. pose proof (toward_incident S u A B Hu) as T'.
      rewrite HT in T. pose proof (incident_H32 g Hwf Hsy Hlo Hfi u Hu). lia. }
    specialize (U HK). destruct (bfs_update_neighbors g v q) as [q1|f]; [|done]. cbn in U, U' |- *. destruct U as [L E]. split.
    - split; [done|done|lia|]. intros u k Hu. assert (Hun : u < n) by (apply lookup_lt_Some in Hu; lia). rewrite E in Hu by done.
      destruct (q !! u) as [[k0|]|] eqn:Eq; try done. cbn in Hu. injection Hu as <-. destruct (D u k0 Eq) as [-> Hnu]. split; [rewrite HT; done|].
      intros [->|?]%elem_of_cons; [congruence|done].
    - exact E.
  Qed.
  Lemma update_same v S q : v < n -> keyed S q -> v ∉ S -> q !! v = Some None -> orel (fun a b => b = qtimes c a /\ keyed (v :: S) a) (bfs_update_neighbors g v q) (bfs_update_neighbors g' v (qtimes c q)).
  Proof.
    intros Hv HK Hn Hq. pose proof (update_keyed v S q Hv HK Hn Hq) as U1. pose proof Hud' as [_ Hsy Hlo Hfi].
    pose proof HK as [A B C D].
    pose proof (upd_wp g' Hwf' v ltac:(by rewrite Hnv) v (qtimes c q) ltac:(by rewrite Hnv) ltac:(by rewrite qt_len, Hnv)) as U.
    pose proof (update_neighbors_wp g' Hwf' never v (qtimes c q) ltac:(by rewrite Hnv) ltac:(by rewrite qt_len, Hnv)) as U'.
    assert (HD : NoDup (v :: S)) by (by apply NoDup_cons). assert (HR : forall u, u ∈ v :: S -> u < n) by (intros u [->|?]%elem_of_cons; [done|by apply B]).
    assert (HT : forall u, toward g (v :: S) u = (toward g S u + W g v u)%Z) by (intros u; unfold toward; rewrite sumf_cons; lia).
    assert (HKK : forall u k, u < nv g' -> qtimes c q !! u = Some (Some k) -> (0 <= k /\ k + W g' v u < H32)%Z).
    { intros u k Hu Hk. rewrite Hnv in Hu. rewrite qt_look in Hk. destruct (q !! u) as [[k0|]|] eqn:Eq; try done. cbn in Hk. injection Hk as <-. destruct (D u k0 Eq) as [-> Hnu].
      pose proof (toward_incident (v :: S) u HD HR Hu) as T. pose proof (toward_incident S u A B Hu) as T'. rewrite HT in T. rewrite (sc_W c g g' Hs Hwf v u Hv).
      pose proof (incident_H32 g' Hwf' Hsy Hlo Hfi u ltac:(by rewrite Hnv)) as I. rewrite (sc_incident c g g' Hs Hwf u Hu) in I. split; [apply Z.mul_nonneg_nonneg; lia|].
      rewrite <- Z.mul_add_distr_l. eapply Z.le_lt_trans; [apply Z.mul_le_mono_nonneg_l; [lia|apply T]|apply I]. }
    specialize (U HKK). destruct (bfs_update_neighbors g v q) as [a|]; [|done]. destruct (bfs_update_neighbors g' v (qtimes c q)) as [b|]; [|done]. cbn in *. destruct U1 as [K1 E1]. destruct U as [L2 E2].
    split; [|done]. apply list_eq. intros u. rewrite qt_look. destruct (decide (u < n)) as [Hu|Hu].
    - rewrite E2 by (by rewrite Hnv). rewrite E1 by done. rewrite qt_look. change (sumf (fun a0 : nat * Z => if decide (fst a0 = u) then snd a0 else 0%Z) (out g' v)) with (W g' v u).
      rewrite (sc_W c g g' Hs Hwf v u Hv). destruct (q !! u) as [[k|]|]; cbn; [|done|done]. do 2 f_equal. lia.
    - rewrite qt_len in L2. rewrite !lookup_ge_None_2; [done|rewrite (ky_len _ _ K1); lia|rewrite L2, C; lia].
  Qed.
  Lemma grow_rel fuel : forall S q p, keyed S q -> mrel (fun a b => b = (qtimes c (fst a), snd a)) (bfs_priority_move g t fuel q p) (bfs_priority_move g' t fuel (qtimes c q) p).
  Proof.
    induction fuel as [|fuel IH]; intros S q p HK; cbn [bfs_priority_move]; rewrite qt_size; (destruct (Nat.eqb_spec (q_size q) 0) as [Hz|Hz]; [by apply mrel_ret|]);
      apply mrel_same; intros w0; apply mrel_same; intros tw; (destruct (negb _); [by apply mrel_ret|]); [apply mrel_fail|].
    eapply (mrel_bind_wp (fun a b => b = (fst a, qtimes c (snd a)))); [apply (qt_pop c Hc)|apply (q_pop_wp _ anyf Hz)|]. intros [v q1] ? -> (Hq & k & Hv & _). cbn [fst snd] in *. subst q1.
    assert (Hvn : v < n) by (rewrite <- (ky_len _ _ HK); by eapply lookup_lt_Some). rewrite (sc_has_vw c g g' Hs), (sc_vwt c g g' Hs). apply mrel_same. intros vw. apply mrel_same. intros mx.
    destruct (_ <=? _)%Z; [|apply (IH S); by apply keyed_skip]. rewrite (sc_part_move c g g' Hs). apply mrel_same. intros p1.
    eapply mrel_bind; [apply mrel_lift, (update_same v S); [done|by apply keyed_skip|by apply (ky_key _ _ HK v k)|apply list_lookup_insert; by rewrite (ky_len _ _ HK)]|].
    intros a b [-> HK1]. by apply (IH (v :: S)).
  Qed.
  (** The first vertex considered is the seed, on both sides. *)
  Lemma grow_first m seed q p : seed < n -> length q = n -> (forall v, v < n -> q !! v = Some (Some (if decide (v = seed) then 1 else 0)%Z)) ->
    mrel (fun a b => q_members (fst b) = q_members (fst a) /\ snd b = snd a) (bfs_priority_move g t (S m) q p) (bfs_priority_move g' t (S m) q p).
  Proof.
    intros Hseed HL HQ.
    assert (Hz : q_size q <> 0). { rewrite q_size_zero. intros H. apply (H seed 1%Z). rewrite HQ, decide_True by done. done. }
    cbn [bfs_priority_move]. destruct (Nat.eqb_spec (q_size q) 0) as [|_]; [done|]. apply mrel_same; intros w0; apply mrel_same; intros tw. destruct (negb _); [by apply mrel_ret|].
    eapply (mrel_bind_wp eq); [apply mrel_refl|apply (q_pop_wp _ anyf Hz)|]. intros [v q1] ? <- (Hq & k & Hv & Hmax). cbn [fst snd] in *. subst q1.
    assert (v = seed) as ->.
    { assert (Hvn : v < n) by (rewrite <- HL; by eapply lookup_lt_Some). destruct (decide (v = seed)) as [|Hne]; [done|]. rewrite HQ, decide_False in Hv by done. injection Hv as <-.
      specialize (Hmax seed 1%Z). rewrite HQ, decide_True in Hmax by done. specialize (Hmax eq_refl). lia. }
    assert (HK : keyed [] (<[seed := None]> q)).
    { split; [apply NoDup_nil_2|intros v Hn; by apply elem_of_nil in Hn|rewrite insert_length; lia|]. intros u k' Hu. destruct (decide (u = seed)) as [->|Hne]; [by rewrite list_lookup_insert in Hu by lia|].
      rewrite list_lookup_insert_ne in Hu by done. assert (u < n) by (rewrite <- HL; by eapply lookup_lt_Some). rewrite HQ, decide_False in Hu by done. injection Hu as <-. split; [done|apply not_elem_of_nil]. }
    assert (H0 : qtimes c (<[seed := None]> q) = <[seed := None]> q).
    { apply list_eq. intros u. rewrite qt_look. destruct (decide (u = seed)) as [->|Hne]; [by rewrite list_lookup_insert by lia|]. rewrite list_lookup_insert_ne by done. destruct (decide (u < n)).
      - rewrite HQ, decide_False by done. cbn. do 2 f_equal. lia. - by rewrite lookup_ge_None_2 by lia. }
    rewrite (sc_has_vw c g g' Hs), (sc_vwt c g g' Hs). apply mrel_same. intros vw. apply mrel_same. intros mx.
    destruct (_ <=? _)%Z.
    - rewrite (sc_part_move c g g' Hs). apply mrel_same. intros p1. rewrite <- H0 at 2.
      eapply mrel_bind; [apply mrel_lift, (update_same seed []); [lia|done|apply not_elem_of_nil|apply list_lookup_insert; lia]|]. intros a b [-> HK1].
      eapply mrel_mono; [by apply (grow_rel m [seed])|]. intros x y ->. cbn [fst snd]. by rewrite qt_members.
    - rewrite <- H0 at 2. eapply mrel_mono; [by apply (grow_rel m [])|]. intros x y ->. cbn [fst snd]. by rewrite qt_members.
  Qed.
  Lemma unit_same rem p : bfs_unit_balance g' t rem p = bfs_unit_balance g t rem p.
  Proof.
    induction rem as [|v rem IH]; [done|]. cbn [bfs_unit_balance]. rewrite IH. destruct (get_weight p 0); [|done]. cbn [obind]. destruct (balance_improves _ _ _) as [[]|]; [|done|done]. cbn [obind].
    by rewrite (sc_part_move c g g' Hs).
  Qed.
  Lemma weight_loop_same fuel : forall q p, mrel eq (bfs_weight_balance_loop g t fuel q p) (bfs_weight_balance_loop g' t fuel q p).
  Proof.
    induction fuel as [|fuel IH]; intros q p; cbn [bfs_weight_balance_loop]; (destruct (Nat.eqb _ _); [apply mrel_refl|]); [apply mrel_refl|]. apply mrel_same. intros r. rewrite (sc_vwt c g g' Hs).
    apply mrel_same. intros w. apply mrel_same. intros w0. apply mrel_same. intros b. rewrite (sc_part_move c g g' Hs). destruct b; [apply mrel_refl|apply IH].
  Qed.
  Lemma weight_same rem p : mrel eq (bfs_weight_balance g t rem p) (bfs_weight_balance g' t rem p).
  Proof.
    unfold bfs_weight_balance. rewrite Hnv. eapply (mrel_bind eq); [|intros q ? <-; apply weight_loop_same]. apply mrel_lift. apply orel_fold; [|done]. intros q ? v _ <-. rewrite (sc_vwt c g g' Hs). apply orel_refl.
  Qed.
  Definition prel2 (a b : part) : Prop := exact_part 2 g a /\ exact_part 2 g' b /\ b = ptimes c a.
  Lemma bfs_from_rel seed : seed < n -> mrel prel2 (bfs_from seed t g) (bfs_from seed t g').
  Proof.
    intros Hseed. eapply mrel_mono; [refine (mrel_and (fun a b => p_where b = p_where a) _ _ (bfs_result g t) (bfs_result g' t) _ _ _)|].
    - unfold bfs_from. rewrite Hnv, (sc_part_new c g g' Hs). pose proof (queue_init g seed Hseed never) as Q0.
      destruct (q_add (q_new n) 1%Z seed) as [q0|]; [|done]. cbn [obind] in Q0. apply mrel_ok.
      destruct (ofold _ q0 _) as [q|]; [|done]. cbn in Q0. destruct Q0 as [HL HQ]. apply mrel_ok.
      rewrite (sc_assign_all c g g' Hs). apply mrel_same. intros p. eapply mrel_bind; [replace n with (S (n - 1)) by lia; by apply (grow_first _ seed)|]. intros [q1 p1] [q2 p2] [E1 E2]. cbn [fst snd] in E1, E2 |- *. subst p2.
      apply mrel_same. intros w1. apply mrel_same. intros m1. eapply (mrel_bind eq).
      + destruct (_ <? _)%Z; [|apply mrel_refl]. unfold q_remaining. rewrite E1. apply mrel_same. intros rem. rewrite (sc_uvw _ _ _ Hs). destruct (g_uvw g); [apply weight_same|]. rewrite unit_same. apply mrel_refl.
      + intros p3 ? <-. apply mrel_lift. eapply orel_mono; [apply (recalc_rel c g g' Hs Hwf Hwf')|]. intros a b [-> ->]. done.
    - eapply wpm_mono; [apply (bfs_from_wp g Hwf t Ht seed Hseed)| |]; done.
    - eapply wpm_mono; [apply (bfs_from_wp g' Hwf' t Ht seed ltac:(by rewrite Hnv))| |]; done.
    - intros a b (Hw & [_ X1 _] & [_ X2 _]). pose proof Hud as [_ Hsy Hlo Hfi]. pose proof Hud' as [_ Hsy' Hlo' Hfi']. specialize (X1 Hsy Hfi). specialize (X2 Hsy' Hfi').
      split; [done|]. split; [done|]. by apply (sc_exact c g g' Hs Hwf 2).
  Qed.
  Lemma bfs_rel : mrel prel2 (bfs_execute t g) (bfs_execute t g').
  Proof.
    unfold bfs_execute. rewrite Hnv. eapply (mrel_bind_wp eq _ (fun s => s < n)); [apply mrel_refl| |intros s ? <- Hs0; by apply bfs_from_rel].
    destruct (decide (n = 0)) as [E|E]; [rewrite E; intros [|x cs]; exact Logic.I|]. apply wpm_choose_below; [lia|done].
  Qed.

  (** ** The best of several *)
  Lemma multi_rel k (bis bis' : bisector) : (0 < k)%Z -> mrel prel2 (bis t g) (bis' t g') -> mrel prel2 (multi_execute k bis t g) (multi_execute k bis' t g').
  Proof.
    intros Hk HB. unfold multi_execute. rewrite (sc_part_new c g g' Hs).
    set (R := fun (b : nat) (x y : multi_best) => (b <> 0 -> prel2 (mb_part x) (mb_part y)) /\ mb_found y = mb_found x /\ mb_bal y = mb_bal x /\ mb_cut y = (c * mb_cut x)%Z).
    eapply (mrel_bind (R (Z.to_nat k))); [|intros x y (H & _); apply mrel_ret, H; lia].
    assert (HX : forall m i x y, R i x y -> mrel (R (i + m)) (mfold (fun best b => do! p := bis t g in lift (multi_consider t g b best p)) x (seq i m)) (mfold (fun best b => do! p := bis' t g' in lift (multi_consider t g' b best p)) y (seq i m))).
    { induction m as [|m IH]; intros i x y HR; [rewrite Nat.add_0_r; by apply mrel_ret|]. rewrite <- cons_seq. cbn [mfold].
      eapply (mrel_bind (R (S i))); [|intros x1 y1 H1; replace (i + S m) with (S i + m) by lia; by apply IH].
      eapply mrel_bind; [exact HB|]. intros p p' (X1 & X2 & ->). apply mrel_lift. unfold multi_consider.
      rewrite (sc_imbalance c g g' Hs), (imbalance_pw g t p (ptimes c p)), (balanced_pw t p (ptimes c p)) by done. eapply orel_bind; [apply orel_refl|]. intros bal ? <-.
      eapply orel_bind; [apply orel_refl|]. intros isb ? <-. cbn [orel]. destruct HR as (R1 & R2 & R3 & R4).
      replace (multi_accept (Nat.eqb i 0) y bal isb (p_cut (ptimes c p))) with (multi_accept (Nat.eqb i 0) x bal isb (p_cut p)).
      2: { unfold multi_accept. rewrite R2, R3, R4. cbn [ptimes p_cut]. do 2 f_equal. destruct (Z.ltb_spec (p_cut p) (mb_cut x)), (Z.ltb_spec (c * p_cut p) (c * mb_cut x)); nia || done. }
      destruct (multi_accept _ x _ _ _) eqn:EA; unfold R; cbn [mb_part mb_found mb_bal mb_cut]; [rewrite R2; done|]. split; [|done]. intros _. apply R1. intros ->. cbn in EA. done. }
    apply (HX (Z.to_nat k) 0). unfold R; cbn [mb_found mb_bal mb_cut]. split; [done|]. split; [done|]. split; [done|]. lia.
  Qed.
End Bfs.
