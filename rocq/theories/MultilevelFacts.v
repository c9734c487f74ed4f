(** * MultilevelFacts: the hierarchy of coarse graphs (C50), multilevel bisection for any
    components (C48) and its termination (C09). *)
From Verif Require Import Base F64 ModelGraph ModelBuilders ModelPartition ModelConn ModelFM ModelAgg ModelMultilevel Spec Logic Sums
  GraphFacts PartFacts ConnFacts BucketFacts AggFacts BuilderFacts ContractFacts ProjectFacts FloatUse BisectFacts.

(** An undirected graph without self loops whose directed edge weight fits 32 bits. *)
Record undirected (g : graph) : Prop := {
  ud_wf : wf_graph g;
  ud_sym : symmetric g;
  ud_loopless : loopless g;
  ud_fits : fits g
}.

(** A grouping into no more groups than vertices. *)
Definition coarsening (n : nat) (a : aggregation) : Prop := grouping n a /\ a_num_coarse a <= n.
(** [level g0 g cm]: g is a graph of a hierarchy over g0, obtained by contracting such groupings,
    and cm maps the vertices of g0 to those of g. *)
Inductive level (g0 : graph) : graph -> (nat -> nat) -> Prop :=
  | level_top : level g0 g0 (fun v => v)
  | level_down g cm a cg : level g0 g cm -> coarsening (nv g) a -> contract g a = Ok cg ->
      level g0 cg (fun v => group_of a (cm v)).

Lemma nsum_le f h n : (forall i, i < n -> f i <= h i) -> nsum f n <= nsum h n.
Proof. intros H. induction n as [|n IH]; simpl; [done|]. pose proof (H n ltac:(lia)). specialize (IH (fun i Hi => H i ltac:(lia))). lia. Qed.
Lemma out_lengths g : wf_graph g -> nsum (fun v => length (out g v)) (nv g) = ne g.
Proof.
  intros Hwf. apply Nat2Z.inj.
  assert (H : forall k f, Z.of_nat (nsum f k) = sumn k (fun c => Z.of_nat (f c))).
  { intros k f. induction k as [|k IH]; [done|]. rewrite sumn_S. simpl. lia. }
  rewrite H. pose proof (sum_out_edges g (fun _ => 1%Z) (wf_first g Hwf) (wf_mono g Hwf) (nv g) (le_n _)) as E.
  rewrite (wf_last g Hwf), sumf_const, seq_length in E.
  rewrite (sumn_ext (nv g) _ (fun u => sumf (fun _ => 1%Z) (out g u))); [lia|]. intros v _. rewrite sumf_const. lia.
Qed.
(** Contraction never adds edges. *)
Lemma coarse_edges g a cg : wf_graph g -> grouping (nv g) a -> coarse_of g a cg -> ne cg <= ne g.
Proof.
  intros Hwf Hg Hc. rewrite <- (out_lengths cg (co_wf _ _ _ Hc)), <- (calls_total g Hwf a Hg), (co_nv _ _ _ Hc).
  apply nsum_le. intros c Hlt. rewrite <- (fmap_length fst (out cg c)), <- (fmap_length fst (calls g a c)).
  rewrite <- (co_nv _ _ _ Hc) in Hlt. apply submseteq_length. apply NoDup_submseteq; [by apply Hc|].
  intros d Hd. apply (fst_calls g a c d Hwf Hg). apply (co_edge _ _ _ Hc c d Hlt) in Hd as [_ Hd]. exact Hd.
Qed.

Record level_ok (g0 g : graph) (cm : nat -> nat) : Prop := {
  lo_ud : undirected g;
  lo_cm : forall v, v < nv g0 -> cm v < nv g;
  lo_ne : ne g <= ne g0;
  lo_nv : nv g <= nv g0;
  lo_tvw : g_tvw g = g_tvw g0;
  lo_cut : forall (f : nat -> option nat), edge_cut g f = edge_cut g0 (fun v => f (cm v));
  lo_weight : forall (f : nat -> option nat) x, u32 (label_weight g f x) = u32 (label_weight g0 (fun v => f (cm v)) x);
  lo_vsum : light g0 -> sumn (nv g) (vweight g) = sumn (nv g0) (vweight g0)
}.
Lemma level_inv g0 g cm : undirected g0 -> level g0 g cm -> level_ok g0 g cm.
Proof.
  intros H0 HL. induction HL as [|g cm a cg HL IH [Hg Hle] E]; [constructor; done|].
  destruct IH as [[Hwf Hs Hl Hf] Hcm Hne Hnv Ht Hcut Hw Hv].
  destruct (contract_ok g a Hwf Hg) as (cg' & E' & Hc). rewrite E in E'. injection E' as <-.
  constructor.
  - constructor; [apply Hc|by eapply coarse_symmetric|apply Hc|by eapply coarse_fits].
  - intros v Hlt. rewrite (co_nv _ _ _ Hc). apply (group_lt g a Hg); auto.
  - pose proof (coarse_edges g a cg Hwf Hg Hc). lia.
  - rewrite (co_nv _ _ _ Hc). lia.
  - rewrite (coarse_tvw g Hwf a Hg cg Hc). done.
  - intros f. rewrite (coarse_cut g Hwf a Hg cg Hc f Hf Hs), Hcut. done.
  - intros f x. rewrite (coarse_label_weight g a Hg cg Hc f x), Hw. done.
  - intros Hli. rewrite (coarse_vsum g Hwf a Hg cg Hc); [by apply Hv|]. rewrite Hv by done. exact Hli.
Qed.
Lemma level_shape g0 g cm : undirected g0 -> level g0 g cm -> g = g0 \/ g_uvw g = false.
Proof.
  intros H0 HL. destruct HL as [|g cm a cg HL [Hg _] E]; [by left|]. right.
  destruct (contract_ok g a (ud_wf _ (lo_ud _ _ _ (level_inv _ _ _ H0 HL))) Hg) as (cg' & E' & Hc). rewrite E in E'. injection E' as <-. apply Hc.
Qed.
Lemma level_light g0 g cm : undirected g0 -> level g0 g cm -> light g0 -> light g.
Proof. intros H0 HL Hl. unfold light. rewrite (lo_vsum _ _ _ (level_inv _ _ _ H0 HL) Hl). exact Hl. Qed.
Lemma level_nonempty g0 g cm : undirected g0 -> level g0 g cm -> 0 < nv g0 -> 0 < nv g.
Proof. intros H0 HL Hn. pose proof (lo_cm _ _ _ (level_inv _ _ _ H0 HL) 0 Hn). lia. Qed.
Lemma level_weights g0 g cm : undirected g0 -> level g0 g cm -> length (g_vw g0) = nv g0 -> length (g_vw g) = nv g.
Proof.
  intros H0 HL Hv. destruct HL as [|g cm a cg HL [Hg _] E]; [done|].
  destruct (contract_ok g a (ud_wf _ (lo_ud _ _ _ (level_inv _ _ _ H0 HL))) Hg) as (cg' & E' & Hc). rewrite E in E'. injection E' as <-.
  apply (wf_uvw_f cg (co_wf _ _ _ Hc)). apply Hc.
Qed.

(** Everything handed up from a level. *)
Definition ml_good (g : graph) (r : conn * part) : Prop :=
  exact_part 2 g (snd r) /\ conn_exact g (lab (snd r)) (fst r) /\ border_exact g (lab (snd r)) (fst r).

Lemma ml_criteria_eq : ml_criteria = Ok (composite_stop [vertex_number_stop 20; edge_ratio_stop f_0_95]).
Proof. unfold ml_criteria. replace (edge_ratio_make f_0_95) with (Ok f_0_95) by (vm_compute; reflexivity). reflexivity. Qed.
Section ML.
  Context (g0 : graph) (Hg0 : undirected g0) (Hne : (Z.of_nat (ne g0) < W32)%Z).
  Context (agg : aggregator) (init : bisector) (ref : refiner) (t : target) (maxW : Z) (E : failure -> Prop).
  Context (Hagg : forall g cm, level g0 g cm -> wpm (agg maxW g) E (coarsening (nv g))).
  Context (Hinit : forall g cm, level g0 g cm -> wpm (init t g) E (exact_part 2 g)).
  Context (Href : forall g cm c p, level g0 g cm -> ml_good g (c, p) -> wpm (ref g t c p) E (ml_good g)).
  Let stop : criteria := composite_stop [vertex_number_stop 20; edge_ratio_stop f_0_95].

  Definition enough_fuel (fuel level : nat) (parent : option graph) (g : graph) : Prop :=
    match parent with None => level = 0 /\ ne g < fuel | Some f => ne f <= fuel /\ (Z.of_nat (ne f) < W32)%Z end.
  Lemma stop_ok fuel lvl parent g : enough_fuel fuel lvl parent g -> (Z.of_nat (ne g) < W32)%Z ->
    exists b, stop lvl parent (Some g) = Ok b /\ (b = false -> ne g < fuel).
  Proof.
    intros HF Hb. unfold stop. cbn [composite_stop]. unfold vertex_number_stop. cbn [obind].
    destruct (Nat.leb (nv g) 20); [exists true; done|]. unfold edge_ratio_stop.
    assert (Hnt : (Nat.ltb 0 lvl && bool_decide (parent = None)) = false).
    { destruct parent as [f|]; [rewrite bool_decide_false by done; apply andb_false_r|]. destruct HF as [-> _]. done. }
    rewrite Hnt. destruct (Nat.eqb (ne g) 0); [exists true; done|].
    destruct parent as [f|]; simpl in HF.
    - destruct HF as [HF1 HF2]. destruct (Nat.eqb_spec (ne f) 0) as [Hz|Hz]; [exists true; done|].
      destruct (fgt (fdiv (f_of_nat (ne g)) (f_of_nat (ne f))) f_0_95) eqn:Er; cbn [obind]; [exists true; done|].
      exists false. split; [done|]. intros _. pose proof (ratio_shrinks (ne g) (ne f) Hb HF2 ltac:(lia) Er). lia.
    - exists false. split; [done|]. intros _. lia.
  Qed.
  Lemma ml_recurse_wp fuel : forall lvl parent g cm, level g0 g cm -> enough_fuel fuel lvl parent g ->
    wpm (ml_recurse agg init ref stop maxW t fuel lvl parent g) E (ml_good g).
  Proof.
    induction fuel as [|fuel IH]; intros lvl parent g cm HL HF.
    all: pose proof (level_inv _ _ _ Hg0 HL) as HLo; pose proof (lo_ud _ _ _ HLo) as [Hwf Hs Hl Hf]; pose proof (lo_ne _ _ _ HLo) as HN.
    all: destruct (stop_ok _ lvl parent g HF ltac:(lia)) as (b & Eb & Hb); cbn [ml_recurse]; rewrite Eb; apply wpm_liftk.
    all: destruct b; [eapply wpm_bind; [by eapply Hinit|]; intros p Hp;
      eapply wpm_bind; [apply wpm_lift; apply (from_partitioning_wp g Hwf Hf E p); apply Hp|]; intros c [Hc1 Hc2];
      apply wpm_ret; split; [done|]; split; [done|]; by apply fresh_exact|].
    - specialize (Hb eq_refl). lia.
    - specialize (Hb eq_refl). eapply wpm_bind; [by eapply Hagg|]. intros a Hco. pose proof (proj1 Hco) as Ha.
      destruct (coarse_make_ok g a Hwf Ha) as (cg & Ecg & Hcg). rewrite Ecg. apply wpm_liftk. cbn [cg_coarse].
      assert (Econ : contract g a = Ok cg).
      { destruct (contract_ok g a Hwf Ha) as (cg' & E' & _). unfold coarse_make in Ecg. rewrite E' in Ecg. cbn [obind] in Ecg.
        destruct (Nat.eqb _ _); [|done]. injection Ecg as <-. done. }
      eapply wpm_bind; [apply (IH (S lvl) (Some g) cg _ (level_down _ _ _ _ _ HL Hco Econ))|].
      { simpl. split; lia. }
      intros [cc cp] (HX & HC & HB). cbn [fst snd] in *.
      eapply wpm_bind; [apply wpm_lift; apply (project_wp g Hwf Hs Hf a Ha cg Hcg 2 cp HX cc)|].
      + apply HC.
      + intros c Hlt Hext. apply (HB c Hlt); [|done]. rewrite <- (int_ext_total cg (lab cp) c).
        pose proof (internal_nonneg cg (co_wf _ _ _ Hcg) (lab cp) c Hlt). lia.
      + intros [fc fp] (P1 & P2 & P3 & _). cbn [fst snd] in *. eapply Href; [done|]. split; [done|]. split; [done|]. by apply fresh_exact.
  Qed.
  Lemma ml_execute_wp : ml_max_weight g0 = Ok maxW -> wpm (ml_execute agg init ref t g0) E (exact_part 2 g0).
  Proof.
    intros EM. unfold ml_execute. rewrite ml_criteria_eq. apply wpm_liftk.
    rewrite EM. apply wpm_liftk. eapply wpm_bind; [apply (ml_recurse_wp _ 0 None g0 _ (level_top g0))|].
    - split; [done|]. lia.
    - intros r Hr. apply wpm_ret. apply Hr.
  Qed.
End ML.

(** ** The library's components *)
From Verif Require Import ModelBisect FMFacts MiscFacts.
Lemma result_coarsening g maxW a : agg_result g maxW a -> coarsening (nv g) a.
Proof.
  intros R. pose proof (ar_grouping _ _ _ R) as HG. split; [done|]. destruct HG as (HL & _ & HGr).
  rewrite <- HL. rewrite <- (seq_length (a_num_coarse a) 0). apply submseteq_length. apply NoDup_submseteq; [apply NoDup_seq|].
  intros c Hc%elem_of_seq. assert (Hlt : c < a_num_coarse a) by lia.
  assert (Hv : exists v l, agg_group a c = Ok l /\ v ∈ l).
  { destruct (ar_size _ _ _ R c Hlt) as (v & [H|(w & H & _)]); exists v; [exists [v]|exists [v; w]]; (split; [done|set_solver]). }
  destruct Hv as (v & l & E & Hv). rewrite (HGr c Hlt) in E. injection E as <-. apply elem_of_list_filter in Hv as [Hv _].
  eapply elem_of_list_lookup_2. exact Hv.
Qed.
Lemma aggregator_make_wp scheme agg E g maxW : aggregator_make scheme = Ok agg -> wf_graph g -> loopless g ->
  wpm (agg maxW g) E (coarsening (nv g)).
Proof.
  intros H Hwf Hl. unfold aggregator_make in H. destruct (scheme =? 0)%Z; [|destruct (scheme =? 1)%Z; [|done]]; injection H as <-.
  - eapply wpm_mono; [by apply rm_aggregate_wp|done|]. intros a. apply result_coarsening.
  - eapply wpm_mono; [by apply shemrm_aggregate_wp|done|]. intros a. apply result_coarsening.
Qed.
Lemma multi_execute_wp n bis t g (E : failure -> Prop) (P : part -> Prop) : (1 <= n)%Z -> 2 <= length (t_frac t) -> 2 <= length (t_max t) ->
  wpm (bis t g) E P -> (forall p, P p -> length (p_pw p) = 2) -> wpm (multi_execute n bis t g) E P.
Proof.
  intros Hn Hf Hm HB HL. unfold multi_execute.
  eapply wpm_bind; [apply (mfold_seq_wp (fun k b => k <> 0 -> P (mb_part b)))|].
  - done.
  - intros i b Hi HI. eapply wpm_bind; [exact HB|]. intros p Hp. apply wpm_lift. unfold multi_consider.
    destruct (calc_max_imbalance_ok g t p ltac:(rewrite (HL p Hp); lia)) as [x ->]. cbn [obind].
    destruct (is_balanced_ok t p ltac:(rewrite (HL p Hp); lia)) as (y & -> & _). cbn [obind].
    unfold multi_accept. destruct (Nat.eqb_spec i 0) as [->|Hi0]; simpl; [done|].
    destruct (_ || _); simpl; intros _; [done|]. by apply HI.
  - intros b Hb. apply wpm_ret. apply Hb. lia.
Qed.
Lemma fm_good E maxIters maxMoves g t c p : undirected g -> (Z.of_nat (nv g) < W32)%Z -> 2 <= length (t_frac t) -> 2 <= length (t_max t) ->
  ml_good g (c, p) -> wpm (fm_refine maxIters maxMoves g t c p) E (ml_good g).
Proof.
  intros [Hwf Hs Hl Hf] Hn Htf Htm (H1 & H2 & H3). cbn [fst snd] in *. destruct (max_bad_moves_ok maxMoves (nv g) Hn) as [mb Hmb].
  eapply wpm_post; [by apply (fm_refine_wp g Hwf Hs Hl Hf t Htf Htm E maxIters maxMoves c p mb)|].
  intros r (A & B & C & _). done.
Qed.
Section Library.
  Context (g0 : graph) (Hg0 : undirected g0) (Hne : (Z.of_nat (ne g0) < W32)%Z) (Hnv : (Z.of_nat (nv g0) < W32)%Z) (Hn0 : 0 < nv g0).
  Context (t : target) (Ht : two_way t).
  Lemma library_bfs_wp scheme agg n it mv : aggregator_make scheme = Ok agg -> (1 <= n)%Z ->
    wpm (ml_execute agg (multi_execute n bfs_execute) (fm_refine it mv) t g0) (no_weights g0) (exact_part 2 g0).
  Proof.
    intros Hagg Hn. destruct (ml_max_weight_ok g0) as (mw & Emw & _).
    { rewrite (wf_tvw _ (ud_wf _ Hg0)). unfold u32. apply Z.mod_pos_bound. done. }
    assert (Htf : 2 <= length (t_frac t)) by (rewrite (tw_frac t Ht); done). assert (Htm : 2 <= length (t_max t)) by (rewrite (tw_max t Ht); done).
    apply (ml_execute_wp g0 Hg0 Hne _ _ _ t mw); [| | |done].
    - intros g cm HL. pose proof (lo_ud _ _ _ (level_inv _ _ _ Hg0 HL)) as [Hwf Hs Hl Hf]. by eapply aggregator_make_wp.
    - intros g cm HL. pose proof (lo_ud _ _ _ (level_inv _ _ _ Hg0 HL)) as [Hwf Hs Hl Hf].
      apply multi_execute_wp; try done; [|intros p Hp; apply Hp].
      eapply wpm_mono; [apply (bfs_execute_wp g Hwf t Ht); by eapply level_nonempty| |].
      + intros f (Hf1 & Hf2 & Hf3). destruct (level_shape g0 g cm Hg0 HL) as [->|Hx]; [done|congruence].
      + intros p Hp. by apply Hp.
    - intros g cm c p HL Hgd. pose proof (lo_ud _ _ _ (level_inv _ _ _ Hg0 HL)) as HU. pose proof (lo_nv _ _ _ (level_inv _ _ _ Hg0 HL)).
      apply fm_good; try done. lia.
  Qed.
End Library.
