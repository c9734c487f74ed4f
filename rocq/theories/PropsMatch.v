(** * PropsMatch: what the two matchings do as a whole (C70), without the array of partners. *)
From Verif Require Import Base F64 ModelGraph ModelAgg Spec Logic Sums GraphFacts AggFacts MiscFacts PropsCoarsen TreeFacts Examples.
#[local] Arguments seq : simpl nomatch.

(** ** Specification *)
(** ps: the pairs made so far, in order. *)
Notation pairs := (list (nat * nat)).
Definition partner (ps : pairs) (v u : nat) : Prop := (v, u) ∈ ps \/ (u, v) ∈ ps.
Definition single (ps : pairs) (v : nat) : Prop := forall u, ~ partner ps v u.
(** v may be paired along the edge a: the neighbour is single and the pair not too heavy. *)
Definition joinable (g : graph) (maxW : Z) (ps : pairs) (v : nat) (a : nat * Z) : Prop :=
  a ∈ out g v /\ single ps (fst a) /\ (vweight g v + vweight g (fst a) <= maxW)%Z.
(** The edge taken: the first one, or the first of the heaviest ones, in the order they are stored. *)
Definition first_edge (g : graph) (maxW : Z) (ps : pairs) (v : nat) (a : nat * Z) : Prop :=
  exists pre post, out g v = pre ++ a :: post /\ joinable g maxW ps v a /\ forall b, b ∈ pre -> ~ joinable g maxW ps v b.
Definition heavy_edge (g : graph) (maxW : Z) (ps : pairs) (v : nat) (a : nat * Z) : Prop :=
  exists pre post, out g v = pre ++ a :: post /\ joinable g maxW ps v a /\
    (forall b, b ∈ pre -> joinable g maxW ps v b -> (snd b < snd a)%Z) /\ (forall b, b ∈ post -> joinable g maxW ps v b -> (snd b <= snd a)%Z).
(** Visiting the vertices vs one after the other makes the pairs ps. *)
Inductive visits (g : graph) (maxW : Z) (choice : pairs -> nat -> nat * Z -> Prop) : list nat -> pairs -> Prop :=
| visit_none : visits g maxW choice [] []
| visit_taken vs ps v : visits g maxW choice vs ps -> ~ single ps v -> visits g maxW choice (vs ++ [v]) ps
| visit_alone vs ps v : visits g maxW choice vs ps -> single ps v -> (forall a, ~ joinable g maxW ps v a) -> visits g maxW choice (vs ++ [v]) ps
| visit_pair vs ps v a : visits g maxW choice vs ps -> single ps v -> choice ps v a -> visits g maxW choice (vs ++ [v]) (ps ++ [(v, fst a)]).
(** The groups are the pairs and the single vertices, numbered in the order of their smallest vertex. *)
Record groups (n : nat) (ps : pairs) (cm : list nat) (k : nat) : Prop := {
  gr_len : length cm = n;
  gr_lt : forall v c, cm !! v = Some c -> c < k;
  gr_onto : forall c, c < k -> exists v, cm !! v = Some c;
  gr_same : forall v w, v < n -> w < n -> (cm !! v = cm !! w <-> v = w \/ partner ps v w);
  gr_order : forall v w c d, cm !! v = Some c -> cm !! w = Some d ->
    (forall x, cm !! x = Some c -> v <= x) -> (forall x, cm !! x = Some d -> w <= x) -> v < w -> c < d
}.
(** Random matching: any order, first edge.  Heavy edge matching: by increasing degree, heaviest
    edge; where all edges weigh the same it is random matching. *)
Definition random_matching (g : graph) (maxW : Z) (cm : list nat) (k : nat) : Prop :=
  exists vs ps, vs ≡ₚ seq 0 (nv g) /\ visits g maxW (first_edge g maxW) vs ps /\ groups (nv g) ps cm k.
Definition heavy_matching (g : graph) (maxW : Z) (cm : list nat) (k : nat) : Prop :=
  exists vs ps, vs ≡ₚ seq 0 (nv g) /\ (forall i j a b, i <= j -> vs !! i = Some a -> vs !! j = Some b -> length (out g a) <= length (out g b)) /\
    visits g maxW (heavy_edge g maxW) vs ps /\ groups (nv g) ps cm k.

(** ** Proof *)
Section Match.
  Context (g : graph) (Hwf : wf_graph g) (Hloop : loopless g) (maxW : Z) (Hs : (sumn (nv g) (vweight g) < NULL_WGT)%Z).
  Local Notation n := (nv g).
  Definition okc (m : matching) (v : nat) (a : nat * Z) : Prop := m !! fst a = Some None /\ is_allowed_vertex_weight maxW (u32 (vweight g v + vweight g (fst a))) = true.
  Definition edge (e : nat) : nat * Z := (nth e (g_adj g) 0, wgt_at (g_ew g) e).
  Lemma first_exact m v es : length m = n -> v < n -> (forall e, e ∈ es -> e < ne g) ->
    wpo (first_allowed g maxW (vweight g v) m es) never (fun r =>
      match r with
      | Some u => exists pre w post, edge <$> es = pre ++ (u, w) :: post /\ okc m v (u, w) /\ forall b, b ∈ pre -> ~ okc m v b
      | None => forall b, b ∈ edge <$> es -> ~ okc m v b
      end).
  Proof.
    intros Hm Hv. induction es as [|e es IH]; intros Hes; cbn [first_allowed].
    - cbn [wpo]. intros b Hb. by apply not_elem_of_nil in Hb.
    - pose proof (Hes e ltac:(by left)) as He. rewrite dst_ok by done. cbn [obind]. rewrite fmap_cons. cbn [edge].
      set (u := nth e (g_adj g) 0) in *. assert (Hu : u < n) by (apply wf_dst; done).
      rewrite vwt_ok by done. cbn [obind]. destruct (lookup_lt_is_Some_2 m u ltac:(lia)) as [x Hx].
      rewrite (mb_is_matched_ok _ _ _ Hx). cbn [obind].
      destruct (negb (bool_decide (is_Some x)) && is_allowed_vertex_weight maxW (u32 (vweight g v + vweight g u))) eqn:E.
      + cbn [wpo]. exists [], (wgt_at (g_ew g) e), (edge <$> es). split; [done|]. apply andb_true_iff in E as [E1 E2]. split; [|intros b Hb; by apply not_elem_of_nil in Hb].
        split; [|done]. cbn [fst]. destruct x; [|done]. rewrite bool_decide_eq_true_2 in E1 by eauto. done.
      + assert (Hno : ~ okc m v (edge e)).
        { intros [H2 H3]. cbn [edge fst] in H2, H3. fold u in H2, H3. rewrite Hx in H2. injection H2 as ->. rewrite H3 in E. done. }
        eapply wpo_post; [apply IH; intros e' He'; apply Hes; by right|]. intros [y|].
        * intros (pre & w & post & E1 & Hok & Hpre). exists (edge e :: pre), w, post. rewrite E1. split; [done|]. split; [done|]. intros b [->|Hb]%elem_of_cons; [done|auto].
        * intros Hr b [->|Hb]%elem_of_cons; [done|auto].
  Qed.
  Lemma heaviest_exact m v : length (g_ew g) = ne g -> length m = n -> v < n ->
    wpo (heaviest g maxW (vweight g v) m (seq (pre_at g v) (pre_at g (S v) - pre_at g v))) never (fun r =>
      match fst r with
      | Some u => exists pre post, out g v = pre ++ (u, snd r) :: post /\ okc m v (u, snd r) /\
          (forall b, b ∈ pre -> okc m v b -> (snd b < snd r)%Z) /\ (forall b, b ∈ post -> okc m v b -> (snd b <= snd r)%Z)
      | None => forall b, b ∈ out g v -> ~ okc m v b
      end).
  Proof.
    intros Hew Hm Hv.
    assert (H : wpo (for_edges g v (fun best e =>
      let! u := dst g e in let! uw := vwt (has_vw g) g u in let! mt := mb_is_matched m u in
      if negb mt && is_allowed_vertex_weight maxW (u32 (vweight g v + uw)) then
        let! pr := ewt true g e in
        Ok (if bool_decide (fst best = None) || (snd best <? pr)%Z then (Some u, pr) else best)
      else Ok best) (None, 0%Z)) never (fun r => match fst r with
      | Some u => exists pre post, out g v = pre ++ (u, snd r) :: post /\ okc m v (u, snd r) /\
          (forall b, b ∈ pre -> okc m v b -> (snd b < snd r)%Z) /\ (forall b, b ∈ post -> okc m v b -> (snd b <= snd r)%Z)
      | None => forall a, a ∈ out g v -> ~ okc m v a
      end)).
    { eapply wpo_post; [apply (for_edges_wp g Hwf v (fun done (r : option nat * Z) => match fst r with
      | Some u => exists pre post, done = pre ++ (u, snd r) :: post /\ okc m v (u, snd r) /\
          (forall b, b ∈ pre -> okc m v b -> (snd b < snd r)%Z) /\ (forall b, b ∈ post -> okc m v b -> (snd b <= snd r)%Z)
      | None => forall a, a ∈ done -> ~ okc m v a end)); [done|intros a Ha; by apply not_elem_of_nil in Ha|]|intros ? Hx; exact Hx].
      intros pre e [u w] post best Eo (He & Hd & Hw & Hwe & Hu & Hwr) IH. cbn [fst snd] in *. rewrite Hd. cbn [obind].
      rewrite vwt_ok by done. cbn [obind]. destruct (lookup_lt_is_Some_2 m u ltac:(lia)) as [x Hx].
      rewrite (mb_is_matched_ok _ _ _ Hx). cbn [obind].
      destruct (negb (bool_decide (is_Some x)) && is_allowed_vertex_weight maxW (u32 (vweight g v + vweight g u))) eqn:E.
      - rewrite (ewt_true_ok g e Hew He). cbn [obind wpo]. rewrite <- Hwe.
        apply andb_true_iff in E as [E1 E2].
        assert (Hok : okc m v (u, w)). { split; [|done]. cbn [fst]. destruct x; [|done]. rewrite bool_decide_eq_true_2 in E1 by eauto. done. }
        destruct best as [[bu|] bw]; cbn [fst snd] in *.
        + rewrite bool_decide_false by done. cbn [orb]. destruct IH as (l1 & l2 & -> & I2 & I3 & I4). destruct (Z.ltb_spec bw w); cbn [fst snd].
          * exists (l1 ++ (bu, bw) :: l2), []. split; [by rewrite <- app_assoc|]. split; [done|]. split; [|intros b Hb; by apply not_elem_of_nil in Hb].
            intros b [Hb|[->|Hb]%elem_of_cons]%elem_of_app Hob; [|done|]; [specialize (I3 b Hb Hob)|specialize (I4 b Hb Hob)]; lia.
          * exists l1, (l2 ++ [(u, w)]). split; [by rewrite <- app_assoc|]. split; [done|]. split; [done|].
            intros b [Hb| ->%elem_of_list_singleton]%elem_of_app Hob; [auto|done].
        + rewrite bool_decide_true by done. cbn [orb fst snd]. exists pre, []. split; [done|]. split; [done|]. split; [|intros b Hb; by apply not_elem_of_nil in Hb].
          intros b Hb Hob. exfalso. by eapply IH.
      - assert (Hno : ~ okc m v (u, w)). { intros [O1 O2]. cbn [fst] in O1, O2. rewrite Hx in O1. injection O1 as ->. rewrite O2 in E. done. }
        cbn [wpo]. destruct best as [[bu|] bw]; cbn [fst snd] in *.
        + destruct IH as (l1 & l2 & -> & I2 & I3 & I4). exists l1, (l2 ++ [(u, w)]). split; [by rewrite <- app_assoc|]. split; [done|]. split; [done|].
          intros b [Hb| ->%elem_of_list_singleton]%elem_of_app Hob; [auto|done].
        + intros a [Ha| ->%elem_of_list_singleton]%elem_of_app Hoa; [by eapply IH|done]. }
    unfold for_edges in H. rewrite edge_range_ok in H by done. exact H.
  Qed.

  (** The array of partners stands for the pairs. *)
  Definition stands (ps : pairs) (m : matching) : Prop := matching_ok n m /\ (forall v u, m !! v = Some (Some u) <-> partner ps v u).
  Lemma stands_single ps m v : stands ps m -> v < n -> m !! v = Some None <-> single ps v.
  Proof.
    intros [[HL _] HP] Hv. destruct (lookup_lt_is_Some_2 m v ltac:(lia)) as [[u|] Hx]; rewrite Hx; split; try done.
    - intros H. exfalso. apply (H u). by apply HP.
    - intros _ u Hu. apply HP in Hu. congruence.
  Qed.
  Lemma okc_joinable ps m v a : stands ps m -> v < n -> joinable g maxW ps v a <-> a ∈ out g v /\ okc m v a.
  Proof.
    intros HS Hv. destruct a as [u w]. assert (HA : cand g maxW m v (u, w) <-> available g maxW m v u w) by (by apply available_cand).
    unfold cand, available in HA. unfold joinable, okc. cbn [fst] in *. rewrite HA. split; intros (A & B & C); (split; [done|]); (split; [|done]).
    all: pose proof (out_dst g Hwf v (u, w) Hv A) as Hu; cbn [fst] in Hu; by apply (stands_single ps m u HS Hu).
  Qed.
  Lemma stands_pair ps m v u m' : stands ps m -> v <> u -> m !! v = Some None -> m !! u = Some None -> mb_match m v u = Ok m' -> stands (ps ++ [(v, u)]) m'.
  Proof.
    intros [HM HP] Hne Hv Hu E. destruct (mb_match_ok n m v u HM Hv Hu Hne) as (m2 & E2 & HM2 & Hm2). rewrite E in E2. injection E2 as <-. split; [done|].
    pose proof (lookup_lt_Some _ _ _ Hv). pose proof (lookup_lt_Some _ _ _ Hu).
    intros x y. unfold partner. rewrite !elem_of_app, !elem_of_list_singleton, Hm2. split.
    - destruct (decide (x = u)) as [->|Hxu].
      + rewrite list_lookup_insert by (rewrite insert_length; done). intros [= <-]. tauto.
      + rewrite list_lookup_insert_ne by done. destruct (decide (x = v)) as [->|Hxv].
        * rewrite list_lookup_insert by done. intros [= <-]. tauto.
        * rewrite list_lookup_insert_ne by done. intros Hx. apply HP in Hx as [?|?]; tauto.
    - intros Hd. assert (partner ps x y \/ (x = v /\ y = u) \/ (y = v /\ x = u)) as [Hx|[[-> ->]|[-> ->]]].
      { destruct Hd as [[?|[= -> ->]]|[?|[= -> ->]]]; [by left; left|tauto|by left; right|tauto]. }
      + assert (Hx' := proj2 (HP x y) Hx). rewrite !list_lookup_insert_ne by congruence. done.
      + rewrite list_lookup_insert_ne by congruence. by rewrite list_lookup_insert.
      + by rewrite list_lookup_insert by (rewrite insert_length; done).
  Qed.
  (** One visit *)
  Lemma visit_exact choice (visit : matching -> nat -> outcome matching) vs ps m v : v < n -> stands ps m -> visits g maxW choice vs ps ->
    wpo (visit m v) never (fun m' =>
      (m' = m /\ (single ps v -> forall a, ~ joinable g maxW ps v a)) \/
      (single ps v /\ exists a, joinable g maxW ps v a /\ choice ps v a /\ mb_match m v (fst a) = Ok m')) ->
    wpo (visit m v) never (fun m' => exists ps', stands ps' m' /\ visits g maxW choice (vs ++ [v]) ps').
  Proof.
    intros Hv HS HV HW. eapply wpo_post; [exact HW|]. intros m' [[-> Hno]|(Hsi & a & Hj & Hc & E)].
    - exists ps. split; [done|]. destruct (lookup_lt_is_Some_2 m v ltac:(destruct HS as [[? _] _]; lia)) as [[u|] Hx].
      + apply visit_taken; [done|]. intros Hsi. apply (Hsi u). by apply HS.
      + assert (Hsi : single ps v) by (by apply (stands_single ps m v HS Hv)). apply visit_alone; auto.
    - exists (ps ++ [(v, fst a)]). split; [|by apply visit_pair]. destruct a as [u w]. cbn [fst] in *. pose proof Hj as (Ha & Hu & _). cbn [fst] in Hu.
      pose proof (out_dst g Hwf v (u, w) Hv Ha) as Hun. cbn [fst] in Hun.
      eapply (stands_pair ps m v u); [done| | | |done]; [intros <-; exact (Hloop v v w Hv Ha eq_refl)|by apply (stands_single ps)|by apply (stands_single ps)].
  Qed.
  Lemma match_total ps m v a : stands ps m -> v < n -> single ps v -> joinable g maxW ps v a -> exists m', mb_match m v (fst a) = Ok m'.
  Proof.
    intros HS Hv Hsi (Ha & Hu & _). destruct a as [u w]. cbn [fst] in *. pose proof (out_dst g Hwf v (u, w) Hv Ha) as Hun. cbn [fst] in Hun.
    destruct (mb_match_ok n m v u (proj1 HS)) as (m' & E & _); [by apply (stands_single ps)|by apply (stands_single ps)|intros <-; exact (Hloop v v w Hv Ha eq_refl)|]. by exists m'.
  Qed.
  Lemma rm_visit_exact vs ps m v : v < n -> stands ps m -> visits g maxW (first_edge g maxW) vs ps ->
    wpo (rm_visit g maxW m v) never (fun m' => exists ps', stands ps' m' /\ visits g maxW (first_edge g maxW) (vs ++ [v]) ps').
  Proof.
    intros Hv HS HV. apply (visit_exact _ (rm_visit g maxW) vs ps m v); [done..|]. pose proof HS as [[HL _] HP]. unfold rm_visit.
    destruct (lookup_lt_is_Some_2 m v ltac:(lia)) as [x Hx]. rewrite (mb_is_matched_ok _ _ _ Hx). cbn [obind].
    destruct x as [u|].
    { rewrite bool_decide_eq_true_2 by eauto. cbn [wpo]. left. split; [done|]. intros Hsi. exfalso. apply (Hsi u). by apply HP. }
    rewrite bool_decide_eq_false_2 by (intros [? ?]; done). assert (Hsi : single ps v) by (by apply (stands_single ps m v HS Hv)).
    rewrite vwt_ok by done. cbn [obind]. rewrite edge_range_ok by done. cbn [obind].
    eapply wpo_bind; [apply first_exact; [done|done|intros e He; by eapply out_of_range]|]. change (edge <$> seq (pre_at g v) (pre_at g (S v) - pre_at g v)) with (out g v).
    intros [u|] Hr.
    - destruct Hr as (pre & w & post & Eo & Hok & Hpre). assert (Hj : joinable g maxW ps v (u, w)).
      { apply (okc_joinable ps m v (u, w) HS Hv). split; [|done]. rewrite Eo. apply elem_of_app. right. by left. }
      destruct (match_total ps m v (u, w) HS Hv Hsi Hj) as [m' E]. cbn [fst] in E. rewrite E. cbn [wpo]. right. split; [done|]. exists (u, w). split; [done|]. split; [|done].
      exists pre, post. split; [done|]. split; [done|]. intros b Hb [_ Hj']%(okc_joinable ps m v b HS Hv). by eapply Hpre.
    - cbn [wpo]. left. split; [done|]. intros _ a [Ha Hoa]%(okc_joinable ps m v a HS Hv). by eapply Hr.
  Qed.
  Lemma shem_visit_exact vs ps m v : length (g_ew g) = ne g -> v < n -> stands ps m -> visits g maxW (heavy_edge g maxW) vs ps ->
    wpo (shem_visit g maxW m v) never (fun m' => exists ps', stands ps' m' /\ visits g maxW (heavy_edge g maxW) (vs ++ [v]) ps').
  Proof.
    intros Hew Hv HS HV. apply (visit_exact _ (shem_visit g maxW) vs ps m v); [done..|]. pose proof HS as [[HL _] HP]. unfold shem_visit.
    destruct (lookup_lt_is_Some_2 m v ltac:(lia)) as [x Hx]. rewrite (mb_is_matched_ok _ _ _ Hx). cbn [obind].
    destruct x as [u|].
    { rewrite bool_decide_eq_true_2 by eauto. cbn [wpo]. left. split; [done|]. intros Hsi. exfalso. apply (Hsi u). by apply HP. }
    rewrite bool_decide_eq_false_2 by (intros [? ?]; done). assert (Hsi : single ps v) by (by apply (stands_single ps m v HS Hv)).
    rewrite vwt_ok by done. cbn [obind]. rewrite edge_range_ok by done. cbn [obind].
    eapply wpo_bind; [by apply heaviest_exact|].
    intros [[u|] w] Hr; cbn [fst snd] in *.
    - destruct Hr as (pre & post & Eo & Hok & Hpre & Hpost). assert (Hj : joinable g maxW ps v (u, w)).
      { apply (okc_joinable ps m v (u, w) HS Hv). split; [|done]. rewrite Eo. apply elem_of_app. right. by left. }
      destruct (match_total ps m v (u, w) HS Hv Hsi Hj) as [m' E]. cbn [fst] in E. rewrite E. cbn [wpo]. right. split; [done|]. exists (u, w). split; [done|]. split; [|done].
      exists pre, post. split; [done|]. split; [done|]. split; intros b Hb [_ Hj']%(okc_joinable ps m v b HS Hv); cbn [snd]; eauto.
    - cbn [wpo]. left. split; [done|]. intros _ a [Ha Hoa]%(okc_joinable ps m v a HS Hv). by eapply Hr.
  Qed.
  Lemma sweep_exact choice (visit : matching -> nat -> outcome matching) perm : perm ≡ₚ seq 0 n ->
    (forall vs ps m v, v < n -> stands ps m -> visits g maxW choice vs ps -> wpo (visit m v) never (fun m' => exists ps', stands ps' m' /\ visits g maxW choice (vs ++ [v]) ps')) ->
    wpo (ofold visit (mb_new n) perm) never (fun m => exists ps, stands ps m /\ visits g maxW choice perm ps).
  Proof.
    intros Hp Hvisit. apply (ofold_wp (fun pre m => exists ps, stands ps m /\ visits g maxW choice pre ps)).
    - exists []. split; [|constructor]. split; [apply matching_new|]. intros v u. unfold partner, mb_new. split.
      + intros [? ?]%lookup_replicate_1. done.
      + intros [H|H]; by apply not_elem_of_nil in H.
    - intros pre v post m Ep (ps & HS & HV). eapply Hvisit; [|done|done]. assert (v ∈ perm) as Hin by (rewrite Ep; apply elem_of_app; right; by left).
      rewrite Hp, elem_of_seq in Hin. lia.
  Qed.
  Lemma build_groups ps m : stands ps m -> wpo (mb_build m) never (fun a => groups n ps (a_cmap a) (a_num_coarse a)).
  Proof.
    intros [HM HP]. destruct (mb_build_ok n m HM) as (a & E & HA). destruct (mb_cmap_ok n m HM) as (x0 & Ex & Ef).
    assert (Hcm : a_cmap a = (fun v => rank m (lead m v)) <$> seq 0 n).
    { unfold mb_build in E. rewrite Ex in E. cbn [obind fst snd] in E. rewrite Ef in E. cbn [obind] in E. unfold agg_make in E.
      destruct (agg_count _ _); [|done]. cbn [obind] in E. destruct (agg_fill _ _) as [pf|]; [|done]. cbn [obind] in E. destruct (frozen _); [|done]. injection E as <-. done. }
    rewrite E. cbn [wpo]. destruct HA as [A1 A2 A3 A4 A5]. 
    assert (Hc : forall v, v < n -> a_cmap a !! v = Some (rank m (lead m v))).
    { intros v Hv. rewrite Hcm, list_lookup_fmap, lookup_seq_lt by done. done. }
    constructor.
    - done.
    - intros v c Hv. pose proof (lookup_lt_Some _ _ _ Hv) as Hvn. rewrite A1 in Hvn. destruct (A2 v Hvn) as (c' & E1 & E2). congruence.
    - intros c Hk. destruct (A3 c Hk) as (v & _ & Hv). by exists v.
    - intros v w Hv Hw. rewrite (A4 v w Hv Hw), HP. done.
    - intros v w c d Hv Hw Lv Lw Hlt.
      assert (Hlead : forall x y, a_cmap a !! x = Some y -> (forall z, a_cmap a !! z = Some y -> x <= z) -> lead m x = x).
      { intros x y Hx Hy. pose proof (lookup_lt_Some _ _ _ Hx) as Hxn. rewrite A1 in Hxn. pose proof (lead_le m x) as Hle.
        assert (Hl : a_cmap a !! lead m x = Some y). { rewrite Hc by lia. rewrite (lead_lead n m HM). rewrite <- Hx, Hc by done. done. }
        specialize (Hy _ Hl). lia. }
      pose proof (lookup_lt_Some _ _ _ Hv) as Hvn. pose proof (lookup_lt_Some _ _ _ Hw) as Hwn. rewrite A1 in Hvn, Hwn.
      pose proof (Hlead v c Hv Lv) as E1. pose proof (Hlead w d Hw Lw) as E2. rewrite Hc, E1 in Hv by done. rewrite Hc, E2 in Hw by done. injection Hv as <-. injection Hw as <-.
      by apply rank_lt.
  Qed.
  Lemma rm_exact : wpm (rm_aggregate maxW g) never (fun a => random_matching g maxW (a_cmap a) (a_num_coarse a)).
  Proof.
    unfold rm_aggregate, rm_matching. eapply (wpm_bind _ _ _ (fun m => exists vs ps, vs ≡ₚ seq 0 n /\ stands ps m /\ visits g maxW (first_edge g maxW) vs ps)).
    - eapply wpm_bind; [apply random_order_wp; done|]. intros perm Hp. unfold vs_iter, range in Hp. simpl in Hp. rewrite Nat.sub_0_r in Hp.
      apply wpm_lift. eapply wpo_post; [apply (sweep_exact (first_edge g maxW)); [exact Hp|]|].
      + intros. by apply (rm_visit_exact vs ps).
      + intros m (ps & A & B). by exists perm, ps.
    - intros m (vs & ps & A & B & C). apply wpm_lift. eapply wpo_post; [by apply build_groups|]. intros a Ha. by exists vs, ps.
  Qed.
  Lemma shem_exact : length (g_ew g) = ne g -> wpm (shem_aggregate maxW g) never (fun a => heavy_matching g maxW (a_cmap a) (a_num_coarse a)).
  Proof.
    intros Hew. unfold shem_aggregate, shem_matching.
    eapply (wpm_bind _ _ _ (fun m => exists vs ps, vs ≡ₚ seq 0 n /\ (forall i j a b, i <= j -> vs !! i = Some a -> vs !! j = Some b -> length (out g a) <= length (out g b)) /\
      stands ps m /\ visits g maxW (heavy_edge g maxW) vs ps)).
    - eapply wpm_bind; [apply degree_sorted_wp; done|]. intros perm [Hp Hd]. unfold vs_iter, range in Hp. simpl in Hp. rewrite Nat.sub_0_r in Hp.
      apply wpm_lift. eapply wpo_post; [apply (sweep_exact (heavy_edge g maxW)); [exact Hp|]|].
      + intros. by apply (shem_visit_exact vs ps).
      + intros m (ps & A & B). by exists perm, ps.
    - intros m (vs & ps & A & D & B & C). apply wpm_lift. eapply wpo_post; [by apply build_groups|]. intros a Ha. by exists vs, ps.
  Qed.
End Match.

(** ** C70 *)
Theorem C70_random_matching : forall g maxW s, wf_graph g -> loopless g -> (sumn (nv g) (vweight g) < NULL_WGT)%Z ->
  exists a s', rm_aggregate maxW g s = Ok (a, s') /\ random_matching g maxW (a_cmap a) (a_num_coarse a).
Proof. intros g maxW s Hwf Hl Hs. apply wpm_never. by apply rm_exact. Qed.
Print Assumptions C70_random_matching.
Theorem C70_heavy_matching : forall g maxW s, wf_graph g -> loopless g -> (sumn (nv g) (vweight g) < NULL_WGT)%Z ->
  exists a s', shemrm_aggregate maxW g s = Ok (a, s') /\
    (g_uew g = true -> random_matching g maxW (a_cmap a) (a_num_coarse a)) /\
    (g_uew g = false -> heavy_matching g maxW (a_cmap a) (a_num_coarse a)).
Proof.
  intros g maxW s Hwf Hl Hs. apply wpm_never. unfold shemrm_aggregate. destruct (g_uew g) eqn:E.
  - eapply wpm_post; [by apply rm_exact|]. intros a Ha. done.
  - eapply wpm_post; [apply shem_exact; [done..|by apply wf_uew_f]|]. intros a Ha. done.
Qed.
Print Assumptions C70_heavy_matching.
Example C70_nonvacuous : wf_graph ex /\ loopless ex /\ (sumn (nv ex) (vweight ex) < NULL_WGT)%Z /\ g_uew ex = false /\
  exists a s', shemrm_aggregate 100 ex [] = Ok (a, s') /\ a_num_coarse a = 2.
Proof.
  split; [exact ex_wf|]. split; [exact ex_loopless|]. split; [vm_compute; reflexivity|]. split; [reflexivity|]. eexists _, _. split; [vm_compute; reflexivity|]. reflexivity.
Qed.
