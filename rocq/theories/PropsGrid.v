(** * PropsGrid: generated grids can be partitioned (C75). *)
From Coq Require Import ZArith.
From Verif Require Import Base F64 ModelGraph ModelPartition ModelApi ModelUtil Spec Logic Sums GraphFacts SubFacts MultilevelFacts TargetFacts ApiFacts
  GridFacts PropsUtil PropsTarget PropsApi PropsBalance BalanceFacts PropsPow PropsEmpty Examples.
Local Close Scope R_scope.
Local Open Scope nat_scope.
#[local] Arguments seq : simpl nomatch.

(** ** The arrays of a generated grid *)
Lemma put_len src m dest widx st : length (gs_adj st) = m /\ length (gs_ew st) = m ->
  wpo (grid_put src st dest widx) anyf (fun st => length (gs_adj st) = m /\ length (gs_ew st) = m).
Proof.
  intros [H1 H2]. unfold grid_put. apply wpo_anyf. intros st' E.
  destruct (wri (gs_adj st) _ dest) as [a|] eqn:Ea; [|done]. cbn in E. destruct (rd src widx) as [w|]; [|done]. cbn in E.
  destruct (wri (gs_ew st) _ w) as [e|] eqn:Ee; [|done]. cbn in E. injection E as <-. cbn.
  unfold wri in *. apply wr_inv in Ea as [_ ->], Ee as [_ ->]. by rewrite !insert_length.
Qed.
Lemma when_len (b : bool) f m st : (forall st, length (gs_adj st) = m /\ length (gs_ew st) = m -> wpo (f st) anyf (fun st => length (gs_adj st) = m /\ length (gs_ew st) = m)) ->
  length (gs_adj st) = m /\ length (gs_ew st) = m -> wpo (when b f st) anyf (fun st => length (gs_adj st) = m /\ length (gs_ew st) = m).
Proof. intros Hf H. destruct b; cbn; [by apply Hf|done]. Qed.
Lemma vertex_len nx ny nz src m st x y z : length (gs_adj st) = m /\ length (gs_ew st) = m ->
  wpo (grid_vertex nx ny nz src st x y z) anyf (fun st => length (gs_adj st) = m /\ length (gs_ew st) = m).
Proof.
  intros H. unfold grid_vertex. do 6 (eapply wpo_bind; [apply when_len; [intros; by apply put_len|exact H]|]; clear H st; intros st H).
  eapply wpo_bind; [apply wpo_anyf; intros p Ep; exact I|]. intros p _. apply wpo_ok. done.
Qed.
Lemma grid_arrays nx ny nz r : (gw_emin r <= u32 (gw_emax r + 1))%Z -> (gw_vmin r <= gw_vmax r)%Z ->
  wpm (grid_generate nx ny nz r) anyf (fun g => graph_make (g_prefix g) (g_adj g) (g_vw g) (g_ew g) = Ok g /\
    length (g_vw g) = grid_num_vertices nx ny nz /\ length (g_ew g) = length (g_adj g)).
Proof.
  intros He Hv. unfold grid_generate. set (n := grid_num_vertices nx ny nz). set (m := grid_num_edges nx ny nz).
  eapply wpm_bind; [by apply fill_with_range_wp|]. intros src _.
  eapply wpm_bind; [apply wpm_lift, (wpo_anyf _ (fun _ => True)); done|]. intros pre0 _.
  eapply wpm_bind.
  { apply wpm_lift. unfold grid_fill. apply (ofold_inv (fun st => length (gs_adj st) = m /\ length (gs_ew st) = m)).
    - cbn. unfold alloc. by rewrite !replicate_length.
    - intros z st _ H. apply (ofold_inv (fun st => length (gs_adj st) = m /\ length (gs_ew st) = m)); [done|].
      intros y st' _ H'. apply (ofold_inv (fun st => length (gs_adj st) = m /\ length (gs_ew st) = m)); [done|].
      intros x st'' _ H''. by apply vertex_len. }
  intros st [Ha Hw]. eapply wpm_bind; [by apply fill_with_range_wp|]. intros vw [Lv _].
  eapply wpm_bind; [apply wpm_lift, (wpo_anyf _ (fun _ => True)); done|]. intros pre _.
  eapply wpm_bind; [apply wpm_lift, (wpo_anyf _ (fun l => length l = m)); intros l E%frozen_inv; rewrite E, fmap_length in Ha; done|]. intros adj La.
  eapply wpm_bind; [apply wpm_lift, (wpo_anyf _ (fun l => length l = m)); intros l E%frozen_inv; rewrite E, fmap_length in Hw; done|]. intros ew Le.
  apply wpm_lift, wpo_anyf. intros g E. pose proof E as E'. unfold graph_make in E'.
  destruct (Nat.eqb (length pre) 0); [done|]. cbv zeta in E'.
  match type of E' with obind ?a _ = _ => destruct a as [vt|]; [|done] end. cbn [obind] in E'.
  match type of E' with obind ?a _ = _ => destruct a as [et|]; [|done] end. cbn [obind] in E'. injection E' as E'.
  rewrite <- E' at 1 2 3 4 6 7 8. cbn [g_prefix g_adj g_vw g_ew]. split; [exact E|]. split; [exact Lv|congruence].
Qed.
Lemma sumf_le_const {A} (f : A -> Z) l (b : Z) : (forall a, a ∈ l -> (f a <= b)%Z) -> (sumf f l <= Z.of_nat (length l) * b)%Z.
Proof.
  induction l as [|a l IH]; intros H; [rewrite sumf_nil; change (Z.of_nat (length [])) with 0%Z; lia|]. rewrite sumf_cons. cbn [length]. rewrite Nat2Z.inj_succ.
  assert (f a <= b)%Z by (apply H; set_solver). assert (sumf f l <= Z.of_nat (length l) * b)%Z by (apply IH; intros; apply H; set_solver). lia.
Qed.
Lemma total_le g b : wf_graph g -> (forall v a, v < nv g -> a ∈ out g v -> (snd a <= b)%Z) -> (total_edge_weight g <= Z.of_nat (ne g) * b)%Z.
Proof.
  intros Hwf H. rewrite <- (sum_out_len g Hwf). unfold total_edge_weight, sumn. rewrite Z.mul_comm, <- sumf_scal.
  apply sumf_le. intros v Hv%elem_of_seq. rewrite Z.mul_comm. apply sumf_le_const. intros a Ha. apply (H v a); [lia|done].
Qed.

(** ** A grid is connected: labels that differ somewhere differ on two neighbours. *)
Lemma grid_step {L} `{EqDecision L} nx ny nz (f : nat -> nat -> nat -> L) :
  (forall x y z x' y' z', x < nx -> y < ny -> z < nz -> x' < nx -> y' < ny -> z' < nz -> grid_adjacent x y z x' y' z' -> f x y z = f x' y' z') ->
  forall x y z, x < nx -> y < ny -> z < nz -> f x y z = f 0 0 0.
Proof.
  intros H x y z Hx Hy Hz. assert (Px : 0 < nx) by lia. assert (Py : 0 < ny) by lia. transitivity (f 0 y z); [|transitivity (f 0 0 z)].
  - induction x as [|x IH]; [done|]. rewrite <- IH by lia. apply H; try lia. left. unfold one_apart. lia.
  - clear x Hx. induction y as [|y IH]; [done|]. rewrite <- IH by lia. apply H; try lia. right; left. unfold one_apart. lia.
  - clear x Hx y Hy. induction z as [|z IH]; [done|]. rewrite <- IH by lia. apply H; try lia. right; right. unfold one_apart. lia.
Qed.
Lemma cut_positive {L} `{EqDecision L} g (f : nat -> L) u v : wf_graph g -> symmetric g -> u < nv g -> v < nv g -> f u <> f v -> (0 < W g u v)%Z -> (0 < edge_cut g f)%Z.
Proof.
  intros Hwf Hs.
  assert (G : forall u v, v < u -> u < nv g -> f u <> f v -> (0 < W g u v)%Z -> (0 < edge_cut g f)%Z).
  { clear u v. intros u v Hvu Hu Hf HW. unfold edge_cut, sumn.
    assert (HN : forall u, u < nv g -> (0 <= sumf (fun v => if decide (f u = f v) then 0%Z else W g u v) (seq 0 u))%Z).
    { intros a Ha. apply sumf_nonneg. intros b _. case_decide; [lia|]. by apply W_nonneg. }
    eapply Z.lt_le_trans; [|apply (sumf_elem_le _ _ u); [intros a Ha%elem_of_seq; apply HN; lia|apply elem_of_seq; lia]]. cbv beta.
    eapply Z.lt_le_trans; [|apply (sumf_elem_le _ _ v); [intros b _; case_decide; [lia|by apply W_nonneg]|apply elem_of_seq; lia]]. cbv beta.
    rewrite decide_False by done. done. }
  intros Hu Hv Hf HW. destruct (decide (v < u)) as [H1|H1]; [by apply (G u v)|].
  assert (v <> u) by congruence. apply (G v u); [lia|done|congruence|]. rewrite Hs by done. done.
Qed.

(** ** C75: a generated grid, handed to the call as arrays, for two parts. *)
Theorem C75_grids_partition : forall lg nx ny nz r cs g cs' o s, log2_spec lg ->
  0 < nx -> 0 < ny -> 0 < nz -> (Z.of_nat (nx * ny * nz) * 6 * (gw_emax r + 1) < W32)%Z ->
  (0 <= gw_emin r <= gw_emax r)%Z -> (0 <= gw_vmin r <= gw_vmax r)%Z -> (gw_vmax r < W32)%Z ->
  grid_generate nx ny nz r cs = Ok (g, cs') -> (o_scheme o = 0 \/ o_scheme o = 1)%Z -> (1 <= o_num_cuts o)%Z ->
  let n := nx * ny * nz in let T := sumn n (vweight g) in
  exists cut labels s',
    part_graph_recursive lg (g_prefix g) (g_adj g) (Some (g_vw g)) (Some (g_ew g)) 2 (Some o) s = Ok (mkResult 1 (Some cut) (Some labels), s') /\
    length labels = n /\ (forall v, v < n -> labels !! v = Some (Some 0) \/ labels !! v = Some (Some 1)) /\
    cut = edge_cut g (fun v => nth v labels None) /\
    (* not too few vertices, none too heavy: neither side is left out *)
    ((100 <= T < NULL_WGT)%Z -> (5 * gw_vmax r <= 2 * T)%Z ->
      (forall i, i < 2 -> (exists v, v < n /\ labels !! v = Some (Some i)) /\ (T <= 12 * part_weight g labels i + 84)%Z /\
         (part_weight g labels i <= T / 2 + T / 60 + 4 + Z.max (gw_vmax r) (3 * T / 40 + 1))%Z) /\
      ((1 <= gw_emin r)%Z -> (0 < cut)%Z)).
Proof.
  intros lg nx ny nz r cs g cs' o s Hlg Hx Hy Hz Hsz He Hv Hv' Eg Ho Hc n T.
  assert (Hn0 : 0 < n) by (unfold n; assert (0 < nx * ny) by (apply Nat.mul_pos_pos; done); apply Nat.mul_pos_pos; done).
  fold n in Hsz.
  assert (Hs6 : (Z.of_nat n * 6 < W32)%Z) by nia. assert (He' : (gw_emax r + 1 < W32)%Z) by nia.
  destruct (C42_grid nx ny nz r cs Hx Hy Hz Hs6 He He' Hv Hv') as (g0 & cs0 & E0 & Hwf & Hnv & Hne & Hadj & Hback & _ & Hvw & Hsym & Hll & _).
  rewrite Eg in E0. injection E0 as <- <-. fold n in Hnv.
  pose proof (wpm_elim _ _ _ _ _ _ (grid_arrays nx ny nz r ltac:(rewrite u32_small by lia; lia) ltac:(lia)) Eg) as (Emk & Lv & Le).
  assert (Lv' : length (g_vw g) = n).
  { rewrite Lv. unfold grid_num_vertices. rewrite u32_small by (unfold n in *; lia). unfold n. lia. }
  assert (Hne6 : ne g <= 6 * n).
  { rewrite Hne. unfold n. clear. destruct nx as [|a], ny as [|b], nz as [|c]; cbn [Nat.sub]; rewrite ?Nat.sub_0_r; nia. }
  assert (Hfit : fits g).
  { unfold fits. eapply Z.le_lt_trans; [apply (total_le g (gw_emax r + 1) Hwf)|].
    - intros v [u w] Hvn Ha. destruct (Hback v u w Hvn Ha) as [_ Hw]. cbn. lia.
    - eapply Z.le_lt_trans; [|exact Hsz]. apply Z.mul_le_mono_nonneg_r; lia. }
  assert (Hud : undirected g) by (split; done).
  assert (Hcsr : valid_csr n (g_prefix g) (g_adj g) (Some (g_vw g)) (Some (g_ew g))).
  { split.
    - rewrite (wf_len _ Hwf). by rewrite Hnv.
    - apply (wf_first _ Hwf).
    - intros v Hvn. apply (wf_mono _ Hwf). lia.
    - rewrite <- Hnv. apply (wf_last _ Hwf).
    - apply Forall_forall. intros d Hd. apply elem_of_list_lookup in Hd as [e Hd]. pose proof (wf_dst _ Hwf e) as H. rewrite (nth_lookup_Some _ _ 0 d Hd) in H. rewrite <- Hnv. apply H. by eapply lookup_lt_Some.
    - intros l [= <-]. split; [done|]. apply Forall_forall. intros w Hw. apply elem_of_list_lookup in Hw as [v Hw]. pose proof (wf_vw_range _ Hwf v) as H. unfold vweight in H.
      rewrite wgt_at_nth in H by (intros E; rewrite E in Hw; done). by rewrite (nth_lookup_Some _ _ 0%Z w Hw) in H.
    - intros l [= <-]. split; [done|]. apply Forall_forall. intros w Hw. apply elem_of_list_lookup in Hw as [e Hw]. pose proof (wf_ew_range _ Hwf e) as H.
      rewrite wgt_at_nth in H by (intros E; rewrite E in Hw; done). by rewrite (nth_lookup_Some _ _ 0%Z w Hw) in H. }
  assert (Hn32 : (Z.of_nat n < 2 ^ 32)%Z) by (unfold W32 in *; lia).
  assert (Ha32 : (Z.of_nat (length (g_adj g)) < 2 ^ 32)%Z) by (unfold ne in Hne6; unfold W32 in *; lia).
  assert (Egr : graph_of_csr (g_prefix g) (g_adj g) (Some (g_vw g)) (Some (g_ew g)) = Ok g) by exact Emk.
  destruct (C03_two_parts lg n _ _ _ _ o s g Hlg Hcsr Hn0 Egr Hud Hn32 Ha32 Ho) as (res & s' & E & Hr).
  destruct (C01_labels_in_range lg n _ _ _ _ 2 o s res s' Hcsr ltac:(lia) Hc E) as (_ & labels & El & HL & HA).
  destruct (C02_cut_exact lg n _ _ _ _ 2 o s res s' g Hcsr ltac:(lia) Hc Egr Hsym Hfit E) as (_ & cut & labels' & Ec & El' & Hcut).
  rewrite El in El'. injection El' as <-. exists cut, labels, s'.
  assert (Eres : res = mkResult 1 (Some cut) (Some labels)) by (destruct res; cbn in *; congruence).
  split; [by rewrite <- Eres|]. split; [done|]. split.
  { intros v Hvn. destruct (HA v Hvn) as (l & Hl & ->). destruct l as [|[|]]; [by left|by right|lia]. }
  split; [done|]. intros HT H5.
  assert (HTg : sumn n (vweight g) = T) by done.
  assert (HB : forall i, i < 2 -> (T <= 12 * part_weight g labels i + 84)%Z /\ exists v, v < n /\ labels !! v = Some (Some i)).
  { apply (C62_two_parts lg n _ _ _ _ o s res s' g labels Hlg Hcsr Egr Hud Hn32 Ha32 HT); [|exact E|exact El].
    intros v Hvn. destruct (Hvw v ltac:(lia)). fold T. lia. }
  split.
  - intros i Hi. destruct (HB i Hi) as [HB1 HB2]. split; [done|]. split; [done|].
    pose proof (C58_imbalance_bounded lg n _ _ _ _ 1 o s res s' g labels (Z.max (gw_vmax r) (3 * T / 40 + 1)) Hlg Hcsr Egr Hud Hn32 Ha32 ltac:(fold T; lia) ltac:(lia)
      ltac:(change (Z.of_nat (2 ^ 1)) with 2%Z; fold T; lia)) as HP.
    change (Z.of_nat (2 ^ 1)) with 2%Z in HP. change (Z.of_nat 1) with 1%Z in HP. change (2 ^ 1) with 2 in HP. fold T in HP. unfold part_weight. 
    specialize (HP ltac:(intros v Hvn; destruct (Hvw v Hvn); lia)). specialize (HP ltac:(pose proof (Z.div_mod (3 * T) 40 ltac:(lia)); pose proof (Z.mod_pos_bound (3 * T) 40 ltac:(lia)); lia) E El i Hi). lia.
  - intros Hemin. rewrite Hcut.
    destruct (HB 0 ltac:(lia)) as [_ (v0 & Hv0 & L0)]. destruct (HB 1 ltac:(lia)) as [_ (v1 & Hv1 & L1)].
    destruct (decide (0 < edge_cut g (fun v => nth v labels None))%Z) as [|HN]; [done|]. exfalso.
    assert (Hall : forall x y z, x < nx -> y < ny -> z < nz -> nth (at_point nx ny x y z) labels None = nth (at_point nx ny 0 0 0) labels None).
    { apply (grid_step nx ny nz (fun x y z => nth (at_point nx ny x y z) labels None)). intros x y z x' y' z' B1 B2 B3 B1' B2' B3' HG.
      destruct (decide (nth (at_point nx ny x y z) labels None = nth (at_point nx ny x' y' z') labels None)) as [|Hd]; [done|]. exfalso. apply HN.
      assert (P : at_point nx ny x y z < nv g) by (rewrite Hnv; apply get_lt; done). assert (P' : at_point nx ny x' y' z' < nv g) by (rewrite Hnv; apply get_lt; done).
      apply (cut_positive g _ _ _ Hwf Hsym P P' Hd).
      destruct (proj2 (Hadj x y z x' y' z' B1 B2 B3 B1' B2' B3') HG) as (w & Hw). destruct (Hback _ _ _ P Hw) as [_ Hwr].
      set (h := fun a : nat * Z => if decide (fst a = at_point nx ny x' y' z') then snd a else 0%Z).
      assert (Hh : forall a, a ∈ out g (at_point nx ny x y z) -> (0 <= h a)%Z).
      { intros [u' w'] Hin. unfold h. cbn [fst snd]. destruct (Hback _ _ _ P Hin) as [_ ?]. case_decide; lia. }
      pose proof (sumf_elem_le h _ _ Hh Hw) as HS. unfold h at 1 in HS. cbn [fst snd] in HS. rewrite decide_True in HS by done. fold h. unfold W. fold h. lia. }
    destruct (get_inv nx ny nz v0 Hv0) as (x0 & y0 & z0 & ? & ? & ? & ->). destruct (get_inv nx ny nz v1 Hv1) as (x1 & y1 & z1 & ? & ? & ? & ->).
    change (grid_get nx ny) with (at_point nx ny) in *.
    pose proof (Hall x0 y0 z0 ltac:(done) ltac:(done) ltac:(done)) as E1. pose proof (Hall x1 y1 z1 ltac:(done) ltac:(done) ltac:(done)) as E2.
    rewrite <- E1 in E2. rewrite (nth_lookup_Some _ _ _ _ L0), (nth_lookup_Some _ _ _ _ L1) in E2. done.
Qed.
Print Assumptions C75_grids_partition.
(** A 4 x 3 x 2 grid with vertex weights between 5 and 9 and edge weights between 1 and 3. *)
Example C75_nonvacuous : exists g cs', grid_generate 4 3 2 (mkGW 5 9 1 2) [7; 1; 0; 2; 2; 1; 5; 3] = Ok (g, cs') /\
  (100 <= sumn 24 (vweight g) < NULL_WGT)%Z /\ (5 * 9 <= 2 * sumn 24 (vweight g))%Z /\ (Z.of_nat (4 * 3 * 2) * 6 * (2 + 1) < W32)%Z.
Proof. eexists _, _. split; [vm_compute; reflexivity|]. repeat split; vm_compute; done || reflexivity. Qed.
