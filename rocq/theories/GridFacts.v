(** * GridFacts: the grid generator (C42). *)
From Verif Require Import Base F64 ModelGraph ModelBuilders ModelAgg ModelUtil Spec Logic Sums GraphFacts ConnFacts BucketFacts BuilderFacts.
#[local] Arguments seq : simpl nomatch.

Lemma ofold_nest {S} (f : S -> nat -> outcome S) a b s :
  ofold (fun s j => ofold (fun s i => f s (j * a + i)) s (seq 0 a)) s (seq 0 b) = ofold f s (seq 0 (b * a)).
Proof.
  induction b as [|b IH]; [done|]. rewrite seq_S, ofold_app, IH. cbn [ofold].
  replace (Datatypes.S b * a) with (b * a + a) by lia. rewrite seq_app, ofold_app. cbn [Nat.add].
  destruct (ofold f s (seq 0 (b * a))) as [s'|]; [|done]. cbn [obind].
  assert (E : seq (b * a) a = (fun i => b * a + i) <$> seq 0 a).
  { etransitivity; [|symmetry; apply (fmap_add_seq (b * a) 0 a)]. by rewrite Nat.add_0_r. }
  rewrite E, ofold_map. destruct (ofold (fun s0 i => f s0 (b * a + i)) s' (seq 0 a)); done.
Qed.
Lemma nsum_nest f a b : nsum f (b * a) = nsum (fun j => nsum (fun i => f (j * a + i)) a) b.
Proof.
  induction b as [|b IH]; [done|]. replace (S b * a) with (b * a + a) by lia. cbn [nsum]. rewrite <- IH.
  clear IH. generalize (b * a). intros c. induction a as [|a IH]; cbn [nsum]; [rewrite Nat.add_0_r; lia|].
  rewrite Nat.add_succ_r. cbn [nsum]. lia.
Qed.
Lemma nsum_const c n : nsum (fun _ => c) n = n * c.
Proof. induction n as [|n IH]; [done|]. cbn [nsum]. lia. Qed.
Lemma nsum_pos n : nsum (fun i => if Nat.ltb 0 i then 1 else 0) n = n - 1.
Proof. induction n as [|n IH]; [done|]. cbn [nsum]. rewrite IH. destruct n; cbn; lia. Qed.
Lemma nsum_below k n : nsum (fun i => if Nat.ltb i k then 1 else 0) n = n `min` k.
Proof. induction n as [|n IH]; [done|]. cbn [nsum]. rewrite IH. destruct (Nat.ltb_spec n k); lia. Qed.

Section Get.
  Context (nx ny nz : nat).
  Notation get := (grid_get nx ny).
  Lemma get_lt x y z : x < nx -> y < ny -> z < nz -> get x y z < nx * ny * nz.
  Proof. intros. unfold grid_get. assert (z * ny + y < nz * ny) by nia. nia. Qed.
  Lemma get_x x y z : x < nx -> get x y z mod nx = x.
  Proof. intros. unfold grid_get. rewrite Nat.add_comm, Nat.mod_add by lia. by apply Nat.mod_small. Qed.
  Lemma get_yz x y z : x < nx -> get x y z / nx = z * ny + y.
  Proof. intros. unfold grid_get. rewrite Nat.div_add_l by lia. rewrite Nat.div_small by done. lia. Qed.
  Lemma get_y x y z : x < nx -> y < ny -> (get x y z / nx) mod ny = y.
  Proof. intros. rewrite get_yz by done. rewrite Nat.add_comm, Nat.mod_add by lia. by apply Nat.mod_small. Qed.
  Lemma get_z x y z : x < nx -> y < ny -> get x y z / nx / ny = z.
  Proof. intros. rewrite get_yz by done. rewrite Nat.div_add_l by lia. rewrite Nat.div_small by done. lia. Qed.
  Lemma get_inv i : i < nx * ny * nz ->
    exists x y z, x < nx /\ y < ny /\ z < nz /\ i = get x y z.
  Proof.
    intros Hi. assert (0 < nx) by nia. assert (0 < ny) by nia. exists (i mod nx), ((i / nx) mod ny), ((i / nx) / ny).
    split_and!; [apply Nat.mod_upper_bound; lia|apply Nat.mod_upper_bound; lia| |].
    - apply Nat.div_lt_upper_bound; [lia|]. apply Nat.div_lt_upper_bound; [lia|]. nia.
    - unfold grid_get. pose proof (Nat.div_mod i nx ltac:(lia)). pose proof (Nat.div_mod (i / nx) ny ltac:(lia)). nia.
  Qed.

End Get.

Section Grid.
  Context (nx ny nz : nat) (src : list Z) (Hx : 0 < nx) (Hy : 0 < ny) (Hz : 0 < nz).
  Context (Hsrc : length src = nx * ny * nz * 3).
  Notation get := (grid_get nx ny).
  Notation sw := (fun i => nth i src 0%Z).
  Definition arc_if (b : bool) (d : nat) (w : Z) : list arc := if b then [(d, w)] else [].
  (** The row of the vertex at (x, y, z). *)
  Definition nbrs (x y z : nat) : list arc :=
    ((((arc_if (Nat.ltb 0 x) (get (x - 1) y z) (sw (get (x - 1) y z * 3)) ++
    arc_if (Nat.ltb x (nx - 1)) (get (x + 1) y z) (sw (get x y z * 3))) ++
    arc_if (Nat.ltb 0 y) (get x (y - 1) z) (sw (get x (y - 1) z * 3 + 1))) ++
    arc_if (Nat.ltb y (ny - 1)) (get x (y + 1) z) (sw (get x y z * 3 + 1))) ++
    arc_if (Nat.ltb 0 z) (get x y (z - 1)) (sw (get x y (z - 1) * 3 + 2))) ++
    arc_if (Nat.ltb z (nz - 1)) (get x y (z + 1)) (sw (get x y z * 3 + 2)).
  Definition grid_rows (i : nat) : list arc := nbrs (i mod nx) ((i / nx) mod ny) ((i / nx) / ny).

  Lemma grid_rows_get x y z : x < nx -> y < ny -> grid_rows (get x y z) = nbrs x y z.
  Proof. intros. unfold grid_rows. rewrite get_x, get_y, get_z by done. done. Qed.
  Lemma len_arc_if b d w : length (arc_if b d w) = if b then 1 else 0.
  Proof. by destruct b. Qed.
  Lemma grid_total : rstart grid_rows (nx * ny * nz) =
    ((nx - 1) * (ny * nz) + (ny - 1) * (nx * nz) + (nz - 1) * (nx * ny)) * 2.
  Proof.
    unfold rstart. replace (nx * ny * nz) with ((nz * ny) * nx) by lia. rewrite nsum_nest.
    rewrite (nsum_ext _ (fun j => (nx - 1) * 2 + nx * ((if Nat.ltb 0 (j mod ny) then 1 else 0) +
       (if Nat.ltb (j mod ny) (ny - 1) then 1 else 0) + (if Nat.ltb 0 (j / ny) then 1 else 0) + (if Nat.ltb (j / ny) (nz - 1) then 1 else 0)))).
    2: { intros j Hj.
      rewrite (nsum_ext _ (fun i => (if Nat.ltb 0 i then 1 else 0) + (if Nat.ltb i (nx - 1) then 1 else 0) +
        ((if Nat.ltb 0 (j mod ny) then 1 else 0) +
       (if Nat.ltb (j mod ny) (ny - 1) then 1 else 0) + (if Nat.ltb 0 (j / ny) then 1 else 0) + (if Nat.ltb (j / ny) (nz - 1) then 1 else 0)))).
      - rewrite nsum_add, nsum_const. rewrite nsum_add, nsum_pos, nsum_below. lia.
      - intros i Hi. unfold grid_rows.
        replace ((j * nx + i) mod nx) with i by (rewrite Nat.add_comm, Nat.mod_add by lia; symmetry; by apply Nat.mod_small).
        replace ((j * nx + i) / nx) with j by (rewrite Nat.div_add_l by lia; rewrite Nat.div_small by done; lia).
        unfold nbrs. rewrite !app_length, !len_arc_if. lia. }
    rewrite nsum_nest.
    rewrite (nsum_ext _ (fun k => ny * ((nx - 1) * 2) + nx * ((ny - 1) * 2 + ny * ((if Nat.ltb 0 k then 1 else 0) + (if Nat.ltb k (nz - 1) then 1 else 0))))).
    2: { intros k Hk.
      rewrite (nsum_ext _ (fun j => (nx - 1) * 2 + nx * ((if Nat.ltb 0 j then 1 else 0) + (if Nat.ltb j (ny - 1) then 1 else 0) +
         ((if Nat.ltb 0 k then 1 else 0) + (if Nat.ltb k (nz - 1) then 1 else 0))))).
      - rewrite nsum_add, nsum_const. f_equal.
        assert (L : forall f n c, nsum (fun i => c * f i) n = c * nsum f n) by (intros f n c; induction n as [|n IH]; cbn [nsum]; lia).
        rewrite L. f_equal. rewrite nsum_add, nsum_const, nsum_add, nsum_pos, nsum_below. lia.
      - intros j Hj. replace ((k * ny + j) mod ny) with j by (rewrite Nat.add_comm, Nat.mod_add by lia; symmetry; by apply Nat.mod_small).
        replace ((k * ny + j) / ny) with k by (rewrite Nat.div_add_l by lia; rewrite Nat.div_small by done; lia). lia. }
    rewrite nsum_add, nsum_const.
    assert (L : forall f n c, nsum (fun i => c * f i) n = c * nsum f n) by (intros f n c; induction n as [|n IH]; cbn [nsum]; lia).
    rewrite L, nsum_add, nsum_const, L, nsum_add, nsum_pos, nsum_below. nia.
  Qed.

  (** ** The loop *)
  Context (m : nat) (Hm : m = rstart grid_rows (nx * ny * nz)).
  Notation n := (nx * ny * nz).
  Record grep (A : list arc) (k : nat) (st : grid_state) : Prop := {
    gr_adj : gs_adj st = (Some <$> (fst <$> A)) ++ replicate (m - length A) None;
    gr_ew : gs_ew st = (Some <$> (snd <$> A)) ++ replicate (m - length A) None;
    gr_edge : gs_edge st = length A;
    gr_vertex : gs_vertex st = k;
    gr_plen : length (gs_prefix st) = S n;
    gr_pre : forall v, v <= k -> gs_prefix st !! v = Some (Some (rstart grid_rows v))
  }.
  Lemma app_fill {B} (l : list B) k b : length l < k ->
    <[length l := Some b]> ((Some <$> l) ++ replicate (k - length l) None) = (Some <$> (l ++ [b])) ++ replicate (k - length (l ++ [b])) None.
  Proof.
    intros H. rewrite insert_app_r_alt by (rewrite fmap_length; lia). rewrite fmap_length, Nat.sub_diag, fmap_app, <- app_assoc.
    f_equal. rewrite app_length. cbn [length]. replace (k - length l) with (S (k - (length l + 1))) by lia. done.
  Qed.
  Lemma grid_put_ok A k st d i : grep A k st -> length A < m -> i < length src ->
    exists st', grid_put src st d i = Ok st' /\ grep (A ++ [(d, sw i)]) k st'.
  Proof.
    intros [Ga Ge Gd Gv Gl Gp] Hl Hi. unfold grid_put. rewrite Gd.
    assert (La : length (gs_adj st) = m) by (rewrite Ga, app_length, !fmap_length, replicate_length; lia).
    assert (Le : length (gs_ew st) = m) by (rewrite Ge, app_length, !fmap_length, replicate_length; lia).
    rewrite wri_ok by lia. cbn [obind]. rewrite (rd_nth _ _ 0%Z) by done. cbn [obind]. rewrite wri_ok by lia. cbn [obind].
    eexists. split; [reflexivity|]. split; cbn [gs_adj gs_ew gs_edge gs_vertex gs_prefix]; try done.
    - rewrite Ga. rewrite fmap_app. pose proof (app_fill (fst <$> A) m d) as F. rewrite fmap_length in F. rewrite F by done.
      f_equal. rewrite app_length, fmap_length, app_length. done.
    - rewrite Ge. rewrite fmap_app. pose proof (app_fill (snd <$> A) m (sw i)) as F. rewrite fmap_length in F. rewrite F by done.
      f_equal. rewrite app_length, fmap_length, app_length. done.
    - rewrite app_length. cbn. lia.
  Qed.
  Lemma grid_when_ok A k st b d i (rest : list arc) : grep A k st -> length (A ++ arc_if b d (sw i) ++ rest) <= m ->
    (b = true -> i < length src) ->
    exists st', when b (fun st => grid_put src st d i) st = Ok st' /\ grep (A ++ arc_if b d (sw i)) k st'.
  Proof.
    intros H Hl Hi. destruct b; cbn [when arc_if] in *.
    - apply grid_put_ok; [done| |by apply Hi]. rewrite !app_length in Hl. cbn in Hl. lia.
    - exists st. rewrite app_nil_r. done.
  Qed.

  Definition firsts (k : nat) : list arc := concat (grid_rows <$> seq 0 k).
  Lemma firsts_S k : firsts (S k) = firsts k ++ grid_rows k.
  Proof. unfold firsts. rewrite seq_S, fmap_app, concat_app. cbn. by rewrite app_nil_r. Qed.
  Lemma firsts_len k : length (firsts k) = rstart grid_rows k.
  Proof. induction k as [|k IH]; [done|]. rewrite firsts_S, app_length, IH. done. Qed.

  Lemma grid_vertex_ok k st : k < n -> grep (firsts k) k st ->
    exists st', grid_vertex nx ny nz src st (k mod nx) ((k / nx) mod ny) ((k / nx) / ny) = Ok st' /\ grep (firsts (S k)) (S k) st'.
  Proof.
    intros Hk H. destruct (get_inv nx ny nz k Hk) as (x & y & z & Bx & By & Bz & ->).
    rewrite get_x, get_y, get_z by done. rewrite firsts_S, grid_rows_get by done.
    assert (Hlen : length (firsts (get x y z) ++ nbrs x y z) <= m).
    { rewrite app_length, firsts_len, <- (grid_rows_get x y z) by done. rewrite Hm.
      pose proof (rstart_le grid_rows (S (get x y z)) n ltac:(lia)) as R. rewrite rstart_S in R. lia. }
    remember (get x y z) as k eqn:Ek. unfold grid_vertex. rewrite <- !Ek. unfold nbrs in *. rewrite <- Ek in *.
    rewrite <- !app_assoc in *. cbn zeta.
    destruct (grid_when_ok (firsts k) k st (Nat.ltb 0 x) (get (x - 1) y z) (get (x - 1) y z * 3)
      (arc_if (Nat.ltb x (nx - 1)) (get (x + 1) y z) (sw (k * 3)) ++
       arc_if (Nat.ltb 0 y) (get x (y - 1) z) (sw (get x (y - 1) z * 3 + 1)) ++
       arc_if (Nat.ltb y (ny - 1)) (get x (y + 1) z) (sw (k * 3 + 1)) ++
       arc_if (Nat.ltb 0 z) (get x y (z - 1)) (sw (get x y (z - 1) * 3 + 2)) ++
       arc_if (Nat.ltb z (nz - 1)) (get x y (z + 1)) (sw (k * 3 + 2)))) as (s1 & E1 & H1); [done|done| |].
    { intros B%Nat.ltb_lt. pose proof (get_lt nx ny nz (x - 1) y z ltac:(lia) By Bz). lia. }
    cbn zeta in E1. rewrite E1. cbn [obind]. clear E1 H st. rewrite app_assoc in Hlen.
    destruct (grid_when_ok _ k s1 (Nat.ltb x (nx - 1)) (get (x + 1) y z) (k * 3) _ H1 Hlen) as (s2 & E2 & H2).
    { intros B. lia. }
    rewrite E2. cbn [obind]. clear E2 H1 s1. rewrite app_assoc in Hlen.
    destruct (grid_when_ok _ k s2 (Nat.ltb 0 y) (get x (y - 1) z) (get x (y - 1) z * 3 + 1) _ H2 Hlen) as (s3 & E3 & H3).
    { intros B%Nat.ltb_lt. pose proof (get_lt nx ny nz x (y - 1) z Bx ltac:(lia) Bz). lia. }
    rewrite E3. cbn [obind]. clear E3 H2 s2. rewrite app_assoc in Hlen.
    destruct (grid_when_ok _ k s3 (Nat.ltb y (ny - 1)) (get x (y + 1) z) (k * 3 + 1) _ H3 Hlen) as (s4 & E4 & H4).
    { intros B. lia. }
    rewrite E4. cbn [obind]. clear E4 H3 s3. rewrite app_assoc in Hlen.
    destruct (grid_when_ok _ k s4 (Nat.ltb 0 z) (get x y (z - 1)) (get x y (z - 1) * 3 + 2) _ H4 Hlen) as (s5 & E5 & H5).
    { intros B%Nat.ltb_lt. pose proof (get_lt nx ny nz x y (z - 1) Bx By ltac:(lia)). lia. }
    rewrite E5. cbn [obind]. clear E5 H4 s4. rewrite app_assoc in Hlen.
    rewrite <- (app_nil_r (arc_if (z <? nz - 1) _ _)) in Hlen.
    destruct (grid_when_ok _ k s5 (Nat.ltb z (nz - 1)) (get x y (z + 1)) (k * 3 + 2) _ H5 Hlen) as (s6 & E6 & H6).
    { intros B. lia. }
    rewrite E6. cbn [obind]. clear E6 H5 s5 Hlen. rewrite <- !app_assoc in H6.
    destruct H6 as [Ga Ge Gd Gv Gl Gp].
    rewrite Gv, wri_ok by lia. cbn [obind]. eexists. split; [reflexivity|].
    split; cbn [gs_adj gs_ew gs_edge gs_vertex gs_prefix]; try done.
    - by rewrite insert_length.
    - intros v Hv. destruct (decide (v = S k)) as [->|].
      + rewrite list_lookup_insert by lia. do 2 f_equal. rewrite Gd, rstart_S, <- firsts_len, app_length. f_equal. f_equal.
        rewrite Ek, grid_rows_get by done. unfold nbrs. rewrite <- !app_assoc, <- Ek. done.
      + rewrite list_lookup_insert_ne by done. apply Gp. lia.
  Qed.
  Lemma grid_fill_ok st : grep [] 0 st -> exists st', grid_fill nx ny nz src st = Ok st' /\ grep (firsts n) n st'.
  Proof.
    intros H0.
    assert (E : grid_fill nx ny nz src st = ofold (fun st i => grid_vertex nx ny nz src st (i mod nx) ((i / nx) mod ny) ((i / nx) / ny)) st (seq 0 n)).
    { replace n with ((nz * ny) * nx) by lia. rewrite <- ofold_nest.
      rewrite (ofold_ext _ (fun s j => ofold (fun s x => grid_vertex nx ny nz src s x (j mod ny) (j / ny)) s (seq 0 nx)) (seq 0 (nz * ny))).
      2: { intros s j Hj. apply ofold_ext. intros s' x Hxx. apply elem_of_seq in Hxx.
        replace ((j * nx + x) mod nx) with x by (rewrite Nat.add_comm, Nat.mod_add by lia; symmetry; apply Nat.mod_small; lia).
        replace ((j * nx + x) / nx) with j by (rewrite Nat.div_add_l by lia; rewrite Nat.div_small by lia; lia). done. }
      rewrite <- ofold_nest. unfold grid_fill. apply ofold_ext. intros s z Hzz. apply ofold_ext. intros s' y Hyy. apply elem_of_seq in Hyy.
      apply ofold_ext. intros s'' x Hxx.
      replace ((z * ny + y) mod ny) with y by (rewrite Nat.add_comm, Nat.mod_add by lia; symmetry; apply Nat.mod_small; lia).
      replace ((z * ny + y) / ny) with z by (rewrite Nat.div_add_l by lia; rewrite Nat.div_small by lia; lia). done. }
    rewrite E. apply wpo_never. apply (ofold_seq_wp (fun k => grep (firsts k) k)); [exact H0|].
    intros k s Hk Hs. apply wpo_never. by apply grid_vertex_ok.
  Qed.
  Lemma firsts_lookup k v j a : v < k -> grid_rows v !! j = Some a -> firsts k !! (rstart grid_rows v + j) = Some a.
  Proof.
    intros Hv Ha. induction k as [|k IH]; [lia|]. rewrite firsts_S. destruct (decide (v = k)) as [->|].
    - rewrite lookup_app_r by (rewrite firsts_len; lia). rewrite firsts_len. replace (rstart grid_rows k + j - rstart grid_rows k) with j by lia. done.
    - rewrite lookup_app_l; [apply IH; lia|]. rewrite firsts_len. apply lookup_lt_Some in Ha.
      pose proof (rstart_le grid_rows (S v) k ltac:(lia)) as R. rewrite rstart_S in R. lia.
  Qed.
End Grid.

(** ** The rows are the neighbourhoods of the grid *)
Definition one_apart (a b : nat) : Prop := a = S b \/ b = S a.
(** Two points differ by one in exactly one dimension. *)
Definition grid_adjacent (x y z x' y' z' : nat) : Prop :=
  (one_apart x x' /\ y = y' /\ z = z') \/ (x = x' /\ one_apart y y' /\ z = z') \/ (x = x' /\ y = y' /\ one_apart z z').

Section Nbrs.
  Context (nx ny nz : nat) (src : list Z) (Hx : 0 < nx) (Hy : 0 < ny) (Hz : 0 < nz).
  Notation get := (grid_get nx ny).
  Notation sw := (fun i => nth i src 0%Z).
  Lemma get_inj x y z x' y' z' : x < nx -> y < ny -> x' < nx -> y' < ny ->
    get x y z = get x' y' z' -> x = x' /\ y = y' /\ z = z'.
  Proof.
    intros Bx By Bx' By' E. split_and!.
    - rewrite <- (get_x nx ny x y z Bx), E. by apply get_x.
    - rewrite <- (get_y nx ny x y z Bx By), E. by apply get_y.
    - rewrite <- (get_z nx ny x y z Bx By), E. by apply get_z.
  Qed.
  Lemma elem_arc_if b d w a : a ∈ arc_if b d w <-> b = true /\ a = (d, w).
  Proof. destruct b; cbn; [rewrite elem_of_list_singleton|rewrite elem_of_nil]; naive_solver. Qed.
  Lemma in_nbrs d w x y z : (d, w) ∈ nbrs nx ny nz src x y z <->
    (0 < x /\ d = get (x - 1) y z /\ w = sw (get (x - 1) y z * 3)) \/
    (x < nx - 1 /\ d = get (x + 1) y z /\ w = sw (get x y z * 3)) \/
    (0 < y /\ d = get x (y - 1) z /\ w = sw (get x (y - 1) z * 3 + 1)) \/
    (y < ny - 1 /\ d = get x (y + 1) z /\ w = sw (get x y z * 3 + 1)) \/
    (0 < z /\ d = get x y (z - 1) /\ w = sw (get x y (z - 1) * 3 + 2)) \/
    (z < nz - 1 /\ d = get x y (z + 1) /\ w = sw (get x y z * 3 + 2)).
  Proof. unfold nbrs. rewrite !elem_of_app, !elem_arc_if, !Nat.ltb_lt. naive_solver. Qed.
  Lemma nbr_back x y z d w : x < nx -> y < ny -> z < nz -> (d, w) ∈ nbrs nx ny nz src x y z ->
    exists x' y' z', x' < nx /\ y' < ny /\ z' < nz /\ d = get x' y' z' /\ grid_adjacent x y z x' y' z' /\
      (get x y z, w) ∈ nbrs nx ny nz src x' y' z'.
  Proof.
    intros Bx By Bz H. apply in_nbrs in H.
    destruct H as [(B & -> & ->)|[(B & -> & ->)|[(B & -> & ->)|[(B & -> & ->)|[(B & -> & ->)|(B & -> & ->)]]]]].
    - exists (x - 1), y, z. split_and!; try lia; [unfold grid_adjacent, one_apart; lia|]. apply in_nbrs. right; left.
      replace (x - 1 + 1) with x by lia. split; [lia|done].
    - exists (x + 1), y, z. split_and!; try lia; [unfold grid_adjacent, one_apart; lia|]. apply in_nbrs. left.
      replace (x + 1 - 1) with x by lia. split; [lia|done].
    - exists x, (y - 1), z. split_and!; try lia; [unfold grid_adjacent, one_apart; lia|]. apply in_nbrs. right; right; right; left.
      replace (y - 1 + 1) with y by lia. split; [lia|done].
    - exists x, (y + 1), z. split_and!; try lia; [unfold grid_adjacent, one_apart; lia|]. apply in_nbrs. right; right; left.
      replace (y + 1 - 1) with y by lia. split; [lia|done].
    - exists x, y, (z - 1). split_and!; try lia; [unfold grid_adjacent, one_apart; lia|]. apply in_nbrs. do 5 right.
      replace (z - 1 + 1) with z by lia. split; [lia|done].
    - exists x, y, (z + 1). split_and!; try lia; [unfold grid_adjacent, one_apart; lia|]. apply in_nbrs. do 4 right; left.
      replace (z + 1 - 1) with z by lia. split; [lia|done].
  Qed.
  Lemma nbr_iff x y z x' y' z' : x < nx -> y < ny -> z < nz -> x' < nx -> y' < ny -> z' < nz ->
    (exists w, (get x' y' z', w) ∈ nbrs nx ny nz src x y z) <-> grid_adjacent x y z x' y' z'.
  Proof.
    intros Bx By Bz Bx' By' Bz'. split.
    - intros [w H]. destruct (nbr_back x y z _ w Bx By Bz H) as (a & b & c & Ba & Bb & Bc & E & Hadj & _).
      apply get_inj in E as (-> & -> & ->); done.
    - unfold grid_adjacent, one_apart. intros H. assert (G : forall d w, (d, w) ∈ nbrs nx ny nz src x y z -> d = get x' y' z' -> exists w, (get x' y' z', w) ∈ nbrs nx ny nz src x y z) by (intros d w ? <-; eauto).
      destruct H as [([->| ->] & -> & ->)|[(-> & [->| ->] & ->)|(-> & -> & [->| ->])]].
      + eapply G; [apply in_nbrs; left; split; [lia|done]|f_equal; lia].
      + eapply G; [apply in_nbrs; right; left; split; [lia|done]|f_equal; lia].
      + eapply G; [apply in_nbrs; do 2 right; left; split; [lia|done]|f_equal; lia].
      + eapply G; [apply in_nbrs; do 3 right; left; split; [lia|done]|f_equal; lia].
      + eapply G; [apply in_nbrs; do 4 right; left; split; [lia|done]|f_equal; lia].
      + eapply G; [apply in_nbrs; do 5 right; split; [lia|done]|f_equal; lia].
  Qed.
  Lemma nodup_if (A : list arc) b d w : NoDup (fst <$> A) -> (b = true -> forall w', (d, w') ∉ A) -> NoDup (fst <$> (A ++ arc_if b d w)).
  Proof.
    intros H Hd. destruct b; cbn [arc_if]; [|by rewrite app_nil_r]. rewrite fmap_app. apply NoDup_app. split; [done|]. split.
    - intros e He Hs. cbn in Hs. apply elem_of_list_singleton in Hs as ->. apply elem_of_list_fmap in He as ([d' w'] & E & He). cbn in E. subst d'.
      apply (Hd eq_refl w' He).
    - apply NoDup_singleton.
  Qed.
  Lemma nbrs_nodup x y z : x < nx -> y < ny -> z < nz -> NoDup (fst <$> nbrs nx ny nz src x y z).
  Proof.
    intros Bx By Bz. unfold nbrs.
    repeat apply nodup_if; try (intros B w'; apply Nat.ltb_lt in B; rewrite ?elem_of_app, ?elem_arc_if, ?Nat.ltb_lt; intros H).
    1: destruct (Nat.ltb 0 x); [apply NoDup_singleton|apply NoDup_nil_2].
    all: repeat (destruct H as [H|H]); destruct H as [B' [= E _]]; apply get_inj in E; lia.
  Qed.
End Nbrs.

Lemma fill_with_range_wp n lo hi E : (lo <= hi)%Z ->
  wpm (fill_with_range n lo hi) E (fun l => length l = n /\ Forall (fun w => (lo <= w <= hi)%Z) l).
Proof.
  intros H. unfold fill_with_range. apply (mfold_seq_wp (fun k l => length l = k /\ Forall (fun w => (lo <= w <= hi)%Z) l)); [done|].
  intros i l Hi [Hl Hf]. eapply wpm_bind; [apply (wpm_choose_below _ _ (fun i => i < Z.to_nat (hi - lo + 1))); [lia|done]|].
  intros j Hj. cbn beta in Hj. apply wpm_ret. rewrite app_length. split; [cbn; lia|]. apply Forall_app. split; [done|]. apply Forall_singleton. lia.
Qed.

Section Generate.
  Context (nx ny nz : nat) (r : grid_weights) (Hx : 0 < nx) (Hy : 0 < ny) (Hz : 0 < nz).
  Notation n := (nx * ny * nz).
  Context (Hsize : (Z.of_nat n * 6 < W32)%Z).
  Context (He : (0 <= gw_emin r <= gw_emax r)%Z) (He' : (gw_emax r + 1 < W32)%Z) (Hv : (0 <= gw_vmin r <= gw_vmax r)%Z) (Hv' : (gw_vmax r < W32)%Z).

  Definition is_grid (g : graph) : Prop := exists src, length src = n * 3 /\
    Forall (fun w => (gw_emin r <= w <= gw_emax r + 1)%Z) src /\ wf_graph g /\ nv g = n /\
    ne g = ((nx - 1) * (ny * nz) + (ny - 1) * (nx * nz) + (nz - 1) * (nx * ny)) * 2 /\
    (forall v, v < n -> out g v = grid_rows nx ny nz src v) /\
    (forall v, v < n -> (gw_vmin r <= vweight g v <= gw_vmax r)%Z).
  Lemma grid_generate_wp : wpm (grid_generate nx ny nz r) never is_grid.
  Proof.
    assert (Hn : grid_num_vertices nx ny nz = n).
    { unfold grid_num_vertices. rewrite u32_small by lia. lia. }
    assert (Hm : grid_num_edges nx ny nz = ((nx - 1) * (ny * nz) + (ny - 1) * (nx * nz) + (nz - 1) * (nx * ny)) * 2).
    { unfold grid_num_edges. rewrite u32_small; [|nia]. apply Nat2Z.inj.
      rewrite Z2Nat.id by nia. rewrite !Nat2Z.inj_mul, !Nat2Z.inj_add, !Nat2Z.inj_mul, !Nat2Z.inj_sub by lia. ring. }
    unfold grid_generate. rewrite Hn, Hm. clear Hn Hm. set (m := _ * 2).
    replace (Z.to_nat (u32 (Z.of_nat n * 3))) with (n * 3) by (rewrite u32_small by lia; lia).
    rewrite (u32_small (gw_emax r + 1)) by lia.
    eapply wpm_bind; [apply fill_with_range_wp; lia|]. intros src [Hs Hr].
    rewrite wri_ok by (unfold alloc; rewrite replicate_length; lia). apply wpm_liftk.
    pose proof (grid_total nx ny nz src Hx Hy Hz Hs) as Htot. fold m in Htot.
    destruct (grid_fill_ok nx ny nz src Hx Hy Hz ltac:(lia) m (eq_sym Htot)
      (mkGS (<[0:=Some 0]> (alloc (S n))) (alloc m) (alloc m) 0 0)) as (st & Est & [Ga Ge Gd Gv Gl Gp]).
    { split; cbn [gs_adj gs_ew gs_edge gs_vertex gs_prefix length]; try done.
      - by rewrite Nat.sub_0_r.
      - by rewrite Nat.sub_0_r.
      - rewrite insert_length. unfold alloc. by rewrite replicate_length.
      - intros v Hv0. replace v with 0 by lia. rewrite list_lookup_insert by (unfold alloc; rewrite replicate_length; lia). done. }
    rewrite Est. apply wpm_liftk. rewrite firsts_len, Htot, Nat.sub_diag in Ga, Ge. cbn [replicate] in Ga, Ge. rewrite app_nil_r in Ga, Ge.
    eapply wpm_bind; [apply fill_with_range_wp; lia|]. intros vw [Lv Rv].
    rewrite (frozen_ok _ (rstart (grid_rows nx ny nz src))).
    2: { intros i Hi. apply Gp. lia. }
    apply wpm_liftk. rewrite Ga, Ge, !frozen_some. apply wpm_liftk. apply wpm_liftk. rewrite Gl.
    assert (Lf : length (firsts nx ny nz src n) = m) by (rewrite firsts_len; exact Htot).
    assert (Hrow : forall v x y z, v = grid_get nx ny x y z -> x < nx -> y < ny -> grid_rows nx ny nz src v = nbrs nx ny nz src x y z).
    { intros v x y z -> ? ?. apply grid_rows_get; done. }
    assert (Hfirst : forall d w, (d, w) ∈ firsts nx ny nz src n -> d < n /\ (0 <= w < W32)%Z).
    { intros d w H. unfold firsts in H. apply elem_of_list_In, in_concat in H as (l & Hl & H).
      apply elem_of_list_In, elem_of_list_fmap in Hl as (v & -> & Hvv). apply elem_of_seq in Hvv.
      destruct (get_inv nx ny nz v ltac:(lia)) as (x & y & z & Bx & By & Bz & Ev).
      rewrite (Hrow v x y z Ev Bx By) in H. apply elem_of_list_In in H.
      destruct (nbr_back nx ny nz src Hx Hy Hz x y z d w Bx By Bz H) as (x' & y' & z' & Bx' & By' & Bz' & -> & _).
      split; [apply get_lt; done|].
      assert (G : forall i, (0 <= nth i src 0 < W32)%Z).
      { intros i. destruct (decide (i < length src)) as [Hi|Hi].
        - rewrite Forall_forall in Hr. specialize (Hr (nth i src 0%Z) ltac:(apply elem_of_list_In, nth_In; done)). lia.
        - rewrite nth_overflow by lia. unfold W32; lia. }
      apply in_nbrs in H.
      destruct H as [(B & _ & ->)|[(B & _ & ->)|[(B & _ & ->)|[(B & _ & ->)|[(B & _ & ->)|(B & _ & ->)]]]]]; apply G. }
    destruct (graph_make_ok (rstart (grid_rows nx ny nz src) <$> seq 0 (S n)) (fst <$> firsts nx ny nz src n) vw (snd <$> firsts nx ny nz src n) n)
      as (g & Eg & Hwf & Egp & Ega & Egv & Ege & Hnv & _).
    { rewrite fmap_length, seq_length. done. }
    { done. }
    { intros v Hvn. rewrite !nth_lookup, !list_lookup_fmap, !lookup_seq_lt by lia. cbn [fmap option_fmap option_map default]. apply rstart_le. lia. }
    { rewrite nth_lookup, list_lookup_fmap, lookup_seq_lt by lia. cbn. rewrite fmap_length, Lf. exact Htot. }
    { apply Forall_fmap. apply Forall_forall. intros [d w] H. apply Hfirst in H. cbn. tauto. }
    { split; [right; done|]. eapply Forall_impl; [exact Rv|]. cbn. intros; lia. }
    { split; [right; rewrite !fmap_length; done|]. apply Forall_fmap. apply Forall_forall. intros [d w] H. apply Hfirst in H. cbn. tauto. }
    rewrite Eg. apply wpm_lift. apply wpo_ok.
    assert (HR : has_rows n (grid_rows nx ny nz src) g).
    { split.
      - rewrite Egp, fmap_length, seq_length. done.
      - intros v Hvn. unfold pre_at. rewrite Egp. rewrite nth_lookup, list_lookup_fmap, lookup_seq_lt by lia. done.
      - unfold ne. rewrite Ega, fmap_length, Lf. symmetry. exact Htot.
      - intros v j d w Hvn Hd. rewrite Ega, list_lookup_fmap, (firsts_lookup nx ny nz src Hx Hy Hz Hs m (eq_sym Htot) n v j _ Hvn Hd). done.
      - intros v j d w Hvn Hd. rewrite Ege. pose proof (firsts_lookup nx ny nz src Hx Hy Hz Hs m (eq_sym Htot) n v j _ Hvn Hd) as L.
        rewrite wgt_at_nth; [|intros E0; apply fmap_nil_inv in E0; rewrite E0 in L; done].
        rewrite nth_lookup, list_lookup_fmap, L. done. }
    exists src. split; [done|]. split; [done|]. split; [done|]. split; [done|].
    split; [unfold ne; rewrite Ega, fmap_length; exact Lf|]. split; [intros; eapply out_rows; done|].
    intros v Hvn. unfold vweight. rewrite Egv, wgt_at_nth by (intros ->; cbn in Lv; lia).
    rewrite Forall_forall in Rv. apply Rv. apply elem_of_list_In, nth_In. lia.
  Qed.
End Generate.
