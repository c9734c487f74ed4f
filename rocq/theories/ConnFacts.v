(** * ConnFacts: connectivity built from scratch and kept under moves (C27-C29). *)
From Verif Require Import Base F64 ModelGraph ModelPartition ModelConn ModelFM Spec Logic Sums GraphFacts PartFacts.

Lemma get_assignment_ok g p v : length (p_where p) = nv g -> v < nv g -> get_assignment p v = Ok (lab p v).
Proof. intros Hl Hv. apply rd_nth. lia. Qed.

(** frozen of a fully written array *)
Lemma wpo_frozen {A} (l : list (option A)) (h : nat -> A) E (P : list A -> Prop) :
  (forall i, i < length l -> l !! i = Some (Some (h i))) -> P (h <$> seq 0 (length l)) -> wpo (frozen l) E P.
Proof. intros H HP. rewrite (frozen_ok _ h) by done. done. Qed.

(** Filling an array index by index. *)
Definition filled {A} (n i : nat) (h : nat -> A) (l : list (option A)) : Prop :=
  length l = n /\ forall j, j < i -> l !! j = Some (Some (h j)).
Lemma filled_alloc {A} n (h : nat -> A) : filled n 0 h (alloc n).
Proof. split; [apply replicate_length|lia]. Qed.
Lemma filled_wri {A} n i (h : nat -> A) l : filled n i h l -> i < n ->
  exists l', wri l i (h i) = Ok l' /\ filled n (S i) h l'.
Proof.
  intros [Hl H] Hi. unfold wri. rewrite wr_ok by lia. eexists. split; [done|].
  split; [by rewrite insert_length|]. intros j Hj. destruct (decide (j = i)) as [->|Hne].
  - apply list_lookup_insert. lia.
  - rewrite list_lookup_insert_ne by done. apply H. lia.
Qed.
Lemma filled_frozen {A} n (h : nat -> A) l : filled n n h l -> frozen l = Ok (h <$> seq 0 n).
Proof. intros [Hl H]. rewrite (frozen_ok _ h); [by rewrite Hl|]. rewrite Hl. done. Qed.
Lemma fmap_seq_lookup {A} (h : nat -> A) n i : i < n -> (h <$> seq 0 n) !! i = Some (h i).
Proof. intros Hi. rewrite list_lookup_fmap, lookup_seq_lt by done. done. Qed.

Section Conn.
  Context (g : graph) (Hwf : wf_graph g).

  Lemma vertex_connectivity_ok p v : length (p_where p) = nv g -> v < nv g ->
    vertex_connectivity g p v = Ok (u32 (internal g (lab p) v), u32 (external g (lab p) v)).
  Proof.
    intros Hl Hv. unfold vertex_connectivity. rewrite get_assignment_ok with (g := g) by done. cbn [obind].
    cut (forall m, wpo m never (fun r => r = (u32 (internal g (lab p) v), u32 (external g (lab p) v))) ->
      m = Ok (u32 (internal g (lab p) v), u32 (external g (lab p) v))).
    { intros Hc. apply Hc.
      apply (for_edges_wp g Hwf v (fun l r => r =
        (u32 (sumf (fun a => if decide (lab p (fst a) = lab p v) then snd a else 0%Z) l),
         u32 (sumf (fun a => if decide (lab p (fst a) = lab p v) then 0%Z else snd a) l)))); [done|done|].
      intros pre e a post s Hout (He & Hd & Hw & _ & Hr & _) ->.
      rewrite Hd. cbn [obind]. rewrite get_assignment_ok with (g := g) by done. cbn [obind].
      rewrite Hw. cbn [obind wpo]. rewrite !sumf_snoc. cbn [fst snd].
      case_decide; rewrite ?u32_add_l; repeat f_equal; lia. }
    intros m (r & -> & ->)%wpo_never. done.
  Qed.

  Context (Hfit : fits g).
  Lemma int_small (f : nat -> option nat) v : v < nv g -> u32 (internal g f v) = internal g f v.
  Proof.
    intros Hv. apply u32_small. pose proof (internal_nonneg g Hwf f v Hv).
    pose proof (external_nonneg g Hwf f v Hv). pose proof (int_ext_total g f v).
    pose proof (out_le_total g Hwf v Hv). unfold fits in Hfit. lia.
  Qed.
  Lemma ext_small (f : nat -> option nat) v : v < nv g -> u32 (external g f v) = external g f v.
  Proof.
    intros Hv. apply u32_small. pose proof (internal_nonneg g Hwf f v Hv).
    pose proof (external_nonneg g Hwf f v Hv). pose proof (int_ext_total g f v).
    pose proof (out_le_total g Hwf v Hv). unfold fits in Hfit. lia.
  Qed.

  Lemma conn_make_exact (f : nat -> option nat) is es :
    is = (internal g f <$> seq 0 (nv g)) -> es = (external g f <$> seq 0 (nv g)) ->
    conn_exact g f (conn_make is es) /\ border_fresh g f (conn_make is es).
  Proof.
    intros -> ->. split.
    - unfold conn_exact, conn_make; simpl. rewrite zip_with_length, !fmap_length, seq_length, Nat.min_id.
      split_and!; try done. intros v Hv. by rewrite !fmap_seq_lookup.
    - intros v Hv. simpl. rewrite lookup_zip_with, !fmap_seq_lookup by done. simpl.
      unfold should_be_in_border. pose proof (external_nonneg g Hwf f v Hv).
      destruct (Z.ltb_spec 0 (external g f v)), (Z.eqb_spec (internal g f v) 0); simpl;
        split; intros; try done; try lia; naive_solver.
  Qed.

  Lemma from_partitioning_wp E p : length (p_where p) = nv g ->
    wpo (from_partitioning g p) E (fun c => conn_exact g (lab p) c /\ border_fresh g (lab p) c).
  Proof.
    intros Hl. unfold from_partitioning.
    eapply wpo_bind with (P := fun r => filled (nv g) (nv g) (internal g (lab p)) (fst r)
       /\ filled (nv g) (nv g) (external g (lab p)) (snd r)).
    - apply (for_vertices_wp g (fun n r => filled (nv g) n (internal g (lab p)) (fst r)
       /\ filled (nv g) n (external g (lab p)) (snd r))).
      + split; apply filled_alloc.
      + intros v [is es] Hv [Hi He]; cbn [fst snd] in Hi, He. rewrite vertex_connectivity_ok by done. cbn [obind fst snd].
        rewrite int_small, ext_small by done.
        destruct (filled_wri _ _ _ _ Hi Hv) as (is' & -> & Hi'). cbn [obind fst snd].
        destruct (filled_wri _ _ _ _ He Hv) as (es' & -> & He'). done.
    - intros [is es] [Hi He]. simpl in *. rewrite (filled_frozen _ _ _ Hi). simpl.
      rewrite (filled_frozen _ _ _ He). simpl. by apply conn_make_exact.
  Qed.
  Lemma fresh_exact (f : nat -> option nat) c : border_fresh g f c -> border_exact g f c.
  Proof.
    intros H v Hv Hp. rewrite (H v Hv). pose proof (int_ext_total g f v). 
    pose proof (external_nonneg g Hwf f v Hv). split; [intros [?|?]; lia|auto].
  Qed.
End Conn.

(** ** Border update *)
Definition status_of (was now : bool) : border_status :=
  match was, now with
  | true, true => BorderStillIn | true, false => BorderRemoved
  | false, true => BorderAdded | false, false => BorderStillOut
  end.
Lemma update_border_ok c v b e : c_border c !! v = Some b -> c_ext c !! v = Some e -> (0 <= e)%Z ->
  update_border c v = Ok (mkConn (c_int c) (c_ext c) (<[v := (0 <? e)%Z]> (c_border c)), status_of b (0 <? e)%Z).
Proof.
  intros Hb He Hpos. unfold update_border. rewrite (rd_ok _ _ _ Hb), (rd_ok _ _ _ He). cbn [obind].
  pose proof (lookup_lt_Some _ _ _ Hb).
  destruct c as [ci ce cb]; simpl in *.
  destruct b; destruct (Z.eqb_spec e 0), (Z.ltb_spec 0 e); try lia; simpl; rewrite ?wr_ok by done; simpl; try done;
    rewrite list_insert_id by done; done.
Qed.

(** ** FM state *)
Definition fm_data (g : graph) (s : fm) : Prop :=
  exact_part 2 g (fm_part s) /\ conn_exact g (lab (fm_part s)) (fm_conn s) /\
  border_exact g (lab (fm_part s)) (fm_conn s) /\
  length (fm_q0 s) = nv g /\ length (fm_q1 s) = nv g /\ length (fm_vis s) = nv g.
(** What queue i should hold for vertex u. *)
Definition qcell (s : fm) (i u : nat) : option Z :=
  if nth u (fm_vis s) false then None else
  if decide (lab (fm_part s) u = Some i) then
    if nth u (c_border (fm_conn s)) false then
      Some (nth u (c_ext (fm_conn s)) 0 - nth u (c_int (fm_conn s)) 0)%Z
    else None
  else None.
Definition qinv (g : graph) (s : fm) : Prop :=
  forall u i, u < nv g -> i < 2 -> fm_q s i !! u = Some (qcell s i u).

Lemma ext_ge_W g (f : nat -> option nat) u v : wf_graph g -> u < nv g -> v < nv g -> f v <> f u ->
  (W g u v <= external g f u)%Z.
Proof.
  intros Hwf Hu Hv Hne. rewrite external_W by done.
  pose proof (sumn_elem_le (nv g) (fun w => if decide (f w = f u) then 0 else W g u w)%Z v) as H.
  cbv beta in H. rewrite (decide_False (P := f v = f u)) in H by done. apply H; [|done].
  intros w Hw. case_decide; [lia|]. by apply W_nonneg.
Qed.
Lemma int_ge_W g (f : nat -> option nat) u v : wf_graph g -> u < nv g -> v < nv g -> f v = f u ->
  (W g u v <= internal g f u)%Z.
Proof.
  intros Hwf Hu Hv Hne. rewrite internal_W by done.
  pose proof (sumn_elem_le (nv g) (fun w => if decide (f w = f u) then W g u w else 0)%Z v) as H.
  cbv beta in H. rewrite (decide_True (P := f v = f u)) in H by done. apply H; [|done].
  intros w Hw. case_decide; [|lia]. by apply W_nonneg.
Qed.

(** Weight from a list of arcs to u. *)
Definition to_w (l : list (nat * Z)) (u : nat) : Z :=
  sumf (fun a => if decide (fst a = u) then snd a else 0%Z) l.
Lemma to_w_snoc l a u : to_w (l ++ [a]) u = (to_w l u + if decide (fst a = u) then snd a else 0)%Z.
Proof. apply sumf_snoc. Qed.
Lemma to_w_prefix_le g v pre post u : wf_graph g -> v < nv g -> out g v = pre ++ post ->
  (0 <= to_w pre u <= W g v u)%Z.
Proof.
  intros Hwf Hv Hout. unfold W, to_w. rewrite Hout, sumf_app.
  assert (forall l, (forall a, a ∈ l -> a ∈ out g v) ->
    0 <= sumf (fun a : nat * Z => if decide (fst a = u) then snd a else 0) l)%Z as Hn.
  { intros l Hl. apply sumf_nonneg. intros a Ha. case_decide; [|lia]. apply (out_wgt g Hwf v); auto. }
  pose proof (Hn pre ltac:(rewrite Hout; set_solver)).
  pose proof (Hn post ltac:(rewrite Hout; set_solver)). lia.
Qed.

Lemma i32_small z : (- H32 <= z < H32)%Z -> i32 z = Ok z.
Proof. intros H. unfold i32. by rewrite decide_True. Qed.
Lemma i32_of_u32_small z : (z < H32)%Z -> i32_of_u32 z = z.
Proof. intros H. unfold i32_of_u32. destruct (Z.ltb_spec z H32); lia. Qed.
Lemma vertex_delta_ok c v i e : c_int c !! v = Some i -> c_ext c !! v = Some e ->
  (0 <= i < H32)%Z -> (0 <= e < H32)%Z -> vertex_delta c v = Ok (i - e)%Z.
Proof.
  intros Hi He Ri Re. unfold vertex_delta. rewrite (rd_ok _ _ _ Hi), (rd_ok _ _ _ He). cbn [obind].
  rewrite !i32_of_u32_small by lia. apply i32_small. lia.
Qed.
Lemma neg_delta_ok c v i e : c_int c !! v = Some i -> c_ext c !! v = Some e ->
  (0 <= i < H32)%Z -> (0 <= e < H32)%Z -> neg_delta c v = Ok (e - i)%Z.
Proof.
  intros Hi He Ri Re. unfold neg_delta. rewrite (vertex_delta_ok _ _ _ _ Hi He) by done. cbn [obind].
  rewrite i32_small by lia. f_equal. lia.
Qed.
Lemma nth_insert_same {A} (l : list A) i x d : i < length l -> nth i (<[i:=x]> l) d = x.
Proof. intros H. rewrite nth_lookup, list_lookup_insert by done. done. Qed.
Lemma nth_insert_ne {A} (l : list A) i j x d : i <> j -> nth j (<[i:=x]> l) d = nth j l d.
Proof. intros H. rewrite !nth_lookup, list_lookup_insert_ne by done. done. Qed.

Section Move.
  Context (g : graph) (Hwf : wf_graph g) (Hsym : symmetric g) (Hloop : loopless g) (Hfit : fits g).

  Lemma incident_H32 u : u < nv g -> (0 <= sumf snd (out g u) < H32)%Z.
  Proof.
    intros Hu. pose proof (incident_half g u Hwf Hsym Hloop Hu). pose proof (out_nonneg g Hwf u Hu).
    unfold fits, W32, H32 in *. lia.
  Qed.

  (** The neighbour loop.  I0, E0: connectivity when the loop starts. *)
  Context (track : bool) (v from to : nat) (p : part) (I0 E0 : nat -> Z).
  Context (Hv : v < nv g) (Hp : valid_part 2 g p).
  Definition dirn (u : nat) : Z := if decide (lab p u = Some to) then 1%Z else (-1)%Z.
  Context (HI0 : forall u, u < nv g -> u <> v ->
     (0 <= I0 u /\ 0 <= E0 u /\ I0 u + E0 u = sumf snd (out g u))%Z).
  Context (HD : forall u, u < nv g -> u <> v ->
     if decide (lab p u = Some to) then (W g v u <= E0 u)%Z else (W g v u <= I0 u)%Z).
  Definition loop_inv (vis : list bool) (pre : list (nat * Z)) (s : fm) : Prop :=
    fm_part s = p /\ fm_vis s = vis /\ length vis = nv g /\
    length (c_int (fm_conn s)) = nv g /\ length (c_ext (fm_conn s)) = nv g /\ length (c_border (fm_conn s)) = nv g /\
    length (fm_q0 s) = nv g /\ length (fm_q1 s) = nv g /\
    (forall u, u < nv g -> c_int (fm_conn s) !! u = Some (I0 u + dirn u * to_w pre u)%Z
                       /\ c_ext (fm_conn s) !! u = Some (E0 u - dirn u * to_w pre u)%Z) /\
    (forall u, u < nv g -> (0 < sumf snd (out g u))%Z ->
       (c_border (fm_conn s) !! u = Some true <-> (0 < E0 u - dirn u * to_w pre u)%Z)) /\
    (track = true -> qinv g s).

  Lemma neighbor_step E vis pre e a post s :
    out g v = pre ++ a :: post -> is_arc g e a -> loop_inv vis pre s ->
    (track = true -> nth v vis false = true) ->
    wpo (fm_neighbor g track to s e) E (loop_inv vis (pre ++ [a])).
  Proof.
    intros Hout (He & Hd & Hw & _ & Hu & Hwr) HI Hvis. destruct a as [u w]. simpl in Hd, Hw, Hu, Hwr.
    destruct HI as (Hpart & Hvs & Hlv & Hli & Hle & Hlb & Hq0 & Hq1 & Hc & Hb & HQ).
    assert (Huv : u <> v). { eapply (Hloop v u w Hv). rewrite Hout. set_solver. }
    unfold fm_neighbor. rewrite Hd. cbn [obind]. rewrite Hpart.
    destruct Hp as [[Hlw Hlabs] Hpw].
    rewrite (get_assignment_ok g) by done. cbn [obind]. rewrite Hw. cbn [obind].
    destruct (Hc u Hu) as [Ci Ce].
    destruct (HI0 u Hu Huv) as (Hi0 & He0 & Hie0). pose proof (HD u Hu Huv) as HDu.
    pose proof (incident_H32 u Hu) as Hinc.
    assert (Hpre : (0 <= to_w pre u /\ 0 <= to_w pre u + w <= W g v u)%Z).
    { pose proof (to_w_prefix_le g v pre ((u, w) :: post) u Hwf Hv Hout).
      pose proof (to_w_prefix_le g v (pre ++ [(u, w)]) post u Hwf Hv) as H2.
      rewrite to_w_snoc in H2. simpl in H2. rewrite decide_True in H2 by done.
      rewrite <- app_assoc in H2. specialize (H2 Hout). lia. }
    assert (Hdir : get_direction (Some to) (lab p u) = dirn u).
    { unfold get_direction, dirn. repeat case_decide; congruence. }
    rewrite Hdir.
    set (i' := (I0 u + dirn u * (to_w pre u + w))%Z).
    set (e' := (E0 u - dirn u * (to_w pre u + w))%Z).
    assert (Hr : (0 <= i' /\ 0 <= e' /\ i' + e' = sumf snd (out g u))%Z).
    { unfold i', e', dirn. case_decide; lia. }
    unfold update_neighbor. rewrite (rd_ok _ _ _ Ci), (rd_ok _ _ _ Ce). cbn [obind].
    rewrite !wr_ok by lia. cbn [obind].
    assert (W32 = 2 * H32)%Z as HWH by done.
    replace (u32 (I0 u + dirn u * to_w pre u + dirn u * w)) with i'
      by (rewrite u32_small; unfold i' in *; lia).
    replace (u32 (E0 u - dirn u * to_w pre u - dirn u * w)) with e'
      by (rewrite u32_small; unfold e' in *; lia).
    destruct (lookup_lt_is_Some_2 (c_border (fm_conn s)) u ltac:(lia)) as [b Hbu].
    rewrite (update_border_ok _ u b e') by (simpl; rewrite ?list_lookup_insert by lia; auto; lia).
    cbn [obind fst snd c_int c_ext c_border].
    set (c' := {| c_int := <[u:=i']> (c_int (fm_conn s)); c_ext := <[u:=e']> (c_ext (fm_conn s));
                  c_border := <[u:=(0 <? e')%Z]> (c_border (fm_conn s)) |}).
    assert (Hc' : forall x, x < nv g -> c_int c' !! x = Some (I0 x + dirn x * to_w (pre ++ [(u, w)]) x)%Z
                       /\ c_ext c' !! x = Some (E0 x - dirn x * to_w (pre ++ [(u, w)]) x)%Z).
    { intros x Hx. rewrite to_w_snoc. simpl. destruct (decide (u = x)) as [<-|Hne].
      - by rewrite !list_lookup_insert by lia.
      - rewrite !list_lookup_insert_ne by done. rewrite Z.add_0_r. by apply Hc. }
    assert (Hb' : forall x, x < nv g -> (0 < sumf snd (out g x))%Z ->
       (c_border c' !! x = Some true <-> (0 < E0 x - dirn x * to_w (pre ++ [(u, w)]) x)%Z)).
    { intros x Hx Hpos. rewrite to_w_snoc. simpl. destruct (decide (u = x)) as [<-|Hne].
      - rewrite list_lookup_insert by lia. fold e'. destruct (Z.ltb_spec 0 e'); split; try done; lia.
      - rewrite list_lookup_insert_ne by done. rewrite Z.add_0_r. by apply Hb. }
    assert (Hcell : forall i x, x <> u -> forall q0 q1, qcell (mkFm p c' q0 q1 (fm_vis s)) i x = qcell s i x).
    { intros i x Hx q0 q1. unfold qcell; simpl. rewrite Hpart. by rewrite !nth_insert_ne by done. }
    assert (Hlens : length (c_int c') = nv g /\ length (c_ext c') = nv g /\ length (c_border c') = nv g)
      by (simpl; by rewrite !insert_length).
    destruct Hlens as (L1 & L2 & L3).
    assert (Hfin : forall q0 q1, length q0 = nv g -> length q1 = nv g ->
       (track = true -> qinv g (mkFm p c' q0 q1 (fm_vis s))) ->
       loop_inv vis (pre ++ [(u, w)]) (mkFm p c' q0 q1 (fm_vis s))).
    { intros q0 q1 H0 H1 Hq. unfold loop_inv. cbn [fm_part fm_vis fm_conn fm_q0 fm_q1].
      split_and!; auto. }
    destruct track eqn:Ht; cbn [wpo]; [|by apply Hfin].
    specialize (HQ eq_refl). specialize (Hvis eq_refl).
    destruct (lookup_lt_is_Some_2 (fm_vis s) u ltac:(rewrite Hvs; lia)) as [vu Hvu].
    unfold vt_has. cbn [fm_vis]. rewrite (rd_ok _ _ _ Hvu). cbn [obind].
    assert (Hnv : nth u (fm_vis s) false = vu) by (by apply nth_lt_eq).
    destruct vu.
    { apply Hfin; auto. intros _ x i Hx Hi. destruct (decide (x = u)) as [->|Hne].
      - unfold qcell; simpl. rewrite Hnv. specialize (HQ u i Hu Hi). unfold qcell in HQ. rewrite Hnv in HQ.
        unfold fm_q in *; simpl. exact HQ.
      - rewrite Hcell by done. by apply HQ. }
    destruct (Hlabs u Hu) as (h & Hh & Hlabu). assert (Hlu : lab p u = Some h) by (by apply labw_lookup).
    assert (Hk : neg_delta c' u = Ok (e' - i')%Z).
    { apply neg_delta_ok; simpl; rewrite ?list_lookup_insert by lia; auto; lia. }
    assert (Hnb : nth u (c_border (fm_conn s)) false = b) by (by apply nth_lt_eq).
    assert (Hold : fm_q s h !! u = Some (if b then Some (nth u (c_ext (fm_conn s)) 0 - nth u (c_int (fm_conn s)) 0)%Z else None)).
    { rewrite (HQ u h Hu Hh). unfold qcell. rewrite Hnv, Hpart, Hlu, Hnb, decide_True by done. done. }
    assert (Hoth : forall i, i < 2 -> i <> h -> fm_q s i !! u = Some None).
    { intros i Hi Hne. rewrite (HQ u i Hu Hi). unfold qcell. rewrite Hnv, Hpart, Hlu, decide_False by congruence. done. }
    assert (Hset : forall x q', fm_q s h !! u = Some x ->
        q' = <[u := if (0 <? e')%Z then Some (e' - i')%Z else None]> (fm_q s h) ->
        qinv g (mkFm p c' (if Nat.eqb h 0 then q' else fm_q0 s) (if Nat.eqb h 0 then fm_q1 s else q') (fm_vis s))).
    { intros x q' Hx -> y i Hy Hi. 
      assert (Hq : fm_q (mkFm p c' (if Nat.eqb h 0 then <[u := if (0 <? e')%Z then Some (e' - i')%Z else None]> (fm_q s h) else fm_q0 s)
          (if Nat.eqb h 0 then fm_q1 s else <[u := if (0 <? e')%Z then Some (e' - i')%Z else None]> (fm_q s h)) (fm_vis s)) i
        = if decide (i = h) then <[u := if (0 <? e')%Z then Some (e' - i')%Z else None]> (fm_q s h) else fm_q s i).
      { unfold fm_q; simpl. destruct h as [|[|]], i as [|[|]]; try lia; done. }
      rewrite Hq. destruct (decide (y = u)) as [->|Hne].
      - unfold qcell; simpl. rewrite Hnv, Hlu. destruct (decide (i = h)) as [->|Hih].
        + rewrite decide_True by done. rewrite list_lookup_insert by (by eapply lookup_lt_Some).
          rewrite !nth_insert_same by lia. done.
        + rewrite decide_False by congruence. by apply Hoth.
      - rewrite Hcell by done. case_decide as Hih.
        + subst. rewrite list_lookup_insert_ne by done. by apply HQ.
        + by apply HQ. }
    assert (Hlq : length (fm_q s h) = nv g) by (unfold fm_q; destruct (Nat.eqb h 0); done).
    assert (Hgo : forall (f : queue -> outcome queue), f (fm_q s h) = Ok (<[u := if (0 <? e')%Z then Some (e' - i')%Z else None]> (fm_q s h)) ->
       wpo (set_q (mkFm p c' (fm_q0 s) (fm_q1 s) (fm_vis s)) (Some h) f) E (loop_inv vis (pre ++ [(u, w)]))).
    { intros f Hf. pose proof (Hset _ _ Hold eq_refl) as Hq. unfold fm_q in Hf, Hq, Hlq.
      destruct h as [|[|]]; [| |lia]; cbn [set_q fm_q0 fm_q1 Nat.eqb] in *; rewrite Hf; cbn [obind wpo fm_part fm_conn fm_vis];
        apply Hfin; rewrite ?insert_length; auto. }
    rewrite Hlu. cbn [fm_conn]. destruct b; destruct (0 <? e')%Z eqn:Ee; cbn [status_of].
    - rewrite Hk. cbn [obind]. apply Hgo. unfold q_update. rewrite (rd_ok _ _ _ Hold). cbn [obind]. by rewrite wr_ok by lia.
    - apply Hgo. unfold q_remove. rewrite (rd_ok _ _ _ Hold). cbn [obind]. by rewrite wr_ok by lia.
    - rewrite Hk. cbn [obind]. apply Hgo. unfold q_add. rewrite (rd_ok _ _ _ Hold). cbn [obind]. by rewrite wr_ok by lia.
    - cbn [wpo]. pose proof (Hset _ _ Hold eq_refl) as Hq.
      rewrite (list_insert_id (fm_q s h)) in Hq by exact Hold.
      apply Hfin; auto. intros _. unfold fm_q in Hq. destruct h as [|[|]]; [done|done|lia].
  Qed.
End Move.

Section FmMove.
  Context (g : graph) (Hwf : wf_graph g) (Hsym : symmetric g) (Hloop : loopless g) (Hfit : fits g).

  Lemma fm_move_wp E track v from to s :
    v < nv g -> from + to = 1 -> lab (fm_part s) v = Some from -> fm_data g s ->
    (track = true -> qinv g s /\ nth v (fm_vis s) false = true) ->
    wpo (fm_move g track v to s) E (fun s' => fm_data g s' /\
      p_where (fm_part s') = <[v := Some to]> (p_where (fm_part s)) /\ fm_vis s' = fm_vis s /\
      (track = true -> qinv g s')).
  Proof.
    intros Hv Hft Hlabv (HP & HC & HB & Hq0 & Hq1 & Hvl) HT.
    destruct HP as [[HL HW] Hcut]. destruct HC as (Li & Le & Lb & HC).
    set (f := lab (fm_part s)) in *.
    pose proof (incident_H32 g Hwf Hsym Hloop Hfit) as Hinc.
    pose proof (internal_nonneg g Hwf f) as Hin. pose proof (external_nonneg g Hwf f) as Hex.
    pose proof (int_ext_total g f) as Htot.
    destruct (HC v Hv) as [Ci Ce].
    unfold fm_move.
    rewrite (vertex_delta_ok _ _ _ _ Ci Ce); [|specialize (Hinc v Hv); specialize (Hin v Hv); specialize (Hex v Hv); specialize (Htot v); lia
      |specialize (Hinc v Hv); specialize (Hin v Hv); specialize (Hex v Hv); specialize (Htot v); lia].
    cbn [obind].
    unfold conn_move. rewrite (rd_ok _ _ _ Ci), (rd_ok _ _ _ Ce). cbn [obind].
    rewrite !wr_ok by lia. cbn [obind].
    destruct (lookup_lt_is_Some_2 (c_border (fm_conn s)) v ltac:(lia)) as [b Hbv].
    rewrite (update_border_ok _ v b (internal g f v)) by
      (simpl; rewrite ?list_lookup_insert by lia; auto).
    cbn [obind fst c_int c_ext c_border].
    destruct HL as [HLl HLv]. destruct (HLv v Hv) as (i & Hi & Hwv).
    assert (f v = Some i) as Hfi by (by apply labw_lookup).
    eapply wpo_bind; [apply (part_move_wp g Hwf 2 E (fm_part s) v i to); auto; lia|].
    intros p1 (Hpc & Hpw & HPW).
    assert (Hlab1 : forall u, lab p1 u = upd f v (Some to) u).
    { intros u. rewrite lab_labw, Hpw. apply labw_insert. lia. }
    set (c1 := {| c_int := _; c_ext := _; c_border := _ |}).
    set (I0 := fun u => if decide (u = v) then external g f v else internal g f u).
    set (E0 := fun u => if decide (u = v) then internal g f v else external g f u).
    set (p2 := add_cut p1 (internal g f v - external g f v)).
    assert (Hlab2 : forall u, lab p2 u = upd f v (Some to) u) by exact Hlab1.
    assert (Hval2 : valid_part 2 g p2).
    { split; [|split; [apply HPW|exact (proj2 HPW)]]. simpl. rewrite Hpw. apply labels_ok_insert; [by split|lia]. }
    assert (Hlabs : forall u, u < nv g -> f u = Some from \/ f u = Some to).
    { intros u Hu. destruct (HLv u Hu) as (j & Hj & Hwj).
      assert (f u = Some j) as -> by (by apply labw_lookup).
      destruct (decide (j = from)); [left; congruence|right]. f_equal. lia. }
    assert (Hsame : to <> from) by lia.
    eapply wpo_post.
    - apply (for_edges_wp g Hwf v (loop_inv g track to p2 I0 E0 (fm_vis s))); [done| |].
      + unfold loop_inv. cbn [fm_part fm_vis fm_conn fm_q0 fm_q1].
        unfold c1; cbn [c_int c_ext c_border]. rewrite !insert_length.
        split_and!; auto.
        * intros u Hu. unfold to_w. rewrite sumf_nil, Z.mul_0_r, Z.add_0_r, Z.sub_0_r. unfold I0, E0.
          case_decide as Eu; [subst; by rewrite !list_lookup_insert by lia|].
          rewrite !list_lookup_insert_ne by done. by apply HC.
        * intros u Hu Hpos. unfold to_w. rewrite sumf_nil, Z.mul_0_r, Z.sub_0_r. unfold E0.
          case_decide as Eu.
          -- subst. rewrite list_lookup_insert by lia.
             destruct (Z.ltb_spec 0 (internal g f v)); split; try done; lia.
          -- rewrite list_lookup_insert_ne by done. by apply HB.
        * intros Ht. destruct (HT Ht) as [HQ Hvis]. intros u j Hu Hj.
          specialize (HQ u j Hu Hj). unfold fm_q in *; simpl.
          rewrite HQ. f_equal. unfold qcell; simpl. destruct (decide (u = v)) as [->|Hne].
          -- by rewrite Hvis.
          -- rewrite !nth_insert_ne by done. rewrite Hlab2, upd_other by done. done.
      + intros pre e a post s' Hout Harc HI. eapply neighbor_step; eauto.
        * intros u Hu Hne. unfold I0, E0. rewrite !decide_False by done. split_and!; auto.
        * intros u Hu Hne. unfold I0, E0. rewrite Hlab2, upd_other by done.
          rewrite !(decide_False (P := u = v)) by done. rewrite (Hsym v u Hv Hu).
          case_decide as Eu; [apply ext_ge_W|apply int_ge_W]; auto; fold f in Hlabv; rewrite Hlabv; 
            destruct (Hlabs u Hu); congruence.
        * intros Ht. by apply HT.
    - intros s' (Hpart & Hvis & _ & Li' & Le' & Lb' & Lq0 & Lq1 & HC' & HB' & HQ').
      assert (Hfin : forall u, u < nv g ->
        (I0 u + dirn to p2 u * to_w (out g v) u)%Z = internal g (upd f v (Some to)) u /\
        (E0 u - dirn to p2 u * to_w (out g v) u)%Z = external g (upd f v (Some to)) u).
      { intros u Hu. unfold I0, E0, dirn. rewrite Hlab2. change (to_w (out g v) u) with (W g v u).
        destruct (decide (u = v)) as [->|Hne].
        - rewrite loopless_W by done.
          destruct (upd_int_ext_self g f v (Some from) (Some to)) as [E1 E2]; auto; [congruence|].
          rewrite E1, E2. lia.
        - rewrite upd_other by done. rewrite upd_int_other, upd_ext_other by done. rewrite Hlabv.
          rewrite (Hsym v u Hv Hu).
          destruct (Hlabs u Hu) as [-> | ->].
          + rewrite !(decide_False (P := Some from = Some to)), !(decide_False (P := Some to = Some from)),
              !(decide_True (P := Some from = Some from)) by congruence. lia.
          + rewrite !(decide_False (P := Some from = Some to)), !(decide_True (P := Some to = Some to)) by congruence. lia. }
      assert (Hlab' : forall u, lab (fm_part s') u = upd f v (Some to) u) by (intros; rewrite Hpart; apply Hlab2).
      split_and!; auto.
      + unfold fm_data. rewrite Hpart. split_and!; auto; rewrite ?Hvis; auto.
        * split; [done|]. simpl. rewrite Hpc, Hcut.
          rewrite (edge_cut_ext g (lab p2) (upd f v (Some to))) by (intros; apply Hlab2).
          rewrite (edge_cut_move g f v (Some from) (Some to)) by (auto; congruence).
          fold f. apply u32_small.
          rewrite <- (edge_cut_move g f v (Some from) (Some to)) by (auto; congruence).
          pose proof (edge_cut_nonneg g Hwf (upd f v (Some to))).
          pose proof (edge_cut_le_total g Hwf (upd f v (Some to)) Hsym). unfold fits in Hfit. lia.
        * unfold conn_exact. split_and!; auto. intros u Hu. destruct (HC' u Hu) as [-> ->].
          destruct (Hfin u Hu) as [-> ->].
          rewrite (internal_ext g (lab p2) (upd f v (Some to))), (external_ext g (lab p2) (upd f v (Some to))) by auto. done.
        * intros u Hu Hpos. rewrite (HB' u Hu Hpos). rewrite (proj2 (Hfin u Hu)).
          rewrite (external_ext g (lab p2) (upd f v (Some to))) by auto. done.
      + rewrite Hpart. exact Hpw.
  Qed.
End FmMove.
