(** * PropsUtil: property theorems about the grid generator (C42) and the time keeper (C45). *)
From Verif Require Import Base F64 ModelGraph ModelBuilders ModelAgg ModelUtil Spec Logic Sums GraphFacts BuilderFacts GridFacts Examples PropsValid.
#[local] Arguments seq : simpl nomatch.

(** ** C42: the generated graph is the nx * ny * nz grid.  Vertex (x, y, z) has index
    (z*ny + y)*nx + x. *)
Definition at_point (nx ny x y z : nat) : nat := (z * ny + y) * nx + x.
Theorem C42_grid : forall nx ny nz r cs, 0 < nx -> 0 < ny -> 0 < nz -> (Z.of_nat (nx * ny * nz) * 6 < W32)%Z ->
  (0 <= gw_emin r <= gw_emax r)%Z -> (gw_emax r + 1 < W32)%Z -> (0 <= gw_vmin r <= gw_vmax r)%Z -> (gw_vmax r < W32)%Z ->
  exists g cs', grid_generate nx ny nz r cs = Ok (g, cs') /\ wf_graph g /\
    nv g = nx * ny * nz /\
    ne g = 2 * ((nx - 1) * ny * nz + nx * (ny - 1) * nz + nx * ny * (nz - 1)) /\
    (forall x y z x' y' z', x < nx -> y < ny -> z < nz -> x' < nx -> y' < ny -> z' < nz ->
       (exists w, (at_point nx ny x' y' z', w) ∈ out g (at_point nx ny x y z)) <-> grid_adjacent x y z x' y' z') /\
    (forall v u w, v < nv g -> (u, w) ∈ out g v -> (v, w) ∈ out g u /\ (gw_emin r <= w <= gw_emax r + 1)%Z) /\
    (forall v, v < nv g -> NoDup (fst <$> out g v)) /\
    (forall v, v < nv g -> (gw_vmin r <= vweight g v <= gw_vmax r)%Z) /\
    symmetric g /\ loopless g /\ is_valid g = Ok true.
Proof.
  intros nx ny nz r cs Hx Hy Hz Hs He He' Hv Hv'.
  destruct (wpm_never _ _ cs (grid_generate_wp nx ny nz r Hx Hy Hz Hs He He' Hv Hv')) as (g & cs' & E & src & Hl & Hr & Hwf & Hn & Hm & Ho & Hw).
  exists g, cs'.
  assert (Hrow : forall x y z, x < nx -> y < ny -> z < nz -> out g (at_point nx ny x y z) = nbrs nx ny nz src x y z).
  { intros x y z Bx By Bz. rewrite Ho by (apply get_lt; done). apply grid_rows_get; done. }
  assert (Hback : forall v u w, v < nv g -> (u, w) ∈ out g v ->
    (v, w) ∈ out g u /\ u <> v /\ (gw_emin r <= w <= gw_emax r + 1)%Z).
  { intros v u w Hvn H. rewrite Hn in Hvn. destruct (get_inv nx ny nz v Hvn) as (x & y & z & Bx & By & Bz & ->).
    change (grid_get nx ny x y z) with (at_point nx ny x y z) in *. rewrite Hrow in H by done.
    destruct (nbr_back nx ny nz src Hx Hy Hz x y z u w Bx By Bz H) as (x' & y' & z' & Bx' & By' & Bz' & -> & Ha & Hb).
    change (grid_get nx ny x' y' z') with (at_point nx ny x' y' z'). rewrite Hrow by done. split; [exact Hb|]. split.
    - intros Eq. apply (get_inj nx ny) in Eq; try done. unfold grid_adjacent, one_apart in Ha. lia.
    - assert (G : forall i, i < nx * ny * nz * 3 -> (gw_emin r <= nth i src 0%Z <= gw_emax r + 1)%Z).
      { intros i Hi. rewrite Forall_forall in Hr. apply Hr. apply elem_of_list_In, nth_In. lia. }
      pose proof (get_lt nx ny nz x y z Bx By Bz). apply in_nbrs in H.
      destruct H as [(B & _ & ->)|[(B & _ & ->)|[(B & _ & ->)|[(B & _ & ->)|[(B & _ & ->)|(B & _ & ->)]]]]]; apply G; try lia.
      + pose proof (get_lt nx ny nz (x - 1) y z ltac:(lia) By Bz). lia.
      + pose proof (get_lt nx ny nz x (y - 1) z Bx ltac:(lia) Bz). lia.
      + pose proof (get_lt nx ny nz x y (z - 1) Bx By ltac:(lia)). lia. }
  assert (Hsim : forall v, v < nv g -> NoDup (fst <$> out g v)).
  { intros v Hvn. rewrite Hn in Hvn. destruct (get_inv nx ny nz v Hvn) as (x & y & z & Bx & By & Bz & ->).
    change (grid_get nx ny x y z) with (at_point nx ny x y z). rewrite Hrow by done. apply nbrs_nodup; done. }
  assert (Hval : is_valid g = Ok true).
  { apply C49_accepts_symmetric; [done|exact Hsim|]. intros v u w Hvn H. apply Hback; done. }
  split; [exact E|]. split; [exact Hwf|]. split; [exact Hn|]. split; [rewrite Hm; nia|]. split.
  { intros x y z x' y' z' Bx By Bz Bx' By' Bz'. rewrite Hrow by done. apply nbr_iff; done. }
  split; [intros v u w Hvn H; destruct (Hback v u w Hvn H) as (? & _ & ?); done|].
  split; [exact Hsim|]. split; [intros v Hvn; apply Hw; lia|].
  split; [apply C49_simple_symmetric; [apply wf_arrays; done|exact Hsim|exact Hval]|].
  split; [|exact Hval]. intros u v w Hu H. destruct (Hback u v w Hu H) as (_ & ? & _). done.
Qed.
Print Assumptions C42_grid.
(** Without calls that set them, vertices weigh 1 and edges at least 1 (and at most one more than the
    upper end, as above). *)
Theorem C42_default_weights : forall nx ny nz cs, 0 < nx -> 0 < ny -> 0 < nz -> (Z.of_nat (nx * ny * nz) * 6 < W32)%Z ->
  exists g cs', grid_generate nx ny nz grid_default_weights cs = Ok (g, cs') /\ nv g = nx * ny * nz /\ wf_graph g /\ symmetric g /\
    (forall v, v < nv g -> vweight g v = 1%Z) /\ (forall v u w, v < nv g -> (u, w) ∈ out g v -> (1 <= w <= 2)%Z).
Proof.
  intros nx ny nz cs Hx Hy Hz Hs.
  destruct (C42_grid nx ny nz grid_default_weights cs Hx Hy Hz Hs) as (g & cs' & E & Hwf & Hn & _ & _ & Hw & _ & Hv & Hsym & _); [cbn; unfold W32; lia..|].
  exists g, cs'. split; [done|]. split; [done|]. split; [done|]. split; [done|]. split.
  - intros v Hvn. specialize (Hv v Hvn). cbn in Hv. lia.
  - intros v u w Hvn Hin. destruct (Hw v u w Hvn Hin) as [_ H]. cbn in H. lia.
Qed.
Print Assumptions C42_default_weights.
Example C42_nonvacuous : exists g, grid_generate 3 2 2 (mkGW 1 5 2 4) [7; 1; 0; 2; 2; 1; 5; 3] = Ok (g, []) /\ nv g = 12 /\ ne g = 40 /\
  out g (at_point 3 2 1 0 0) = [(0, 5%Z); (2, 4%Z); (4, 4%Z); (7, 3%Z)].
Proof. eexists. split; [vm_compute; reflexivity|]. vm_compute. done. Qed.
Example C42_hypotheses : (Z.of_nat (3 * 2 * 2) * 6 < W32)%Z /\ (0 <= 2 <= 4)%Z. Proof. unfold W32. lia. Qed.

(** ** C45: the time keeper. *)
(** Run a history of reports; a report that throws is caught by the caller.  Result: the final
    state and for each report whether it threw. *)
Fixpoint run_reports (ts : list f64) (h : list (nat * f64)) : list f64 * list (option exn) :=
  match h with
  | [] => (ts, [])
  | (key, s) :: h' => let r := tk_report ts key s in let q := run_reports (fst r) h' in (fst q, snd r :: snd q)
  end.
(** Sequential double sum of the times reported for category c, in order. *)
Definition reported (c : nat) (h : list (nat * f64)) : f64 :=
  fold_left fadd (snd <$> filter (fun r => fst r = c) h) f_zero.
Lemma run_reports_ok h : forall ts, length ts = 8 -> length (fst (run_reports ts h)) = 8 /\
  (forall c, c < 8 -> fst (run_reports ts h) !! c = Some (fold_left fadd (snd <$> filter (fun r => fst r = c) h) (nth c ts f_zero))) /\
  snd (run_reports ts h) = (fun r => if decide (fst r < 8) then None else Some RuntimeError) <$> h.
Proof.
  induction h as [|[key s] h IH]; intros ts Hl.
  - cbn [run_reports fst snd]. split; [done|]. split; [|done]. intros c Hc. apply lookup_nth. lia.
  - cbn [run_reports]. cbv zeta. cbn [fst snd]. unfold tk_report. rewrite Hl. destruct (Nat.leb_spec 8 key) as [Hk|Hk]; cbn [fst snd].
    + destruct (IH ts Hl) as (A & B & C). split; [done|]. split.
      * intros c Hc. rewrite B by done. rewrite filter_cons. cbn [fst]. rewrite decide_False by lia. done.
      * rewrite C, fmap_cons. cbn [fst]. rewrite decide_False by lia. done.
    + destruct (IH (<[key := fadd (nth key ts f_zero) s]> ts)) as (A & B & C); [by rewrite insert_length|]. split; [done|]. split.
      * intros c Hc. rewrite B by done. rewrite filter_cons. cbn [fst]. destruct (decide (key = c)) as [->|Hn].
        -- rewrite fmap_cons. cbn [fold_left snd]. rewrite (nth_lookup (<[c := _]> ts)), list_lookup_insert by lia. done.
        -- rewrite (nth_lookup (<[key := _]> ts)), list_lookup_insert_ne by done. by rewrite <- nth_lookup.
      * rewrite C, fmap_cons. cbn [fst]. rewrite decide_True by lia. done.
Qed.
Theorem C45_accumulates : forall h, exists ts, fst (run_reports tk_new h) = ts /\
  tk_times ts = Ok [(TotalTime, reported 0 h); (CoarseningTime, reported 1 h); (AggregationTime, reported 2 h);
    (ContractionTime, reported 3 h); (InitialPartitioningTime, reported 4 h); (UncoarseningTime, reported 5 h);
    (RefinementTime, reported 6 h); (ProjectionTime, reported 7 h)].
Proof.
  intros h. exists (fst (run_reports tk_new h)). split; [done|].
  destruct (run_reports_ok h tk_new eq_refl) as (Hl & Hv & _). unfold tk_times. rewrite Hl.
  assert (N : forall c, c < 8 -> nth c tk_new f_zero = f_zero) by (intros c Hc; do 8 (destruct c as [|c]; [done|]); lia).
  assert (R : forall c, c < 8 -> rd (fst (run_reports tk_new h)) c = Ok (reported c h)).
  { intros c Hc. apply rd_ok. rewrite Hv by done. rewrite N by done. done. }
  change (seq 0 8) with [0; 1; 2; 3; 4; 5; 6; 7]. cbn [ofold].
  rewrite !R by lia. cbn [obind rd tk_names lookup list_lookup]. reflexivity.
Qed.
Print Assumptions C45_accumulates.
(** Exactly the reports with an unknown category are rejected, and a rejected report changes nothing. *)
Theorem C45_rejects_unknown : forall h key s, let before := fst (run_reports tk_new h) in
  (8 <= key -> tk_report before key s = (before, Some RuntimeError)) /\
  (key < 8 -> exists after, tk_report before key s = (after, None) /\
     (forall c, c < 8 -> c <> key -> after !! c = before !! c) /\ length after = 8).
Proof.
  intros h key s before. destruct (run_reports_ok h tk_new eq_refl) as (Hl & _ & _). fold before in Hl.
  unfold tk_report. rewrite Hl. split; intros Hk; destruct (Nat.leb_spec 8 key); try lia; [done|].
  eexists. split; [reflexivity|]. split; [|by rewrite insert_length]. intros c Hc Hn. by rewrite list_lookup_insert_ne.
Qed.
Print Assumptions C45_rejects_unknown.
(** A process reports to the time keeper attached to it: whatever it does before one is attached
    raises nothing and leaves no trace; what it reports afterwards is accumulated in full. *)
Fixpoint run_process (tk : option (list f64)) (h : list (nat * f64)) : option (list f64) * list (option exn) :=
  match h with
  | [] => (tk, [])
  | (key, s) :: h' => let r := tp_report tk key s in let q := run_process (fst r) h' in (fst q, snd r :: snd q)
  end.
Theorem C45_timed_process : forall h h',
  run_process None h = (None, (fun _ => None) <$> h) /\
  exists ts, fst (run_process (Some tk_new) h') = Some ts /\ length ts = 8 /\
    (forall c, c < 8 -> ts !! c = Some (reported c h')) /\
    snd (run_process (Some tk_new) h') = (fun r => if decide (fst r < 8) then None else Some RuntimeError) <$> h'.
Proof.
  intros h h'. split.
  - induction h as [|[k s] h IH]; [done|]. cbn [run_process tp_report fst snd fmap list_fmap]. cbv zeta. cbn [fst snd]. rewrite IH. done.
  - assert (H : forall h ts, run_process (Some ts) h = (Some (fst (run_reports ts h)), snd (run_reports ts h))).
    { clear. induction h as [|[k s] h IH]; intros ts; [done|]. cbn [run_process run_reports tp_report]. cbv zeta. cbn [fst snd]. rewrite IH. done. }
    rewrite H. cbn [fst snd]. destruct (run_reports_ok h' tk_new eq_refl) as (Hl & Hv & He). eexists. split; [reflexivity|]. split; [done|]. split; [|done].
    intros c Hc. rewrite Hv by done. unfold reported. do 2 f_equal. by do 8 (destruct c as [|c]; [done|]); lia.
Qed.
Print Assumptions C45_timed_process.
Example C45_nonvacuous : let h := [(2, f_one); (9, f_one); (2, f_1_5); (0, f_1_5)] in
  snd (run_reports tk_new h) = [None; Some RuntimeError; None; None] /\ reported 2 h = fadd f_one f_1_5 /\ reported 2 h <> f_zero.
Proof. vm_compute. done. Qed.
