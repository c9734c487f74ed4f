(** * PropsLocal: refinement stops at a local optimum (C72). *)
From Verif Require Import Base F64 ModelGraph ModelPartition ModelConn ModelFM Spec Logic Sums GraphFacts PartFacts ConnFacts FMFacts MiscFacts BisectFacts EvenFacts PropsBisect PropsData
  HistFacts TreeFacts ModelBisect LimitFacts PropsPass Examples.
#[local] Arguments seq : simpl nomatch.

(** ** Specification *)
(** The cut after moving v alone to the other side. *)
Definition cut_of (g : graph) (L : labels) : Z := edge_cut g (at_ L).
(** No single move helps: whenever moving one vertex reduces the cut, there is a vertex whose move
    reduces it at least as much and makes a side too heavy. *)
Definition local_optimum (g : graph) (t : target) (L : labels) : Prop :=
  forall v, v < nv g -> (cut_of g (swap_side L v) < cut_of g L)%Z ->
    exists u, u < nv g /\ (cut_of g (swap_side L u) <= cut_of g (swap_side L v))%Z /\ ~ within g t (swap_side L u).

(** ** Proof *)
Section Local.
  Context (g : graph) (Hwf : wf_graph g) (Hsym : symmetric g) (Hloop : loopless g) (Hli : light g).
  Context (t : target) (Htm : 2 <= length (t_max t)) (Hmono : limits_monotone g t).
  Local Notation n := (nv g).

  Lemma swap_ok L v : labels_ok 2 n L -> v < n -> labels_ok 2 n (swap_side L v).
  Proof. intros. rewrite swap_flip. by apply flip_labels_ok. Qed.
  Lemma cut_swap L v : labels_ok 2 n L -> v < n -> cut_of g (swap_side L v) = (cut_of g L - gain g L v)%Z.
  Proof.
    intros [HL HA] Hv. destruct (HA v Hv) as (i & Hi & Ei). unfold cut_of, gain.
    assert (Eat : at_ L v = Some i) by (unfold at_; by apply nth_lookup_Some).
    set (j := if decide (i = 0) then 1 else 0).
    assert (Esw : forall u, at_ (swap_side L v) u = upd (at_ L) v (Some j) u).
    { intros u. unfold upd, swap_side, at_ at 1. destruct (decide (u = v)) as [->|Hne].
      - rewrite nth_insert_same by lia. rewrite Eat. unfold j. destruct i as [|i]; [done|]. by rewrite decide_False.
      - by rewrite nth_insert_ne. }
    rewrite (edge_cut_ext g _ (upd (at_ L) v (Some j))) by (intros; apply Esw).
    rewrite (edge_cut_move g (at_ L) v (Some i) (Some j)); [lia|done|done|done|done| |done|].
    - intros u Hu. destruct (HA u Hu) as (x & Hx & Ex). unfold at_. rewrite (nth_lookup_Some _ _ _ _ Ex). unfold j. destruct (decide (i = 0)) as [->|].
      + destruct x as [|[|]]; [by left|by right|lia].
      + destruct x as [|[|]]; [by right|left; f_equal; lia|lia].
    - unfold j. destruct (decide (i = 0)); congruence.
  Qed.
  Lemma exact_bal p : exact_part 2 g p -> balanced t p <-> within g t (p_where p).
  Proof.
    intros HP. destruct (is_balanced_ok t p) as (b & Eb & Hb). { rewrite (proj1 (proj2 (proj1 HP))). lia. }
    rewrite <- (within_b g Hwf Hli t Htm p b HP Eb). unfold balanced. by rewrite Hb.
  Qed.
  (** the kept labels are within the limits, with a smaller cut *)
  Lemma preferred_within L' L : within g t L -> preferred g t L' L -> within g t L' /\ (cut_of g L' < cut_of g L)%Z.
  Proof.
    intros HW (b & b' & (p & HP & <- & Eb) & (p' & HP' & <- & Eb') & [[HN Hlt]|[Hc HH]]).
    - exfalso. apply HN. apply exact_bal; [done|]. eapply Hmono; [exact HP|exact HP'|exact Eb|exact Eb'|by apply exact_bal|by apply FloatOrder.flt_le].
    - split; [|done]. destruct HH as [|Hle]; [done|]. apply exact_bal; [done|]. eapply Hmono; [exact HP|exact HP'|exact Eb|exact Eb'|by apply exact_bal|done].
  Qed.
  Lemma passing_len I L ms k : passing g I t L ms k -> k <= length ms.
  Proof. induction 1; [done|]. rewrite app_length. cbn. destruct keep; lia. Qed.
  Lemma passing_best I L ms k : within g t L -> passing g I t L ms k -> within g t (after L (take k ms)) /\ (k = 0 \/ (cut_of g (after L (take k ms)) < cut_of g L)%Z).
  Proof.
    intros HW. induction 1 as [|ms k v keep HP IH HB HK]; [split; [done|by left]|]. destruct IH as [IH1 IH2].
    pose proof (passing_len _ _ _ _ HP) as Hk. destruct keep.
    - rewrite take_ge by (rewrite app_length; cbn; lia). destruct (preferred_within _ _ IH1 (proj1 HK eq_refl)) as [A B]. split; [done|]. right.
      destruct IH2 as [->|IH2]; [cbn [take] in B; exact B|lia].
    - rewrite take_app_le by done. done.
  Qed.
  Lemma passing_ok I L ms k : labels_ok 2 n L -> passing g I t L ms k -> labels_ok 2 n (after L ms) /\ Forall (fun v => v < n) ms.
  Proof.
    intros HL. induction 1 as [|ms k v keep HP IH HB HK]; [done|]. destruct IH as [A B]. rewrite after_app. pose proof (bm_movable _ _ _ _ _ _ HB) as [Hv _]. split.
    - unfold after at 1. cbn [foldl]. by apply swap_ok.
    - apply Forall_app. split; [done|]. by constructor.
  Qed.
  Lemma take_ok L ms : labels_ok 2 n L -> Forall (fun v => v < n) ms -> labels_ok 2 n (after L ms).
  Proof. intros HL HF. revert L HL. induction HF as [|v ms Hv HF IH]; intros L HL; [done|]. cbn. apply IH. by apply swap_ok. Qed.
  Lemma passing_first I L ms k : passing g I t L ms k -> k = 0 -> ms = [] \/
    exists v ms', ms = v :: ms' /\ best_move g I t L [] v /\ ~ preferred g t (swap_side L v) L.
  Proof.
    induction 1 as [|ms k v keep HP IH HB HK]; [by left|]. intros Hk. right. destruct keep; [done|]. subst k. destruct (IH eq_refl) as [->|(v0 & ms' & -> & H1 & H2)].
    - exists v, []. split; [done|]. split; [exact HB|]. intros Hp. cbn in HK. assert (false = true) by (by apply HK). done.
    - by exists v0, (ms' ++ [v]).
  Qed.
  Lemma a_part L : labels_ok 2 n L -> exists p, exact_part 2 g p /\ p_where p = L.
  Proof.
    intros HL. exists (mkPart (edge_cut g (at_ L)) [u32 (label_weight g (at_ L) (Some 0)); u32 (label_weight g (at_ L) (Some 1))] L). split; [|done].
    split; [|done]. split; [done|]. split; [done|]. intros [|[|i]] Hi; [done|done|lia].
  Qed.
  Context (Htf : 2 <= length (t_frac t)).
  Lemma full_pass_local I L ms mb : labels_ok 2 n L -> within g t L -> (0 < mb)%Z -> full_pass g I t mb L ms 0 -> local_optimum g t L.
  Proof.
    intros HL HW Hmb [HP Hend] v Hv Hcut. destruct (a_part L HL) as (p & HEp & Ep). rewrite cut_swap in Hcut by done.
    assert (Hg : (0 < gain g L v)%Z) by lia.
    assert (Hmov : movable g I L [] v).
    { split; [done|]. split; [apply not_elem_of_nil|]. left. unfold gain in Hg. pose proof (internal_nonneg g Hwf (at_ L) v Hv). lia. }
    destruct (passing_first _ _ _ _ HP eq_refl) as [->|(u & ms' & -> & HB & HN)].
    - destruct Hend as [Hno|Hbad]; [|cbn in Hbad; lia]. exfalso. exact (Hno v Hmov).
    - pose proof (bm_movable _ _ _ _ _ _ HB) as [Hu _]. exists u. split; [done|].
      assert (Hnm : forall i, i < 2 -> ~ must_give g I t L [] i). { intros i Hi [H1 _]. specialize (HW i Hi). lia. }
      pose proof (bm_any _ _ _ _ _ _ HB (Hnm 0 ltac:(lia)) (Hnm 1 ltac:(lia)) v Hmov) as Hle.
      rewrite !cut_swap by done. split; [lia|]. intros HW'. apply HN.
      destruct (calc_max_imbalance_ok g t p) as [b Eb]. { rewrite (proj1 (proj2 (proj1 HEp))). lia. }
      destruct (a_part (swap_side L u)) as (p' & HEp' & Ep'); [by apply swap_ok|].
      destruct (calc_max_imbalance_ok g t p') as [b' Eb']. { rewrite (proj1 (proj2 (proj1 HEp'))). lia. }
      exists b, b'. split; [by exists p|]. split; [by exists p'|]. right. split; [|by left]. fold (cut_of g (swap_side L u)) (cut_of g L). rewrite cut_swap by done. lia.
  Qed.
  Lemma passes_local mb i I L L' : (0 < mb)%Z -> passes g t mb i I L L' -> labels_ok 2 n L -> within g t L ->
    within g t L' /\ ((Z.of_nat i <= cut_of g L - cut_of g L')%Z \/ local_optimum g t L').
  Proof.
    intros Hmb. induction 1 as [I L|i I L ms HF|i I L ms k L' HF Hk HP IH]; intros HL HW.
    - split; [done|]. left. lia.
    - split; [done|]. right. by eapply full_pass_local.
    - destruct HF as [HF _]. destruct (passing_best _ _ _ _ HW HF) as [A [->|B]]; [lia|]. destruct (passing_ok _ _ _ _ HL HF) as [_ C].
      destruct IH as [D E]; [|done|].
      + apply take_ok; [done|]. by apply Forall_take.
      + split; [done|]. destruct E as [E|E]; [left; lia|by right].
  Qed.
End Local.

(** ** C72: refinement of a bisection into equal halves that is within its limits stays within
    them; and it ends in a local optimum, unless each of its passes reduced the cut. *)
Theorem C72_refinement_local_optimum : forall g w m c p maxIters maxMoves cs c' p' cs',
  wf_graph g -> symmetric g -> loopless g -> fits g -> light g -> (Z.of_nat (nv g) < 2 ^ 32)%Z ->
  (forall u a, u < nv g -> a ∈ out g u -> (0 < snd a)%Z) ->
  (0 < w)%Z -> (2 * w < 2 ^ 32)%Z -> (0 < maxMoves)%Z ->
  let t := target_of_weights [w; w] [m; m] in
  exact_part 2 g p -> conn_exact g (lab p) c -> border_fresh g (lab p) c -> within g t (p_where p) ->
  fm_refine maxIters maxMoves g t c p cs = Ok ((c', p'), cs') ->
  within g t (p_where p') /\ ((maxIters <= cut_of g (p_where p) - cut_of g (p_where p'))%Z \/ local_optimum g t (p_where p')).
Proof.
  intros g w m c p mi mm cs c' p' cs' Hwf Hs Hl Hf Hli Hn Hpos Hw Hw2 Hmm t HP HC HB HW E.
  assert (Hmono : limits_monotone g t) by (apply even_monotone; [done|done|]; by apply even_weights).
  pose proof (C67_refinement_is_fm g t c p mi mm cs c' p' cs' _ Hwf Hs Hl Hf Hli (positive_lone g Hwf Hs Hpos) ltac:(done) ltac:(done) (max_bad_moves_eq mm (nv g) Hn) HP HC HB E) as HPS.
  assert (Hmb : (0 < Z.min mm (Z.max (Z.of_nat (nv g) / 100) 25))%Z) by lia.
  destruct (passes_local g Hwf Hs Hl Hli t ltac:(done) Hmono ltac:(done) _ _ _ _ _ Hmb HPS (proj1 (proj1 HP)) HW) as [A [B|B]].
  - split; [done|]. left. lia.
  - split; [done|by right].
Qed.
Print Assumptions C72_refinement_local_optimum.
(** In particular: if no single move makes a side too heavy, no single move reduces the cut. *)
Theorem C72_no_single_move_helps : forall g t L, local_optimum g t L -> (forall v, v < nv g -> within g t (swap_side L v)) ->
  forall v, v < nv g -> (cut_of g L <= cut_of g (swap_side L v))%Z.
Proof.
  intros g t L HO HW v Hv. destruct (Z.le_gt_cases (cut_of g L) (cut_of g (swap_side L v))) as [|Hlt]; [done|].
  destruct (HO v Hv Hlt) as (u & Hu & _ & HN). destruct (HN (HW u Hu)).
Qed.
Print Assumptions C72_no_single_move_helps.
(** The ring of Examples.v: the result is a local optimum, the start is not. *)
Example C72_nonvacuous : wf_graph ex /\ symmetric ex /\ loopless ex /\ fits ex /\ light ex /\ (forall u a, u < nv ex -> a ∈ out ex u -> (0 < snd a)%Z) /\
  exists c, conn_exact ex (lab ex_part) c /\ border_fresh ex (lab ex_part) c /\ exact_part 2 ex ex_part /\ within ex (target_of_weights [4; 4]%Z [7; 7]%Z) (p_where ex_part) /\
  exists c' p' cs', fm_refine 8 150 ex (target_of_weights [4; 4]%Z [7; 7]%Z) c ex_part [] = Ok ((c', p'), cs') /\
    (0 < cut_of ex (p_where ex_part) - cut_of ex (p_where p') < 8)%Z /\ (cut_of ex (swap_side (p_where ex_part) 1) < cut_of ex (p_where ex_part))%Z.
Proof.
  destruct C67_nonvacuous as (A & B & C & D & E & F & c & E1 & G & H & I & _). do 6 (split; [done|]).
  exists c. split; [done|]. split; [done|]. split; [done|]. split.
  { intros [|[|i]] Hi; [vm_compute; discriminate|vm_compute; discriminate|lia]. }
  vm_compute in E1. injection E1 as <-. do 3 eexists. split; [vm_compute; reflexivity|]. vm_compute. done.
Qed.
