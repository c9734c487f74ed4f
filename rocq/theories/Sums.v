(** * Sums: finite sums over lists and vertices, symmetric double sums, cut identities. *)
From Verif Require Import Base ModelGraph Spec Logic.
Local Open Scope Z_scope.

Ltac brewrite t := let Q := fresh in pose proof t as Q; cbv beta in Q; rewrite Q; clear Q.

Lemma sumf_app {A} (f : A -> Z) l1 l2 : sumf f (l1 ++ l2) = sumf f l1 + sumf f l2.
Proof. induction l1 as [|a l1 IH]; simpl; [done|]. rewrite IH. lia. Qed.
Lemma sumf_ext {A} (f h : A -> Z) l : (forall a, a ∈ l -> f a = h a) -> sumf f l = sumf h l.
Proof.
  induction l as [|a l IH]; intros H; simpl; [done|].
  rewrite H by set_solver. rewrite IH; [done|]. intros; apply H; set_solver.
Qed.
Lemma sumf_add {A} (f h : A -> Z) l : sumf (fun a => f a + h a) l = sumf f l + sumf h l.
Proof. induction l as [|a l IH]; simpl; [done|]. rewrite IH. lia. Qed.
Lemma sumf_sub {A} (f h : A -> Z) l : sumf (fun a => f a - h a) l = sumf f l - sumf h l.
Proof. induction l as [|a l IH]; simpl; [done|]. rewrite IH. lia. Qed.
Lemma sumf_scal {A} c (f : A -> Z) l : sumf (fun a => c * f a) l = c * sumf f l.
Proof. induction l as [|a l IH]; simpl; [lia|]. rewrite IH. lia. Qed.
Lemma sumf_zero {A} (f : A -> Z) l : (forall a, a ∈ l -> f a = 0) -> sumf f l = 0.
Proof.
  induction l as [|a l IH]; intros H; simpl; [done|].
  rewrite H by set_solver. rewrite IH; [done|]. intros; apply H; set_solver.
Qed.
Lemma sumf_const {A} c (l : list A) : sumf (fun _ => c) l = c * Z.of_nat (length l).
Proof. induction l as [|a l IH]; simpl; [lia|]. rewrite IH. lia. Qed.
Lemma sumf_map {A B} (f : B -> Z) (h : A -> B) l : sumf f (h <$> l) = sumf (fun a => f (h a)) l.
Proof. induction l as [|a l IH]; simpl; [done|]. f_equal. exact IH. Qed.
Lemma sumf_perm {A} (f : A -> Z) l l' : l ≡ₚ l' -> sumf f l = sumf f l'.
Proof. induction 1; simpl; lia. Qed.
Lemma sumf_nonneg {A} (f : A -> Z) l : (forall a, a ∈ l -> 0 <= f a) -> 0 <= sumf f l.
Proof.
  induction l as [|a l IH]; intros H; simpl; [lia|].
  assert (0 <= f a) by (apply H; set_solver).
  assert (0 <= sumf f l) by (apply IH; intros; apply H; set_solver). lia.
Qed.
Lemma sumf_le {A} (f h : A -> Z) l : (forall a, a ∈ l -> f a <= h a) -> sumf f l <= sumf h l.
Proof.
  induction l as [|a l IH]; intros H; simpl; [lia|].
  assert (f a <= h a) by (apply H; set_solver).
  assert (sumf f l <= sumf h l) by (apply IH; intros; apply H; set_solver). lia.
Qed.
Lemma sumf_elem_le {A} (f : A -> Z) l a :
  (forall a, a ∈ l -> 0 <= f a) -> a ∈ l -> f a <= sumf f l.
Proof.
  induction l as [|b l IH]; intros H Ha; simpl; [set_solver|].
  assert (0 <= f b) by (apply H; set_solver).
  assert (0 <= sumf f l) by (apply sumf_nonneg; intros; apply H; set_solver).
  apply elem_of_cons in Ha as [->|Ha]; [lia|].
  assert (f a <= sumf f l) by (apply IH; [intros; apply H; set_solver|done]). lia.
Qed.
Lemma sumf_exch {A B} (f : A -> B -> Z) la lb :
  sumf (fun a => sumf (f a) lb) la = sumf (fun b => sumf (fun a => f a b) la) lb.
Proof.
  induction la as [|a la IH]; simpl; [by rewrite sumf_zero|].
  rewrite IH. by rewrite <- sumf_add.
Qed.
Lemma sumf_filter {A} (P : A -> Prop) `{forall x, Decision (P x)} (f : A -> Z) l :
  sumf f (filter P l) = sumf (fun a => if decide (P a) then f a else 0) l.
Proof.
  induction l as [|a l IH]; simpl; [done|]. rewrite filter_cons. destruct (decide (P a)); simpl; lia.
Qed.
Lemma sumf_concat {A B} (f : B -> Z) (h : A -> list B) l :
  sumf f (l ≫= h) = sumf (fun a => sumf f (h a)) l.
Proof. induction l as [|a l IH]; simpl; [done|]. rewrite sumf_app. f_equal. exact IH. Qed.
Lemma sumf_zero_inv {A} (f : A -> Z) l :
  (forall a, a ∈ l -> 0 <= f a) -> sumf f l = 0 -> forall a, a ∈ l -> f a = 0.
Proof. intros H Hs a Ha. pose proof (sumf_elem_le f l a H Ha). specialize (H a Ha). lia. Qed.
Lemma sumf_pos_inv {A} (f : A -> Z) l :
  0 < sumf f l -> exists a, a ∈ l /\ 0 < f a.
Proof.
  induction l as [|a l IH]; simpl; intros Hs; [lia|].
  destruct (decide (0 < f a)); [exists a; split; [set_solver|done]|].
  destruct IH as (b & Hb & ?); [lia|]. exists b. split; [set_solver|done].
Qed.

(** Sums over 0..n-1 *)
Lemma sumn_S n f : sumn (S n) f = sumn n f + f n.
Proof. rewrite seq_S. rewrite sumf_app. simpl. lia. Qed.
Lemma sumn_ext n (f h : nat -> Z) : (forall v, (v < n)%nat -> f v = h v) -> sumn n f = sumn n h.
Proof. intros H. apply sumf_ext. intros a Ha%elem_of_seq. apply H. lia. Qed.
Lemma sumn_split n f v : (v < n)%nat ->
  sumn n f = f v + sumn n (fun u => if decide (u = v) then 0 else f u).
Proof.
  induction n as [|n IH]; intros Hv; [lia|]. rewrite !sumn_S.
  destruct (decide (v = n)) as [->|Hn].
  - rewrite decide_True by done.
    rewrite (sumn_ext n f (fun u => if decide (u = n) then 0 else f u)); [lia|].
    intros u Hu. rewrite decide_False by lia. done.
  - rewrite IH by lia. rewrite (decide_False (P := n = v)) by lia. lia.
Qed.
Lemma sumn_single n f v : (v < n)%nat -> sumn n (fun u => if decide (u = v) then f u else 0) = f v.
Proof.
  intros Hv. rewrite (sumn_split _ _ v Hv), decide_True by done.
  rewrite sumf_zero; [lia|]. intros u _. destruct (decide (u = v)); done.
Qed.
Lemma sumn_update n f h v : (v < n)%nat -> (forall u, (u < n)%nat -> u <> v -> f u = h u) ->
  sumn n f - f v = sumn n h - h v.
Proof.
  intros Hv Heq. rewrite (sumn_split n f v), (sumn_split n h v) by done.
  rewrite (sumn_ext n (fun u => if decide (u = v) then 0 else f u) (fun u => if decide (u = v) then 0 else h u)); [lia|].
  intros u Hu. case_decide; auto.
Qed.
Lemma sumn_nonneg n f : (forall v, (v < n)%nat -> 0 <= f v) -> 0 <= sumn n f.
Proof. intros H. apply sumf_nonneg. intros a Ha%elem_of_seq. apply H. lia. Qed.
Lemma sumn_le n f h : (forall v, (v < n)%nat -> f v <= h v) -> sumn n f <= sumn n h.
Proof. intros H. apply sumf_le. intros a Ha%elem_of_seq. apply H. lia. Qed.
Lemma sumn_elem_le n f v : (forall v, (v < n)%nat -> 0 <= f v) -> (v < n)%nat -> f v <= sumn n f.
Proof. intros H Hv. apply (sumf_elem_le f). { intros a Ha%elem_of_seq. apply H. lia. } apply elem_of_seq. lia. Qed.
Lemma sumn_list (f : Z -> Z) l : sumf f l = sumn (length l) (fun i => f (nth i l 0)).
Proof.
  induction l as [|a l IH]; [done|]. simpl. f_equal. rewrite <- seq_shift.
  pose proof (sumf_map (fun i => f (nth i (a :: l) 0)) S (seq 0 (length l))) as H.
  unfold fmap, list_fmap in H. rewrite IH.
  transitivity (sumf (λ i : nat, f (nth i (a :: l) 0)) (S <$> seq 0 (length l))); [by rewrite sumf_map|done].
Qed.
Lemma sumn_le_split n m f : (n <= m)%nat -> sumn m f = sumn n f + sumf f (seq n (m - n)).
Proof. intros H. replace m with (n + (m - n))%nat at 1 by lia. rewrite seq_app, sumf_app. done. Qed.

(** Symmetric double sums *)
Lemma sym_double n (F : nat -> nat -> Z) :
  (forall u v, (u < n)%nat -> (v < n)%nat -> F u v = F v u) -> (forall u, (u < n)%nat -> F u u = 0) ->
  sumn n (fun u => sumn n (F u)) = 2 * sumn n (fun u => sumn u (F u)).
Proof.
  induction n as [|n IH]; intros Hs Hd; [done|].
  rewrite !sumn_S.
  rewrite (sumn_ext n (fun u => sumn (S n) (F u)) (fun u => sumn n (F u) + F u n))
    by (intros; apply sumn_S).
  rewrite sumf_add, IH; [|intros; apply Hs; lia|intros; apply Hd; lia].
  rewrite (Hd n) by lia.
  rewrite (sumn_ext n (fun u => F u n) (F n)) by (intros; apply Hs; lia). lia.
Qed.
(** Row/column decomposition at v *)
Lemma sym_at n (F : nat -> nat -> Z) v : (v < n)%nat ->
  (forall u w, (u < n)%nat -> (w < n)%nat -> F u w = F w u) -> F v v = 0 ->
  sumn n (fun u => sumn n (F u)) =
  2 * sumn n (F v) + sumn n (fun u => if decide (u = v) then 0 else
     sumn n (fun w => if decide (w = v) then 0 else F u w)).
Proof.
  intros Hv Hs Hd.
  rewrite (sumn_split n _ v Hv).
  rewrite (sumn_ext n (fun u => if decide (u = v) then 0 else sumn n (F u))
     (fun u => (F v u) + (if decide (u = v) then 0 else
        sumn n (fun w => if decide (w = v) then 0 else F u w)))).
  - rewrite sumf_add. lia.
  - intros u Hu. destruct (decide (u = v)) as [->|Hne]; [lia|].
    rewrite (sumn_split n (F u) v Hv). rewrite (Hs u v) by lia. done.
Qed.

(** Sums over outgoing edges *)
Lemma sumn_out_dst (n : nat) (φ : nat -> Z) (l : list (nat * Z)) :
  (forall a, a ∈ l -> (fst a < n)%nat) ->
  sumf (fun a => φ (fst a) * snd a) l =
  sumn n (fun v => φ v * sumf (fun a => if decide (fst a = v) then snd a else 0) l).
Proof.
  intros H.
  transitivity (sumf (fun a => sumn n (fun v => φ v * (if decide (fst a = v) then snd a else 0))) l).
  - apply sumf_ext. intros a Ha.
    rewrite (sumn_ext n _ (fun v => if decide (v = fst a) then φ v * snd a else 0)).
    + rewrite (sumn_single n (fun v => φ v * snd a)); [done|]. by apply H.
    + intros v Hv. destruct (decide (fst a = v)), (decide (v = fst a)); try lia; congruence.
  - rewrite sumf_exch. apply sumf_ext. intros v _. by rewrite sumf_scal.
Qed.

Section Cut.
  Context (g : graph) (Hwf : wf_graph g).

  Lemma pre_le v : (v <= nv g)%nat -> (pre_at g v <= ne g)%nat.
  Proof.
    intros Hv. rewrite <- (wf_last g Hwf).
    remember (nv g - v)%nat as d eqn:Hd. revert v Hv Hd.
    induction d as [|d IH]; intros v Hv Hd; [replace v with (nv g) by lia; done|].
    etransitivity; [apply (wf_mono g Hwf); lia|]. apply IH; lia.
  Qed.
  Lemma out_elem u a : (u < nv g)%nat -> a ∈ out g u -> exists e, (pre_at g u <= e < pre_at g (S u))%nat
     /\ (e < ne g)%nat /\ a = (nth e (g_adj g) 0%nat, wgt_at (g_ew g) e).
  Proof.
    intros Hu (e & -> & He)%elem_of_list_fmap. apply elem_of_seq in He.
    pose proof (wf_mono g Hwf u Hu). pose proof (pre_le (S u) ltac:(lia)). exists e. split_and!; auto; lia.
  Qed.
  Lemma out_dst u a : (u < nv g)%nat -> a ∈ out g u -> (fst a < nv g)%nat.
  Proof. intros Hu (e & _ & He & ->)%out_elem; [|done]. by apply (wf_dst g Hwf). Qed.
  Lemma out_wgt u a : (u < nv g)%nat -> a ∈ out g u -> 0 <= snd a < W32.
  Proof. intros Hu (e & _ & He & ->)%out_elem; [|done]. by apply (wf_ew_range g Hwf). Qed.
  Lemma W_nonneg u v : (u < nv g)%nat -> 0 <= W g u v.
  Proof.
    intros Hu. apply sumf_nonneg. intros a Ha. case_decide; [|lia].
    by apply (out_wgt u).
  Qed.
  Lemma sum_out (φ : nat -> Z) u : (u < nv g)%nat ->
    sumf (fun a => φ (fst a) * snd a) (out g u) = sumn (nv g) (fun v => φ v * W g u v).
  Proof. intros Hu. apply sumn_out_dst. intros a Ha. by apply (out_dst u). Qed.
  Lemma out_total u : (u < nv g)%nat -> sumf snd (out g u) = sumn (nv g) (W g u).
  Proof.
    intros Hu. rewrite (sumf_ext snd (fun a => 1 * snd a)) by (intros; lia).
    brewrite (sum_out (fun _ => 1) u Hu). apply sumn_ext. intros; lia.
  Qed.
  Lemma out_nonneg u : (u < nv g)%nat -> 0 <= sumf snd (out g u).
  Proof. intros Hu. apply sumf_nonneg. intros a Ha. by apply (out_wgt u). Qed.
  Lemma total_nonneg : 0 <= total_edge_weight g.
  Proof. apply sumn_nonneg. intros. by apply out_nonneg. Qed.
  Lemma out_le_total u : (u < nv g)%nat -> sumf snd (out g u) <= total_edge_weight g.
  Proof. intros Hu. apply (sumn_elem_le _ (fun u => sumf snd (out g u))); [apply out_nonneg|done]. Qed.

  Context {L} `{EqDecision L} (lab : nat -> L).
  Lemma internal_W v : (v < nv g)%nat ->
    internal g lab v = sumn (nv g) (fun u => if decide (lab u = lab v) then W g v u else 0).
  Proof.
    intros Hv. unfold internal.
    rewrite (sumf_ext _ (fun a => (if decide (lab (fst a) = lab v) then 1 else 0) * snd a))
      by (intros; case_decide; lia).
    brewrite (sum_out (fun u => if decide (lab u = lab v) then 1 else 0) v Hv).
    apply sumn_ext. intros; cbv beta; case_decide; lia.
  Qed.
  Lemma external_W v : (v < nv g)%nat ->
    external g lab v = sumn (nv g) (fun u => if decide (lab u = lab v) then 0 else W g v u).
  Proof.
    intros Hv. unfold external.
    rewrite (sumf_ext _ (fun a => (if decide (lab (fst a) = lab v) then 0 else 1) * snd a))
      by (intros; case_decide; lia).
    brewrite (sum_out (fun u => if decide (lab u = lab v) then 0 else 1) v Hv).
    apply sumn_ext. intros; cbv beta; case_decide; lia.
  Qed.
  Lemma int_ext_total v : internal g lab v + external g lab v = sumf snd (out g v).
  Proof. unfold internal, external. rewrite <- sumf_add. apply sumf_ext. intros; case_decide; lia. Qed.
  Lemma internal_nonneg v : (v < nv g)%nat -> 0 <= internal g lab v.
  Proof. intros Hv. apply sumf_nonneg. intros a Ha. pose proof (out_wgt v a Hv Ha). case_decide; lia. Qed.
  Lemma external_nonneg v : (v < nv g)%nat -> 0 <= external g lab v.
  Proof. intros Hv. apply sumf_nonneg. intros a Ha. pose proof (out_wgt v a Hv Ha). case_decide; lia. Qed.

  Definition diffW (u v : nat) : Z := if decide (lab u = lab v) then 0 else W g u v.
  Lemma external_diff v : (v < nv g)%nat -> external g lab v = sumn (nv g) (diffW v).
  Proof.
    intros Hv. rewrite external_W by done. apply sumn_ext. intros u Hu. unfold diffW.
    repeat case_decide; congruence.
  Qed.
  Lemma edge_cut_double : symmetric g ->
    sumn (nv g) (external g lab) = 2 * edge_cut g lab.
  Proof.
    intros Hs. rewrite (sumn_ext _ _ (fun u => sumn (nv g) (diffW u)))
      by (intros; by apply external_diff).
    rewrite (sym_double (nv g) diffW).
    - done.
    - intros u v Hu Hv. unfold diffW. repeat case_decide; try congruence. by apply Hs.
    - intros u Hu. unfold diffW. by rewrite decide_True.
  Qed.
  Lemma edge_cut_nonneg : 0 <= edge_cut g lab.
  Proof.
    apply sumn_nonneg. intros u Hu. apply sumn_nonneg. intros v Hv. case_decide; [lia|]. by apply W_nonneg.
  Qed.
  Lemma edge_cut_le_total : symmetric g -> 2 * edge_cut g lab <= total_edge_weight g.
  Proof.
    intros Hs. rewrite <- edge_cut_double by done. apply sumn_le. intros u Hu.
    pose proof (int_ext_total u). pose proof (internal_nonneg u Hu). lia.
  Qed.
End Cut.

(** Half of the total bounds every vertex's incident weight in a loopless symmetric graph. *)
Lemma loopless_W g u : loopless g -> (u < nv g)%nat -> W g u u = 0.
Proof.
  intros Hl Hu. apply sumf_zero. intros [v w] Ha. simpl. case_decide; [|done].
  subst. exfalso. by eapply Hl.
Qed.
Lemma incident_half g u : wf_graph g -> symmetric g -> loopless g -> (u < nv g)%nat ->
  2 * sumf snd (out g u) <= total_edge_weight g.
Proof.
  intros Hwf Hs Hl Hu. unfold total_edge_weight.
  rewrite (sumn_ext _ (fun u => sumf snd (out g u)) (fun u => sumn (nv g) (W g u)))
    by (intros; by apply out_total).
  rewrite (sym_at (nv g) (W g) u Hu Hs (loopless_W g u Hl Hu)).
  rewrite (out_total g Hwf u Hu).
  assert (0 <= sumn (nv g) (fun u0 => if decide (u0 = u) then 0 else
     sumn (nv g) (fun w => if decide (w = u) then 0 else W g u0 w))); [|lia].
  apply sumn_nonneg. intros v Hv. case_decide; [lia|].
  apply sumn_nonneg. intros w Hw. case_decide; [lia|]. by apply W_nonneg.
Qed.

(** Moving v to the other of two labels. *)
Lemma edge_cut_ext {L} `{EqDecision L} g (lab lab' : nat -> L) :
  (forall u, (u < nv g)%nat -> lab u = lab' u) -> edge_cut g lab = edge_cut g lab'.
Proof.
  intros H. apply sumn_ext. intros u Hu. apply sumn_ext. intros v Hv.
  rewrite (H u), (H v) by lia. done.
Qed.
Lemma external_ext {L} `{EqDecision L} g (lab lab' : nat -> L) v : wf_graph g -> (v < nv g)%nat ->
  (forall u, (u < nv g)%nat -> lab u = lab' u) -> external g lab v = external g lab' v.
Proof.
  intros Hwf Hv H. apply sumf_ext. intros a Ha. rewrite (H v), (H (fst a)); [done|by eapply out_dst|done].
Qed.
Lemma internal_ext {L} `{EqDecision L} g (lab lab' : nat -> L) v : wf_graph g -> (v < nv g)%nat ->
  (forall u, (u < nv g)%nat -> lab u = lab' u) -> internal g lab v = internal g lab' v.
Proof.
  intros Hwf Hv H. apply sumf_ext. intros a Ha. rewrite (H v), (H (fst a)); [done|by eapply out_dst|done].
Qed.
Definition upd {L} (lab : nat -> L) (v : nat) (x : L) : nat -> L := fun u => if decide (u = v) then x else lab u.

Lemma upd_same {L} (lab : nat -> L) v x : upd lab v x v = x.
Proof. unfold upd. by rewrite decide_True. Qed.
Lemma upd_other {L} (lab : nat -> L) v x u : u <> v -> upd lab v x u = lab u.
Proof. intros H. unfold upd. by rewrite decide_False. Qed.
Lemma edge_cut_upd {L} `{EqDecision L} g (lab : nat -> L) v x :
  wf_graph g -> symmetric g -> (v < nv g)%nat ->
  edge_cut g (upd lab v x) - external g (upd lab v x) v = edge_cut g lab - external g lab v.
Proof.
  intros Hwf Hs Hv.
  pose proof (edge_cut_double g Hwf lab Hs) as E1.
  pose proof (edge_cut_double g Hwf (upd lab v x) Hs) as E2.
  rewrite (sumn_ext _ _ (fun u => sumn (nv g) (diffW g lab u))) in E1
    by (intros; by apply external_diff).
  rewrite (sumn_ext _ _ (fun u => sumn (nv g) (diffW g (upd lab v x) u))) in E2
    by (intros; by apply external_diff).
  assert (S : forall lab' : nat -> L, forall u w, (u < nv g)%nat -> (w < nv g)%nat -> diffW g lab' u w = diffW g lab' w u).
  { intros lab' u w Hu Hw. unfold diffW. repeat case_decide; try congruence. by apply Hs. }
  assert (D : forall lab' : nat -> L, diffW g lab' v v = 0) by (intros; unfold diffW; by rewrite decide_True).
  rewrite (sym_at _ _ v Hv (S lab) (D lab)) in E1.
  rewrite (sym_at _ _ v Hv (S (upd lab v x)) (D (upd lab v x))) in E2.
  rewrite <- (external_diff g Hwf lab v Hv) in E1.
  rewrite <- (external_diff g Hwf (upd lab v x) v Hv) in E2.
  rewrite (sumn_ext _ (fun u => if decide (u = v) then 0 else sumn (nv g) (fun w => if decide (w = v) then 0 else diffW g (upd lab v x) u w))
    (fun u => if decide (u = v) then 0 else sumn (nv g) (fun w => if decide (w = v) then 0 else diffW g lab u w))) in E2.
  - lia.
  - intros u Hu. case_decide; [done|]. apply sumn_ext. intros w Hw. case_decide; [done|].
    unfold diffW, upd. rewrite !(decide_False (P := u = v)), !(decide_False (P := w = v)) by done. done.
Qed.

(** Two labels: moving swaps internal and external (loopless). *)
Definition two_way {L} (a b : L) (n : nat) (lab : nat -> L) : Prop := forall u, (u < n)%nat -> lab u = a \/ lab u = b.
Lemma upd_int_ext_self {L} `{EqDecision L} g (lab : nat -> L) v x y :
  wf_graph g -> loopless g -> (v < nv g)%nat ->
  (forall u, (u < nv g)%nat -> lab u = x \/ lab u = y) -> lab v = x -> x <> y ->
  internal g (upd lab v y) v = external g lab v /\ external g (upd lab v y) v = internal g lab v.
Proof.
  intros Hwf Hl Hv H2 Hx Hxy. unfold internal, external.
  split; apply sumf_ext; intros [u w] Ha; simpl;
    assert (Hu : (u < nv g)%nat) by (apply (out_dst g Hwf v (u, w) Hv Ha));
    assert (Hne : u <> v) by (by eapply Hl); destruct (H2 u Hu) as [E|E];
    unfold upd; rewrite !(decide_False (P := u = v)), !(decide_True (P := v = v)) by done;
    rewrite E, ?Hx; repeat case_decide; congruence.
Qed.
Lemma edge_cut_move {L} `{EqDecision L} g (lab : nat -> L) v x y :
  wf_graph g -> symmetric g -> loopless g -> (v < nv g)%nat ->
  (forall u, (u < nv g)%nat -> lab u = x \/ lab u = y) -> lab v = x -> x <> y ->
  edge_cut g (upd lab v y) = edge_cut g lab + (internal g lab v - external g lab v).
Proof.
  intros Hwf Hs Hl Hv H2 Hx Hxy.
  pose proof (edge_cut_upd g lab v y Hwf Hs Hv) as E.
  destruct (upd_int_ext_self g lab v x y) as [_ E2]; auto. lia.
Qed.
(** ... and shifts W u v for every other vertex u. *)
Lemma upd_int_other {L} `{EqDecision L} g (lab : nat -> L) u v y :
  wf_graph g -> (u < nv g)%nat -> (v < nv g)%nat -> u <> v ->
  internal g (upd lab v y) u = internal g lab u
    + (if decide (y = lab u) then W g u v else 0) - (if decide (lab v = lab u) then W g u v else 0).
Proof.
  intros Hwf Hu Hv Hne. rewrite !internal_W by done.
  pose proof (sumn_update (nv g)
    (fun w => if decide (upd lab v y w = upd lab v y u) then W g u w else 0)
    (fun w => if decide (lab w = lab u) then W g u w else 0) v Hv) as E.
  cbv beta in E. unfold upd in *.
  rewrite (decide_True (P := v = v)), (decide_False (P := u = v)) in E by done.
  rewrite (decide_False (P := u = v)) by done.
  cut (forall w, (w < nv g)%nat -> w <> v ->
     (if decide ((if decide (w = v) then y else lab w) = lab u) then W g u w else 0) =
     (if decide (lab w = lab u) then W g u w else 0)).
  - intros Hc. specialize (E Hc). lia.
  - intros w Hw Hwv. destruct (decide (w = v)); [lia|done].
Qed.
Lemma upd_ext_other {L} `{EqDecision L} g (lab : nat -> L) u v y :
  wf_graph g -> (u < nv g)%nat -> (v < nv g)%nat -> u <> v ->
  external g (upd lab v y) u = external g lab u
    - (if decide (y = lab u) then W g u v else 0) + (if decide (lab v = lab u) then W g u v else 0).
Proof.
  intros Hwf Hu Hv Hne.
  pose proof (upd_int_other g lab u v y Hwf Hu Hv Hne).
  pose proof (int_ext_total g lab u). pose proof (int_ext_total g (upd lab v y) u). lia.
Qed.
Lemma label_weight_upd {L} `{EqDecision L} g (lab : nat -> L) v x p :
  (v < nv g)%nat ->
  label_weight g (upd lab v x) p = label_weight g lab p
    - (if decide (lab v = p) then vweight g v else 0) + (if decide (x = p) then vweight g v else 0).
Proof.
  intros Hv. unfold label_weight.
  pose proof (sumn_update (nv g) (fun u => if decide (upd lab v x u = p) then vweight g u else 0)
     (fun u => if decide (lab u = p) then vweight g u else 0) v Hv) as E.
  cbv beta in E. rewrite upd_same in E.
  cut (forall u, (u < nv g)%nat -> u <> v -> (if decide (upd lab v x u = p) then vweight g u else 0) =
    (if decide (lab u = p) then vweight g u else 0)).
  - intros Hc. specialize (E Hc). lia.
  - intros u Hu Hne. unfold upd. destruct (decide (u = v)); [lia|done].
Qed.
Lemma label_weight_ext {L} `{EqDecision L} g (lab lab' : nat -> L) p :
  (forall u, (u < nv g)%nat -> lab u = lab' u) -> label_weight g lab p = label_weight g lab' p.
Proof. intros H. apply sumn_ext. intros u Hu. by rewrite H. Qed.

(** Keep vertex ranges folded in later files. *)
#[global] Arguments seq : simpl never.

Lemma sumf_nil {A} (f : A -> Z) : sumf f [] = 0. Proof. done. Qed.
Lemma sumf_cons {A} (f : A -> Z) a l : sumf f (a :: l) = f a + sumf f l. Proof. done. Qed.
Lemma sumf_snoc {A} (f : A -> Z) a l : sumf f (l ++ [a]) = sumf f l + f a.
Proof. rewrite sumf_app. simpl. lia. Qed.
#[global] Arguments sumf : simpl never.
