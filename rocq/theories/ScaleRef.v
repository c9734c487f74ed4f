(** * ScaleRef: FM refinement of a graph and of its multiple, side by side (C73). *)
From Coq Require Import ZArith Psatz.
From Verif Require Import Base F64 ModelGraph ModelPartition ModelConn ModelFM Spec Logic RelLogic Sums GraphFacts PartFacts ConnFacts FMFacts MultilevelFacts ScaleFM.
Local Open Scope nat_scope.
#[local] Arguments seq : simpl nomatch.

Lemma pick_side_same t s s' c : (0 < c)%Z -> p_pw (fm_part s') = p_pw (fm_part s) -> fm_q0 s' = qtimes c (fm_q0 s) -> fm_q1 s' = qtimes c (fm_q1 s) -> mrel eq (pick_side t s) (pick_side t s').
Proof.
  intros Hc Hp H0 H1. unfold pick_side, is_overweight. rewrite Hp, H0, H1, !qt_size, !(qt_max c Hc), !(qt_peek c Hc).
  apply mrel_same. intros o0. destruct (_ && _); [apply mrel_refl|]. apply mrel_same. intros o1. destruct (_ && _); [apply mrel_refl|].
  destruct (Nat.eqb _ 0); [apply mrel_refl|]. destruct (Nat.eqb _ 0); [apply mrel_refl|].
  destruct (q_max (fm_q0 s)) as [m0|]; [|apply mrel_refl]. destruct (q_max (fm_q1 s)) as [m1|]; [|apply mrel_refl].
  intros cs. unfold mbindM, lift. cbn [obind fst snd].
  replace (c * m1 <? c * m0)%Z with (m1 <? m0)%Z by (destruct (Z.ltb_spec m1 m0), (Z.ltb_spec (c * m1) (c * m0)); nia || done).
  replace (c * m0 <? c * m1)%Z with (m0 <? m1)%Z by (destruct (Z.ltb_spec m0 m1), (Z.ltb_spec (c * m0) (c * m1)); nia || done).
  apply mrel_refl.
Qed.
Lemma accept_same c isb bal bb cut bc : (0 < c)%Z -> fm_accept isb bal bb (c * cut) (c * bc) = fm_accept isb bal bb cut bc.
Proof.
  intros Hc. unfold fm_accept. replace (c * cut <? c * bc)%Z with (cut <? bc)%Z; [done|]. destruct (Z.ltb_spec cut bc), (Z.ltb_spec (c * cut) (c * bc)); nia || done.
Qed.

Section Ref.
  Context (c : Z) (Hc : (0 < c)%Z) (g g' : graph) (Hs : scaled c g g') (Hud : undirected g) (Hud' : undirected g').
  Context (t : target) (Htf : 2 <= length (t_frac t)) (Htm : 2 <= length (t_max t)).
  Local Notation n := (nv g).
  Let Hwf : wf_graph g := ud_wf g Hud.
  Let Hwf' : wf_graph g' := ud_wf g' Hud'.
  Let Hnv : nv g' = n := sc_nv c g g' Hs.

  Record fmrel (s s' : fm) : Prop := {
    fr_data : fm_data g s;
    fr_data' : fm_data g' s';
    fr_where : p_where (fm_part s') = p_where (fm_part s);
    fr_vis : fm_vis s' = fm_vis s;
    fr_border : c_border (fm_conn s') = c_border (fm_conn s)
  }.
  Lemma fr_part s s' : fmrel s s' -> fm_part s' = ptimes c (fm_part s).
  Proof. intros H. apply (sc_exact c g g' Hs Hwf 2); [apply (fr_data _ _ H)|apply (fr_data' _ _ H)|apply (fr_where _ _ H)]. Qed.
  Lemma fr_lab s s' : fmrel s s' -> lab (fm_part s') = lab (fm_part s).
  Proof. intros H. unfold lab. by rewrite (fr_where _ _ H). Qed.
  Lemma fr_queue s s' i : fmrel s s' -> qinv g s -> qinv g' s' -> i < 2 -> fm_q s' i = qtimes c (fm_q s i).
  Proof.
    intros H HQ HQ' Hi. pose proof (fr_data _ _ H) as (_ & (_ & _ & _ & HC) & _ & L0 & L1 & _). pose proof (fr_data' _ _ H) as (_ & (_ & _ & _ & HC') & _ & L0' & L1' & _).
    assert (Hl : length (fm_q s i) = n) by (unfold fm_q; by destruct (Nat.eqb i 0)). assert (Hl' : length (fm_q s' i) = n) by (unfold fm_q; rewrite <- Hnv; by destruct (Nat.eqb i 0)).
    apply list_eq. intros u. rewrite qt_look. destruct (decide (u < n)) as [Hu|Hu]; [|rewrite !lookup_ge_None_2; [done|lia|lia]].
    rewrite HQ by done. rewrite HQ' by (rewrite ?Hnv; done). cbn [fmap option_fmap option_map]. f_equal. unfold qcell. rewrite (fr_vis _ _ H), (fr_lab _ _ H), (fr_border _ _ H).
    destruct (nth u (fm_vis s) false); [done|]. destruct (decide _); [|done]. destruct (nth u (c_border _) false); [|done]. cbn [fmap option_fmap option_map]. f_equal.
    destruct (HC u Hu) as [C1 C2]. destruct (HC' u ltac:(by rewrite Hnv)) as [C3 C4].
    rewrite (nth_lt_eq _ _ _ _ C1), (nth_lt_eq _ _ _ _ C2), (nth_lt_eq _ _ _ _ C3), (nth_lt_eq _ _ _ _ C4).
    rewrite (sc_external c g g' Hs Hwf), (sc_internal c g g' Hs Hwf) by done. rewrite (fr_lab _ _ H). lia.
  Qed.
  Lemma touched_same v u : v < n -> touched g' v u <-> touched g v u.
  Proof. intros Hv. unfold touched. rewrite (sc_out c g g' Hs Hwf v Hv). rewrite <- list_fmap_compose. done. Qed.
  Lemma fr_move track v from to s s' : fmrel s s' -> v < n -> from + to = 1 -> lab (fm_part s) v = Some from ->
    (track = true -> (qinv g s /\ qinv g' s') /\ nth v (fm_vis s) false = true) ->
    orel (fun x y => fmrel x y /\ (track = true -> qinv g x /\ qinv g' y)) (fm_move g track v to s) (fm_move g' track v to s').
  Proof.
    intros H Hv Hft Hlab HT. pose proof (fr_data _ _ H) as HD. pose proof (fr_data' _ _ H) as HD'. pose proof Hud as [_ Hsy Hlo Hfi]. pose proof Hud' as [_ Hsy' Hlo' Hfi'].
    pose proof (fm_move_wp g Hwf Hsy Hlo Hfi never track v from to s Hv Hft Hlab HD ltac:(intros Ht; destruct (HT Ht) as [[? ?] ?]; done)) as H1.
    pose proof (fm_move_wp g' Hwf' Hsy' Hlo' Hfi' never track v from to s' ltac:(by rewrite Hnv) Hft ltac:(by rewrite (fr_lab _ _ H)) HD'
      ltac:(intros Ht; rewrite (fr_vis _ _ H); destruct (HT Ht) as [[? ?] ?]; done)) as H2.
    assert (B1 := move_border g track v to s Hwf Hv ltac:(intros i Ei; destruct HD as (_ & (_ & _ & _ & HC) & _); destruct (HC v Hv) as [C1 _]; rewrite C1 in Ei; injection Ei as <-; by apply internal_nonneg)).
    assert (B2 := move_border g' track v to s' Hwf' ltac:(by rewrite Hnv) ltac:(intros i Ei; destruct HD' as (_ & (_ & _ & _ & HC) & _); destruct (HC v ltac:(by rewrite Hnv)) as [C1 _]; rewrite C1 in Ei; injection Ei as <-; apply internal_nonneg; [done|by rewrite Hnv])).
    eapply orel_wp; [exact (wpo_conj _ _ _ _ _ H1 B1)|exact (wpo_conj _ _ _ _ _ H2 B2)|].
    intros x y [(D1 & W1 & V1 & Q1) b1] [(D2 & W2 & V2 & Q2) b2]. split; [|intros Ht; split; [by apply Q1|by apply Q2]].
    assert (HW : p_where (fm_part y) = p_where (fm_part x)) by (rewrite W1, W2; by rewrite (fr_where _ _ H)).
    assert (HL : lab (fm_part y) = lab (fm_part x)) by (unfold lab; by rewrite HW).
    split; [done|done|exact HW|rewrite V1, V2; apply (fr_vis _ _ H)|].
    apply list_eq. intros u. destruct (b1 u) as [b1t b1f]. destruct (b2 u) as [b2t b2f]. rewrite (touched_same v u Hv) in b2t, b2f.
    destruct (decide (u = v)) as [Huv|Huv]; [|destruct (decide (u ∈ fst <$> out g v)) as [Ho|Ho]].
    3: { rewrite b1f, b2f; [by rewrite (fr_border _ _ H)| |]; intros [?|?]; done. }
    all: destruct b1t as (e1 & X1 & Y1); [by (left + right)|]; destruct b2t as (e2 & X2 & Y2); [by (left + right)|]; rewrite Y1, Y2; f_equal;
      destruct D1 as (_ & (_ & L1 & _ & HC1) & _); destruct D2 as (_ & (_ & _ & _ & HC2) & _);
      assert (Hu : u < n) by (apply lookup_lt_Some in X1; by rewrite L1 in X1);
      destruct (HC1 u Hu) as [_ C1]; destruct (HC2 u ltac:(by rewrite Hnv)) as [_ C2]; rewrite X1 in C1; rewrite X2 in C2; injection C1 as ->; injection C2 as ->;
      rewrite HL, (sc_external c g g' Hs Hwf) by done; generalize (external g (lab (fm_part x)) u) as z; intros z; destruct (Z.ltb_spec 0 (c * z)), (Z.ltb_spec 0 z); nia || done.
  Qed.

  (** ** One pass *)
  Record prel (p0 p0' : part) (ps ps' : pass) : Prop := {
    pr_fm : fmrel (ps_fm ps) (ps_fm ps');
    pr_inv : pass_inv g t p0 ps;
    pr_inv' : pass_inv g' t p0' ps';
    pr_cut : ps_best_cut ps' = (c * ps_best_cut ps)%Z;
    pr_bal : ps_best_bal ps' = ps_best_bal ps;
    pr_moves : ps_moves ps' = ps_moves ps;
    pr_num : ps_num_moved ps' = ps_num_moved ps
  }.
  Lemma pr_empty p0 p0' ps ps' : prel p0 p0' ps ps' -> queues_empty (ps_fm ps') = queues_empty (ps_fm ps).
  Proof.
    intros H. pose proof (pr_inv _ _ _ _ H) as (_ & HQ & _). pose proof (pr_inv' _ _ _ _ H) as (_ & HQ' & _). unfold queues_empty.
    pose proof (fr_queue _ _ 0 (pr_fm _ _ _ _ H) HQ HQ' ltac:(lia)) as E0. pose proof (fr_queue _ _ 1 (pr_fm _ _ _ _ H) HQ HQ' ltac:(lia)) as E1. unfold fm_q in E0, E1. cbn [Nat.eqb] in E0, E1.
    by rewrite E0, E1, !qt_size.
  Qed.
  Lemma step_rel p0 p0' ps ps' : prel p0 p0' ps ps' -> queues_empty (ps_fm ps) = false -> mrel (prel p0 p0') (fm_step g t ps) (fm_step g' t ps').
  Proof.
    intros H He. pose proof (pr_inv _ _ _ _ H) as HI. pose proof (pr_inv' _ _ _ _ H) as HI'. pose proof Hud as [_ Hsy Hlo Hfi]. pose proof Hud' as [_ Hsy' Hlo' Hfi'].
    pose proof (fm_step_wp g Hwf Hsy Hlo Hfi t Htf Htm anyf p0 ps HI He) as S1. pose proof (fm_step_wp g' Hwf' Hsy' Hlo' Hfi' t Htf Htm anyf p0' ps' HI' ltac:(by rewrite (pr_empty _ _ _ _ H))) as S2.
    eapply mrel_mono; [refine (mrel_and (fun x y => fmrel (ps_fm x) (ps_fm y) /\ ps_best_cut y = (c * ps_best_cut x)%Z /\ ps_best_bal y = ps_best_bal x /\ ps_moves y = ps_moves x /\ ps_num_moved y = ps_num_moved x) _ _ _ _ _ S1 S2)|].
    2: { intros x y ((A & B & C & D & E) & (I1 & _) & (I2 & _)). by split. }
    clear S1 S2. destruct HI as (HD & HQ & _). destruct HI' as (HD' & HQ' & _). destruct H as [HF _ _ Hcut Hbal Hmv Hnum].
    set (s := ps_fm ps) in *. set (s' := ps_fm ps') in *.
    pose proof (fr_queue _ _ 0 HF HQ HQ' ltac:(lia)) as E0. pose proof (fr_queue _ _ 1 HF HQ HQ' ltac:(lia)) as E1. unfold fm_q in E0, E1. cbn [Nat.eqb] in E0, E1.
    pose proof (fr_part _ _ HF) as HP.
    unfold fm_step. fold s s'.
    eapply (mrel_bind_wp eq); [apply (pick_side_same t s s' c Hc); [by rewrite HP|done|done]|apply (pick_side_wp g t Htf Htm anyf s HD He)|].
    intros from ? <- (Hfrom & Hne).
    eapply (mrel_bind_wp (fun a b => b = (fst a, qtimes c (snd a)))); [|apply (q_pop_wp _ anyf Hne)|].
    { rewrite (fr_queue _ _ from HF HQ HQ' Hfrom). apply (qt_pop c Hc). }
    intros [v q1] ? -> (Hq & k & Hv & Hmax). cbn [fst snd] in Hq, Hv |- *. subst q1.
    destruct HD as (HPx & HC & HB & Hl0 & Hl1 & Hlv).
    assert (Hvn : v < n). { apply lookup_lt_Some in Hv. unfold fm_q in Hv. destruct (Nat.eqb from 0); lia. }
    pose proof (HQ v from Hvn Hfrom) as Hcell. rewrite Hv in Hcell. injection Hcell as Hcell. symmetry in Hcell.
    unfold qcell in Hcell. destruct (nth v (fm_vis s) false) eqn:Hnvis; [done|].
    destruct (decide (lab (fm_part s) v = Some from)) as [Hlf|]; [|done].
    set (s1 := mkFm (fm_part s) (fm_conn s) (if Nat.eqb from 0 then <[v:=None]> (fm_q0 s) else fm_q0 s) (if Nat.eqb from 0 then fm_q1 s else <[v:=None]> (fm_q1 s)) (fm_vis s)).
    set (s1' := mkFm (fm_part s') (fm_conn s') (if Nat.eqb from 0 then <[v:=None]> (fm_q0 s') else fm_q0 s') (if Nat.eqb from 0 then fm_q1 s' else <[v:=None]> (fm_q1 s')) (fm_vis s')).
    eapply (mrel_bind (fun a b => a = s1 /\ b = s1')).
    { apply mrel_lift. rewrite <- qt_insert. destruct from as [|[|]]; [| |lia]; cbn [set_q fm_q Nat.eqb obind orel]; (split; [done|]); unfold s1'; cbn [Nat.eqb]; f_equal; unfold fm_q; cbn [Nat.eqb]; congruence. }
    intros ? ? [-> ->]. assert (Hlv' : length (fm_vis s') = n) by (by rewrite (fr_vis _ _ HF)). unfold vt_visit. cbn [s1 s1' fm_vis].
    eapply (mrel_bind (fun a b => a = <[v:=true]> (fm_vis s) /\ b = <[v:=true]> (fm_vis s'))).
    { apply mrel_lift. rewrite !wr_ok by lia. done. }
    intros ? ? [-> ->]. cbn [fm_part fm_conn fm_q0 fm_q1].
    set (s2 := mkFm (fm_part s) (fm_conn s) (if Nat.eqb from 0 then <[v:=None]> (fm_q0 s) else fm_q0 s) (if Nat.eqb from 0 then fm_q1 s else <[v:=None]> (fm_q1 s)) (<[v:=true]> (fm_vis s))).
    set (s2' := mkFm (fm_part s') (fm_conn s') (if Nat.eqb from 0 then <[v:=None]> (fm_q0 s') else fm_q0 s') (if Nat.eqb from 0 then fm_q1 s' else <[v:=None]> (fm_q1 s')) (<[v:=true]> (fm_vis s'))).
    set (to := if Nat.eqb from 0 then 1 else 0).
    assert (Hft : from + to = 1) by (unfold to; destruct from as [|[|]]; simpl; lia).
    assert (HQ2 : forall (h : graph) x, nv h = n -> qinv h x -> fm_data h x -> lab (fm_part x) v = Some from -> nth v (fm_vis x) false = false ->
      qinv h (mkFm (fm_part x) (fm_conn x) (if Nat.eqb from 0 then <[v:=None]> (fm_q0 x) else fm_q0 x) (if Nat.eqb from 0 then fm_q1 x else <[v:=None]> (fm_q1 x)) (<[v:=true]> (fm_vis x))) /\
      fm_data h (mkFm (fm_part x) (fm_conn x) (if Nat.eqb from 0 then <[v:=None]> (fm_q0 x) else fm_q0 x) (if Nat.eqb from 0 then fm_q1 x else <[v:=None]> (fm_q1 x)) (<[v:=true]> (fm_vis x)))).
    { clear - Hfrom Hvn. intros h x Hnh HQ (HPx & HC & HB & Hl0 & Hl1 & Hlv) Hlf Hnvis. split.
      2: { unfold fm_data; simpl. split_and!; auto; destruct (Nat.eqb from 0); rewrite ?insert_length; auto. }
      intros u i Hu Hi. destruct (decide (u = v)) as [->|Huv].
      - unfold qcell; simpl. rewrite nth_insert_same by lia.
        pose proof (HQ v i Hu Hi) as Hqi. unfold qcell in Hqi. rewrite Hnvis, Hlf in Hqi.
        unfold fm_q in *; simpl. destruct from as [|[|]]; [| |lia]; destruct i as [|[|]]; try lia; simpl in *;
          rewrite ?list_lookup_insert by lia; auto; (rewrite decide_False in Hqi by congruence; done).
      - transitivity (Some (qcell x i u)).
        + rewrite <- (HQ u i Hu Hi). unfold fm_q; simpl. destruct (Nat.eqb from 0), (Nat.eqb i 0); rewrite ?list_lookup_insert_ne by done; done.
        + f_equal. unfold qcell; simpl. by rewrite nth_insert_ne by done. }
    destruct (HQ2 g s eq_refl HQ (fr_data _ _ HF) Hlf Hnvis) as [Q1 D1].
    destruct (HQ2 g' s' Hnv HQ' HD' ltac:(by rewrite (fr_lab _ _ HF)) ltac:(by rewrite (fr_vis _ _ HF))) as [Q2 D2]. clear HQ2.
    eapply mrel_bind.
    { apply mrel_lift. apply (fr_move true v from to s2 s2'); [|done|done|exact Hlf|].
      - split; [exact D1|exact D2|apply (fr_where _ _ HF)| |apply (fr_border _ _ HF)]. cbn [s2 s2' fm_vis]. by rewrite (fr_vis _ _ HF).
      - intros _. split; [split; [exact Q1|exact Q2]|]. cbn [s2 fm_vis]. apply nth_insert_same. lia. }
    intros x y [Hxy _]. pose proof (fr_part _ _ Hxy) as HPy.
    rewrite (sc_imbalance c g g' Hs), (imbalance_pw g t (fm_part x) (fm_part y)), (balanced_pw t (fm_part x) (fm_part y)) by (by rewrite HPy).
    apply mrel_same. intros bal. apply mrel_same. intros isb. apply mrel_ret. rewrite HPy, Hbal, Hcut, Hmv, Hnum. cbn [ptimes p_cut]. rewrite accept_same by done.
    destruct (fm_accept _ _ _ _ _); cbn [ps_fm ps_best_cut ps_best_bal ps_moves ps_num_moved]; split_and!; try done.
  Qed.
  Lemma loop_rel mb p0 p0' fuel : forall ps ps', prel p0 p0' ps ps' -> mrel (prel p0 p0') (fm_loop g t mb fuel ps) (fm_loop g' t mb fuel ps').
  Proof.
    induction fuel as [|fuel IH]; intros ps ps' H; cbn [fm_loop]; rewrite (pr_empty _ _ _ _ H), (pr_moves _ _ _ _ H); (destruct (queues_empty (ps_fm ps)) eqn:He; [by apply mrel_ret|]);
      cbn [orb]; (destruct (negb _); [by apply mrel_ret|]).
    - apply mrel_fail.
    - eapply mrel_bind; [by apply step_rel|]. intros x y. apply IH.
  Qed.
  Lemma undo_rel ms : Forall (fun v => v < n) ms -> forall s s', fmrel s s' -> orel fmrel (fm_undo g ms s) (fm_undo g' ms s').
  Proof.
    intros Hms. unfold fm_undo. apply orel_fold. intros s s' v Hv H. rewrite Forall_forall in Hms. specialize (Hms v Hv). unfold get_assignment. rewrite (fr_where _ _ H).
    pose proof (fr_data _ _ H) as ([[[HLl HL] _] _] & _). destruct (HL v Hms) as (i & Hi & Ei). rewrite (rd_ok _ _ _ Ei). cbn [obind pw_index].
    eapply orel_mono; [apply (fr_move false v i); [done|done|destruct i as [|[|]]; simpl; lia|unfold lab; by apply nth_lt_eq|done]|]. intros x y [A _]. exact A.
  Qed.
  Lemma fill_rel s s' : fmrel s s' -> empty_queues g s -> empty_queues g' s' -> mrel (fun x y => fmrel x y /\ qinv g x /\ qinv g' y /\ fm_vis x = replicate n false) (fm_fill s) (fm_fill s').
  Proof.
    intros H HE HE'. pose proof Hud as [_ Hsy Hlo Hfi]. pose proof Hud' as [_ Hsy' Hlo' Hfi'].
    pose proof (fm_fill_wp g Hwf Hsy Hlo Hfi t Htf Htm never s (fr_data _ _ H) HE) as F1. pose proof (fm_fill_wp g' Hwf' Hsy' Hlo' Hfi' t Htf Htm never s' (fr_data' _ _ H) HE') as F2.
    assert (HB : forall x, wpm (fm_fill x) anyf (fun y => fm_conn y = fm_conn x)).
    { intros x. unfold fm_fill. eapply wpm_bind; [apply (wpm_choose_perm (members (c_border (fm_conn x))) anyf)|]. intros vs _. apply wpm_lift.
      apply (ofold_inv (fun y => fm_conn y = fm_conn x)); [done|]. intros v y _ Hy. destruct (get_assignment _ _) as [side|]; [|exact Logic.I]. cbn [obind]. destruct (neg_delta _ _); [|exact Logic.I]. cbn [obind].
      unfold set_q. destruct side as [[|[|]]|]; try exact Logic.I; destruct (q_add _ _ _); try exact Logic.I; exact Hy. }
    intros cs. pose proof (F1 cs) as X1. pose proof (F2 cs) as X2. pose proof (HB s cs) as B1. pose proof (HB s' cs) as B2.
    assert (HO : border_order (fm_conn s') = border_order (fm_conn s)) by (unfold border_order; by rewrite (fr_border _ _ H)).
    unfold fm_fill, mbindM in *. rewrite HO in *. destruct (border_order (fm_conn s) cs) as [[vs s1]|f]; [|done]. cbn [obind fst snd] in *. unfold lift in *.
    destruct (ofold _ s vs) as [x|]; [|done]. destruct (ofold _ s' vs) as [y|]; [|done]. cbn [obind wpo fst snd orel] in *.
    destruct X1 as (D1 & Q1 & P1 & V1). destruct X2 as (D2 & Q2 & P2 & V2). split; [|done]. split; [|done].
    split; [done|done|by rewrite P1, P2, (fr_where _ _ H)|by rewrite V1, V2, Hnv|by rewrite B1, B2, (fr_border _ _ H)].
  Qed.
  Lemma start_inv h s bal : fm_data h s -> qinv h s -> fm_vis s = replicate (nv h) false -> calc_max_imbalance h t (fm_part s) = Ok bal -> pass_inv h t (fm_part s) (mkPass s (p_cut (fm_part s)) bal [] 0).
  Proof. intros HD HQ HV HB. by apply pass_start_inv. Qed.
  Lemma iters_rel mb it : forall s s', fmrel s s' -> (it <> 0 -> empty_queues g s) -> (it <> 0 -> empty_queues g' s') -> mrel fmrel (fm_iters g t mb it s) (fm_iters g' t mb it s').
  Proof.
    induction it as [|it IH]; intros s s' H HE HE'; cbn [fm_iters]; [by apply mrel_ret|].
    eapply mrel_bind; [apply fill_rel; [done|by apply HE|by apply HE']|]. intros x y (Hxy & Q1 & Q2 & V1). pose proof (fr_part _ _ Hxy) as HP.
    rewrite (sc_imbalance c g g' Hs), (imbalance_pw g t (fm_part x) (fm_part y)) by (by rewrite HP).
    destruct (calc_max_imbalance g t (fm_part x)) as [bal|f] eqn:Eb; [|apply mrel_fail]. intros cs. unfold lift at 1 3. unfold mbindM at 1 4. cbn [obind fst snd]. revert cs.
    match goal with |- forall cs, orel _ (?m cs) (?m' cs) => change (mrel fmrel m m') end.
    rewrite Hnv. eapply mrel_bind.
    { apply (loop_rel mb (fm_part x) (fm_part y)). split; cbn [ps_fm ps_best_cut ps_best_bal ps_moves ps_num_moved]; try done.
      - apply start_inv; [apply (fr_data _ _ Hxy)|done|done|done].
      - apply start_inv; [apply (fr_data' _ _ Hxy)|done|by rewrite Hnv, (fr_vis _ _ Hxy)|]. rewrite (sc_imbalance c g g' Hs). rewrite (imbalance_pw g t (fm_part x) (fm_part y)); [done|by rewrite HP].
      - by rewrite HP. }
    intros ps ps' Hps. rewrite (pr_moves _ _ _ _ Hps), (pr_num _ _ _ _ Hps). eapply mrel_bind.
    { apply mrel_lift. apply undo_rel; [|apply (pr_fm _ _ _ _ Hps)]. destruct (pr_inv _ _ _ _ Hps) as (_ & _ & _ & _ & _ & bp & _ & _ & _ & _ & Hall & _). exact Hall. }
    intros a b Hab. destruct (Nat.eqb _ _); [by apply mrel_ret|]. pose proof (fr_data _ _ Hab) as (A1 & A2 & A3 & L0 & L1 & Lv). pose proof (fr_data' _ _ Hab) as (B1 & B2 & B3 & M0 & M1 & Mv). apply IH.
    - destruct it; [done|]. split; cbn [fm_part fm_conn fm_vis]; [| |apply (fr_where _ _ Hab)|unfold vt_clear; by rewrite (fr_vis _ _ Hab)|apply (fr_border _ _ Hab)];
        unfold fm_data; cbn [fm_part fm_conn fm_q0 fm_q1 fm_vis]; unfold q_clear, vt_clear; rewrite !replicate_length; done.
    - intros Hn. destruct it; [done|]. unfold empty_queues; cbn [fm_q0 fm_q1 fm_vis]; unfold q_clear, vt_clear. by rewrite L0, L1, Lv.
    - intros Hn. destruct it; [done|]. unfold empty_queues; cbn [fm_q0 fm_q1 fm_vis]; unfold q_clear, vt_clear. by rewrite M0, M1, Mv.
  Qed.
  (** Connectivity data and partitionings that correspond. *)
  Record cprel (x y : conn * part) : Prop := {
    cp_good : ml_good g x;
    cp_good' : ml_good g' y;
    cp_where : p_where (snd y) = p_where (snd x);
    cp_border : c_border (fst y) = c_border (fst x)
  }.
  Lemma cp_part x y : cprel x y -> snd y = ptimes c (snd x).
  Proof. intros H. apply (sc_exact c g g' Hs Hwf 2); [apply (cp_good _ _ H)|apply (cp_good' _ _ H)|apply (cp_where _ _ H)]. Qed.
  Lemma refine_rel it mv x y : cprel x y -> mrel cprel (fm_refine it mv g t (fst x) (snd x)) (fm_refine it mv g' t (fst y) (snd y)).
  Proof.
    intros H. unfold fm_refine. rewrite Hnv. apply mrel_same. intros mb. eapply mrel_bind.
    { apply iters_rel.
      - destruct (cp_good _ _ H) as (G1 & G2 & G3). destruct (cp_good' _ _ H) as (G4 & G5 & G6).
        split; cbn [fm_part fm_conn fm_vis]; [| |apply (cp_where _ _ H)|done|apply (cp_border _ _ H)];
          unfold fm_data; cbn [fm_part fm_conn fm_q0 fm_q1 fm_vis]; unfold q_new, vt_new; rewrite !replicate_length; done.
      - intros _. done.
      - intros _. unfold empty_queues, q_new, vt_new. cbn [fm_q0 fm_q1 fm_vis]. by rewrite Hnv. }
    intros a b Hab. apply mrel_ret. destruct (fr_data _ _ Hab) as (A1 & A2 & A3 & _). destruct (fr_data' _ _ Hab) as (B1 & B2 & B3 & _).
    split; cbn [fst snd]; [done|done|apply (fr_where _ _ Hab)|apply (fr_border _ _ Hab)].
  Qed.
End Ref.
