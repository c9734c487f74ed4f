(** * TimedFacts: the call with its time keeper simulates the call without (C63). *)
From Verif Require Import Base F64 ModelGraph ModelPartition ModelConn ModelFM ModelAgg ModelMultilevel ModelBisect ModelRecursive ModelApi ModelUtil ModelTimed
  Spec Logic GraphFacts SubFacts RecFacts LabelFacts TreeFacts PropsUtil.
#[local] Arguments seq : simpl nomatch.

Notation log := (list (nat * f64)).
(** The values of the reports are the first readings. *)
Definition reads (rs : list f64) (h : log) : Prop := (snd <$> h) = (fun i => nth i rs f_zero) <$> seq 0 (length h).
Lemma reads_app rs h1 h2 : reads rs h1 -> reads (drop (length h1) rs) h2 -> reads rs (h1 ++ h2).
Proof.
  unfold reads. intros E1 E2. rewrite fmap_app, E1, E2, app_length, seq_app, fmap_app. f_equal.
  replace (0 + length h1) with (length h1 + 0) by lia. rewrite <- (fmap_add_seq (length h1) 0), <- list_fmap_compose.
  apply list_fmap_ext. intros i x _. cbn. clear. revert rs. induction (length h1) as [|n IH]; intros rs; [done|]. destruct rs as [|r rs]; cbn; [by destruct x|apply IH].
Qed.
(** From stream s: tm gives what m gives, with reports that satisfy Q. *)
Definition sim {A} (tm : TM A) (m : M A) (s : list nat) (Q : A -> log -> Prop) : Prop := forall c, length (ck_times c) = 8 ->
  match m s with
  | Ok (a, s1) => exists c' h, tm c s = Ok ((a, c'), s1) /\ ck_times c' = fst (run_reports (ck_times c) h) /\ length (ck_times c') = 8 /\
      ck_readings c' = drop (length h) (ck_readings c) /\ reads (ck_readings c) h /\ Q a h
  | Fail f => tm c s = Fail f
  end.
Lemma run_reports_app ts h1 h2 : fst (run_reports ts (h1 ++ h2)) = fst (run_reports (fst (run_reports ts h1)) h2).
Proof. revert ts. induction h1 as [|[k x] h1 IH]; intros ts; [done|]. cbn. apply IH. Qed.
Lemma sim_bind {A B} (tm : TM A) m (k : A -> TM B) k' s Q R : sim tm m s Q ->
  (forall a s1 h1, m s = Ok (a, s1) -> Q a h1 -> sim (k a) (k' a) s1 (fun b h2 => R b (h1 ++ h2))) -> sim (tbind tm k) (mbindM m k') s R.
Proof.
  intros H1 H2 c Hc. specialize (H1 c Hc). unfold tbind, mbindM. destruct (m s) as [[a s1]|f]; cbn [obind fst snd].
  - destruct H1 as (c' & h & E & Et & El & Er & Hr & HQ). rewrite E. cbn [obind fst snd]. specialize (H2 a s1 h eq_refl HQ c' El).
    destruct (k' a s1) as [[b s2]|f]; [|done]. destruct H2 as (c2 & h2 & E2 & Et2 & El2 & Er2 & Hr2 & HR).
    exists c2, (h ++ h2). split; [done|]. rewrite run_reports_app, <- Et. split; [done|]. split; [done|]. split; [|split; [|done]].
    + by rewrite Er2, Er, drop_drop, app_length.
    + apply reads_app; [done|]. by rewrite <- Er.
  - rewrite H1. done.
Qed.
Lemma sim_ret {A} (a : A) s (Q : A -> log -> Prop) : Q a [] -> sim (tret a) (ret a) s Q.
Proof. intros HQ c Hc. exists c, []. split; [done|]. split; [done|]. split; [done|]. split; [done|]. split; [done|done]. Qed.
Lemma sim_lift {A} (m : M A) s (Q : A -> log -> Prop) : (forall a s1, m s = Ok (a, s1) -> Q a []) -> sim (tlift m) m s Q.
Proof.
  intros HQ c Hc. unfold tlift, mbindM. destruct (m s) as [[a s1]|f] eqn:E; [|done]. exists c, []. cbn [obind fst snd].
  split; [done|]. split; [done|]. split; [done|]. split; [done|]. split; [done|]. by eapply HQ.
Qed.
(** A report in front of the rest. *)
Lemma sim_report {A} cat (tm : TM A) m s Q : cat < 8 -> (forall x, sim tm m s (fun a h => Q a ((cat, x) :: h))) -> sim (time! _ := report cat in tm) m s Q.
Proof.
  intros Hcat H c Hc. unfold tbind, mbindM, report. unfold tk_report. rewrite Hc. destruct (Nat.leb_spec 8 cat) as [?|_]; [lia|]. cbn [fst snd obind ret].
  set (x := hd f_zero (ck_readings c)). set (ts := <[cat := _]> (ck_times c)).
  assert (Hts : length ts = 8) by (unfold ts; by rewrite insert_length). specialize (H x (mkClk (tl (ck_readings c)) ts) Hts).
  destruct (m s) as [[a s1]|f]; [|exact H]. destruct H as (c' & h & E & Et & El & Er & Hr & HQ). exists c', ((cat, x) :: h). cbn [ck_times ck_readings] in *.
  split; [exact E|]. split; [|split; [done|]; split; [|split; [|done]]].
  - cbn [run_reports]. unfold tk_report. rewrite Hc. destruct (Nat.leb_spec 8 cat) as [?|_]; [lia|]. cbn [fst]. exact Et.
  - rewrite Er. destruct (ck_readings c); cbn; [by rewrite drop_nil|done].
  - apply (reads_app _ [(cat, x)] h); [unfold reads, x; cbn; by destruct (ck_readings c)|]. cbn. destruct (ck_readings c); [exact Hr|]. cbn. by rewrite drop_0.
Qed.
Lemma sim_post {A} (tm : TM A) m s (Q R : A -> log -> Prop) : sim tm m s Q -> (forall a h s1, m s = Ok (a, s1) -> Q a h -> R a h) -> sim tm m s R.
Proof.
  intros H HR c Hc. specialize (H c Hc). destruct (m s) as [[a s1]|f]; [|done]. destruct H as (c' & h & E & Et & El & Er & Hr & HQ). exists c', h.
  split; [done|]. split; [done|]. split; [done|]. split; [done|]. split; [done|]. by eapply HR.
Qed.
(** m followed by a return is m *)
Lemma sim_eq {A} (tm : TM A) m m' s Q : m s = m' s -> sim tm m s Q -> sim tm m' s Q.
Proof. intros E H c Hc. rewrite <- E. by apply H. Qed.

(** ** Counting reports *)
Definition times_of (c : nat) (h : log) : nat := length (filter (fun r => fst r = c) h).
Lemma times_app c h1 h2 : times_of c (h1 ++ h2) = times_of c h1 + times_of c h2.
Proof. unfold times_of. by rewrite filter_app, app_length. Qed.
Lemma times_cons c k x h : times_of c ((k, x) :: h) = (if decide (k = c) then 1 else 0) + times_of c h.
Proof. unfold times_of. rewrite filter_cons. cbn [fst]. by destruct (decide (k = c)). Qed.
(** n levels were made, b initial bisections; no total yet. *)
Record tally (n b : nat) (h : log) : Prop := {
  ta_total : times_of TOTAL h = 0; ta_coarsen : times_of COARSENING h = n; ta_agg : times_of AGGREGATION h = n; ta_con : times_of CONTRACTION h = n;
  ta_init : times_of INITIAL_PARTITIONING h = b; ta_unc : times_of UNCOARSENING h = n; ta_ref : times_of REFINEMENT h = n; ta_pro : times_of PROJECTION h = n
}.
Lemma tally_app n1 b1 n2 b2 h1 h2 : tally n1 b1 h1 -> tally n2 b2 h2 -> tally (n1 + n2) (b1 + b2) (h1 ++ h2).
Proof. intros [] []. constructor; rewrite times_app; lia. Qed.
Lemma tally_nil : tally 0 0 [].
Proof. constructor; done. Qed.
Lemma bind_ret {A} (m : M A) s : mbindM m ret s = m s.
Proof. unfold mbindM. by destruct (m s) as [[a s1]|f]. Qed.
Lemma sim_timed {A} cat (m : M A) s : cat < 8 -> sim (time! a := tlift m in time! _ := report cat in tret a) m s (fun _ h => exists x, h = [(cat, x)]).
Proof.
  intros Hc. eapply sim_eq; [apply bind_ret|]. apply (sim_bind _ _ _ _ _ (fun _ h => h = [])); [by apply sim_lift|].
  intros a s1 h1 _ ->. apply sim_report; [done|]. intros x. apply sim_ret. by exists x.
Qed.
Lemma tally_one x : tally 0 1 [(INITIAL_PARTITIONING, x)].
Proof. constructor; done. Qed.
Lemma tally_level n b a b1 c d e f h : tally n b h ->
  tally (S n) b ([(AGGREGATION, a)] ++ (CONTRACTION, b1) :: (COARSENING, c) :: h ++ (PROJECTION, d) :: [(REFINEMENT, e)] ++ [(UNCOARSENING, f)]).
Proof.
  intros [H0 H1 H2 H3 H4 H5 H6 H7]. constructor; repeat (rewrite times_app || rewrite times_cons); rewrite ?H0, ?H1, ?H2, ?H3, ?H4, ?H5, ?H6, ?H7;
    repeat match goal with |- context [decide ?P] => first [rewrite (decide_True (P := P)) by done | rewrite (decide_False (P := P)) by done] end;
    repeat match goal with |- context [times_of ?c []] => change (times_of c []) with 0 end; lia.
Qed.

Lemma tml_recurse_sim agg init ref stop maxW t fuel : forall level parent g s,
  sim (tml_recurse agg init ref stop maxW t fuel level parent g) (ml_recurse agg init ref stop maxW t fuel level parent g) s (fun _ h => exists n, tally n 1 h).
Proof.
  induction fuel as [|fuel IH]; intros level parent g s; cbn [tml_recurse ml_recurse].
  all: apply (sim_bind _ _ _ _ _ (fun _ h => h = [])); [by apply sim_lift|]; intros b s1 h1 _ ->; cbn [app]; destruct b;
    [apply (sim_bind _ _ _ _ _ (fun _ h => exists x, h = [(INITIAL_PARTITIONING, x)])); [by apply sim_timed; unfold INITIAL_PARTITIONING; lia|];
     intros p s2 h2 _ [x ->]; apply (sim_bind _ _ _ _ _ (fun _ h => h = [])); [by apply sim_lift|]; intros c s3 h3 _ ->; apply sim_ret; exists 0; apply tally_one|].
  - apply sim_lift. intros a s2 E. done.
  - apply (sim_bind _ _ _ _ _ (fun _ h => exists x, h = [(AGGREGATION, x)])); [by apply sim_timed; unfold AGGREGATION; lia|]. intros a s2 h2 _ [xa ->].
    apply (sim_bind _ _ _ _ _ (fun _ h => h = [])); [by apply sim_lift|]. intros cg s3 h3 _ ->.
    apply sim_report; [unfold CONTRACTION; lia|]. intros xc. apply sim_report; [unfold COARSENING; lia|]. intros xo.
    apply (sim_bind _ _ _ _ _ (fun _ h => exists n, tally n 1 h)); [apply IH|]. intros cp s4 h4 _ [n Hn].
    apply (sim_bind _ _ _ _ _ (fun _ h => h = [])); [by apply sim_lift|]. intros fp s5 h5 _ ->. apply sim_report; [unfold PROJECTION; lia|]. intros xp.
    eapply sim_eq; [apply bind_ret|]. apply (sim_bind _ _ _ _ _ (fun _ h => exists x, h = [(REFINEMENT, x)])); [by apply sim_timed; unfold REFINEMENT; lia|].
    intros r s6 h6 _ [xr ->]. apply sim_report; [unfold UNCOARSENING; lia|]. intros xu. apply sim_ret. exists (S n). cbn [app].
    exact (tally_level n 1 xa xc xo xp xr xu h4 Hn).
Qed.
Lemma tml_execute_sim agg init ref t g s : sim (tml_execute agg init ref t g) (ml_execute agg init ref t g) s (fun _ h => exists n, tally n 1 h).
Proof.
  unfold tml_execute, ml_execute. apply (sim_bind _ _ _ _ _ (fun _ h => h = [])); [by apply sim_lift|]. intros stop s1 h1 _ ->.
  apply (sim_bind _ _ _ _ _ (fun _ h => h = [])); [by apply sim_lift|]. intros mw s2 h2 _ ->. cbn [app].
  apply (sim_bind _ _ _ _ _ (fun _ h => exists n, tally n 1 h)); [apply tml_recurse_sim|]. intros r s3 h3 _ Hn. apply sim_ret. by rewrite app_nil_r.
Qed.

(** ** The recursion over the parts *)
Lemma tfold_sim {A B} (tf : B -> A -> TM B) (f : B -> A -> M B) (Cond : Prop) (cnt : A -> nat) (l : list A) :
  (forall a b s, a ∈ l -> sim (tf b a) (f b a) s (fun _ h => exists n x, tally n x h /\ (Cond -> x = cnt a))) ->
  forall b s, sim (tfold tf b l) (mfold f b l) s (fun _ h => exists n x, tally n x h /\ (Cond -> x = list_sum (cnt <$> l))).
Proof.
  induction l as [|a l IH]; intros H b s; cbn [tfold mfold].
  - apply sim_ret. exists 0, 0. split; [apply tally_nil|done].
  - eapply sim_bind; [apply H; by left|]. intros b' s1 h1 _ (n1 & x1 & T1 & C1). eapply sim_post; [apply IH; intros; apply H; by right|].
    intros b2 h2 _ _ (n2 & x2 & T2 & C2). exists (n1 + n2), (x1 + x2). split; [by apply tally_app|]. intros HC. cbn. rewrite (C1 HC), (C2 HC). done.
Qed.
Section Rec.
  Context (lg : nat -> f64) (bis : bisector) (tb : target -> graph -> TM part).
  Context (Hsim : forall t g s, sim (tb t g) (bis t g) s (fun _ h => exists n, tally n 1 h)).
  Context (Hbis : forall t' tol bt g' cs p cs', bisect_target t' tol = Ok bt -> wf_graph g' -> bis bt g' cs = Ok (p, cs') -> two_labels g' p).
  Lemma halves_mapped N m p subs : mapped_ok N m -> two_labels (m_graph m) p ->
    sub_partitions (m_graph m) p (match m with MWrap _ => None | MSub s => Some (sg_super s) end) = Ok subs ->
    length subs = 2 /\ forall i s, rd subs i = Ok s -> mapped_ok N (MSub s).
  Proof.
    intros Hm [Hpw Hlab] Es. set (g := m_graph m) in *.
    set (names_opt := match m with MWrap _ => None | MSub s => Some (sg_super s) end) in *.
    destruct (sub_partitions_ok g (mo_wf _ _ Hm) 2 p Hpw Hlab names_opt) as (subs' & Es' & Lsubs & Hsubs).
    { intros l Hl. unfold names_opt in Hl. destruct m as [g0|s2]; [done|]. injection Hl as <-. apply (mo_len _ _ Hm). }
    rewrite Es in Es'. injection Es' as <-. split; [done|]. intros i s Hs. apply rd_inv in Hs.
    assert (Hi : i < 2) by (rewrite <- Lsubs; by eapply lookup_lt_Some).
    destruct (Hsubs i Hi) as (s' & Hs' & Hsup & Hin). rewrite Hs in Hs'. injection Hs' as <-.
    assert (Hname : forall v, v < nv g -> names m !! v = Some (name_of names_opt v)).
    { intros v Hv. unfold names_opt. destruct m as [g0|s2]; cbn.
      - by rewrite lookup_seq_lt.
      - apply lookup_nth. subst g. cbn in Hv. pose proof (mo_len _ _ Hm) as HL. cbn in HL. lia. }
    constructor; cbn.
    - apply (in_wf _ _ _ _ Hin).
    - rewrite Hsup, fmap_length. symmetry. apply (in_nv _ _ _ _ Hin).
    - rewrite Hsup. apply NoDup_fmap_2_strong; [|apply members_nodup].
      intros u v Hu Hv E0. apply members_elem in Hu as [Hu _]. apply members_elem in Hv as [Hv _].
      eapply NoDup_lookup; [apply (mo_nodup _ _ Hm)|by apply Hname|]. rewrite E0. by apply Hname.
    - apply Forall_forall. intros x Hx. rewrite Hsup in Hx. apply elem_of_list_fmap in Hx as (v & -> & Hv). apply members_elem in Hv as [Hv _].
      pose proof (mo_range _ _ Hm) as HF. rewrite Forall_forall in HF. apply HF. eapply elem_of_list_lookup_2. by apply Hname.
  Qed.
  Lemma trb_recurse_sim N fuel : forall t m off labels s,
    sim (trb_recurse lg tb fuel t m off labels) (rb_recurse lg bis fuel t m off labels) s
      (fun _ h => exists n b, tally n b h /\ (mapped_ok N m -> 2 <= t_np t -> b = t_np t - 1)).
  Proof.
    induction fuel as [|fuel IH]; intros t m off labels s; cbn [trb_recurse rb_recurse]; [by apply sim_lift|]. cbv zeta.
    apply (sim_bind _ _ _ _ _ (fun _ h => h = [])); [by apply sim_lift|]. intros bt s1 h1 E1 ->. apply lift_inv in E1 as [Ebt ->].
    eapply sim_bind; [apply Hsim|]. intros p s2 h2 Ep [n0 T0]. cbn [app].
    apply (sim_bind _ _ _ _ _ (fun _ h => h = [])); [by apply sim_lift|]. intros ls s3 h3 _ ->. destruct (Nat.ltb_spec 2 (t_np t)) as [Hk|Hk].
    - apply (sim_bind _ _ _ _ _ (fun _ h => h = [])); [by apply sim_lift|]. intros subs s4 h4 E4 ->. apply lift_inv in E4 as [Es ->].
      rewrite half_sizes_eq. set (k := t_np t) in *.
      set (C := mapped_ok N m). set (cnt := fun i : nat => (if Nat.eqb i 0 then k / 2 else k - k / 2) - 1).
      eapply sim_post; [apply (tfold_sim _ _ C cnt)|].
      + intros i ls' s' Hi. cbv zeta. set (num := if Nat.eqb i 0 then k / 2 else k - k / 2).
        destruct (Nat.ltb_spec 1 num) as [Hn|Hn].
        * apply (sim_bind _ _ _ _ _ (fun _ h => h = [])); [by apply sim_lift|]. intros t' s5 h5 E5 ->. apply lift_inv in E5 as [Et ->].
          apply (sim_bind _ _ _ _ _ (fun _ h => h = [])); [by apply sim_lift|]. intros sg s6 h6 E6 ->. apply lift_inv in E6 as [Esg ->]. cbn [app].
          eapply sim_post; [apply IH|]. intros ls2 h7 s7 _ (n & b & T & HC). exists n, b. split; [done|]. intros Hm. unfold C in Hm.
          pose proof (Hbis _ _ _ _ _ _ _ Ebt (mo_wf _ _ Hm) Ep) as HT. destruct (halves_mapped N m p subs Hm HT Es) as [_ Hs].
          pose proof (sub_target_len _ _ _ _ Et) as Hnp. unfold cnt. fold num. rewrite <- Hnp. apply HC; [by eapply Hs|lia].
        * apply sim_ret. exists 0, 0. split; [apply tally_nil|]. intros _. unfold cnt. fold num. lia.
      + intros ls2 h7 s7 _ (n & b & T & HC). exists (n0 + n), (1 + b). split; [apply tally_app; done|]. intros Hm _.
        pose proof (Hbis _ _ _ _ _ _ _ Ebt (mo_wf _ _ Hm) Ep) as HT. destruct (halves_mapped N m p subs Hm HT Es) as [HL _].
        rewrite (HC Hm), HL. change (seq 0 2) with [0; 1]. unfold cnt. cbn [fmap list_fmap list_sum foldr Nat.eqb].
        destruct (half_bounds k Hk) as (Hh1 & Hh2 & Hh3 & Hh4). lia.
    - apply sim_ret. exists n0, 1. split; [by rewrite app_nil_r|]. intros _ H2. lia.
  Qed.
End Rec.
