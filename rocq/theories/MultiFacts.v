(** * MultiFacts: best of several bisections (C35); relative loads as integers (C34). *)
From Coq Require Import ZArith Reals Floats.SpecFloat Psatz.
From Flocq Require Import Core.Core IEEE754.BinarySingleNaN.
From Verif Require Import Base F64 ModelGraph ModelPartition ModelFM ModelMultilevel ModelBisect Spec Logic Sums GraphFacts PartFacts
  FloatOrder FMFacts MiscFacts FloatFacts FloatUse BisectFacts.
#[local] Arguments flt : simpl never.
#[local] Arguments fle : simpl never.

Lemma load_lt a b m0 m1 : (0 <= a < W32)%Z -> (0 <= b < W32)%Z -> (0 < m0 < W32)%Z -> (0 < m1 < W32)%Z ->
  flt (load a m0) (load b m1) = true -> (a * m1 < b * m0)%Z.
Proof.
  intros Ha Hb Hm0 Hm1 H. assert (Hm0' : (0 <= m0 < W32)%Z) by lia. assert (Hm1' : (0 <= m1 < W32)%Z) by lia.
  pose proof (f_of_Z_R _ (W32_lt_53 _ Ha)) as Ra. pose proof (f_of_Z_R _ (W32_lt_53 _ Hb)) as Rb.
  pose proof (f_of_Z_R _ (W32_lt_53 _ Hm0')) as R0. pose proof (f_of_Z_R _ (W32_lt_53 _ Hm1')) as R1.
  pose proof (IZR_W32 _ Ha). pose proof (IZR_W32 _ Hb). pose proof (IZR_W32 _ Hm0'). pose proof (IZR_W32 _ Hm1'). rewrite W32_R in *.
  assert (1 <= IZR m0)%R by (apply (IZR_le 1); lia). assert (1 <= IZR m1)%R by (apply (IZR_le 1); lia).
  assert (HQ : forall x m, (0 <= IZR x <= 4294967296 - 1)%R -> (1 <= IZR m)%R -> (Rabs (IZR x / IZR m) <= IZR 4294967296)%R).
  { intros x m Hx Hm. assert (0 <= IZR x / IZR m)%R by (apply Rmult_le_pos; [lra|left; apply Rinv_0_lt_compat; lra]).
    rewrite Rabs_pos_eq by done. apply Rmult_le_reg_r with (IZR m); [lra|]. unfold Rdiv. rewrite Rmult_assoc, Rinv_l by lra. nra. }
  pose proof (div_R _ _ _ _ Ra R0 ltac:(lra) ltac:(apply (no_overflow _ 4294967296); [simpl; lia|apply HQ; lra])) as RA.
  pose proof (div_R _ _ _ _ Rb R1 ltac:(lra) ltac:(apply (no_overflow _ 4294967296); [simpl; lia|apply HQ; lra])) as RB.
  unfold load in H. rewrite (flt_R _ _ _ _ RA RB) in H. destruct (Z.lt_ge_cases (a * m1) (b * m0)) as [|Hge]; [done|exfalso].
  rewrite Rlt_bool_false in H; [done|]. apply rnd_le.
  apply IZR_le in Hge. rewrite !mult_IZR in Hge. apply Rmult_le_reg_r with (IZR m0 * IZR m1)%R; [nra|].
  unfold Rdiv. replace (IZR b * / IZR m1 * (IZR m0 * IZR m1))%R with (IZR b * IZR m0)%R by (field; lra).
  replace (IZR a * / IZR m0 * (IZR m0 * IZR m1))%R with (IZR a * IZR m1)%R by (field; lra). lra.
Qed.

Lemma mbind_ok {A B} (m : M A) (k : A -> M B) s a s' : m s = Ok (a, s') -> mbindM m k s = k a s'.
Proof. intros H. unfold mbindM. rewrite H. done. Qed.
Lemma lift_ok {A} (m : outcome A) a s : m = Ok a -> lift m s = Ok (a, s).
Proof. intros ->. done. Qed.
Lemma mbind_inv {A B} (m : M A) (k : A -> M B) s b s' : mbindM m k s = Ok (b, s') ->
  exists a s1, m s = Ok (a, s1) /\ k a s1 = Ok (b, s').
Proof. unfold mbindM. destruct (m s) as [[a s1]|]; [|done]. simpl. eauto. Qed.
Lemma lift_inv {A} (m : outcome A) s a s' : lift m s = Ok (a, s') -> m = Ok a /\ s' = s.
Proof. unfold lift. destruct m; [|done]. simpl. intros [= <- <-]. done. Qed.

(** ** C35 *)
(** The candidates: successive runs of the bisector on one random stream. *)
Inductive runs (bis : bisector) (t : target) (g : graph) : list nat -> list part -> list nat -> Prop :=
  | runs_nil s : runs bis t g s [] s
  | runs_cons s p s' ps s'' : bis t g s = Ok (p, s') -> runs bis t g s' ps s'' -> runs bis t g s (p :: ps) s''.
Record best_of (g : graph) (t : target) (ps : list part) (p : part) : Prop := {
  bo_in : p ∈ ps;
  bo_bal : (exists q, q ∈ ps /\ balanced t q) ->
    balanced t p /\ forall q, q ∈ ps -> balanced t q -> (p_cut p <= p_cut q)%Z;
  bo_unbal : ~ (exists q, q ∈ ps /\ balanced t q) ->
    exists b, calc_max_imbalance g t p = Ok b /\
      forall q b', q ∈ ps -> calc_max_imbalance g t q = Ok b' -> fle b b' = true
}.
(** Balanced candidates have strictly better balance than unbalanced ones. *)
Definition separated (g : graph) (t : target) (ps : list part) : Prop :=
  forall q q' b b', q ∈ ps -> q' ∈ ps -> balanced t q -> ~ balanced t q' ->
    calc_max_imbalance g t q = Ok b -> calc_max_imbalance g t q' = Ok b' -> flt b b' = true.

Section Multi.
  Context (g : graph) (t : target) (Hf : length (t_frac t) = 2) (Hm : length (t_max t) = 2).
  Record best_inv (ps : list part) (b : multi_best) : Prop := {
    bi_best : best_of g t ps (mb_part b);
    bi_cut : mb_cut b = p_cut (mb_part b);
    bi_imb : calc_max_imbalance g t (mb_part b) = Ok (mb_bal b);
    bi_found : mb_found b = true <-> exists q, q ∈ ps /\ balanced t q
  }.
  Lemma bal_case q : length (p_pw q) = 2 -> exists isb, is_balanced t q = Ok isb /\ (isb = true <-> balanced t q).
  Proof. intros Hq. destruct (is_balanced_ok t q ltac:(lia)) as (b & E & H). exists b. done. Qed.
  Lemma consider_first p b0 : length (p_pw p) = 2 -> mb_found b0 = false ->
    exists b, multi_consider t g 0 b0 p = Ok b /\ best_inv [p] b.
  Proof.
    intros Hp Hb0. unfold multi_consider. destruct (calc_max_imbalance_ok g t p ltac:(lia)) as [x Hx]. rewrite Hx. cbn [obind].
    destruct (bal_case p Hp) as (isb & -> & HB). cbn [obind]. unfold multi_accept. simpl. eexists. split; [reflexivity|].
    constructor; simpl; try done.
    - constructor; simpl.
      + set_solver.
      + intros (q & Hq & Hq'). apply elem_of_list_singleton in Hq as ->. split; [done|]. intros q Hq. apply elem_of_list_singleton in Hq as ->. lia.
      + intros _. exists x. split; [done|]. intros q b' Hq. apply elem_of_list_singleton in Hq as ->. rewrite Hx. intros [= <-].
        apply fle_refl. by apply (max_imbalance_spec _ _ _ _ Hx).
    - rewrite Hb0. simpl. rewrite HB. set_solver.
  Qed.
  Lemma consider_next ps p b n : length (p_pw p) = 2 -> best_inv ps b -> separated g t (ps ++ [p]) ->
    exists b', multi_consider t g (S n) b p = Ok b' /\ best_inv (ps ++ [p]) b'.
  Proof.
    intros Hp HI HS. unfold multi_consider. destruct (calc_max_imbalance_ok g t p ltac:(lia)) as [x Hx]. rewrite Hx. cbn [obind].
    destruct (bal_case p Hp) as (isb & -> & HB). cbn [obind]. unfold multi_accept. simpl.
    destruct HI as [[HIn HBal HUn] HC HM HF]. destruct (max_imbalance_spec _ _ _ _ Hx) as (_ & Nx & _).
    destruct (max_imbalance_spec _ _ _ _ HM) as (_ & Nb & _).
    assert (HIn' : mb_part b ∈ ps ++ [p]) by set_solver. assert (Hpin : p ∈ ps ++ [p]) by set_solver.
    destruct (mb_found b) eqn:Ef; simpl.
    - destruct (HBal (proj1 HF eq_refl)) as [Hbb Hmin]. destruct (isb && (p_cut p <? mb_cut b)%Z) eqn:Ea; eexists; (split; [reflexivity|]).
      + apply andb_true_iff in Ea as [-> Hlt]. rewrite HC in Hlt. constructor; simpl; try done.
        * constructor; simpl; [done| |].
          -- intros _. split; [by apply HB|]. intros q [Hq|Hq%elem_of_list_singleton]%elem_of_app Hqb; [|subst; lia]. specialize (Hmin q Hq Hqb). lia.
          -- intros Hno. exfalso. apply Hno. exists p. split; [done|by apply HB].
        * split; [|done]. intros _. exists p. split; [done|by apply HB].
      + constructor; simpl; try done.
        * constructor; simpl; [done| |].
          -- intros _. split; [done|]. intros q [Hq|Hq%elem_of_list_singleton]%elem_of_app Hqb; [by apply Hmin|]. subst q.
             apply andb_false_iff in Ea as [Ea|Ea]; [apply HB in Hqb; congruence|]. rewrite HC in Ea. lia.
          -- intros Hno. exfalso. apply Hno. eauto.
        * rewrite Ef. split; [|done]. intros _. eauto.
    - assert (Hnone : ~ exists q, q ∈ ps /\ balanced t q) by (intros Hq; apply HF in Hq; discriminate).
      destruct (HUn Hnone) as (bb & Hbb & Hmin). rewrite HM in Hbb. injection Hbb as <-.
      destruct (flt x (mb_bal b)) eqn:Ea; simpl; eexists; (split; [reflexivity|]).
      + constructor; simpl; try done.
        * constructor; simpl; [done| |].
          -- intros (q & [Hq|Hq%elem_of_list_singleton]%elem_of_app & Hqb); [exfalso; eauto|]. subst q. split; [done|].
             intros q [Hq|Hq%elem_of_list_singleton]%elem_of_app Hqb2; [exfalso; eauto|subst; lia].
          -- intros Hno. exists x. split; [done|]. intros q b' [Hq|Hq%elem_of_list_singleton]%elem_of_app Hqb.
             ++ apply flt_le. eapply flt_le_trans; [|exact Ea|by apply (Hmin q)].
                by apply (max_imbalance_spec _ _ _ _ Hqb).
             ++ subst q. rewrite Hx in Hqb. injection Hqb as <-. by apply fle_refl.
        * rewrite HB. split; [intros Hp'; exists p; done|]. intros (q & [Hq|Hq%elem_of_list_singleton]%elem_of_app & Hqb); [exfalso; eauto|by subst].
      + assert (Hpu : ~ balanced t p).
        { intros Hpb. assert (Hmu : ~ balanced t (mb_part b)) by (intros ?; apply Hnone; eauto).
          rewrite (HS p (mb_part b) x (mb_bal b) Hpin HIn' Hpb Hmu Hx HM) in Ea. done. }
        apply flt_nle in Ea; [|done|done].
        constructor; simpl; try done.
        * constructor; simpl; [done| |].
          -- intros (q & [Hq|Hq%elem_of_list_singleton]%elem_of_app & Hqb); [exfalso; eauto|by subst].
          -- intros _. exists (mb_bal b). split; [done|]. intros q b' [Hq|Hq%elem_of_list_singleton]%elem_of_app Hqb; [by apply (Hmin q)|].
             subst q. rewrite Hx in Hqb. injection Hqb as <-. done.
        * rewrite Ef. split; [done|]. intros (q & [Hq|Hq%elem_of_list_singleton]%elem_of_app & Hqb); [exfalso; eauto|by subst].
  Qed.

  Lemma fold_runs bis ps2 : forall n s s' ps b, runs bis t g s ps2 s' ->
    Forall (fun q => length (p_pw q) = 2) ps2 -> best_inv ps b -> separated g t (ps ++ ps2) ->
    exists b', mfold (fun best i => do! p := bis t g in lift (multi_consider t g i best p)) b (seq (S n) (length ps2)) s = Ok (b', s') /\
      best_inv (ps ++ ps2) b'.
  Proof.
    induction ps2 as [|p ps2 IH]; intros n s s' ps b HR HF HI HS; inversion HR; subst; cbn [length seq mfold].
    - exists b. rewrite app_nil_r. done.
    - apply Forall_cons in HF as [Hp HF].
      replace (ps ++ p :: ps2) with ((ps ++ [p]) ++ ps2) in HS |- * by (rewrite <- app_assoc; done).
      destruct (consider_next ps p b n Hp HI) as (b1 & E1 & HI1).
      { intros q q' x x' Hq Hq'. apply HS; set_solver. }
      destruct (IH (S n) s'0 s' (ps ++ [p]) b1) as (b2 & E2 & HI2); try done. exists b2. split; [|done].
      change (seq (S n) (S (length ps2))) with (S n :: seq (S (S n)) (length ps2)). cbn [mfold]. erewrite mbind_ok; [exact E2|]. erewrite mbind_ok by exact H2. apply lift_ok. exact E1.
  Qed.
  Lemma multi_runs bis ps s s' : runs bis t g s ps s' -> ps <> [] -> Forall (fun q => length (p_pw q) = 2) ps -> separated g t ps ->
    exists p, multi_execute (Z.of_nat (length ps)) bis t g s = Ok (p, s') /\ best_of g t ps p.
  Proof.
    intros HR Hn HF HS. destruct ps as [|p ps]; [done|]. inversion HR; subst. apply Forall_cons in HF as [Hp HF].
    destruct (consider_first p (mkBest (part_new 2 g) 0%Z f_zero false) Hp eq_refl) as (b & E & HI).
    destruct (fold_runs bis ps 0 s'0 s' [p] b H4 HF HI HS) as (b' & E' & HI').
    exists (mb_part b'). split; [|apply HI']. unfold multi_execute. rewrite Nat2Z.id. cbn [length]. change (seq 0 (S (length ps))) with (0 :: seq 1 (length ps)). cbn [mfold].
    erewrite mbind_ok; [reflexivity|]. erewrite mbind_ok; [exact E'|]. erewrite mbind_ok by exact H2. apply lift_ok. exact E.
  Qed.
End Multi.

(** A successful call made exactly that many successful runs. *)
Lemma multi_has_runs bis t g n s p s' : multi_execute n bis t g s = Ok (p, s') -> exists ps, length ps = Z.to_nat n /\ runs bis t g s ps s'.
Proof.
  unfold multi_execute. assert (G : forall k i b s b' s', mfold (fun best i => do! p := bis t g in lift (multi_consider t g i best p)) b (seq i k) s = Ok (b', s') ->
     exists ps, length ps = k /\ runs bis t g s ps s').
  { induction k as [|k IH]; intros i b s0 b' s1 E; [change (seq i 0) with (@nil nat) in E|change (seq i (S k)) with (i :: seq (S i) k) in E]; cbn [mfold] in E.
    - injection E as <- <-. exists []. split; [done|constructor].
    - apply mbind_inv in E as (b1 & s2 & E1 & E). apply mbind_inv in E1 as (q & s3 & E1 & E2). apply lift_inv in E2 as [_ ->].
      destruct (IH _ _ _ _ _ E) as (ps & HL & HR). exists (q :: ps). split; [simpl; lia|]. econstructor; eauto. }
  intros E. apply mbind_inv in E as (b & s2 & E1 & E). injection E as <- <-. eapply G. exact E1.
Qed.
