(** * SafeApi: which failures are possible on EVERY valid CSR graph. *)
From Coq Require Import ZArith Reals Floats.SpecFloat Psatz.
From Verif Require Import Base F64 ModelGraph ModelBuilders ModelPartition ModelConn ModelFM ModelAgg ModelMultilevel ModelBisect ModelRecursive ModelApi
  Spec Logic Sums GraphFacts FloatFacts FloatUse BisectFacts MultilevelFacts SubFacts RecFacts LabelFacts TargetFacts PropsTarget ApiFacts.
From Verif Require Import SafeFM SafeML.
Local Open Scope nat_scope.
Local Close Scope R_scope.

Section Api.
  Context (E : failure -> Prop) (HE1 : E (UB SignedOverflow)) (HE2 : E (UB EmptyRange)) (HE3 : E (UB NoWeights)).
  Record safe_inv (t : target) (g : graph) : Prop := {
    si_wf : wf_graph g;
    si_loops : loopless g \/ E (UB Uninit);
    si_ne : (Z.of_nat (ne g) < W32)%Z;
    si_nv : (Z.of_nat (nv g) < W32)%Z;
    si_sane : sane t;
    si_low : (total (take (t_np t / 2) (t_max t)) < W32)%Z;
    si_high : (total (drop (t_np t / 2) (t_max t)) < W32)%Z
  }.
  Lemma safe_handed lg scheme bis : log2_spec lg -> api_bisector scheme = Ok bis -> handed_down lg bis E safe_inv.
  Proof.
    intros Hlg Hb. split.
    - intros t g HI Hk. pose proof HI as [Hwf Hlo2 Hne Hnv Hs Hlo Hhi].
      destruct (C11_succeeds lg t Hlg Hk Hs Hlo Hhi) as [bt Ebt]. rewrite Ebt. cbn.
      pose proof (bisect_target_two _ _ _ Ebt) as Htw.
      destruct (decide (nv g = 0)) as [H0|H0].
      + eapply wpm_mono; [by eapply api_bisector_empty; [exact Hb|apply Hwf|]| |done]. intros f ->. done.
      + unfold api_bisector in Hb. destruct (aggregator_make scheme) as [agg|] eqn:Ea; [|done]. cbn in Hb. injection Hb as <-.
        eapply ml_execute_safe; try done; try lia.
        constructor; try done; try lia. intros f (-> & _). done.
    - intros t g p i sg HI Hk Hp Hi Hin Hc _. pose proof HI as [Hwf Hlo2 Hne Hnv Hs Hlo Hhi]. pose proof (half_le (t_np t)).
      pose proof Hs as [HL HS]. pose proof (sane_max_nonneg t Hs) as Hnn.
      assert (Hwf' : wf_graph sg) by (by eapply in_wf).
      assert (Hlo' : loopless sg \/ E (UB Uninit)) by (destruct Hlo2 as [Hlo2|Hlo2]; [left; by eapply induced_loopless|by right]).
      assert (Hne' : (Z.of_nat (ne sg) < W32)%Z) by (pose proof (induced_ne g Hwf _ _ _ Hin); lia).
      assert (Hnv' : (Z.of_nat (nv sg) < W32)%Z) by (pose proof (induced_nv g _ _ _ Hin); lia).
      unfold sub_target. destruct (_ || _) eqn:Eo.
      { exfalso. apply orb_true_iff in Eo as [Eo|Eo]; apply Nat.ltb_lt in Eo; unfold t_np in *; destruct i; lia. }
      cbn. split; try done; cbn [t_wgt t_max target_of_weights].
      + split; cbn [t_wgt t_max target_of_weights]; [rewrite !take_length, !drop_length; lia|].
        intros j w m H1 H2. apply lookup_take_Some in H1 as [H1 _], H2 as [H2 _]. rewrite lookup_drop in H1, H2. by eapply HS.
      + set (l := take _ (drop _ (t_max t))). set (h := (t_np _ / 2)).
        assert (total (take h l) <= total l)%Z.
        { rewrite (total_split h l). assert (0 <= total (drop h l))%Z; [|lia]. apply total_nonneg. apply Forall_drop. by apply Forall_take, Forall_drop. }
        enough (total l < W32)%Z by lia. unfold l. destruct i as [|[|i]]; [by rewrite drop_0| |lia].
        rewrite take_ge by (rewrite drop_length; unfold t_np in *; lia). done.
      + set (l := take _ (drop _ (t_max t))). set (h := (t_np _ / 2)).
        assert (total (drop h l) <= total l)%Z.
        { rewrite (total_split h l). assert (0 <= total (take h l))%Z; [|lia]. apply total_nonneg. apply Forall_take. by apply Forall_take, Forall_drop. }
        enough (total l < W32)%Z by lia. unfold l. destruct i as [|[|i]]; [by rewrite drop_0| |lia].
        rewrite take_ge by (rewrite drop_length; unfold t_np in *; lia). done.
  Qed.
End Api.
