(** * PropsMore: sharper forms of C13 (subgraphs listed under given names) and C38 (which ratios
    the edge-ratio criterion accepts). *)
From Coq Require Import ZArith Reals Floats.SpecFloat Psatz.
From Verif Require Import Base F64 ModelGraph ModelBuilders ModelPartition ModelConn ModelFM ModelAgg ModelMultilevel ModelBisect ModelRecursive Spec Logic Sums
  GraphFacts PartFacts FloatFacts FloatUse EvenFacts MultilevelFacts Examples TwoStepFacts SubFacts PropsMultilevel PropsRecursive.

(** ** C38: a finite ratio is accepted, unchanged, exactly if it lies strictly between 0 and 1;
    every other finite ratio is rejected with a runtime error, and so are the infinities. *)
Theorem C38_ratio_exact : forall r x, isR r x ->
  ((0 < x < 1)%R -> edge_ratio_make r = Ok r) /\ (~ (0 < x < 1)%R -> edge_ratio_make r = Fail (Throw RuntimeError)).
Proof.
  intros r x H. unfold edge_ratio_make. change (fge r f_one) with (fle (f_of_Z 1) r).
  rewrite (fle_R _ _ _ _ H f_zero_R), (fle_R _ _ _ _ (f_of_Z_R 1 ltac:(lia)) H).
  destruct (Raux.Rle_bool_spec x 0), (Raux.Rle_bool_spec 1 x); cbn [orb]; split; intros D; try done; exfalso; try lra; apply D; lra.
Qed.
Print Assumptions C38_ratio_exact.
Theorem C38_ratio_infinite : forall s, edge_ratio_make (S754_infinity s) = Fail (Throw RuntimeError).
Proof. intros [|]; vm_compute; reflexivity. Qed.
Print Assumptions C38_ratio_infinite.
(** What is not a number passes the check: neither comparison of the constructor holds of it. The
    criterion then never stops on the ratio. *)
Theorem C38_ratio_nan_refuted : edge_ratio_make S754_nan = Ok S754_nan /\
  forall lvl fine coarse, ne coarse <> 0 -> ne fine <> 0 -> edge_ratio_stop S754_nan lvl (Some fine) (Some coarse) = Ok false.
Proof.
  split; [vm_compute; reflexivity|]. intros lvl fine coarse H1 H2.
  destruct (C38_edge_ratio S754_nan lvl fine coarse) as (_ & -> & _). rewrite bool_decide_false by tauto. done.
Qed.
Print Assumptions C38_ratio_nan_refuted.
Example C38_ratio_nonvacuous : isR f_zero 0 /\ isR f_one 1 /\ edge_ratio_make f_0_95 = Ok f_0_95 /\
  edge_ratio_make f_zero = Fail (Throw RuntimeError) /\ edge_ratio_make f_one = Fail (Throw RuntimeError).
Proof. split; [apply f_zero_R|]. split; [apply (f_of_Z_R 1); lia|]. repeat split; vm_compute; reflexivity. Qed.

(** ** C13, whatever names the vertices are listed under: vertex j of subgraph i stands for the
    j-th vertex labelled i, its edges are that vertex's edges to vertices labelled i, in order
    and with their weights, and so is its own weight. *)
Theorem C13_induced_named : forall g k p names subs i s, wf_graph g -> length (p_pw p) = k -> labels_ok k (nv g) (p_where p) ->
  (forall l, names = Some l -> length l = nv g) -> sub_partitions g p names = Ok subs -> subs !! i = Some s ->
  nv (sg_graph s) = length (vertices_in g p i) /\
  (forall j v, vertices_in g p i !! j = Some v ->
     sg_super s !! j = Some (named names v) /\
     (fun a => (nth (fst a) (vertices_in g p i) 0, snd a)) <$> out (sg_graph s) j = filter (fun a => lab p (fst a) = Some i) (out g v) /\
     vweight (sg_graph s) j = vweight g v) /\
  (forall j j' v v', vertices_in g p i !! j = Some v -> vertices_in g p i !! j' = Some v' -> W (sg_graph s) j j' = W g v v').
Proof.
  intros g k p names subs i s Hwf Hpw Hlab Hn E Hs.
  destruct (sub_partitions_ok g Hwf k p Hpw Hlab names Hn) as (subs' & E' & HL & HS). rewrite E in E'. injection E' as <-.
  destruct (HS i) as (s' & Hs' & Hsup & Hin); [rewrite <- HL; by eapply lookup_lt_Some|]. rewrite Hs in Hs'. injection Hs' as <-.
  split; [apply Hin|]. split.
  - intros j v Hj. split; [rewrite Hsup, list_lookup_fmap|].
    + transitivity (named names <$> (vertices_in g p i !! j)); [done|]. by rewrite Hj.
    + split; [by apply (in_out _ _ _ _ Hin)|by apply (in_vw _ _ _ _ Hin)].
  - intros j j' v v' Hj Hj'. by eapply induced_W.
Qed.
Print Assumptions C13_induced_named.
Example C13_named_nonvacuous : exists s0 s1, sub_partitions (ring 24) ex13_p (Some (seq 100 24)) = Ok [s0; s1] /\
  sg_super s1 = [102; 105; 108; 111; 114; 117; 120; 123] /\ ne (sg_graph s0) = 16.
Proof. eexists _, _. split; [vm_compute; reflexivity|]. repeat split; vm_compute; reflexivity. Qed.
