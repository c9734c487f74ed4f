(** * PropsDefault: the default options are usable (C05, positive part). *)
From Verif Require Import Base F64 ModelGraph ModelPartition ModelApi ModelUtil ModelTimed Spec Logic GraphFacts MultilevelFacts TargetFacts ApiFacts PropsApi PropsTimed PropsMultilevel Examples.

(** With the options POROS_defaultOptions returns, a call for two parts on a non-empty undirected
    graph with vertex weights succeeds, writes every label and the exact cut, and prints nothing,
    whatever the random choices and the clock. *)
Theorem C05_defaults_work : forall lg n prefix adj vw ew s readings g, log2_spec lg -> valid_csr n prefix adj (Some vw) ew -> 0 < n ->
  graph_of_csr prefix adj (Some vw) ew = Ok g -> undirected g -> (Z.of_nat n < 2 ^ 32)%Z -> (Z.of_nat (length adj) < 2 ^ 32)%Z ->
  exists cut labels s', timed_call lg prefix adj (Some vw) ew 2 (Some default_options) readings s = Ok ((mkResult 1 (Some cut) (Some labels), None), s') /\
    length labels = n /\ (forall v, v < n -> labels !! v = Some (Some 0) \/ labels !! v = Some (Some 1)) /\
    cut = edge_cut g (fun v => nth v labels None).
Proof.
  intros lg n prefix adj vw ew s rs g Hlg HC Hn0 Eg Hud Hn Hne.
  destruct (C03_two_parts lg n prefix adj vw ew default_options s g Hlg HC Hn0 Eg Hud Hn Hne ltac:(by right)) as (r & s' & E & Hr).
  destruct (C01_labels_in_range lg n prefix adj (Some vw) ew 2 default_options s r s' HC ltac:(lia) ltac:(done) E) as (_ & labels & El & HL & HA).
  destruct (C02_cut_exact lg n prefix adj (Some vw) ew 2 default_options s r s' g HC ltac:(lia) ltac:(done) Eg (ud_sym _ Hud) (ud_fits _ Hud) E) as (_ & cut & labels' & Ec & El' & Hc).
  rewrite El in El'. injection El' as <-.
  pose proof (C63_timing_transparent lg prefix adj (Some vw) ew 2 (Some default_options) rs s) as HT. rewrite E in HT.
  destruct (timed_call lg prefix adj (Some vw) ew 2 (Some default_options) rs s) as [[[r' pr] s1]|f] eqn:ET; [|done]. cbn [obind fst snd] in HT. injection HT as -> ->.
  pose proof (C63_times_printed lg n prefix adj (Some vw) ew 2 default_options rs s r pr s' HC ltac:(lia) ET) as HP.
  destruct r as [r1 r2 r3]. cbn [r_ret r_cut r_labels] in *. subst r1 r2 r3.
  exists cut, labels, s'. split; [|split; [done|split; [|done]]].
  - cbn in HP. by rewrite HP.
  - intros v Hv. destruct (HA v Hv) as (l & Hl & ->). destruct l as [|[|]]; [by left|by right|lia].
Qed.
Print Assumptions C05_defaults_work.
Example C05_nonvacuous : valid_csr 24 (ring_prefix 24) (ring_adj 24) (Some (replicate 24 2%Z)) None /\
  exists g, graph_of_csr (ring_prefix 24) (ring_adj 24) (Some (replicate 24 2%Z)) None = Ok g /\ undirected g.
Proof. split; [apply C03_nonvacuous|exact ring24_ud]. Qed.
