(** C87 (feature axis in equalization). *)
From Verif Require Import BatchNorm BatchNormProps Equalize EqualizeProofs EqualizeProps EqLayout EqLayoutProps EqAxis.
From Coq Require Import Reals List Bool Arith Lra Lia FunctionalExtensionality.
Import ListNotations.
Open Scope R_scope.

(** Elementwise operators through which a positive factor passes. *)
Definition homogeneous (act : R -> R) : Prop := forall r x, 0 < r -> act (x * r) = act x * r.
Definition linear_layer (l : alayer) : Prop := match lay l with LNorm _ _ _ _ => False | _ => True end.
Definition along (a : axis) (s : nat -> R) (x : value) : value :=
  fun r c => x r c * / s (match a with First => r | Last => c end).

Lemma fwd_axis_src a s m x : (forall c, 0 < s c) -> fwd_axis a (scale_src s m) x = along a s (fwd_axis a m x).
Proof.
  intros Hs. destruct a; cbn [fwd_axis]; rewrite fwd_src by exact Hs; reflexivity.
Qed.
Lemma fwd_axis_sink a s m x : (forall c, 0 < s c) -> is_norm m = false -> fwd_axis a (scale_sink s m) (along a s x) = fwd_axis a m x.
Proof.
  intros Hs N. destruct a; cbn [fwd_axis]; [apply (fwd_sink s m x Hs N)|]. f_equal. apply (fwd_sink s m (swap x) Hs N).
Qed.
Lemma fwd_axis_same a m m' x : same m m' -> fwd_axis a m x = fwd_axis a m' x.
Proof. intros H. destruct a; cbn [fwd_axis]; rewrite (same_fwd _ _ _ H); reflexivity. Qed.

Lemma data_axis_source s l l' na : update_source s l = Some l' -> data_axis (A l' na) = data_axis (A l na).
Proof.
  destruct l as [t n_in n_out K tap w b|n h w b]; cbn [update_source].
  - destruct b; [destruct (_ =? _)%nat; [|discriminate]|]; intros E; injection E as <-; reflexivity.
  - intros E. injection E as <-. reflexivity.
Qed.
Lemma data_axis_sink ax s l na : data_axis (A (update_sink ax s l) na) = data_axis (A l na).
Proof. destruct l; reflexivity. Qed.

(** Scaling a good pair along one common axis preserves the function. *)
Lemma pair_preserved src sink act s ax l x : wf_layer (lay src) -> good_source (lay src) -> wf_layer (lay sink) -> good_sink (lay sink) ->
  linear_layer sink -> homogeneous act -> data_axis src = data_axis sink -> (forall c, 0 < s c) ->
  input_axis (lay sink) = Some ax -> update_source s (lay src) = Some l ->
  net (A l (norm_axis src)) act (A (update_sink ax s (lay sink)) (norm_axis sink)) x = net src act sink x.
Proof.
  intros W1 G1 W2 G2 N Ha Ea Hs Hax Eu.
  assert (Nn : is_norm (to_mod (lay sink)) = false) by (unfold linear_layer in N; destruct (lay sink); [reflexivity|contradiction]).
  destruct (source_same (lay src) s W1 G1) as (l' & E' & Sm). rewrite Eu in E'. injection E' as <-.
  unfold net, afwd. rewrite data_axis_sink, (data_axis_source s (lay src) l _ Eu). cbn [lay].
  replace (data_axis (A (lay src) (norm_axis src))) with (data_axis src) by (destruct src; reflexivity).
  replace (data_axis (A (lay sink) (norm_axis sink))) with (data_axis src) by (rewrite Ea; destruct sink; reflexivity).
  rewrite <- Ea. rewrite (fwd_axis_same (data_axis src) _ _ _ (sink_same (lay sink) ax s W2 G2 Hax Nn)).
  rewrite (fwd_axis_same (data_axis src) _ _ x Sm).
  rewrite fwd_axis_src by exact Hs.
  rewrite <- (fwd_axis_sink (data_axis src) s (to_mod (lay sink)) (fun r c => act (fwd_axis (data_axis src) (to_mod (lay src)) x r c)) Hs Nn).
  f_equal. apply functional_extensionality. intros r. apply functional_extensionality. intros c. unfold along.
  apply Ha. apply Rinv_0_lt_compat, Hs.
Qed.

(** ** Weight equalization: correct when source and sink share their feature axis *)
Theorem C87_same_axis : forall alpha src sink act x,
  wf_layer (lay src) -> good_source (lay src) -> wf_layer (lay sink) -> good_sink (lay sink) -> linear_layer sink ->
  homogeneous act -> data_axis src = data_axis sink ->
  exists src' sink', equalize_pair alpha src sink = Some (src', sink') /\ net src' act sink' x = net src act sink x.
Proof.
  intros alpha src sink act x W1 G1 W2 G2 N Ha Ea. unfold equalize_pair, cross_layer. cbn [pair_region srcs sinks].
  assert (Id : forall l, A (lay l) (norm_axis l) = l) by (intros []; reflexivity).
  destruct (negb _); [do 2 eexists; split; [reflexivity|]; cbn [two Nat.eqb]; rewrite !Id; reflexivity|].
  cbn [existsb two Nat.eqb]. destruct (input_axis (lay sink)) as [ax|] eqn:Hax;
    [|do 2 eexists; split; [reflexivity|]; cbn [two Nat.eqb]; rewrite !Id; reflexivity].
  cbn [orb forallb]. set (s := layout_factors alpha (two src sink) pair_region).
  assert (Hs : forall c, 0 < s c) by (intros c; apply C37_factor_positive). change (two src sink 0%nat) with (lay src). clearbody s.
  destruct (source_same (lay src) s W1 G1) as (l & El & _). rewrite El. cbn [andb].
  do 2 eexists. split; [reflexivity|].
  cbn [mem existsb srcs sinks orb Nat.eqb two]. rewrite El. unfold some_axis. rewrite Hax.
  apply (pair_preserved src sink act s ax l x); assumption.
Qed.

(** ** A linear layer followed by a convolution over the other axis, with equal sizes: accepted,
    and the function changes. *)
Definition lin_src : alayer := A (LLin TLinear 1 2 1 idtap (fun o _ _ => if (o =? 0)%nat then 4 else 1) None) Last.
Definition conv_sink : alayer := A (LLin (TConv 1) 2 1 1 idtap (fun _ _ _ => 1) None) First.
Definition norm_src : alayer := A (LNorm 2 (fun x => x) (fun c => if (c =? 0)%nat then 4 else 1) (fun _ => 0)) Last.

Lemma lin_conv_factors : layout_factors (/ 2) (two lin_src conv_sink) pair_region 0 = 2
  /\ layout_factors (/ 2) (two lin_src conv_sink) pair_region 1 = 1.
Proof.
  split; unfold layout_factors, range_over; cbn [filter srcs sinks pair_region Nat.ltb Nat.leb]; unfold source_size, sink_size, two, lin_src, conv_sink;
    cbn [lay Nat.eqb output_axis input_axis wsize Nat.ltb Nat.leb Nat.div Nat.divmod fst filter map some_axis Nat.sub]; unfold axis_range;
    cbn [wsize Nat.ltb Nat.leb other_size n_taps entry seq flat_map map app negb Nat.div Nat.divmod fst Nat.eqb];
    rewrite ?(Rabs_pos_eq 4), ?(Rabs_pos_eq 1) by lra.
  - transitivity (scaling_factor (/ 2) 4 1); [f_equal; rmx; reflexivity|exact factor_4_1].
  - transitivity (scaling_factor (/ 2) 1 1); [f_equal; rmx; reflexivity|exact factor_1_1].
Qed.
Definition lin_fac : nat -> R := layout_factors (/ 2) (two lin_src conv_sink) pair_region.
Definition lin_src' : alayer := A (LLin TLinear 1 2 1 idtap (scale_axis false (fun c => / lin_fac c) (fun o _ _ => if (o =? 0)%nat then 4 else 1)) None) Last.
Definition conv_sink' (s : nat -> R) : alayer := A (LLin (TConv 1) 2 1 1 idtap (scale_axis true s (fun _ _ _ => 1)) None) First.
Theorem C87_other_axis_refuted : exists src sink x src' sink',
  wf_layer (lay src) /\ good_source (lay src) /\ wf_layer (lay sink) /\ good_sink (lay sink) /\ linear_layer src /\ linear_layer sink
  /\ equalize_pair (/ 2) src sink = Some (src', sink')
  /\ net src' (fun y => y) sink' x 0%nat 0%nat <> net src (fun y => y) sink x 0%nat 0%nat.
Proof.
  exists lin_src, conv_sink, (fun _ _ => 1), lin_src', (conv_sink' lin_fac).
  split; [exact I|]. split; [exact I|]. split; [exists 2%nat, 1%nat; lia|]. split; [left; reflexivity|]. split; [exact I|]. split; [exact I|].
  destruct lin_conv_factors as (F0 & F1).
  split; [unfold equalize_pair, cross_layer; reflexivity|].
  change (lin_fac 0 = 2) in F0. change (lin_fac 1 = 1) in F1. unfold lin_src'. revert F0 F1. generalize lin_fac. intros s F0 F1.
  unfold net, afwd. cbn [lay norm_axis data_axis lin_src conv_sink conv_sink' fwd_axis to_mod].
  unfold swap. cbn [fwd Nat.ltb Nat.leb dense bias_of map seq Rsum read idtap Nat.eqb Nat.div Nat.divmod Nat.modulo fst snd Nat.sub output_axis].
  unfold scale_axis. cbn [Nat.eqb]. rewrite F0, F1. apply Rlt_not_eq. lra.
Qed.

(** ** Activation equalization checks the axis, and preserves the function of two linear layers *)
Lemma act_check_agree src sink a : act_axis_check [src] [sink] = Some a -> linear_layer src -> linear_layer sink -> data_axis src = data_axis sink.
Proof.
  destruct src as [[[|g|g] ? ? ? ? ? ?|] na], sink as [[[|g'|g'] ? ? ? ? ? ?|] na']; cbn; intros H N1 N2;
    try contradiction; try discriminate; reflexivity.
Qed.
Theorem C87_activation_check : forall alpha rng src sink act x,
  wf_layer (lay src) -> good_source (lay src) -> wf_layer (lay sink) -> good_sink (lay sink) -> linear_layer src -> linear_layer sink ->
  homogeneous act ->
  exists src' sink', act_equalize_pair alpha rng src sink = Some (src', sink') /\ net src' act sink' x = net src act sink x.
Proof.
  intros alpha rng src sink act x W1 G1 W2 G2 N1 N2 Ha. unfold act_equalize_pair.
  destruct (act_axis_check [src] [sink]) as [a|] eqn:E; [|do 2 eexists; split; reflexivity].
  pose proof (act_check_agree src sink a E N1 N2) as Ea.
  destruct (negb _); [do 2 eexists; split; reflexivity|].
  destruct (input_axis (lay sink)) as [ax|] eqn:Hax; [|do 2 eexists; split; reflexivity].
  set (s := fun c => scaling_factor alpha (rng c) (axis_range (lay sink) ax c)).
  assert (Hs : forall c, 0 < s c) by (intros c; apply C37_factor_positive). clearbody s.
  destruct (source_same (lay src) s W1 G1) as (l & El & _). rewrite El.
  do 2 eexists. split; [reflexivity|]. apply (pair_preserved src sink act s ax l x); assumption.
Qed.
(** A norm has no axis for the check: a layer norm before such a convolution is scaled wrongly. *)
Definition norm_fac : nat -> R := fun c => scaling_factor (/ 2) (if (c =? 0)%nat then 4 else 1) (axis_range (lay conv_sink) true c).
Definition norm_src' : alayer := A (LNorm 2 (fun x => x) (fun c => (if (c =? 0)%nat then 4 else 1) * / norm_fac c) (fun c => 0 * / norm_fac c)) Last.
Theorem C87_norm_axis_refuted : exists src sink rng x src' sink',
  wf_layer (lay src) /\ good_source (lay src) /\ wf_layer (lay sink) /\ good_sink (lay sink) /\ linear_layer sink
  /\ act_equalize_pair (/ 2) rng src sink = Some (src', sink')
  /\ net src' (fun y => y) sink' x 0%nat 0%nat <> net src (fun y => y) sink x 0%nat 0%nat.
Proof.
  exists norm_src, conv_sink, (fun c => if (c =? 0)%nat then 4 else 1), (fun _ _ => 1), norm_src', (conv_sink' norm_fac).
  split; [exact I|]. split; [exact I|]. split; [exists 2%nat, 1%nat; lia|]. split; [left; reflexivity|]. split; [exact I|].
  split; [unfold act_equalize_pair; reflexivity|].
  assert (F0 : norm_fac 0%nat = 2).
  { unfold norm_fac, axis_range, conv_sink. cbn [lay wsize Nat.ltb Nat.leb other_size n_taps entry seq flat_map map app negb Nat.eqb]. rewrite Rabs_pos_eq by lra.
    transitivity (scaling_factor (/ 2) 4 1); [f_equal; rmx; reflexivity|exact factor_4_1]. }
  assert (F1 : norm_fac 1%nat = 1).
  { unfold norm_fac, axis_range, conv_sink. cbn [lay wsize Nat.ltb Nat.leb other_size n_taps entry seq flat_map map app negb Nat.eqb]. rewrite Rabs_pos_eq by lra.
    transitivity (scaling_factor (/ 2) 1 1); [f_equal; rmx; reflexivity|exact factor_1_1]. }
  unfold norm_src'. revert F0 F1. generalize norm_fac. intros s F0 F1.
  unfold net, afwd. cbn [lay norm_axis data_axis norm_src conv_sink conv_sink' fwd_axis to_mod].
  unfold swap. cbn [fwd Nat.ltb Nat.leb dense bias_of map seq Rsum read idtap Nat.eqb Nat.div Nat.divmod Nat.modulo fst snd Nat.sub].
  unfold scale_axis. cbn [Nat.eqb]. rewrite F0, F1. apply Rlt_not_eq. lra.
Qed.

Example C87_example : wf_layer (lay lin_src) /\ good_source (lay lin_src) /\ linear_layer lin_src /\ data_axis lin_src = data_axis norm_src
  /\ homogeneous (fun y => Rmax 0 y) /\ act_axis_check [norm_src] [lin_src] = Some Last /\ act_axis_check [lin_src] [conv_sink] = None.
Proof.
  split; [exact I|]. split; [exact I|]. split; [exact I|]. split; [reflexivity|]. split; [|split; reflexivity].
  intros r x Hr. rewrite <- (Rmult_0_l r) at 1. apply Rmax_scale. exact Hr.
Qed.

Print Assumptions C87_same_axis.
Print Assumptions C87_other_axis_refuted.
Print Assumptions C87_activation_check.
Print Assumptions C87_norm_axis_refuted.
