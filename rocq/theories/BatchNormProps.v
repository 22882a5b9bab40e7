(** C36 (batch-norm merging) and C42 (moving a batch norm before a concatenation). *)
From Verif Require Import BatchNorm.
From Coq Require Import Reals List Bool Arith Lra Lia.
Import ListNotations.
Open Scope R_scope.

(** Positive variance plus epsilon in every channel. *)
Definition bn_ok (b : bn) : Prop := forall c, 0 < bn_var b c + bn_eps b.

Lemma denom_pos b c : bn_ok b -> 0 < sqrt (bn_var b c + bn_eps b).
Proof. intros H. apply sqrt_lt_R0, H. Qed.

Lemma Rsum_app a b : Rsum (a ++ b) = Rsum a + Rsum b.
Proof. induction a as [|x a IH]; cbn [app Rsum]; [lra|]. rewrite IH. lra. Qed.

Lemma Rsum_flat_map {A} (f : A -> list R) l : Rsum (flat_map f l) = Rsum (map (fun a => Rsum (f a)) l).
Proof. induction l as [|a l IH]; cbn [flat_map map Rsum]; [reflexivity|]. rewrite Rsum_app, IH. reflexivity. Qed.

Lemma Rsum_scale {A} (f g : A -> R) m l : (forall a, g a = f a * m) -> Rsum (map g l) = Rsum (map f l) * m.
Proof. intros H. induction l as [|a l IH]; cbn [map Rsum]; [lra|]. rewrite IH, H. lra. Qed.

Definition mulf (b : bn) (c : nat) : R := bn_weight b c / sqrt (bn_var b c + bn_eps b).

(** One output element: linear part [s] (scaled by the merge) plus bias. *)
Lemma merge_output l b d c s s' : bn_ok b -> s' = s * mulf b c ->
  s' + bias_at (merge_bn l b d) c = bn_apply b c (s + bias_at l c).
Proof.
  intros Hb ->. unfold bias_at, merge_bn, mul_add_from_bn, bn_apply, mulf. cbn [l_bias].
  pose proof (denom_pos b c Hb). destruct (l_bias l); field; lra.
Qed.

Theorem C36_linear : forall l b n_in x o, bn_ok b ->
  linear_fwd (merge_bn l b (output_channel_dim false)) n_in x o = bn_apply b o (linear_fwd l n_in x o).
Proof.
  intros l b n x o Hb. unfold linear_fwd. apply merge_output; [exact Hb|].
  apply Rsum_scale. intros i. unfold merge_bn, mul_add_from_bn, mulf. cbn [l_weight nth output_channel_dim]. ring.
Qed.

Theorem C36_conv : forall l b ipg opg k stride pad dil len x o t, bn_ok b ->
  conv1d (merge_bn l b (output_channel_dim false)) ipg opg k stride pad dil len x o t
  = bn_apply b o (conv1d l ipg opg k stride pad dil len x o t).
Proof.
  intros l b ipg opg k st pd dil len x o t Hb. unfold conv1d. apply merge_output; [exact Hb|].
  rewrite !Rsum_flat_map. apply Rsum_scale. intros i. apply Rsum_scale. intros j.
  unfold merge_bn, mul_add_from_bn, mulf. cbn [l_weight nth output_channel_dim]. ring.
Qed.

Theorem C36_conv_transpose : forall l b n_in k stride pad dil len x o t, bn_ok b ->
  conv_transpose1d (merge_bn l b (output_channel_dim true)) n_in k stride pad dil len x o t
  = bn_apply b o (conv_transpose1d l n_in k stride pad dil len x o t).
Proof.
  intros l b n k st pd dil len x o t Hb. unfold conv_transpose1d. apply merge_output; [exact Hb|].
  rewrite !Rsum_flat_map. apply Rsum_scale. intros i. rewrite !Rsum_flat_map. apply Rsum_scale. intros s.
  apply Rsum_scale. intros j. destruct (_ =? _)%Z;
    unfold merge_bn, mul_add_from_bn, mulf; cbn [l_weight nth output_channel_dim]; ring.
Qed.

(** Any number of batch norms behind the layer. *)
Theorem C36_chain : forall bns l n_in x o, Forall bn_ok bns ->
  linear_fwd (merge_chain l bns (output_channel_dim false)) n_in x o
  = fold_left (fun y b => bn_apply b o y) bns (linear_fwd l n_in x o).
Proof.
  intros bns. induction bns as [|b bns IH]; intros l n x o H; [reflexivity|].
  inversion_clear H as [|? ? Hb Hbs]. unfold merge_chain. cbn [fold_left]. fold (merge_chain (merge_bn l b (output_channel_dim false)) bns (output_channel_dim false)).
  rewrite IH by exact Hbs. rewrite C36_linear by exact Hb. reflexivity.
Qed.

(** Merging into another batch norm. *)
Theorem C36_into_batch_norm : forall b1 b2 c x, bn_ok b1 -> bn_ok b2 ->
  bn_apply (merge_bn_into_bn b1 b2) c x = bn_apply b2 c (bn_apply b1 c x).
Proof.
  intros b1 b2 c x H1 H2. pose proof (denom_pos b1 c H1). pose proof (denom_pos b2 c H2).
  unfold merge_bn_into_bn, merge_bn, mul_add_from_bn, bn_apply, bias_at.
  cbn [bn_mean bn_var bn_weight bn_bias bn_eps l_weight l_bias output_channel_dim nth]. field. split; lra.
Qed.

(** Loading a batch norm into a scale-bias layer. *)
Theorem C36_scale_bias : forall b c x, bn_ok b -> scale_bias_from_bn b c x = bn_apply b c x.
Proof.
  intros b c x H. pose proof (denom_pos b c H). unfold scale_bias_from_bn, mul_add_from_bn, bn_apply. field. lra.
Qed.

(** The merged weights do not depend on the spatial position or the input, and the output
    channel dimension matters: with the wrong dimension the function changes. *)
Theorem C36_wrong_dim_refuted : exists l b n_in x o, bn_ok b
  /\ linear_fwd (merge_bn l b 1) n_in x o <> bn_apply b o (linear_fwd l n_in x o).
Proof.
  exists (Layer (fun _ => 1) None), (BN (fun _ => 0) (fun _ => 1) (fun c => INR c + 1) (fun _ => 0) 0 false), 2%nat, (fun _ => 1), 0%nat.
  split; [intros c; cbn; lra|].
  unfold linear_fwd, merge_bn, mul_add_from_bn, bn_apply, bias_at. cbn [map seq Rsum l_weight l_bias nth bn_mean bn_var bn_weight bn_bias bn_eps INR].
  replace (1 + 0) with 1 by ring. rewrite sqrt_1. intros E. revert E. apply Rgt_not_eq. lra.
Qed.

(** A layer module called from two places, only one of which feeds the batch norm: the pass
    checks the users of the call, not of the module, so the other call changes too. *)
Theorem C36_shared_layer_refuted : exists l b n_in x y o, bn_ok b
  /\ (linear_fwd (merge_bn l b 0) n_in x o, linear_fwd (merge_bn l b 0) n_in y o)
     <> (bn_apply b o (linear_fwd l n_in x o), linear_fwd l n_in y o).
Proof.
  exists (Layer (fun _ => 1) None), (BN (fun _ => 0) (fun _ => 1) (fun _ => 2) (fun _ => 0) 0 false), 1%nat, (fun _ => 1), (fun _ => 1), 0%nat.
  split; [intros c; cbn; lra|]. intros E. apply (f_equal snd) in E. revert E. cbn [snd].
  unfold linear_fwd, merge_bn, mul_add_from_bn, bias_at. cbn [map seq Rsum l_weight l_bias nth bn_mean bn_var bn_weight bn_bias bn_eps].
  replace (1 + 0) with 1 by ring. rewrite sqrt_1. apply Rgt_not_eq. lra.
Qed.

Definition ex_bn : bn := BN (fun c => INR c) (fun _ => 3) (fun _ => 4) (fun _ => 1) 1 false.
Example C36_example : bn_ok ex_bn
  /\ linear_fwd (merge_bn (Layer (fun _ => 1) (Some (fun _ => 5))) ex_bn 0) 2 (fun _ => 1) 1 = 13.
Proof.
  split; [intros c; cbn; lra|].
  rewrite (C36_linear _ ex_bn) by (intros c; cbn; lra).
  unfold linear_fwd, bn_apply, bias_at. cbn [map seq Rsum l_weight l_bias nth ex_bn bn_mean bn_var bn_weight bn_bias bn_eps INR].
  replace (3 + 1) with (2 * 2) by ring. rewrite sqrt_square by lra. field.
Qed.

Print Assumptions C36_linear.
Print Assumptions C36_conv.
Print Assumptions C36_conv_transpose.
Print Assumptions C36_chain.
Print Assumptions C36_into_batch_norm.
Print Assumptions C36_scale_bias.
Print Assumptions C36_wrong_dim_refuted.
Print Assumptions C36_shared_layer_refuted.

(** ** C42 *)
Lemma bn_channels_app b xs ys c : bn_channels b c (xs ++ ys) = bn_channels b c xs ++ bn_channels b (c + length xs) ys.
Proof.
  revert c. induction xs as [|x xs IH]; intros c; cbn [app bn_channels length]; [rewrite Nat.add_0_r; reflexivity|].
  rewrite IH. do 3 f_equal. lia.
Qed.

Lemma chunk_channels b start xs : bn_eps b = default_eps -> forall c,
  bn_channels (chunk_bn b start) c xs = bn_channels b (start + c) xs.
Proof.
  intros He. induction xs as [|x xs IH]; intros c; cbn [bn_channels]; [reflexivity|].
  rewrite IH. replace (start + S c)%nat with (S (start + c)) by lia. f_equal.
  unfold bn_apply, chunk_bn. cbn [bn_mean bn_var bn_weight bn_bias bn_eps]. rewrite He. reflexivity.
Qed.

(** In evaluation mode, with the default epsilon, splitting preserves every channel, for any
    number of operands of any sizes. *)
Theorem C42_default_eps : forall b xs, bn_eps b = default_eps -> bn_then_cat b xs = cat_then_bn b xs.
Proof.
  intros b xs He. unfold bn_then_cat, cat_then_bn. generalize 0%nat as start.
  induction xs as [|x xs IH]; intros start; cbn [split_bns concat]; [reflexivity|].
  rewrite bn_channels_app, IH, chunk_channels by exact He. rewrite Nat.add_0_r. reflexivity.
Qed.

(** Another epsilon is lost. *)
Theorem C42_other_eps_refuted : exists b xs, bn_ok b /\ bn_then_cat b xs <> cat_then_bn b xs.
Proof.
  exists (BN (fun _ => 0) (fun _ => 0) (fun _ => 1) (fun _ => 0) 1 false), [[1]; [1]].
  split; [intros c; cbn; lra|].
  unfold bn_then_cat, cat_then_bn. cbn [concat split_bns bn_channels app length]. intros E.
  injection E as E _. revert E.
  unfold bn_apply, chunk_bn. cbn [bn_mean bn_var bn_weight bn_bias bn_eps]. unfold default_eps.
  replace (0 + 1) with 1 by ring. rewrite sqrt_1. intros E.
  assert (L : sqrt (0 + / 100000) < 1).
  { pose proof (sqrt_lt_1_alt (0 + / 100000) 1) as L. rewrite sqrt_1 in L. apply L. lra. }
  assert (P : 0 < sqrt (0 + / 100000)) by (apply sqrt_lt_R0; lra).
  set (r := sqrt (0 + / 100000)) in *. clearbody r.
  assert (E' : (1 - 0) / r * 1 + 0 = 1) by (rewrite E; field). assert (E2 : 1 = r); [|lra].
  apply (Rmult_eq_compat_r r) in E'. field_simplify in E'; lra.
Qed.

(** The inserted modules are in training mode even when the model is in evaluation mode. *)
Theorem C42_training_flag_refuted : exists b start, bn_training b = false /\ bn_training (chunk_bn b start) = true.
Proof. exists ex_bn, 0%nat. split; reflexivity. Qed.

Example C42_example :
  bn_eps (BN (fun c => INR c) (fun _ => 3) (fun _ => 4) (fun _ => 1) default_eps false) = default_eps
  /\ length (bn_then_cat ex_bn [[1; 2]; [3]]) = 3%nat.
Proof. split; reflexivity. Qed.

Print Assumptions C42_default_eps.
Print Assumptions C42_other_eps_refuted.
Print Assumptions C42_training_flag_refuted.
