(** C37 (cross-layer equalization). *)
From Verif Require Import BatchNorm BatchNormProps Equalize EqualizeProofs.
From Coq Require Import Reals List Bool Arith Lra Lia FunctionalExtensionality.
Import ListNotations.
Open Scope R_scope.

(** ** Factors *)
Theorem C37_factor_positive : forall alpha r1 r2, 0 < scaling_factor alpha r1 r2.
Proof.
  intros alpha r1 r2. unfold scaling_factor. apply Rdiv_lt_0_compat; unfold Rpower; apply exp_pos.
Qed.

(** Channels whose range is negligible on either side are left alone. *)
Theorem C37_negligible_channel : forall alpha r1 r2, r1 <= EPSILON \/ r2 <= EPSILON -> scaling_factor alpha r1 r2 = 1.
Proof.
  intros alpha r1 r2 H. unfold scaling_factor.
  assert (E : (if Rle_dec r2 EPSILON then true else false) || (if Rle_dec r1 EPSILON then true else false) = true).
  { destruct H as [H|H]; [destruct (Rle_dec r1 EPSILON); [apply orb_true_r|contradiction]|destruct (Rle_dec r2 EPSILON); [reflexivity|contradiction]]. }
  rewrite E. unfold Rpower. rewrite ln_1, !Rmult_0_r, exp_0. field.
Qed.

(** With alpha = 1/2 the ranges of source and sink become equal, to their geometric mean. *)
Theorem C37_ranges_equal : forall r1 r2, EPSILON < r1 -> EPSILON < r2 ->
  let s := scaling_factor (/ 2) r1 r2 in r1 * / s = sqrt (r1 * r2) /\ r2 * s = sqrt (r1 * r2).
Proof.
  intros r1 r2 H1 H2 s. assert (E0 : 0 < EPSILON) by (unfold EPSILON; lra).
  assert (Es : s = sqrt r1 / sqrt r2).
  { unfold s, scaling_factor. destruct (Rle_dec r2 EPSILON); [lra|]. destruct (Rle_dec r1 EPSILON); [lra|]. cbn [orb].
    replace (1 - / 2) with (/ 2) by field. rewrite !Rpower_sqrt by lra. reflexivity. }
  rewrite Es, sqrt_mult by lra.
  assert (P1 : 0 < sqrt r1) by (apply sqrt_lt_R0; lra). assert (P2 : 0 < sqrt r2) by (apply sqrt_lt_R0; lra).
  pose proof (sqrt_sqrt r1) as S1. pose proof (sqrt_sqrt r2) as S2.
  split; [rewrite <- (S1 ltac:(lra)) at 1|rewrite <- (S2 ltac:(lra)) at 1]; field; lra.
Qed.

(** For any alpha the product of the two ranges is preserved and is shared between source and sink
    in the proportion 1 - alpha to alpha: a larger alpha leaves more of the range to the sinks. *)
Theorem C37_alpha_split : forall alpha r1 r2, EPSILON < r1 -> EPSILON < r2 ->
  let s := scaling_factor alpha r1 r2 in
  r1 * / s = Rpower (r1 * r2) (1 - alpha) /\ r2 * s = Rpower (r1 * r2) alpha.
Proof.
  intros alpha r1 r2 H1 H2 s. assert (E0 : 0 < EPSILON) by (unfold EPSILON; lra).
  assert (Es : s = Rpower r1 alpha / Rpower r2 (1 - alpha)).
  { unfold s, scaling_factor. destruct (Rle_dec r2 EPSILON); [lra|]. destruct (Rle_dec r1 EPSILON); [lra|]. reflexivity. }
  assert (P : forall x y, 0 < Rpower x y) by (intros; unfold Rpower; apply exp_pos).
  pose proof (P r1 alpha) as P1. pose proof (P r2 (1 - alpha)) as P2.
  assert (X1 : r1 = Rpower r1 alpha * Rpower r1 (1 - alpha)).
  { rewrite <- Rpower_plus. replace (alpha + (1 - alpha)) with 1 by ring. rewrite Rpower_1 by lra. reflexivity. }
  assert (X2 : r2 = Rpower r2 alpha * Rpower r2 (1 - alpha)).
  { rewrite <- Rpower_plus. replace (alpha + (1 - alpha)) with 1 by ring. rewrite Rpower_1 by lra. reflexivity. }
  rewrite Es. rewrite <- !Rpower_mult_distr by lra. split.
  - rewrite X1 at 1. field. lra.
  - rewrite X2 at 1. field. lra.
Qed.

(** ** Operators: every operator of the list is positively homogeneous. *)
Lemma Rmax_scale p q r : 0 < r -> Rmax (p * r) (q * r) = Rmax p q * r.
Proof. intros H. rewrite !(Rmult_comm _ r). apply RmaxRmult. lra. Qed.
Theorem C37_relu_hom : hom relu.
Proof.
  intros r x p Hr. unfold relu. rewrite <- Rmax_scale by exact Hr. rewrite Rmult_0_l. reflexivity.
Qed.
Theorem C37_leaky_relu_hom : forall slope, hom (leaky_relu slope).
Proof.
  intros slope r x p Hr. unfold leaky_relu. destruct (Rle_dec 0 (x p * r)) as [A|A], (Rle_dec 0 (x p)) as [B|B]; try ring; exfalso; nra.
Qed.
Theorem C37_avg_pool_hom : forall win div, hom (avg_pool win div).
Proof.
  intros win div r x p Hr. unfold avg_pool. rewrite (Rsum_scale x (fun q => x q * r) r) by reflexivity.
  unfold Rdiv. ring.
Qed.
Theorem C37_max_pool_hom : forall first win, hom (max_pool first win).
Proof.
  intros first win r x p Hr. unfold max_pool. induction (win p) as [|q l IH]; cbn [map fold_right]; [reflexivity|].
  rewrite IH. apply Rmax_scale. exact Hr.
Qed.
Theorem C37_gather_hom : forall pos, hom (gather pos).
Proof. intros pos r x p Hr. reflexivity. Qed.
Theorem C37_mul_const_hom : forall a, hom (mul_const a).
Proof. intros a r x p Hr. unfold mul_const. ring. Qed.

(** ** The network function *)

(** Any number of passes over any valid regions leaves every other node (in particular the
    graph outputs) unchanged, for every input. *)
Theorem C37_equalize : forall D g M0 alpha steps e,
  wf D g -> unshared g -> no_mul g -> no_add_const g -> inv_hom g ->
  Forall (fun st => exists n, region g M0 n = Some st) steps ->
  forall v f ins, In (v, KOther f ins) g ->
  eval g (equalize alpha steps M0) e v = eval g M0 e v.
Proof.
  intros D g M0 alpha steps e W US NM NC IH HF v f ins Hv.
  assert (K : kind_of g v = Some (KOther f ins)) by (apply (kind_of_spec D g W); exact Hv).
  assert (Gen : forall steps M, Forall (fun st => exists n, region g M0 n = Some st) steps ->
            (forall m, is_norm (M m) = is_norm (M0 m)) ->
            eval g (equalize alpha steps M) e v = eval g M e v).
  { clear steps HF. induction steps as [|st steps IHs]; intros M HF MN; [reflexivity|].
    inversion_clear HF as [|? ? (n & Hn) HF']. unfold equalize. cbn [fold_left].
    fold (equalize alpha steps (apply_region st (region_factors alpha M st) M)).
    rewrite IHs; [|exact HF'|].
    - rewrite (region_preserves D g M0 n st M (region_factors alpha M st) e W US NM NC IH Hn MN).
      + apply (other_expect g st _ _ v f ins). exact K.
      + intros c. apply C37_factor_positive.
      + right. apply (in_map fst) in Hv. exact Hv.
    - intros m. rewrite <- MN. unfold apply_region.
      destruct (mem m (sinks st)); rewrite ?is_norm_sink; destruct (mem m (srcs st)); rewrite ?is_norm_src; reflexivity. }
  apply Gen; [exact HF|reflexivity].
Qed.

(** The walk's fuel is never exhausted: more fuel finds the same region. *)
Theorem C37_walk_terminates : forall D g M n st more, wf D g ->
  walk g M (S (n_edges g) + more) true n st = walk g M (S (n_edges g)) true n st.
Proof.
  intros D g M n st more W. pose proof (todo_bound g st). apply (walk_fuel D g M W); lia.
Qed.

(** Inside a region the values are divided by the factors. *)
Theorem C37_region_values : forall D g M0 n st s e,
  wf D g -> unshared g -> no_mul g -> no_add_const g -> inv_hom g ->
  region g M0 n = Some st -> (forall c, 0 < s c) ->
  forall v c p, In v (map fst g) ->
  eval g (apply_region st s M0) e v c p = if in_region g st v then eval g M0 e v c p / s c else eval g M0 e v c p.
Proof.
  intros D g M0 n st s e W US NM NC IH R Hs v c p Hv.
  rewrite (region_preserves D g M0 n st M0 s e W US NM NC IH R (fun m => eq_refl) Hs v (or_intror Hv)).
  unfold expect, rescale. destruct (in_region g st v); reflexivity.
Qed.

(** Layer-wise activation equalization: the inserted multiplication cancels against the sink. *)
Theorem C37_layerwise : forall s m x, (forall c, 0 < s c) -> is_norm m = false ->
  fwd (scale_sink s m) (fun c p => x c p * / s c) = fwd m x.
Proof. intros s m x Hs Hm. apply (fwd_sink s m x Hs Hm). Qed.

(** ** Example: a residual block.  Placeholder 0; 1 = A(0); 2 = relu(1); 3 = B(2) ;
    4 = 2 + 3; 5 = C(4); 6 output.  Region from A: sources A and B, sinks B and C. *)
Definition idtap (p k : nat) : option nat := Some p.
Definition one_lin (w b : R) : module := Lin 1 1 1 idtap (fun _ _ _ => w) (fun _ => b).
Definition out1 (vs : list value) : value := match vs with [v] => v | _ => fun _ _ => 0 end.
Definition res_graph : graph :=
  [(1, KLayer 10 0); (2, KInv relu 1); (3, KLayer 11 2); (4, KAdd [2; 3] 0); (5, KLayer 12 4); (6, KOther out1 [5])]%nat.
Definition res_mods : modules := fun m =>
  if (m =? 10)%nat then one_lin 4 1 else if (m =? 11)%nat then one_lin 2 0 else one_lin 1 0.

Example C37_example : wf [0%nat] res_graph /\ unshared res_graph /\ no_mul res_graph /\ no_add_const res_graph /\ inv_hom res_graph
  /\ exists st, region res_graph res_mods 1 = Some st /\ srcs st = [11; 10]%nat /\ sinks st = [12; 11]%nat.
Proof.
  split; [cbn; unfold incl; cbn [In]; repeat split; lia|].
  split.
  { intros i j m a b H1 H2. cbn in H1, H2.
    destruct H1 as [E|[E|[E|[E|[E|[E|[]]]]]]]; try discriminate; injection E as <- <- <-;
    destruct H2 as [E|[E|[E|[E|[E|[E|[]]]]]]]; try discriminate; injection E as <- <-; reflexivity. }
  split; [intros i a b H; cbn in H; destruct H as [E|[E|[E|[E|[E|[E|[]]]]]]]; discriminate|].
  split; [intros i ins c H; cbn in H; destruct H as [E|[E|[E|[E|[E|[E|[]]]]]]]; try discriminate; injection E as <- <- <-; reflexivity|].
  split; [intros i f a H; cbn in H; destruct H as [E|[E|[E|[E|[E|[E|[]]]]]]]; try discriminate; injection E as <- <- <-; exact C37_relu_hom|].
  eexists. split; [reflexivity|]. split; reflexivity.
Qed.

(** ** Refutations.  Each uses the factors the code computes (alpha = 1/2, ranges 4 and 1, so
    the factor is 2). *)
Lemma factor_4_1 : scaling_factor (/ 2) 4 1 = 2.
Proof.
  unfold scaling_factor, EPSILON. destruct (Rle_dec 1 (/ 1000000000)); [lra|]. destruct (Rle_dec 4 (/ 1000000000)); [lra|]. cbn [orb].
  replace (1 - / 2) with (/ 2) by field. rewrite !Rpower_sqrt by lra. rewrite sqrt_1.
  replace 4 with (2 * 2) by ring. rewrite sqrt_square by lra. field.
Qed.

Lemma rmax1 x : 0 <= x -> rmax [x] = x.
Proof. intros H. unfold rmax. cbn [fold_right]. apply Rmax_left. lra. Qed.

Ltac ev := cbn [eval eval_kind Nat.eqb Nat.ltb Nat.leb fwd one_lin out1 map seq Rsum read idtap vsum scale_src scale_sink relu].

(** A Python constant added between source and sink: accepted by the walk, function changed. *)
Definition const_graph : graph := [(1, KLayer 10 0); (2, KAdd [1] 1); (3, KLayer 12 2); (4, KOther out1 [3])]%nat.
Definition const_mods : modules := fun m => if (m =? 10)%nat then one_lin 4 0 else one_lin 1 0.
Theorem C37_added_constant_refuted : exists D g M n st e,
  wf D g /\ unshared g /\ no_mul g /\ inv_hom g /\ region g M n = Some st
  /\ In (4%nat, KOther out1 [3%nat]) g
  /\ eval g (apply_region st (region_factors (/ 2) M st) M) e 4%nat 0%nat 0%nat <> eval g M e 4%nat 0%nat 0%nat.
Proof.
  exists [0%nat], const_graph, const_mods, 1%nat, (W [10%nat] [12%nat] [(2, 3); (1, 2)]%nat false), (fun _ _ _ => 1).
  split; [cbn; unfold incl; cbn [In]; repeat split; lia|].
  split.
  { intros i j m a b H1 H2. cbn in H1, H2.
    destruct H1 as [E|[E|[E|[E|[]]]]]; try discriminate; injection E as <- <- <-;
    destruct H2 as [E|[E|[E|[E|[]]]]]; try discriminate; injection E as <- <-; reflexivity. }
  split; [intros i a b H; cbn in H; destruct H as [E|[E|[E|[E|[]]]]]; discriminate|].
  split; [intros i f a H; cbn in H; destruct H as [E|[E|[E|[E|[]]]]]; discriminate|].
  split; [reflexivity|]. split; [right; right; right; left; reflexivity|].
  assert (F : region_factors (/ 2) const_mods (W [10%nat] [12%nat] [(2, 3); (1, 2)]%nat false) = fun _ => 2).
  { apply functional_extensionality. intros c. unfold region_factors. cbn [srcs sinks map src_range sink_range const_mods Nat.eqb one_lin seq flat_map app].
    rewrite (Rabs_pos_eq 4), (Rabs_pos_eq 1) by lra. rewrite !rmax1 by (rewrite ?rmax1; lra). exact factor_4_1. }
  rewrite F. unfold const_graph, apply_region. cbn [eval eval_kind Nat.eqb mem existsb srcs sinks orb const_mods].
  ev. apply Rgt_not_eq. unfold vsum. cbn [map Rsum]. lra.
Qed.

(** A gated residual a*b + c: the region started at c has both factors of the product as
    sources, so the product is divided by the square of the factors. *)
Definition gate_graph : graph :=
  [(1, KLayer 10 0); (2, KLayer 11 0); (3, KLayer 13 0); (4, KMul 1 2); (5, KAdd [4; 3] 0); (6, KLayer 12 5); (7, KOther out1 [6])]%nat.
Definition gate_mods : modules := fun m => if (m =? 12)%nat then one_lin 1 0 else one_lin 4 0.
Theorem C37_gated_residual_refuted : exists D g M n st e,
  wf D g /\ unshared g /\ no_add_const g /\ inv_hom g /\ region g M n = Some st
  /\ In (7%nat, KOther out1 [6%nat]) g
  /\ eval g (apply_region st (region_factors (/ 2) M st) M) e 7%nat 0%nat 0%nat <> eval g M e 7%nat 0%nat 0%nat.
Proof.
  exists [0%nat], gate_graph, gate_mods, 3%nat,
    (W [11; 10; 13]%nat [12%nat] [(2, 4); (1, 4); (4, 5); (5, 6); (3, 5)]%nat false), (fun _ _ _ => 1).
  split; [cbn; unfold incl; cbn [In]; repeat split; lia|].
  split.
  { intros i j m a b H1 H2. cbn in H1, H2.
    destruct H1 as [E|[E|[E|[E|[E|[E|[E|[]]]]]]]]; try discriminate; injection E as <- <- <-;
    destruct H2 as [E|[E|[E|[E|[E|[E|[E|[]]]]]]]]; try discriminate; injection E as <- <-; reflexivity. }
  split; [intros i ins c H; cbn in H; destruct H as [E|[E|[E|[E|[E|[E|[E|[]]]]]]]]; try discriminate; injection E as <- <- <-; reflexivity|].
  split; [intros i f a H; cbn in H; destruct H as [E|[E|[E|[E|[E|[E|[E|[]]]]]]]]; discriminate|].
  split; [reflexivity|]. split; [do 6 right; left; reflexivity|].
  match goal with |- context [region_factors _ _ ?x] => set (st := x) end.
  assert (F : region_factors (/ 2) gate_mods st = fun _ => 2).
  { apply functional_extensionality. intros c. unfold region_factors, st. cbn [srcs sinks map src_range sink_range gate_mods Nat.eqb one_lin seq flat_map app].
    rewrite (Rabs_pos_eq 4), (Rabs_pos_eq 1) by lra. rewrite (rmax1 4), !(rmax1 1) by lra.
    replace (rmax [4; 4; 4]) with 4; [exact factor_4_1|].
    unfold rmax. cbn [fold_right]. rewrite (Rmax_left 4 (-1)) by lra. rewrite !(Rmax_left 4 4) by lra. reflexivity. }
  rewrite F. unfold st, gate_graph, apply_region. cbn [eval eval_kind Nat.eqb mem existsb srcs sinks orb gate_mods].
  ev. apply Rlt_not_eq. unfold vsum. cbn [map Rsum]. lra.
Qed.

(** A module called from two places: scaling it for one region changes the other call. *)
Definition shared_graph : graph :=
  [(1, KLayer 10 0); (2, KLayer 12 1); (3, KOther out1 [2]); (4, KLayer 10 0); (5, KOther out1 [4])]%nat.
Theorem C37_shared_module_refuted : exists D g M n st e,
  wf D g /\ no_mul g /\ no_add_const g /\ inv_hom g /\ region g M n = Some st
  /\ In (5%nat, KOther out1 [4%nat]) g
  /\ eval g (apply_region st (region_factors (/ 2) M st) M) e 5%nat 0%nat 0%nat <> eval g M e 5%nat 0%nat 0%nat.
Proof.
  exists [0%nat], shared_graph, const_mods, 1%nat, (W [10%nat] [12%nat] [(1, 2)]%nat false), (fun _ _ _ => 1).
  split; [cbn; unfold incl; cbn [In]; repeat split; lia|].
  split; [intros i a b H; cbn in H; destruct H as [E|[E|[E|[E|[E|[]]]]]]; discriminate|].
  split; [intros i ins c H; cbn in H; destruct H as [E|[E|[E|[E|[E|[]]]]]]; discriminate|].
  split; [intros i f a H; cbn in H; destruct H as [E|[E|[E|[E|[E|[]]]]]]; discriminate|].
  split; [reflexivity|]. split; [do 4 right; left; reflexivity|].
  match goal with |- context [region_factors _ _ ?x] => set (st := x) end.
  assert (F : region_factors (/ 2) const_mods st = fun _ => 2).
  { apply functional_extensionality. intros c. unfold region_factors, st. cbn [srcs sinks map src_range sink_range const_mods Nat.eqb one_lin seq flat_map app].
    rewrite (Rabs_pos_eq 4), (Rabs_pos_eq 1) by lra. rewrite !rmax1 by (rewrite ?rmax1; lra). exact factor_4_1. }
  rewrite F. unfold st, shared_graph, apply_region. cbn [eval eval_kind Nat.eqb mem existsb srcs sinks orb const_mods].
  ev. apply Rlt_not_eq. lra.
Qed.

Print Assumptions C37_factor_positive.
Print Assumptions C37_negligible_channel.
Print Assumptions C37_ranges_equal.
Print Assumptions C37_alpha_split.
Print Assumptions C37_relu_hom.
Print Assumptions C37_leaky_relu_hom.
Print Assumptions C37_avg_pool_hom.
Print Assumptions C37_max_pool_hom.
Print Assumptions C37_gather_hom.
Print Assumptions C37_mul_const_hom.
Print Assumptions C37_equalize.
Print Assumptions C37_walk_terminates.
Print Assumptions C37_region_values.
Print Assumptions C37_layerwise.
Print Assumptions C37_added_constant_refuted.
Print Assumptions C37_gated_residual_refuted.
Print Assumptions C37_shared_module_refuted.
