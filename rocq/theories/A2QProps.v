(** Properties C21 and C22: accumulator-aware quantization rules out overflow. *)
From Coq Require Import Permutation.
From Verif Require Import QUtil Ops OpsProofs IntQuant IntQuantProofs IntQuantProps QuantTensor
  QuantTensorProps Linear LinearProps A2Q.
Open Scope Q_scope.

(** ** Specification: integer dot products and their partial sums *)
Fixpoint Zsum (l : list Z) : Z := match l with [] => 0%Z | x :: l' => (x + Zsum l')%Z end.

(** All products of inputs and weights, accumulated in some order, stopped after some step:
    every intermediate value of the accumulator fits a signed P-bit register. *)
Definition no_overflow (P : Z) (xs ks : list Z) : Prop :=
  forall order, Permutation order (map (fun p => fst p * snd p)%Z (combine xs ks)) ->
  forall n, in_range true false P (Zsum (firstn n order)).

(** ** Proof infrastructure *)
Fixpoint possum (l : list Z) : Z := match l with [] => 0%Z | x :: l' => (Z.max 0 x + possum l')%Z end.
Fixpoint negsum (l : list Z) : Z := match l with [] => 0%Z | x :: l' => (Z.max 0 (- x) + negsum l')%Z end.

Lemma possum_nonneg l : (0 <= possum l)%Z. Proof. induction l; cbn; lia. Qed.
Lemma negsum_nonneg l : (0 <= negsum l)%Z. Proof. induction l; cbn; lia. Qed.
Lemma prefix_bound l : forall n, (- negsum l <= Zsum (firstn n l) <= possum l)%Z.
Proof.
  induction l as [|x l IH]; intros [|n]; cbn; try lia.
  - pose proof (possum_nonneg l). pose proof (negsum_nonneg l). lia.
  - specialize (IH n). lia.
Qed.
Lemma possum_perm l m : Permutation l m -> possum l = possum m.
Proof. induction 1; cbn; lia. Qed.
Lemma negsum_perm l m : Permutation l m -> negsum l = negsum m.
Proof. induction 1; cbn; lia. Qed.

Lemma no_overflow_of P xs ks : (1 <= P)%Z ->
  (possum (map (fun p => fst p * snd p)%Z (combine xs ks)) <= 2 ^ (P - 1) - 1)%Z ->
  (negsum (map (fun p => fst p * snd p)%Z (combine xs ks)) <= 2 ^ (P - 1) - 1)%Z ->
  no_overflow P xs ks.
Proof.
  intros HP A B order Ho n. pose proof (prefix_bound order n) as H.
  rewrite (possum_perm _ _ Ho), (negsum_perm _ _ Ho) in H.
  unfold in_range, range_lo, range_hi. lia.
Qed.

(** Products bounded through positive and negative weight mass. *)
Lemma mass_bound lo hi : (lo <= 0 <= hi)%Z -> forall xs ks,
  Forall (fun x => lo <= x <= hi)%Z xs ->
  (possum (map (fun p => fst p * snd p)%Z (combine xs ks)) <= hi * possum ks + (- lo) * negsum ks)%Z
  /\ (negsum (map (fun p => fst p * snd p)%Z (combine xs ks)) <= hi * negsum ks + (- lo) * possum ks)%Z.
Proof.
  intros H. induction xs as [|x xs IH]; intros ks Hx.
  - cbn. pose proof (possum_nonneg ks). pose proof (negsum_nonneg ks). nia.
  - destruct ks as [|k ks]; [cbn; lia|]. inversion Hx as [|? ? Hx1 Hx2]; subst.
    specialize (IH ks Hx2). cbn [combine map possum negsum fst snd].
    destruct (Z_le_gt_dec 0 k).
    + rewrite (Z.max_r 0 k), (Z.max_l 0 (- k)) by lia.
      split.
      * assert (Z.max 0 (x * k) <= hi * k)%Z by (apply Z.max_lub; nia). lia.
      * assert (Z.max 0 (- (x * k)) <= (- lo) * k)%Z by (apply Z.max_lub; nia). lia.
    + rewrite (Z.max_l 0 k), (Z.max_r 0 (- k)) by lia.
      split.
      * assert (Z.max 0 (x * k) <= (- lo) * (- k))%Z by (apply Z.max_lub; nia). lia.
      * assert (Z.max 0 (- (x * k)) <= hi * (- k))%Z by (apply Z.max_lub; nia). lia.
Qed.

Lemma clampZ_shrinks bw n : (1 <= bw)%Z ->
  let k := clampZ n (min_int true true bw) (max_int true true bw) in
  (Z.max 0 k <= Z.max 0 n)%Z /\ (Z.max 0 (- k) <= Z.max 0 (- n))%Z.
Proof.
  intros Hb. cbn zeta. pose proof (min_max_int true true bw Hb). rewrite clampZ_spec by lia. lia.
Qed.

Definition qpos (x : Q) : Q := if Qle_bool 0 x then x else 0.
Definition qneg (x : Q) : Q := if Qle_bool 0 x then 0 else - x.

Lemma rtz_mass x : inject_Z (Z.max 0 (round_to_zeroZ x)) <= qpos x
                /\ inject_Z (Z.max 0 (- round_to_zeroZ x)) <= qneg x.
Proof.
  unfold qpos, qneg. destruct (rtz_cases x) as [[Hx ->]|[Hx ->]].
  - rewrite (proj2 (Qle_bool_iff _ _) Hx).
    assert (0 <= Qfloor x)%Z by (apply (Qfloor_mono 0 x); lra).
    rewrite Z.max_r, Z.max_l by lia. split; [apply Qfloor_le|]. apply Qle_refl.
  - destruct (Qle_bool 0 x) eqn:E; [apply Qle_bool_iff in E; lra|].
    assert (0 <= Qfloor (- x))%Z by (apply (Qfloor_mono 0 (- x)); lra).
    rewrite Z.max_l, Z.max_r by lia. split; [apply Qle_refl|].
    rewrite Z.opp_involutive. apply Qfloor_le.
Qed.

Lemma qpos_qneg x : qpos x - qneg x == x /\ qpos x + qneg x == Qabs x /\ 0 <= qpos x /\ 0 <= qneg x.
Proof.
  unfold qpos, qneg. destruct (Qle_bool 0 x) eqn:E.
  - apply Qle_bool_iff in E. rewrite (Qabs_pos x E). repeat split; lra.
  - assert (x < 0) by (apply Qnot_le_lt; intros K; apply Qle_bool_iff in K; congruence).
    rewrite (Qabs_neg x) by lra. repeat split; lra.
Qed.

Definition acode (bw : Z) (p z x : Q) : Z :=
  clampZ (round_to_zeroZ (x / p + z)) (min_int true true bw) (max_int true true bw).

Lemma decoupled_some p z s bw x : ~ p == 0 ->
  decoupled_elem RoundToZero p z s bw x = Some ((inject_Z (acode bw p z x) - 0) * s).
Proof.
  intros Hp. unfold decoupled_elem, qdiv, acode.
  destruct (Qeq_bool p 0) eqn:E; [apply Qeq_bool_iff in E; contradiction|].
  cbn [obind]. unfold float_to_int. cbn [float_to_intZ]. rewrite clamp_injz. reflexivity.
Qed.

Lemma omap_some {A B} (f : A -> option B) (g : A -> B) :
  (forall a, f a = Some (g a)) -> forall l, omap f l = Some (map g l).
Proof. intros H. induction l as [|a l IH]; cbn; [reflexivity|]. rewrite H. cbn. rewrite IH. reflexivity. Qed.

Definition fq (l : list Q) (p z : Q) : list Q := map (fun x => x / p + z) l.

Lemma codes_mass bw p z : (1 <= bw)%Z -> forall w,
  inject_Z (possum (map (acode bw p z) w)) <= Qsum (map qpos (fq w p z))
  /\ inject_Z (negsum (map (acode bw p z) w)) <= Qsum (map qneg (fq w p z)).
Proof.
  intros Hb. induction w as [|x w [IH1 IH2]]; cbn [map fq possum negsum Qsum].
  - split; apply Qle_refl.
  - destruct (clampZ_shrinks bw (round_to_zeroZ (x / p + z)) Hb) as [C1 C2].
    destruct (rtz_mass (x / p + z)) as [R1 R2]. fold (acode bw p z x) in C1, C2.
    apply injz_le in C1. apply injz_le in C2. rewrite !inject_Z_plus. unfold fq in *. lra.
Qed.

Lemma Qsum_split l : Qsum (map qpos l) + Qsum (map qneg l) == l1_norm l
                  /\ Qsum (map qpos l) - Qsum (map qneg l) == Qsum l
                  /\ 0 <= Qsum (map qpos l) /\ 0 <= Qsum (map qneg l).
Proof.
  unfold l1_norm. induction l as [|x l (A & B & C & D)]; cbn [map Qsum]; [repeat split; lra|].
  destruct (qpos_qneg x) as (E1 & E2 & E3 & E4). repeat split; lra.
Qed.

Lemma l1_norm_scaled (p : Q) : 0 < p -> forall w, l1_norm (fq w p 0) == l1_norm w / p.
Proof.
  intros Hp. unfold l1_norm, fq. induction w as [|x w IH]; cbn [map Qsum].
  - field. apply Qpos_neq0, Hp.
  - rewrite IH. assert (E : Qabs (x / p + 0) == Qabs x / p).
    { rewrite Qplus_0_r. unfold Qdiv. rewrite Qabs_Qmult. rewrite (Qabs_pos (/ p)); [reflexivity|].
      apply Qlt_le_weak, Qinv_lt_0_compat, Hp. }
    rewrite E. field. apply Qpos_neq0, Hp.
Qed.

Lemma l1_norm_nonneg w : 0 <= l1_norm w.
Proof. unfold l1_norm. induction w as [|x w IH]; cbn [map Qsum]; [lra|]. pose proof (Qabs_nonneg x). lra. Qed.

Lemma qdiv_some a b c : qdiv a b = Some c -> ~ b == 0 /\ c = a / b.
Proof.
  unfold qdiv. destruct (Qeq_bool b 0) eqn:E; [discriminate|]. intros H. injection H as <-.
  split; [|reflexivity]. apply Qeq_bool_neq, E.
Qed.

(** The pre-scale bounds the L1 norm of the scaled weights by T. *)
Lemma inner_forward_spec T s v mv w p : 0 < s -> 0 <= T ->
  (match mv with Some m => 0 <= m | None => True end) ->
  inner_forward T s v mv w = Some p -> 0 <= p /\ (0 < p -> l1_norm w / p <= T).
Proof.
  intros Hs HT Hm H. unfold inner_forward in H.
  destruct (qdiv _ s) as [gs|] eqn:E1; [|discriminate]. cbn [obind] in H.
  set (g := if Qlt_bool T gs then T else gs) in *.
  destruct (qdiv (l1_norm w) g) as [val|] eqn:E2; [|discriminate]. cbn [obind] in H. injection H as <-.
  apply qdiv_some in E1. destruct E1 as [_ ->]. apply qdiv_some in E2. destruct E2 as [Ng ->].
  assert (G0 : 0 <= Qabs (clamp_min_opt mv v) / s).
  { apply Qle_shift_div_l; [exact Hs|]. rewrite Qmult_0_l. apply Qabs_nonneg. }
  assert (GT : 0 <= g /\ g <= T) by (unfold g; qcase; lra).
  assert (Gp : 0 < g) by (destruct GT; apply Qle_lteq in H; destruct H; [assumption|symmetry in H; contradiction]).
  pose proof (l1_norm_nonneg w) as L0.
  assert (V0 : 0 <= l1_norm w / g) by (apply Qle_shift_div_l; [exact Gp|lra]).
  set (q := clamp_min_opt mv (l1_norm w / g)).
  assert (Q1 : l1_norm w / g <= q).
  { unfold q, clamp_min_opt. destruct mv as [m|]; [qcase; lra|lra]. }
  clearbody q. split; [lra|]. intros Hq.
  apply Qle_shift_div_r; [exact Hq|].
  assert (E : l1_norm w == (l1_norm w / g) * g) by (field; exact Ng).
  destruct GT as [_ GT]. rewrite E. clear E.
  apply Qle_trans with (q * g); [apply Qmult_le_compat_r; lra|].
  rewrite (Qmult_comm T q). rewrite !(Qmult_comm q). apply Qmult_le_compat_r; lra.
Qed.

Lemma omap_none {A B} (f : A -> option B) a l : f a = None -> omap f (a :: l) = None.
Proof. intros H. cbn. rewrite H. reflexivity. Qed.

(** ** C21 *)
Definition input_max_abs (signed : bool) (N : Z) : Z := if signed then (2 ^ (N - 1))%Z else (2 ^ N - 1)%Z.

Theorem C21_a2q_no_overflow : forall signed_in N P bw s v mv w ws,
  (1 <= N)%Z -> (1 <= P)%Z -> (1 <= bw)%Z -> 0 < s ->
  (match mv with Some m => 0 <= m | None => True end) ->
  a2q_quant RoundToZero P N signed_in bw s v mv w = Some ws ->
  exists ks, Forall2 (fun y k => y == inject_Z k * s) ws ks
    /\ Forall (in_range true true bw) ks
    /\ forall xs, Forall (in_range signed_in false N) xs -> no_overflow P xs ks.
Proof.
  intros sg N P bw s v mv w ws HN HP Hb Hs Hm H. unfold a2q_quant in H.
  set (T := get_upper_bound_on_l1_norm P N sg) in *.
  assert (P1 : (1 <= 2 ^ (P - 1))%Z) by (change 1%Z with (2 ^ 0)%Z; apply Z.pow_le_mono_r; lia).
  assert (HT : 0 <= T).
  { unfold T, get_upper_bound_on_l1_norm. apply Qmult_le_0_compat.
    - pose proof (pow2_ge_1 (P - 1) ltac:(lia)). lra.
    - apply Qlt_le_weak, pow2_pos. }
  destruct (inner_forward T s v mv w) as [p|] eqn:EI; [|discriminate]. cbn [obind] in H.
  destruct (inner_forward_spec _ _ _ _ _ _ Hs HT Hm EI) as [Hp0 HpT].
  assert (Ep : p / 1 == p) by field.
  destruct w as [|w0 w'].
  { cbn in H. injection H as <-. exists []. split; [constructor|]. split; [constructor|].
    intros xs _ order Ho n. rewrite combine_nil in Ho. cbn in Ho.
    apply Permutation_sym, Permutation_nil in Ho. subst. rewrite firstn_nil. cbn. unfold in_range, range_lo, range_hi. lia. }
  remember (w0 :: w') as w eqn:Ew.
  assert (Np : ~ p / 1 == 0).
  { intros Z0. rewrite Ew in H. rewrite omap_none in H; [discriminate|].
    unfold decoupled_elem, qdiv. rewrite (proj2 (Qeq_bool_iff _ _) Z0). reflexivity. }
  assert (Pp : 0 < p) by (apply Qle_lteq in Hp0; destruct Hp0 as [|E]; [assumption|rewrite Ep, <- E in Np; exfalso; apply Np; reflexivity]).
  specialize (HpT Pp).
  rewrite (omap_some _ _ (fun x => decoupled_some (p / 1) 0 s bw x Np)) in H. injection H as <-.
  exists (map (acode bw (p / 1) 0) w). split; [|split].
  - clear. induction w; cbn; constructor; [ring|assumption].
  - apply Forall_forall. intros k Hk. apply in_map_iff in Hk. destruct Hk as (x & <- & _).
    unfold in_range. rewrite <- min_int_spec, <- max_int_spec. unfold acode.
    pose proof (min_max_int true true bw Hb). rewrite clampZ_spec by lia. lia.
  - intros xs Hx. set (ks := map (acode bw (p / 1) 0) w).
    destruct (codes_mass bw (p / 1) 0 Hb w) as [M1 M2]. fold ks in M1, M2.
    destruct (Qsum_split (fq w (p / 1) 0)) as (S1 & _ & _ & _).
    assert (Pp1 : 0 < p / 1) by (rewrite Ep; exact Pp).
    rewrite (l1_norm_scaled _ Pp1) in S1.
    assert (L : inject_Z (possum ks + negsum ks) <= T).
    { rewrite inject_Z_plus. assert (E1 : l1_norm w / (p / 1) == l1_norm w / p) by (rewrite Ep; reflexivity). lra. }
    set (M := input_max_abs sg N).
    assert (M0 : (0 <= M)%Z) by (unfold M, input_max_abs; destruct sg; [|pose proof (pow2Z_pos N ltac:(lia))]; pose proof (Z.pow_nonneg 2 (N - 1)); lia).
    assert (Hx' : Forall (fun x => - M <= x <= M)%Z xs).
    { eapply Forall_impl; [|exact Hx]. intros x [A B]. unfold M, input_max_abs, range_lo, range_hi in *. destruct sg; lia. }
    destruct (mass_bound (- M) M ltac:(lia) xs ks Hx') as [B1 B2].
    assert (MT : inject_Z M * T <= inject_Z (2 ^ (P - 1) - 1)).
    { unfold T, get_upper_bound_on_l1_norm.
      assert (E1 : inject_Z (2 ^ (P - 1) - 1) == pow2 (P - 1) - 1).
      { rewrite inject_Z_minus, pow2_nonneg_Z by lia. reflexivity. }
      rewrite E1. pose proof (pow2_ge_1 (P - 1) ltac:(lia)) as G1.
      assert (E2 : inject_Z M * pow2 ((if sg then 1 else 0) - N) <= 1).
      { apply Qle_trans with (pow2 (N - (if sg then 1 else 0)) * pow2 ((if sg then 1 else 0) - N)).
        - apply Qmult_le_compat_r; [|apply Qlt_le_weak, pow2_pos]. unfold M, input_max_abs.
          destruct sg.
          + rewrite pow2_nonneg_Z by lia. apply Qle_refl.
          + replace (N - 0)%Z with N by lia. rewrite pow2_nonneg_Z by lia. rewrite <- Zle_Qle. lia.
        - rewrite <- pow2_plus. replace (N - (if sg then 1 else 0) + ((if sg then 1 else 0) - N))%Z with 0%Z by lia.
          rewrite pow2_0. apply Qle_refl. }
      apply Qle_trans with ((pow2 (P - 1) - 1) * (inject_Z M * pow2 ((if sg then 1 else 0) - N))); [lra|].
      rewrite <- (Qmult_1_r (pow2 (P - 1) - 1)) at 2. rewrite !(Qmult_comm (pow2 (P - 1) - 1)).
      apply Qmult_le_compat_r; lra. }
    assert (F : (M * (possum ks + negsum ks) <= 2 ^ (P - 1) - 1)%Z).
    { apply injz_le_inv. rewrite inject_Z_mult.
      apply Qle_trans with (inject_Z M * T); [|exact MT].
      rewrite !(Qmult_comm (inject_Z M)). apply Qmult_le_compat_r; [exact L|].
      change 0 with (inject_Z 0). apply injz_le, M0. }
    apply no_overflow_of; [exact HP|nia|nia].
Qed.

(** The quantizer is defined (no division by zero) for every non-zero channel, non-zero
    learned norm and accumulators of at least two bits. *)
Theorem C21_a2q_defined : forall signed_in N P bw s v w,
  (2 <= P)%Z -> 0 < s -> ~ v == 0 -> ~ l1_norm w == 0 ->
  exists ws, a2q_quant RoundToZero P N signed_in bw s v None w = Some ws /\ length ws = length w.
Proof.
  intros sg N P bw s v w HP Hs Hv Hw. unfold a2q_quant, inner_forward.
  set (T := get_upper_bound_on_l1_norm P N sg).
  assert (HT : 0 < T).
  { unfold T, get_upper_bound_on_l1_norm. apply Qmult_lt_0_compat; [|apply pow2_pos].
    assert (pow2 1 <= pow2 (P - 1)) by (apply pow2_mono; lia). rewrite pow2_1 in *. lra. }
  unfold qdiv at 1. destruct (Qeq_bool s 0) eqn:E; [apply Qeq_bool_iff in E; lra|]. cbn [obind clamp_min_opt].
  assert (V : 0 < Qabs v / s).
  { apply Qdiv_pos; [|exact Hs]. pose proof (Qabs_nonneg v). destruct (Qabs_cases v) as [[? K]|[? K]]; rewrite K; [|lra].
    apply Qle_lteq in H0. destruct H0; [lra|]. exfalso. apply Hv. symmetry. assumption. }
  set (g := if Qlt_bool T (Qabs v / s) then T else Qabs v / s).
  assert (G : 0 < g) by (unfold g; qcase; assumption).
  unfold qdiv at 1. destruct (Qeq_bool g 0) eqn:Eg; [apply Qeq_bool_iff in Eg; lra|]. cbn [obind].
  assert (Np : ~ l1_norm w / g / 1 == 0).
  { intros Z0. apply Hw. assert (E2 : l1_norm w == (l1_norm w / g / 1) * g) by (field; apply Qpos_neq0, G).
    rewrite E2, Z0. ring. }
  rewrite (omap_some _ _ (fun x => decoupled_some _ 0 s bw x Np)). eexists. split; [reflexivity|apply map_length].
Qed.

(** Finding: with the library defaults (no minimum is passed to the pre-scaling module) an
    all-zero channel divides zero by zero. *)
Theorem C21_zero_channel_refuted : forall P N sg bw s n, 0 < s ->
  a2q_quant RoundToZero P N sg bw s (l1_norm (repeat 0 (S n))) None (repeat 0 (S n)) = None.
Proof.
  intros P N sg bw s n Hs.
  assert (Z0 : l1_norm (repeat 0 (S n)) == 0).
  { unfold l1_norm. induction (S n) as [|m IH]; cbn [repeat map Qsum]; [reflexivity|]. rewrite IH. reflexivity. }
  unfold a2q_quant, inner_forward. cbn [clamp_min_opt].
  unfold qdiv at 1. destruct (Qeq_bool s 0) eqn:E; [reflexivity|]. cbn [obind].
  set (T := get_upper_bound_on_l1_norm P N sg).
  set (gs := Qabs (l1_norm (repeat 0 (S n))) / s).
  assert (G : gs == 0) by (unfold gs; rewrite Z0; unfold Qdiv; change (Qabs 0) with 0; ring).
  unfold qdiv at 1. destruct (Qeq_bool (if Qlt_bool T gs then T else gs) 0) eqn:E2; [reflexivity|]. cbn [obind].
  cbn [repeat]. apply omap_none. unfold decoupled_elem, qdiv.
  match goal with |- context [Qeq_bool ?a 0] => assert (K : a == 0) by (change (0 :: repeat 0 n) with (repeat 0 (S n)); rewrite Z0; unfold Qdiv; ring) end.
  rewrite (proj2 (Qeq_bool_iff _ _) K). reflexivity.
Qed.

(** Round-to-zero is needed: with rounding to nearest the same quantizer overflows
    (3-bit accumulator, 1-bit signed inputs, five equal weights; each weight becomes 3/5). *)
Theorem C21_round_to_nearest_refuted :
  exists w ws ks xs, a2q_quant Round 3 1 true 4 1 10 None w = Some ws
    /\ Forall2 (fun y k => y == inject_Z k * 1) ws ks
    /\ Forall (in_range true false 1) xs /\ ~ no_overflow 3 xs ks.
Proof.
  exists [1; 1; 1; 1; 1]. eexists _, [1; 1; 1; 1; 1]%Z, [-1; -1; -1; -1; -1]%Z.
  split; [vm_compute; reflexivity|].
  split; [repeat constructor|]. split; [repeat constructor; discriminate|].
  intros H. specialize (H _ (Permutation_refl _) 5%nat). destruct H as [H _]. vm_compute in H. apply H. reflexivity.
Qed.

(** ** C22 *)
Lemma l1_centered p z0 z : 0 < p -> z == z0 / p -> forall w,
  l1_norm (fq w p z) == l1_norm (map (fun x => x + z0) w) / p.
Proof.
  intros Hp Hz. unfold l1_norm, fq. induction w as [|x w IH]; cbn [map Qsum].
  - field. apply Qpos_neq0, Hp.
  - rewrite IH. assert (E : Qabs (x / p + z) == Qabs (x + z0) / p).
    { rewrite Hz. setoid_replace (x / p + z0 / p) with ((x + z0) * / p) by (field; apply Qpos_neq0, Hp).
      unfold Qdiv. rewrite Qabs_Qmult. rewrite (Qabs_pos (/ p)); [reflexivity|].
      apply Qlt_le_weak, Qinv_lt_0_compat, Hp. }
    rewrite E. field. apply Qpos_neq0, Hp.
Qed.

Lemma sum_centered p z0 z : 0 < p -> z == z0 / p -> forall w,
  Qsum (fq w p z) == (Qsum w + inject_Z (Z.of_nat (length w)) * z0) / p.
Proof.
  intros Hp Hz. unfold fq. induction w as [|x w IH]; cbn [map Qsum length].
  - change (inject_Z (Z.of_nat 0)) with 0. field. apply Qpos_neq0, Hp.
  - rewrite IH, Hz, Nat2Z.inj_succ. unfold Z.succ. rewrite inject_Z_plus. change (inject_Z 1) with 1. field. apply Qpos_neq0, Hp.
Qed.

Lemma zero_center_sum w : w <> [] -> Qsum w + inject_Z (Z.of_nat (length w)) * zero_center w == 0.
Proof.
  intros H. unfold zero_center. assert (~ inject_Z (Z.of_nat (length w)) == 0).
  { change 0 with (inject_Z 0). intros E. apply injz_eq_inv in E. destruct w; [congruence|cbn in E; lia]. }
  field. assumption.
Qed.

Theorem C22_a2q_plus_no_overflow : forall signed_in N P bw s v mv w ws,
  (1 <= N)%Z -> (1 <= P)%Z -> (1 <= bw)%Z -> 0 < s ->
  (match mv with Some m => 0 <= m | None => True end) ->
  a2q_plus_quant RoundToZero P N bw s v mv w = Some ws ->
  exists ks, Forall2 (fun y k => y == inject_Z k * s) ws ks
    /\ Forall (in_range true true bw) ks
    /\ forall xs, Forall (in_range signed_in false N) xs -> no_overflow P xs ks.
Proof.
  intros sg N P bw s v mv w ws HN HP Hb Hs Hm H. unfold a2q_plus_quant in H.
  destruct (max_l1_norm_zero_center P N) as [T|] eqn:ET; [|discriminate]. cbn [obind] in H.
  apply qdiv_some in ET. destruct ET as [ND ET].
  assert (P1 : (1 <= 2 ^ (P - 1))%Z) by (change 1%Z with (2 ^ 0)%Z; apply Z.pow_le_mono_r; lia).
  assert (D1 : 0 < pow2 N - 1).
  { assert (pow2 1 <= pow2 N) by (apply pow2_mono; lia). rewrite pow2_1 in *. lra. }
  assert (A1 : 0 <= pow2 P - 2).
  { assert (pow2 1 <= pow2 P) by (apply pow2_mono; lia). rewrite pow2_1 in *. lra. }
  assert (HT : 0 <= T) by (rewrite ET; apply Qle_shift_div_l; lra).
  assert (TM : T * (pow2 N - 1) == pow2 P - 2) by (rewrite ET; field; exact ND). clear ET.
  set (z0 := zero_center w) in *.
  destruct (inner_forward T s v mv _) as [p|] eqn:EI; [|discriminate]. cbn [obind] in H.
  destruct (inner_forward_spec _ _ _ _ _ _ Hs HT Hm EI) as [Hp0 HpT].
  destruct (qdiv z0 (p / 1)) as [z|] eqn:EZ; [|discriminate]. cbn [obind] in H.
  apply qdiv_some in EZ. destruct EZ as [Np Ez].
  assert (Ep : p / 1 == p) by field.
  assert (Pp : 0 < p) by (apply Qle_lteq in Hp0; destruct Hp0 as [|E]; [assumption|rewrite Ep, <- E in Np; exfalso; apply Np; reflexivity]).
  specialize (HpT Pp).
  assert (Pp1 : 0 < p / 1) by (rewrite Ep; exact Pp).
  rewrite (omap_some _ _ (fun x => decoupled_some (p / 1) z s bw x Np)) in H. injection H as <-.
  exists (map (acode bw (p / 1) z) w). split; [|split].
  - clear. induction w; cbn; constructor; [ring|assumption].
  - apply Forall_forall. intros k Hk. apply in_map_iff in Hk. destruct Hk as (x & <- & _).
    unfold in_range. rewrite <- min_int_spec, <- max_int_spec. unfold acode.
    pose proof (min_max_int true true bw Hb). rewrite clampZ_spec by lia. lia.
  - intros xs Hx. destruct w as [|w0 w'].
    { intros order Ho n. cbn [map] in Ho. rewrite combine_nil in Ho. cbn in Ho.
      apply Permutation_sym, Permutation_nil in Ho. subst. rewrite firstn_nil. cbn. unfold in_range, range_lo, range_hi. lia. }
    remember (w0 :: w') as w eqn:Ew.
    assert (Hne : w <> []) by (rewrite Ew; discriminate).
    set (ks := map (acode bw (p / 1) z) w).
    destruct (codes_mass bw (p / 1) z Hb w) as [M1 M2]. fold ks in M1, M2.
    destruct (Qsum_split (fq w (p / 1) z)) as (S1 & S2 & _ & _).
    assert (Ez' : z == z0 / (p / 1)) by (rewrite Ez; reflexivity).
    rewrite (l1_centered _ z0 z Pp1 Ez') in S1.
    rewrite (sum_centered _ z0 z Pp1 Ez') in S2. unfold z0 in S2 at 1. rewrite (zero_center_sum w Hne) in S2.
    assert (Z2 : 0 / (p / 1) == 0) by (unfold Qdiv; ring). 
    assert (E1 : l1_norm (map (fun x => x + z0) w) / (p / 1) == l1_norm (map (fun x => x + z0) w) / p) by (rewrite Ep; reflexivity).
    set (L := l1_norm (map (fun x => x + z0) w) / p) in *.
    assert (B1 : inject_Z (possum ks) <= T / 2) by (setoid_replace (T / 2) with (T * (1 # 2)) by field; lra).
    assert (B2 : inject_Z (negsum ks) <= T / 2) by (setoid_replace (T / 2) with (T * (1 # 2)) by field; lra).
    set (lo := range_lo sg false N) in *. set (hi := range_hi sg false N) in *.
    assert (LH : (lo <= 0 <= hi)%Z /\ (hi - lo = 2 ^ N - 1)%Z).
    { unfold lo, hi, range_lo, range_hi. pose proof (pow2Z_half N HN). assert (1 <= 2 ^ (N - 1))%Z by (change 1%Z with (2 ^ 0)%Z; apply Z.pow_le_mono_r; lia).
      destruct sg; lia. }
    destruct LH as [LH LD].
    destruct (mass_bound lo hi LH xs ks Hx) as [C1 C2].
    assert (TOT : forall a c, inject_Z a <= T / 2 -> inject_Z c <= T / 2 -> (hi * a + - lo * c <= 2 ^ (P - 1) - 1)%Z).
    { intros a c Ha Hc. apply injz_le_inv. rewrite inject_Z_plus, !inject_Z_mult.
      assert (h0 : 0 <= inject_Z hi) by (change 0 with (inject_Z 0); apply injz_le; lia).
      assert (l0 : 0 <= inject_Z (- lo)) by (change 0 with (inject_Z 0); apply injz_le; lia).
      assert (X1 : inject_Z hi * inject_Z a <= inject_Z hi * (T / 2)).
      { rewrite !(Qmult_comm (inject_Z hi)). apply Qmult_le_compat_r; assumption. }
      assert (X2 : inject_Z (- lo) * inject_Z c <= inject_Z (- lo) * (T / 2)).
      { rewrite !(Qmult_comm (inject_Z (- lo))). apply Qmult_le_compat_r; assumption. }
      assert (X3 : inject_Z hi * (T / 2) + inject_Z (- lo) * (T / 2) == (pow2 P - 2) / 2).
      { rewrite <- TM. assert (E : inject_Z hi + inject_Z (- lo) == pow2 N - 1).
        { rewrite <- inject_Z_plus. replace (hi + - lo)%Z with (2 ^ N - 1)%Z by lia. rewrite inject_Z_minus, pow2_nonneg_Z by lia. reflexivity. }
        setoid_replace (inject_Z hi * (T / 2) + inject_Z (- lo) * (T / 2)) with ((inject_Z hi + inject_Z (- lo)) * T / 2) by field.
        rewrite E. field. }
      assert (X4 : inject_Z (2 ^ (P - 1) - 1) == (pow2 P - 2) / 2).
      { rewrite inject_Z_minus, pow2_nonneg_Z by lia. rewrite (pow2Z_half P HP), inject_Z_mult. change (inject_Z 2) with 2. change (inject_Z 1) with 1. field. }
      lra. }
    apply no_overflow_of; [exact HP| |].
    + eapply Z.le_trans; [exact C1|]. apply TOT; assumption.
    + eapply Z.le_trans; [exact C2|]. apply TOT; assumption.
Qed.

(** Non-vacuity: 4-bit accumulator, 2-bit signed inputs, A2Q limits the codes. *)
Example C21_nontrivial :
  exists ws, a2q_quant RoundToZero 5 2 true 8 (1 # 8) 10 None [1; - 2; 3 # 2; 1 # 2] = Some ws
    /\ Forall2 Qeq ws [1 # 8; - 3 # 8; 2 # 8; 0].
Proof. eexists. split; [vm_compute; reflexivity|]. repeat constructor. Qed.

(** A2Q+ with a relaxed bound keeps larger codes for the same accumulator. *)
Example C22_nontrivial :
  exists ws, a2q_plus_quant RoundToZero 5 2 8 (1 # 8) 10 None [1; - 2; 3 # 2; - 1 # 2] = Some ws
    /\ Forall2 Qeq ws [2 # 8; - 4 # 8; 3 # 8; - 1 # 8].
Proof. eexists. split; [vm_compute; reflexivity|]. repeat constructor. Qed.

Print Assumptions C21_a2q_no_overflow.
Print Assumptions C21_a2q_defined.
Print Assumptions C21_zero_channel_refuted.
Print Assumptions C21_round_to_nearest_refuted.
Print Assumptions C22_a2q_plus_no_overflow.
