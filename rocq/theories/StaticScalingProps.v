(** C102: user-defined and learned scales; C103: learned zero points. *)
From Coq Require Import Reals ZArith List Bool Lra Lia.
From Verif Require Import Ops Scaling Runtime StaticScaling.
Import ListNotations.
Open Scope R_scope.

(** * Auxiliary facts *)
Lemma floorR_spec x : IZR (Runtime.floorR x) <= x < IZR (Runtime.floorR x) + 1.
Proof. unfold Runtime.floorR. rewrite minus_IZR. pose proof (archimed x). lra. Qed.

Lemma roundR_near x : Rabs (IZR (Runtime.roundR x) - x) <= 1 / 2.
Proof.
  unfold Runtime.roundR. pose proof (floorR_spec x) as F. set (f := Runtime.floorR x) in *. clearbody f.
  destruct (Rlt_dec (x - IZR f) (1 / 2)); [|destruct (Rlt_dec (1 / 2) (x - IZR f)); [|destruct (Z.even f)]];
    rewrite ?plus_IZR; apply Rabs_le; lra.
Qed.
Lemma roundR_le x n : x <= IZR n -> (Runtime.roundR x <= n)%Z.
Proof.
  intros H. pose proof (roundR_near x) as N. apply Rabs_le_between in N || (unfold Rabs in N; destruct (Rcase_abs _) in N).
  all: apply Z.lt_succ_r; unfold Z.succ; apply lt_IZR; rewrite plus_IZR; lra.
Qed.
Lemma roundR_ge x n : IZR n <= x -> (n <= Runtime.roundR x)%Z.
Proof.
  intros H. pose proof (roundR_near x) as N. unfold Rabs in N; destruct (Rcase_abs _) in N.
  all: apply Z.lt_succ_r; unfold Z.succ; apply lt_IZR; rewrite plus_IZR; lra.
Qed.
Lemma roundR_IZR n : Runtime.roundR (IZR n) = n.
Proof. apply Z.le_antisymm; [apply roundR_le|apply roundR_ge]; lra. Qed.
(** The only integer closer than 1/2. *)
Lemma roundR_unique x n : Rabs (IZR n - x) < 1 / 2 -> Runtime.roundR x = n.
Proof.
  intros H. pose proof (roundR_near x) as N. unfold Rabs in *. destruct (Rcase_abs _) in H; destruct (Rcase_abs _) in N.
  all: apply Z.le_antisymm; apply Z.lt_succ_r; unfold Z.succ; apply lt_IZR; rewrite plus_IZR; lra.
Qed.

Lemma ln2_pos : 0 < ln 2. Proof. pose proof ln_lt_2. lra. Qed.
Lemma exp2_log2 x : 0 < x -> exp2R (log2R x) = x.
Proof.
  intros H. unfold exp2R, log2R, Rpower. replace (ln x / ln 2 * ln 2) with (ln x) by (field; pose proof ln2_pos; lra).
  apply exp_ln, H.
Qed.
Lemma exp2_pos x : 0 < exp2R x. Proof. apply exp_pos. Qed.
Lemma exp2_add x y : exp2R (x + y) = exp2R x * exp2R y. Proof. apply Rpower_plus. Qed.
Lemma exp2_sub x y : exp2R (x - y) = exp2R x / exp2R y.
Proof.
  unfold Rminus. rewrite exp2_add. unfold Rdiv. f_equal. unfold exp2R. apply Rpower_Ropp.
Qed.
Lemma exp2_IZR k : exp2R (IZR k) = powerRZ 2 k.
Proof. unfold exp2R. rewrite <- powerRZ_Rpower by lra. reflexivity. Qed.
Lemma exp2_le x y : x <= y -> exp2R x <= exp2R y.
Proof. intros H. unfold exp2R, Rpower. destruct (Req_dec x y) as [->|N]; [lra|]. left. apply exp_increasing. apply Rmult_lt_compat_r; [apply ln2_pos|lra]. Qed.
Lemma exp2_1 : exp2R 1 = 2. Proof. unfold exp2R. apply Rpower_1. lra. Qed.
Lemma log2_le x y : 0 < x -> x <= y -> log2R x <= log2R y.
Proof.
  intros H L. unfold log2R. apply Rmult_le_compat_r; [left; apply Rinv_0_lt_compat, ln2_pos|].
  destruct (Req_dec x y) as [->|N]; [lra|]. left. apply ln_increasing; lra.
Qed.
Lemma log2_pow k : log2R (powerRZ 2 k) = IZR k.
Proof.
  rewrite <- exp2_IZR. unfold log2R, exp2R, Rpower. rewrite ln_exp. field. pose proof ln2_pos; lra.
Qed.

(** Closed powers of two. *)
Ltac pz := repeat match goal with
  | |- context [powerRZ 2 ?k] =>
      let z := eval compute in k in
      match z with
      | Z0 => change (powerRZ 2 k) with 1
      | Zpos ?p => let n := eval compute in (Pos.to_nat p) in change (powerRZ 2 k) with (2 ^ n)
      | Zneg ?p => let n := eval compute in (Pos.to_nat p) in change (powerRZ 2 k) with (/ (2 ^ n))
      end
  end.
Lemma pm2 : powerRZ 2 (-2) = 1 / 4. Proof. pz. field. Qed.
Lemma pm1 : powerRZ 2 (-1) = 1 / 2. Proof. pz. field. Qed.
Lemma p0 : powerRZ 2 0 = 1. Proof. reflexivity. Qed.
Lemma p1 : powerRZ 2 1 = 2. Proof. pz. ring. Qed.

(** * Specification *)
(** The nearest power of two (in the log domain): within a factor sqrt 2. *)
Definition near_pow2 (x : R) (k : Z) : Prop := x * x / 2 <= powerRZ 2 k * powerRZ 2 k <= 2 * (x * x).
(** Minimum as documented: None, or a lower bound. *)
Definition at_least (mv : option R) (x : R) : R := match mv with Some m => Rmax m x | None => x end.
(** The lower bound leaves x alone. *)
Definition below (mv : option R) (x : R) : Prop := match mv with Some m => m <= x | None => True end.

Lemma clamp_at_least mv x : clamp_value mv x = at_least mv x.
Proof. destruct mv as [m|]; [|reflexivity]. cbn. unfold Rmax. destruct (Rlt_dec x m), (Rle_dec m x); try lra; reflexivity. Qed.
Lemma clamp_below mv x : below mv x -> clamp_value mv x = x.
Proof. destruct mv as [m|]; [|reflexivity]. cbn. intros H. destruct (Rlt_dec x m); lra. Qed.

Lemma near_pow2_round x : 0 < x -> near_pow2 x (Runtime.roundR (log2R x)).
Proof.
  intros H. unfold near_pow2. pose proof (roundR_near (log2R x)) as N. set (k := Runtime.roundR (log2R x)) in *. clearbody k.
  rewrite <- exp2_IZR, <- exp2_add. unfold Rabs in N.
  replace (x * x) with (exp2R (log2R x + log2R x)) by (rewrite exp2_add, exp2_log2 by exact H; reflexivity).
  assert (E2 : forall z, 2 * exp2R z = exp2R (z + 1)) by (intros; rewrite exp2_add, exp2_1; ring).
  assert (E3 : forall z, exp2R z / 2 = exp2R (z - 1)) by (intros; rewrite exp2_sub, exp2_1; reflexivity).
  rewrite E2, E3. destruct (Rcase_abs _) in N; split; apply exp2_le; lra.
Qed.

(** * C102 *)
Definition plain (r : Runtime.restrict) : Prop := r = RFloat \/ r = RLogFloat.

Lemma restrict_pre_plain r x : plain r -> 0 < x -> restrict_fwd r (pre r x) = x.
Proof. intros [-> | ->] H; cbn; [reflexivity|]. apply exp2_log2, H. Qed.

(** A constant scale without restriction (or in the log domain): the value over the threshold,
    where the minimum applies to both. *)
Theorem C102_const : forall r mv init t, plain r -> 0 < init -> 0 < t ->
  const_scaling r mv init (Some t) = at_least mv init / at_least mv t.
Proof.
  intros r mv init t P Hi Ht. unfold const_scaling, restrict_clamp_scaling.
  rewrite !(restrict_pre_plain r) by assumption. rewrite !clamp_at_least. reflexivity.
Qed.
(** With no minimum, or one below both numbers, the integer threshold has the value [init]. *)
Theorem C102_const_init : forall r mv init t, plain r -> 0 < init -> 0 < t -> below mv init -> below mv t ->
  const_scaling r mv init (Some t) * t = init.
Proof.
  intros r mv init t P Hi Ht Bi Bt. unfold const_scaling, restrict_clamp_scaling.
  rewrite !(restrict_pre_plain r) by assumption. rewrite !clamp_below by assumption. field. lra.
Qed.

(** Documentation (standalone.py L41-47): ConstScaling(1.0, scaling_min_val=3.0) returns 3.  It
    returns 1, since the minimum is applied to the implicit threshold of 1 as well. *)
Theorem C102_const_min_val_refuted :
  const_scaling RFloat (Some 3) 1 None = 1
  /\ forall init mv, 0 < init <= mv -> 1 <= mv -> const_scaling RFloat (Some mv) init None = 1.
Proof.
  assert (G : forall init mv, 0 < init <= mv -> 1 <= mv -> const_scaling RFloat (Some mv) init None = 1).
  { intros init mv H1 H2. unfold const_scaling, restrict_clamp_scaling. rewrite !clamp_at_least. cbn.
    rewrite !Rmax_left by lra. field. lra. }
  split; [apply G; lra|exact G].
Qed.

(** Power-of-two restriction: an exact power of two, the quotient of the powers nearest to the
    value and to the threshold. *)
Theorem C102_const_power_of_two : forall init t, 0 < init -> 0 < t ->
  exists a b, near_pow2 init a /\ near_pow2 t b
    /\ const_scaling RPowerOfTwo None init (Some t) = powerRZ 2 (a - b)
    /\ init / t / 2 <= powerRZ 2 (a - b) <= 2 * (init / t).
Proof.
  intros init t Hi Ht. exists (Runtime.roundR (log2R init)), (Runtime.roundR (log2R t)).
  split; [apply near_pow2_round, Hi|]. split; [apply near_pow2_round, Ht|].
  unfold const_scaling, restrict_clamp_scaling. cbn [clamp_value restrict_fwd pre].
  pose proof (roundR_near (log2R init)) as N1. pose proof (roundR_near (log2R t)) as N2.
  set (a := Runtime.roundR (log2R init)) in *. set (b := Runtime.roundR (log2R t)) in *. clearbody a b.
  rewrite <- !exp2_IZR, minus_IZR, <- exp2_sub. split; [reflexivity|].
  replace (init / t) with (exp2R (log2R init - log2R t)) by (rewrite exp2_sub, !exp2_log2 by assumption; reflexivity).
  assert (E2 : forall z, 2 * exp2R z = exp2R (z + 1)) by (intros; rewrite exp2_add, exp2_1; ring).
  assert (E3 : forall z, exp2R z / 2 = exp2R (z - 1)) by (intros; rewrite exp2_sub, exp2_1; reflexivity).
  rewrite E2, E3. unfold Rabs in *. destruct (Rcase_abs _) in N1; destruct (Rcase_abs _) in N2; split; apply exp2_le; lra.
Qed.

(** A minimum that is not a power of two breaks the restriction. *)
Theorem C102_power_of_two_min_val_refuted : exists mv init t, 0 < mv /\ mv <= 1 /\ 0 < init /\ 1 <= t
  /\ forall k : Z, const_scaling RPowerOfTwo (Some mv) init (Some t) <> powerRZ 2 k.
Proof.
  exists (3 / 8), (1 / 4), 1. repeat split; try lra. intros k E.
  unfold const_scaling, restrict_clamp_scaling in E. cbn [restrict_fwd pre] in E.
  rewrite <- pm2, <- p0 in E.
  rewrite !log2_pow, !roundR_IZR, !exp2_IZR in E. rewrite !clamp_at_least in E. cbn [at_least] in E.
  rewrite ?pm2, ?p0 in E. rewrite (Rmax_left (3 / 8)), (Rmax_right (3 / 8)) in E by lra.
  assert (E' : powerRZ 2 k = 3 / 8) by lra. clear E.
  destruct (Z.le_gt_cases k (-2)) as [L|L].
  - assert (powerRZ 2 k <= powerRZ 2 (-2)); [|rewrite pm2 in *; lra].
    rewrite <- !exp2_IZR. apply exp2_le, IZR_le, L.
  - assert (powerRZ 2 (-1) <= powerRZ 2 k); [|rewrite pm1 in *; lra].
    rewrite <- !exp2_IZR. apply exp2_le, IZR_le. lia.
Qed.

(** ** Learned scales *)

Lemma restrict_clamp_nonneg r mv x : 0 < x -> 0 <= restrict_clamp_scaling r mv (pre r x).
Proof.
  intros H. unfold restrict_clamp_scaling. rewrite clamp_at_least.
  assert (G : 0 <= restrict_fwd r (pre r x)).
  { destruct r; cbn [restrict_fwd pre]; try (left; apply exp2_pos); [lra|]. apply (IZR_le 0), roundR_ge. lra. }
  destruct mv as [m|]; cbn [at_least]; [|exact G]. pose proof (Rmax_r m (restrict_fwd r (pre r x))). lra.
Qed.
Lemma param_const r mv x t : 0 < x -> param_scaling r mv (pre r x) t = const_scaling r mv x t.
Proof.
  intros H. unfold param_scaling, const_scaling. rewrite Rabs_right; [reflexivity|].
  apply Rle_ge, restrict_clamp_nonneg, H.
Qed.

(** A new learned scale has the declared shape, every element has the scale of a constant with
    the same positive value, and only a mismatching tensor is refused. *)
Theorem C102_learned_init : forall r mv init sh t,
  match param_scaling_init r init sh with
  | Some (sh', vs) =>
      (forall s, sh = Some s -> sh' = s)
      /\ (forall v, init = IScalar v -> 0 < v -> length vs = fold_right Nat.mul 1%nat sh'
           /\ forall e, In e vs -> param_scaling r mv e t = const_scaling r mv v t)
      /\ (forall s xs, init = ITensor s xs -> sh' = s /\ length vs = length xs
           /\ forall i x, nth_error xs i = Some x -> 0 < x ->
                exists e, nth_error vs i = Some e /\ param_scaling r mv e t = const_scaling r mv x t)
  | None => exists s s' xs, init = ITensor s xs /\ sh = Some s' /\ s <> s'
  end.
Proof.
  intros r mv init sh t.
  destruct init as [v|s xs], sh as [s'|]; cbn [param_scaling_init].
  - split; [intros s E; congruence|]. split; [|intros; discriminate].
    intros w E Hw. injection E as <-. split; [apply repeat_length|].
    intros e I. apply repeat_spec in I. subst e. apply param_const, Hw.
  - split; [intros s E; discriminate|]. split; [|intros; discriminate].
    intros w E Hw. injection E as <-. split; [reflexivity|].
    intros e [<-|[]]. apply param_const, Hw.
  - destruct (list_eq_dec Nat.eq_dec s s') as [<-|N].
    + split; [intros; congruence|]. split; [intros; discriminate|].
      intros q ys E. injection E as <- <-. split; [reflexivity|]. split; [apply map_length|].
      intros i x Hx G. exists (pre r x). split; [apply map_nth_error, Hx|]. apply param_const, G.
    + exists s, s', xs. repeat split; assumption.
  - split; [intros; discriminate|]. split; [intros; discriminate|].
    intros q ys E. injection E as <- <-. split; [reflexivity|]. split; [apply map_length|].
    intros i x Hx G. exists (pre r x). split; [apply map_nth_error, Hx|]. apply param_const, G.
Qed.
(** ... and a mismatching tensor is always refused. *)
Theorem C102_learned_shape_mismatch : forall r s s' xs, s <> s' -> param_scaling_init r (ITensor s xs) (Some s') = None.
Proof. intros r s s' xs N. cbn. destruct (list_eq_dec Nat.eq_dec s s'); [contradiction|reflexivity]. Qed.

(** Whatever value training gives to the parameter, a positive minimum keeps the scale positive
    (and at least minimum over threshold); in the log domain it is positive without a minimum. *)
Theorem C102_learned_positive : forall r m v t, 0 < m -> 0 < t ->
  0 < param_scaling r (Some m) v (Some t)
  /\ (plain r -> m / Rmax m t <= param_scaling r (Some m) v (Some t)).
Proof.
  intros r m v t Hm Ht. unfold param_scaling, restrict_clamp_scaling. rewrite !clamp_at_least. cbn [at_least].
  set (a := restrict_fwd r v). set (b := restrict_fwd r (pre r t)).
  assert (A : m <= Rmax m a) by apply Rmax_l. assert (B : m <= Rmax m b) by apply Rmax_l.
  rewrite Rabs_right by lra. split.
  - apply Rdiv_lt_0_compat; lra.
  - intros P. unfold b in *. rewrite restrict_pre_plain in * by assumption. unfold Rdiv. apply Rmult_le_compat_r; [|exact A].
    left. apply Rinv_0_lt_compat. lra.
Qed.
Theorem C102_log_domain_positive : forall r v t, r = RLogFloat \/ r = RPowerOfTwo ->
  0 < param_scaling r None v (Some t).
Proof.
  intros r v t [-> | ->]; unfold param_scaling, restrict_clamp_scaling; cbn [clamp_value restrict_fwd pre];
    rewrite Rabs_right by (left; apply exp2_pos); apply Rdiv_lt_0_compat; apply exp2_pos.
Qed.

(** The absolute value comes after the minimum: with a minimum a learned value that crosses
    zero is not mirrored but replaced by the minimum. *)
Theorem C102_negative_value_refuted : exists v t m, 0 < m /\ m <= t /\
  param_scaling RFloat None v (Some t) = 5 /\ param_scaling RFloat (Some m) v (Some t) = 1 / 1000.
Proof.
  exists (-5), 1, (1 / 1000). unfold param_scaling, restrict_clamp_scaling. rewrite !clamp_at_least. cbn.
  rewrite (Rmax_left (1/1000) (-5)), Rmax_right, Rabs_left, Rabs_right by lra. repeat split; lra.
Qed.

(** ** Limits of an activation *)
Lemma Some_inj (a b : R) : Some a = Some b -> a = b. Proof. intros H. congruence. Qed.
Lemma clampR_bounds x lo hi : lo <= hi -> lo <= clampR x lo hi <= hi.
Proof. intros H. unfold clampR. destruct (Rlt_dec hi x); destruct (Rlt_dec _ lo); lra. Qed.
Lemma clampR_id x lo hi : lo <= x <= hi -> clampR x lo hi = x.
Proof. intros H. unfold clampR. destruct (Rlt_dec hi x); destruct (Rlt_dec _ lo); lra. Qed.
Lemma clampR_hi x lo hi : lo <= hi -> hi <= x -> clampR x lo hi = hi.
Proof. intros H G. unfold clampR. destruct (Rlt_dec hi x); destruct (Rlt_dec _ lo); lra. Qed.
Lemma clampR_lo x lo hi : lo <= hi -> x <= lo -> clampR x lo hi = lo.
Proof. intros H G. unfold clampR. destruct (Rlt_dec hi x); destruct (Rlt_dec _ lo); lra. Qed.

Lemma quant_inside sg nr s z b x : 0 < s ->
  IZR (min_int sg nr b) <= x / s + z <= IZR (max_int sg nr b) ->
  Rabs (int_quantR sg nr s z b x - x) <= s / 2.
Proof.
  intros Hs H. unfold int_quantR, to_intR.
  rewrite clampR_id.
  2: { split; apply IZR_le; [apply roundR_ge|apply roundR_le]; lra. }
  pose proof (roundR_near (x / s + z)) as N. set (k := Runtime.roundR _) in *. clearbody k.
  replace ((IZR k - z) * s - x) with ((IZR k - (x / s + z)) * s) by (field; lra).
  rewrite Rabs_mult, (Rabs_right s) by lra. replace (s / 2) with (1 / 2 * s) by lra. apply Rmult_le_compat_r; lra.
Qed.
Lemma quant_above sg nr s z b x : 0 < s -> (min_int sg nr b <= max_int sg nr b)%Z ->
  IZR (max_int sg nr b) <= x / s + z -> int_quantR sg nr s z b x = (IZR (max_int sg nr b) - z) * s.
Proof.
  intros Hs L H. unfold int_quantR, to_intR. rewrite clampR_hi; [reflexivity|apply IZR_le, L|]. apply IZR_le, roundR_ge, H.
Qed.
Lemma quant_below sg nr s z b x : 0 < s -> (min_int sg nr b <= max_int sg nr b)%Z ->
  x / s + z <= IZR (min_int sg nr b) -> int_quantR sg nr s z b x = (IZR (min_int sg nr b) - z) * s.
Proof.
  intros Hs L H. unfold int_quantR, to_intR. rewrite clampR_lo; [reflexivity|apply IZR_le, L|]. apply IZR_le, roundR_le, H.
Qed.

Lemma min_max_init_pos lo hi : (lo <> 0 \/ hi <> 0) -> 0 < min_max_scaling_init lo hi.
Proof.
  intros H. unfold min_max_scaling_init. pose proof (Rmax_l (Rabs lo) (Rabs hi)). pose proof (Rmax_r (Rabs lo) (Rabs hi)).
  destruct H as [H|H]; apply Rabs_pos_lt in H; lra.
Qed.

Lemma act_scale_plain r sg nr b lo hi : plain r -> (lo <> 0 \/ hi <> 0) -> (0 < int_scaling sg nr b)%Z ->
  act_scale r sg nr b lo hi = Some (min_max_scaling_init lo hi / IZR (int_scaling sg nr b)).
Proof.
  intros P H T. unfold act_scale. apply min_max_init_pos in H. apply IZR_lt in T.
  set (m := min_max_scaling_init lo hi) in *.
  replace (act_threshold r sg nr b) with (Some (IZR (int_scaling sg nr b))) by (destruct P as [-> | ->]; reflexivity).
  cbn [param_scaling_init]. f_equal. unfold param_scaling, restrict_clamp_scaling.
  rewrite !(restrict_pre_plain r) by assumption. cbn [clamp_value]. rewrite Rabs_right by lra. reflexivity.
Qed.

Lemma div_scale_le x m t : 0 < m -> 0 < t -> x <= m -> x / (m / t) <= t.
Proof. intros. replace (x / (m / t)) with (x / m * t) by (field; lra). rewrite <- (Rmult_1_l t) at 2. apply Rmult_le_compat_r; [lra|]. apply Rmult_le_reg_r with m; [lra|]. unfold Rdiv. rewrite Rmult_assoc, Rinv_l; lra. Qed.
Lemma div_scale_ge x m t : 0 < m -> 0 < t -> m <= x -> t <= x / (m / t).
Proof. intros. replace (x / (m / t)) with (x / m * t) by (field; lra). rewrite <- (Rmult_1_l t) at 1. apply Rmult_le_compat_r; [lra|]. apply Rmult_le_reg_r with m; [lra|]. unfold Rdiv. rewrite Rmult_assoc, Rinv_l; lra. Qed.
Lemma div_scale_pos m t : 0 < m -> 0 < t -> 0 < m / t.
Proof. intros. apply Rdiv_lt_0_compat; lra. Qed.
Lemma div_opp x s : s <> 0 -> - x / s = - (x / s). Proof. intros. field. assumption. Qed.

(** Unsigned quantizers (min_val is 0): the largest code is exactly [max_val], every activation
    between the limits is off by at most half a step, the others saturate at the limits. *)
Theorem C102_limits_unsigned : forall r nr b max_val, plain r -> (1 <= b)%Z -> (nr = true -> 2 <= b)%Z -> 0 < max_val ->
  exists s, act_scale r false nr b 0 max_val = Some s /\ s = max_val / IZR (2 ^ b - (if nr then 2 else 1))
  /\ forall x y, act_quant r false nr b 0 max_val x = Some y ->
       (0 <= x <= max_val -> Rabs (y - x) <= s / 2) /\ (max_val <= x -> y = max_val) /\ (x <= 0 -> y = 0).
Proof.
  intros r nr b m P Hb Hn Hm.
  assert (T : (0 < int_scaling false nr b)%Z /\ int_scaling false nr b = (2 ^ b - (if nr then 2 else 1))%Z
              /\ max_int false nr b = int_scaling false nr b /\ min_int false nr b = 0%Z).
  { unfold int_scaling, max_int, min_int.
    assert (P1 : (2 ^ 1 <= 2 ^ b)%Z) by (apply Z.pow_le_mono_r; lia).
    destruct nr; cbn [negb andb]; repeat split; try lia.
    assert ((2 ^ 2 <= 2 ^ b)%Z) by (apply Z.pow_le_mono_r; lia). lia. }
  destruct T as (T & TE & MX & MN).
  assert (I : min_max_scaling_init 0 m = m).
  { unfold min_max_scaling_init. rewrite Rabs_R0, Rabs_right, Rmax_right by lra. reflexivity. }
  assert (Sc : act_scale r false nr b 0 m = Some (m / IZR (int_scaling false nr b))).
  { rewrite act_scale_plain by (try assumption; right; lra). rewrite I. reflexivity. }
  exists (m / IZR (int_scaling false nr b)). split; [exact Sc|]. split; [rewrite TE; reflexivity|].
  intros x y Y. unfold act_quant in Y. rewrite Sc in Y. apply Some_inj in Y. subst y.
  apply IZR_lt in T. set (t := IZR (int_scaling false nr b)) in *.
  pose proof (div_scale_pos m t Hm T) as Hs.
  assert (Le : (min_int false nr b <= max_int false nr b)%Z) by (apply le_IZR; rewrite MX, MN; fold t; lra).
  split; [|split].
  - intros Hx. apply quant_inside; [exact Hs|]. rewrite MX, MN. fold t. split.
    + assert (0 <= x / (m / t)); [|lra]. unfold Rdiv at 1. apply Rmult_le_pos; [lra|]. left. apply Rinv_0_lt_compat, Hs.
    + pose proof (div_scale_le x m t Hm T ltac:(lra)). lra.
  - intros Hx. rewrite quant_above; try assumption.
    + rewrite MX. fold t. field. lra.
    + rewrite MX. fold t. pose proof (div_scale_ge x m t Hm T Hx). lra.
  - intros Hx. rewrite quant_below; try assumption.
    + rewrite MN. ring.
    + rewrite MN. assert (x / (m / t) <= 0); [|lra]. unfold Rdiv at 1.
      assert (0 < / (m / t)) by (apply Rinv_0_lt_compat, Hs). nra.
Qed.

(** Signed quantizers: the lowest code is exactly minus the larger limit m; with a narrow range
    the highest is m, otherwise one step below it. *)
Theorem C102_limits_signed : forall r nr b min_val max_val m, plain r -> (2 <= b)%Z ->
  m = Rmax (Rabs min_val) (Rabs max_val) -> 0 < m ->
  exists s, act_scale r true nr b min_val max_val = Some s /\ s = m / IZR (2 ^ (b - 1) - (if nr then 1 else 0))
  /\ let top := if nr then m else m - s in
     forall x y, act_quant r true nr b min_val max_val x = Some y ->
       (- m <= x <= top -> Rabs (y - x) <= s / 2) /\ (top <= x -> y = top) /\ (x <= - m -> y = - m).
Proof.
  intros r nr b lo hi m P Hb Em Hm.
  assert (T : (0 < int_scaling true nr b)%Z /\ int_scaling true nr b = (2 ^ (b - 1) - (if nr then 1 else 0))%Z
              /\ max_int true nr b = (int_scaling true nr b - (if nr then 0 else 1))%Z /\ min_int true nr b = (- int_scaling true nr b)%Z).
  { unfold int_scaling, max_int, min_int.
    assert (P1 : (2 ^ 1 <= 2 ^ (b - 1))%Z) by (apply Z.pow_le_mono_r; lia).
    destruct nr; cbn [negb andb]; repeat split; lia. }
  destruct T as (T & TE & MX & MN).
  assert (Sc : act_scale r true nr b lo hi = Some (m / IZR (int_scaling true nr b))).
  { rewrite act_scale_plain; [unfold min_max_scaling_init; rewrite <- Em; reflexivity|exact P| |exact T].
    destruct (Req_dec lo 0) as [->|N]; [|left; exact N]. right. intros ->. rewrite Rabs_R0, Rmax_left in Em; lra. }
  exists (m / IZR (int_scaling true nr b)). split; [exact Sc|]. split; [rewrite TE; reflexivity|]. cbn zeta.
  intros x y Y. unfold act_quant in Y. rewrite Sc in Y. apply Some_inj in Y. subst y.
  apply IZR_lt in T. set (t := IZR (int_scaling true nr b)) in *.
  pose proof (div_scale_pos m t Hm T) as Hs.
  assert (MNR : IZR (min_int true nr b) = - t) by (rewrite MN, opp_IZR; reflexivity).
  assert (MXR : IZR (max_int true nr b) = t - (if nr then 0 else 1)) by (rewrite MX, minus_IZR; destruct nr; reflexivity).
  assert (T1 : 1 <= t) by (apply (IZR_le 1); apply lt_IZR in T; lia).
  assert (Le : (min_int true nr b <= max_int true nr b)%Z) by (apply le_IZR; rewrite MXR, MNR; destruct nr; lra).
  assert (Top : (if nr then m else m - m / t) = (t - (if nr then 0 else 1)) * (m / t)) by (destruct nr; field; lra).
  assert (Sx : forall u, u * (m / t) / (m / t) = u) by (intros; field; lra).
  assert (Mono : forall u v, u <= v -> u / (m / t) <= v / (m / t)).
  { intros u v H. unfold Rdiv at 1 3. apply Rmult_le_compat_r; [left; apply Rinv_0_lt_compat, Hs|exact H]. }
  assert (Low : - m = - t * (m / t)) by (field; lra).
  split; [|split].
  - intros [H1 H2]. apply quant_inside; [exact Hs|]. rewrite MXR, MNR. rewrite Top in H2. rewrite Low in H1.
    apply Mono in H1. apply Mono in H2. rewrite Sx in H1, H2. lra.
  - intros H. rewrite Top in *. rewrite quant_above; try assumption.
    + rewrite MXR. ring.
    + rewrite MXR. apply Mono in H. rewrite Sx in H. lra.
  - intros H. rewrite Low in *. rewrite quant_below; try assumption.
    + rewrite MNR. ring.
    + rewrite MNR. apply Mono in H. rewrite Sx in H. lra.
Qed.

(** A signed full-range quantizer does not reach [max_val]: that activation is a whole step off. *)
Theorem C102_signed_max_val_refuted : exists b min_val max_val s y,
  act_scale RFloat true false b min_val max_val = Some s /\ act_quant RFloat true false b min_val max_val max_val = Some y
  /\ max_val - y = s /\ 0 < s.
Proof.
  destruct (C102_limits_signed RFloat false 8 (-1) 1 1) as (s & E & Es & H); try lia; try lra; [left; reflexivity| |].
  { rewrite Rabs_left, Rabs_right, Rmax_left by lra. lra. }
  cbn zeta in H. assert (E2 : act_quant RFloat true false 8 (-1) 1 1 = Some (int_quantR true false s 0 8 1)) by (unfold act_quant; rewrite E; reflexivity).
  exists 8%Z, (-1), 1, s, (int_quantR true false s 0 8 1). split; [exact E|]. split; [exact E2|].
  assert (Hs : 0 < s) by (rewrite Es; cbn; lra).
  destruct (H 1 _ E2) as (_ & H2 & _). rewrite H2 by (cbn iota; lra). split; lra.
Qed.

(** Power-of-two scales: the range ends at the power of two nearest to the larger limit (one
    step below it on the positive side). *)
Theorem C102_limits_power_of_two : forall sg b min_val max_val m, (2 <= b)%Z ->
  m = Rmax (Rabs min_val) (Rabs max_val) -> 0 < m ->
  exists k, near_pow2 m k
  /\ act_scale RPowerOfTwo sg false b min_val max_val = Some (powerRZ 2 (k - (if sg then b - 1 else b)))
  /\ forall x y, act_quant RPowerOfTwo sg false b min_val max_val x = Some y ->
       let s := powerRZ 2 (k - (if sg then b - 1 else b)) in
       let top := powerRZ 2 k - s in let bottom := if sg then - powerRZ 2 k else 0 in
       (bottom <= x <= top -> Rabs (y - x) <= s / 2) /\ (top <= x -> y = top) /\ (x <= bottom -> y = bottom).
Proof.
  intros sg b lo hi m Hb Em Hm. exists (Runtime.roundR (log2R m)). split; [apply near_pow2_round, Hm|].
  set (k := Runtime.roundR (log2R m)). set (n := if sg then (b - 1)%Z else b).
  assert (Hn : (1 <= n)%Z) by (unfold n; destruct sg; lia).
  assert (PT : pot_int_scaling sg b = (2 ^ n)%Z) by (unfold pot_int_scaling, max_int, n; destruct sg; cbn [negb andb]; lia).
  assert (PZ : IZR (2 ^ n) = powerRZ 2 n).
  { rewrite <- (Z2Nat.id n) at 1 by lia. rewrite <- pow_IZR. rewrite <- (Z2Nat.id n) at 2 by lia. rewrite <- pow_powerRZ. reflexivity. }
  assert (Sc : act_scale RPowerOfTwo sg false b lo hi = Some (powerRZ 2 (k - n))).
  { unfold act_scale. cbn [act_threshold param_scaling_init]. f_equal. unfold param_scaling, restrict_clamp_scaling, min_max_scaling_init.
    rewrite <- Em, PT, PZ. cbn [clamp_value restrict_fwd pre]. fold k. rewrite log2_pow, roundR_IZR.
    rewrite Rabs_right by (left; apply exp2_pos). rewrite <- exp2_sub, <- minus_IZR, exp2_IZR. reflexivity. }
  split; [exact Sc|]. intros x y Y. cbn zeta. unfold act_quant in Y. rewrite Sc in Y. apply Some_inj in Y. subst y.
  set (s := powerRZ 2 (k - n)) in *. assert (Hs : 0 < s) by (apply powerRZ_lt; lra).
  set (t := powerRZ 2 n) in *.
  assert (T1 : 2 <= t).
  { rewrite <- PZ. apply IZR_le. change 2%Z with (2 ^ 1)%Z at 1. apply Z.pow_le_mono_r; lia. }
  assert (K : powerRZ 2 k = t * s).
  { unfold t, s. rewrite <- powerRZ_add by lra. f_equal. lia. }
  assert (MX : IZR (max_int sg false b) = t - 1).
  { rewrite <- PZ, <- PT. unfold pot_int_scaling. rewrite plus_IZR. lra. }
  assert (MN : IZR (min_int sg false b) = if sg then - t else 0).
  { rewrite <- PZ. unfold min_int, n. destruct sg; cbn [negb andb]; [rewrite opp_IZR; reflexivity|reflexivity]. }
  assert (Le : (min_int sg false b <= max_int sg false b)%Z) by (apply le_IZR; rewrite MX, MN; destruct sg; lra).
  assert (Sx : forall u, u * s / s = u) by (intros; field; lra).
  assert (Mono : forall u v, u <= v -> u / s <= v / s).
  { intros u v H. unfold Rdiv. apply Rmult_le_compat_r; [left; apply Rinv_0_lt_compat, Hs|exact H]. }
  rewrite K. replace (t * s - s) with ((t - 1) * s) by ring.
  replace (if sg then - (t * s) else 0) with ((if sg then - t else 0) * s) by (destruct sg; ring).
  split; [|split].
  - intros [H1 H2]. apply quant_inside; [exact Hs|]. rewrite MX, MN. apply Mono in H1. apply Mono in H2. rewrite Sx in H1, H2. lra.
  - intros H. rewrite quant_above; try assumption; rewrite MX; [ring|]. apply Mono in H. rewrite Sx in H. lra.
  - intros H. rewrite quant_below; try assumption; rewrite MN; [ring|]. apply Mono in H. rewrite Sx in H. lra.
Qed.

(** The nearest power of two may be below the limit: activations well inside the declared
    interval are clipped. *)
Theorem C102_power_of_two_clips_refuted : exists b max_val x y,
  0 <= x <= max_val /\ act_quant RPowerOfTwo false false b 0 max_val x = Some y /\ x - y > max_val / 5.
Proof.
  destruct (C102_limits_power_of_two false 8 0 (5 / 4) (5 / 4)) as (k & N & Sc & H); try lia; try lra.
  { rewrite Rabs_R0, Rabs_right, Rmax_right by lra. reflexivity. }
  assert (K : k = 0%Z).
  { unfold near_pow2 in N. destruct (Z.lt_trichotomy k 0) as [L|[->|L]]; [|reflexivity|].
    - assert (powerRZ 2 k <= powerRZ 2 (-1)) by (rewrite <- !exp2_IZR; apply exp2_le, IZR_le; lia).
      assert (0 < powerRZ 2 k) by (apply powerRZ_lt; lra). rewrite pm1 in *. nra.
    - assert (powerRZ 2 1 <= powerRZ 2 k) by (rewrite <- !exp2_IZR; apply exp2_le, IZR_le; lia). rewrite p1 in *. nra. }
  subst k. exists 8%Z, (5 / 4), (5 / 4), (int_quantR false false (powerRZ 2 (0 - 8)) 0 8 (5 / 4)).
  assert (E : act_quant RPowerOfTwo false false 8 0 (5 / 4) (5 / 4) = Some (int_quantR false false (powerRZ 2 (0 - 8)) 0 8 (5 / 4)))
    by (unfold act_quant; rewrite Sc; reflexivity).
  split; [lra|]. split; [exact E|]. destruct (H _ _ E) as (_ & H2 & _).
  assert (Sp : 0 < powerRZ 2 (0 - 8)) by (apply powerRZ_lt; lra).
  rewrite H2 by (change (powerRZ 2 0) with 1; lra). change (powerRZ 2 0) with 1.
  replace (powerRZ 2 (0 - 8)) with (/ 256) by (pz; field). lra.
Qed.

(** ** Examples *)
(** standalone.py L48-49: ConstScaling(3.0, PowerOfTwoRestrictValue()) is 4; L118-119:
    ParameterScaling(6.0, ...) is 8. *)
Lemma round_log2_example a k : 0 < a -> powerRZ 2 (2 * k - 1) < a * a < powerRZ 2 (2 * k + 1) -> Runtime.roundR (log2R a) = k.
Proof.
  intros Ha [H1 H2]. apply roundR_unique.
  assert (D : log2R (a * a) = 2 * log2R a) by (unfold log2R; rewrite ln_mult by assumption; field; pose proof ln2_pos; lra).
  assert (St : forall x y, 0 < x -> x < y -> log2R x < log2R y).
  { intros x y Hx L. unfold log2R. apply Rmult_lt_compat_r; [apply Rinv_0_lt_compat, ln2_pos|]. apply ln_increasing; assumption. }
  apply St in H1; [|apply powerRZ_lt; lra]. apply St in H2; [|nra].
  rewrite log2_pow, D in *. rewrite minus_IZR in H1. rewrite plus_IZR in H2. rewrite mult_IZR in *. apply Rabs_def1; lra.
Qed.
Example C102_doc_const : const_scaling RPowerOfTwo None 3 None = 4.
Proof.
  unfold const_scaling, restrict_clamp_scaling. cbn [clamp_value restrict_fwd pre].
  rewrite (round_log2_example 3 2), (round_log2_example 1 0) by (pz; lra). rewrite !exp2_IZR. pz. lra.
Qed.
Example C102_doc_parameter :
  param_scaling_init RPowerOfTwo (IScalar 6) (Some [3%nat]) = Some ([3%nat], repeat (log2R 6) 3)
  /\ param_scaling RPowerOfTwo None (log2R 6) None = 8.
Proof.
  split; [reflexivity|]. unfold param_scaling, restrict_clamp_scaling. cbn [clamp_value restrict_fwd pre].
  rewrite (round_log2_example 6 3), (round_log2_example 1 0) by (pz; lra). rewrite !exp2_IZR. pz. rewrite Rabs_right; lra.
Qed.
(** scaled_int.py L52-56: limits -0.5 and 0.5 at 8 bits. *)
Example C102_doc_act : act_scale RFloat true false 8 (-0.5) 0.5 = Some (0.5 / 128) /\ 0.5 / 128 * 127 = 0.49609375.
Proof.
  destruct (C102_limits_signed RFloat false 8 (-0.5) 0.5 0.5) as (s & E & Es & _); try lia; try lra; [left; reflexivity| |].
  { rewrite Rabs_left, Rabs_right, Rmax_left; lra. }
  rewrite E, Es. split; [f_equal; cbn; lra|lra].
Qed.

(** * C103 *)
(** The range of codes is wide enough for the zero point. *)
Definition fits (signed narrow : bool) (b : Z) (v s : R) : Prop :=
  Rabs v / s <= IZR (max_int signed narrow b - min_int signed narrow b).

(** A quantized learned zero point: an integer of the range, the lowest representable value is
    within half a step of minus its magnitude, and zero is represented exactly. *)
Theorem C103_quantized : forall sg nr b v s, 0 < s -> fits sg nr b v s ->
  exists k, param_zero_point sg nr true v s b = IZR k /\ (min_int sg nr b <= k <= max_int sg nr b)%Z
    /\ Rabs ((IZR (min_int sg nr b) - IZR k) * s + Rabs v) <= s / 2
    /\ int_quantR sg nr s (IZR k) b 0 = 0.
Proof.
  intros sg nr b v s Hs F. unfold fits in F. rewrite minus_IZR in F.
  set (lo := min_int sg nr b) in *. set (hi := max_int sg nr b) in *.
  assert (V : 0 <= Rabs v / s) by (unfold Rdiv; apply Rmult_le_pos; [apply Rabs_pos|left; apply Rinv_0_lt_compat, Hs]).
  set (u := Rabs v / s + IZR lo). set (k := Runtime.roundR u).
  assert (B : (lo <= k <= hi)%Z) by (split; [apply roundR_ge|apply roundR_le]; unfold u; lra).
  assert (BR : IZR lo <= IZR k <= IZR hi) by (split; apply IZR_le; lia).
  exists k. split; [|split; [exact B|split]].
  - unfold param_zero_point, scale_shift, to_intR. fold lo hi. fold u. fold k. apply clampR_id, BR.
  - pose proof (roundR_near u) as N. fold k in N.
    replace ((IZR lo - IZR k) * s + Rabs v) with (- ((IZR k - u) * s)) by (unfold u; field; lra).
    rewrite Rabs_Ropp, Rabs_mult, (Rabs_right s) by lra. replace (s / 2) with (1 / 2 * s) by lra. apply Rmult_le_compat_r; lra.
  - unfold int_quantR, to_intR. fold lo hi. replace (0 / s + IZR k) with (IZR k) by (unfold Rdiv; ring).
    rewrite roundR_IZR, clampR_id by exact BR. ring.
Qed.

(** Values from the lowest representable one upwards are covered over the whole width of the
    range. *)
Theorem C103_covered : forall sg nr b v s x z, 0 < s -> fits sg nr b v s -> z = param_zero_point sg nr true v s b ->
  let lowest := (IZR (min_int sg nr b) - z) * s in
  lowest <= x <= lowest + IZR (max_int sg nr b - min_int sg nr b) * s ->
  Rabs (int_quantR sg nr s z b x - x) <= s / 2.
Proof.
  intros sg nr b v s x z Hs F Ez. cbn zeta. intros [H1 H2]. apply quant_inside; [exact Hs|].
  rewrite minus_IZR in H2.
  assert (Mono : forall p q, p <= q -> p / s <= q / s).
  { intros p q H. unfold Rdiv. apply Rmult_le_compat_r; [left; apply Rinv_0_lt_compat, Hs|exact H]. }
  apply Mono in H1. apply Mono in H2.
  replace ((IZR (min_int sg nr b) - z) * s / s) with (IZR (min_int sg nr b) - z) in H1 by (field; lra).
  replace (((IZR (min_int sg nr b) - z) * s + (IZR (max_int sg nr b) - IZR (min_int sg nr b)) * s) / s)
    with (IZR (max_int sg nr b) - z) in H2 by (field; lra). lra.
Qed.

(** Values outside saturate at the ends of the range. *)
Theorem C103_saturates : forall sg nr b v s x z, 0 < s -> fits sg nr b v s -> z = param_zero_point sg nr true v s b ->
  let lowest := (IZR (min_int sg nr b) - z) * s in
  let highest := lowest + IZR (max_int sg nr b - min_int sg nr b) * s in
  (highest <= x -> int_quantR sg nr s z b x = highest) /\ (x <= lowest -> int_quantR sg nr s z b x = lowest).
Proof.
  intros sg nr b v s x z Hs F Ez lowest highest.
  assert (Le : (min_int sg nr b <= max_int sg nr b)%Z).
  { unfold fits in F. assert (0 <= Rabs v / s) by (unfold Rdiv; apply Rmult_le_pos; [apply Rabs_pos|left; apply Rinv_0_lt_compat, Hs]).
    assert (0 <= max_int sg nr b - min_int sg nr b)%Z by (apply le_IZR; lra). lia. }
  assert (Mono : forall p q, p <= q -> p / s <= q / s).
  { intros p q H. unfold Rdiv. apply Rmult_le_compat_r; [left; apply Rinv_0_lt_compat, Hs|exact H]. }
  assert (Eh : highest = (IZR (max_int sg nr b) - z) * s) by (unfold highest, lowest; rewrite minus_IZR; ring).
  assert (Sx : forall u, u * s / s = u) by (intros; field; lra).
  split; intros H.
  - rewrite Eh in *. apply quant_above; try assumption. apply Mono in H. rewrite Sx in H. lra.
  - unfold lowest in *. apply quant_below; try assumption. apply Mono in H. rewrite Sx in H. lra.
Qed.

(** Not quantized: the lowest value is exact, zero need not be representable. *)
Theorem C103_unquantized : forall sg nr b v s, 0 < s ->
  (IZR (min_int sg nr b) - param_zero_point sg nr false v s b) * s = - Rabs v.
Proof. intros. unfold param_zero_point, scale_shift. field. lra. Qed.
Theorem C103_unquantized_zero_refuted : exists b v s, 0 < s /\ fits false false b v s
  /\ int_quantR false false s (param_zero_point false false false v s b) b 0 <> 0.
Proof.
  exists 8%Z, (1 / 4), 1. split; [lra|]. split.
  { unfold fits. rewrite Rabs_right by lra. cbn. lra. }
  unfold param_zero_point, scale_shift, int_quantR, to_intR. rewrite Rabs_right by lra. cbn [min_int max_int andb negb].
  change (IZR (0 * 8)) with 0. replace (0 / 1 + (1 / 4 / 1 + 0)) with (1 / 4) by lra.
  rewrite (roundR_unique (1 / 4) 0) by (apply Rabs_def1; lra).
  rewrite clampR_id; [lra|]. cbn. lra.
Qed.

(** Finding: the sign of the value is ignored, so a range asked to start at +1 starts at -1. *)
Theorem C103_sign_refuted : exists b v s, 0 < s /\ - v = 1
  /\ (IZR (min_int false false b) - param_zero_point false false false v s b) * s = -1.
Proof.
  exists 8%Z, (-1), 1. split; [lra|]. split; [lra|]. rewrite C103_unquantized by lra. rewrite Rabs_left; lra.
Qed.

(** ** Zero points initialised from statistics of the weight *)

(** For a non-positive statistic (NegativeMinOrZero and its percentile version) the first call,
    and every call in local-loss mode before it, returns the zero point of
    [StatsFromParameterZeroPoint]. *)
Theorem C103_first_call : forall c local s scale, s <= 0 ->
  snd (wz_forward c local wz_init s scale) = stats_zero_point (z_signed c) (z_narrow c) (z_quantize c) s scale (z_bw c).
Proof.
  intros c local s scale H. unfold wz_forward, stats_zero_point. cbn [wz_init ws_done ws_value]. destruct local; cbn [snd]; [reflexivity|].
  f_equal. rewrite Rplus_0_l. apply Rabs_left1, H.
Qed.
(** With a positive statistic the local-loss search evaluates another zero point than the one
    that is finally used. *)
Theorem C103_local_loss_refuted : exists c s scale,
  snd (wz_forward c true wz_init s scale) <> snd (wz_forward c false wz_init s scale).
Proof.
  exists {| z_signed := false; z_narrow := false; z_quantize := false; z_bw := 8 |}, 1, 1.
  unfold wz_forward, scale_shift. cbn. rewrite Rabs_right by lra. lra.
Qed.

Definition is_local_call (e : wz_event) : bool := match e with WCall local _ _ => local | WOpt _ => false end.
Definition is_call (e : wz_event) : bool := match e with WCall _ _ _ => true | WOpt _ => false end.
(** The value left by the optimizer, if it ran. *)
Definition last_value (v : R) (es : list wz_event) : R :=
  fold_left (fun v e => match e with WOpt w => w | WCall _ _ _ => v end) es v.

Lemma wz_run_done c es : forall v, wz_run c {| ws_done := true; ws_value := v |} es = {| ws_done := true; ws_value := last_value v es |}.
Proof. induction es as [|e es IH]; intros v; [reflexivity|]. unfold wz_run, last_value in *. cbn [fold_left]. destruct e; cbn; apply IH. Qed.
Lemma wz_run_local c es : forallb is_local_call es = true -> wz_run c wz_init es = wz_init.
Proof.
  induction es as [|e es IH]; [reflexivity|]. cbn [forallb]. intros H. apply andb_prop in H. destruct H as [H1 H2].
  destruct e as [[|] s sc|v]; try discriminate. unfold wz_run in *. cbn. apply IH, H2.
Qed.

(** Local-loss calls change nothing; the first other call stores its statistic; afterwards the
    statistic is never looked at again and only the optimizer changes the value. *)
Theorem C103_statistic_used_once : forall c locals s scale es,
  forallb is_local_call locals = true ->
  let st := wz_run c wz_init (locals ++ WCall false s scale :: es) in
  forall local s' scale',
    wz_forward c local st s' scale'
    = (st, param_zero_point (z_signed c) (z_narrow c) (z_quantize c) (last_value s es) scale' (z_bw c)).
Proof.
  intros c locals s scale es H. cbn zeta. intros local s' scale'.
  unfold wz_run. rewrite fold_left_app. fold (wz_run c wz_init locals). rewrite wz_run_local by exact H. cbn [fold_left].
  change (wz_step c wz_init (WCall false s scale)) with {| ws_done := true; ws_value := 0 + s |}. rewrite Rplus_0_l.
  fold (wz_run c {| ws_done := true; ws_value := s |} es). rewrite wz_run_done. reflexivity.
Qed.

(** Saving and loading: after the first call the loaded module behaves like the saved one under
    all further events, whatever the receiver did before; the checkpoint always loads. *)
Theorem C103_save_load : forall c full strict ignore st st0 es local s scale, ws_done st = true ->
  exists st1, wz_load strict ignore st0 (wz_save full st) = Some st1
  /\ snd (wz_forward c local (wz_run c st1 es) s scale) = snd (wz_forward c local (wz_run c st es) s scale).
Proof.
  intros c full strict ignore [d v] st0 es local s scale H. cbn in H. subst d. cbn [wz_save ws_done negb andb wz_load ws_value].
  eexists. split; reflexivity.
Qed.
(** Before the first call nothing is saved: a module that was never called (or only in
    local-loss mode) loads into itself only without [strict], and then computes the same. *)
Theorem C103_save_load_fresh : forall c locals ignore strict, forallb is_local_call locals = true ->
  wz_load strict ignore wz_init (wz_save false (wz_run c wz_init locals))
  = if strict && negb ignore then None else Some (wz_run c wz_init locals).
Proof. intros c locals ignore strict H. rewrite wz_run_local by exact H. reflexivity. Qed.
(** Finding: the state dict of a fresh model does not load with the default strict=True. *)
Theorem C103_fresh_checkpoint_refuted : exists c, wz_load true false wz_init (wz_save false (wz_run c wz_init [])) = None.
Proof. exists {| z_signed := false; z_narrow := false; z_quantize := true; z_bw := 8 |}. reflexivity. Qed.

(** Finding: with _FULL_STATE_DICT the placeholder 0 is saved before the first call and counts as
    an initialised value when it is loaded: the statistic is never used. *)
Theorem C103_full_state_dict_refuted : forall strict ignore st0,
  wz_load strict ignore st0 (wz_save true wz_init) = Some {| ws_done := true; ws_value := 0 |}
  /\ exists c s scale, s <= 0 /\
       snd (wz_forward c false {| ws_done := true; ws_value := 0 |} s scale) <> snd (wz_forward c false wz_init s scale).
Proof.
  intros strict ignore st0. split; [reflexivity|].
  exists {| z_signed := false; z_narrow := false; z_quantize := false; z_bw := 8 |}, (-1), 1. split; [lra|].
  unfold wz_forward, scale_shift. cbn. rewrite Rabs_R0, Rabs_left by lra. lra.
Qed.

(** Finding: an optimizer step (weight decay does not matter at 0, momentum does) before the
    first call shifts the initial zero point. *)
Theorem C103_early_step_refuted : exists c v s scale, s <= 0 /\
  snd (wz_forward c false (wz_run c wz_init [WOpt v]) s scale) <> snd (wz_forward c false wz_init s scale).
Proof.
  exists {| z_signed := false; z_narrow := false; z_quantize := false; z_bw := 8 |}, (-1), (-1), 1. split; [lra|].
  unfold wz_forward, scale_shift. cbn. rewrite !Rabs_left by lra. lra.
Qed.

Example C103_example : (* minimum -1.3, scale 1/10: zero point 13 *)
  param_zero_point false false true (-1.3) 0.1 8 = 13 /\ fits false false 8 (-1.3) 0.1
  /\ snd (wz_forward {| z_signed := false; z_narrow := false; z_quantize := true; z_bw := 8 |} false wz_init (-1.3) 0.1) = 13.
Proof.
  assert (E : forall v, Rabs v = 1.3 -> scale_shift false false true (Rabs v) 0.1 8 = 13).
  { intros v ->. unfold scale_shift, to_intR. cbn [min_int max_int andb negb]. change (IZR (0 * 8)) with 0.
    rewrite (roundR_unique _ 13) by (apply Rabs_def1; lra). rewrite clampR_id; [reflexivity|]. cbn. lra. }
  split; [apply E; rewrite Rabs_left; lra|]. split.
  - unfold fits. rewrite Rabs_left by lra. cbn. lra.
  - unfold wz_forward. cbn [wz_init ws_done ws_value snd z_signed z_narrow z_quantize z_bw]. apply E. rewrite Rabs_left; lra.
Qed.
Example C103_used_once_example :
  let c := {| z_signed := false; z_narrow := false; z_quantize := true; z_bw := 8 |} in
  ws_value (wz_run c wz_init [WCall true (-2) 1; WCall false (-1.3) 0.1; WCall false (-7) 0.1]) = 0 + -1.3.
Proof. reflexivity. Qed.

Print Assumptions C102_const.
Print Assumptions C102_const_init.
Print Assumptions C102_const_min_val_refuted.
Print Assumptions C102_const_power_of_two.
Print Assumptions C102_power_of_two_min_val_refuted.
Print Assumptions C102_learned_init.
Print Assumptions C102_learned_shape_mismatch.
Print Assumptions C102_learned_positive.
Print Assumptions C102_log_domain_positive.
Print Assumptions C102_negative_value_refuted.
Print Assumptions C102_limits_unsigned.
Print Assumptions C102_limits_signed.
Print Assumptions C102_signed_max_val_refuted.
Print Assumptions C102_limits_power_of_two.
Print Assumptions C102_power_of_two_clips_refuted.
Print Assumptions C103_quantized.
Print Assumptions C103_covered.
Print Assumptions C103_saturates.
Print Assumptions C103_full_state_dict_refuted.
Print Assumptions C103_unquantized.
Print Assumptions C103_unquantized_zero_refuted.
Print Assumptions C103_sign_refuted.
Print Assumptions C103_first_call.
Print Assumptions C103_local_loss_refuted.
Print Assumptions C103_statistic_used_once.
Print Assumptions C103_save_load.
Print Assumptions C103_save_load_fresh.
Print Assumptions C103_fresh_checkpoint_refuted.
Print Assumptions C103_early_step_refuted.
