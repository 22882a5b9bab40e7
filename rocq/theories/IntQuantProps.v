(** Properties C01-C09: integer fake quantization.

    The specification below is independent of the model: the integer interval of a
    quantizer is given by a table, and a value is representable if it is an integer of
    that interval, shifted by the zero point and multiplied by the scale. *)
From Verif Require Import QUtil Ops OpsProofs IntQuant IntQuantProofs.
Open Scope Q_scope.

(** ** Specification *)
Definition range_lo (signed narrow : bool) (b : Z) : Z :=
  match signed, narrow with
  | true, true => (1 - 2 ^ (b - 1))%Z
  | true, false => (- (2 ^ (b - 1)))%Z
  | false, _ => 0%Z
  end.

Definition range_hi (signed narrow : bool) (b : Z) : Z :=
  match signed, narrow with
  | true, _ => (2 ^ (b - 1) - 1)%Z
  | false, true => (2 ^ b - 2)%Z
  | false, false => (2 ^ b - 1)%Z
  end.

Definition in_range (signed narrow : bool) (b q : Z) : Prop :=
  (range_lo signed narrow b <= q <= range_hi signed narrow b)%Z.

(** The real number denoted by an integer code. *)
Definition denote (s : Q) (z q : Z) : Q := (inject_Z q - inject_Z z) * s.

Definition representable (signed narrow : bool) (b : Z) (s : Q) (z : Z) (v : Q) : Prop :=
  exists q, in_range signed narrow b q /\ v == denote s z q.

Lemma min_int_spec sg nr b : min_int sg nr b = range_lo sg nr b.
Proof. destruct sg, nr; unfold min_int, range_lo; cbn [negb andb]; lia. Qed.
Lemma max_int_spec sg nr b : max_int sg nr b = range_hi sg nr b.
Proof. destruct sg, nr; unfold max_int, range_hi; cbn [negb andb]; lia. Qed.

Lemma code_in_range sg nr m s z b x : (1 <= b)%Z ->
  in_range sg nr b (code sg nr (float_to_intZ m) s z b x).
Proof.
  intros Hb. unfold in_range. rewrite <- min_int_spec, <- max_int_spec. apply code_range, Hb.
Qed.

(** ** C01: the output is on the declared grid, and the integer code is in range *)
Theorem C01_output_on_grid : forall signed narrow m s z b x,
  0 < s -> (1 <= b)%Z ->
  representable signed narrow b s z (int_quant (cfg signed narrow m) s (inject_Z z) b x).
Proof.
  intros sg nr m s z b x Hs Hb. rewrite cfg_quant.
  exists (code sg nr (float_to_intZ m) s z b x). split; [apply code_in_range, Hb|reflexivity].
Qed.

(** Every representable value is reached (the quantizer is onto its grid). *)
Theorem C01_grid_is_reached : forall signed narrow m s z b v,
  0 < s -> (1 <= b)%Z -> representable signed narrow b s z v ->
  int_quant (cfg signed narrow m) s (inject_Z z) b v == v.
Proof.
  intros sg nr m s z b v Hs Hb (q & Hq & Hv). rewrite cfg_quant.
  rewrite (code_eq _ _ _ _ _ _ (mode_rounding m) _ _ Hv).
  unfold denote. rewrite code_fix; [symmetry; exact Hv|apply mode_rounding|exact Hs|].
  rewrite min_int_spec, max_int_spec. exact Hq.
Qed.

Example C01_nontrivial :
  int_quant (cfg true true Round) (1 # 100) (inject_Z 0) 4 (42 # 1000) == 4 # 100
  /\ int_quant (cfg true true Round) (1 # 100) (inject_Z 0) 4 (- 44 # 100) == - 7 # 100
  /\ int_quant (cfg false false Floor) (1 # 2) (inject_Z 3) 3 (- 10 # 1) == - 3 # 2.
Proof. repeat split; reflexivity. Qed.

(** ** C02: idempotence, also across rounding modes *)
Theorem C02_idempotent : forall signed narrow m1 m2 s z b x,
  0 < s -> (1 <= b)%Z ->
  int_quant (cfg signed narrow m2) s (inject_Z z) b
    (int_quant (cfg signed narrow m1) s (inject_Z z) b x)
  == int_quant (cfg signed narrow m1) s (inject_Z z) b x.
Proof.
  intros. apply C01_grid_is_reached; try assumption. apply C01_output_on_grid; assumption.
Qed.

(** Widening the range (larger bit width, full instead of narrow range, or the same) keeps
    already quantized values unchanged. *)
Theorem C02_requantize_wider : forall signed n1 n2 m1 m2 s z b1 b2 x,
  0 < s -> (1 <= b1)%Z ->
  (b1 <= b2)%Z -> (n2 = true -> n1 = true \/ (b1 < b2)%Z) ->
  int_quant (cfg signed n2 m2) s (inject_Z z) b2
    (int_quant (cfg signed n1 m1) s (inject_Z z) b1 x)
  == int_quant (cfg signed n1 m1) s (inject_Z z) b1 x.
Proof.
  intros sg n1 n2 m1 m2 s z b1 b2 x Hs Hb1 Hb12 Hn.
  apply C01_grid_is_reached; [assumption|lia|].
  destruct (C01_output_on_grid sg n1 m1 s z b1 x Hs Hb1) as (q & Hq & Hv).
  exists q. split; [|exact Hv]. revert Hq. unfold in_range.
  assert (P : (2 ^ (b1 - 1) <= 2 ^ (b2 - 1))%Z) by (apply Z.pow_le_mono_r; lia).
  pose proof (pow2Z_half b1 Hb1) as E1. pose proof (pow2Z_half b2 ltac:(lia)) as E2.
  pose proof (pow2Z_pos (b1 - 1) ltac:(lia)) as P1.
  assert (P' : (b1 < b2)%Z -> (2 * 2 ^ (b1 - 1) <= 2 ^ (b2 - 1))%Z).
  { intros L. rewrite <- E1. apply Z.pow_le_mono_r; lia. }
  destruct sg, n1, n2; cbn [range_lo range_hi]; try lia;
    destruct (Hn eq_refl) as [A|A]; try discriminate A; specialize (P' A); lia.
Qed.

(** ** C03: which representable value is returned *)

(** Round (and DPU): a nearest representable value. *)
Theorem C03_nearest : forall signed narrow m s z b x v,
  0 < s -> (1 <= b)%Z -> m = Round \/ m = DPU ->
  representable signed narrow b s z v ->
  Qabs (int_quant (cfg signed narrow m) s (inject_Z z) b x - x) <= Qabs (v - x).
Proof.
  intros sg nr m s z b x v Hs Hb Hm (q & Hq & Hv). rewrite cfg_quant.
  assert (E : Qabs (v - x) == Qabs (denote s z q - x)) by (rewrite Hv; reflexivity).
  rewrite E. unfold denote. rewrite !grid_dist by exact Hs.
  apply Qmult_le_compat_r; [|lra]. unfold code. apply clamp_nearest.
  - destruct Hm as [-> | ->]; cbn; intros n; [apply roundZ_nearest|apply dpu_nearest].
  - rewrite min_int_spec, max_int_spec. exact Hq.
Qed.

(** Round: error at most half a step when the input lies between the extreme
    representable values (extended by half a step). *)
Theorem C03_half_step : forall signed narrow s z b x,
  0 < s -> (1 <= b)%Z ->
  denote s z (range_lo signed narrow b) - s * (1 # 2) <= x ->
  x <= denote s z (range_hi signed narrow b) + s * (1 # 2) ->
  Qabs (int_quant (cfg signed narrow Round) s (inject_Z z) b x - x) <= s * (1 # 2).
Proof.
  intros sg nr s z b x Hs Hb H1 H2. rewrite cfg_quant.
  rewrite grid_dist by exact Hs. rewrite (Qmult_comm s). apply Qmult_le_compat_r; [|lra].
  set (y := x / s + inject_Z z).
  assert (Ex : x == (y - inject_Z z) * s) by (unfold y; field; apply Qpos_neq0, Hs).
  assert (Y1 : inject_Z (range_lo sg nr b) - (1 # 2) <= y).
  { apply Qnot_lt_le. intros C. unfold denote in H1.
    assert ((y - inject_Z z) * s < (inject_Z (range_lo sg nr b) - (1 # 2) - inject_Z z) * s)
      by (apply Qmult_lt_compat_r; lra). lra. }
  assert (Y2 : y <= inject_Z (range_hi sg nr b) + (1 # 2)).
  { apply Qnot_lt_le. intros C. unfold denote in H2.
    assert ((inject_Z (range_hi sg nr b) + (1 # 2) - inject_Z z) * s < (y - inject_Z z) * s)
      by (apply Qmult_lt_compat_r; lra). lra. }
  unfold code. rewrite min_int_spec, max_int_spec. cbn [float_to_intZ]. fold y.
  pose proof (roundZ_err y) as R.
  pose proof (min_le_max sg nr b Hb) as LH. rewrite min_int_spec, max_int_spec in LH.
  rewrite clampZ_spec by exact LH.
  destruct (Z_lt_le_dec (roundZ y) (range_lo sg nr b)) as [L|L];
    [|destruct (Z_lt_le_dec (range_hi sg nr b) (roundZ y)) as [U|U]].
  - replace (Z.max _ _) with (range_lo sg nr b) by lia.
    assert (B : inject_Z (roundZ y + 1) <= inject_Z (range_lo sg nr b)) by (apply injz_le; lia).
    rewrite inject_Z_plus in B. change (inject_Z 1) with 1 in B. apply Qabs_le_iff. lra.
  - replace (Z.max _ _) with (range_hi sg nr b) by lia.
    assert (B : inject_Z (range_hi sg nr b + 1) <= inject_Z (roundZ y)) by (apply injz_le; lia).
    rewrite inject_Z_plus in B. change (inject_Z 1) with 1 in B. apply Qabs_le_iff. lra.
  - replace (Z.max _ _) with (roundZ y) by lia. apply Qabs_le_iff. lra.
Qed.

(** Ties: when the input is exactly half-way between two adjacent representable values,
    Round picks the one with the even code. *)
Theorem C03_ties_to_even : forall signed narrow s z b x q,
  0 < s -> (1 <= b)%Z ->
  in_range signed narrow b q -> in_range signed narrow b (q + 1) ->
  x == denote s z q + s * (1 # 2) ->
  int_quant (cfg signed narrow Round) s (inject_Z z) b x
  == denote s z (if Z.even q then q else q + 1).
Proof.
  intros sg nr s z b x q Hs Hb Hq Hq1 Hx. rewrite cfg_quant. unfold code. cbn [float_to_intZ].
  rewrite min_int_spec, max_int_spec. unfold denote in *.
  assert (Ey : x / s + inject_Z z == inject_Z q + (1 # 2)).
  { rewrite Hx. field. apply Qpos_neq0, Hs. }
  assert (R : roundZ (x / s + inject_Z z) = if Z.even q then q else (q + 1)%Z).
  { symmetry. destruct (Z.even q) eqn:Ev; apply round_he_unique; rewrite Ey.
    - apply Qabs_le_iff. lra.
    - intros _; exact Ev.
    - rewrite inject_Z_plus. change (inject_Z 1) with 1. apply Qabs_le_iff. lra.
    - intros _. rewrite Z.even_add, Ev. reflexivity. }
  rewrite R. unfold in_range in *.
  rewrite clampZ_spec by lia.
  destruct (Z.even q); (replace (Z.max _ _) with q by lia) || (replace (Z.max _ _) with (q + 1)%Z by lia);
    reflexivity.
Qed.

(** Floor: the largest representable value not above the input, or the least
    representable value if there is none.  Ceil: mirror image. *)
Theorem C03_floor : forall signed narrow s z b x v,
  0 < s -> (1 <= b)%Z -> representable signed narrow b s z v ->
  let out := int_quant (cfg signed narrow Floor) s (inject_Z z) b x in
  (v <= x -> v <= out /\ out <= x)
  /\ (x < denote s z (range_lo signed narrow b) -> out == denote s z (range_lo signed narrow b)).
Proof.
  intros sg nr s z b x v Hs Hb (q & Hq & Hv) out. subst out. rewrite cfg_quant.
  unfold code; cbn [float_to_intZ]. rewrite min_int_spec, max_int_spec. unfold floorZ, in_range, denote in *.
  set (y := x / s + inject_Z z).
  assert (Ex : x == (y - inject_Z z) * s) by (unfold y; field; apply Qpos_neq0, Hs).
  pose proof (Qfloor_lb y) as Fl. pose proof (Qfloor_ub y) as Fu.
  rewrite clampZ_spec by lia. split.
  - intros Hvx.
    assert (Hqy : inject_Z q <= y).
    { apply Qnot_lt_le. intros C.
      assert ((y - inject_Z z) * s < (inject_Z q - inject_Z z) * s) by (apply Qmult_lt_compat_r; lra).
      lra. }
    assert (Hqf : (q <= Qfloor y)%Z) by (apply injz_lt_succ; lra).
    set (r := Z.max _ _).
    assert (q <= r)%Z by lia. assert (r <= Qfloor y)%Z by lia.
    apply injz_le in H, H0. split.
    + rewrite Hv. apply Qmult_le_compat_r; lra.
    + rewrite Ex. apply Qmult_le_compat_r; lra.
  - intros Hlo.
    assert (Hy : y < inject_Z (range_lo sg nr b)).
    { apply Qnot_le_lt. intros C.
      assert ((inject_Z (range_lo sg nr b) - inject_Z z) * s <= (y - inject_Z z) * s)
        by (apply Qmult_le_compat_r; lra). lra. }
    assert (Qfloor y < range_lo sg nr b)%Z by (apply injz_lt_inv; lra).
    replace (Z.max _ _) with (range_lo sg nr b) by lia. reflexivity.
Qed.

Theorem C03_ceil : forall signed narrow s z b x v,
  0 < s -> (1 <= b)%Z -> representable signed narrow b s z v ->
  let out := int_quant (cfg signed narrow Ceil) s (inject_Z z) b x in
  (x <= v -> x <= out /\ out <= v)
  /\ (denote s z (range_hi signed narrow b) < x -> out == denote s z (range_hi signed narrow b)).
Proof.
  intros sg nr s z b x v Hs Hb (q & Hq & Hv) out. subst out. rewrite cfg_quant.
  unfold code; cbn [float_to_intZ]. rewrite min_int_spec, max_int_spec. unfold ceilZ, in_range, denote in *.
  set (y := x / s + inject_Z z).
  assert (Ex : x == (y - inject_Z z) * s) by (unfold y; field; apply Qpos_neq0, Hs).
  pose proof (Qceiling_ub y) as Fl. pose proof (Qceiling_lb y) as Fu.
  rewrite clampZ_spec by lia. split.
  - intros Hvx.
    assert (Hqy : y <= inject_Z q).
    { apply Qnot_lt_le. intros C.
      assert ((inject_Z q - inject_Z z) * s < (y - inject_Z z) * s) by (apply Qmult_lt_compat_r; lra).
      lra. }
    assert (Hqf : (Qceiling y <= q)%Z) by (apply injz_lt_succ; lra).
    set (r := Z.max _ _).
    assert (r <= q)%Z by lia. assert (Qceiling y <= r)%Z by lia.
    apply injz_le in H, H0. split.
    + rewrite Ex. apply Qmult_le_compat_r; lra.
    + rewrite Hv. apply Qmult_le_compat_r; lra.
  - intros Hlo.
    assert (Hy : inject_Z (range_hi sg nr b) < y).
    { apply Qnot_le_lt. intros C.
      assert ((y - inject_Z z) * s <= (inject_Z (range_hi sg nr b) - inject_Z z) * s)
        by (apply Qmult_le_compat_r; lra). lra. }
    assert (range_hi sg nr b < Qceiling y)%Z by (apply injz_lt_inv; lra).
    replace (Z.max _ _) with (range_hi sg nr b) by lia. reflexivity.
Qed.

(** Round-to-zero with zero point 0: never increases the magnitude, keeps the sign, and
    no representable value of smaller-or-equal magnitude on the same side is larger. *)
Theorem C03_toward_zero : forall signed narrow s b x v,
  0 < s -> (1 <= b)%Z -> representable signed narrow b s 0 v ->
  let out := int_quant (cfg signed narrow RoundToZero) s (inject_Z 0) b x in
  (0 <= x -> 0 <= out /\ out <= x /\ (v <= x -> v <= out))
  /\ (x <= 0 -> x <= out /\ out <= 0 /\ (x <= v -> out <= v)).
Proof.
  intros sg nr s b x v Hs Hb (q & Hq & Hv) out. subst out. rewrite cfg_quant.
  pose proof (min_max_int sg nr b Hb) as LH. unfold code. cbn [float_to_intZ].
  rewrite min_int_spec, max_int_spec in *. unfold in_range, denote in *.
  set (y := x / s + inject_Z 0).
  assert (Ex : x == y * s)
    by (unfold y; change (inject_Z 0) with 0; field; apply Qpos_neq0, Hs).
  clearbody y.
  change (inject_Z 0) with 0 in *.
  rewrite clampZ_spec by lia. split; intros Hx.
  - assert (Hy : 0 <= y).
    { apply Qnot_lt_le. intros C. assert (y * s < 0 * s) by (apply Qmult_lt_compat_r; lra). lra. }
    assert (E : round_to_zeroZ y = Qfloor y).
    { destruct (rtz_cases y) as [[_ ->]|[C _]]; [reflexivity|exfalso; lra]. }
    rewrite E.
    pose proof (Qfloor_lb y) as Fl. pose proof (Qfloor_ub y) as Fu.
    assert (0 <= Qfloor y)%Z by (apply (Qfloor_mono 0 y); lra).
    set (r := Z.max _ _).
    assert (A1 : (0 <= r)%Z) by lia. assert (A2 : (r <= Qfloor y)%Z) by lia.
    apply injz_le in A1, A2. change (inject_Z 0) with 0 in A1.
    assert (0 * s <= inject_Z r * s) by (apply Qmult_le_compat_r; lra).
    assert (inject_Z r * s <= y * s) by (apply Qmult_le_compat_r; lra).
    repeat split; try lra. intros Hvx.
    assert (Hqy : inject_Z q <= y).
    { apply Qnot_lt_le. intros C.
      assert (y * s < inject_Z q * s) by (apply Qmult_lt_compat_r; lra). lra. }
    assert (Hqf : (q <= Qfloor y)%Z) by (apply injz_lt_succ; lra).
    assert (A3 : (q <= r)%Z) by lia. apply injz_le in A3.
    assert (inject_Z q * s <= inject_Z r * s) by (apply Qmult_le_compat_r; lra). lra.
  - assert (Hy : y <= 0).
    { apply Qnot_lt_le. intros C. assert (0 * s < y * s) by (apply Qmult_lt_compat_r; lra). lra. }
    assert (E : round_to_zeroZ y = (- Qfloor (- y))%Z).
    { destruct (rtz_cases y) as [[C ->]|[_ ->]]; [|reflexivity].
      assert (y == 0) as -> by lra. reflexivity. }
    rewrite E.
    pose proof (Qfloor_lb (- y)) as Fl. pose proof (Qfloor_ub (- y)) as Fu.
    assert (0 <= Qfloor (- y))%Z by (apply (Qfloor_mono 0 (- y)); lra).
    set (r := Z.max _ _).
    assert (A1 : (r <= 0)%Z) by lia. assert (A2 : (- Qfloor (- y) <= r)%Z) by lia.
    apply injz_le in A1, A2. rewrite inject_Z_opp in A2. change (inject_Z 0) with 0 in A1.
    assert (inject_Z r * s <= 0 * s) by (apply Qmult_le_compat_r; lra).
    assert (y * s <= inject_Z r * s) by (apply Qmult_le_compat_r; lra).
    repeat split; try lra. intros Hvx.
    assert (Hqy : y <= inject_Z q).
    { apply Qnot_lt_le. intros C.
      assert (inject_Z q * s < y * s) by (apply Qmult_lt_compat_r; lra). lra. }
    assert (Hqf : (- q <= Qfloor (- y))%Z).
    { apply injz_lt_succ. rewrite inject_Z_opp. lra. }
    assert (A3 : (r <= q)%Z) by lia. apply injz_le in A3.
    assert (inject_Z r * s <= inject_Z q * s) by (apply Qmult_le_compat_r; lra). lra.
Qed.

Example C03_nontrivial :
  (* 0.25 with scale 0.1 lies half-way between 0.2 and 0.3: the even code 2 wins *)
  int_quant (cfg true true Round) (1 # 10) (inject_Z 0) 4 (25 # 100) == 2 # 10
  /\ int_quant (cfg true true Floor) (1 # 10) (inject_Z 0) 4 (- 25 # 100) == - 3 # 10
  /\ int_quant (cfg true true RoundToZero) (1 # 10) (inject_Z 0) 4 (- 25 # 100) == - 2 # 10.
Proof. repeat split; reflexivity. Qed.

(** ** C04: order preservation *)
Theorem C04_monotone : forall signed narrow m s z b x y,
  0 < s -> (1 <= b)%Z -> x <= y ->
  int_quant (cfg signed narrow m) s (inject_Z z) b x
  <= int_quant (cfg signed narrow m) s (inject_Z z) b y.
Proof.
  intros sg nr m s z b x y Hs Hb H.
  apply (quant_mono sg nr (float_to_intZ m) s z b (mode_rounding m) Hs Hb x y H).
Qed.

Example C04_nontrivial :
  int_quant (cfg true true DPU) 1 (inject_Z 0) 4 (- 5 # 2) == - 2
  /\ int_quant (cfg true true DPU) 1 (inject_Z 0) 4 (- 3 # 2) == - 1.
Proof. split; reflexivity. Qed.

(** ** C05: rounding primitives *)

(** Specification of round-half-to-even as a relation. *)
Definition nearest_even (x : Q) (n : Z) : Prop :=
  (forall k, Qabs (inject_Z n - x) <= Qabs (inject_Z k - x))
  /\ (forall k, k <> n -> Qabs (inject_Z k - x) == Qabs (inject_Z n - x) -> Z.even n = true).

Theorem C05_round_half_even : forall x, nearest_even x (roundZ x).
Proof.
  intros x. split; [apply roundZ_nearest|].
  intros k Hk He. apply roundZ_spec.
  pose proof (roundZ_err x) as R. set (n := roundZ x) in *.
  assert (L : (k + 1 <= n \/ n + 1 <= k)%Z) by lia.
  destruct L as [L|L]; apply injz_le in L; rewrite inject_Z_plus in L; change (inject_Z 1) with 1 in L.
  - rewrite (Qabs_neg (inject_Z k - x)) in He by lra. rewrite <- He.
    qabs (inject_Z n - x); rewrite Habs in He; lra.
  - rewrite (Qabs_pos (inject_Z k - x)) in He by lra. rewrite <- He.
    qabs (inject_Z n - x); rewrite Habs in He; lra.
Qed.

Theorem C05_round_to_zero : forall x,
  let n := round_to_zeroZ x in
  Qabs (inject_Z n) <= Qabs x /\ Qabs x < Qabs (inject_Z n) + 1
  /\ (0 <= x -> (0 <= n)%Z) /\ (x <= 0 -> (n <= 0)%Z).
Proof.
  intros x n. subst n. split; [apply rtz_abs|].
  destruct (rtz_cases x) as [[Hx ->]|[Hx ->]].
  - assert (P : (0 <= Qfloor x)%Z) by (apply (Qfloor_mono 0 x); lra).
    pose proof (injz_le _ _ P) as P'. change (inject_Z 0) with 0 in P'.
    pose proof (Qfloor_ub x). pose proof (Qfloor_lb x).
    rewrite !Qabs_pos by lra. repeat split; try lra; try lia.
    intros H1. assert (x == 0) as -> by lra. cbn. lia.
  - assert (P : (0 <= Qfloor (- x))%Z) by (apply (Qfloor_mono 0 (- x)); lra).
    pose proof (injz_le _ _ P) as P'. change (inject_Z 0) with 0 in P'.
    pose proof (Qfloor_ub (- x)). pose proof (Qfloor_lb (- x)).
    rewrite inject_Z_opp, Qabs_opp, (Qabs_pos (inject_Z _)), (Qabs_neg x) by lra.
    repeat split; try lra; try lia.
Qed.

(** DPU: nearest; ties of negative numbers go up, other ties to even. *)
Theorem C05_dpu : forall x,
  let n := dpu_roundZ x in
  (forall k, Qabs (inject_Z n - x) <= Qabs (inject_Z k - x))
  /\ (x < 0 -> Qabs (inject_Z n - x) == 1 # 2 -> inject_Z n == x + (1 # 2))
  /\ (0 <= x -> nearest_even x n).
Proof.
  intros x n. subst n. split; [apply dpu_nearest|]. split.
  - intros Hx H. destruct (dpu_cases x) as [(H1 & H2 & ->)|([H1|H1] & E)].
    + rewrite inject_Z_plus. change (inject_Z 1) with 1. lra.
    + exfalso; lra.
    + exfalso. rewrite E in H.
      pose proof (Qfloor_lb x) as L. pose proof (Qfloor_ub x) as U.
      unfold roundZ in H. revert H. qcase; [|qcase]; intros H.
      * rewrite Qabs_neg in H by lra. lra.
      * rewrite inject_Z_plus in H. change (inject_Z 1) with 1 in H.
        rewrite Qabs_pos in H by lra. lra.
      * apply H1. lra.
  - intros Hx. destruct (dpu_cases x) as [(H1 & _)|(_ & ->)]; [exfalso; lra|].
    apply C05_round_half_even.
Qed.

Theorem C05_binary_sign : forall x,
  (0 <= x -> binary_sign x == 1) /\ (x < 0 -> binary_sign x == -1).
Proof. intros x. unfold binary_sign. qcase; split; intros; try lra. Qed.

(** Common facts for all modes. *)
Theorem C05_all_modes : forall m x,
  Qabs (inject_Z (float_to_intZ m x) - x) < 1
  /\ (forall n, x == inject_Z n -> float_to_intZ m x = n)
  /\ (forall n, inject_Z n <= x -> (n <= float_to_intZ m x)%Z)
  /\ (forall n, x <= inject_Z n -> (float_to_intZ m x <= n)%Z).
Proof.
  intros m x. pose proof (mode_rounding m) as R. repeat split.
  - apply rounding_error, R.
  - intros n H. rewrite (rnd_eq _ R _ _ H). apply (rnd_int _ R).
  - intros n. apply rounding_ge_int, R.
  - intros n. apply rounding_le_int, R.
Qed.

Example C05_nontrivial :
  roundZ (5 # 2) = 2%Z /\ roundZ (7 # 2) = 4%Z /\ dpu_roundZ (- 5 # 2) = (-2)%Z
  /\ dpu_roundZ (- 3 # 2) = (-1)%Z /\ round_to_zeroZ (- 17 # 10) = (-1)%Z
  /\ floorZ (- 17 # 10) = (-2)%Z.
Proof. repeat split; reflexivity. Qed.

(** ** C06: size and shape of the integer range *)
Theorem C06_range_shape : forall signed narrow b,
  (1 <= b)%Z ->
  min_int signed narrow b = range_lo signed narrow b
  /\ max_int signed narrow b = range_hi signed narrow b
  /\ (max_int signed narrow b - min_int signed narrow b + 1
      = if narrow then 2 ^ b - 1 else 2 ^ b)%Z
  /\ (min_int signed narrow b <= 0 <= max_int signed narrow b)%Z.
Proof.
  intros sg nr b Hb. split; [apply min_int_spec|]. split; [apply max_int_spec|].
  split; [|apply min_max_int, Hb].
  pose proof (pow2Z_half b Hb). rewrite min_int_spec, max_int_spec.
  destruct sg, nr; cbn [range_lo range_hi]; lia.
Qed.

Theorem C06_symmetric_iff : forall signed narrow b,
  (2 <= b)%Z ->
  ((min_int signed narrow b = - max_int signed narrow b)%Z
   <-> signed = true /\ narrow = true).
Proof.
  intros sg nr b Hb. pose proof (pow2Z_half b ltac:(lia)). pose proof (pow2Z_half (b - 1) ltac:(lia)).
  pose proof (pow2Z_pos (b - 1 - 1) ltac:(lia)).
  rewrite min_int_spec, max_int_spec.
  destruct sg, nr; cbn [range_lo range_hi]; split; intros; try lia; try tauto;
    destruct H2; discriminate.
Qed.

Theorem C06_strictly_grows : forall signed narrow b b',
  (1 <= b < b')%Z ->
  (max_int signed narrow b < max_int signed narrow b')%Z
  /\ (min_int signed narrow b' <= min_int signed narrow b)%Z
  /\ (signed = true -> min_int signed narrow b' < min_int signed narrow b)%Z.
Proof.
  intros sg nr b b' H. rewrite !min_int_spec, !max_int_spec.
  pose proof (Z.pow_lt_mono_r 2 b b' ltac:(lia) ltac:(lia) ltac:(lia)).
  pose proof (Z.pow_lt_mono_r 2 (b - 1) (b' - 1) ltac:(lia) ltac:(lia) ltac:(lia)).
  destruct sg, nr; cbn [range_lo range_hi]; repeat split; intros; try lia; discriminate.
Qed.

Example C06_nontrivial :
  max_int true true 8 = 127%Z /\ min_int true true 8 = (-127)%Z /\ min_int true false 8 = (-128)%Z
  /\ max_int false true 8 = 254%Z /\ max_int false false 8 = 255%Z /\ min_int false true 8 = 0%Z.
Proof. repeat split; reflexivity. Qed.

(** ** C07: zero is exact *)
Theorem C07_zero_exact : forall signed narrow m s z b,
  0 < s -> (1 <= b)%Z -> in_range signed narrow b z ->
  int_quant (cfg signed narrow m) s (inject_Z z) b 0 == 0.
Proof.
  intros sg nr m s z b Hs Hb Hz. apply C01_grid_is_reached; try assumption.
  exists z. split; [exact Hz|]. unfold denote. ring.
Qed.

(** With an out-of-range zero point zero is *not* representable (guard is necessary). *)
Theorem C07_zero_point_must_be_in_range : forall signed narrow m s z b,
  0 < s -> (1 <= b)%Z -> ~ in_range signed narrow b z ->
  ~ int_quant (cfg signed narrow m) s (inject_Z z) b 0 == 0.
Proof.
  intros sg nr m s z b Hs Hb Hz H.
  destruct (C01_output_on_grid sg nr m s z b 0 Hs Hb) as (q & Hq & Hv).
  rewrite H in Hv. unfold denote in Hv. apply Hz.
  assert (E : inject_Z q == inject_Z z).
  { assert (E0 : (inject_Z q - inject_Z z) * s == 0) by lra.
    apply Qmult_integral in E0. destruct E0 as [E0|E0]; [lra|].
    exfalso. apply (Qpos_neq0 s Hs E0). }
  apply injz_eq_inv in E. subst. exact Hq.
Qed.

Example C07_nontrivial : int_quant (cfg false false Round) (3 # 7) (inject_Z 5) 4 0 == 0.
Proof. reflexivity. Qed.

(** ** C08: negation *)
Theorem C08_odd_on_symmetric_range : forall m s b x,
  0 < s -> (1 <= b)%Z -> m = Round \/ m = RoundToZero ->
  int_quant (cfg true true m) s (inject_Z 0) b (- x)
  == - int_quant (cfg true true m) s (inject_Z 0) b x.
Proof.
  intros m s b x Hs Hb Hm. rewrite !cfg_quant.
  assert (E : code true true (float_to_intZ m) s 0 b (- x)
              = (- code true true (float_to_intZ m) s 0 b x)%Z).
  { unfold code.
    assert (F : float_to_intZ m (- x / s + inject_Z 0) = (- float_to_intZ m (x / s + inject_Z 0))%Z).
    { rewrite (rnd_eq _ (mode_rounding m) (- x / s + inject_Z 0) (- (x / s + inject_Z 0))).
      - destruct Hm as [-> | ->]; cbn [float_to_intZ]; [apply roundZ_odd|apply rtz_odd].
      - change (inject_Z 0) with 0. field. apply Qpos_neq0, Hs. }
    rewrite F. pose proof (min_le_max true true b Hb) as LH.
    rewrite !clampZ_spec by exact LH.
    assert (min_int true true b = - max_int true true b)%Z.
    { unfold min_int, max_int; cbn [negb andb]; lia. }
    lia. }
  rewrite E, inject_Z_opp. change (inject_Z 0) with 0. ring.
Qed.

(** For the full signed range the law fails at the negative end, for every bit width. *)
Theorem C08_full_range_refuted : forall m s b,
  0 < s -> (1 <= b)%Z ->
  exists x, ~ int_quant (cfg true false m) s (inject_Z 0) b (- x)
              == - int_quant (cfg true false m) s (inject_Z 0) b x.
Proof.
  intros m s b Hs Hb. exists (inject_Z (2 ^ (b - 1)) * s).
  pose proof (pow2Z_pos (b - 1) ltac:(lia)) as P.
  rewrite !cfg_quant.
  assert (E1 : code true false (float_to_intZ m) s 0 b (- (inject_Z (2 ^ (b - 1)) * s))
               = (- 2 ^ (b - 1))%Z).
  { rewrite (code_eq _ _ _ _ _ _ (mode_rounding m) _ ((inject_Z (- 2 ^ (b - 1)) - inject_Z 0) * s)).
    - apply code_fix; [apply mode_rounding|exact Hs|].
      unfold min_int, max_int; cbn [negb andb]; lia.
    - rewrite inject_Z_opp. change (inject_Z 0) with 0. ring. }
  assert (E2 : code true false (float_to_intZ m) s 0 b (inject_Z (2 ^ (b - 1)) * s)
               = (2 ^ (b - 1) - 1)%Z).
  { unfold code.
    rewrite (rnd_eq _ (mode_rounding m) _ (inject_Z (2 ^ (b - 1)))).
    - rewrite (rnd_int _ (mode_rounding m)). rewrite clampZ_spec by (apply min_le_max, Hb).
      unfold min_int, max_int; cbn [negb andb]. lia.
    - change (inject_Z 0) with 0. field. apply Qpos_neq0, Hs. }
  rewrite E1, E2. rewrite inject_Z_minus, inject_Z_opp.
  change (inject_Z 0) with 0. change (inject_Z 1) with 1. intros H.
  assert (s == 0) by lra. apply (Qpos_neq0 s Hs H0).
Qed.

Example C08_nontrivial :
  int_quant (cfg true true Round) (1 # 10) (inject_Z 0) 3 (- 99) == - 3 # 10
  /\ int_quant (cfg true false Round) (1 # 10) (inject_Z 0) 3 (- 99) == - 4 # 10.
Proof. split; reflexivity. Qed.

(** ** C09: clamps *)
Theorem C09_clamp_projection : forall x lo hi,
  lo <= hi ->
  lo <= tensor_clamp x lo hi <= hi
  /\ (lo <= x <= hi -> tensor_clamp x lo hi == x)
  /\ (forall y, lo <= y <= hi -> Qabs (tensor_clamp x lo hi - x) <= Qabs (y - x)).
Proof.
  intros x lo hi H. split; [apply clamp_range, H|]. split.
  - intros Hx. rewrite clamp_inside by exact Hx. reflexivity.
  - intros y Hy. destruct (Qlt_le_dec hi x) as [A|A]; [|destruct (Qlt_le_dec x lo) as [B|B]].
    + rewrite clamp_above by assumption. rewrite !Qabs_neg by lra. lra.
    + rewrite clamp_below by assumption. rewrite !Qabs_pos by lra. lra.
    + rewrite clamp_inside by lra. qabs (y - x); rewrite Habs; apply Qabs_le_iff; lra.
Qed.

(** The in-place variant computes the same function for all bounds, including inverted
    ones (both give precedence to the minimum). *)
Theorem C09_inplace_agrees : forall x lo hi, tensor_clamp x lo hi == tensor_clamp_ x lo hi.
Proof. intros. unfold tensor_clamp, tensor_clamp_, torch_min, torch_max. repeat qcase; lra. Qed.

Theorem C09_inverted_bounds : forall x lo hi, hi < lo -> tensor_clamp x lo hi == lo.
Proof. intros. unfold tensor_clamp. repeat qcase; lra. Qed.

Theorem C09_monotone : forall x y lo hi, x <= y -> tensor_clamp x lo hi <= tensor_clamp y lo hi.
Proof. exact clamp_mono. Qed.

Example C09_nontrivial :
  tensor_clamp (17 # 10) 0 1 == 1 /\ tensor_clamp (- 1 # 2) 0 1 == 0 /\ tensor_clamp (1 # 10) 0 1 == 1 # 10.
Proof. repeat split; reflexivity. Qed.

Print Assumptions C01_output_on_grid.
Print Assumptions C01_grid_is_reached.
Print Assumptions C02_idempotent.
Print Assumptions C02_requantize_wider.
Print Assumptions C03_nearest.
Print Assumptions C03_half_step.
Print Assumptions C03_ties_to_even.
Print Assumptions C03_floor.
Print Assumptions C03_ceil.
Print Assumptions C03_toward_zero.
Print Assumptions C04_monotone.
Print Assumptions C05_round_half_even.
Print Assumptions C05_round_to_zero.
Print Assumptions C05_dpu.
Print Assumptions C05_binary_sign.
Print Assumptions C05_all_modes.
Print Assumptions C06_range_shape.
Print Assumptions C06_symmetric_iff.
Print Assumptions C06_strictly_grows.
Print Assumptions C07_zero_exact.
Print Assumptions C07_zero_point_must_be_in_range.
Print Assumptions C08_odd_on_symmetric_range.
Print Assumptions C08_full_range_refuted.
Print Assumptions C09_clamp_projection.
Print Assumptions C09_inplace_agrees.
Print Assumptions C09_inverted_bounds.
Print Assumptions C09_monotone.
