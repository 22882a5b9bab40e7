(** C99: what an exported FP8 QuantizeLinear / DequantizeLinear pair computes. *)
From Verif Require Import QUtil Ops OpsProofs Log2Q Minifloat MinifloatProofs MinifloatProps
  FloatTensor Float8Export.
Open Scope Q_scope.

(** * Specification: the ONNX operators

    An 8-bit float type is given by its mantissa width, exponent bias and largest code; code
    [c] has the value [decode m bias c] ([MinifloatProps]), with either sign. *)
Definition f8_mantissa (d : f8) : Z := match d with E4M3FN | E4M3FNUZ => 3 | E5M2 | E5M2FNUZ => 2 end.
Definition f8_bias (d : f8) : Z := match d with E4M3FN => 7 | E5M2 => 15 | E4M3FNUZ => 8 | E5M2FNUZ => 16 end.
(** The codes above are the infinities and NaNs; the FNUZ types use the code of minus zero. *)
Definition f8_top (d : f8) : Z := match d with E4M3FN => 126 | E5M2 => 123 | E4M3FNUZ | E5M2FNUZ => 127 end.

(** [y] has code [c], with either sign. *)
Definition has_code (m bias c : Z) (y : Q) : Prop := y == decode m bias c \/ y == - decode m bias c.

(** Conversion of [z] to the type, rounding to nearest with ties to the even code, and
    saturating (the default of QuantizeLinear): no other value of the type is closer to [z],
    and when another one is as close, the code of the result is even. *)
Definition converts (m bias top : Z) (z y : Q) : Prop :=
  exists c, (0 <= c <= top)%Z /\ has_code m bias c y /\
    forall d w, (0 <= d <= top)%Z -> has_code m bias d w ->
      Qabs (y - z) <= Qabs (w - z) /\ (Qabs (y - z) == Qabs (w - z) -> ~ w == y -> Z.even c = true).

(** The exported pair: DequantizeLinear (QuantizeLinear x), scale [scale], zero point 0. *)
Definition onnx_qdq (d : f8) (x scale y : Q) : Prop :=
  exists r, converts (f8_mantissa d) (f8_bias d) (f8_top d) (x / scale) r /\ y == r * scale.

(** * Rounding to nearest even *)

Lemma decode_parity m bias c : (1 <= m)%Z -> (0 <= c)%Z ->
  exists k j, (0 <= k < 2 ^ (m + 1))%Z /\ (1 - bias - m <= j)%Z /\ decode m bias c == inject_Z k * pow2 j
    /\ ((2 ^ m <= k)%Z \/ j = (1 - bias - m)%Z) /\ Z.even k = Z.even c.
Proof.
  intros Hm Hc.
  assert (P0 : (0 < 2 ^ m)%Z) by (apply Z.pow_pos_nonneg; lia).
  assert (P1 : (2 ^ (m + 1) = 2 * 2 ^ m)%Z) by (rewrite Z.pow_add_r by lia; lia).
  assert (P2 : (2 ^ m = 2 * 2 ^ (m - 1))%Z).
  { replace m with (1 + (m - 1))%Z at 1 by lia. rewrite Z.pow_add_r by lia. lia. }
  pose proof (Z.mod_pos_bound c (2 ^ m) P0) as B. pose proof (Z.div_mod c (2 ^ m) ltac:(lia)) as DM.
  pose proof (Z.div_pos c (2 ^ m) Hc P0) as DP.
  assert (EV : Z.even (c mod 2 ^ m) = Z.even c).
  { rewrite DM at 2. rewrite P2 at 2. rewrite <- Z.mul_assoc. rewrite Z.even_add, Z.even_mul. cbn [Z.even orb].
    destruct (Z.even (c mod 2 ^ m)); reflexivity. }
  unfold decode. destruct (c / 2 ^ m =? 0)%Z eqn:E0.
  - exists (c mod 2 ^ m)%Z, (1 - bias - m)%Z. repeat split; try lia; try exact EV; right; reflexivity.
  - apply Z.eqb_neq in E0. exists (2 ^ m + c mod 2 ^ m)%Z, (c / 2 ^ m - bias - m)%Z.
    repeat split; try lia.
    rewrite Z.even_add, EV, P2, Z.even_mul. cbn [Z.even orb]. destruct (Z.even c); reflexivity.
Qed.

Section Nearest.
Variables (m smin : Z) (eps : Q).
Hypothesis Hm : (1 <= m)%Z.
Hypothesis Heps : 0 < eps.
Hypothesis Heps4 : 4 * eps <= pow2 smin.

(** When another grid point is as close, the rounded mantissa is even. *)
Lemma tie_even z r :
  grid m smin r -> Qabs (rnd m smin eps roundZ z - z) == Qabs (r - z) -> ~ r == rnd m smin eps roundZ z ->
  Z.even (roundZ (z / pow2 (iexp z m smin eps))) = true.
Proof.
  intros (k & j & Hk & Hj & E) HT HN.
  pose proof (iexp_lower z m smin eps Heps) as L. pose proof (iexp_ge z m smin eps) as G.
  unfold rnd in *. change (float_internal_scale z m smin eps) with (pow2 (iexp z m smin eps)) in *.
  set (i := iexp z m smin eps) in *. pose proof (pow2_pos i) as PI.
  set (n := roundZ (z / pow2 i)) in *.
  destruct (roundZ_spec (z / pow2 i)) as [H1 H2]. fold n in H1, H2.
  assert (D : forall a, Qabs (pow2 i * inject_Z a - z) == Qabs (inject_Z a - z / pow2 i) * pow2 i).
  { intros a. rewrite <- (Qabs_pos (pow2 i)) at 3 by lra. rewrite <- Qabs_Qmult. apply Qabs_wd. field. lra. }
  destruct (Qlt_le_dec (Qabs (inject_Z n - z / pow2 i)) (1 # 2)) as [LT|GE]; [exfalso|apply H2; lra].
  assert (HP : pow2 i == 2 * pow2 (i - 1)).
  { replace i with ((i - 1) + 1)%Z at 1 by lia. rewrite pow2_succ. ring. }
  destruct (Z_le_gt_dec i j) as [C|C].
  - (* another multiple of the step *)
    set (n' := (k * 2 ^ (j - i))%Z).
    assert (E' : r == pow2 i * inject_Z n').
    { rewrite E. unfold n'. rewrite inject_Z_mult, inj_pow by lia.
      setoid_replace (pow2 i * (inject_Z k * pow2 (j - i))) with (inject_Z k * (pow2 (j - i) * pow2 i)) by ring.
      rewrite <- pow2_plus. replace (j - i + i)%Z with j by lia. reflexivity. }
    assert (NE : n' <> n) by (intros ->; apply HN, E').
    rewrite E', !D in HT.
    assert (HT' : Qabs (inject_Z n - z / pow2 i) == Qabs (inject_Z n' - z / pow2 i)).
    { apply (Qmult_inj_r _ _ (pow2 i)); [lra|exact HT]. }
    assert (T : 1 <= Qabs (inject_Z n' - inject_Z n)).
    { setoid_replace (inject_Z n' - inject_Z n) with (inject_Z (n' - n)) by (unfold Z.sub; rewrite inject_Z_plus, inject_Z_opp; reflexivity).
      change (Qabs (inject_Z (n' - n))) with (inject_Z (Z.abs (n' - n))). change 1 with (inject_Z 1). apply injz_le. lia. }
    pose proof (Qabs_triangle (inject_Z n' - z / pow2 i) (- (inject_Z n - z / pow2 i))) as TR.
    rewrite Qabs_opp in TR.
    setoid_replace (inject_Z n' - z / pow2 i + - (inject_Z n - z / pow2 i)) with (inject_Z n' - inject_Z n) in TR by ring.
    lra.
  - (* a grid point below the binade of z *)
    destruct L as [L|L]; [lia|].
    pose proof (finer_bound m ltac:(lia) k i j Hk ltac:(lia)) as B. rewrite <- E in B.
    assert (RZ : Qabs z - Qabs r <= Qabs (r - z)).
    { pose proof (Qabs_triangle (z - r) r) as TR. setoid_replace (z - r + r) with z in TR by ring.
      setoid_replace (z - r) with (- (r - z)) in TR by ring. rewrite Qabs_opp in TR. lra. }
    pose proof (pow2_mono smin (i - 1) ltac:(lia)) as MS.
    rewrite D in HT.
    assert (LH : Qabs (inject_Z n - z / pow2 i) * pow2 i < (1 # 2) * pow2 i) by (apply Qmult_lt_compat_r; assumption).
    destruct (Qlt_le_dec (Qabs z) (pow2 (i + m))) as [Z1|Z1]; [|lra].
    (* z is within eps of the bottom of the binade *)
    set (N := if Qlt_bool z 0 then (- 2 ^ m)%Z else (2 ^ m)%Z).
    assert (GN : grid m smin (pow2 i * inject_Z N)).
    { exists N, i. assert (P : (0 < 2 ^ m)%Z) by (apply Z.pow_pos_nonneg; lia).
      split; [|split; [exact G|ring]]. rewrite Z.pow_add_r by lia. unfold N. destruct (Qlt_bool z 0); lia. }
    pose proof (round_nearest_step m smin eps ltac:(lia) Heps Heps4 z _ GN) as NS.
    unfold rnd in NS. change (float_internal_scale z m smin eps) with (pow2 i) in NS. fold n in NS. rewrite D in NS.
    assert (DN : Qabs (pow2 i * inject_Z N - z) == pow2 (i + m) - Qabs z).
    { unfold N. destruct (Qlt_bool z 0) eqn:ZS.
      - apply Qlt_bool_iff in ZS. rewrite inject_Z_opp, inj_pow by lia.
        rewrite (Qabs_neg z) in Z1 |- * by lra.
        setoid_replace (pow2 i * - pow2 m - z) with (- (pow2 (i + m) - - z)) by (rewrite pow2_plus; ring).
        rewrite Qabs_opp. apply Qabs_pos. lra.
      - assert (0 <= z). { apply Qnot_lt_le. intros X. apply Qlt_bool_iff in X. congruence. }
        rewrite inj_pow by lia. rewrite (Qabs_pos z) in Z1 |- * by lra.
        setoid_replace (pow2 i * pow2 m - z) with (pow2 (i + m) - z) by (rewrite pow2_plus; ring).
        apply Qabs_pos. lra. }
    lra.
Qed.

(** An even mantissa gives an even code. *)
Lemma even_code bias z c :
  smin = (1 - bias - m)%Z -> (0 <= c)%Z -> Z.even (roundZ (z / pow2 (iexp z m smin eps))) = true ->
  has_code m bias c (rnd m smin eps roundZ z) -> Z.even c = true.
Proof.
  intros HS Hc HE HC. destruct (decode_parity m bias c Hm Hc) as (k & j & Hk & Hj & E & HB & EV).
  rewrite <- EV. destruct (Z.even k) eqn:EK; [reflexivity|exfalso].
  pose proof (iexp_ge z m smin eps) as G.
  pose proof (rnd_bound m smin eps ltac:(lia) Heps roundZ z round_rounding) as RB.
  unfold has_code, rnd in HC. change (float_internal_scale z m smin eps) with (pow2 (iexp z m smin eps)) in HC.
  set (i := iexp z m smin eps) in *. set (n := roundZ (z / pow2 i)) in *. clearbody n.
  assert (EQ : inject_Z (Z.abs n) * pow2 i == inject_Z k * pow2 j).
  { rewrite <- E. pose proof (decode_nonneg m bias c ltac:(lia) Hc) as N0.
    change (inject_Z (Z.abs n)) with (Qabs (inject_Z n)).
    rewrite <- (Qabs_pos (pow2 i)) at 1 by (apply Qlt_le_weak, pow2_pos). rewrite <- Qabs_Qmult.
    setoid_replace (inject_Z n * pow2 i) with (pow2 i * inject_Z n) by ring.
    destruct HC as [HC|HC]; rewrite HC; [|rewrite Qabs_opp]; apply Qabs_pos, N0. }
  assert (P0 : (0 < 2 ^ m)%Z) by (apply Z.pow_pos_nonneg; lia).
  assert (P1 : (2 ^ (m + 1) = 2 * 2 ^ m)%Z) by (rewrite Z.pow_add_r by lia; lia).
  assert (P2 : (2 ^ m = 2 * 2 ^ (m - 1))%Z).
  { replace m with (1 + (m - 1))%Z at 1 by lia. rewrite Z.pow_add_r by lia. lia. }
  assert (EA : Z.even (Z.abs n) = true) by (destruct (Z.abs_eq_or_opp n) as [-> | ->]; [exact HE|rewrite Z.even_opp; exact HE]).
  destruct (Z.lt_trichotomy i j) as [C|[C|C]].
  - (* |n| = k 2^(j-i) *)
    assert (EZ : (Z.abs n = k * 2 ^ (j - i))%Z).
    { assert (T : inject_Z (Z.abs n) == inject_Z (k * 2 ^ (j - i))).
      { apply (Qmult_inj_r _ _ (pow2 i)); [apply Qpos_neq0, pow2_pos|]. rewrite EQ, inject_Z_mult, inj_pow by lia.
        rewrite <- Qmult_assoc, <- pow2_plus. replace (j - i + i)%Z with j by lia. reflexivity. }
      unfold Qeq, inject_Z in T. cbn [Qnum Qden] in T. lia. }
    destruct HB as [HB|HB]; [|lia].
    assert (T : (2 ^ (j - i) = 2 * 2 ^ (j - i - 1))%Z).
    { replace (j - i)%Z with (1 + (j - i - 1))%Z at 1 by lia. rewrite Z.pow_add_r by lia. lia. }
    assert (T0 : (0 < 2 ^ (j - i - 1))%Z) by (apply Z.pow_pos_nonneg; lia).
    assert (K : (k = 2 ^ m)%Z) by nia.
    rewrite K, P2, Z.even_mul in EK. discriminate.
  - subst j. assert (T : inject_Z (Z.abs n) == inject_Z k) by (apply (Qmult_inj_r _ _ (pow2 i)); [apply Qpos_neq0, pow2_pos|exact EQ]).
    assert (Z.abs n = k) by (unfold Qeq, inject_Z in T; cbn [Qnum Qden] in T; lia). congruence.
  - assert (T : inject_Z k == inject_Z (Z.abs n * 2 ^ (i - j))).
    { apply (Qmult_inj_r _ _ (pow2 j)); [apply Qpos_neq0, pow2_pos|]. rewrite <- EQ, inject_Z_mult, inj_pow by lia.
      rewrite <- Qmult_assoc, <- pow2_plus. replace (i - j + j)%Z with i by lia. reflexivity. }
    assert (K : (k = Z.abs n * 2 ^ (i - j))%Z) by (unfold Qeq, inject_Z in T; cbn [Qnum Qden] in T; lia).
    rewrite K, Z.even_mul, EA in EK. discriminate.
Qed.
End Nearest.

(** The quantizer of any format with a representable limit converts the scaled input to the
    nearest value, ties to even. *)
Lemma has_code_abs m bias c y : (0 <= m)%Z -> (0 <= c)%Z -> has_code m bias c y -> Qabs y == decode m bias c.
Proof.
  intros Hm Hc [H|H]; rewrite H; [|rewrite Qabs_opp]; apply Qabs_pos, decode_nonneg; assumption.
Qed.

Lemma code_le m bias c d : (0 <= m)%Z -> (0 <= c)%Z -> (0 <= d)%Z -> decode m bias c <= decode m bias d -> (c <= d)%Z.
Proof.
  intros Hm Hc Hd H. destruct (Z_le_gt_dec c d) as [C|C]; [exact C|exfalso].
  pose proof (decode_lt m bias d c Hm ltac:(lia)). lra.
Qed.

Lemma saturated z y w top : Qabs w <= top -> y == top -> top <= z ->
  Qabs (y - z) <= Qabs (w - z) /\ (Qabs (y - z) == Qabs (w - z) -> w == y).
Proof.
  intros Hw Hy Hz. pose proof (Qle_Qabs w) as W.
  rewrite (Qabs_neg (y - z)), (Qabs_neg (w - z)) by lra. split; [lra|intros; lra].
Qed.

Lemma saturated_neg z y w top : Qabs w <= top -> y == - top -> z <= - top ->
  Qabs (y - z) <= Qabs (w - z) /\ (Qabs (y - z) == Qabs (w - z) -> w == y).
Proof.
  intros Hw Hy Hz. pose proof (Qle_Qabs (- w)) as W. rewrite Qabs_opp in W.
  rewrite (Qabs_pos (y - z)), (Qabs_pos (w - z)) by lra. split; [lra|intros; lra].
Qed.

Theorem C99_nearest_even c eps x scale top :
  fmt_ok c -> fsat c = true -> fsigned c = true -> fmode c = Round -> 0 < scale ->
  0 < eps -> 4 * eps <= pow2 (1 - fbias c - fm c) ->
  (0 <= top < 2 ^ (fe c + fm c))%Z -> largest c == decode (fm c) (fbias c) top ->
  exists r, float_quant c false eps x scale = Some (Fin (r * scale))
    /\ converts (fm c) (fbias c) top (x / scale) r.
Proof.
  intros HF HS HG HM Hsc He He4 Ht HL.
  destruct (sat_value c eps x scale HF HS) as (y & EQ & D). exists y. split; [exact EQ|].
  pose proof (largest_pos c HF) as LP. pose proof HF as (Hfe & Hfm & _).
  assert (LOW : lowest c == - largest c) by (unfold lowest; rewrite HG; reflexivity).
  rewrite float_quantize_rnd, HM in D. cbv zeta in D.
  change (float_to_intZ Round) with roundZ in D.
  set (smin := (1 - fbias c - fm c)%Z) in *. set (z := x / scale) in *.
  assert (TG : forall d w, (0 <= d <= top)%Z -> has_code (fm c) (fbias c) d w -> Qabs w <= largest c /\ grid (fm c) smin w).
  { intros d w Hd Hw. split.
    - rewrite (has_code_abs (fm c) (fbias c) d w), HL by (try lia; exact Hw). apply decode_le; lia.
    - apply (minifloat_grid (fe c)); [lia|]. exists d. split; [lia|exact Hw]. }
  assert (LG : grid (fm c) smin (largest c)).
  { apply (minifloat_grid (fe c)); [lia|]. apply largest_minifloat, HF. }
  assert (FX : rnd (fm c) smin eps roundZ (largest c) == largest c).
  { apply rnd_fixed; try assumption; [lia|apply round_rounding|]. fold smin in He4. lra. }
  destruct D as [[D1 D2]|[[D1 D2]|[D1 D2]]].
  - (* in range: the rounded value *)
    assert (GY : grid (fm c) smin (rnd (fm c) smin eps roundZ z)) by (apply rnd_grid; [lia|exact He|apply round_rounding]).
    assert (AB : Qabs (rnd (fm c) smin eps roundZ z) <= largest c) by (apply Qabs_Qle_condition; lra).
    assert (MF : minifloat (fe c) (fm c) (fbias c) (rnd (fm c) smin eps roundZ z)).
    { apply grid_minifloat; [lia|lia|exact GY|]. pose proof (largest_le c HF). lra. }
    destruct MF as (cc & Hcc & HC).
    assert (Hct : (cc <= top)%Z).
    { apply (code_le (fm c) (fbias c)); try lia. rewrite <- HL, <- (has_code_abs (fm c) (fbias c) cc _ ltac:(lia) ltac:(lia) HC). exact AB. }
    exists cc. split; [lia|]. split; [destruct HC as [HC|HC]; [left|right]; rewrite D2; exact HC|].
    intros d w Hd Hw. destruct (TG d w Hd Hw) as [_ GW]. rewrite D2. split.
    + apply round_nearest_step; try assumption; lia.
    + intros T N. apply (even_code (fm c) smin eps Hfm He (fbias c) z cc); [reflexivity|lia| |exact HC].
      apply (tie_even (fm c) smin eps Hfm He He4 z w); assumption.
  - (* saturated above *)
    assert (ZL : largest c <= z).
    { apply Qnot_lt_le. intros X. pose proof (round_mono_step (fm c) smin eps ltac:(lia) He He4 z (largest c) ltac:(lra)) as M. lra. }
    exists top. split; [lia|]. split; [left; rewrite D2; exact HL|].
    intros d w Hd Hw. destruct (TG d w Hd Hw) as [AW _].
    destruct (saturated z y w (largest c) AW D2 ZL) as [S1 S2]. split; [exact S1|]. intros T N. destruct (N (S2 T)).
  - (* saturated below *)
    assert (FXN : rnd (fm c) smin eps roundZ (- largest c) == - largest c).
    { apply rnd_fixed; try assumption; [lia|apply round_rounding|fold smin in He4; lra|].
      destruct LG as (k & j & Hk & Hj & E). exists (- k)%Z, j. split; [lia|]. split; [exact Hj|]. rewrite E, inject_Z_opp. ring. }
    assert (ZL : z <= - largest c).
    { apply Qnot_lt_le. intros X. pose proof (round_mono_step (fm c) smin eps ltac:(lia) He He4 (- largest c) z ltac:(lra)) as M. lra. }
    exists top. split; [lia|]. split; [right; rewrite D2, LOW, HL; reflexivity|].
    intros d w Hd Hw. destruct (TG d w Hd Hw) as [AW _].
    destruct (saturated_neg z y w (largest c) AW ltac:(lra) ZL) as [S1 S2]. split; [exact S1|]. intros T N. destruct (N (S2 T)).
Qed.

(** Conversion has one result. *)
Lemma between y1 w y2 z : y1 < w -> w < y2 -> Qabs (y1 - z) == Qabs (y2 - z) -> Qabs (w - z) < Qabs (y1 - z).
Proof.
  intros H1 H2. apply (Qabs_case (y1 - z)); apply (Qabs_case (y2 - z)); apply (Qabs_case (w - z)); intros; lra.
Qed.

Lemma signed_code m bias c y : has_code m bias c y -> exists s : bool, y == (if s then - decode m bias c else decode m bias c).
Proof. intros [H|H]; [exists false|exists true]; exact H. Qed.

Lemma decode_zero m bias : (0 <= m)%Z -> decode m bias 0 == 0.
Proof.
  intros Hm. unfold decode. assert (0 < 2 ^ m)%Z by (apply Z.pow_pos_nonneg; lia).
  rewrite Z.div_0_l, Z.mod_0_l by lia. cbn [Z.eqb]. change (inject_Z 0) with 0. ring.
Qed.

Lemma decode_pos m bias c : (0 <= m)%Z -> (0 < c)%Z -> 0 < decode m bias c.
Proof. intros Hm Hc. rewrite <- (decode_zero m bias Hm). apply decode_lt; lia. Qed.

(** Two different values with even codes have a value of the type strictly between them. *)
Lemma even_gap m bias top c1 c2 y1 y2 :
  (0 <= m)%Z -> (0 <= c1 <= top)%Z -> (0 <= c2 <= top)%Z -> Z.even c1 = true -> Z.even c2 = true ->
  has_code m bias c1 y1 -> has_code m bias c2 y2 -> y1 < y2 ->
  exists d w, (0 <= d <= top)%Z /\ has_code m bias d w /\ y1 < w /\ w < y2.
Proof.
  intros Hm H1 H2 E1 E2 C1 C2 LT.
  assert (N1 := decode_nonneg m bias c1 Hm ltac:(lia)). assert (N2 := decode_nonneg m bias c2 Hm ltac:(lia)).
  assert (Z0 := decode_zero m bias Hm).
  destruct (Z.eq_dec c1 0) as [->|K1].
  { (* y1 = 0 *) assert (Y1 : y1 == 0) by (destruct C1; lra).
    assert (K : (c2 <> 0)%Z) by (intros ->; destruct C2; lra).
    destruct C2 as [C2|C2]; [|lra].
    assert (c2 <> 1)%Z by (intros ->; discriminate).
    exists 1%Z, (decode m bias 1). split; [lia|]. split; [left; reflexivity|].
    pose proof (decode_pos m bias 1 Hm ltac:(lia)). pose proof (decode_lt m bias 1 c2 Hm ltac:(lia)). lra. }
  destruct (Z.eq_dec c2 0) as [->|K2].
  { assert (Y2 : y2 == 0) by (destruct C2; lra). destruct C1 as [C1|C1]; [lra|].
    assert (c1 <> 1)%Z by (intros ->; discriminate).
    exists 1%Z, (- decode m bias 1). split; [lia|]. split; [right; reflexivity|].
    pose proof (decode_pos m bias 1 Hm ltac:(lia)). pose proof (decode_lt m bias 1 c1 Hm ltac:(lia)). lra. }
  pose proof (decode_pos m bias c1 Hm ltac:(lia)) as P1. pose proof (decode_pos m bias c2 Hm ltac:(lia)) as P2.
  destruct C1 as [C1|C1], C2 as [C2|C2].
  - assert (c1 < c2)%Z. { destruct (Z_lt_le_dec c1 c2) as [X|X]; [exact X|]. pose proof (decode_le m bias c2 c1 Hm ltac:(lia)). lra. }
    assert (c2 <> c1 + 1)%Z by (intros ->; rewrite Z.even_add, E1 in E2; discriminate).
    exists (c1 + 1)%Z, (decode m bias (c1 + 1)). split; [lia|]. split; [left; reflexivity|].
    pose proof (decode_lt m bias c1 (c1 + 1) Hm ltac:(lia)). pose proof (decode_lt m bias (c1 + 1) c2 Hm ltac:(lia)). lra.
  - lra.
  - exists 0%Z, 0. split; [lia|]. split; [left; lra|]. lra.
  - assert (c2 < c1)%Z. { destruct (Z_lt_le_dec c2 c1) as [X|X]; [exact X|]. pose proof (decode_le m bias c1 c2 Hm ltac:(lia)). lra. }
    assert (c1 <> c2 + 1)%Z by (intros ->; rewrite Z.even_add, E2 in E1; discriminate).
    exists (c2 + 1)%Z, (- decode m bias (c2 + 1)). split; [lia|]. split; [right; reflexivity|].
    pose proof (decode_lt m bias c2 (c2 + 1) Hm ltac:(lia)). pose proof (decode_lt m bias (c2 + 1) c1 Hm ltac:(lia)). lra.
Qed.

Theorem C99_convert_unique m bias top z y1 y2 : (0 <= m)%Z ->
  converts m bias top z y1 -> converts m bias top z y2 -> y1 == y2.
Proof.
  intros Hm (c1 & B1 & C1 & H1) (c2 & B2 & C2 & H2).
  destruct (H1 c2 y2 B2 C2) as [L1 V1]. destruct (H2 c1 y1 B1 C1) as [L2 V2].
  assert (T : Qabs (y1 - z) == Qabs (y2 - z)) by lra.
  destruct (Q_dec y1 y2) as [[LT|GT]|EQ]; [exfalso|exfalso|exact EQ].
  - assert (E1 : Z.even c1 = true) by (apply V1; [exact T|lra]).
    assert (E2 : Z.even c2 = true) by (apply V2; [lra|lra]).
    destruct (even_gap m bias top c1 c2 y1 y2 Hm B1 B2 E1 E2 C1 C2 LT) as (d & w & Bd & Cw & W1 & W2).
    pose proof (between y1 w y2 z W1 W2 T). destruct (H1 d w Bd Cw). lra.
  - assert (E1 : Z.even c1 = true) by (apply V1; [exact T|lra]).
    assert (E2 : Z.even c2 = true) by (apply V2; [lra|lra]).
    destruct (even_gap m bias top c2 c1 y2 y1 Hm B2 B1 E2 E1 C2 C1 GT) as (d & w & Bd & Cw & W1 & W2).
    assert (T' : Qabs (y2 - z) == Qabs (y1 - z)) by (symmetry; exact T).
    pose proof (between y2 w y1 z W1 W2 T'). destruct (H2 d w Bd Cw). lra.
Qed.

Lemma qdq_unique d x scale y1 y2 : onnx_qdq d x scale y1 -> onnx_qdq d x scale y2 -> y1 == y2.
Proof.
  intros (r1 & C1 & E1) (r2 & C2 & E2). rewrite E1, E2.
  assert (Hm : (0 <= f8_mantissa d)%Z) by (destruct d; cbn; lia).
  rewrite (C99_convert_unique _ _ _ _ _ _ Hm C1 C2). reflexivity.
Qed.

(** ** The exported graph *)

(** The exported pair computes the quantizer's value, whenever the configuration has the value
    set of the chosen type and saturates. *)
Definition matches (c : fcfg) (d : f8) : Prop :=
  fm c = f8_mantissa d /\ fbias c = f8_bias d /\ largest c == decode (fm c) (fbias c) (f8_top d).

Lemma export_widths c d : export_act c = Some d -> fmode c = Round /\
  ((fe c = 4%Z /\ fm c = 3%Z /\ (d = E4M3FN \/ d = E4M3FNUZ)) \/ (fe c = 5%Z /\ fm c = 2%Z /\ (d = E5M2 \/ d = E5M2FNUZ))).
Proof.
  unfold export_act, validate, round_mode, signed_dtype. destruct (fmode c); cbn [andb]; try discriminate.
  intros H. split; [reflexivity|].
  destruct (is_ocp c || is_fnuz c); [|discriminate].
  destruct (is_ocp c), (is_fnuz c); try discriminate;
    destruct (Z.eqb_spec (fe c) 4), (Z.eqb_spec (fm c) 3); cbn [andb] in H; try (injection H as <-; left; tauto);
    destruct (Z.eqb_spec (fe c) 5), (Z.eqb_spec (fm c) 2); cbn [andb] in H; try discriminate; injection H as <-; right; tauto.
Qed.

Theorem C99_export c d eps x scale :
  export_act c = Some d -> fmt_ok c -> matches c d -> fsat c = true -> fsigned c = true ->
  0 < scale -> 0 < eps -> 4 * eps <= pow2 (1 - fbias c - fm c) ->
  exists y, float_quant c false eps x scale = Some (Fin y) /\ onnx_qdq d x scale y /\
    forall y', onnx_qdq d x scale y' -> y' == y.
Proof.
  intros HX HF (M1 & M2 & M3) HS HG Hsc He He4.
  destruct (export_widths c d HX) as (HM & HW).
  destruct (C99_nearest_even c eps x scale (f8_top d) HF HS HG HM Hsc He He4) as (r & EQ & CV); [|exact M3|].
  - destruct HW as [(-> & -> & [-> | ->])|(-> & -> & [-> | ->])]; cbn; lia.
  - exists (r * scale). split; [exact EQ|].
    assert (O : onnx_qdq d x scale (r * scale)).
    { exists r. split; [rewrite <- M1, <- M2; exact CV|reflexivity]. }
    split; [exact O|]. intros y' O'. exact (qdq_unique d x scale y' (r * scale) O' O).
Qed.

(** The OCP quantizers with the default exponent bias, whatever the widths: if the export goes
    through, it is faithful. *)
Theorem C99_ocp bw e m c d eps x scale :
  ocp_quantizer bw e m (default_bias e) true true Round = Some c -> export_act c = Some d ->
  0 < scale -> 0 < eps -> 4 * eps <= pow2 (-17) ->
  (d = E4M3FN \/ d = E5M2) /\
  exists y, float_quant c false eps x scale = Some (Fin y) /\ onnx_qdq d x scale y /\
    forall y', onnx_qdq d x scale y' -> y' == y.
Proof.
  intros HO HX Hsc He He4. pose proof (export_widths c d HX) as (_ & HW).
  assert (FE : fe c = e /\ fm c = m).
  { unfold ocp_quantizer in HO. destruct (get_max_available_float _ _ _ _ _ _); [|discriminate]. injection HO as <-. split; reflexivity. }
  destruct FE as [FE FM]. rewrite FE, FM in HW. clear FE FM.
  assert (B8 : (bw = 8)%Z).
  { destruct (Z.eqb_spec bw 8) as [B|B]; [exact B|exfalso].
    apply Z.eqb_neq in B.
    destruct HW as [(-> & -> & _)|(-> & -> & _)]; unfold ocp_quantizer, ocp_nan, ocp_inf in HO; rewrite B in HO;
      vm_compute in HO; injection HO as <-; vm_compute in HX; discriminate. }
  subst bw.
  destruct HW as [(-> & -> & _)|(-> & -> & _)]; vm_compute in HO; injection HO as <-; vm_compute in HX; injection HX as <-.
  - split; [left; reflexivity|].
    apply C99_export; try reflexivity; try assumption.
    + split; [cbn; lia|]. split; [cbn; lia|]. cbn [fmax_avail fe fm fbias].
      split; [exists 126%Z; split; [cbn; lia|left; vm_compute; reflexivity]|lra].
    + repeat split.
    + cbn [fbias fm]. pose proof (pow2_mono (-17) (1 - 7 - 3) ltac:(lia)). lra.
  - split; [right; reflexivity|].
    apply C99_export; try reflexivity; try assumption.
    + split; [cbn; lia|]. split; [cbn; lia|]. cbn [fmax_avail fe fm fbias].
      split; [exists 123%Z; split; [cbn; lia|left; vm_compute; reflexivity]|lra].
    + repeat split.
    + cbn [fbias fm]. pose proof (pow2_mono (-17) (1 - 15 - 2) ltac:(lia)). lra.
Qed.

(** Likewise the FNUZ quantizers with their exponent bias. *)
Theorem C99_fnuz e m d eps x scale :
  export_act (fnuz_quantizer e m (fnuz_bias e) true true Round) = Some d ->
  0 < scale -> 0 < eps -> 4 * eps <= pow2 (-17) ->
  (d = E4M3FNUZ \/ d = E5M2FNUZ) /\
  exists y, float_quant (fnuz_quantizer e m (fnuz_bias e) true true Round) false eps x scale = Some (Fin y) /\
    onnx_qdq d x scale y /\ forall y', onnx_qdq d x scale y' -> y' == y.
Proof.
  intros HX Hsc He He4. pose proof (export_widths _ d HX) as (_ & HW). cbn [fnuz_quantizer fe fm] in HW.
  destruct HW as [(-> & -> & _)|(-> & -> & _)]; vm_compute in HX; injection HX as <-.
  - split; [left; reflexivity|].
    apply C99_export; try reflexivity; try assumption.
    + split; [cbn; lia|]. split; [cbn; lia|]. exact I.
    + repeat split.
    + cbn [fnuz_quantizer fbias fm]. change (fnuz_bias 4) with 8%Z. pose proof (pow2_mono (-17) (1 - 8 - 3) ltac:(lia)). lra.
  - split; [right; reflexivity|].
    apply C99_export; try reflexivity; try assumption.
    + split; [cbn; lia|]. split; [cbn; lia|]. exact I.
    + repeat split.
Qed.

(** The four standard formats do export, under their own types; the generic FP8 quantizers
    (no reserved codes, bias 7 or 15) and every other width are refused. *)
Theorem C99_standard_exports :
  (exists c, ocp_quantizer 8 4 3 (default_bias 4) true true Round = Some c /\ export_act c = Some E4M3FN) /\
  (exists c, ocp_quantizer 8 5 2 (default_bias 5) true true Round = Some c /\ export_act c = Some E5M2) /\
  export_act (fnuz_quantizer 4 3 (fnuz_bias 4) true true Round) = Some E4M3FNUZ /\
  export_act (fnuz_quantizer 5 2 (fnuz_bias 5) true true Round) = Some E5M2FNUZ.
Proof.
  split; [eexists; split; vm_compute; reflexivity|]. split; [eexists; split; vm_compute; reflexivity|].
  split; vm_compute; reflexivity.
Qed.

(** Exactly which configurations are exported, and as what. *)
Definition codes (l : list (list nat)) : list bits := map (map (fun d => Nat.eqb d 1)) l.
Definition exported_as (c : fcfg) (d : f8) : Prop :=
  match d with
  | E4M3FN => fe c = 4%Z /\ fm c = 3%Z /\ finf c = None /\ fnan c = Some (codes ([[1; 1; 1]])%nat)
  | E5M2 => fe c = 5%Z /\ fm c = 2%Z /\ finf c = Some (codes ([[0; 0]])%nat) /\ fnan c = Some (codes ([[0; 1]; [1; 1]; [1; 0]])%nat)
  | E4M3FNUZ => fe c = 4%Z /\ fm c = 3%Z /\ finf c = None /\ fnan c = None /\ fbias c = 8%Z
  | E5M2FNUZ => fe c = 5%Z /\ fm c = 2%Z /\ finf c = None /\ fnan c = None /\ fbias c = 16%Z
  end.
Lemma bits_eqb_iff a b : bits_eqb a b = true <-> a = b.
Proof.
  revert b. induction a as [|x a IH]; intros [|y b]; cbn [bits_eqb]; try (split; [discriminate|congruence]); [split; reflexivity|].
  rewrite andb_true_iff, IH. split; [intros [H ->]; apply Bool.eqb_prop in H; congruence|].
  intros E. injection E as -> ->. split; [apply Bool.eqb_reflx|reflexivity].
Qed.
Lemma tuple_eqb_iff a b : tuple_eqb a b = true <-> a = b.
Proof.
  revert b. induction a as [|x a IH]; intros [|y b]; cbn [tuple_eqb]; try (split; [discriminate|congruence]); [split; reflexivity|].
  rewrite andb_true_iff, IH, bits_eqb_iff. split; [intros [-> ->]; reflexivity|intros E; injection E as -> ->; split; reflexivity].
Qed.
Lemma equals_iff o l : equals o l = true <-> o = Some l.
Proof.
  destruct o as [l'|]; cbn [equals]; [rewrite tuple_eqb_iff; split; congruence|split; discriminate].
Qed.
Lemma is_none_iff {A} (o : option A) : is_none o = true <-> o = None.
Proof. destruct o; split; try discriminate; reflexivity. Qed.
Theorem C99_accepted c d : export_act c = Some d <-> fmode c = Round /\ exported_as c d.
Proof.
  assert (O : is_ocp c = true <-> exported_as c E4M3FN \/ exported_as c E5M2).
  { unfold is_ocp. rewrite orb_true_iff, !andb_true_iff, !equals_iff, is_none_iff, !Z.eqb_eq. cbn [exported_as].
    change (codes ([[1; 1; 1]])%nat) with [s111]. change (codes ([[0; 0]])%nat) with [s00]. change (codes ([[0; 1]; [1; 1]; [1; 0]])%nat) with [s01; s11; s10]. tauto. }
  assert (F : is_fnuz c = true <-> exported_as c E4M3FNUZ \/ exported_as c E5M2FNUZ).
  { unfold is_fnuz. rewrite orb_true_iff, !andb_true_iff, !is_none_iff, !Z.eqb_eq. cbn [exported_as]. tauto. }
  split.
  - intros E. destruct (export_widths c d E) as (HM & HW). split; [exact HM|].
    unfold export_act, validate, round_mode in E. rewrite HM in E. cbn [andb] in E.
    destruct (is_ocp c) eqn:EO.
    + cbn [orb] in E. unfold signed_dtype in E. destruct O as [O _]. specialize (O eq_refl).
      destruct O as [H|H]; destruct H as (H1 & H2 & H3); rewrite H1, H2 in E; vm_compute in E; injection E as <-; repeat split; assumption || apply H3.
    + destruct (is_fnuz c) eqn:EF; [|discriminate]. cbn [orb] in E. unfold signed_dtype in E. destruct F as [F _]. specialize (F eq_refl).
      destruct F as [H|H]; destruct H as (H1 & H2 & H3); rewrite H1, H2 in E; vm_compute in E; injection E as <-; repeat split; assumption || apply H3.
  - intros (HM & HX). unfold export_act, validate, round_mode. rewrite HM. cbn [andb].
    destruct d.
    + assert (EO : is_ocp c = true) by (apply O; left; exact HX). rewrite EO. cbn [orb]. destruct HX as (-> & -> & _). reflexivity.
    + assert (EO : is_ocp c = true) by (apply O; right; exact HX). rewrite EO. cbn [orb]. destruct HX as (-> & -> & _). reflexivity.
    + assert (EF : is_fnuz c = true) by (apply F; left; exact HX).
      assert (EO : is_ocp c = false).
      { destruct (is_ocp c); [|reflexivity]. destruct O as [O _]. specialize (O eq_refl). cbn [exported_as] in *. destruct HX as (_ & _ & _ & N & _).
        destruct O as [(_ & _ & _ & K)|(_ & _ & _ & K)]; rewrite N in K; discriminate. }
      rewrite EO, EF. cbn [orb]. destruct HX as (-> & -> & _). reflexivity.
    + assert (EF : is_fnuz c = true) by (apply F; right; exact HX).
      assert (EO : is_ocp c = false).
      { destruct (is_ocp c); [|reflexivity]. destruct O as [O _]. specialize (O eq_refl). cbn [exported_as] in *. destruct HX as (_ & _ & _ & N & _).
        destruct O as [(_ & _ & _ & K)|(_ & _ & _ & K)]; rewrite N in K; discriminate. }
      rewrite EO, EF. cbn [orb]. destruct HX as (-> & -> & _). reflexivity.
Qed.

Theorem C99_refused c :
  fmode c <> Round \/ (finf c = None /\ fnan c = None /\ fbias c = default_bias (fe c)) \/
  ~ (fe c = 4 /\ fm c = 3)%Z /\ ~ (fe c = 5 /\ fm c = 2)%Z ->
  export_act c = None.
Proof.
  intros H. destruct (export_act c) as [d|] eqn:E; [exfalso|reflexivity].
  destruct (export_widths c d E) as (HM & HW).
  destruct H as [H|[(H1 & H2 & H3)|(H1 & H2)]]; [congruence| |destruct HW as [(W1 & W2 & _)|(W1 & W2 & _)]; tauto].
  unfold export_act, validate, round_mode, is_ocp, is_fnuz in E. rewrite HM, H1, H2, H3 in E.
  destruct HW as [(W1 & W2 & _)|(W1 & W2 & _)]; rewrite W1, W2 in E; vm_compute in E; discriminate.
Qed.

(** Weights: nothing is exported unless a QuantizeLinear node is asked for
    (export_weight_q_node is False by default). *)
Theorem C99_weight c : export_weight false c = None /\ export_weight true c = export_act c.
Proof.
  split; [unfold export_weight; destruct (validate false c); reflexivity|].
  unfold export_weight, export_act. destruct (validate true c); reflexivity.
Qed.

(** ** What does not hold *)

Lemma exact_converts m bias top c y : (0 <= c <= top)%Z -> has_code m bias c y -> converts m bias top y y.
Proof.
  intros Hc H. exists c. split; [exact Hc|]. split; [exact H|]. intros d w _ _.
  setoid_replace (y - y) with 0 by ring. change (Qabs 0) with 0. split; [apply Qabs_nonneg|].
  intros T N. exfalso. apply N. assert (Z0 : w - y == 0).
  { revert T. apply (Qabs_case (w - y)); intros; lra. } lra.
Qed.

(** [is_ocp] does not look at the exponent bias: with bias 8 the type is still float8_e4m3fn
    (bias 7), and 256 becomes 224 in Brevitas and 256 in the exported graph. *)
Theorem C99_bias_refuted :
  exists c, ocp_quantizer 8 4 3 8 true true Round = Some c /\ export_act c = Some E4M3FN /\
    (exists y, float_quant c false tiny32 256 1 = Some (Fin y) /\ y == 224) /\
    (forall y, onnx_qdq E4M3FN 256 1 y <-> y == 256).
Proof.
  eexists. split; [vm_compute; reflexivity|]. split; [vm_compute; reflexivity|]. split.
  - eexists. split; [vm_compute; reflexivity|]. vm_compute. reflexivity.
  - assert (O : onnx_qdq E4M3FN 256 1 256).
    { exists 256. split; [|reflexivity]. change (256 / 1) with 256.
      apply (exact_converts _ _ _ 120); [cbn; lia|]. left. vm_compute. reflexivity. }
    intros y. split; [intros H; exact (qdq_unique _ _ _ _ _ H O)|].
    intros E. destruct O as (r & C & R). exists r. split; [exact C|]. rewrite E. exact R.
Qed.

(** It does not look at saturation either: a non-saturating E4M3 gives NaN for 500, the
    exported node saturates to 448. *)
Theorem C99_nonsaturating_refuted :
  exists c, ocp_quantizer 8 4 3 (default_bias 4) true false Round = Some c /\ export_act c = Some E4M3FN /\
    float_quant c false tiny32 500 1 = Some NaN /\ (forall y, onnx_qdq E4M3FN 500 1 y <-> y == 448).
Proof.
  eexists. split; [vm_compute; reflexivity|]. split; [vm_compute; reflexivity|]. split; [vm_compute; reflexivity|].
  assert (O : onnx_qdq E4M3FN 500 1 448).
  { exists 448. split; [|reflexivity]. change (500 / 1) with 500. cbn [f8_mantissa f8_bias f8_top].
    assert (T : 448 == decode 3 7 126) by (vm_compute; reflexivity).
    exists 126%Z. split; [lia|]. split; [left; exact T|]. intros d w Hd Hw.
    assert (AW : Qabs w <= 448) by (rewrite (has_code_abs 3 7 d w), T by (try lia; exact Hw); apply decode_le; lia).
    destruct (saturated 500 448 w 448 AW ltac:(lra) ltac:(lra)) as [S1 S2]. split; [exact S1|]. intros X N. destruct (N (S2 X)). }
  intros y. split; [intros H; exact (qdq_unique _ _ _ _ _ H O)|].
  intros E. destruct O as (r & C & R). exists r. split; [exact C|]. rewrite E. exact R.
Qed.

(** Nor at the sign: an unsigned FNUZ quantizer maps -1 to 0, the exported graph keeps -1. *)
Theorem C99_unsigned_refuted :
  exists c, c = fnuz_quantizer 4 3 (fnuz_bias 4) false true Round /\ export_act c = Some E4M3FNUZ /\
    (exists y, float_quant c false tiny32 (- (1)) 1 = Some (Fin y) /\ y == 0) /\
    (forall y, onnx_qdq E4M3FNUZ (- (1)) 1 y <-> y == - (1)).
Proof.
  eexists. split; [reflexivity|]. split; [vm_compute; reflexivity|]. split.
  - eexists. split; [vm_compute; reflexivity|]. vm_compute. reflexivity.
  - assert (O : onnx_qdq E4M3FNUZ (- (1)) 1 (- (1))).
    { exists (- (1)). split; [|reflexivity]. change (- (1) / 1) with (- (1)).
      apply (exact_converts _ _ _ 64); [cbn; lia|]. right. vm_compute. reflexivity. }
    intros y. split; [intros H; exact (qdq_unique _ _ _ _ _ H O)|].
    intros E. destruct O as (r & C & R). exists r. split; [exact C|]. rewrite E. exact R.
Qed.

(** * Examples *)

(** OCP E4M3 with scale 1/2: 0.3 is between 0.28125 and 0.3125; a tie goes to the even code
    (17/16 / 1/2 = 2.125 is halfway between 2 and 2.25). *)
Example ex_hyp : 0 < tiny32 /\ 4 * tiny32 <= pow2 (-17).
Proof. split; vm_compute; congruence. Qed.
Example ex_e4m3_qdq :
  exists c y1 y2, ocp_quantizer 8 4 3 (default_bias 4) true true Round = Some c /\
    float_quant c false tiny32 (3 # 10) (1 # 2) = Some (Fin y1) /\ y1 == 5 # 16 /\
    float_quant c false tiny32 (17 # 16) (1 # 2) = Some (Fin y2) /\ y2 == 1.
Proof.
  eexists _, _, _. split; [vm_compute; reflexivity|]. split; [vm_compute; reflexivity|]. split; [vm_compute; reflexivity|].
  split; [vm_compute; reflexivity|]. vm_compute. reflexivity.
Qed.
(** The hypotheses of [C99_export] hold for OCP E4M3. *)
Example ex_matches : fmt_ok e4m3 /\ matches e4m3 E4M3FN /\ export_act e4m3 = Some E4M3FN.
Proof. split; [exact ex_e4m3_ok|]. split; [repeat split|vm_compute; reflexivity]. Qed.
(** A generic FP8 quantizer is refused. *)
Example ex_refused : export_act (FCfg 4 3 7 true true None None None Round) = None.
Proof. vm_compute. reflexivity. Qed.

Print Assumptions C99_nearest_even.
Print Assumptions C99_convert_unique.
Print Assumptions C99_export.
Print Assumptions C99_ocp.
Print Assumptions C99_fnuz.
Print Assumptions C99_standard_exports.
Print Assumptions C99_accepted.
Print Assumptions C99_refused.
Print Assumptions C99_weight.
Print Assumptions C99_bias_refuted.
Print Assumptions C99_nonsaturating_refuted.
Print Assumptions C99_unsigned_refuted.
