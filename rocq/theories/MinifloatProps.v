(** C28 (minifloat quantization) and C29 (largest finite minifloat). *)
From Verif Require Import QUtil Ops OpsProofs Log2Q Minifloat MinifloatProofs.
Open Scope Q_scope.

(** * Specification (independent of the model)

    A minifloat format with [m] mantissa bits and exponent bias [bias] assigns to the code
    [c] (exponent field c / 2^m, mantissa field c mod 2^m) the IEEE-style value below. *)
Definition decode (m bias c : Z) : Q :=
  let E := (c / 2 ^ m)%Z in
  let M := (c mod 2 ^ m)%Z in
  if (E =? 0)%Z then inject_Z M * pow2 (1 - bias - m)
  else inject_Z (2 ^ m + M) * pow2 (E - bias - m).

(** The value [r] is that of some code with [e] exponent bits, with either sign. *)
Definition minifloat (e m bias : Z) (r : Q) : Prop :=
  exists c, (0 <= c < 2 ^ (e + m))%Z /\ (r == decode m bias c \/ r == - decode m bias c).

(** The largest finite value of a configured quantizer: the given limit, or the value of
    the all-ones code. *)
Definition largest (c : fcfg) : Q :=
  match fmax_avail c with
  | Some a => a
  | None => decode (fm c) (fbias c) (2 ^ (fe c + fm c) - 1)
  end.

(** A usable configuration: at least one exponent and one mantissa bit, and the limit, if
    any, is itself a positive value of the format. *)
Definition fmt_ok (c : fcfg) : Prop :=
  (1 <= fe c)%Z /\ (1 <= fm c)%Z /\
  match fmax_avail c with
  | Some a => minifloat (fe c) (fm c) (fbias c) a /\ 0 < a
  | None => True
  end.

(** * Lemmas on codes *)

Lemma decode_parts m bias c : (0 <= m)%Z -> (0 <= c)%Z ->
  exists k j, (0 <= k < 2 ^ (m + 1))%Z /\ (1 - bias - m <= j)%Z /\ decode m bias c == inject_Z k * pow2 j
              /\ ((2 ^ m <= k)%Z \/ j = (1 - bias - m)%Z)
              /\ j = (Z.max (c / 2 ^ m) 1 - bias - m)%Z.
Proof.
  intros Hm Hc. unfold decode.
  assert (P : (0 < 2 ^ m)%Z) by (apply Z.pow_pos_nonneg; lia).
  assert (P1 : (2 ^ (m + 1) = 2 * 2 ^ m)%Z) by (rewrite Z.pow_add_r by lia; lia).
  pose proof (Z.mod_pos_bound c (2 ^ m) P) as Hmod.
  pose proof (Z.div_pos c (2 ^ m) Hc P) as Hdiv.
  destruct (Z.eqb_spec (c / 2 ^ m) 0) as [E|E].
  - exists (c mod 2 ^ m)%Z, (1 - bias - m)%Z. repeat split; try lia; try reflexivity.
  - exists (2 ^ m + c mod 2 ^ m)%Z, (c / 2 ^ m - bias - m)%Z. repeat split; try lia; try reflexivity.
Qed.

Lemma decode_nonneg m bias c : (0 <= m)%Z -> (0 <= c)%Z -> 0 <= decode m bias c.
Proof.
  intros Hm Hc. destruct (decode_parts m bias c Hm Hc) as (k & j & Hk & _ & E & _).
  rewrite E. apply Qmult_le_0_compat; [|apply Qlt_le_weak, pow2_pos].
  change 0 with (inject_Z 0). apply injz_le. lia.
Qed.

Lemma decode_succ m bias c : (0 <= m)%Z -> (0 <= c)%Z -> decode m bias c < decode m bias (c + 1).
Proof.
  intros Hm Hc. unfold decode.
  assert (P : (0 < 2 ^ m)%Z) by (apply Z.pow_pos_nonneg; lia).
  pose proof (Z.mod_pos_bound c (2 ^ m) P) as Hmod.
  pose proof (Z.div_pos c (2 ^ m) Hc P) as Hdiv.
  pose proof (Z.div_mod c (2 ^ m) ltac:(lia)) as DM.
  set (E := (c / 2 ^ m)%Z) in *. set (M := (c mod 2 ^ m)%Z) in *.
  destruct (Z.eq_dec M (2 ^ m - 1)) as [W|W].
  - (* carry into the exponent *)
    assert (D : ((c + 1) / 2 ^ m = E + 1)%Z).
    { symmetry. apply (Z.div_unique (c + 1) (2 ^ m) (E + 1) 0); lia. }
    assert (R : ((c + 1) mod 2 ^ m = 0)%Z).
    { symmetry. apply (Z.mod_unique (c + 1) (2 ^ m) (E + 1) 0); lia. }
    rewrite D, R. replace (E + 1 =? 0)%Z with false by (symmetry; apply Z.eqb_neq; lia).
    destruct (Z.eqb_spec E 0) as [Z0|Z0].
    + rewrite Z0. replace (0 + 1 - bias - m)%Z with (1 - bias - m)%Z by lia.
      apply Qmult_lt_compat_r; [apply pow2_pos|]. rewrite <- Zlt_Qlt. lia.
    + replace (E + 1 - bias - m)%Z with ((E - bias - m) + 1)%Z by lia.
      rewrite pow2_succ. rewrite Qmult_assoc.
      apply Qmult_lt_compat_r; [apply pow2_pos|].
      change 2 with (inject_Z 2). rewrite <- inject_Z_mult, <- Zlt_Qlt. lia.
  - assert (D : ((c + 1) / 2 ^ m = E)%Z).
    { symmetry. apply (Z.div_unique (c + 1) (2 ^ m) E (M + 1)); lia. }
    assert (R : ((c + 1) mod 2 ^ m = M + 1)%Z).
    { symmetry. apply (Z.mod_unique (c + 1) (2 ^ m) E (M + 1)); lia. }
    rewrite D, R. destruct (E =? 0)%Z;
      (apply Qmult_lt_compat_r; [apply pow2_pos|]; rewrite <- Zlt_Qlt; lia).
Qed.

(** Codes are ordered like their values. *)
Lemma decode_lt m bias c d : (0 <= m)%Z -> (0 <= c < d)%Z -> decode m bias c < decode m bias d.
Proof.
  intros Hm [Hc Hd].
  assert (G : forall n : nat, decode m bias c < decode m bias (c + 1 + Z.of_nat n)).
  { induction n as [|n IH].
    - replace (c + 1 + Z.of_nat 0)%Z with (c + 1)%Z by lia. apply decode_succ; assumption.
    - replace (c + 1 + Z.of_nat (S n))%Z with ((c + 1 + Z.of_nat n) + 1)%Z by lia.
      pose proof (decode_succ m bias (c + 1 + Z.of_nat n) Hm ltac:(lia)). lra. }
  specialize (G (Z.to_nat (d - c - 1))). rewrite Z2Nat.id in G by lia.
  replace (c + 1 + (d - c - 1))%Z with d in G by lia. exact G.
Qed.

Lemma decode_le m bias c d : (0 <= m)%Z -> (0 <= c <= d)%Z -> decode m bias c <= decode m bias d.
Proof.
  intros Hm H. destruct (Z.eq_dec c d) as [->|N]; [lra|].
  apply Qlt_le_weak, decode_lt; [exact Hm|lia].
Qed.

Lemma decode_top e m bias : (1 <= e)%Z -> (0 <= m)%Z ->
  decode m bias (2 ^ (e + m) - 1) == max_float e m bias.
Proof.
  intros He Hm. rewrite max_float_eq by exact Hm. unfold decode.
  assert (P : (0 < 2 ^ m)%Z) by (apply Z.pow_pos_nonneg; lia).
  assert (PE : (2 ^ 1 <= 2 ^ e)%Z) by (apply Z.pow_le_mono_r; lia).
  change (2 ^ 1)%Z with 2%Z in PE.
  assert (PM : (2 ^ (e + m) = 2 ^ e * 2 ^ m)%Z) by (apply Z.pow_add_r; lia).
  assert (P1 : (2 ^ (m + 1) = 2 * 2 ^ m)%Z) by (rewrite Z.pow_add_r by lia; lia).
  assert (D : ((2 ^ (e + m) - 1) / 2 ^ m = 2 ^ e - 1)%Z).
  { symmetry. apply (Z.div_unique _ (2 ^ m) (2 ^ e - 1) (2 ^ m - 1)); [lia|nia]. }
  assert (R : ((2 ^ (e + m) - 1) mod 2 ^ m = 2 ^ m - 1)%Z).
  { symmetry. apply (Z.mod_unique _ (2 ^ m) (2 ^ e - 1) (2 ^ m - 1)); [lia|nia]. }
  rewrite D, R. replace (2 ^ e - 1 =? 0)%Z with false by (symmetry; apply Z.eqb_neq; lia).
  replace (2 ^ m + (2 ^ m - 1))%Z with (2 ^ (m + 1) - 1)%Z by lia. reflexivity.
Qed.

(** Any k * 2^j with k <= 2^(m+1), j at least the smallest exponent, that does not exceed
    the all-ones value has a code. *)
Lemma code_of e m bias k j : (1 <= e)%Z -> (0 <= m)%Z ->
  (0 <= k <= 2 ^ (m + 1))%Z -> (1 - bias - m <= j)%Z ->
  inject_Z k * pow2 j <= max_float e m bias ->
  exists c, (0 <= c < 2 ^ (e + m))%Z /\ decode m bias c == inject_Z k * pow2 j.
Proof.
  intros He Hm.
  assert (P : (0 < 2 ^ m)%Z) by (apply Z.pow_pos_nonneg; lia).
  assert (PE : (2 ^ 1 <= 2 ^ e)%Z) by (apply Z.pow_le_mono_r; lia).
  change (2 ^ 1)%Z with 2%Z in PE.
  assert (PM : (2 ^ (e + m) = 2 ^ e * 2 ^ m)%Z) by (apply Z.pow_add_r; lia).
  assert (P1 : (2 ^ (m + 1) = 2 * 2 ^ m)%Z) by (rewrite Z.pow_add_r by lia; lia).
  (* normalised mantissas *)
  assert (N : forall k j, (2 ^ m <= k < 2 ^ (m + 1))%Z -> (1 - bias - m <= j)%Z ->
     inject_Z k * pow2 j <= max_float e m bias ->
     exists c, (0 <= c < 2 ^ (e + m))%Z /\ decode m bias c == inject_Z k * pow2 j).
  { clear k j. intros k j Hk Hj Hle.
    assert (Ej : (j + m + bias <= 2 ^ e - 1)%Z).
    { assert (L : pow2 (j + m) < pow2 (2 ^ e - bias)).
      { assert (A1 : pow2 (j + m) <= inject_Z k * pow2 j).
        { rewrite Z.add_comm, pow2_plus. apply Qmult_le_compat_r; [|apply Qlt_le_weak, pow2_pos].
          rewrite <- inj_pow by exact Hm. apply injz_le. lia. }
        assert (A2 : max_float e m bias < pow2 (2 ^ e - bias)).
        { rewrite max_float_eq by exact Hm.
          replace (2 ^ e - bias)%Z with ((m + 1) + (2 ^ e - 1 - bias - m))%Z by lia.
          rewrite (pow2_plus (m + 1)). apply Qmult_lt_compat_r; [apply pow2_pos|].
          rewrite <- inj_pow by lia. rewrite <- Zlt_Qlt. lia. }
        lra. }
      apply pow2_lt_inv in L. lia. }
    exists ((j + m + bias) * 2 ^ m + (k - 2 ^ m))%Z. split; [nia|]. unfold decode.
    assert (D : (((j + m + bias) * 2 ^ m + (k - 2 ^ m)) / 2 ^ m = j + m + bias)%Z).
    { symmetry. apply (Z.div_unique _ _ _ (k - 2 ^ m)); lia. }
    assert (R : (((j + m + bias) * 2 ^ m + (k - 2 ^ m)) mod 2 ^ m = k - 2 ^ m)%Z).
    { symmetry. apply (Z.mod_unique _ _ (j + m + bias) (k - 2 ^ m)); lia. }
    rewrite D, R. replace (j + m + bias =? 0)%Z with false by (symmetry; apply Z.eqb_neq; lia).
    replace (2 ^ m + (k - 2 ^ m))%Z with k by lia.
    replace (j + m + bias - bias - m)%Z with j by lia. reflexivity. }
  assert (G : forall n k j, (j = 1 - bias - m + Z.of_nat n)%Z -> (0 <= k < 2 ^ (m + 1))%Z ->
     inject_Z k * pow2 j <= max_float e m bias ->
     exists c, (0 <= c < 2 ^ (e + m))%Z /\ decode m bias c == inject_Z k * pow2 j).
  { clear k j. induction n as [|n IH]; intros k j Hj Hk Hle.
    - destruct (Z_lt_le_dec k (2 ^ m)) as [L|L]; [|apply N; try lia; exact Hle].
      exists k. split; [nia|]. unfold decode.
      rewrite (Z.div_small k) by lia. rewrite (Z.mod_small k) by lia.
      change (0 =? 0)%Z with true. cbv iota. replace j with (1 - bias - m)%Z by lia. reflexivity.
    - destruct (Z_lt_le_dec k (2 ^ m)) as [L|L]; [|apply N; try lia; exact Hle].
      assert (E : inject_Z k * pow2 j == inject_Z (2 * k) * pow2 (j - 1)).
      { replace j with ((j - 1) + 1)%Z at 1 by lia. rewrite pow2_succ, inject_Z_mult.
        change (inject_Z 2) with 2. ring. }
      destruct (IH (2 * k)%Z (j - 1)%Z) as (c & Hc & Ec); [lia|lia|lra|].
      exists c. split; [exact Hc|]. rewrite Ec, E. reflexivity. }
  intros Hk Hj Hle. destruct (Z.eq_dec k (2 ^ (m + 1))) as [K|K].
  - assert (E : inject_Z k * pow2 j == inject_Z (2 ^ m) * pow2 (j + 1)).
    { rewrite K, P1, inject_Z_mult, pow2_succ. change (inject_Z 2) with 2. ring. }
    destruct (N (2 ^ m)%Z (j + 1)%Z) as (c & Hc & Ec); [lia|lia|lra|].
    exists c. split; [exact Hc|]. rewrite Ec, E. reflexivity.
  - apply (G (Z.to_nat (j - (1 - bias - m))) k j); [lia|lia|exact Hle].
Qed.

(** * The grid of values with unbounded exponent *)
Definition grid (m smin : Z) (r : Q) : Prop :=
  exists k j, (Z.abs k < 2 ^ (m + 1))%Z /\ (smin <= j)%Z /\ r == inject_Z k * pow2 j.

Lemma minifloat_grid e m bias r : (0 <= m)%Z -> minifloat e m bias r -> grid m (1 - bias - m) r.
Proof.
  intros Hm (c & Hc & H).
  destruct (decode_parts m bias c Hm ltac:(lia)) as (k & j & Hk & Hj & E & _).
  destruct H as [H|H]; [exists k, j|exists (- k)%Z, j]; repeat split; try lia.
  - rewrite H, E. reflexivity.
  - rewrite H, E, inject_Z_opp. ring.
Qed.

Lemma grid_minifloat e m bias r : (1 <= e)%Z -> (0 <= m)%Z -> grid m (1 - bias - m) r ->
  Qabs r <= max_float e m bias -> minifloat e m bias r.
Proof.
  intros He Hm (k & j & Hk & Hj & E) Hle.
  assert (EA : Qabs r == inject_Z (Z.abs k) * pow2 j).
  { rewrite E, Qabs_Qmult, (Qabs_pos (pow2 j)) by (apply Qlt_le_weak, pow2_pos).
    change (Qabs (inject_Z k)) with (inject_Z (Z.abs k)). reflexivity. }
  destruct (code_of e m bias (Z.abs k) j) as (c & Hc & Ec); [exact He|exact Hm|lia|exact Hj|lra|].
  exists c. split; [exact Hc|]. rewrite Ec.
  destruct (Z.abs_spec k) as [[Hs ->]|[Hs ->]]; [left; exact E|right].
  rewrite E, inject_Z_opp. ring.
Qed.

(** * The rounding step on the scaled value *)
Section Core.
  Variables (m smin : Z) (eps : Q).
  Hypothesis Hm : (0 <= m)%Z.
  Hypothesis Heps : 0 < eps.

  Definition rnd (f : Q -> Z) (z : Q) : Q :=
    float_internal_scale z m smin eps * inject_Z (f (z / float_internal_scale z m smin eps)).

  Lemma P1 : (2 ^ (m + 1) = 2 * 2 ^ m)%Z.
  Proof. rewrite Z.pow_add_r by lia. lia. Qed.
  Lemma P0 : (0 < 2 ^ m)%Z.
  Proof. apply Z.pow_pos_nonneg; lia. Qed.

  Lemma quot_bound z : Qabs (z / pow2 (iexp z m smin eps)) < inject_Z (2 ^ (m + 1)).
  Proof.
    pose proof (iexp_upper z m smin eps Heps) as U. set (j := iexp z m smin eps) in *.
    pose proof (pow2_pos j) as PJ.
    assert (E : Qabs (z / pow2 j) == Qabs z / pow2 j).
    { unfold Qdiv. rewrite Qabs_Qmult, (Qabs_pos (/ pow2 j)); [reflexivity|].
      apply Qlt_le_weak, Qinv_lt_0_compat, PJ. }
    rewrite E, inj_pow by lia. apply Qlt_shift_div_r; [exact PJ|].
    rewrite <- pow2_plus. replace (m + 1 + j)%Z with (j + m + 1)%Z by lia. exact U.
  Qed.

  Lemma rnd_bound f (z : Q) : rounding f ->
    (- 2 ^ (m + 1) <= f (z / pow2 (iexp z m smin eps))%Q <= 2 ^ (m + 1))%Z.
  Proof.
    intros Hf. pose proof (quot_bound z) as B. apply Qabs_Qlt_condition in B. destruct B as [B1 B2].
    split; [apply rounding_ge_int|apply rounding_le_int]; try exact Hf; [|lra].
    rewrite inject_Z_opp. lra.
  Qed.

  Lemma rnd_grid f z : rounding f -> grid m smin (rnd f z).
  Proof.
    intros Hf. unfold rnd. change (float_internal_scale z m smin eps) with (pow2 (iexp z m smin eps)).
    pose proof (rnd_bound f z Hf) as B. pose proof (iexp_ge z m smin eps) as G.
    set (j := iexp z m smin eps) in *. set (k := f (z / pow2 j)) in *. clearbody k.
    pose proof P1 as HP. pose proof P0 as HP0.
    destruct (Z.eq_dec (Z.abs k) (2 ^ (m + 1))) as [K|K].
    - exists (Z.sgn k * 2 ^ m)%Z, (j + 1)%Z. repeat split; [nia|lia|].
      assert (k = Z.sgn k * (2 * 2 ^ m))%Z as EK by nia.
      rewrite EK at 1. rewrite pow2_succ, !inject_Z_mult. change (inject_Z 2) with 2. ring.
    - exists k, j. repeat split; [lia|exact G|ring].
  Qed.

  Lemma rnd_zero f z : rounding f -> z == 0 -> rnd f z == 0.
  Proof.
    intros Hf E. unfold rnd. set (s := float_internal_scale z m smin eps).
    assert (Z0 : f (z / s) = 0%Z).
    { rewrite <- (rnd_int f Hf 0). apply (rnd_eq f Hf). rewrite E. unfold Qdiv. rewrite Qmult_0_l. reflexivity. }
    rewrite Z0. ring.
  Qed.

  Lemma rnd_eq' f y z : rounding f -> y == z -> rnd f y == rnd f z.
  Proof.
    intros Hf E. unfold rnd.
    assert (EJ : iexp y m smin eps = iexp z m smin eps) by (apply iexp_eq; [exact Heps|rewrite E; reflexivity]).
    change (float_internal_scale y m smin eps) with (pow2 (iexp y m smin eps)).
    change (float_internal_scale z m smin eps) with (pow2 (iexp z m smin eps)).
    rewrite EJ. rewrite (rnd_eq f Hf (y / pow2 (iexp z m smin eps)) (z / pow2 (iexp z m smin eps))).
    - reflexivity.
    - rewrite E. reflexivity.
  Qed.

  Lemma rnd_abs_scaled f z k : rounding f -> (* the rounding step on a multiple of the step *)
    z == inject_Z k * pow2 (iexp z m smin eps) -> rnd f z == z.
  Proof.
    intros Hf E. unfold rnd. change (float_internal_scale z m smin eps) with (pow2 (iexp z m smin eps)).
    set (j := iexp z m smin eps) in *. pose proof (pow2_pos j) as PJ.
    assert (F : f (z / pow2 j) = k).
    { rewrite <- (rnd_int f Hf k). apply (rnd_eq f Hf). rewrite E. field. apply Qpos_neq0, PJ. }
    rewrite F, E. ring.
  Qed.

  (** Grid points finer than the chosen step lie well below the current binade. *)
  Lemma finer_bound k j j' : (Z.abs k < 2 ^ (m + 1))%Z -> (j' < j)%Z ->
    Qabs (inject_Z k * pow2 j') <= pow2 (j + m) - pow2 (j - 1).
  Proof.
    intros Hk Hj. rewrite Qabs_Qmult, (Qabs_pos (pow2 j')) by (apply Qlt_le_weak, pow2_pos).
    change (Qabs (inject_Z k)) with (inject_Z (Z.abs k)).
    assert (A : inject_Z (Z.abs k) * pow2 j' <= (pow2 (m + 1) - 1) * pow2 j').
    { apply Qmult_le_compat_r; [|apply Qlt_le_weak, pow2_pos].
      assert (T : inject_Z (Z.abs k) <= inject_Z (2 ^ (m + 1) - 1)) by (apply injz_le; lia).
      unfold Z.sub in T. rewrite inject_Z_plus, inj_pow in T by lia.
      change (inject_Z (- (1))) with (- (1)) in T. lra. }
    pose proof (pow2_mono j' (j - 1) ltac:(lia)) as M1.
    assert (B : (pow2 (m + 1) - 1) * pow2 j' <= (pow2 (m + 1) - 1) * pow2 (j - 1)).
    { rewrite !(Qmult_comm (pow2 (m + 1) - 1)). apply Qmult_le_compat_r; [exact M1|].
      pose proof (pow2_ge_1 (m + 1) ltac:(lia)). lra. }
    assert (C : pow2 (m + 1) * pow2 (j - 1) == pow2 (j + m)).
    { rewrite <- pow2_plus. replace (m + 1 + (j - 1))%Z with (j + m)%Z by lia. reflexivity. }
    lra.
  Qed.

  Lemma rnd_fixed f z : rounding f -> eps < pow2 smin -> grid m smin z -> rnd f z == z.
  Proof.
    intros Hf He (k & j' & Hk & Hj' & E).
    pose proof (iexp_lower z m smin eps Heps) as L. pose proof (iexp_ge z m smin eps) as G.
    remember (iexp z m smin eps) as j eqn:Ej.
    destruct (Z_le_gt_dec j j') as [C|C].
    - apply (rnd_abs_scaled f z (k * 2 ^ (j' - j))); [exact Hf|]. rewrite <- Ej.
      rewrite inject_Z_mult, inj_pow by lia. rewrite <- Qmult_assoc, <- pow2_plus.
      replace (j' - j + j)%Z with j' by lia. exact E.
    - exfalso. destruct L as [L|L]; [lia|].
      pose proof (finer_bound k j j' Hk ltac:(lia)) as B. rewrite <- E in B.
      pose proof (pow2_mono smin (j - 1) ltac:(lia)). lra.
  Qed.

  Hypothesis Heps4 : 4 * eps <= pow2 smin.

  Lemma round_nearest_step z r : grid m smin r -> Qabs (rnd roundZ z - z) <= Qabs (r - z).
  Proof.
    intros (k & j' & Hk & Hj' & E).
    pose proof (iexp_lower z m smin eps Heps) as L. pose proof (iexp_ge z m smin eps) as G.
    unfold rnd. change (float_internal_scale z m smin eps) with (pow2 (iexp z m smin eps)).
    set (j := iexp z m smin eps) in *. pose proof (pow2_pos j) as PJ.
    (* nearest among the multiples of the step *)
    assert (NM : forall n, Qabs (pow2 j * inject_Z (roundZ (z / pow2 j)) - z) <= Qabs (inject_Z n * pow2 j - z)).
    { intros n. pose proof (roundZ_nearest (z / pow2 j) n) as R.
      assert (S1 : forall i, Qabs (inject_Z i * pow2 j - z) == Qabs (inject_Z i - z / pow2 j) * pow2 j).
      { intros i. rewrite <- (Qabs_pos (pow2 j)) at 3 by lra. rewrite <- Qabs_Qmult.
        assert (T : inject_Z i * pow2 j - z == (inject_Z i - z / pow2 j) * pow2 j)
          by (field; apply Qpos_neq0, PJ).
        rewrite T. reflexivity. }
      rewrite (Qmult_comm (pow2 j)). rewrite !S1. apply Qmult_le_compat_r; [exact R|lra]. }
    destruct (Z_le_gt_dec j j') as [C|C].
    - specialize (NM (k * 2 ^ (j' - j))%Z).
      assert (T : inject_Z (k * 2 ^ (j' - j)) * pow2 j == r).
      { rewrite inject_Z_mult, inj_pow by lia. rewrite <- Qmult_assoc, <- pow2_plus.
        replace (j' - j + j)%Z with j' by lia. rewrite E. reflexivity. }
      rewrite T in NM. exact NM.
    - destruct L as [L|L]; [lia|].
      pose proof (finer_bound k j j' Hk ltac:(lia)) as B. rewrite <- E in B.
      pose proof (pow2_mono smin (j - 1) ltac:(lia)) as M1.
      assert (PJM : inject_Z (2 ^ m) * pow2 j == pow2 (j + m)).
      { rewrite inj_pow by exact Hm. rewrite <- pow2_plus. rewrite Z.add_comm. reflexivity. }
      destruct (Qlt_le_dec z 0) as [Zs|Zs].
      + specialize (NM (- 2 ^ m)%Z). rewrite inject_Z_opp in NM.
        assert (T : - inject_Z (2 ^ m) * pow2 j - z == - pow2 (j + m) - z) by (rewrite <- PJM; ring).
        rewrite T in NM. rewrite (Qabs_neg z) in L by lra.
        apply Qabs_Qle_condition in B.
        revert NM. generalize (Qabs (pow2 j * inject_Z (roundZ (z / pow2 j)) - z)). intros a NM.
        destruct (Qabs_cases (- pow2 (j + m) - z)) as [[? U]|[? U]];
        destruct (Qabs_cases (r - z)) as [[? V]|[? V]]; rewrite U in NM; rewrite V; lra.
      + specialize (NM (2 ^ m)%Z).
        assert (T : inject_Z (2 ^ m) * pow2 j - z == pow2 (j + m) - z) by (rewrite <- PJM; ring).
        rewrite T in NM. rewrite (Qabs_pos z) in L by lra.
        apply Qabs_Qle_condition in B.
        revert NM. generalize (Qabs (pow2 j * inject_Z (roundZ (z / pow2 j)) - z)). intros a NM.
        destruct (Qabs_cases (pow2 (j + m) - z)) as [[? U]|[? U]];
        destruct (Qabs_cases (r - z)) as [[? V]|[? V]]; rewrite U in NM; rewrite V; lra.
  Qed.

  Lemma round_mono_step z w : z <= w -> rnd roundZ z <= rnd roundZ w.
  Proof.
    intros H. destruct (Qlt_le_dec (rnd roundZ w) (rnd roundZ z)) as [C|C]; [exfalso|exact C].
    pose proof (round_nearest_step z _ (rnd_grid roundZ w round_rounding)) as N1.
    pose proof (round_nearest_step w _ (rnd_grid roundZ z round_rounding)) as N2.
    destruct (Qlt_le_dec z w) as [S1|S1].
    - destruct (Qabs_cases (rnd roundZ z - z)) as [[? U1]|[? U1]];
      destruct (Qabs_cases (rnd roundZ w - z)) as [[? U2]|[? U2]];
      destruct (Qabs_cases (rnd roundZ z - w)) as [[? U3]|[? U3]];
      destruct (Qabs_cases (rnd roundZ w - w)) as [[? U4]|[? U4]];
      rewrite U1, U2 in N1; rewrite U3, U4 in N2; lra.
    - assert (E : z == w) by lra. pose proof (rnd_eq' roundZ z w round_rounding E). lra.
  Qed.
End Core.

(** * Connecting the model to the core *)

Lemma float_quantize_rnd c eps x scale :
  float_quantize c eps x scale
  = rnd (fm c) (1 - fbias c - fm c) eps (float_to_intZ (fmode c)) (x / scale).
Proof. reflexivity. Qed.

Lemma minifloat_le e m bias r : (1 <= e)%Z -> (0 <= m)%Z -> minifloat e m bias r ->
  Qabs r <= max_float e m bias.
Proof.
  intros He Hm (c & Hc & H).
  assert (T : decode m bias c <= max_float e m bias).
  { rewrite <- decode_top by assumption. apply decode_le; lia. }
  pose proof (decode_nonneg m bias c Hm ltac:(lia)) as N.
  destruct H as [H|H]; rewrite H.
  - rewrite Qabs_pos; lra.
  - rewrite Qabs_opp, Qabs_pos; lra.
Qed.

Lemma max_value_largest c : fmt_ok c -> float_max_value c == largest c.
Proof.
  intros (He & Hm & Hl). unfold float_max_value, largest, kept_limit.
  destruct (fmax_avail c) as [a|].
  - destruct Hl as [Hl Ha]. qcase; [exfalso; lra|]. unfold torch_min. qcase; [|reflexivity].
    pose proof (minifloat_le (fe c) (fm c) (fbias c) a He ltac:(lia) Hl) as B. rewrite Qabs_pos in B by lra. lra.
  - rewrite decode_top by lia. reflexivity.
Qed.

Lemma largest_minifloat c : fmt_ok c -> minifloat (fe c) (fm c) (fbias c) (largest c).
Proof.
  intros (He & Hm & Hl). unfold largest. destruct (fmax_avail c) as [a|]; [apply Hl|].
  exists (2 ^ (fe c + fm c) - 1)%Z. split; [|left; reflexivity].
  assert (0 < 2 ^ (fe c + fm c))%Z by (apply Z.pow_pos_nonneg; lia). lia.
Qed.

Lemma largest_pos c : fmt_ok c -> 0 < largest c.
Proof.
  intros (He & Hm & Hl). unfold largest. destruct (fmax_avail c) as [a|]; [apply Hl|].
  rewrite decode_top by lia. apply max_float_pos. lia.
Qed.

Lemma largest_le c : fmt_ok c -> largest c <= max_float (fe c) (fm c) (fbias c).
Proof.
  intros H. pose proof (largest_minifloat c H) as M. pose proof (largest_pos c H) as P.
  destruct H as (He & Hm & _).
  pose proof (minifloat_le (fe c) (fm c) (fbias c) (largest c) He ltac:(lia) M) as B. rewrite Qabs_pos in B by lra. exact B.
Qed.

Lemma minifloat_zero e m bias : (1 <= e)%Z -> (0 <= m)%Z -> minifloat e m bias 0.
Proof.
  intros He Hm. exists 0%Z. assert (0 < 2 ^ (e + m))%Z by (apply Z.pow_pos_nonneg; lia).
  split; [lia|left]. unfold decode. rewrite Z.div_0_l, Z.mod_0_l by (apply Z.pow_nonzero; lia).
  change (0 =? 0)%Z with true. cbv iota. change (inject_Z 0) with 0. ring.
Qed.

(** The lower end of the clamp. *)
Definition lowest (c : fcfg) : Q := if fsigned c then - largest c else 0.

(** The clamped value, as a plain case distinction. *)
Lemma clamp_cases c q : fmt_ok c ->
  exists y, tensor_clamp q (if fsigned c then - float_max_value c else 0) (float_max_value c) = y /\
  ((lowest c <= q <= largest c /\ y == q) \/ (largest c < q /\ y == largest c) \/
   (q < lowest c /\ y == lowest c)).
Proof.
  intros H. pose proof (max_value_largest c H) as E. pose proof (largest_pos c H) as P.
  eexists; split; [reflexivity|]. unfold tensor_clamp, lowest.
  destruct (fsigned c); repeat qcase; try lra;
    solve [left; split; lra | right; left; split; lra | right; right; split; lra].
Qed.

Lemma sat_value c eps x scale : fmt_ok c -> fsat c = true ->
  exists y, float_quant c false eps x scale = Some (Fin (y * scale)) /\
  let q := float_quantize c eps x scale in
  ((lowest c <= q <= largest c /\ y == q) \/ (largest c < q /\ y == largest c) \/
   (q < lowest c /\ y == lowest c)).
Proof.
  intros H S. destruct (clamp_cases c (float_quantize c eps x scale) H) as (y & Ey & D).
  exists y. split; [|exact D]. unfold float_quant, float_clamp. rewrite S, Ey. reflexivity.
Qed.

(** ** C28 *)

(** Every output is [scale] times a value of the format, at most the largest one, and
    non-negative for an unsigned format; for every rounding mode. *)
Theorem C28_representable c eps x scale :
  fmt_ok c -> fsat c = true -> 0 < eps -> 0 < scale ->
  exists r, float_quant c false eps x scale = Some (Fin (r * scale))
    /\ minifloat (fe c) (fm c) (fbias c) r
    /\ Qabs r <= largest c
    /\ (fsigned c = false -> 0 <= r).
Proof.
  intros H S He Hs. destruct (sat_value c eps x scale H S) as (y & Ey & D).
  exists y. split; [exact Ey|].
  pose proof (largest_pos c H) as P. pose proof (largest_le c H) as LL.
  pose proof (largest_minifloat c H) as LM. pose proof H as (Hfe & Hfm & _).
  assert (B : Qabs y <= largest c).
  { apply Qabs_Qle_condition. unfold lowest in D. destruct (fsigned c), D as [[? ?]|[[? ?]|[? ?]]]; lra. }
  split; [|split; [exact B|]].
  - destruct D as [[_ E]|[[_ E]|[_ E]]].
    + apply grid_minifloat; [lia|lia| |lra].
      rewrite float_quantize_rnd in E.
      destruct (rnd_grid (fm c) (1 - fbias c - fm c) eps ltac:(lia) He _ (x / scale) (mode_rounding (fmode c)))
        as (k & j & Hk & Hj & EG).
      exists k, j. repeat split; try assumption. rewrite E, EG. reflexivity.
    + destruct LM as (cc & Hc & [L|L]); exists cc; (split; [exact Hc|]); [left|right]; lra.
    + unfold lowest in E. destruct (fsigned c).
      * destruct LM as (cc & Hc & [L|L]); exists cc; (split; [exact Hc|]); [right|left]; lra.
      * destruct (minifloat_zero (fe c) (fm c) (fbias c)) as (cc & Hc & [L|L]); [lia|lia| |];
          exists cc; (split; [exact Hc|]); [left|right]; lra.
  - intros U. unfold lowest in D. rewrite U in D. destruct D as [[? ?]|[[? ?]|[? ?]]]; lra.
Qed.

(** With round-to-nearest, the output is the closest admissible value of the format:
    no other representable value within the range is nearer to the scaled input. *)
Theorem C28_nearest c eps x scale r :
  fmt_ok c -> fsat c = true -> fmode c = Round -> 0 < scale ->
  0 < eps -> 4 * eps <= pow2 (1 - fbias c - fm c) ->
  minifloat (fe c) (fm c) (fbias c) r -> Qabs r <= largest c -> (fsigned c = false -> 0 <= r) ->
  exists y, float_quant c false eps x scale = Some (Fin (y * scale))
    /\ Qabs (y - x / scale) <= Qabs (r - x / scale).
Proof.
  intros H S M Hs He He4 Hr Hb Hu. destruct (sat_value c eps x scale H S) as (y & Ey & D).
  exists y. split; [exact Ey|]. pose proof (largest_pos c H) as P.
  pose proof H as (Hfe & Hfm & _). cbv zeta in D. rewrite float_quantize_rnd, M in D.
  change (float_to_intZ Round) with roundZ in D.
  set (z := x / scale) in *. set (q := rnd (fm c) (1 - fbias c - fm c) eps roundZ z) in *.
  assert (NG : forall g, minifloat (fe c) (fm c) (fbias c) g -> Qabs (q - z) <= Qabs (g - z)).
  { intros g Hg. apply round_nearest_step; [lia|exact He|exact He4|]. eapply minifloat_grid; [lia|exact Hg]. }
  apply Qabs_Qle_condition in Hb.
  destruct D as [[_ E]|[[L E]|[L E]]].
  - rewrite E. apply NG, Hr.
  - pose proof (NG _ (largest_minifloat c H)) as N. clearbody q.
    assert (Z1 : largest c <= z).
    { destruct (Qlt_le_dec z (largest c)) as [T|T]; [exfalso|exact T].
      destruct (Qabs_cases (q - z)) as [[? U]|[? U]];
      destruct (Qabs_cases (largest c - z)) as [[? V]|[? V]]; rewrite U, V in N; lra. }
    rewrite E. destruct (Qabs_cases (largest c - z)) as [[? U]|[? U]];
      destruct (Qabs_cases (r - z)) as [[? V]|[? V]]; rewrite U, V; lra.
  - assert (LR : lowest c <= r). { unfold lowest. destruct (fsigned c); [lra|apply Hu; reflexivity]. }
    assert (LMF : minifloat (fe c) (fm c) (fbias c) (lowest c)).
    { unfold lowest. destruct (fsigned c); [|apply minifloat_zero; lia].
      destruct (largest_minifloat c H) as (cc & Hc & [T|T]); exists cc; (split; [exact Hc|]); [right|left]; lra. }
    pose proof (NG _ LMF) as N. clearbody q.
    assert (Z1 : z <= lowest c).
    { destruct (Qlt_le_dec (lowest c) z) as [T|T]; [exfalso|exact T].
      destruct (Qabs_cases (q - z)) as [[? U]|[? U]];
      destruct (Qabs_cases (lowest c - z)) as [[? V]|[? V]]; rewrite U, V in N; lra. }
    rewrite E. destruct (Qabs_cases (lowest c - z)) as [[? U]|[? U]];
      destruct (Qabs_cases (r - z)) as [[? V]|[? V]]; rewrite U, V; lra.
Qed.

(** Values already in the format (times the scale) are unchanged, for every mode. *)
Theorem C28_idempotent c eps x scale r :
  fmt_ok c -> fsat c = true -> 0 < scale -> 0 < eps -> eps < pow2 (1 - fbias c - fm c) ->
  minifloat (fe c) (fm c) (fbias c) r -> Qabs r <= largest c -> (fsigned c = false -> 0 <= r) ->
  x == r * scale ->
  exists y, float_quant c false eps x scale = Some (Fin y) /\ y == x.
Proof.
  intros H S Hs He He1 Hr Hb Hu Ex. destruct (sat_value c eps x scale H S) as (y & Ey & D).
  exists (y * scale). split; [exact Ey|]. pose proof H as (Hfe & Hfm & _).
  cbv zeta in D. rewrite float_quantize_rnd in D.
  assert (Ez : x / scale == r) by (rewrite Ex; field; apply Qpos_neq0, Hs).
  assert (F : rnd (fm c) (1 - fbias c - fm c) eps (float_to_intZ (fmode c)) (x / scale) == r).
  { rewrite rnd_fixed; [exact Ez|lia|exact He|apply mode_rounding|exact He1|].
    destruct (minifloat_grid (fe c) (fm c) (fbias c) r ltac:(lia) Hr) as (k & j & Hk & Hj & E).
    exists k, j. repeat split; try assumption. rewrite Ez, E. reflexivity. }
  apply Qabs_Qle_condition in Hb.
  assert (LR : lowest c <= r). { unfold lowest. destruct (fsigned c); [lra|apply Hu; reflexivity]. }
  assert (Y : y == r) by (destruct D as [[? ?]|[[? ?]|[? ?]]]; lra).
  rewrite Y, Ex. reflexivity.
Qed.

(** Quantizing twice is quantizing once. *)
Corollary C28_twice c eps x scale y :
  fmt_ok c -> fsat c = true -> 0 < scale -> 0 < eps -> eps < pow2 (1 - fbias c - fm c) ->
  float_quant c false eps x scale = Some (Fin y) ->
  exists y', float_quant c false eps y scale = Some (Fin y') /\ y' == y.
Proof.
  intros H S Hs He He1 Ey. destruct (C28_representable c eps x scale H S He Hs) as (r & Er & Hr & Hb & Hu).
  rewrite Ey in Er. injection Er as ->.
  apply (C28_idempotent c eps _ scale r); try assumption. reflexivity.
Qed.

(** Larger inputs never give smaller outputs (round-to-nearest). *)
Theorem C28_monotone c eps x x' scale :
  fmt_ok c -> fsat c = true -> fmode c = Round -> 0 < scale ->
  0 < eps -> 4 * eps <= pow2 (1 - fbias c - fm c) -> x <= x' ->
  exists y y', float_quant c false eps x scale = Some (Fin y) /\
               float_quant c false eps x' scale = Some (Fin y') /\ y <= y'.
Proof.
  intros H S M Hs He He4 Hx.
  destruct (sat_value c eps x scale H S) as (y & Ey & D).
  destruct (sat_value c eps x' scale H S) as (y' & Ey' & D').
  exists (y * scale), (y' * scale). split; [exact Ey|split; [exact Ey'|]].
  apply Qmult_le_compat_r; [|lra]. cbv zeta in D, D'. rewrite !float_quantize_rnd, !M in *.
  change (float_to_intZ Round) with roundZ in *. pose proof H as (Hfe & Hfm & _).
  pose proof (round_mono_step (fm c) (1 - fbias c - fm c) eps ltac:(lia) He He4 (x / scale) (x' / scale)
                (Qdiv_le_mono x x' scale Hs Hx)) as Mo.
  pose proof (largest_pos c H) as P.
  assert (LL : lowest c <= largest c) by (unfold lowest; destruct (fsigned c); lra).
  destruct D as [[? ?]|[[? ?]|[? ?]]], D' as [[? ?]|[[? ?]|[? ?]]]; lra.
Qed.

(** Zero is mapped to zero in every configuration, saturating or not, in every mode. *)
Theorem C28_zero c eps scale :
  fmt_ok c -> 0 < eps -> 0 < scale -> fsat c = true \/ finf c <> None \/ fnan c <> None ->
  exists y, float_quant c false eps 0 scale = Some (Fin y) /\ y == 0.
Proof.
  intros H He Hs Sp. pose proof (largest_pos c H) as P. pose proof (max_value_largest c H) as EM.
  assert (Q0 : float_quantize c eps 0 scale == 0).
  { rewrite float_quantize_rnd. apply rnd_zero; [apply mode_rounding|].
    unfold Qdiv. ring. }
  destruct (clamp_cases c (float_quantize c eps 0 scale) H) as (y & Ey & D).
  assert (LL : lowest c <= 0) by (unfold lowest; destruct (fsigned c); lra).
  assert (Y : y == 0) by (destruct D as [[? ?]|[[? ?]|[? ?]]]; lra).
  exists (y * scale). split; [|rewrite Y; ring].
  unfold float_quant, float_clamp. rewrite Ey.
  assert (p : Qlt_bool (float_max_value c) (float_quantize c eps 0 scale) = false).
  { apply Qlt_bool_false. lra. }
  assert (n : Qlt_bool (float_max_value c) (- float_quantize c eps 0 scale) = false).
  { apply Qlt_bool_false. lra. }
  rewrite p, n. unfold inf_nan_clamp. destruct (fsat c); [reflexivity|].
  destruct (finf c) as [i|]; [reflexivity|]. destruct (fnan c) as [i|]; [reflexivity|].
  destruct Sp as [Sp|[Sp|Sp]]; congruence.
Qed.

(** Without saturation, special values appear only for inputs beyond the largest finite
    value; within it the result is the one of the saturating quantizer. *)
Theorem C28_nonsaturating_in_range c eps x scale :
  fmt_ok c -> fsat c = false -> (finf c <> None \/ fnan c <> None) ->
  0 < eps -> eps < pow2 (1 - fbias c - fm c) -> 0 < scale ->
  fmode c = Round -> 4 * eps <= pow2 (1 - fbias c - fm c) ->
  Qabs (x / scale) <= largest c ->
  exists y, float_quant c false eps x scale = Some (Fin y) /\
    float_quant (FCfg (fe c) (fm c) (fbias c) (fsigned c) true (finf c) (fnan c) (fmax_avail c) (fmode c))
      false eps x scale = Some (Fin y).
Proof.
  intros H S Sp He He1 Hs M He4 Hx.
  pose proof (max_value_largest c H) as EM. pose proof H as (Hfe & Hfm & _).
  assert (B : Qabs (float_quantize c eps x scale) <= largest c).
  { rewrite float_quantize_rnd, M. change (float_to_intZ Round) with roundZ.
    assert (G : forall s, s == largest c \/ s == - largest c ->
       rnd (fm c) (1 - fbias c - fm c) eps roundZ s == s).
    { intros s Hss. apply rnd_fixed; [lia|exact He|apply round_rounding|exact He1|].
      destruct (minifloat_grid (fe c) (fm c) (fbias c) _ ltac:(lia) (largest_minifloat c H)) as (k & j & Hk & Hj & E).
      destruct Hss as [Hss|Hss]; [exists k, j|exists (- k)%Z, j]; repeat split; try lia.
      - rewrite Hss. exact E.
      - rewrite Hss, E, inject_Z_opp. ring. }
    apply Qabs_Qle_condition in Hx. apply Qabs_Qle_condition.
    pose proof (round_mono_step (fm c) (1 - fbias c - fm c) eps ltac:(lia) He He4 _ _ (proj1 Hx)) as M1.
    pose proof (round_mono_step (fm c) (1 - fbias c - fm c) eps ltac:(lia) He He4 _ _ (proj2 Hx)) as M2.
    pose proof (G (- largest c) ltac:(right; reflexivity)).
    pose proof (G (largest c) ltac:(left; reflexivity)). lra. }
  apply Qabs_Qle_condition in B.
  assert (p : Qlt_bool (float_max_value c) (float_quantize c eps x scale) = false).
  { apply Qlt_bool_false. lra. }
  assert (n : Qlt_bool (float_max_value c) (- float_quantize c eps x scale) = false).
  { apply Qlt_bool_false. lra. }
  eexists. split; [|reflexivity].
  unfold float_quant, float_clamp. rewrite S, p, n. unfold inf_nan_clamp.
  destruct (finf c) as [i|]; [reflexivity|]. destruct (fnan c) as [i|]; [reflexivity|].
  destruct Sp as [Sp|Sp]; congruence.
Qed.

(** ... and with infinities a signed out-of-range value keeps its sign. *)
Theorem C28_nonsaturating_overflow c eps x scale :
  fmt_ok c -> fsat c = false -> finf c <> None -> fsigned c = true -> 0 < eps -> 0 < scale ->
  let q := float_quantize c eps x scale in
  (largest c < q -> float_quant c false eps x scale = Some PInf) /\
  (q < - largest c -> float_quant c false eps x scale = Some NInf).
Proof.
  intros H S Fi Sg He Hs. cbv zeta. pose proof (max_value_largest c H) as EM.
  pose proof (largest_pos c H) as P.
  unfold float_quant, float_clamp, inf_nan_clamp. rewrite S.
  destruct (finf c) as [i|]; [|congruence]. clear Fi.
  split; intros L.
  - rewrite (proj2 (Qlt_bool_iff (float_max_value c) (float_quantize c eps x scale))) by lra.
    rewrite (proj2 (Qlt_bool_false (float_max_value c) (- float_quantize c eps x scale))) by lra.
    reflexivity.
  - rewrite (proj2 (Qlt_bool_iff (float_max_value c) (- float_quantize c eps x scale))) by lra.
    reflexivity.
Qed.

(** The shipped eps: torch.finfo(torch.float32).tiny. *)
Definition tiny32 : Q := pow2 (-126).

(** Finding: an unsigned, non-saturating format turns a large negative value into -inf,
    which an unsigned format cannot represent (it should become 0). *)
Theorem C28_unsigned_negative_overflow_refuted :
  exists c x, fmt_ok c /\ fsigned c = false /\
    float_quant c false tiny32 x 1 = Some NInf.
Proof.
  exists (FCfg 5 2 15 false false (Some [[false; false]]) (Some [[false; true]]) None Round).
  exists (- inject_Z 1000000).
  split; [|split; [reflexivity|vm_compute; reflexivity]].
  split; [cbn; lia|split; [cbn; lia|exact I]].
Qed.

(** ** C29 *)

(** Specification: the number a bit string denotes, most significant bit first. *)
Fixpoint bits_value (s : bits) : Z :=
  match s with
  | [] => 0
  | b :: s' => (if b then 2 ^ Z.of_nat (length s') else 0) + bits_value s'
  end%Z.

(** The code reserved by the special mantissa string [s]: all-ones exponent. *)
Definition special_code (e m : Z) (s : bits) : Z := ((2 ^ e - 1) * 2 ^ m + bits_value s)%Z.

(** [v] is the value of the largest code strictly below every reserved code. *)
Definition largest_free (e m bias : Z) (special : list bits) (v : Q) : Prop :=
  exists c, (0 <= c < 2 ^ (e + m))%Z /\ v == decode m bias c
    /\ (forall s, In s special -> c < special_code e m s)%Z
    /\ (forall d, (0 <= d < 2 ^ (e + m))%Z ->
          (forall s, In s special -> d < special_code e m s)%Z ->
          (d <= c)%Z /\ decode m bias d <= v).

Lemma fold_bits s : forall a,
  fold_left (fun a (b : bool) => 2 * a + (if b then 1 else 0))%Z s a
  = (a * 2 ^ Z.of_nat (length s) + bits_value s)%Z.
Proof.
  induction s as [|b s IH]; intros a; cbn [fold_left bits_value length].
  - change (2 ^ Z.of_nat 0)%Z with 1%Z. lia.
  - rewrite IH, Nat2Z.inj_succ, Z.pow_succ_r by lia. destruct b; nia.
Qed.

Lemma int_of_bits_value s : int_of_bits s = bits_value s.
Proof. unfold int_of_bits. rewrite fold_bits. lia. Qed.

Lemma bits_value_bound s : (0 <= bits_value s < 2 ^ Z.of_nat (length s))%Z.
Proof.
  induction s as [|b s IH]; cbn [bits_value length].
  - change (2 ^ Z.of_nat 0)%Z with 1%Z. lia.
  - rewrite Nat2Z.inj_succ, Z.pow_succ_r by lia. destruct b; lia.
Qed.

Lemma bits_value_app s t :
  bits_value (s ++ t) = (bits_value s * 2 ^ Z.of_nat (length t) + bits_value t)%Z.
Proof.
  induction s as [|b s IH]; cbn [bits_value app]; [lia|].
  rewrite IH, app_length, Nat2Z.inj_add, Z.pow_add_r by lia. destruct b; lia.
Qed.

Lemma bits_value_ones n : bits_value (repeat true n) = (2 ^ Z.of_nat n - 1)%Z.
Proof.
  induction n as [|n IH]; [reflexivity|]. cbn [repeat bits_value].
  rewrite IH, repeat_length, Nat2Z.inj_succ, Z.pow_succ_r by lia. lia.
Qed.

Lemma bits_value_zeros n : bits_value (repeat false n) = 0%Z.
Proof. induction n as [|n IH]; [reflexivity|]. cbn [repeat bits_value]. lia. Qed.

Lemma format_bits_length w n : length (format_bits w n) = w.
Proof.
  revert n; induction w as [|w IH]; intros n; [reflexivity|].
  cbn [format_bits]. rewrite app_length, IH. cbn [length]. lia.
Qed.

Lemma format_bits_value w : forall n, (0 <= n < 2 ^ Z.of_nat w)%Z -> bits_value (format_bits w n) = n.
Proof.
  induction w as [|w IH]; intros n Hn.
  - change (2 ^ Z.of_nat 0)%Z with 1%Z in Hn. cbn. lia.
  - cbn [format_bits]. rewrite bits_value_app. cbn [length bits_value].
    change (2 ^ Z.of_nat 1)%Z with 2%Z. change (2 ^ Z.of_nat 0)%Z with 1%Z.
    rewrite Nat2Z.inj_succ, Z.pow_succ_r in Hn by lia.
    rewrite IH by (split; [apply Z.div_pos; lia|apply Z.div_lt_upper_bound; lia]).
    pose proof (Z.div_mod n 2 ltac:(lia)) as D. rewrite Zmod_odd in D.
    destruct (Z.odd n); lia.
Qed.

Lemma mantissa_loop_value s : forall i res, (0 <= i)%Z ->
  mantissa_loop i s res == res + inject_Z (bits_value s) * pow2 (- (i + Z.of_nat (length s))).
Proof.
  induction s as [|b s IH]; intros i res Hi; cbn [mantissa_loop bits_value length].
  - change (inject_Z 0) with 0. ring.
  - rewrite IH by lia. rewrite Nat2Z.inj_succ.
    replace (- (i + 1 + Z.of_nat (length s)))%Z with (- (i + Z.succ (Z.of_nat (length s))))%Z by lia.
    set (L := Z.of_nat (length s)). rewrite inject_Z_plus.
    assert (E : pow2 (- (i + 1)) == pow2 L * pow2 (- (i + Z.succ L))).
    { rewrite <- pow2_plus. replace (L + - (i + Z.succ L))%Z with (- (i + 1))%Z by lia. reflexivity. }
    destruct b.
    + rewrite E, inj_pow by lia. ring.
    + change (inject_Z 0) with 0. ring.
Qed.

Lemma mantissa_value s normal :
  mantissa_bits_to_float s normal
  == (if normal then 1 else 0) + inject_Z (bits_value s) * pow2 (- Z.of_nat (length s)).
Proof. unfold mantissa_bits_to_float. rewrite mantissa_loop_value by lia. reflexivity. Qed.

(** The value of an exponent/mantissa string pair is the value of its code. *)
Lemma get_minifloat_value_decode eb mb bias :
  get_minifloat_value eb mb bias
  == decode (Z.of_nat (length mb)) bias
       (bits_value eb * 2 ^ Z.of_nat (length mb) + bits_value mb).
Proof.
  unfold get_minifloat_value, decode. rewrite int_of_bits_value.
  set (m := Z.of_nat (length mb)). assert (Hm : (0 <= m)%Z) by lia.
  pose proof (bits_value_bound mb) as B. fold m in B. pose proof (bits_value_bound eb) as BE.
  set (E := bits_value eb) in *. set (M := bits_value mb) in *.
  assert (D : ((E * 2 ^ m + M) / 2 ^ m = E)%Z) by (symmetry; apply (Z.div_unique _ _ _ M); lia).
  assert (R : ((E * 2 ^ m + M) mod 2 ^ m = M)%Z) by (symmetry; apply (Z.mod_unique _ _ E M); lia).
  rewrite D, R. destruct (Z.eqb_spec E 0) as [E0|E0].
  - rewrite E0, mantissa_value. fold m M. replace (1 - bias - m)%Z with ((0 - (bias - 1)) + (- m))%Z by lia.
    rewrite pow2_plus. ring.
  - rewrite mantissa_value. fold m M. replace (E - bias - m)%Z with ((E - bias) + (- m))%Z by lia.
    rewrite pow2_plus, inject_Z_plus, inj_pow by lia.
    pose proof (pow2_opp_mul m) as O.
    transitivity (pow2 (E - bias) * (pow2 (- m) * pow2 m + inject_Z M * pow2 (- m))); [rewrite O; ring|ring].
Qed.

Lemma min_list_spec l : forall a,
  (In (min_list a l) (a :: l)) /\ (forall b, In b (a :: l) -> min_list a l <= b)%Z.
Proof.
  induction l as [|b l IH]; intros a; cbn [min_list].
  - split; [left; reflexivity|]. intros b [<-|[]]. lia.
  - destruct (IH (Z.min a b)) as [I1 I2]. split.
    + destruct I1 as [I1|I1]; [|right; right; exact I1].
      destruct (Z.min_spec a b) as [[_ E]|[_ E]]; rewrite E in I1; rewrite E; [left|right; left]; exact I1.
    + intros x [<-|[<-|Hx]].
      * specialize (I2 (Z.min a b) (or_introl eq_refl)). lia.
      * specialize (I2 (Z.min a b) (or_introl eq_refl)). lia.
      * apply I2. right. exact Hx.
Qed.

(** The set of special strings passed to the function. *)
Definition specials (nan_values inf_values : option (list bits)) : list bits :=
  match nan_values with Some l => l | None => [] end ++
  match inf_values with Some l => l | None => [] end.

(** Whatever the function returns is the value of the largest code below every reserved
    code of the format. *)
Theorem C29_largest_free e m bias nanv infv sat v :
  (1 <= e)%nat ->
  get_max_available_float e m bias nanv infv sat = Some v ->
  largest_free (Z.of_nat e) (Z.of_nat m) bias (specials nanv infv) v.
Proof.
  intros He H.
  set (E := Z.of_nat e). set (M := Z.of_nat m).
  assert (PM : (0 < 2 ^ M)%Z) by (apply Z.pow_pos_nonneg; lia).
  assert (PE : (2 ^ 1 <= 2 ^ E)%Z) by (apply Z.pow_le_mono_r; lia).
  change (2 ^ 1)%Z with 2%Z in PE.
  assert (PEM : (2 ^ (E + M) = 2 ^ E * 2 ^ M)%Z) by (apply Z.pow_add_r; lia).
  (* a common core: the code [c] is one below the smallest reserved code *)
  assert (K : forall special c, (0 <= c < 2 ^ (E + M))%Z -> v == decode M bias c ->
     (forall s, In s special -> c < special_code E M s)%Z ->
     ((c = 2 ^ (E + M) - 1)%Z \/ exists s, In s special /\ (special_code E M s = c + 1)%Z) ->
     largest_free E M bias special v).
  { intros special c Hc Hv Hb Ht. exists c. split; [exact Hc|]. split; [exact Hv|]. split; [exact Hb|].
    intros d Hd Hds. assert (L : (d <= c)%Z).
    { destruct Ht as [Ht|(s & Hs & Ht)]; [lia|]. specialize (Hds s Hs). lia. }
    split; [exact L|]. rewrite Hv. apply decode_le; lia. }
  unfold get_max_available_float in H.
  assert (Cases : (nanv = None /\ infv = None) \/
    (exists nv, nanv = Some nv)).
  { destruct nanv as [nv|]; [right; eauto|]. destruct infv; [discriminate|left; auto]. }
  destruct Cases as [[-> ->]|[nv ->]].
  - destruct sat; [|discriminate]. injection H as <-.
    apply (K _ (2 ^ (E + M) - 1)%Z); [nia| | |left; reflexivity].
    + rewrite get_minifloat_value_decode, !bits_value_ones, repeat_length. fold E M.
      replace ((2 ^ E - 1) * 2 ^ M + (2 ^ M - 1))%Z with (2 ^ (E + M) - 1)%Z by nia. reflexivity.
    + intros s [].
  - assert (Sp : specials (Some nv) infv = match infv with Some iv => nv ++ iv | None => nv end).
    { unfold specials. destruct infv; [reflexivity|apply app_nil_r]. }
    rewrite Sp. set (special := match infv with Some iv => nv ++ iv | None => nv end) in *.
    assert (H' : (if existsb (fun s => Nat.ltb m (length s)) special then None
      else match map int_of_bits special with
        | [] => None
        | a :: l =>
            let max_value_mantissa := (min_list a l - 1)%Z in
            if (max_value_mantissa <? 0)%Z then
              Some (get_minifloat_value (repeat true (e - 1) ++ [false]) (repeat true m) bias)
            else
              Some (get_minifloat_value (repeat true e) (format_bits m max_value_mantissa) bias)
        end) = Some v) by (destruct infv; exact H).
    clear H. rename H' into H. clearbody special. clear Sp.
    match type of H with context [existsb ?f special] => destruct (existsb f special) eqn:Hex end; [discriminate|].
    assert (Len : forall s, In s special -> (length s <= m)%nat).
    { intros s Hs. destruct (Nat.ltb m (length s)) eqn:L; [|apply Nat.ltb_ge in L; exact L].
      rewrite (proj2 (existsb_exists _ _)) in Hex; [discriminate|]. exists s. auto. }
    assert (Bd : forall s, In s special -> (0 <= bits_value s < 2 ^ M)%Z).
    { intros s Hs. pose proof (bits_value_bound s) as B. specialize (Len s Hs).
      assert (2 ^ Z.of_nat (length s) <= 2 ^ M)%Z by (apply Z.pow_le_mono_r; lia). lia. }
    destruct (map int_of_bits special) as [|a l] eqn:Em; [discriminate|].
    destruct (min_list_spec l a) as [I1 I2]. cbv zeta in H. set (mn := min_list a l) in *. clearbody mn.
    assert (Wit : exists s, In s special /\ bits_value s = mn).
    { rewrite <- Em in I1. apply in_map_iff in I1. destruct I1 as (s & Es & Hs).
      exists s. split; [exact Hs|]. rewrite <- int_of_bits_value. exact Es. }
    assert (Low : forall s, In s special -> (mn <= bits_value s)%Z).
    { intros s Hs. apply I2. rewrite <- Em, <- int_of_bits_value. apply in_map, Hs. }
    destruct Wit as (s0 & Hs0 & Es0). pose proof (Bd s0 Hs0) as B0.
    destruct (Z.ltb_spec (mn - 1) 0) as [L|L]; injection H as <-.
    + apply (K special ((2 ^ E - 1) * 2 ^ M - 1)%Z); [nia| | |].
      * rewrite get_minifloat_value_decode, bits_value_app, !bits_value_ones, repeat_length.
        cbn [length bits_value]. fold M. change (2 ^ Z.of_nat 1)%Z with 2%Z.
        replace (Z.of_nat (e - 1)) with (E - 1)%Z by lia.
        replace (((2 ^ (E - 1) - 1) * 2 + (0 + 0)) * 2 ^ M + (2 ^ M - 1))%Z
          with ((2 ^ E - 1) * 2 ^ M - 1)%Z; [reflexivity|].
        replace (2 ^ E)%Z with (2 * 2 ^ (E - 1))%Z; [lia|].
        replace E with (Z.succ (E - 1)) at 2 by lia. rewrite Z.pow_succ_r by lia. reflexivity.
      * intros s Hs. specialize (Bd s Hs). unfold special_code. lia.
      * right. exists s0. split; [exact Hs0|]. unfold special_code. lia.
    + apply (K special ((2 ^ E - 1) * 2 ^ M + (mn - 1))%Z); [nia| | |].
      * rewrite get_minifloat_value_decode, bits_value_ones, format_bits_length. fold E M.
        rewrite format_bits_value by (fold M; lia). reflexivity.
      * intros s Hs. specialize (Low s Hs). unfold special_code. lia.
      * right. exists s0. split; [exact Hs0|]. unfold special_code. lia.
Qed.

(** The function does return a value whenever NaN codes are given that fit the mantissa, or
    no codes at all with saturation. *)
Theorem C29_defined e m bias nanv infv sat :
  ((nanv = None /\ infv = None /\ sat = true) \/
   (exists s l, nanv = Some (s :: l)) /\
   (forall s, In s (specials nanv infv) -> (length s <= m)%nat)) ->
  exists v, get_max_available_float e m bias nanv infv sat = Some v.
Proof.
  intros [(-> & -> & ->)|[(s & l & ->) Len]]; unfold get_max_available_float.
  - eexists; reflexivity.
  - unfold specials in Len.
    assert (Hex : forall sp : list bits, (forall s, In s sp -> (length s <= m)%nat) ->
              existsb (fun s : bits => Nat.ltb m (length s)) sp = false).
    { intros sp Hsp. match goal with |- context [existsb ?f sp] => destruct (existsb f sp) eqn:Ex end; [|reflexivity].
      apply existsb_exists in Ex. destruct Ex as (x & Hx & Lx). apply Nat.ltb_lt in Lx.
      specialize (Hsp x Hx). lia. }
    destruct infv as [iv|].
    + pose proof (Hex ((s :: l) ++ iv) Len) as X. unfold bits in *. rewrite X. cbn [app map].
      destruct (_ <? 0)%Z; eexists; reflexivity.
    + rewrite app_nil_r in Len. pose proof (Hex (s :: l) Len) as X. unfold bits in *. rewrite X. cbn [map].
      destruct (_ <? 0)%Z; eexists; reflexivity.
Qed.

(** The returned limit makes a usable quantizer configuration: C28 applies to every format
    built by the library (FloatBase quantizers pass this value as max_available_float). *)
Corollary C29_limit_usable e m bias nanv infv sat v sg mode :
  (1 <= e)%nat -> (1 <= m)%nat ->
  get_max_available_float e m bias nanv infv sat = Some v ->
  fmt_ok (FCfg (Z.of_nat e) (Z.of_nat m) bias sg sat infv nanv (Some v) mode).
Proof.
  intros He Hm H. destruct (C29_largest_free _ _ _ _ _ _ _ He H) as (c & Hc & Ev & Hb & Hmax).
  split; [cbn; lia|split; [cbn; lia|]]. cbn [fmax_avail fe fm fbias].
  split; [exists c; split; [exact Hc|left; exact Ev]|].
  (* code 1 is never reserved, so the limit is positive *)
  assert (PM : (2 ^ 1 <= 2 ^ Z.of_nat m)%Z) by (apply Z.pow_le_mono_r; lia).
  assert (PE : (2 ^ 1 <= 2 ^ Z.of_nat e)%Z) by (apply Z.pow_le_mono_r; lia).
  change (2 ^ 1)%Z with 2%Z in *.
  destruct (Hmax 1%Z) as [_ L].
  - rewrite Z.pow_add_r by lia. nia.
  - intros s Hs. pose proof (bits_value_bound s). unfold special_code. nia.
  - pose proof (decode_lt (Z.of_nat m) bias 0 1 ltac:(lia) ltac:(lia)) as D.
    pose proof (decode_nonneg (Z.of_nat m) bias 0 ltac:(lia) ltac:(lia)). lra.
Qed.

(** Without reserved codes the largest value is max_float. *)
Theorem C29_max_float e m bias : (1 <= e)%Z -> (0 <= m)%Z -> largest_free e m bias [] (max_float e m bias).
Proof.
  intros He Hm. assert (P : (0 < 2 ^ (e + m))%Z) by (apply Z.pow_pos_nonneg; lia).
  exists (2 ^ (e + m) - 1)%Z. split; [lia|]. split; [symmetry; apply decode_top; lia|]. split; [intros s []|].
  intros d Hd _. split; [lia|]. rewrite <- decode_top by lia. apply decode_le; lia.
Qed.

(** The smallest positive value of the format. *)
Theorem C29_smallest e m bias : (1 <= m)%nat ->
  get_min_available_float e m bias == pow2 (1 - bias - Z.of_nat m) /\
  forall c, (1 <= c)%Z -> get_min_available_float e m bias <= decode (Z.of_nat m) bias c.
Proof.
  intros Hm. unfold get_min_available_float.
  assert (E : get_minifloat_value (repeat false e) (repeat false (m - 1) ++ [true]) bias
              == decode (Z.of_nat m) bias 1).
  { rewrite get_minifloat_value_decode, bits_value_app, !bits_value_zeros, app_length, repeat_length.
    cbn [length bits_value]. replace (m - 1 + 1)%nat with m by lia. reflexivity. }
  split.
  - rewrite E. unfold decode.
    assert (PM : (2 ^ 1 <= 2 ^ Z.of_nat m)%Z) by (apply Z.pow_le_mono_r; lia).
    change (2 ^ 1)%Z with 2%Z in PM.
    rewrite Z.div_small, Z.mod_small by lia. change (0 =? 0)%Z with true. cbv iota.
    change (inject_Z 1) with 1. ring.
  - intros c Hc. rewrite E. apply decode_le; lia.
Qed.

(** * Examples *)

(** OCP E4M3: only mantissa 111 at the top exponent is reserved. *)
Definition e4m3 : fcfg := FCfg 4 3 7 true true None (Some [[true; true; true]]) (Some 448) Round.
Example ex_e4m3_max :
  exists v, get_max_available_float 4 3 7 (Some [[true; true; true]]) None true = Some v /\ v == 448.
Proof. eexists; split; [reflexivity|]. vm_compute. reflexivity. Qed.
(** OCP E5M2: infinity 00 and NaNs 01, 10, 11. *)
Example ex_e5m2_max :
  exists v, get_max_available_float 5 2 15 (Some [[false; true]; [true; true]; [true; false]])
              (Some [[false; false]]) true = Some v /\ v == 57344.
Proof. eexists; split; [reflexivity|]. vm_compute. reflexivity. Qed.
Example ex_e4m3_ok : fmt_ok e4m3.
Proof.
  split; [cbn; lia|split; [cbn; lia|]]. cbn [fmax_avail e4m3 fe fm fbias].
  split; [exists 126%Z; split; [cbn; lia|left; vm_compute; reflexivity]|lra].
Qed.
Example ex_eps_ok : 4 * tiny32 <= pow2 (1 - fbias e4m3 - fm e4m3).
Proof. vm_compute. discriminate. Qed.
(** 10.3 has neighbours 10 and 11 in E4M3; 500 saturates; 2^-9/3 becomes zero. *)
Definition finite_is (o : option fval) (r : Q) : Prop :=
  match o with Some (Fin y) => y == r | _ => False end.
Example ex_e4m3_values :
  finite_is (float_quant e4m3 false tiny32 (103 # 10) 1) 10 /\
  finite_is (float_quant e4m3 false tiny32 (-(500)) 1) (-(448)) /\
  finite_is (float_quant e4m3 false tiny32 (5 # 512) (1 # 2)) (5 # 512).
Proof. vm_compute. repeat split. Qed.
Example ex_min : get_min_available_float 4 3 7 == (1 # 512).
Proof. vm_compute. reflexivity. Qed.

Print Assumptions C28_representable.
Print Assumptions C28_nearest.
Print Assumptions C28_idempotent.
Print Assumptions C28_twice.
Print Assumptions C28_monotone.
Print Assumptions C28_zero.
Print Assumptions C28_nonsaturating_in_range.
Print Assumptions C28_nonsaturating_overflow.
Print Assumptions C28_unsigned_negative_overflow_refuted.
Print Assumptions C29_largest_free.
Print Assumptions C29_defined.
Print Assumptions C29_limit_usable.
Print Assumptions C29_smallest.
Print Assumptions C29_max_float.
