(** Exact floor / ceiling / rounding of the base-2 logarithm of a positive rational.
    These are the mathematical meaning of compositions such as floor(log2(x)); [log2]
    itself is never needed as a number. *)
From Verif Require Import QUtil.
Open Scope Q_scope.

(** floor(log2 x) for x > 0. *)
Definition floor_log2 (x : Q) : Z :=
  let k := (Z.log2 (Qnum x) - Z.log2 (Zpos (Qden x)))%Z in
  if Qle_bool (pow2 k) x then k else (k - 1)%Z.

(** ceil(log2 x) for x > 0. *)
Definition ceil_log2 (x : Q) : Z :=
  let k := floor_log2 x in
  if Qeq_bool (pow2 k) x then k else (k + 1)%Z.

(** round(log2 x) for x > 0.  For rational x, log2 x is never exactly half-way between
    two integers (2^(k+1/2) is irrational), so no tie rule is needed: compare x^2 with
    2^(2k+1). *)
Definition round_log2 (x : Q) : Z :=
  let k := floor_log2 x in
  if Qlt_bool (x * x) (pow2 (2 * k + 1)) then k else (k + 1)%Z.

(** trunc(log2 x). *)
Definition rtz_log2 (x : Q) : Z :=
  if Qle_bool 1 x then floor_log2 x else ceil_log2 x.

Lemma floor_log2_spec x : 0 < x -> pow2 (floor_log2 x) <= x /\ x < pow2 (floor_log2 x + 1).
Proof.
  intros Hx. destruct x as [n d]. unfold floor_log2; cbn [Qnum Qden].
  assert (Hn : (0 < n)%Z). { unfold Qlt in Hx; cbn in Hx. lia. }
  pose proof (Z.log2_spec n Hn) as [N1 N2].
  pose proof (Z.log2_spec (Zpos d) ltac:(lia)) as [D1 D2].
  pose proof (Z.log2_nonneg n) as Hn0. pose proof (Z.log2_nonneg (Zpos d)) as Hd0.
  set (a := Z.log2 n) in *. set (e := Z.log2 (Zpos d)) in *.
  assert (E : n # d == inject_Z n / inject_Z (Zpos d)). { rewrite Qmake_Qdiv. reflexivity. }
  assert (Pd : 0 < inject_Z (Zpos d)) by (apply (injz_lt 0); lia).
  apply injz_le in N1, D1. apply injz_lt in N2, D2.
  rewrite <- pow2_nonneg_Z in N1, D1, N2, D2 by lia.
  replace (Z.succ a) with (a + 1)%Z in N2 by lia. replace (Z.succ e) with (e + 1)%Z in D2 by lia.
  rewrite pow2_succ in N2, D2.
  assert (U : n # d < pow2 (a - e + 1)).
  { rewrite E. apply Qlt_shift_div_r; [exact Pd|].
    assert (pow2 (a - e + 1) * pow2 e == 2 * pow2 a).
    { rewrite <- pow2_plus. replace (a - e + 1 + e)%Z with (a + 1)%Z by lia. apply pow2_succ. }
    pose proof (pow2_pos (a - e + 1)). nra. }
  assert (L : pow2 (a - e - 1) <= n # d).
  { rewrite E. apply Qle_shift_div_l; [exact Pd|].
    assert (pow2 (a - e - 1) * (2 * pow2 e) == pow2 a).
    { rewrite <- pow2_succ, <- pow2_plus. replace (a - e - 1 + (e + 1))%Z with a by lia. reflexivity. }
    pose proof (pow2_pos (a - e - 1)). nra. }
  qcase.
  - split; assumption.
  - split; [exact L|]. replace (a - e - 1 + 1)%Z with (a - e)%Z by lia. exact Hc.
Qed.

Lemma floor_log2_unique x k : 0 < x -> pow2 k <= x -> x < pow2 (k + 1) -> floor_log2 x = k.
Proof.
  intros Hx H1 H2. destruct (floor_log2_spec x Hx) as [S1 S2].
  assert (floor_log2 x < k + 1)%Z by (apply pow2_lt_inv; lra).
  assert (k < floor_log2 x + 1)%Z by (apply pow2_lt_inv; lra). lia.
Qed.

Lemma floor_log2_eq x y : 0 < x -> x == y -> floor_log2 x = floor_log2 y.
Proof.
  intros Hx E. symmetry. apply floor_log2_unique; rewrite <- E; [exact Hx| |]; apply floor_log2_spec, Hx.
Qed.

Lemma floor_log2_mono x y : 0 < x -> x <= y -> (floor_log2 x <= floor_log2 y)%Z.
Proof.
  intros Hx H. destruct (floor_log2_spec x Hx) as [S1 S2].
  destruct (floor_log2_spec y ltac:(lra)) as [T1 T2].
  assert (floor_log2 x < floor_log2 y + 1)%Z by (apply pow2_lt_inv; lra). lia.
Qed.

Lemma floor_log2_pow2 k : floor_log2 (pow2 k) = k.
Proof.
  apply floor_log2_unique; [apply pow2_pos|lra|apply pow2_lt; lia].
Qed.

Lemma ceil_log2_spec x : 0 < x -> x <= pow2 (ceil_log2 x) /\ pow2 (ceil_log2 x - 1) < x.
Proof.
  intros Hx. destruct (floor_log2_spec x Hx) as [S1 S2]. unfold ceil_log2. qcase.
  - split; [lra|]. pose proof (pow2_lt (floor_log2 x - 1) (floor_log2 x) ltac:(lia)). lra.
  - split; [lra|]. replace (floor_log2 x + 1 - 1)%Z with (floor_log2 x) by lia.
    destruct (Qlt_le_dec (pow2 (floor_log2 x)) x) as [L|L]; [exact L|].
    exfalso. apply Hc. lra.
Qed.

Lemma round_log2_spec x : 0 < x ->
  pow2 (2 * round_log2 x - 1) <= x * x /\ x * x < pow2 (2 * round_log2 x + 1).
Proof.
  intros Hx. destruct (floor_log2_spec x Hx) as [S1 S2]. unfold round_log2.
  set (k := floor_log2 x) in *. pose proof (pow2_pos k) as P.
  rewrite pow2_succ in S2. qcase.
  - split; [|exact Hc].
    assert (E : pow2 (2 * k - 1) * 2 == pow2 k * pow2 k).
    { rewrite <- pow2_plus. rewrite <- pow2_1, <- pow2_plus.
      replace (2 * k - 1 + 1)%Z with (k + k)%Z by lia. reflexivity. }
    pose proof (pow2_pos (2 * k - 1)). nra.
  - split.
    + replace (2 * (k + 1) - 1)%Z with (2 * k + 1)%Z by lia. exact Hc.
    + assert (E : pow2 (2 * (k + 1) + 1) == 8 * (pow2 k * pow2 k)).
      { replace (2 * (k + 1) + 1)%Z with (k + k + 3)%Z by lia. rewrite !pow2_plus.
        change (pow2 3) with 8. ring. }
      rewrite E. nra.
Qed.

(** A rational square is never an odd power of two, hence [round_log2] never meets a tie. *)
Lemma sqrt2_irrational : forall (n : nat) (a b : Z),
  (0 < a)%Z -> (0 < b)%Z -> (Z.to_nat b <= n)%nat -> (a * a = 2 * (b * b))%Z -> False.
Proof.
  induction n as [|n IH]; intros a b Ha Hb Hn E; [lia|].
  assert (Ev : Z.even a = true).
  { assert (H : Z.even (a * a) = true) by (rewrite E; apply Z.even_spec; exists (b * b)%Z; lia).
    rewrite Z.even_mul, orb_diag in H. exact H. }
  apply Z.even_spec in Ev. destruct Ev as [c Hc].
  assert (c < b)%Z by nia.
  apply (IH b c); nia.
Qed.

Lemma square_not_odd_pow2 x k : 0 < x -> ~ x * x == pow2 (2 * k + 1).
Proof.
  intros Hx E.
  (* scale by 2^-k: y = x / 2^k satisfies y*y == 2 *)
  set (y := x * pow2 (- k)).
  assert (Hy : 0 < y). { unfold y. pose proof (pow2_pos (- k)). nra. }
  assert (Ey : y * y == 2).
  { assert (F : y * y == (x * x) * (pow2 (- k) * pow2 (- k))) by (unfold y; ring).
    rewrite F, E. rewrite <- !pow2_plus.
    replace (2 * k + 1 + (- k + - k))%Z with 1%Z by lia. reflexivity. }
  clearbody y. clear - Hy Ey. destruct y as [n d].
  unfold Qeq, Qmult, Qlt in *; cbn in *.
  apply (sqrt2_irrational (Z.to_nat (Zpos d)) n (Zpos d)); lia.
Qed.

Lemma round_log2_spec_strict x : 0 < x ->
  pow2 (2 * round_log2 x - 1) < x * x /\ x * x < pow2 (2 * round_log2 x + 1).
Proof.
  intros Hx. destruct (round_log2_spec x Hx) as [H1 H2]. split; [|exact H2].
  destruct (Qlt_le_dec (pow2 (2 * round_log2 x - 1)) (x * x)) as [L|L]; [exact L|].
  exfalso. apply (square_not_odd_pow2 x (round_log2 x - 1) Hx).
  replace (2 * (round_log2 x - 1) + 1)%Z with (2 * round_log2 x - 1)%Z by lia. lra.
Qed.

Lemma round_log2_pow2 k : round_log2 (pow2 k) = k.
Proof.
  unfold round_log2. rewrite floor_log2_pow2. qcase; [reflexivity|].
  exfalso. rewrite <- pow2_plus in Hc. apply pow2_le_inv in Hc. lia.
Qed.

Lemma ceil_log2_pow2 k : ceil_log2 (pow2 k) = k.
Proof.
  unfold ceil_log2. rewrite floor_log2_pow2. qcase; [reflexivity|]. exfalso; apply Hc; reflexivity.
Qed.
