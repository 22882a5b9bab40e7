(** Lemmas about the minifloat model. *)
From Verif Require Import QUtil Ops OpsProofs Log2Q Minifloat.
Open Scope Q_scope.

Lemma max_float_sum n :
  fold_left (fun a i => a + pow2 (- Z.of_nat i)) (seq 0 (n + 1)) 0 == 2 - pow2 (- Z.of_nat n).
Proof.
  induction n as [|n IH].
  - cbn [seq fold_left Nat.add]. change (pow2 (- Z.of_nat 0)) with 1. lra.
  - replace (S n + 1)%nat with (S (n + 1)) by lia. rewrite seq_S, fold_left_app.
    cbn [fold_left]. rewrite IH. replace (0 + (n + 1))%nat with (S n) by lia.
    replace (- Z.of_nat n)%Z with (- Z.of_nat (S n) + 1)%Z by lia. rewrite pow2_succ. lra.
Qed.

Lemma max_float_eq e m bias : (0 <= m)%Z ->
  max_float e m bias == inject_Z (2 ^ (m + 1) - 1) * pow2 (2 ^ e - 1 - bias - m).
Proof.
  intros Hm. unfold max_float. rewrite max_float_sum, Z2Nat.id by exact Hm.
  assert (E : inject_Z (2 ^ (m + 1) - 1) == pow2 (m + 1) - 1).
  { unfold Z.sub. rewrite inject_Z_plus, <- pow2_nonneg_Z by lia. reflexivity. }
  rewrite E.
  set (d := (2 ^ e - 1 - bias - m)%Z).
  replace (2 ^ e - 1 - bias)%Z with (d + m)%Z by lia.
  rewrite (pow2_plus d m), pow2_succ, pow2_opp. field. apply Qpos_neq0, pow2_pos.
Qed.

Lemma max_float_pos e m bias : (0 <= m)%Z -> 0 < max_float e m bias.
Proof.
  intros Hm. rewrite max_float_eq by exact Hm.
  apply Qmult_lt_0_compat; [|apply pow2_pos].
  assert (2 ^ 1 <= 2 ^ (m + 1))%Z by (apply Z.pow_le_mono_r; lia). change (2 ^ 1)%Z with 2%Z in *.
  change 0 with (inject_Z 0). rewrite <- Zlt_Qlt. lia.
Qed.

Lemma inj_pow m : (0 <= m)%Z -> inject_Z (2 ^ m) == pow2 m.
Proof. intros H. symmetry. apply pow2_nonneg_Z, H. Qed.

(** The exponent chosen by [float_internal_scale]. *)
Definition iexp (x : Q) (m smin : Z) (eps : Q) : Z :=
  Z.max (floor_log2 (Qabs x + eps) - m) smin.

Lemma iexp_upper x m smin eps : 0 < eps ->
  Qabs x < pow2 (iexp x m smin eps + m + 1).
Proof.
  intros He. unfold iexp. pose proof (Qabs_nonneg x) as Ha.
  destruct (floor_log2_spec (Qabs x + eps) ltac:(lra)) as [S1 S2].
  set (k := floor_log2 _) in *.
  pose proof (pow2_mono (k + 1) (Z.max (k - m) smin + m + 1) ltac:(lia)). lra.
Qed.

Lemma iexp_lower x m smin eps : 0 < eps ->
  iexp x m smin eps = smin \/ pow2 (iexp x m smin eps + m) <= Qabs x + eps.
Proof.
  intros He. unfold iexp. pose proof (Qabs_nonneg x) as Ha.
  destruct (floor_log2_spec (Qabs x + eps) ltac:(lra)) as [S1 S2].
  set (k := floor_log2 _) in *.
  destruct (Z_le_gt_dec (k - m) smin) as [L|L]; [left; lia|right].
  replace (Z.max (k - m) smin + m)%Z with k by lia. exact S1.
Qed.

Lemma iexp_ge x m smin eps : (smin <= iexp x m smin eps)%Z.
Proof. unfold iexp. lia. Qed.

Lemma iexp_mono x y m smin eps : 0 < eps -> Qabs x <= Qabs y ->
  (iexp x m smin eps <= iexp y m smin eps)%Z.
Proof.
  intros He H. unfold iexp. pose proof (Qabs_nonneg x).
  pose proof (floor_log2_mono (Qabs x + eps) (Qabs y + eps) ltac:(lra) ltac:(lra)). lia.
Qed.

Lemma iexp_eq x y m smin eps : 0 < eps -> Qabs x == Qabs y ->
  iexp x m smin eps = iexp y m smin eps.
Proof.
  intros He H. pose proof (iexp_mono x y m smin eps He ltac:(lra)).
  pose proof (iexp_mono y x m smin eps He ltac:(lra)). lia.
Qed.

Lemma pow2_mul_div j x : pow2 j * (x / pow2 j) == x.
Proof. field. apply Qpos_neq0, pow2_pos. Qed.
