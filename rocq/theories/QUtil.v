(** Shared arithmetic helpers over exact rationals (no model code here). *)
From Coq Require Export ZArith QArith Qround Qabs Qpower List Bool Lia Lqa Setoid Morphisms.
Export ListNotations.
Open Scope Q_scope.

(** Integer constants as rationals. *)
Notation "'Z2Q' x" := (inject_Z x) (at level 9, x at level 8, only parsing).

(** Strict comparison as a boolean ([a < b]). *)
Definition Qlt_bool (a b : Q) : bool := negb (Qle_bool b a).

Lemma Qlt_bool_iff a b : Qlt_bool a b = true <-> a < b.
Proof.
  unfold Qlt_bool. rewrite negb_true_iff. split; intros H.
  - apply Qnot_le_lt. intros C. apply Qle_bool_iff in C. congruence.
  - destruct (Qle_bool b a) eqn:E; [|reflexivity].
    apply Qle_bool_iff in E. exfalso. apply (Qlt_not_le _ _ H E).
Qed.

Lemma Qlt_bool_false a b : Qlt_bool a b = false <-> b <= a.
Proof.
  unfold Qlt_bool. rewrite negb_false_iff. apply Qle_bool_iff.
Qed.

Lemma Qle_bool_false a b : Qle_bool a b = false <-> b < a.
Proof.
  rewrite <- Qlt_bool_iff. unfold Qlt_bool. rewrite negb_true_iff. tauto.
Qed.

#[global] Instance Qlt_bool_proper : Proper (Qeq ==> Qeq ==> eq) Qlt_bool.
Proof. intros a b H c d H'. unfold Qlt_bool. rewrite H, H'. reflexivity. Qed.

Lemma Qeq_bool_false a b : Qeq_bool a b = false <-> ~ a == b.
Proof.
  split.
  - apply Qeq_bool_neq.
  - intros H. destruct (Qeq_bool a b) eqn:E; [|reflexivity].
    apply Qeq_bool_iff in E. contradiction.
Qed.

(** Case analysis on a boolean comparison of rationals (innermost first). *)
Ltac no_if t := lazymatch t with context [if _ then _ else _] => fail | _ => idtac end.
Ltac qcase_on t :=
  let E := fresh "Hc" in
  lazymatch t with
  | Qlt_bool ?a ?b => no_if a; no_if b; destruct (Qlt_bool a b) eqn:E;
      [apply Qlt_bool_iff in E | apply Qlt_bool_false in E]
  | Qle_bool ?a ?b => no_if a; no_if b; destruct (Qle_bool a b) eqn:E;
      [apply Qle_bool_iff in E | apply Qle_bool_false in E]
  | Qeq_bool ?a ?b => no_if a; no_if b; destruct (Qeq_bool a b) eqn:E;
      [apply Qeq_bool_iff in E | apply Qeq_bool_false in E]
  end.
Ltac qcase :=
  match goal with
  | |- context [Qlt_bool ?a ?b] => qcase_on (Qlt_bool a b)
  | |- context [Qle_bool ?a ?b] => qcase_on (Qle_bool a b)
  | |- context [Qeq_bool ?a ?b] => qcase_on (Qeq_bool a b)
  end.
Ltac qcase_in H :=
  match type of H with
  | context [Qlt_bool ?a ?b] => qcase_on (Qlt_bool a b)
  | context [Qle_bool ?a ?b] => qcase_on (Qle_bool a b)
  | context [Qeq_bool ?a ?b] => qcase_on (Qeq_bool a b)
  end.

(** Push [inject_Z] to the leaves. *)
Lemma inject_Z_minus a b : inject_Z (a - b) = inject_Z a - inject_Z b.
Proof. unfold Qminus. rewrite <- inject_Z_opp, <- inject_Z_plus. reflexivity. Qed.

Lemma inject_Z_1 : inject_Z 1 = 1. Proof. reflexivity. Qed.
Lemma inject_Z_0 : inject_Z 0 = 0. Proof. reflexivity. Qed.
Lemma inject_Z_2 : inject_Z 2 = 2. Proof. reflexivity. Qed.
Lemma inject_Z_m1 : inject_Z (-1) = -(1). Proof. reflexivity. Qed.

Ltac injz :=
  repeat (rewrite ?inject_Z_plus, ?inject_Z_minus, ?inject_Z_mult, ?inject_Z_opp in *;
          try change (inject_Z 1) with 1%Q in *;
          try change (inject_Z 0) with 0%Q in *;
          try change (inject_Z 2) with 2%Q in *;
          try change (inject_Z (-1)) with (-(1))%Q in * ).

Lemma injz_le a b : (a <= b)%Z -> inject_Z a <= inject_Z b.
Proof. rewrite <- Zle_Qle. exact (fun H => H). Qed.
Lemma injz_lt a b : (a < b)%Z -> inject_Z a < inject_Z b.
Proof. rewrite <- Zlt_Qlt. exact (fun H => H). Qed.
Lemma injz_le_inv a b : inject_Z a <= inject_Z b -> (a <= b)%Z.
Proof. rewrite <- Zle_Qle. exact (fun H => H). Qed.
Lemma injz_lt_inv a b : inject_Z a < inject_Z b -> (a < b)%Z.
Proof. rewrite <- Zlt_Qlt. exact (fun H => H). Qed.
Lemma injz_eq_inv a b : inject_Z a == inject_Z b -> a = b.
Proof. apply inject_Z_injective. Qed.

(** Strict comparison with the successor: the workhorse for integrality. *)
Lemma injz_lt_succ a b : inject_Z a < inject_Z b + 1 -> (a <= b)%Z.
Proof.
  intros H. assert (inject_Z a < inject_Z (b + 1)) by (injz; exact H).
  apply injz_lt_inv in H0. lia.
Qed.

(** ** Floor and ceiling *)
Lemma Qfloor_lb x : inject_Z (Qfloor x) <= x.
Proof. apply Qfloor_le. Qed.
Lemma Qfloor_ub x : x < inject_Z (Qfloor x) + 1.
Proof. pose proof (Qlt_floor x) as H. rewrite inject_Z_plus in H. exact H. Qed.

Lemma Qfloor_unique x n : inject_Z n <= x -> x < inject_Z n + 1 -> Qfloor x = n.
Proof.
  intros H1 H2. pose proof (Qfloor_lb x) as L. pose proof (Qfloor_ub x) as U.
  assert ((Qfloor x <= n)%Z) by (apply injz_lt_succ; lra).
  assert ((n <= Qfloor x)%Z) by (apply injz_lt_succ; lra).
  lia.
Qed.

Lemma Qfloor_mono x y : x <= y -> (Qfloor x <= Qfloor y)%Z.
Proof. apply Qfloor_resp_le. Qed.

Lemma Qfloor_inj n : Qfloor (inject_Z n) = n.
Proof. apply Qfloor_Z. Qed.

Lemma Qceiling_lb x : inject_Z (Qceiling x) < x + 1.
Proof. pose proof (Qceiling_lt x) as H. rewrite inject_Z_minus in H. change (inject_Z 1) with 1 in H. lra. Qed.
Lemma Qceiling_ub x : x <= inject_Z (Qceiling x).
Proof. apply Qle_ceiling. Qed.
Lemma Qceiling_unique x n : inject_Z n < x + 1 -> x <= inject_Z n -> Qceiling x = n.
Proof.
  intros H1 H2. pose proof (Qceiling_lb x) as L. pose proof (Qceiling_ub x) as U.
  assert ((Qceiling x <= n)%Z) by (apply injz_lt_succ; lra).
  assert ((n <= Qceiling x)%Z) by (apply injz_lt_succ; lra).
  lia.
Qed.
Lemma Qceiling_mono x y : x <= y -> (Qceiling x <= Qceiling y)%Z.
Proof. apply Qceiling_resp_le. Qed.

Lemma Qfloor_add_Z x n : Qfloor (x + inject_Z n) = (Qfloor x + n)%Z.
Proof.
  apply Qfloor_unique; injz; pose proof (Qfloor_lb x); pose proof (Qfloor_ub x); lra.
Qed.

(** ** Powers of two *)
Definition pow2 (e : Z) : Q := Qpower 2 e.

Lemma pow2_pos e : 0 < pow2 e.
Proof. apply Qpower_0_lt. lra. Qed.

Lemma pow2_plus a b : pow2 (a + b) == pow2 a * pow2 b.
Proof. apply Qpower_plus. intros H; discriminate. Qed.

Lemma pow2_0 : pow2 0 == 1. Proof. reflexivity. Qed.
Lemma pow2_1 : pow2 1 == 2. Proof. reflexivity. Qed.
Lemma pow2_m1 : pow2 (-1) == 1 # 2. Proof. reflexivity. Qed.

Lemma pow2_succ a : pow2 (a + 1) == 2 * pow2 a.
Proof. rewrite pow2_plus, pow2_1. ring. Qed.

Lemma pow2_opp a : pow2 (- a) == / pow2 a.
Proof. apply Qpower_opp. Qed.

Lemma pow2_opp_mul a : pow2 (- a) * pow2 a == 1.
Proof. rewrite <- pow2_plus. replace (- a + a)%Z with 0%Z by lia. reflexivity. Qed.

Lemma pow2_nonneg_Z e : (0 <= e)%Z -> pow2 e == inject_Z (2 ^ e).
Proof.
  intros H. unfold pow2. rewrite Zpower_Qpower by exact H. reflexivity.
Qed.

Lemma pow2_ge_1 e : (0 <= e)%Z -> 1 <= pow2 e.
Proof.
  intros H. rewrite pow2_nonneg_Z by exact H.
  apply (injz_le 1). assert (2 ^ 0 <= 2 ^ e)%Z by (apply Z.pow_le_mono_r; lia). lia.
Qed.

Lemma pow2_mono a b : (a <= b)%Z -> pow2 a <= pow2 b.
Proof.
  intros H. replace b with (a + (b - a))%Z by lia. rewrite pow2_plus.
  pose proof (pow2_ge_1 (b - a) ltac:(lia)). pose proof (pow2_pos a). nra.
Qed.

Lemma pow2_lt a b : (a < b)%Z -> pow2 a < pow2 b.
Proof.
  intros H. pose proof (pow2_mono (a + 1) b ltac:(lia)) as M.
  rewrite pow2_succ in M. pose proof (pow2_pos a). lra.
Qed.

Lemma pow2_lt_inv a b : pow2 a < pow2 b -> (a < b)%Z.
Proof.
  intros H. destruct (Z_lt_le_dec a b) as [L|L]; [exact L|].
  apply pow2_mono in L. lra.
Qed.

Lemma pow2_le_inv a b : pow2 a <= pow2 b -> (a <= b)%Z.
Proof.
  intros H. destruct (Z_lt_le_dec b a) as [L|L]; [|exact L].
  apply pow2_lt in L. lra.
Qed.

#[global] Instance pow2_proper : Proper (eq ==> Qeq) pow2.
Proof. intros a b ->. reflexivity. Qed.

(** ** Products and quotients *)
Lemma Qdiv_mul_cancel a s : ~ s == 0 -> a * s / s == a.
Proof. intros H. field. exact H. Qed.

Lemma Qpos_neq0 s : 0 < s -> ~ s == 0.
Proof. intros H E. rewrite E in H. apply (Qlt_irrefl 0 H). Qed.

Lemma Qdiv_le_mono a b s : 0 < s -> a <= b -> a / s <= b / s.
Proof.
  intros Hs H. apply Qle_shift_div_l; [exact Hs|].
  assert (E : a / s * s == a) by (field; apply Qpos_neq0; exact Hs).
  rewrite E. exact H.
Qed.

Lemma Qdiv_lt_mono a b s : 0 < s -> a < b -> a / s < b / s.
Proof.
  intros Hs H. apply Qlt_shift_div_l; [exact Hs|].
  assert (E : a / s * s == a) by (field; apply Qpos_neq0; exact Hs).
  rewrite E. exact H.
Qed.

Lemma Qdiv_pos a s : 0 < a -> 0 < s -> 0 < a / s.
Proof. intros Ha Hs. apply Qlt_shift_div_l; [exact Hs|]. lra. Qed.

Lemma Qabs_cases x : (0 <= x /\ Qabs x == x) \/ (x < 0 /\ Qabs x == - x).
Proof.
  destruct (Qlt_le_dec x 0) as [H|H].
  - right; split; [exact H|]. apply Qabs_neg. lra.
  - left; split; [exact H|]. apply Qabs_pos. exact H.
Qed.

(** Eliminate an absolute value by cases. *)
Ltac qabs x :=
  let H := fresh "Habs" in
  destruct (Qabs_cases x) as [[? H]|[? H]].

Lemma Qabs_le_iff x b : Qabs x <= b <-> - b <= x <= b.
Proof. qabs x; rewrite Habs; split; intros; lra. Qed.

Lemma Qabs_mul_pos x s : 0 < s -> Qabs (x * s) == Qabs x * s.
Proof. intros H. rewrite Qabs_Qmult. rewrite (Qabs_pos s) by lra. reflexivity. Qed.
