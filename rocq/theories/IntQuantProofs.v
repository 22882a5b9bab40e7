(** Lemmas about [IntQuant]. *)
From Verif Require Import QUtil Ops OpsProofs IntQuant.
Open Scope Q_scope.

Section Generic.
Variables (sg nr : bool) (f : Q -> Z) (s : Q) (z b : Z).
Hypothesis Hf : rounding f.
Hypothesis Hs : 0 < s.
Hypothesis Hb : (1 <= b)%Z.

Let c := {| iq_signed := sg; iq_narrow := nr; iq_f2i := fun x => inject_Z (f x) |}.
Let lo := min_int sg nr b.
Let hi := max_int sg nr b.

Lemma g_lohi : (lo <= 0 <= hi)%Z.
Proof. apply min_max_int, Hb. Qed.

Definition code (x : Q) : Z := clampZ (f (x / s + inject_Z z)) lo hi.

Lemma g_to_int x : to_int c s (inject_Z z) b x = inject_Z (code x).
Proof. unfold to_int, code; cbn. apply clamp_injz. Qed.

Lemma g_quant x : int_quant c s (inject_Z z) b x = (inject_Z (code x) - inject_Z z) * s.
Proof. unfold int_quant. rewrite g_to_int. reflexivity. Qed.

Lemma code_range x : (lo <= code x <= hi)%Z.
Proof. unfold code. pose proof g_lohi. rewrite clampZ_spec by lia. lia. Qed.

Lemma code_eq x y : x == y -> code x = code y.
Proof.
  intros H. unfold code. rewrite (rnd_eq _ Hf _ (y / s + inject_Z z)); [reflexivity|].
  rewrite H. reflexivity.
Qed.

Lemma code_mono x y : x <= y -> (code x <= code y)%Z.
Proof.
  intros H. unfold code. pose proof g_lohi. rewrite !clampZ_spec by lia.
  assert (f (x / s + inject_Z z) <= f (y / s + inject_Z z))%Z.
  { apply (rnd_mono _ Hf). apply Qplus_le_l. apply Qdiv_le_mono; assumption. }
  lia.
Qed.

Lemma code_fix q : (lo <= q <= hi)%Z -> code ((inject_Z q - inject_Z z) * s) = q.
Proof.
  intros Hq. unfold code.
  rewrite (rnd_eq _ Hf _ (inject_Z q)).
  - rewrite (rnd_int _ Hf). rewrite clampZ_spec by lia. lia.
  - field. apply Qpos_neq0, Hs.
Qed.

Lemma quant_mono x y : x <= y ->
  int_quant c s (inject_Z z) b x <= int_quant c s (inject_Z z) b y.
Proof.
  intros H. rewrite !g_quant. apply code_mono, injz_le in H.
  apply Qmult_le_compat_r; lra.
Qed.
End Generic.

(** Distance to a grid point, in units of the scale. *)
Lemma grid_dist s z q x : 0 < s ->
  Qabs ((inject_Z q - inject_Z z) * s - x) == Qabs (inject_Z q - (x / s + inject_Z z)) * s.
Proof.
  intros Hs. rewrite <- Qabs_mul_pos by exact Hs. apply Qabs_wd. field. apply Qpos_neq0, Hs.
Qed.

(** Clamping to an interval cannot increase the distance to points of the interval beyond
    the nearest one: if [r] is a nearest integer to [y], then the clamped [r] is a nearest
    integer of [lo,hi] to [y]. *)
Lemma clamp_nearest (y : Q) (r lo hi k : Z) :
  (forall n, Qabs (inject_Z r - y) <= Qabs (inject_Z n - y)) ->
  (lo <= k <= hi)%Z ->
  Qabs (inject_Z (clampZ r lo hi) - y) <= Qabs (inject_Z k - y).
Proof.
  intros Hr Hk. rewrite clampZ_spec by lia.
  destruct (Z_lt_le_dec r lo) as [L|L]; [|destruct (Z_lt_le_dec hi r) as [U|U]].
  - replace (Z.max lo (Z.min r hi)) with lo by lia.
    pose proof (Hr (r + 1)%Z) as H. rewrite inject_Z_plus in H. change (inject_Z 1) with 1 in H.
    assert (A : y <= inject_Z r + (1 # 2)).
    { qabs (inject_Z r - y); rewrite Habs in H; qabs (inject_Z r + 1 - y); rewrite Habs0 in H; lra. }
    assert (B : inject_Z (r + 1) <= inject_Z lo) by (apply injz_le; lia).
    assert (C : inject_Z lo <= inject_Z k) by (apply injz_le; lia).
    rewrite inject_Z_plus in B. change (inject_Z 1) with 1 in B.
    rewrite !Qabs_pos by lra. lra.
  - replace (Z.max lo (Z.min r hi)) with hi by lia.
    pose proof (Hr (r - 1)%Z) as H. rewrite inject_Z_minus in H. change (inject_Z 1) with 1 in H.
    assert (A : inject_Z r - (1 # 2) <= y).
    { qabs (inject_Z r - y); rewrite Habs in H; qabs (inject_Z r - 1 - y); rewrite Habs0 in H; lra. }
    assert (B : inject_Z (hi + 1) <= inject_Z r) by (apply injz_le; lia).
    assert (C : inject_Z k <= inject_Z hi) by (apply injz_le; lia).
    rewrite inject_Z_plus in B. change (inject_Z 1) with 1 in B.
    rewrite !Qabs_neg by lra. lra.
  - replace (Z.max lo (Z.min r hi)) with r by lia. apply Hr.
Qed.

(** The concrete modes. *)
Lemma cfg_quant sg nr m s z b x :
  int_quant (cfg sg nr m) s (inject_Z z) b x
  = (inject_Z (code sg nr (float_to_intZ m) s z b x) - inject_Z z) * s.
Proof. apply g_quant. Qed.

Lemma cfg_to_int sg nr m s z b x :
  to_int (cfg sg nr m) s (inject_Z z) b x = inject_Z (code sg nr (float_to_intZ m) s z b x).
Proof. apply g_to_int. Qed.

Lemma quant_proper c s z b x s' z' x' :
  Proper (Qeq ==> Qeq) (iq_f2i c) -> s == s' -> z == z' -> x == x' ->
  int_quant c s z b x == int_quant c s' z' b x'.
Proof.
  intros Hp Hs Hz Hx. unfold int_quant, to_int. rewrite Hs, Hz, Hx. reflexivity.
Qed.
