(** Lemmas about the primitives of [Ops]. *)
From Verif Require Import QUtil Ops.
Open Scope Q_scope.

(** What every float-to-int mode satisfies: it respects equality of rationals, is
    monotone and fixes the integers. *)
Record rounding (f : Q -> Z) : Prop := {
  rnd_eq : forall x y, x == y -> f x = f y;
  rnd_mono : forall x y, x <= y -> (f x <= f y)%Z;
  rnd_int : forall n, f (inject_Z n) = n }.

Lemma rounding_floor_ceil f : rounding f ->
  forall x, (Qfloor x <= f x <= Qceiling x)%Z.
Proof.
  intros [Heq Hm Hi] x. split.
  - rewrite <- (Hi (Qfloor x)). apply Hm, Qfloor_lb.
  - rewrite <- (Hi (Qceiling x)). apply Hm, Qceiling_ub.
Qed.

Lemma rounding_error f : rounding f -> forall x, Qabs (inject_Z (f x) - x) < 1.
Proof.
  intros H x. pose proof (rounding_floor_ceil f H x) as [H1 H2].
  apply injz_le in H1, H2.
  pose proof (Qfloor_ub x). pose proof (Qceiling_lb x).
  qabs (inject_Z (f x) - x); rewrite Habs; lra.
Qed.

Lemma rounding_le_int f n x : rounding f -> x <= inject_Z n -> (f x <= n)%Z.
Proof. intros [He Hm Hi] H. rewrite <- (Hi n). apply Hm, H. Qed.

Lemma rounding_ge_int f n x : rounding f -> inject_Z n <= x -> (n <= f x)%Z.
Proof. intros [He Hm Hi] H. rewrite <- (Hi n). apply Hm, H. Qed.

(** ** Floor and ceiling *)
Lemma floor_rounding : rounding floorZ.
Proof.
  split; unfold floorZ.
  - intros x y H. rewrite H. reflexivity.
  - intros x y. apply Qfloor_mono.
  - apply Qfloor_inj.
Qed.

Lemma ceil_rounding : rounding ceilZ.
Proof.
  split; unfold ceilZ.
  - intros x y H. rewrite H. reflexivity.
  - intros x y. apply Qceiling_mono.
  - intros n. apply Qceiling_Z.
Qed.

(** ** Round half to even *)
Lemma roundZ_spec x :
  Qabs (inject_Z (roundZ x) - x) <= 1 # 2
  /\ (Qabs (inject_Z (roundZ x) - x) == 1 # 2 -> Z.even (roundZ x) = true).
Proof.
  pose proof (Qfloor_lb x) as L. pose proof (Qfloor_ub x) as U.
  unfold roundZ. qcase; [|qcase; [|destruct (Z.even (Qfloor x)) eqn:E]].
  - assert (A : Qabs (inject_Z (Qfloor x) - x) == x - inject_Z (Qfloor x)).
    { rewrite Qabs_neg by lra. ring. }
    rewrite A. split; [lra|]. intros; lra.
  - assert (A : Qabs (inject_Z (Qfloor x + 1) - x) == inject_Z (Qfloor x + 1) - x).
    { rewrite inject_Z_plus. change (inject_Z 1) with 1. rewrite Qabs_pos by lra. ring. }
    rewrite A. rewrite inject_Z_plus. change (inject_Z 1) with 1.
    split; [lra|]. intros; lra.
  - split; [|intros; exact E]. apply Qabs_le_iff. lra.
  - rewrite inject_Z_plus. change (inject_Z 1) with 1. split.
    + apply Qabs_le_iff. lra.
    + intros _. rewrite Z.even_add, E. reflexivity.
Qed.

Lemma roundZ_err x : - (1 # 2) <= inject_Z (roundZ x) - x <= 1 # 2.
Proof. apply Qabs_le_iff, roundZ_spec. Qed.

(** The specification of round-half-even determines the result. *)
Lemma round_he_unique x n :
  Qabs (inject_Z n - x) <= 1 # 2 ->
  (Qabs (inject_Z n - x) == 1 # 2 -> Z.even n = true) ->
  n = roundZ x.
Proof.
  intros Hn En. destruct (roundZ_spec x) as [Hm Em]. set (m := roundZ x) in *.
  destruct (Z.eq_dec n m) as [|Hne]; [assumption|exfalso].
  assert (H : forall a b, (a < b)%Z ->
     Qabs (inject_Z a - x) <= 1 # 2 -> (Qabs (inject_Z a - x) == 1 # 2 -> Z.even a = true) ->
     Qabs (inject_Z b - x) <= 1 # 2 -> (Qabs (inject_Z b - x) == 1 # 2 -> Z.even b = true) -> False).
  { clear. intros a b Hab Ha Ea Hb Eb.
    apply Qabs_le_iff in Ha, Hb.
    assert (Hs : inject_Z (a + 1) <= inject_Z b) by (apply injz_le; lia).
    rewrite inject_Z_plus in Hs. change (inject_Z 1) with 1 in Hs.
    assert (inject_Z a == x - (1 # 2)) by lra.
    assert (inject_Z b == x + (1 # 2)) by lra.
    assert (Qa : Qabs (inject_Z a - x) == 1 # 2) by (rewrite Qabs_neg; lra).
    assert (Qb : Qabs (inject_Z b - x) == 1 # 2) by (rewrite Qabs_pos; lra).
    specialize (Ea Qa). specialize (Eb Qb).
    assert (b = a + 1)%Z.
    { apply injz_eq_inv. rewrite inject_Z_plus. change (inject_Z 1) with 1. lra. }
    subst b. rewrite Z.even_add, Ea in Eb. discriminate. }
  assert (n < m \/ m < n)%Z as [L|L] by lia.
  - exact (H n m L Hn En Hm Em).
  - exact (H m n L Hm Em Hn En).
Qed.

Lemma roundZ_eq x y : x == y -> roundZ x = roundZ y.
Proof.
  intros H. apply round_he_unique; rewrite <- H; apply roundZ_spec.
Qed.

#[global] Instance roundZ_proper : Proper (Qeq ==> eq) roundZ.
Proof. intros x y H. apply roundZ_eq, H. Qed.

Lemma roundZ_int n : roundZ (inject_Z n) = n.
Proof.
  symmetry. apply round_he_unique.
  - rewrite Qabs_pos; lra.
  - intros H. rewrite Qabs_pos in H by lra. lra.
Qed.

Lemma roundZ_mono x y : x <= y -> (roundZ x <= roundZ y)%Z.
Proof.
  intros H. destruct (Z_lt_le_dec (roundZ y) (roundZ x)) as [L|L]; [exfalso|exact L].
  destruct (roundZ_spec x) as [Hx Ex]. destruct (roundZ_spec y) as [Hy Ey].
  set (m := roundZ x) in *. set (n := roundZ y) in *.
  apply Qabs_le_iff in Hx, Hy.
  assert (Hs : inject_Z (n + 1) <= inject_Z m) by (apply injz_le; lia).
  rewrite inject_Z_plus in Hs. change (inject_Z 1) with 1 in Hs.
  assert (x == y) by lra.
  assert (inject_Z m == x + (1 # 2)) by lra. assert (inject_Z n == y - (1 # 2)) by lra.
  assert (Em : Z.even m = true) by (apply Ex; rewrite Qabs_pos; lra).
  assert (En : Z.even n = true) by (apply Ey; rewrite Qabs_neg; lra).
  assert (Emn : m = (n + 1)%Z).
  { apply injz_eq_inv. rewrite inject_Z_plus. change (inject_Z 1) with 1. lra. }
  rewrite Emn, Z.even_add, En in Em. discriminate.
Qed.

Lemma round_rounding : rounding roundZ.
Proof. split; [exact roundZ_eq|exact roundZ_mono|exact roundZ_int]. Qed.

Lemma roundZ_nearest x n : Qabs (inject_Z (roundZ x) - x) <= Qabs (inject_Z n - x).
Proof.
  destruct (Z.eq_dec n (roundZ x)) as [->|Hne]; [lra|].
  pose proof (roundZ_err x) as H. set (m := roundZ x) in *.
  assert (n + 1 <= m \/ m + 1 <= n)%Z as [L|L] by lia; apply injz_le in L;
    rewrite inject_Z_plus in L; change (inject_Z 1) with 1 in L.
  - rewrite (Qabs_neg (inject_Z n - x)) by lra. apply Qabs_le_iff. lra.
  - rewrite (Qabs_pos (inject_Z n - x)) by lra. apply Qabs_le_iff. lra.
Qed.

Lemma roundZ_odd x : roundZ (- x) = (- roundZ x)%Z.
Proof.
  symmetry. apply round_he_unique.
  - rewrite inject_Z_opp. destruct (roundZ_spec x) as [H _].
    assert (E : - inject_Z (roundZ x) - - x == - (inject_Z (roundZ x) - x)) by ring.
    rewrite E, Qabs_opp. exact H.
  - intros H. rewrite inject_Z_opp in H.
    assert (E : - inject_Z (roundZ x) - - x == - (inject_Z (roundZ x) - x)) by ring.
    rewrite E, Qabs_opp in H. rewrite Z.even_opp. apply roundZ_spec, H.
Qed.

Lemma roundZ_shift x n : Z.even n = true -> roundZ (x + inject_Z n) = (roundZ x + n)%Z.
Proof.
  intros En. symmetry. destruct (roundZ_spec x) as [H1 H2].
  assert (E : inject_Z (roundZ x + n) - (x + inject_Z n) == inject_Z (roundZ x) - x)
    by (rewrite inject_Z_plus; ring).
  apply round_he_unique; rewrite E; [exact H1|].
  intros Hh. rewrite Z.even_add, (H2 Hh), En. reflexivity.
Qed.

(** ** Round to zero *)
Lemma sgnZ_cases x : (0 < x /\ sgnZ x = 1%Z) \/ (x < 0 /\ sgnZ x = (-1)%Z) \/ (x == 0 /\ sgnZ x = 0%Z).
Proof. unfold sgnZ. qcase; [left; auto|]. qcase; [right; left; auto|]. right; right; split; [lra|reflexivity]. Qed.

Lemma rtz_cases x :
  (0 <= x /\ round_to_zeroZ x = Qfloor x) \/ (x < 0 /\ round_to_zeroZ x = (- Qfloor (- x))%Z).
Proof.
  unfold round_to_zeroZ, floorZ.
  destruct (sgnZ_cases x) as [[H ->]|[[H ->]|[H ->]]].
  - left. split; [lra|]. rewrite (Qabs_pos x) by lra. lia.
  - right. split; [exact H|]. rewrite (Qabs_neg x) by lra. lia.
  - left. split; [lra|]. rewrite H. reflexivity.
Qed.

Lemma rtz_eq x y : x == y -> round_to_zeroZ x = round_to_zeroZ y.
Proof.
  intros H. destruct (rtz_cases x) as [[Hx ->]|[Hx ->]], (rtz_cases y) as [[Hy ->]|[Hy ->]];
    try (rewrite H; reflexivity); exfalso; lra.
Qed.

Lemma rtz_mono x y : x <= y -> (round_to_zeroZ x <= round_to_zeroZ y)%Z.
Proof.
  intros H. destruct (rtz_cases x) as [[Hx ->]|[Hx ->]], (rtz_cases y) as [[Hy ->]|[Hy ->]].
  - apply Qfloor_mono, H.
  - exfalso; lra.
  - assert (0 <= Qfloor y)%Z by (apply (Qfloor_mono 0 y); lra).
    assert (0 <= Qfloor (- x))%Z by (apply (Qfloor_mono 0 (- x)); lra). lia.
  - assert (Qfloor (- y) <= Qfloor (- x))%Z by (apply Qfloor_mono; lra). lia.
Qed.

Lemma rtz_int n : round_to_zeroZ (inject_Z n) = n.
Proof.
  destruct (rtz_cases (inject_Z n)) as [[H ->]|[H ->]].
  - apply Qfloor_inj.
  - rewrite <- inject_Z_opp, Qfloor_inj. lia.
Qed.

Lemma rtz_rounding : rounding round_to_zeroZ.
Proof. split; [exact rtz_eq|exact rtz_mono|exact rtz_int]. Qed.

Lemma rtz_odd x : round_to_zeroZ (- x) = (- round_to_zeroZ x)%Z.
Proof.
  destruct (rtz_cases x) as [[Hx ->]|[Hx ->]], (rtz_cases (- x)) as [[Hy ->]|[Hy ->]].
  - assert (x == 0) as -> by lra. reflexivity.
  - rewrite (Qfloor_comp _ _ (Qopp_opp x)). lia.
  - lia.
  - exfalso; lra.
Qed.

Lemma rtz_abs x : Qabs (inject_Z (round_to_zeroZ x)) <= Qabs x.
Proof.
  destruct (rtz_cases x) as [[Hx ->]|[Hx ->]].
  - assert (0 <= Qfloor x)%Z by (apply (Qfloor_mono 0 x); lra).
    apply injz_le in H. change (inject_Z 0) with 0 in H.
    rewrite !Qabs_pos by lra. apply Qfloor_lb.
  - assert (0 <= Qfloor (- x))%Z by (apply (Qfloor_mono 0 (- x)); lra).
    apply injz_le in H. change (inject_Z 0) with 0 in H.
    rewrite inject_Z_opp, Qabs_opp, (Qabs_pos (inject_Z _)) by lra.
    rewrite (Qabs_neg x) by lra. apply Qfloor_lb.
Qed.

(** ** DPU rounding *)
Lemma dpu_cases x :
  (x < 0 /\ x - inject_Z (Qfloor x) == 1 # 2 /\ dpu_roundZ x = (Qfloor x + 1)%Z)
  \/ ((0 <= x \/ ~ x - inject_Z (Qfloor x) == 1 # 2) /\ dpu_roundZ x = roundZ x).
Proof.
  unfold dpu_roundZ, floorZ, ceilZ.
  destruct (Qlt_bool x 0) eqn:E1; destruct (Qeq_bool _ _) eqn:E2; simpl.
  - left. apply Qlt_bool_iff in E1. apply Qeq_bool_iff in E2. repeat split; auto.
    apply Qceiling_unique; rewrite inject_Z_plus; change (inject_Z 1) with 1; lra.
  - right. apply Qeq_bool_false in E2. auto.
  - right. apply Qlt_bool_false in E1. auto.
  - right. apply Qlt_bool_false in E1. auto.
Qed.

Lemma dpu_err x : - (1 # 2) <= inject_Z (dpu_roundZ x) - x <= 1 # 2.
Proof.
  destruct (dpu_cases x) as [(H1 & H2 & ->)|(H1 & ->)].
  - rewrite inject_Z_plus. change (inject_Z 1) with 1. lra.
  - apply roundZ_err.
Qed.

Lemma dpu_eq x y : x == y -> dpu_roundZ x = dpu_roundZ y.
Proof.
  intros H. assert (F : Qfloor x = Qfloor y) by (rewrite H; reflexivity).
  destruct (dpu_cases x) as [(H1 & H2 & ->)|(H1 & ->)],
           (dpu_cases y) as [(H3 & H4 & ->)|(H3 & ->)].
  - rewrite F. reflexivity.
  - exfalso. destruct H3 as [H3|H3]; [lra|]. apply H3. rewrite <- F. lra.
  - exfalso. destruct H1 as [H1|H1]; [lra|]. apply H1. rewrite F. lra.
  - apply roundZ_eq, H.
Qed.

Lemma dpu_int n : dpu_roundZ (inject_Z n) = n.
Proof.
  destruct (dpu_cases (inject_Z n)) as [(H1 & H2 & ->)|(H1 & ->)].
  - exfalso. rewrite Qfloor_inj in H2. lra.
  - apply roundZ_int.
Qed.

Lemma dpu_mono x y : x <= y -> (dpu_roundZ x <= dpu_roundZ y)%Z.
Proof.
  intros H. destruct (Z_lt_le_dec (dpu_roundZ y) (dpu_roundZ x)) as [L|L]; [exfalso|exact L].
  pose proof (dpu_err x) as Ex. pose proof (dpu_err y) as Ey.
  assert (Hs : inject_Z (dpu_roundZ y + 1) <= inject_Z (dpu_roundZ x)) by (apply injz_le; lia).
  rewrite inject_Z_plus in Hs. change (inject_Z 1) with 1 in Hs.
  assert (E : x == y) by lra. apply dpu_eq in E. lia.
Qed.

Lemma dpu_rounding : rounding dpu_roundZ.
Proof. split; [exact dpu_eq|exact dpu_mono|exact dpu_int]. Qed.

Lemma dpu_nearest x n : Qabs (inject_Z (dpu_roundZ x) - x) <= Qabs (inject_Z n - x).
Proof.
  destruct (Z.eq_dec n (dpu_roundZ x)) as [->|Hne]; [lra|].
  pose proof (dpu_err x) as H. set (m := dpu_roundZ x) in *.
  assert (n + 1 <= m \/ m + 1 <= n)%Z as [L|L] by lia; apply injz_le in L;
    rewrite inject_Z_plus in L; change (inject_Z 1) with 1 in L.
  - rewrite (Qabs_neg (inject_Z n - x)) by lra. apply Qabs_le_iff. lra.
  - rewrite (Qabs_pos (inject_Z n - x)) by lra. apply Qabs_le_iff. lra.
Qed.

(** ** All modes *)
Lemma mode_rounding m : rounding (float_to_intZ m).
Proof.
  destruct m; simpl;
    [exact round_rounding|exact floor_rounding|exact ceil_rounding|exact rtz_rounding|exact dpu_rounding].
Qed.

#[global] Instance float_to_int_proper m : Proper (Qeq ==> Qeq) (float_to_int m).
Proof.
  intros x y H. unfold float_to_int. rewrite (rnd_eq _ (mode_rounding m) _ _ H). reflexivity.
Qed.

(** ** Clamp *)
Lemma clamp_range x lo hi : lo <= hi -> lo <= tensor_clamp x lo hi <= hi.
Proof. intros H. unfold tensor_clamp. repeat (qcase; cbn zeta); lra. Qed.

Lemma clamp_lo x lo hi : lo <= tensor_clamp x lo hi.
Proof. unfold tensor_clamp. repeat (qcase; cbn zeta); lra. Qed.

Lemma clamp_inside x lo hi : lo <= x <= hi -> tensor_clamp x lo hi = x.
Proof.
  intros H. unfold tensor_clamp. qcase; [exfalso; lra|]. cbn zeta.
  qcase; [exfalso; lra|reflexivity].
Qed.

Lemma clamp_above x lo hi : lo <= hi -> hi < x -> tensor_clamp x lo hi = hi.
Proof.
  intros H H'. unfold tensor_clamp. qcase; [|exfalso; lra]. cbn zeta.
  qcase; [exfalso; lra|reflexivity].
Qed.

Lemma clamp_below x lo hi : lo <= hi -> x < lo -> tensor_clamp x lo hi = lo.
Proof.
  intros H H'. unfold tensor_clamp. qcase; [exfalso; lra|]. cbn zeta.
  qcase; [reflexivity|exfalso; lra].
Qed.

#[global] Instance clamp_proper : Proper (Qeq ==> Qeq ==> Qeq ==> Qeq) tensor_clamp.
Proof.
  intros x x' Hx lo lo' Hl hi hi' Hh. unfold tensor_clamp.
  repeat qcase; lra.
Qed.

Lemma clamp_mono x y lo hi : x <= y -> tensor_clamp x lo hi <= tensor_clamp y lo hi.
Proof. intros H. unfold tensor_clamp. repeat (qcase; cbn zeta); lra. Qed.

Lemma clamp_Z n a b : exists k, tensor_clamp (inject_Z n) (inject_Z a) (inject_Z b) = inject_Z k
   /\ ((a <= b)%Z -> (a <= k <= b)%Z).
Proof.
  unfold tensor_clamp. qcase; cbn zeta.
  - qcase; [exists a|exists b]; split; auto; lia.
  - qcase; [exists a|exists n]; split; auto; [lia|].
    intros _. apply injz_le_inv in Hc, Hc0. lia.
Qed.

Definition clampZ (n a b : Z) : Z :=
  let o := if (b <? n)%Z then b else n in if (o <? a)%Z then a else o.

Lemma Qlt_bool_injz a b : Qlt_bool (inject_Z a) (inject_Z b) = (a <? b)%Z.
Proof.
  qcase; symmetry.
  - apply Z.ltb_lt, injz_lt_inv, Hc.
  - apply Z.ltb_ge, injz_le_inv, Hc.
Qed.

Lemma clamp_injz n a b : tensor_clamp (inject_Z n) (inject_Z a) (inject_Z b) = inject_Z (clampZ n a b).
Proof.
  unfold tensor_clamp, clampZ. rewrite Qlt_bool_injz.
  destruct (b <? n)%Z; cbn zeta; rewrite Qlt_bool_injz; destruct (_ <? a)%Z; reflexivity.
Qed.

Lemma clampZ_spec n a b : (a <= b)%Z ->
  clampZ n a b = Z.max a (Z.min n b).
Proof. intros H. unfold clampZ. destruct (Z.ltb_spec b n); cbn zeta;
  [destruct (Z.ltb_spec b a)|destruct (Z.ltb_spec n a)]; lia. Qed.

(** ** Integer ranges *)
Lemma pow2Z_pos b : (0 <= b)%Z -> (1 <= 2 ^ b)%Z.
Proof. intros H. assert (2 ^ 0 <= 2 ^ b)%Z by (apply Z.pow_le_mono_r; lia). lia. Qed.

Lemma pow2Z_half b : (1 <= b)%Z -> (2 ^ b = 2 * 2 ^ (b - 1))%Z.
Proof. intros H. replace b with (Z.succ (b - 1)) at 1 by lia. apply Z.pow_succ_r. lia. Qed.

Lemma min_max_int s n b : (1 <= b)%Z -> (min_int s n b <= 0 <= max_int s n b)%Z.
Proof.
  intros H. pose proof (pow2Z_pos (b - 1) ltac:(lia)). pose proof (pow2Z_half b H).
  unfold min_int, max_int. destruct s, n; cbn [negb andb]; lia.
Qed.

Lemma min_le_max s n b : (1 <= b)%Z -> (min_int s n b <= max_int s n b)%Z.
Proof. intros H. pose proof (min_max_int s n b H). lia. Qed.
