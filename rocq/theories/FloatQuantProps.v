(** Quantization in floating point: recovery of the integer codes, range and monotonicity
    (C54, C80). *)
From Coq Require Import ZArith Bool Reals Lia Lra Psatz.
From Flocq Require Import Core Relative Mult_error BinarySingleNaN.
From Verif Require Import FloatQuant.
Local Open Scope R_scope.

Section Float.
Variable prec emax : Z.
Context (prec_gt_0_ : Prec_gt_0 prec) (prec_lt_emax_ : Prec_lt_emax prec emax).
Hypothesis Hprec : (4 <= prec)%Z.
Notation float := (binary_float prec emax).
Notation emin := (SpecFloat.emin prec emax).
Notation fexp := (SpecFloat.fexp prec emax).
Notation rnd := (round radix2 fexp ZnearestE).
Local Instance fexp_ok : Valid_exp fexp := FLT_exp_valid emin prec.

Lemma emin_le : (emin <= - prec)%Z.
Proof. unfold SpecFloat.emin. pose proof prec_lt_emax_ as H. red in H. lia. Qed.
Lemma format_frac e m : (e <= prec)%Z -> (Z.abs m < 2 ^ prec)%Z ->
  generic_format radix2 fexp (IZR m * bpow radix2 (- e)).
Proof.
  intros He H. apply generic_format_FLT. apply (FLT_spec _ _ _ _ (Float radix2 m (-e))).
  - unfold F2R. reflexivity.
  - exact H.
  - cbn [Fexp]. pose proof emin_le. lia.
Qed.
Lemma format_int n : (Z.abs n < 2 ^ prec)%Z -> generic_format radix2 fexp (IZR n).
Proof.
  intros H. apply generic_format_FLT. apply (FLT_spec _ _ _ _ (Float radix2 n 0)).
  - unfold F2R. cbn. ring.
  - exact H.
  - cbn [Fexp]. pose proof emin_le. lia.
Qed.

Definition normal (x : R) : Prop := bpow radix2 (2 - emax) <= Rabs x.
Lemma rel_error x : normal x -> Rabs (rnd x - x) <= bpow radix2 (- prec) * Rabs x.
Proof.
  intros H. pose proof (relative_error_N_FLT radix2 emin prec prec_gt_0_ (fun t => negb (Z.even t)) x) as E.
  replace (emin + prec - 1)%Z with (2 - emax)%Z in E by (unfold SpecFloat.emin; ring).
  specialize (E H). eapply Rle_trans; [exact E|]. apply Rmult_le_compat_r; [apply Rabs_pos|].
  rewrite bpow_plus. change (bpow radix2 1) with 2. lra.
Qed.
Lemma u_bounds : 0 < bpow radix2 (- prec) <= / 16.
Proof.
  split; [apply bpow_gt_0|]. change (/ 16) with (/ IZR (Zpower_pos 2 4)).
  change (bpow radix2 (-prec) <= bpow radix2 (-4)). apply bpow_le. lia.
Qed.
Lemma k_u e k : (e <= prec)%Z -> (Z.abs k <= 2 ^ (prec - e))%Z ->
  Rabs (IZR k) * bpow radix2 (- prec) <= bpow radix2 (- e).
Proof.
  intros He H. rewrite <- abs_IZR. apply IZR_le in H.
  rewrite (IZR_Zpower radix2) in H by lia.
  apply Rle_trans with (bpow radix2 (prec - e) * bpow radix2 (- prec)).
  - apply Rmult_le_compat_r; [apply bpow_ge_0|exact H].
  - rewrite <- bpow_plus. replace (prec - e + - prec)%Z with (-e)%Z by ring. lra.
Qed.
Lemma half_normal x : / 2 <= Rabs x -> normal x.
Proof.
  intros H. unfold normal. apply Rle_trans with (2 := H). change (/ 2) with (bpow radix2 (-1)).
  apply bpow_le. pose proof prec_lt_emax_ as P. red in P. lia.
Qed.

(** The quotient of the rounded product. *)
Lemma quotient_error e s k : (3 <= e <= prec)%Z -> normal s -> (Z.abs k <= 2 ^ (prec - e))%Z ->
  Rabs (rnd (rnd (IZR k * s) / s) - IZR k) <= 3 * bpow radix2 (- e).
Proof.
  intros He Hs Hk. pose proof (bpow_gt_0 radix2 (- e)) as E0. assert (S0 : s <> 0).
  { intros ->. unfold normal in Hs. rewrite Rabs_R0 in Hs. pose proof (bpow_gt_0 radix2 (2 - emax)). lra. }
  destruct (Z.eq_dec k 0) as [->|K0].
  { rewrite Rmult_0_l, round_0 by typeclasses eauto. unfold Rdiv. rewrite Rmult_0_l, round_0 by typeclasses eauto.
    replace (0 - IZR 0) with 0 by (cbn; ring). rewrite Rabs_R0. lra. }
  pose proof u_bounds as [U0 U1]. pose proof (k_u e k ltac:(lia) Hk) as KU.
  assert (K1 : 1 <= Rabs (IZR k)).
  { rewrite <- abs_IZR. apply IZR_le. lia. }
  assert (N1 : normal (IZR k * s)).
  { unfold normal in *. rewrite Rabs_mult. apply Rle_trans with (1 := Hs).
    pose proof (Rabs_pos s). nra. }
  pose proof (rel_error _ N1) as E1. set (v := rnd (IZR k * s)) in *.
  assert (E2 : Rabs (v / s - IZR k) <= bpow radix2 (-prec) * Rabs (IZR k)).
  { replace (v / s - IZR k) with ((v - IZR k * s) / s) by (field; exact S0).
    unfold Rdiv. rewrite Rabs_mult, Rabs_inv. rewrite Rabs_mult in E1.
    assert (0 < Rabs s) by (apply Rabs_pos_lt, S0).
    apply (Rmult_le_reg_r (Rabs s)); [assumption|]. rewrite Rmult_assoc, Rinv_l, Rmult_1_r by lra. lra. }
  set (u := bpow radix2 (- prec)) in *.
  assert (B : Rabs (v / s) <= Rabs (IZR k) + u * Rabs (IZR k)).
  { replace (v / s) with (IZR k + (v / s - IZR k)) by ring.
    eapply Rle_trans; [apply Rabs_triang|]. lra. }
  assert (N2 : normal (v / s)).
  { apply half_normal. pose proof (Rabs_triang_inv (IZR k) (IZR k - v / s)) as T.
    replace (IZR k - (IZR k - v / s)) with (v / s) in T by ring.
    rewrite Rabs_minus_sym in E2. nra. }
  pose proof (rel_error _ N2) as E3. fold u in E3.
  replace (rnd (v / s) - IZR k) with ((rnd (v / s) - v / s) + (v / s - IZR k)) by ring.
  eapply Rle_trans; [apply Rabs_triang|].
  assert (u * Rabs (v / s) <= u * (Rabs (IZR k) + u * Rabs (IZR k))) by (apply Rmult_le_compat_l; lra).
  nra.
Qed.

Lemma sum_error e q n z : (3 <= e <= prec)%Z -> (Z.abs n < 2 ^ (prec - e))%Z ->
  Rabs (q - IZR (n - z)) <= 3 * bpow radix2 (- e) ->
  Rabs (rnd (q + IZR z) - IZR n) <= 3 * bpow radix2 (- e).
Proof.
  intros He Hn Hq. pose proof (bpow_gt_0 radix2 (- e)) as E0.
  assert (EE : IZR (2 ^ e) * bpow radix2 (- e) = 1).
  { rewrite (IZR_Zpower radix2) by lia. rewrite <- bpow_plus. replace (e + - e)%Z with 0%Z by ring. reflexivity. }
  assert (E8 : (8 <= 2 ^ e)%Z) by (change 8%Z with (2 ^ 3)%Z; apply Z.pow_le_mono_r; lia). apply Rabs_le_inv in Hq. rewrite minus_IZR in Hq.
  assert (P : (2 ^ prec = 2 ^ e * 2 ^ (prec - e))%Z).
  { rewrite <- Z.pow_add_r by lia. f_equal. ring. }
  assert (H1 : rnd (q + IZR z) <= IZR (2 ^ e * n + 3) * bpow radix2 (- e)).
  { apply round_le_generic; [typeclasses eauto|typeclasses eauto|apply format_frac; nia|].
    rewrite plus_IZR, mult_IZR, Rmult_plus_distr_r.
    replace (IZR (2 ^ e) * IZR n * bpow radix2 (- e)) with (IZR n * (IZR (2 ^ e) * bpow radix2 (- e))) by ring.
    rewrite EE. lra. }
  assert (H2 : IZR (2 ^ e * n - 3) * bpow radix2 (- e) <= rnd (q + IZR z)).
  { apply round_ge_generic; [typeclasses eauto|typeclasses eauto|apply format_frac; nia|].
    rewrite minus_IZR, mult_IZR, Rmult_minus_distr_r.
    replace (IZR (2 ^ e) * IZR n * bpow radix2 (- e)) with (IZR n * (IZR (2 ^ e) * bpow radix2 (- e))) by ring.
    rewrite EE. lra. }
  rewrite plus_IZR, mult_IZR, Rmult_plus_distr_r in H1. rewrite minus_IZR, mult_IZR, Rmult_minus_distr_r in H2.
  replace (IZR (2 ^ e) * IZR n * bpow radix2 (- e)) with (IZR n * (IZR (2 ^ e) * bpow radix2 (- e))) in H1, H2 by ring.
  rewrite EE in H1, H2. apply Rabs_le. lra.
Qed.

(** Values below 2^(prec-1) do not overflow. *)
Lemma small_no_overflow x : Rabs x <= bpow radix2 (prec - 1) -> Rlt_bool (Rabs (rnd x)) (bpow radix2 emax) = true.
Proof.
  intros H. apply Rlt_bool_true. apply Rle_lt_trans with (bpow radix2 (prec - 1)).
  - apply abs_round_le_generic; [typeclasses eauto|typeclasses eauto| |exact H].
    apply generic_format_FLT_bpow; [assumption|]. pose proof emin_le. lia.
  - apply bpow_lt. pose proof prec_lt_emax_ as P. red in P. lia.
Qed.
Lemma pow_pm j : (0 <= prec - j)%Z -> IZR (2 ^ (prec - j)) = bpow radix2 (prec - j).
Proof. intros H. apply (IZR_Zpower radix2). exact H. Qed.
Lemma bpow_small x j : (1 <= j <= prec)%Z -> Rabs x <= bpow radix2 (prec - j) -> Rabs x <= bpow radix2 (prec - 1).
Proof. intros Hj H. eapply Rle_trans; [exact H|]. apply bpow_le. lia. Qed.

Lemma not_finite_overflow (x : float) m s : B2SF x = binary_overflow prec emax m s -> is_finite x = true ->
  m = mode_NE -> False.
Proof. intros H F ->. destruct x, s; cbn in *; discriminate. Qed.

(** [n - z] is computed exactly. *)
Lemma minus_exact (n z : float) N Z0 : is_finite n = true -> is_finite z = true ->
  B2R n = IZR N -> B2R z = IZR Z0 -> (Z.abs (N - Z0) <= 2 ^ (prec - 3))%Z ->
  B2R (Bminus mode_NE n z) = IZR (N - Z0) /\ is_finite (Bminus mode_NE n z) = true.
Proof.
  intros F1 F2 H1 H2 Hk. pose proof (Bminus_correct prec emax _ _ mode_NE n z F1 F2) as C.
  rewrite H1, H2, <- minus_IZR in C. cbn [round_mode] in C.
  assert (G : rnd (IZR (N - Z0)) = IZR (N - Z0)).
  { apply round_generic; [typeclasses eauto|]. apply format_int.
    assert ((2 ^ (prec - 3) < 2 ^ prec)%Z) by (apply Z.pow_lt_mono_r; lia). lia. }
  rewrite small_no_overflow in C.
  - rewrite G in C. tauto.
  - apply (bpow_small _ 3); [lia|]. rewrite <- pow_pm by lia. rewrite <- abs_IZR. apply IZR_le. exact Hk.
Qed.

(** ** The code is recovered exactly. *)
Lemma int_recovers_code e (s zp n : float) N Z0 : (3 <= e <= prec - 1)%Z ->
  is_finite s = true -> is_finite zp = true -> is_finite n = true -> normal (B2R s) ->
  B2R n = IZR N -> B2R zp = IZR Z0 ->
  (Z.abs N < 2 ^ (prec - e))%Z -> (Z.abs (N - Z0) <= 2 ^ (prec - e))%Z ->
  is_finite (fdequant s zp n) = true ->
  B2R (fint s zp (fdequant s zp n)) = IZR N /\ is_finite (fint s zp (fdequant s zp n)) = true /\
  Rabs (B2R (fpre_round s zp (fdequant s zp n)) - IZR N) <= 3 * bpow radix2 (- e).
Proof.
  intros He Fs Fz Fn Hs HN HZ BN BK Fv.
  assert (P3 : (2 ^ (prec - e) <= 2 ^ (prec - 3))%Z) by (apply Z.pow_le_mono_r; lia).
  assert (BK3 : (Z.abs (N - Z0) <= 2 ^ (prec - 3))%Z) by lia.
  assert (BN3 : (Z.abs N < 2 ^ (prec - 3))%Z) by lia.
  assert (E3 : bpow radix2 (- e) <= / 8) by (change (/ 8) with (bpow radix2 (-3)); apply bpow_le; lia).
  destruct (minus_exact n zp N Z0 Fn Fz HN HZ BK3) as [Hk Fk].
  assert (S0 : B2R s <> 0).
  { intros E. rewrite E in Hs. unfold normal in Hs. rewrite Rabs_R0 in Hs. pose proof (bpow_gt_0 radix2 (2 - emax)). lra. }
  unfold fdequant in *. set (k := Bminus mode_NE n zp) in *. set (v := Bmult mode_NE k s) in *.
  pose proof (Bmult_correct prec emax _ _ mode_NE k s) as Cv. fold v in Cv.
  destruct (Rlt_bool _ _) eqn:Ov in Cv.
  2:{ exfalso. eapply not_finite_overflow; [exact Cv|exact Fv|reflexivity]. }
  destruct Cv as (Rv & _). rewrite Hk in Rv. cbn [round_mode] in Rv.
  pose proof (quotient_error e (B2R s) (N - Z0) ltac:(lia) Hs BK) as Q. rewrite <- Rv in Q.
  unfold fint, fpre_round.
  pose proof (Bdiv_correct prec emax _ _ mode_NE v s S0) as Cd.
  assert (NO : Rlt_bool (Rabs (round radix2 fexp (round_mode mode_NE) (B2R v / B2R s))) (bpow radix2 emax) = true).
  { apply Rlt_bool_true. cbn [round_mode]. apply Rle_lt_trans with (Rabs (IZR (N - Z0)) + 3 * bpow radix2 (- e)).
    - replace (rnd (B2R v / B2R s)) with (IZR (N - Z0) + (rnd (B2R v / B2R s) - IZR (N - Z0))) by ring.
      eapply Rle_trans; [apply Rabs_triang|]. lra.
    - rewrite <- abs_IZR. apply IZR_le in BK3. rewrite pow_pm in BK3 by lia.
      assert (B2 : bpow radix2 (prec - 2) = 2 * bpow radix2 (prec - 3)).
      { replace (prec - 2)%Z with (1 + (prec - 3))%Z by ring. rewrite bpow_plus. reflexivity. }
      assert (B3 : 2 <= bpow radix2 (prec - 3)) by (change 2 with (bpow radix2 1); apply bpow_le; lia).
      assert (B4 : bpow radix2 (prec - 2) < bpow radix2 emax)
        by (apply bpow_lt; pose proof prec_lt_emax_ as P; red in P; lia).
      lra. }
  rewrite NO in Cd. destruct Cd as (Rd & Fd & _). cbn [round_mode] in Rd. rewrite Fv in Fd.
  set (d := Bdiv mode_NE v s) in *.
  pose proof (sum_error e (B2R d) N Z0 ltac:(lia) BN ltac:(rewrite Rd; exact Q)) as E.
  pose proof (Bplus_correct prec emax _ _ mode_NE d zp Fd Fz) as Cp. rewrite HZ in Cp. cbn [round_mode] in Cp.
  assert (NO2 : Rlt_bool (Rabs (rnd (B2R d + IZR Z0))) (bpow radix2 emax) = true).
  { apply Rlt_bool_true. apply Rle_lt_trans with (Rabs (IZR N) + 3 * bpow radix2 (- e)).
    - replace (rnd (B2R d + IZR Z0)) with (IZR N + (rnd (B2R d + IZR Z0) - IZR N)) by ring.
      eapply Rle_trans; [apply Rabs_triang|]. lra.
    - rewrite <- abs_IZR. apply Z.lt_le_incl, IZR_le in BN3. rewrite pow_pm in BN3 by lia.
      assert (B2 : bpow radix2 (prec - 2) = 2 * bpow radix2 (prec - 3)).
      { replace (prec - 2)%Z with (1 + (prec - 3))%Z by ring. rewrite bpow_plus. reflexivity. }
      assert (B3 : 2 <= bpow radix2 (prec - 3)) by (change 2 with (bpow radix2 1); apply bpow_le; lia).
      assert (B4 : bpow radix2 (prec - 2) < bpow radix2 emax)
        by (apply bpow_lt; pose proof prec_lt_emax_ as P; red in P; lia).
      lra. }
  rewrite NO2 in Cp. destruct Cp as (Rp & Fp & _).
  destruct (Bnearbyint_correct prec emax _ mode_NE (Bplus mode_NE d zp)) as (Rn & Fi & _).
  split; [|split].
  - rewrite Rn, Rp. cbn [round_mode]. rewrite round_FIX_IZR. f_equal. apply Znearest_imp. lra.
  - rewrite Fi. exact Fp.
  - rewrite Rp. exact E.
Qed.

(** Dividing the stored value by the scale, adding the zero point and rounding gives back the code
    from which the value was computed, whenever the value did not overflow. *)
Theorem C54_int_recovers_code (s zp n : float) N Z0 :
  is_finite s = true -> is_finite zp = true -> is_finite n = true -> normal (B2R s) ->
  B2R n = IZR N -> B2R zp = IZR Z0 ->
  (Z.abs N < 2 ^ (prec - 3))%Z -> (Z.abs (N - Z0) <= 2 ^ (prec - 3))%Z ->
  is_finite (fdequant s zp n) = true ->
  B2R (fint s zp (fdequant s zp n)) = IZR N /\ is_finite (fint s zp (fdequant s zp n)) = true.
Proof.
  intros. destruct (int_recovers_code 3 s zp n N Z0) as (A & B & _); auto. lia.
Qed.

(** Before rounding it is close enough for is_valid: its distance to the code is below 0.2 for
    codes and offsets of at most prec - 4 bits, and below 0.5 for one bit more. *)
Theorem C54_int_within_validity_tolerance (s zp n : float) N Z0 :
  (5 <= prec)%Z ->
  is_finite s = true -> is_finite zp = true -> is_finite n = true -> normal (B2R s) ->
  B2R n = IZR N -> B2R zp = IZR Z0 ->
  is_finite (fdequant s zp n) = true ->
  ((Z.abs N < 2 ^ (prec - 3))%Z -> (Z.abs (N - Z0) <= 2 ^ (prec - 3))%Z ->
   Rabs (B2R (fpre_round s zp (fdequant s zp n)) - IZR N) < 5 / 10) /\
  ((Z.abs N < 2 ^ (prec - 4))%Z -> (Z.abs (N - Z0) <= 2 ^ (prec - 4))%Z ->
   Rabs (B2R (fpre_round s zp (fdequant s zp n)) - IZR N) < 2 / 10).
Proof.
  intros. split; intros.
  - destruct (int_recovers_code 3 s zp n N Z0) as (_ & _ & E); auto; try lia. cbn in E. lra.
  - destruct (int_recovers_code 4 s zp n N Z0) as (_ & _ & E); auto; try lia. cbn in E. lra.
Qed.

(** * Extended reals: infinities as +-2^emax. *)
Definition xr (x : float) : R :=
  match x with
  | B754_infinity s => if s then - bpow radix2 emax else bpow radix2 emax
  | _ => B2R x
  end.
Definition sat (r : R) : R := Rmax (- bpow radix2 emax) (Rmin (bpow radix2 emax) r).
Lemma sat_mono a b : a <= b -> sat a <= sat b.
Proof. intros H. apply Rle_max_compat_l, Rle_min_compat_l, H. Qed.
Lemma sat_id a : Rabs a < bpow radix2 emax -> sat a = a.
Proof.
  intros H. apply Rabs_lt_inv in H. unfold sat. rewrite Rmin_right by lra. apply Rmax_right. lra.
Qed.
Lemma sat_hi a : bpow radix2 emax <= a -> sat a = bpow radix2 emax.
Proof.
  intros H. pose proof (bpow_gt_0 radix2 emax). unfold sat. rewrite Rmin_left by lra. apply Rmax_right. lra.
Qed.
Lemma sat_lo a : a <= - bpow radix2 emax -> sat a = - bpow radix2 emax.
Proof.
  intros H. pose proof (bpow_gt_0 radix2 emax). unfold sat. rewrite Rmin_right by lra. apply Rmax_left. lra.
Qed.
Lemma xr_finite x : is_finite x = true -> xr x = B2R x.
Proof. destruct x; try discriminate; reflexivity. Qed.
Lemma xr_bound x : Rabs (xr x) <= bpow radix2 emax.
Proof.
  pose proof (bpow_gt_0 radix2 emax). destruct x as [b|[]| |b m e Hb]; cbn [xr].
  - cbn. rewrite Rabs_R0. lra.
  - rewrite Rabs_Ropp, Rabs_pos_eq; lra.
  - rewrite Rabs_pos_eq; lra.
  - cbn. rewrite Rabs_R0. lra.
  - apply Rlt_le, (abs_B2R_lt_emax prec emax (B754_finite b m e Hb)).
Qed.

(** [Bltb] is the order of the extended reals. *)
Lemma Bltb_xr x y : is_nan x = false -> is_nan y = false -> Bltb x y = Rlt_bool (xr x) (xr y).
Proof.
  intros Nx Ny. pose proof (bpow_gt_0 radix2 emax) as B.
  destruct (is_finite x) eqn:Fx, (is_finite y) eqn:Fy.
  - rewrite (Bltb_correct prec emax x y Fx Fy), !xr_finite by assumption. reflexivity.
  - pose proof (abs_B2R_lt_emax prec emax x) as L. apply Rabs_lt_inv in L. rewrite (xr_finite x Fx).
    destruct y as [b|[]| |b m e Hb]; try discriminate; cbn [xr].
    + rewrite Rlt_bool_false by lra. destruct x as [c|c| |c m' e' Hb']; try discriminate; reflexivity.
    + rewrite Rlt_bool_true by lra. destruct x as [c|c| |c m' e' Hb']; try discriminate; reflexivity.
  - pose proof (abs_B2R_lt_emax prec emax y) as L. apply Rabs_lt_inv in L. rewrite (xr_finite y Fy).
    destruct x as [b|[]| |b m e Hb]; try discriminate; cbn [xr].
    + rewrite Rlt_bool_true by lra. destruct y as [c|c| |c m' e' Hb']; try discriminate; reflexivity.
    + rewrite Rlt_bool_false by lra. destruct y as [c|c| |c m' e' Hb']; try discriminate; reflexivity.
  - destruct x as [b|[]| |b m e Hb]; try discriminate; destruct y as [c|[]| |c m' e' Hb']; try discriminate; cbn [xr].
    + rewrite Rlt_bool_false by lra. reflexivity.
    + rewrite Rlt_bool_true by lra. reflexivity.
    + rewrite Rlt_bool_false by lra. reflexivity.
    + rewrite Rlt_bool_false by lra. reflexivity.
Qed.

Lemma sign_pos (x : float) : 0 < B2R x -> Bsign x = false.
Proof.
  destruct x as [b|b| |b m e Hb]; cbn; intros H; try lra. destruct b; [|reflexivity]. exfalso.
  pose proof (F2R_lt_0 radix2 (Float radix2 (Z.neg m) e) ltac:(cbn; lia)). cbn [cond_Zopp] in H. cbn in H. 
  change (Z.opp (Z.pos m)) with (Z.neg m) in H. lra.
Qed.
Lemma sign_neg (x : float) : B2R x < 0 -> Bsign x = true.
Proof.
  destruct x as [b|b| |b m e Hb]; cbn; intros H; try lra. destruct b; [reflexivity|]. exfalso.
  pose proof (F2R_gt_0 radix2 (Float radix2 (Z.pos m) e) ltac:(cbn; lia)). cbn [cond_Zopp] in H. lra.
Qed.

Lemma rnd_sign_pos r : bpow radix2 emax <= rnd r -> 0 < r.
Proof.
  intros H. pose proof (bpow_gt_0 radix2 emax). apply Rnot_le_lt. intros C.
  assert (rnd r <= 0) by (rewrite <- (round_0 radix2 fexp ZnearestE); apply round_le; [typeclasses eauto|typeclasses eauto|exact C]).
  lra.
Qed.
Lemma rnd_sign_neg r : rnd r <= - bpow radix2 emax -> r < 0.
Proof.
  intros H. pose proof (bpow_gt_0 radix2 emax). apply Rnot_le_lt. intros C.
  assert (0 <= rnd r) by (rewrite <- (round_0 radix2 fexp ZnearestE); apply round_le; [typeclasses eauto|typeclasses eauto|exact C]).
  lra.
Qed.
Lemma overflow_cases r : Rlt_bool (Rabs (rnd r)) (bpow radix2 emax) = false ->
  bpow radix2 emax <= rnd r \/ rnd r <= - bpow radix2 emax.
Proof.
  intros H. destruct (Rlt_bool_spec (Rabs (rnd r)) (bpow radix2 emax)) as [|L]; [discriminate|].
  unfold Rabs in L. destruct (Rcase_abs (rnd r)); [right|left]; lra.
Qed.

(** Division by a positive scale. *)
Lemma div_xr (x s : float) : is_finite x = true -> is_finite s = true -> 0 < B2R s ->
  xr (Bdiv mode_NE x s) = sat (rnd (B2R x / B2R s)) /\ is_nan (Bdiv mode_NE x s) = false.
Proof.
  intros Fx Fs Hs. pose proof (Bdiv_correct prec emax _ _ mode_NE x s ltac:(lra)) as C. cbn [round_mode] in C.
  destruct (Rlt_bool _ _) eqn:O in C.
  - destruct C as (R1 & F1 & _). rewrite Fx in F1. rewrite xr_finite by exact F1. rewrite R1. split.
    + rewrite sat_id; [reflexivity|]. destruct (Rlt_bool_spec (Rabs (rnd (B2R x / B2R s))) (bpow radix2 emax)); [assumption|discriminate].
    + destruct (Bdiv mode_NE x s); try discriminate; reflexivity.
  - rewrite (sign_pos s Hs) in C. rewrite xorb_false_r in C. apply overflow_cases in O.
    assert (I : 0 < / B2R s) by (apply Rinv_0_lt_compat, Hs).
    destruct O as [O|O].
    + pose proof (rnd_sign_pos _ O) as P. assert (0 < B2R x) by (unfold Rdiv in P; nra).
      rewrite (sign_pos x) in C by assumption. rewrite sat_hi by exact O.
      destruct (Bdiv mode_NE x s) as [b|b| |b m e Hb]; cbn in C; try discriminate C. injection C as ->. split; reflexivity.
    + pose proof (rnd_sign_neg _ O) as P. assert (B2R x < 0) by (unfold Rdiv in P; nra).
      rewrite (sign_neg x) in C by assumption. rewrite sat_lo by exact O.
      destruct (Bdiv mode_NE x s) as [b|b| |b m e Hb]; cbn in C; try discriminate C. injection C as ->. split; reflexivity.
Qed.
Lemma div_inf (x s : float) : is_finite x = false -> is_nan x = false -> is_finite s = true -> 0 < B2R s ->
  xr (Bdiv mode_NE x s) = xr x /\ is_nan (Bdiv mode_NE x s) = false.
Proof.
  intros Fx Nx Fs Hs. pose proof (sign_pos s Hs) as S.
  destruct x as [b|b| |b m e Hb]; try discriminate. destruct s as [c|c| |c m' e' Hb']; try discriminate; cbn in S.
  - cbn in Hs. lra.
  - subst c. cbn. rewrite xorb_false_r. destruct b; split; reflexivity.
Qed.

(** Addition of a finite zero point. *)
Lemma plus_xr (x z : float) : is_finite x = true -> is_finite z = true ->
  xr (Bplus mode_NE x z) = sat (rnd (B2R x + B2R z)) /\ is_nan (Bplus mode_NE x z) = false.
Proof.
  intros Fx Fs. pose proof (Bplus_correct prec emax _ _ mode_NE x z Fx Fs) as C. cbn [round_mode] in C.
  destruct (Rlt_bool _ _) eqn:O in C.
  - destruct C as (R1 & F1 & _). rewrite xr_finite by exact F1. rewrite R1. split.
    + rewrite sat_id; [reflexivity|]. destruct (Rlt_bool_spec (Rabs (rnd (B2R x + B2R z))) (bpow radix2 emax)); [assumption|discriminate].
    + destruct (Bplus mode_NE x z); try discriminate; reflexivity.
  - destruct C as [C Sg]. apply overflow_cases in O. destruct O as [O|O].
    + pose proof (rnd_sign_pos _ O) as P.
      assert (Bsign x = false).
      { destruct (Rlt_or_le 0 (B2R x)) as [L|L]; [apply sign_pos, L|]. rewrite Sg. apply sign_pos. lra. }
      rewrite H in C. rewrite sat_hi by exact O.
      destruct (Bplus mode_NE x z) as [b|b| |b m e Hb]; cbn in C; try discriminate C. injection C as ->. split; reflexivity.
    + pose proof (rnd_sign_neg _ O) as P.
      assert (Bsign x = true).
      { destruct (Rlt_or_le (B2R x) 0) as [L|L]; [apply sign_neg, L|]. rewrite Sg. apply sign_neg. lra. }
      rewrite H in C. rewrite sat_lo by exact O.
      destruct (Bplus mode_NE x z) as [b|b| |b m e Hb]; cbn in C; try discriminate C. injection C as ->. split; reflexivity.
Qed.
Lemma plus_inf (x z : float) : is_finite x = false -> is_nan x = false -> is_finite z = true ->
  Bplus mode_NE x z = x.
Proof.
  intros Fx Nx Fz. destruct x as [b|b| |b m e Hb]; try discriminate. destruct z; try discriminate; reflexivity.
Qed.

(** Rounding to an integer. *)
Lemma near_xr (x : float) : is_nan x = false ->
  is_nan (Bnearbyint mode_NE x) = false /\
  xr (Bnearbyint mode_NE x) = (if is_finite x then IZR (ZnearestE (B2R x)) else xr x).
Proof.
  intros Nx. destruct (Bnearbyint_correct prec emax _ mode_NE x) as (R1 & F1 & _).
  destruct (is_finite x) eqn:Fx.
  - rewrite xr_finite by exact F1. rewrite R1. cbn [round_mode]. rewrite round_FIX_IZR. split; [|reflexivity].
    destruct (Bnearbyint mode_NE x); try discriminate; reflexivity.
  - destruct x; try discriminate. split; reflexivity.
Qed.

Lemma clamp_xr (y lo hi : float) : is_nan y = false -> is_nan lo = false -> is_nan hi = false ->
  xr (fclamp y lo hi) = Rmax (xr lo) (Rmin (xr hi) (xr y)) /\ is_nan (fclamp y lo hi) = false.
Proof.
  intros Ny Nl Nh. unfold fclamp. rewrite (Bltb_xr hi y Nh Ny).
  assert (N1 : is_nan (if Rlt_bool (xr hi) (xr y) then hi else y) = false) by (destruct (Rlt_bool _ _); assumption).
  assert (X1 : xr (if Rlt_bool (xr hi) (xr y) then hi else y) = Rmin (xr hi) (xr y)).
  { destruct (Rlt_bool_spec (xr hi) (xr y)); [rewrite Rmin_left; lra|rewrite Rmin_right; lra]. }
  cbv zeta. rewrite (Bltb_xr _ lo N1 Nl), X1.
  destruct (Rlt_bool_spec (Rmin (xr hi) (xr y)) (xr lo)) as [L|L].
  - split; [|exact Nl]. rewrite Rmax_left; lra.
  - split; [|exact N1]. rewrite X1, Rmax_right; lra.
Qed.

(** ** C80: range *)
Lemma rounded_spec (s zp x : float) : is_finite s = true -> 0 < B2R s -> is_finite zp = true -> is_nan x = false ->
  let y := Bnearbyint mode_NE (Bplus mode_NE (Bdiv mode_NE x s) zp) in
  is_nan y = false /\ (is_finite y = true -> exists n, B2R y = IZR n) .
Proof.
  intros Fs Hs Fz Nx. cbv zeta.
  assert (Nd : is_nan (Bdiv mode_NE x s) = false).
  { destruct (is_finite x) eqn:Fx; [apply div_xr; assumption|apply div_inf; assumption]. }
  assert (Np : is_nan (Bplus mode_NE (Bdiv mode_NE x s) zp) = false).
  { destruct (is_finite (Bdiv mode_NE x s)) eqn:Fd; [apply plus_xr; assumption|].
    rewrite plus_inf by assumption. exact Nd. }
  destruct (near_xr _ Np) as [Nn Xn]. split; [exact Nn|]. intros Fy.
  destruct (Bnearbyint_correct prec emax _ mode_NE (Bplus mode_NE (Bdiv mode_NE x s) zp)) as (R1 & _).
  rewrite R1. cbn [round_mode]. rewrite round_FIX_IZR. eauto.
Qed.

(** For every input other than NaN - including infinities and inputs whose quotient overflows -
    the code is an integer between the two clamping bounds. *)
Theorem C80_float_code_in_range (s zp lo hi x : float) L H :
  is_finite s = true -> 0 < B2R s -> is_finite zp = true -> is_nan x = false ->
  is_finite lo = true -> is_finite hi = true -> B2R lo = IZR L -> B2R hi = IZR H -> (L <= H)%Z ->
  exists n, (L <= n <= H)%Z /\ is_finite (fto_int s zp lo hi x) = true /\ B2R (fto_int s zp lo hi x) = IZR n.
Proof.
  intros Fs Hs Fz Nx Fl Fh HL HH LH. unfold fto_int. cbv zeta.
  destruct (rounded_spec s zp x Fs Hs Fz Nx) as [Ny Iy]. cbv zeta in Ny, Iy.
  set (y := Bnearbyint mode_NE (Bplus mode_NE (Bdiv mode_NE x s) zp)) in *. clearbody y.
  assert (Nl : is_nan lo = false) by (destruct lo; try discriminate; reflexivity).
  assert (Nh : is_nan hi = false) by (destruct hi; try discriminate; reflexivity).
  unfold fclamp. cbv zeta. rewrite (Bltb_xr hi y Nh Ny), (xr_finite hi Fh).
  destruct (Rlt_bool_spec (B2R hi) (xr y)) as [C|C].
  - rewrite (Bltb_xr hi lo Nh Nl), (xr_finite hi Fh), (xr_finite lo Fl), HL, HH.
    rewrite Rlt_bool_false by (apply IZR_le; lia). exists H. rewrite Fh, HH. auto with zarith.
  - rewrite (Bltb_xr y lo Ny Nl), (xr_finite lo Fl).
    destruct (Rlt_bool_spec (xr y) (B2R lo)) as [D|D].
    + exists L. rewrite Fl, HL. auto with zarith.
    + assert (Fy : is_finite y = true).
      { pose proof (abs_B2R_lt_emax prec emax lo) as B1. pose proof (abs_B2R_lt_emax prec emax hi) as B2.
        apply Rabs_lt_inv in B1, B2. destruct y as [b|[]| |b m e Hb]; try reflexivity; try discriminate; cbn [xr] in C, D; lra. }
      destruct (Iy Fy) as [n Hn]. rewrite (xr_finite y Fy), Hn in C, D. rewrite HL in D. rewrite HH in C.
      exists n. rewrite Fy, Hn. split; [split; apply le_IZR; assumption|auto].
Qed.

(** ** Monotonicity *)
Lemma rnd_mono a b : a <= b -> rnd a <= rnd b.
Proof. intros H. apply round_le; [typeclasses eauto|typeclasses eauto|exact H]. Qed.

Lemma div_mono (s x y : float) : is_finite s = true -> 0 < B2R s -> is_nan x = false -> is_nan y = false ->
  xr x <= xr y -> xr (Bdiv mode_NE x s) <= xr (Bdiv mode_NE y s).
Proof.
  intros Fs Hs Nx Ny H. pose proof (xr_bound (Bdiv mode_NE x s)) as Bx. pose proof (xr_bound (Bdiv mode_NE y s)) as By.
  apply Rabs_le_inv in Bx, By. pose proof (abs_B2R_lt_emax prec emax x) as Lx. pose proof (abs_B2R_lt_emax prec emax y) as Ly.
  apply Rabs_lt_inv in Lx, Ly.
  destruct (is_finite x) eqn:Fx, (is_finite y) eqn:Fy.
  - rewrite (proj1 (div_xr x s Fx Fs Hs)), (proj1 (div_xr y s Fy Fs Hs)). apply sat_mono, rnd_mono.
    rewrite !xr_finite in H by assumption. apply Rmult_le_compat_r; [apply Rlt_le, Rinv_0_lt_compat, Hs|exact H].
  - rewrite (proj1 (div_inf y s Fy Ny Fs Hs)). rewrite (xr_finite x Fx) in H.
    destruct y as [b|[]| |b m e Hb]; try discriminate; cbn [xr] in *; lra.
  - rewrite (proj1 (div_inf x s Fx Nx Fs Hs)). rewrite (xr_finite y Fy) in H.
    destruct x as [b|[]| |b m e Hb]; try discriminate; cbn [xr] in *; lra.
  - rewrite (proj1 (div_inf x s Fx Nx Fs Hs)), (proj1 (div_inf y s Fy Ny Fs Hs)). exact H.
Qed.
Lemma plus_mono (z x y : float) : is_finite z = true -> is_nan x = false -> is_nan y = false ->
  xr x <= xr y -> xr (Bplus mode_NE x z) <= xr (Bplus mode_NE y z).
Proof.
  intros Fz Nx Ny H. pose proof (xr_bound (Bplus mode_NE x z)) as Bx. pose proof (xr_bound (Bplus mode_NE y z)) as By.
  apply Rabs_le_inv in Bx, By. pose proof (abs_B2R_lt_emax prec emax x) as Lx. pose proof (abs_B2R_lt_emax prec emax y) as Ly.
  apply Rabs_lt_inv in Lx, Ly.
  destruct (is_finite x) eqn:Fx, (is_finite y) eqn:Fy.
  - rewrite (proj1 (plus_xr x z Fx Fz)), (proj1 (plus_xr y z Fy Fz)). apply sat_mono, rnd_mono.
    rewrite !xr_finite in H by assumption. lra.
  - rewrite (plus_inf y z Fy Ny Fz). rewrite (xr_finite x Fx) in H.
    destruct y as [b|[]| |b m e Hb]; try discriminate; cbn [xr] in *; lra.
  - rewrite (plus_inf x z Fx Nx Fz). rewrite (xr_finite y Fy) in H.
    destruct x as [b|[]| |b m e Hb]; try discriminate; cbn [xr] in *; lra.
  - rewrite (plus_inf x z Fx Nx Fz), (plus_inf y z Fy Ny Fz). exact H.
Qed.
Lemma near_mono (x y : float) : is_nan x = false -> is_nan y = false ->
  xr x <= xr y -> xr (Bnearbyint mode_NE x) <= xr (Bnearbyint mode_NE y).
Proof.
  intros Nx Ny H. pose proof (xr_bound (Bnearbyint mode_NE x)) as Bx. pose proof (xr_bound (Bnearbyint mode_NE y)) as By.
  apply Rabs_le_inv in Bx, By. pose proof (abs_B2R_lt_emax prec emax x) as Lx. pose proof (abs_B2R_lt_emax prec emax y) as Ly.
  apply Rabs_lt_inv in Lx, Ly.
  destruct (near_xr x Nx) as [_ Ex]. destruct (near_xr y Ny) as [_ Ey].
  destruct (is_finite x) eqn:Fx, (is_finite y) eqn:Fy.
  - rewrite Ex, Ey. apply IZR_le. rewrite !xr_finite in H by assumption.
    apply (@Zrnd_le ZnearestE (valid_rnd_N _)), H.
  - rewrite Ey. rewrite (xr_finite x Fx) in H. destruct y as [b|[]| |b m e Hb]; try discriminate; cbn [xr] in *; lra.
  - rewrite Ex. rewrite (xr_finite y Fy) in H. destruct x as [b|[]| |b m e Hb]; try discriminate; cbn [xr] in *; lra.
  - rewrite Ex, Ey. exact H.
Qed.

(** Larger inputs get larger or equal codes, including infinities and overflowing quotients. *)
Theorem C80_float_code_monotone (s zp lo hi x y : float) :
  is_finite s = true -> 0 < B2R s -> is_finite zp = true ->
  is_finite lo = true -> is_finite hi = true -> B2R lo <= B2R hi ->
  Bleb x y = true ->
  is_finite (fto_int s zp lo hi x) = true /\ is_finite (fto_int s zp lo hi y) = true /\
  B2R (fto_int s zp lo hi x) <= B2R (fto_int s zp lo hi y).
Proof.
  intros Fs Hs Fz Fl Fh LH Hxy.
  assert (Nl : is_nan lo = false) by (destruct lo; try discriminate; reflexivity).
  assert (Nh : is_nan hi = false) by (destruct hi; try discriminate; reflexivity).
  assert (Nx : is_nan x = false) by (destruct x as [a|a| |a m e Ha]; try reflexivity; discriminate Hxy).
  assert (Ny : is_nan y = false) by (destruct x as [a|[]| |[] m e Ha], y as [b|[]| |[] m' e' Hb]; try reflexivity; discriminate Hxy).
  assert (Hx : xr x <= xr y).
  { destruct (Rle_or_lt (xr x) (xr y)) as [|C]; [assumption|exfalso].
    pose proof (Bltb_xr y x Ny Nx) as E. rewrite Rlt_bool_true in E by exact C.
    unfold Bltb, Bleb, SpecFloat.SFltb, SpecFloat.SFleb in *.
    change (SpecFloat.SFcompare (B2SF y) (B2SF x)) with (Bcompare y x) in E.
    change (SpecFloat.SFcompare (B2SF x) (B2SF y)) with (Bcompare x y) in Hxy.
    rewrite Bcompare_swap in E. destruct (Bcompare x y) as [[]|]; cbn in E; discriminate. }
  assert (Fin : forall w, is_nan w = false -> is_finite (fto_int s zp lo hi w) = true /\
     xr (fto_int s zp lo hi w) = Rmax (B2R lo) (Rmin (B2R hi) (xr (Bnearbyint mode_NE (Bplus mode_NE (Bdiv mode_NE w s) zp))))).
  { intros w Nw. destruct (rounded_spec s zp w Fs Hs Fz Nw) as [Nr _]. cbv zeta in Nr.
    unfold fto_int. cbv zeta. set (r := Bnearbyint mode_NE (Bplus mode_NE (Bdiv mode_NE w s) zp)) in *. clearbody r.
    destruct (clamp_xr r lo hi Nr Nl Nh) as [E N]. rewrite (xr_finite lo Fl), (xr_finite hi Fh) in E.
    split; [|exact E].
    pose proof (abs_B2R_lt_emax prec emax lo) as B1. pose proof (abs_B2R_lt_emax prec emax hi) as B2.
    apply Rabs_lt_inv in B1, B2.
    assert (B2R lo <= xr (fclamp r lo hi) <= B2R hi).
    { rewrite E. split; [apply Rmax_l|]. apply Rmax_lub; [exact LH|apply Rmin_l]. }
    destruct (fclamp r lo hi) as [b|[]| |b m e Hb]; try reflexivity; try discriminate; cbn [xr] in *; lra. }
  destruct (Fin x Nx) as [F1 E1]. destruct (Fin y Ny) as [F2 E2]. split; [exact F1|]. split; [exact F2|].
  rewrite <- (xr_finite _ F1), <- (xr_finite _ F2), E1, E2.
  assert (Nd : forall w, is_nan w = false -> is_nan (Bdiv mode_NE w s) = false).
  { intros w Nw. destruct (is_finite w) eqn:Fw; [apply div_xr; assumption|apply div_inf; assumption]. }
  assert (Np : forall w, is_nan w = false -> is_nan (Bplus mode_NE (Bdiv mode_NE w s) zp) = false).
  { intros w Nw. destruct (is_finite (Bdiv mode_NE w s)) eqn:Fd; [apply plus_xr; assumption|].
    rewrite plus_inf by auto. auto. }
  apply Rle_max_compat_l, Rle_min_compat_l, near_mono; auto. apply plus_mono; auto. apply div_mono; auto.
Qed.

(** ** Idempotence of the whole quantizer in floating point. *)
Theorem C54_float_requantization_idempotent (s zp lo hi x : float) L H Z0 :
  is_finite s = true -> 0 < B2R s -> normal (B2R s) -> is_finite zp = true -> B2R zp = IZR Z0 ->
  is_finite lo = true -> is_finite hi = true -> B2R lo = IZR L -> B2R hi = IZR H -> (L <= H)%Z ->
  (- 2 ^ (prec - 3) < L)%Z -> (H < 2 ^ (prec - 3))%Z ->
  (- 2 ^ (prec - 3) <= L - Z0)%Z -> (H - Z0 <= 2 ^ (prec - 3))%Z ->
  is_nan x = false -> is_finite (fforward s zp lo hi x) = true ->
  B2R (fto_int s zp lo hi (fforward s zp lo hi x)) = B2R (fto_int s zp lo hi x) /\
  B2R (fforward s zp lo hi (fforward s zp lo hi x)) = B2R (fforward s zp lo hi x).
Proof.
  intros Fs Hs Ns Fz HZ Fl Fh HL HH LH B1 B2 B3 B4 Nx Fv.
  destruct (C80_float_code_in_range s zp lo hi x L H) as (n & Hn & Fn & Rn); auto.
  unfold fforward in *. set (c := fto_int s zp lo hi x) in *.
  destruct (C54_int_recovers_code s zp c n Z0 Fs Fz Fn Ns Rn HZ ltac:(lia) ltac:(lia) Fv) as [E F].
  assert (Nl : is_nan lo = false) by (destruct lo; try discriminate; reflexivity).
  assert (Nh : is_nan hi = false) by (destruct hi; try discriminate; reflexivity).
  assert (G : B2R (fto_int s zp lo hi (fdequant s zp c)) = IZR n /\ is_finite (fto_int s zp lo hi (fdequant s zp c)) = true).
  { unfold fto_int. cbv zeta. change (Bnearbyint mode_NE (Bplus mode_NE (Bdiv mode_NE (fdequant s zp c) s) zp))
      with (fint s zp (fdequant s zp c)). set (y := fint s zp (fdequant s zp c)) in *. clearbody y.
    assert (Ny : is_nan y = false) by (destruct y; try discriminate; reflexivity).
    unfold fclamp. cbv zeta. rewrite (Bltb_xr hi y Nh Ny), !xr_finite, HH, E by assumption.
    rewrite Rlt_bool_false by (apply IZR_le; lia).
    rewrite (Bltb_xr y lo Ny Nl), !xr_finite, HL, E by assumption.
    rewrite Rlt_bool_false by (apply IZR_le; lia). auto. }
  destruct G as [G1 G2]. split; [rewrite G1, Rn; reflexivity|].
  set (c' := fto_int s zp lo hi (fdequant s zp c)) in *. clearbody c'. unfold fdequant in *.
  destruct (minus_exact c zp n Z0 Fn Fz Rn HZ ltac:(lia)) as [K1 K2].
  destruct (minus_exact c' zp n Z0 G2 Fz G1 HZ ltac:(lia)) as [K3 K4].
  pose proof (Bmult_correct prec emax _ _ mode_NE (Bminus mode_NE c zp) s) as M1.
  pose proof (Bmult_correct prec emax _ _ mode_NE (Bminus mode_NE c' zp) s) as M2.
  rewrite K1 in M1. rewrite K3 in M2. destruct (Rlt_bool _ _) in M1, M2.
  - destruct M1 as [-> _]. destruct M2 as [-> _]. reflexivity.
  - exfalso. eapply not_finite_overflow; [exact M1|exact Fv|reflexivity].
Qed.
End Float.

(** * The formats of torch *)

(** The float of an integer. *)
Definition of_Z {p e} {H1 : Prec_gt_0 p} {H2 : Prec_lt_emax p e} (n : Z) : binary_float p e :=
  binary_normalize p e _ _ mode_NE n 0 false.

(** Single precision: codes and offsets up to 2^21. *)
Theorem C54_float32_int_recovers_code (s zp n : float32) N Z0 :
  is_finite s = true -> is_finite zp = true -> is_finite n = true -> bpow radix2 (-126) <= Rabs (B2R s) ->
  B2R n = IZR N -> B2R zp = IZR Z0 -> (Z.abs N < 2097152)%Z -> (Z.abs (N - Z0) <= 2097152)%Z ->
  is_finite (fdequant s zp n) = true -> B2R (fint s zp (fdequant s zp n)) = IZR N.
Proof.
  intros. apply (C54_int_recovers_code 24 128 _ _ ltac:(discriminate) s zp n N Z0); auto.
Qed.
(** Half precision: every 8-bit code with every 8-bit zero point. *)
Theorem C54_float16_int8_recovers_code (s zp n : float16) N Z0 :
  is_finite s = true -> is_finite zp = true -> is_finite n = true -> bpow radix2 (-14) <= Rabs (B2R s) ->
  B2R n = IZR N -> B2R zp = IZR Z0 ->
  (-128 <= N < 128 /\ -128 <= Z0 < 128 \/ 0 <= N < 256 /\ 0 <= Z0 < 256)%Z ->
  is_finite (fdequant s zp n) = true -> B2R (fint s zp (fdequant s zp n)) = IZR N.
Proof.
  intros. apply (C54_int_recovers_code 11 16 _ _ ltac:(discriminate) s zp n N Z0); auto;
    change (2 ^ (11 - 3))%Z with 256%Z; lia.
Qed.

(** A non-trivial instance: scale 0.1f, code 100, zero point 3; the value 9.7 is not 97 * 0.1f exactly. *)
Definition s01 : float32 := binary_normalize 24 128 _ _ mode_NE 13421773 (-27) false.
Example C54_example :
  is_finite s01 = true /\ is_finite (fdequant s01 (of_Z 3) (of_Z 100)) = true /\
  B2SF (fdequant s01 (of_Z 3) (of_Z 100)) = SpecFloat.S754_finite false 10171187 (-20) /\
  B2SF (fint s01 (of_Z 3) (fdequant s01 (of_Z 3) (of_Z 100))) = B2SF (of_Z 100 : float32).
Proof. vm_compute. auto. Qed.
(** Infinities saturate, NaN does not. *)
Example C80_example :
  B2SF (fto_int s01 (of_Z 3) (of_Z (-128)) (of_Z 127) (B754_infinity false)) = B2SF (of_Z 127 : float32) /\
  B2SF (fto_int s01 (of_Z 3) (of_Z (-128)) (of_Z 127) (B754_infinity true)) = B2SF (of_Z (-128) : float32) /\
  B2SF (fto_int s01 (of_Z 3) (of_Z (-128)) (of_Z 127) B754_nan) = SpecFloat.S754_nan.
Proof. vm_compute. auto. Qed.

(** ** bfloat16 *)
(** Unsigned 8-bit codes are not recovered from a bfloat16 tensor although int() divides in single
    precision: with scale 129/128 the value of code 255 is read back as 254.  The distance to the
    nearest integer is below the tolerance of is_valid. *)
Definition bf129 : bfloat16 := binary_normalize 8 128 _ _ mode_NE 129 (-7) false.
Theorem C54_bfloat16_unsigned8_code_lost_refuted :
  exists (s : bfloat16) (n : Z), is_finite s = true /\ (0 <= n <= 255)%Z /\
    is_finite (fdequant s (of_Z 0) (of_Z n)) = true /\
    B2R (of_Z n : bfloat16) = IZR n /\
    B2R (bf16_int s (of_Z 0) (fdequant s (of_Z 0) (of_Z n))) = IZR (n - 1).
Proof.
  exists bf129, 255%Z. split; [reflexivity|]. split; [lia|]. split; [vm_compute; reflexivity|].
  assert (E1 : B2SF (of_Z 255 : bfloat16) = SpecFloat.S754_finite false 255 0) by (vm_compute; reflexivity).
  assert (E2 : B2SF (bf16_int bf129 (of_Z 0) (fdequant bf129 (of_Z 0) (of_Z 255)))
               = SpecFloat.S754_finite false 16646144 (-16)) by (vm_compute; reflexivity).
  rewrite <- !SF2R_B2SF, E1, E2. cbn [SF2R cond_Zopp]. unfold F2R. cbn. split; lra.
Qed.
Lemma to_f32_exact (x : bfloat16) : is_finite x = true -> B2R (to_f32 x) = B2R x /\ is_finite (to_f32 x) = true.
Proof.
  destruct x as [b|b| |b m e Hb]; intros F; try discriminate; [split; reflexivity|].
  set (x := B754_finite b m e Hb : bfloat16).
  change (to_f32 x) with (binary_normalize 24 128 _ _ mode_NE (cond_Zopp b (Zpos m)) e b).
  pose proof (binary_normalize_correct 24 128 _ _ mode_NE (cond_Zopp b (Zpos m)) e b) as C.
  change (F2R (Float radix2 (cond_Zopp b (Zpos m)) e)) with (B2R x) in C. cbn [round_mode] in C.
  assert (G : generic_format radix2 (SpecFloat.fexp 24 128) (B2R x)).
  { apply generic_inclusion_mag with (fexp1 := SpecFloat.fexp 8 128).
    - intros _. unfold SpecFloat.fexp, SpecFloat.emin. lia.
    - apply generic_format_B2R. }
  rewrite round_generic in C by (try exact G; typeclasses eauto).
  rewrite Rlt_bool_true in C by apply abs_B2R_lt_emax. tauto.
Qed.

(** Codes at distance at most 128 from the zero point (all signed 8-bit codes with zero point 0, all
    unsigned ones with zero point 128) are recovered from a bfloat16 tensor: the division in single
    precision adds no visible error to the rounding of the stored value. *)
Theorem C54_bfloat16_int8_recovers_code (s zp n : bfloat16) N Z0 :
  is_finite s = true -> is_finite zp = true -> is_finite n = true -> bpow radix2 (-126) <= Rabs (B2R s) ->
  B2R n = IZR N -> B2R zp = IZR Z0 -> (Z.abs N <= 256)%Z -> (Z.abs (N - Z0) <= 128)%Z ->
  is_finite (fdequant s zp n) = true ->
  B2R (bf16_int s zp (fdequant s zp n)) = IZR N /\ is_finite (bf16_int s zp (fdequant s zp n)) = true.
Proof.
  intros Fs Fz Fn Hs HN HZ BN BK Fv.
  assert (V8 : Valid_exp (SpecFloat.fexp 8 128)) by (apply FLT_exp_valid; reflexivity).
  assert (V24 : Valid_exp (SpecFloat.fexp 24 128)) by (apply FLT_exp_valid; reflexivity).
  assert (S0 : B2R s <> 0).
  { intros E. rewrite E, Rabs_R0 in Hs. pose proof (bpow_gt_0 radix2 (-126)). lra. }
  set (K := (N - Z0)%Z) in *.
  (* n - zp is exact *)
  assert (Mk : B2R (Bminus mode_NE n zp) = IZR K /\ is_finite (Bminus mode_NE n zp) = true).
  { pose proof (Bminus_correct 8 128 _ _ mode_NE n zp Fn Fz) as C. rewrite HN, HZ, <- minus_IZR in C. fold K in C.
    cbn [round_mode] in C.
    assert (G : round radix2 (SpecFloat.fexp 8 128) ZnearestE (IZR K) = IZR K).
    { apply round_generic; [typeclasses eauto|]. apply format_int; [reflexivity|lia|]. change (2 ^ 8)%Z with 256%Z. lia. }
    assert (NO : Rlt_bool (Rabs (round radix2 (SpecFloat.fexp 8 128) ZnearestE (IZR K))) (bpow radix2 128) = true).
    { apply small_no_overflow; try reflexivity; try lia.
      rewrite <- abs_IZR. change (bpow radix2 (8 - 1)) with 128. apply IZR_le. lia. }
    rewrite NO, G in C. tauto. }
  destruct Mk as [Rk Fk]. unfold fdequant in *. set (k := Bminus mode_NE n zp) in *. set (v := Bmult mode_NE k s) in *.
  pose proof (Bmult_correct 8 128 _ _ mode_NE k s) as Cv. fold v in Cv.
  destruct (Rlt_bool _ _) eqn:Ov in Cv.
  2:{ exfalso. eapply not_finite_overflow; [exact Cv|exact Fv|reflexivity]. }
  destruct Cv as (Rv & _). rewrite Rk in Rv. cbn [round_mode] in Rv.
  (* the quotient before rounding *)
  assert (E2 : Rabs (B2R v / B2R s - IZR K) <= 127 / 256).
  { assert (Ps : 0 < Rabs (B2R s)) by (apply Rabs_pos_lt, S0).
    assert (D : (Z.abs K <= 127 \/ Z.abs K = 128)%Z) by lia. destruct D as [D|D].
    - replace (B2R v / B2R s - IZR K) with ((B2R v - IZR K * B2R s) / B2R s) by (field; exact S0).
      unfold Rdiv. rewrite Rabs_mult, Rabs_inv. apply (Rmult_le_reg_r (Rabs (B2R s))); [exact Ps|].
      rewrite Rmult_assoc, Rinv_l, Rmult_1_r by lra.
      destruct (Z.eq_dec K 0) as [K0|K0].
      + rewrite Rv, K0, Rmult_0_l, round_0 by typeclasses eauto. rewrite Rminus_0_r, Rabs_R0. lra.
      + assert (N1 : normal 128 (IZR K * B2R s)).
        { unfold normal. change (2 - 128)%Z with (-126)%Z. rewrite Rabs_mult, <- abs_IZR.
          assert (1 <= IZR (Z.abs K)) by (apply IZR_le; lia). nra. }
        pose proof (rel_error 8 128 _ _ N1) as E1. rewrite <- Rv in E1. eapply Rle_trans; [exact E1|].
        rewrite Rabs_mult, <- abs_IZR. change (bpow radix2 (- (8))) with (/ 256).
        apply IZR_le in D. assert (IZR (Z.abs K) * Rabs (B2R s) <= 127 * Rabs (B2R s)) by (apply Rmult_le_compat_r; lra). lra.
    - assert (X : B2R v = IZR K * B2R s).
      { rewrite Rv. apply round_generic; [typeclasses eauto|].
        assert (G : generic_format radix2 (SpecFloat.fexp 8 128) (B2R s * bpow radix2 7)).
        { apply mult_bpow_pos_exact_FLT; [apply generic_format_B2R|lia]. }
        change (bpow radix2 7) with 128 in G.
        assert (DK : (K = 128 \/ K = -128)%Z) by lia. destruct DK as [-> | ->].
        - rewrite Rmult_comm. exact G.
        - replace (IZR (-128) * B2R s) with (- (B2R s * 128)) by ring. apply generic_format_opp. exact G. }
      rewrite X. replace (IZR K * B2R s / B2R s - IZR K) with 0 by (field; exact S0). rewrite Rabs_R0. lra. }
  destruct (to_f32_exact s Fs) as [Rs' Fs']. destruct (to_f32_exact zp Fz) as [Rz' Fz']. destruct (to_f32_exact v Fv) as [Rv' Fv'].
  unfold bf16_int, fint, fpre_round. set (s' := to_f32 s) in *. set (z' := to_f32 zp) in *. set (v' := to_f32 v) in *.
  assert (AK : Rabs (IZR K) <= 128) by (rewrite <- abs_IZR; apply IZR_le; lia).
  set (q := B2R v / B2R s) in *.
  assert (Aq : Rabs q <= 129).
  { replace q with (IZR K + (q - IZR K)) by ring. eapply Rle_trans; [apply Rabs_triang|]. lra. }
  (* rounding the quotient in single precision moves it by less than 1/1024 *)
  assert (Eq : Rabs (round radix2 (SpecFloat.fexp 24 128) ZnearestE q - q) <= / 1024).
  { destruct (Rle_lt_dec (bpow radix2 (-126)) (Rabs q)) as [Nq|Nq].
    - pose proof (rel_error 24 128 _ q Nq) as E. eapply Rle_trans; [exact E|].
      change (bpow radix2 (- (24))) with (/ 16777216). lra.
    - assert (Bq : Rabs (round radix2 (SpecFloat.fexp 24 128) ZnearestE q) <= bpow radix2 (-126)).
      { apply abs_round_le_generic; [typeclasses eauto|typeclasses eauto| |lra].
        apply generic_format_FLT_bpow; [reflexivity|]. vm_compute. discriminate. }
      assert (T : bpow radix2 (-126) <= / 2048) by (change (/ 2048) with (bpow radix2 (-11)); apply bpow_le; lia).
      unfold Rminus. eapply Rle_trans; [apply Rabs_triang|]. rewrite Rabs_Ropp. lra. }
  assert (S0' : B2R s' <> 0) by (rewrite Rs'; exact S0).
  pose proof (Bdiv_correct 24 128 _ _ mode_NE v' s' S0') as Cd. rewrite Rs', Rv' in Cd. fold q in Cd. cbn [round_mode] in Cd.
  assert (SO : forall y, Rabs y <= 1024 -> Rlt_bool (Rabs (round radix2 (SpecFloat.fexp 24 128) ZnearestE y)) (bpow radix2 128) = true).
  { intros y Hy. apply small_no_overflow; try reflexivity; try lia. eapply Rle_trans; [exact Hy|].
    change 1024 with (bpow radix2 10). apply bpow_le. lia. }
  rewrite SO in Cd by lra. destruct Cd as (Rd & Fd & _). rewrite Fv' in Fd. set (d := Bdiv mode_NE v' s') in *.
  assert (AZ : Rabs (IZR Z0) <= 384) by (rewrite <- abs_IZR; apply IZR_le; lia).
  assert (Ad : Rabs (B2R d) <= 130).
  { rewrite Rd. replace (round radix2 (SpecFloat.fexp 24 128) ZnearestE q) with ((round radix2 (SpecFloat.fexp 24 128) ZnearestE q - q) + q) by ring.
    eapply Rle_trans; [apply Rabs_triang|]. lra. }
  set (t := B2R d + IZR Z0).
  assert (At : Rabs t <= 514) by (unfold t; eapply Rle_trans; [apply Rabs_triang|]; lra).
  assert (Et : Rabs (round radix2 (SpecFloat.fexp 24 128) ZnearestE t - t) <= / 1024).
  { destruct (Rle_lt_dec (bpow radix2 (-126)) (Rabs t)) as [Nq|Nq].
    - pose proof (rel_error 24 128 _ t Nq) as E. eapply Rle_trans; [exact E|].
      change (bpow radix2 (- (24))) with (/ 16777216). lra.
    - assert (Bq : Rabs (round radix2 (SpecFloat.fexp 24 128) ZnearestE t) <= bpow radix2 (-126)).
      { apply abs_round_le_generic; [typeclasses eauto|typeclasses eauto| |lra].
        apply generic_format_FLT_bpow; [reflexivity|]. vm_compute. discriminate. }
      assert (T : bpow radix2 (-126) <= / 2048) by (change (/ 2048) with (bpow radix2 (-11)); apply bpow_le; lia).
      unfold Rminus. eapply Rle_trans; [apply Rabs_triang|]. rewrite Rabs_Ropp. lra. }
  pose proof (Bplus_correct 24 128 _ _ mode_NE d z' Fd Fz') as Cp. rewrite Rz', HZ in Cp. fold t in Cp. cbn [round_mode] in Cp.
  rewrite SO in Cp by lra. destruct Cp as (Rp & Fp & _).
  destruct (Bnearbyint_correct 24 128 _ mode_NE (Bplus mode_NE d z')) as (Rn & Fi & _).
  split; [|rewrite Fi; exact Fp].
  rewrite Rn, Rp. cbn [round_mode]. rewrite round_FIX_IZR. f_equal. apply Znearest_imp.
  assert (EK : IZR K = IZR N - IZR Z0) by (unfold K; apply minus_IZR).
  rewrite <- Rd in Eq. apply Rabs_le_inv in Eq, Et, E2. fold q in E2. unfold t in Et. apply Rabs_lt. unfold t. lra.
Qed.
Example C54_bfloat16_example :
  is_finite (fdequant bf129 (of_Z 0) (of_Z 127)) = true /\
  B2SF (fdequant bf129 (of_Z 0) (of_Z 127)) = SpecFloat.S754_finite false 128 0 /\
  B2SF (bf16_int bf129 (of_Z 0) (fdequant bf129 (of_Z 0) (of_Z 127))) = B2SF (of_Z 127 : float32).
Proof. vm_compute. auto. Qed.

(** Quantizing twice in bfloat16 is not idempotent, even for signed 8-bit codes: with scale 1.5 the
    saturated input 300 becomes 190 and then 189. *)
Definition bf15 : bfloat16 := binary_normalize 8 128 _ _ mode_NE 3 (-1) false.
Theorem C54_bfloat16_requantization_moves_refuted :
  exists (s x : bfloat16), is_finite s = true /\ is_finite x = true /\
    let c := fto_int s (of_Z 0) (of_Z (-128)) (of_Z 127) in
    let q := fforward s (of_Z 0) (of_Z (-128)) (of_Z 127) in
    B2R (c x) = 127 /\ B2R (c (q x)) = 126 /\ B2R (q x) = 190 /\ B2R (q (q x)) = 189.
Proof.
  exists bf15, (of_Z 300). split; [reflexivity|]. split; [vm_compute; reflexivity|]. cbv zeta.
  set (c := fto_int bf15 (of_Z 0) (of_Z (-128)) (of_Z 127)).
  set (q := fforward bf15 (of_Z 0) (of_Z (-128)) (of_Z 127)).
  assert (E1 : B2SF (c (of_Z 300)) = SpecFloat.S754_finite false 254 (-1)) by (vm_compute; reflexivity).
  assert (E2 : B2SF (c (q (of_Z 300))) = SpecFloat.S754_finite false 252 (-1)) by (vm_compute; reflexivity).
  assert (E3 : B2SF (q (of_Z 300)) = SpecFloat.S754_finite false 190 0) by (vm_compute; reflexivity).
  assert (E4 : B2SF (q (q (of_Z 300))) = SpecFloat.S754_finite false 189 0) by (vm_compute; reflexivity).
  rewrite <- !SF2R_B2SF, E1, E2, E3, E4. cbn [SF2R cond_Zopp]. unfold F2R. cbn. repeat split; lra.
Qed.

(** ** 32-bit integers in single precision *)
(** max_int (function/ops.py L152-158) for signed 32-bit quantizers, as used by the Int32 bias
    quantizers, is computed in single precision as 2^31 - 1 = 2^31: the clamp lets the code 2^31
    through, which is not a 32-bit integer. *)
Definition fmax_int32 : float32 :=
  Bminus mode_NE (binary_normalize 24 128 _ _ mode_NE 1 31 false) (of_Z 1).
Theorem C80_int32_code_escapes_refuted :
  exists s x : float32, is_finite s = true /\ is_finite x = true /\ 0 < B2R s /\
    B2R (fto_int s (of_Z 0) (of_Z (- 2 ^ 31)) fmax_int32 x) = IZR (2 ^ 31).
Proof.
  exists (of_Z 1), (of_Z (2 ^ 40)).
  assert (E0 : B2SF (of_Z 1 : float32) = SpecFloat.S754_finite false 8388608 (-23)) by (vm_compute; reflexivity).
  assert (E1 : B2SF (fto_int (of_Z 1) (of_Z 0) (of_Z (- 2 ^ 31)) fmax_int32 (of_Z (2 ^ 40)))
               = SpecFloat.S754_finite false 8388608 8) by (vm_compute; reflexivity).
  rewrite <- !SF2R_B2SF, E0, E1. split; [vm_compute; reflexivity|]. split; [vm_compute; reflexivity|].
  cbn [SF2R cond_Zopp]. unfold F2R. cbn. split; lra.
Qed.

Print Assumptions C54_int_recovers_code.
Print Assumptions C54_int_within_validity_tolerance.
Print Assumptions C54_float_requantization_idempotent.
Print Assumptions C80_float_code_in_range.
Print Assumptions C80_float_code_monotone.
Print Assumptions C54_bfloat16_int8_recovers_code.
Print Assumptions C54_bfloat16_unsigned8_code_lost_refuted.
Print Assumptions C54_bfloat16_requantization_moves_refuted.
Print Assumptions C80_int32_code_escapes_refuted.
