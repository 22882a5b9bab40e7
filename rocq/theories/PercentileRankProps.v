(** Property C81 for the ranks computed in double precision. *)
From Coq Require Import Reals ZArith Lra Lia.
From Flocq Require Import Core.
From Verif Require Import PercentileRank.
Open Scope R_scope.

Local Instance valid_flt : Valid_exp (FLT_exp (-1074) 53).
Proof. apply FLT_exp_valid. reflexivity. Qed.

Lemma rnd_le x y : x <= y -> rnd x <= rnd y.
Proof. apply round_le; typeclasses eauto. Qed.
Lemma rnd_0 : rnd 0 = 0.
Proof. apply round_0. typeclasses eauto. Qed.

(** Integers below 2^53 and halves below 2^52 are doubles. *)
Lemma fmt_int n : (Z.abs n <= 2 ^ 53)%Z -> generic_format radix2 (FLT_exp (-1074) 53) (IZR n).
Proof.
  intros H. destruct (Z.eq_dec (Z.abs n) (2 ^ 53)) as [E|E].
  - assert (C : n = (2 ^ 53)%Z \/ n = (- 2 ^ 53)%Z) by lia.
    assert (P : generic_format radix2 (FLT_exp (-1074) 53) (IZR (2 ^ 53))).
    { replace (IZR (2 ^ 53)) with (bpow radix2 53) by (rewrite <- (IZR_Zpower radix2) by lia; reflexivity).
      apply generic_format_bpow. unfold FLT_exp. lia. }
    destruct C as [->| ->]; [exact P|]. rewrite opp_IZR. apply generic_format_opp, P.
  - apply generic_format_FLT. exists (Float radix2 n 0); [unfold F2R; cbn; lra|cbn [Fnum]|cbn [Fexp]; lia].
    change (radix_val radix2) with 2%Z. lia.
Qed.
Lemma rnd_int n : (Z.abs n <= 2 ^ 53)%Z -> rnd (IZR n) = IZR n.
Proof. intros H. apply round_generic; [typeclasses eauto|]. apply fmt_int, H. Qed.
Lemma rnd_half n : (0 <= n <= 2 ^ 52 - 1)%Z -> rnd (IZR n + / 2) = IZR n + / 2.
Proof.
  intros H. apply round_generic; [typeclasses eauto|]. apply generic_format_FLT.
  exists (Float radix2 (2 * n + 1) (-1)); [unfold F2R; cbn [Fnum Fexp]|cbn [Fnum]|cbn [Fexp]; lia].
  - change (bpow radix2 (-1)) with (/ 2). rewrite plus_IZR, mult_IZR. lra.
  - change (radix_val radix2) with 2%Z. lia.
Qed.

(** A value pinned by its mantissa and exponent. *)
Lemma rnd_pin x m e : (-1074 <= e)%Z -> bpow radix2 (e + 52) <= x < bpow radix2 (e + 53) ->
  Rabs (x * bpow radix2 (- e) - IZR m) < / 2 -> rnd x = IZR m * bpow radix2 e.
Proof.
  intros He Hx Hm. unfold rnd, round, scaled_mantissa, cexp.
  assert (M : mag radix2 x = (e + 53)%Z :> Z).
  { apply mag_unique. replace (e + 53 - 1)%Z with (e + 52)%Z by lia.
    rewrite Rabs_pos_eq; [exact Hx|]. pose proof (bpow_ge_0 radix2 (e + 52)). lra. }
  rewrite M. assert (E : FLT_exp (-1074) 53 (e + 53) = e) by (unfold FLT_exp; lia). rewrite E.
  unfold F2R. cbn [Fnum Fexp]. rewrite (Znearest_imp _ _ m Hm). reflexivity.
Qed.

Lemma rnd_001 : rnd (/ 100) = 5764607523034235 * bpow radix2 (-59).
Proof.
  apply rnd_pin; [lia| |].
  - change (bpow radix2 (-59 + 52)) with (/ 128). change (bpow radix2 (-59 + 53)) with (/ 64). lra.
  - change (bpow radix2 (- -59)) with 576460752303423488. apply Rabs_lt. lra.
Qed.

(** Rounding error of a value of magnitude at most 2^e. *)
Lemma rnd_err x e : (-1000 <= e)%Z -> Rabs x <= bpow radix2 e -> Rabs (rnd x - x) <= bpow radix2 (e - 53).
Proof.
  intros He Hx. unfold rnd.
  destruct (Req_dec (Rabs x) (bpow radix2 e)) as [E|E].
  - assert (G : generic_format radix2 (FLT_exp (-1074) 53) x).
    { assert (C : x = bpow radix2 e \/ x = - bpow radix2 e).
      { revert E. unfold Rabs. destruct (Rcase_abs x); intros; [right|left]; lra. }
      assert (P : generic_format radix2 (FLT_exp (-1074) 53) (bpow radix2 e)).
      { apply generic_format_bpow. unfold FLT_exp. lia. }
      destruct C as [->| ->]; [exact P|apply generic_format_opp, P]. }
    rewrite round_generic by (try typeclasses eauto; exact G).
    rewrite Rminus_diag_eq by reflexivity. rewrite Rabs_R0. apply bpow_ge_0.
  - destruct (Req_dec x 0) as [Z|Z].
    { subst x. rewrite round_0 by typeclasses eauto. rewrite Rminus_0_r, Rabs_R0. apply bpow_ge_0. }
    apply Rle_trans with (/ 2 * ulp radix2 (FLT_exp (-1074) 53) x).
    { apply error_le_half_ulp. typeclasses eauto. }
    rewrite ulp_neq_0 by exact Z. unfold cexp.
    assert (M : (mag radix2 x <= e)%Z) by (apply mag_le_bpow; [exact Z|lra]).
    assert (L : bpow radix2 (FLT_exp (-1074) 53 (mag radix2 x)) <= bpow radix2 (e - 52 - 1 + 0)).
    { apply bpow_le. unfold FLT_exp. lia. }
    replace (e - 52 - 1 + 0)%Z with (e - 53)%Z in L by lia.
    pose proof (bpow_ge_0 radix2 (FLT_exp (-1074) 53 (mag radix2 x))). lra.
Qed.

(** The same relative to a bound that is a positive integer. *)
Lemma rnd_err_int x n : (1 <= n)%Z -> (n <= 2 ^ 60)%Z -> 0 <= x <= IZR n -> Rabs (rnd x - x) <= IZR n * bpow radix2 (-52).
Proof.
  intros Hn Hn2 Hx.
  destruct (mag radix2 (IZR n)) as [e He]. cbn in He.
  assert (N1 : 1 <= IZR n) by (apply IZR_le in Hn; exact Hn).
  specialize (He ltac:(lra)). rewrite Rabs_pos_eq in He by lra.
  assert (E0 : (0 < e)%Z). { apply (lt_bpow radix2). change (bpow radix2 0) with 1. lra. }
  apply Rle_trans with (bpow radix2 (e - 53)).
  - apply rnd_err; [lia|]. rewrite Rabs_pos_eq by lra. lra.
  - replace (e - 53)%Z with ((e - 1) + (-52))%Z by lia. rewrite bpow_plus.
    apply Rmult_le_compat_r; [apply bpow_ge_0|]. lra.
Qed.

Lemma frac_bounds q n : 0 <= q <= 100 -> (0 <= n <= 2 ^ 53)%Z -> 0 <= frac q n <= IZR n.
Proof.
  intros Hq Hn. unfold frac. rewrite rnd_001.
  change (bpow radix2 (-59)) with (/ 576460752303423488).
  set (c := 5764607523034235 * / 576460752303423488).
  assert (Hc : 0 < c) by (unfold c; lra).
  assert (N0 : 0 <= IZR n) by (apply (IZR_le 0); lia).
  assert (P : 0 <= rnd (c * q) <= 1).
  { split.
    - rewrite <- rnd_0. apply rnd_le. apply Rmult_le_pos; lra.
    - assert (E : rnd (c * 100) = 1).
      { apply Rle_antisym.
        - replace 1 with (4503599627370496 * bpow radix2 (-52)) by (change (bpow radix2 (-52)) with (/ 4503599627370496); lra).
          apply Req_le. apply rnd_pin; [lia| |].
          + change (bpow radix2 (-52 + 52)) with 1. change (bpow radix2 (-52 + 53)) with 2. unfold c. lra.
          + change (bpow radix2 (- -52)) with 4503599627370496. apply Rabs_lt. unfold c. lra.
        - rewrite <- (rnd_int 1) at 1 by lia. apply rnd_le. unfold c. lra. }
      rewrite <- E. apply rnd_le. apply Rmult_le_compat_l; lra. }
  split.
  - rewrite <- rnd_0. apply rnd_le. apply Rmult_le_pos; lra.
  - rewrite <- (rnd_int n) at 2 by lia. apply rnd_le.
    rewrite <- (Rmult_1_l (IZR n)) at 2. apply Rmult_le_compat_r; lra.
Qed.

(** For every percentage and every tensor of fewer than 2^52 elements the rank passed to
    torch.kthvalue is at most the number of elements (it can only be too small: 0). *)
Theorem C81_rank_in_range_double : forall q n, 0 <= q <= 100 -> (0 <= n < 2 ^ 52)%Z ->
  (0 <= rank_high_fl q n <= n)%Z /\ (0 <= rank_low_fl q n <= n)%Z.
Proof.
  intros q n Hq Hn. destruct (frac_bounds q n Hq ltac:(lia)) as [F0 F1].
  unfold rank_high_fl, rank_low_fl. split; split.
  - rewrite <- (Zfloor_IZR 0). apply Zfloor_le.
    rewrite <- rnd_0. apply rnd_le. lra.
  - assert (L : rnd (frac q n + / 2) <= IZR n + / 2).
    { rewrite <- (rnd_half n) by lia. apply rnd_le. lra. }
    apply Z.lt_succ_r. apply lt_IZR. rewrite succ_IZR.
    pose proof (Zfloor_lb (rnd (frac q n + / 2))). lra.
  - rewrite <- (Zceil_IZR 0). apply Zceil_le. exact F0.
  - rewrite <- (Zceil_IZR n) at 2. apply Zceil_le. exact F1.
Qed.

(** The ranks are those of the exact percentage up to the rounding of .01 * q * n. *)
Theorem C81_rank_error_double : forall q n, 0 <= q <= 100 -> (1 <= n < 2 ^ 52)%Z ->
  Rabs (IZR (rank_high_fl q n) - q / 100 * IZR n) <= / 2 + IZR n * bpow radix2 (-49)
  /\ - (IZR n * bpow radix2 (-49)) <= IZR (rank_low_fl q n) - q / 100 * IZR n < 1 + IZR n * bpow radix2 (-49).
Proof.
  intros q n Hq Hn. destruct (frac_bounds q n Hq ltac:(lia)) as [F0 F1].
  assert (N1 : 1 <= IZR n) by (apply (IZR_le 1); lia).
  assert (FE : Rabs (frac q n - q / 100 * IZR n) <= IZR n * (3 * bpow radix2 (-52))).
  { revert F0 F1. unfold frac. rewrite rnd_001. change (bpow radix2 (-59)) with (/ 576460752303423488).
    set (c := 5764607523034235 * / 576460752303423488). intros F0 F1.
    assert (Hc : Rabs (c - / 100) <= bpow radix2 (-60)).
    { change (bpow radix2 (-60)) with (/ 1152921504606846976). apply Rabs_le. unfold c. lra. }
    assert (Hc0 : 0 < c) by (unfold c; lra).
    assert (Pq : 0 <= c * q <= 1 + bpow radix2 (-53)).
    { split; [apply Rmult_le_pos; lra|]. change (bpow radix2 (-53)) with (/ 9007199254740992).
      apply Rle_trans with (c * 100); [apply Rmult_le_compat_l; lra|]. unfold c. lra. }
    assert (E1 : Rabs (rnd (c * q) - c * q) <= bpow radix2 (-52)).
    { replace (-52)%Z with (1 - 53)%Z by lia. apply rnd_err; [lia|].
      rewrite Rabs_pos_eq by lra. change (bpow radix2 1) with 2.
      change (bpow radix2 (-53)) with (/ 9007199254740992) in Pq. lra. }
    assert (E2 : Rabs (rnd (c * q) - q / 100) <= 2 * bpow radix2 (-52)).
    { replace (rnd (c * q) - q / 100) with ((rnd (c * q) - c * q) + (c - / 100) * q) by (field; lra).
      eapply Rle_trans; [apply Rabs_triang|]. rewrite Rabs_mult, (Rabs_pos_eq q) by lra.
      assert (Rabs (c - / 100) * q <= bpow radix2 (-60) * 100).
      { apply Rmult_le_compat; try lra. apply Rabs_pos. }
      change (bpow radix2 (-60)) with (/ 1152921504606846976) in H.
      change (bpow radix2 (-52)) with (/ 4503599627370496) in *. lra. }
    set (p := rnd (c * q)) in *.
    assert (Pp : 0 <= p <= 1).
    { split; [unfold p; rewrite <- rnd_0; apply rnd_le; lra|].
      unfold p. apply Rle_trans with (rnd (c * 100)); [apply rnd_le, Rmult_le_compat_l; lra|].
      apply Req_le. replace 1 with (4503599627370496 * bpow radix2 (-52)) by (change (bpow radix2 (-52)) with (/ 4503599627370496); lra).
      apply rnd_pin; [lia| |].
      + change (bpow radix2 (-52 + 52)) with 1. change (bpow radix2 (-52 + 53)) with 2. unfold c. lra.
      + change (bpow radix2 (- -52)) with 4503599627370496. apply Rabs_lt. unfold c. lra. }
    assert (E3 : Rabs (rnd (p * IZR n) - p * IZR n) <= IZR n * bpow radix2 (-52)).
    { apply rnd_err_int; try lia. split; [apply Rmult_le_pos; lra|].
      rewrite <- (Rmult_1_l (IZR n)) at 2. apply Rmult_le_compat_r; lra. }
    replace (rnd (p * IZR n) - q / 100 * IZR n)
      with ((rnd (p * IZR n) - p * IZR n) + (p - q / 100) * IZR n) by (field; lra).
    eapply Rle_trans; [apply Rabs_triang|]. rewrite (Rabs_mult (p - q / 100)), (Rabs_pos_eq (IZR n)) by lra.
    assert (Rabs (p - q / 100) * IZR n <= 2 * bpow radix2 (-52) * IZR n) by (apply Rmult_le_compat_r; lra).
    lra. }
  unfold rank_high_fl, rank_low_fl. set (f := frac q n) in *. set (t := q / 100 * IZR n) in *.
  assert (B : bpow radix2 (-49) = 8 * bpow radix2 (-52)).
  { change (bpow radix2 (-49)) with (/ 562949953421312). change (bpow radix2 (-52)) with (/ 4503599627370496). lra. }
  set (u := bpow radix2 (-52)) in *. assert (U : 0 < u) by apply bpow_gt_0. rewrite B.
  assert (NU : 0 < IZR n * u) by (apply Rmult_lt_0_compat; lra).
  apply Rabs_le_inv in FE.
  split.
  - assert (E : Rabs (rnd (f + / 2) - (f + / 2)) <= IZR (n + 1) * u).
    { apply rnd_err_int; try lia. rewrite plus_IZR. lra. }
    rewrite plus_IZR in E. apply Rabs_le_inv in E.
    assert (NU1 : (IZR n + 1) * u <= 2 * (IZR n * u)).
    { replace (2 * (IZR n * u)) with ((IZR n + IZR n) * u) by ring. apply Rmult_le_compat_r; lra. }
    pose proof (Zfloor_lb (rnd (f + / 2))). pose proof (Zfloor_ub (rnd (f + / 2))).
    apply Rabs_le. lra.
  - pose proof (Zceil_ub f). pose proof (Zceil_lb f). lra.
Qed.

(** The rounding is visible: for the 7th percentile of 100 elements .01 * 7 * 100 is slightly
    more than 7 in double precision, and the code asks for the 8th smallest element. *)
Theorem C81_low_rank_off_by_one_refuted :
  exists q n, 0 <= q <= 100 /\ (0 < n)%Z /\ q / 100 * IZR n = 7 /\ rank_low_fl q n = 8%Z.
Proof.
  exists 7, 100%Z. split; [lra|]. split; [lia|]. split; [lra|].
  unfold rank_low_fl, frac. rewrite rnd_001.
  assert (E1 : rnd (5764607523034235 * bpow radix2 (-59) * 7) = 5044031582654956 * bpow radix2 (-56)).
  { change (bpow radix2 (-59)) with (/ 576460752303423488). apply rnd_pin; [lia| |].
    - change (bpow radix2 (-56 + 52)) with (/ 16). change (bpow radix2 (-56 + 53)) with (/ 8). lra.
    - change (bpow radix2 (- -56)) with 72057594037927936. apply Rabs_lt. lra. }
  rewrite E1.
  assert (E2 : rnd (5044031582654956 * bpow radix2 (-56) * 100) = 7881299347898369 * bpow radix2 (-50)).
  { change (bpow radix2 (-56)) with (/ 72057594037927936). apply rnd_pin; [lia| |].
    - change (bpow radix2 (-50 + 52)) with 4. change (bpow radix2 (-50 + 53)) with 8. lra.
    - change (bpow radix2 (- -50)) with 1125899906842624. apply Rabs_lt. lra. }
  rewrite E2. change (bpow radix2 (-50)) with (/ 1125899906842624).
  apply Zceil_imp. cbn [Z.sub Z.add Z.opp Z.pos_sub Pos.pred_double Pos.add]. split; lra.
Qed.

Example C81_rank_nontrivial : rank_high_fl 100 1000 = 1000%Z.
Proof.
  unfold rank_high_fl, frac. rewrite rnd_001.
  assert (E1 : rnd (5764607523034235 * bpow radix2 (-59) * 100) = 1).
  { transitivity (4503599627370496 * bpow radix2 (-52)); [|change (bpow radix2 (-52)) with (/ 4503599627370496); lra].
    change (bpow radix2 (-59)) with (/ 576460752303423488). apply rnd_pin; [lia| |].
    - change (bpow radix2 (-52 + 52)) with 1. change (bpow radix2 (-52 + 53)) with 2. lra.
    - change (bpow radix2 (- -52)) with 4503599627370496. apply Rabs_lt. lra. }
  rewrite E1, Rmult_1_l, rnd_int by lia. rewrite rnd_half by lia.
  apply Zfloor_imp. rewrite plus_IZR. lra.
Qed.

Print Assumptions C81_rank_in_range_double.
Print Assumptions C81_rank_error_double.
Print Assumptions C81_low_rank_off_by_one_refuted.
