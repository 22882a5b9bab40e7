(** Statistics-based scaling in floating point (C100). *)
From Coq Require Import ZArith Bool Reals List Lia Lra Psatz.
From Flocq Require Import Core Relative BinarySingleNaN.
From Verif Require Import FloatQuant FloatQuantProps FloatScaling.
Import ListNotations.
Local Open Scope R_scope.

Section Float.
Variable prec emax : Z.
Context (prec_gt_0_ : Prec_gt_0 prec) (prec_lt_emax_ : Prec_lt_emax prec emax).
Hypothesis Hprec : (8 <= prec)%Z.
Notation float := (binary_float prec emax).
Notation emin := (SpecFloat.emin prec emax).
Notation fexp := (SpecFloat.fexp prec emax).
Notation rnd := (round radix2 fexp ZnearestE).
Notation u := (bpow radix2 (- prec)).
Notation normal := (normal emax).
Local Instance fexp_ok' : Valid_exp fexp := FLT_exp_valid emin prec.
Let Hprec4 : (4 <= prec)%Z. Proof. lia. Qed.

Lemma u_small : 0 < u <= / 256.
Proof.
  split; [apply bpow_gt_0|]. change (/ 256) with (/ IZR (Zpower_pos 2 8)).
  change (bpow radix2 (-prec) <= bpow radix2 (-8)). apply bpow_le. lia.
Qed.

(** ** Reductions *)
Lemma fin_not_nan (x : float) : is_finite x = true -> is_nan x = false.
Proof. destruct x; try discriminate; reflexivity. Qed.
Lemma fmax2_fin (a b : float) : is_finite a = true -> is_finite b = true ->
  is_finite (fmax2 a b) = true /\ B2R (fmax2 a b) = Rmax (B2R a) (B2R b).
Proof.
  intros Fa Fb. unfold fmax2. rewrite (fin_not_nan a Fa), (fin_not_nan b Fb), (Bltb_correct _ _ a b Fa Fb).
  destruct (Rlt_bool_spec (B2R a) (B2R b)); split; try assumption; symmetry; [apply Rmax_right|apply Rmax_left]; lra.
Qed.
Lemma fmin2_fin (a b : float) : is_finite a = true -> is_finite b = true ->
  is_finite (fmin2 a b) = true /\ B2R (fmin2 a b) = Rmin (B2R a) (B2R b).
Proof.
  intros Fa Fb. unfold fmin2. rewrite (fin_not_nan a Fa), (fin_not_nan b Fb), (Bltb_correct _ _ b a Fb Fa).
  destruct (Rlt_bool_spec (B2R b) (B2R a)); split; try assumption; symmetry; [apply Rmin_right|apply Rmin_left]; lra.
Qed.
Lemma freduce_max_spec (l : list float) m : Forall (fun x => is_finite x = true) l -> freduce_max l = Some m ->
  is_finite m = true /\ (forall x, In x l -> B2R x <= B2R m) /\ In m l.
Proof.
  destruct l as [|x xs]; [discriminate|]. intros F H. injection H as <-.
  assert (G : forall (xs : list float) (a : float), is_finite a = true -> Forall (fun x => is_finite x = true) xs ->
    let m := fold_left fmax2 xs a in is_finite m = true /\ B2R a <= B2R m /\ (forall x, In x xs -> B2R x <= B2R m) /\ (m = a \/ In m xs)).
  { clear. intros l. induction l as [|y ys IH]; intros a Fa Fs; cbn [fold_left].
    - cbv zeta. split; [exact Fa|]. split; [apply Rle_refl|]. split; [intros ? []|left; reflexivity].
    - destruct (fmax2_fin a y Fa (Forall_inv Fs)) as [F1 R1].
      destruct (IH (fmax2 a y) F1 (Forall_inv_tail Fs)) as (A & B & C & D). cbv zeta. rewrite R1 in B.
      pose proof (Rmax_l (B2R a) (B2R y)). pose proof (Rmax_r (B2R a) (B2R y)).
      split; [exact A|]. split; [lra|]. split; [intros z [<-|Hz]; [lra|exact (C z Hz)]|].
      destruct D as [D|D]; [|right; right; exact D]. rewrite D. unfold fmax2.
      destruct (is_nan a); [left; reflexivity|]. destruct (is_nan y); [right; left; reflexivity|].
      destruct (Bltb a y); [right; left|left]; reflexivity. }
  destruct (G xs x (Forall_inv F) (Forall_inv_tail F)) as (A & B & C & D).
  split; [exact A|]. split; [intros z [<-|Hz]; auto|]. destruct D as [->|D]; [left; reflexivity|right; exact D].
Qed.
Lemma freduce_min_spec (l : list float) m : Forall (fun x => is_finite x = true) l -> freduce_min l = Some m ->
  is_finite m = true /\ (forall x, In x l -> B2R m <= B2R x) /\ In m l.
Proof.
  destruct l as [|x xs]; [discriminate|]. intros F H. injection H as <-.
  assert (G : forall (xs : list float) (a : float), is_finite a = true -> Forall (fun x => is_finite x = true) xs ->
    let m := fold_left fmin2 xs a in is_finite m = true /\ B2R m <= B2R a /\ (forall x, In x xs -> B2R m <= B2R x) /\ (m = a \/ In m xs)).
  { clear. intros l. induction l as [|y ys IH]; intros a Fa Fs; cbn [fold_left].
    - cbv zeta. split; [exact Fa|]. split; [apply Rle_refl|]. split; [intros ? []|left; reflexivity].
    - destruct (fmin2_fin a y Fa (Forall_inv Fs)) as [F1 R1].
      destruct (IH (fmin2 a y) F1 (Forall_inv_tail Fs)) as (A & B & C & D). cbv zeta. rewrite R1 in B.
      pose proof (Rmin_l (B2R a) (B2R y)). pose proof (Rmin_r (B2R a) (B2R y)).
      split; [exact A|]. split; [lra|]. split; [intros z [<-|Hz]; [lra|exact (C z Hz)]|].
      destruct D as [D|D]; [|right; right; exact D]. rewrite D. unfold fmin2.
      destruct (is_nan a); [left; reflexivity|]. destruct (is_nan y); [right; left; reflexivity|].
      destruct (Bltb y a); [right; left|left]; reflexivity. }
  destruct (G xs x (Forall_inv F) (Forall_inv_tail F)) as (A & B & C & D).
  split; [exact A|]. split; [intros z [<-|Hz]; auto|]. destruct D as [->|D]; [left; reflexivity|right; exact D].
Qed.

(** ** Rounding errors *)
Lemma err_bound B x : 1 <= B -> Rabs x <= B -> Rabs (rnd x - x) <= u * B.
Proof.
  intros HB Hx. pose proof u_small as [U0 U1].
  destruct (Rle_or_lt (bpow radix2 (2 - emax)) (Rabs x)) as [N|N].
  - eapply Rle_trans; [exact (rel_error prec emax _ x N)|]. apply Rmult_le_compat_l; lra.
  - pose proof (error_le_half_ulp radix2 fexp (fun t => negb (Z.even t)) x) as E.
    change fexp with (FLT_exp emin prec) in E. rewrite ulp_FLT_small in E; [|assumption|].
    + change fexp with (FLT_exp emin prec). eapply Rle_trans; [exact E|].
      assert (bpow radix2 emin <= u) by (apply bpow_le; apply emin_le; assumption).
      pose proof (bpow_gt_0 radix2 emin). nra.
    + eapply Rlt_le_trans; [exact N|]. apply bpow_le. unfold SpecFloat.emin. lia.
Qed.
Lemma of_Z_spec n : (Z.abs n < 2 ^ prec)%Z -> is_finite (of_Z (prec:=prec) (emax:=emax) n) = true /\ B2R (of_Z (prec:=prec) (emax:=emax) n) = IZR n.
Proof.
  intros H. unfold of_Z. pose proof (binary_normalize_correct prec emax _ _ mode_NE n 0 false) as C. cbv zeta in C. cbn [round_mode] in C.
  replace (F2R {| Fnum := n; Fexp := 0 |}) with (IZR n) in C by (unfold F2R; cbn; ring).
  rewrite (round_generic radix2 fexp ZnearestE (IZR n)) in C by (apply format_int; assumption).
  rewrite Rlt_bool_true in C; [tauto|]. rewrite <- abs_IZR. apply Rlt_le_trans with (IZR (2 ^ prec)); [apply IZR_lt; exact H|].
  rewrite (IZR_Zpower radix2) by lia. apply bpow_le. pose proof prec_lt_emax_ as P. red in P. lia.
Qed.

(** The code of one element. *)
Lemma fin_of_xr (y : float) : is_nan y = false -> Rabs (xr prec emax y) < bpow radix2 emax -> is_finite y = true /\ B2R y = xr prec emax y.
Proof.
  intros N H. destruct y as [b|[]| |b m e Hb]; try discriminate; cbn [xr] in *; try (split; reflexivity).
  - rewrite Rabs_Ropp, Rabs_pos_eq in H by apply bpow_ge_0. lra.
  - rewrite Rabs_pos_eq in H by apply bpow_ge_0. lra.
Qed.
Lemma small_round B x : 0 <= B -> Rabs x <= B -> B <= bpow radix2 (prec - 1) -> Rabs (rnd x) < bpow radix2 emax.
Proof.
  intros B0 H1 H2. pose proof (small_no_overflow prec emax _ _ Hprec4 x ltac:(lra)) as E.
  destruct (Rlt_bool_spec (Rabs (rnd x)) (bpow radix2 emax)); [assumption|discriminate].
Qed.
Lemma prec1_le (k : Z) : (0 <= k)%Z -> (k <= prec - 1)%Z -> bpow radix2 k <= bpow radix2 (prec - 1).
Proof. intros. apply bpow_le. assumption. Qed.

Lemma to_int_spec (s z lo hi x : float) Z0 L H B :
  is_finite s = true -> 0 < B2R s -> is_finite z = true -> B2R z = IZR Z0 -> is_finite x = true ->
  is_finite lo = true -> is_finite hi = true -> B2R lo = IZR L -> B2R hi = IZR H ->
  1 <= B -> B <= bpow radix2 (prec - 2) ->
  Rabs (B2R x / B2R s) <= B -> Rabs (B2R x / B2R s + IZR Z0) <= B ->
  exists n, Rabs (IZR n - (B2R x / B2R s + IZR Z0)) <= / 2 + (if Z.eq_dec Z0 0 then u * B else u * B + u * (B + u * B))
    /\ is_finite (fto_int s z lo hi x) = true
    /\ B2R (fto_int s z lo hi x) = Rmax (IZR L) (Rmin (IZR H) (IZR n)).
Proof.
  intros Fs Hs Fz Ez Fx Fl Fh El Eh B1 B2 Q1 Q2. pose proof u_small as [U0 U1].
  set (q := B2R x / B2R s) in *.
  assert (BB : bpow radix2 (prec - 1) = 2 * bpow radix2 (prec - 2)).
  { replace (prec - 1)%Z with (1 + (prec - 2))%Z by ring. rewrite bpow_plus. reflexivity. }
  destruct (div_xr prec emax _ _ x s Fx Fs Hs) as [Xd Nd]. fold q in Xd.
  assert (Sq : Rabs (rnd q) < bpow radix2 emax) by (apply (small_round B); lra).
  rewrite (sat_id emax _ Sq) in Xd.
  destruct (fin_of_xr _ Nd) as [Fd Rd]; [rewrite Xd; exact Sq|]. rewrite Xd in Rd.
  pose proof (err_bound B q B1 Q1) as E1.
  assert (Q3 : Rabs (rnd q + IZR Z0) <= B + u * B).
  { replace (rnd q + IZR Z0) with ((q + IZR Z0) + (rnd q - q)) by ring. eapply Rle_trans; [apply Rabs_triang|]. lra. }
  assert (Bu : 0 <= u * B <= B / 256) by nra.
  destruct (plus_xr prec emax _ _ _ z Fd Fz) as [Xp Np]. rewrite Rd, Ez in Xp.
  assert (Sp : Rabs (rnd (rnd q + IZR Z0)) < bpow radix2 emax) by (apply (small_round (B + u * B)); lra).
  rewrite (sat_id emax _ Sp) in Xp.
  destruct (fin_of_xr _ Np) as [Fp Rp]; [rewrite Xp; exact Sp|]. rewrite Xp in Rp.
  pose proof (err_bound (B + u * B) _ ltac:(lra) Q3) as E2.
  destruct (near_xr prec emax _ _ Np) as [Nn Xn]. rewrite Fp, Rp in Xn.
  set (n := ZnearestE (rnd (rnd q + IZR Z0))) in *.
  exists n. split.
  - pose proof (Znearest_half (fun t => negb (Z.even t)) (rnd (rnd q + IZR Z0))) as E3. fold n in E3.
    apply Rabs_le_inv in E1, E2, E3. apply Rabs_le. destruct (Z.eq_dec Z0 0) as [Zz|Zn]; [|lra].
    assert (E4 : rnd (rnd q + IZR Z0) = rnd q).
    { rewrite Zz, Rplus_0_r. apply round_generic; [typeclasses eauto|]. apply generic_format_round; typeclasses eauto. }
    rewrite E4 in E3. rewrite Zz. lra.
  - unfold fto_int. cbv zeta.
    destruct (clamp_xr prec emax _ lo hi Nn (fin_not_nan _ Fl) (fin_not_nan _ Fh)) as [Xc Nc].
    rewrite Xn, (xr_finite _ _ lo Fl), (xr_finite _ _ hi Fh), El, Eh in Xc.
    destruct (fin_of_xr _ Nc) as [Fc Rc].
    + rewrite Xc. pose proof (abs_B2R_lt_emax prec emax lo) as A1. pose proof (abs_B2R_lt_emax prec emax hi) as A2.
      rewrite El in A1. rewrite Eh in A2. apply Rabs_lt_inv in A1, A2.
      destruct (near_xr prec emax _ _ Np) as [_ Xn2]. rewrite Fp, Rp in Xn2. fold n in Xn2.
      pose proof (xr_bound prec emax (Bnearbyint mode_NE (Bplus mode_NE (Bdiv mode_NE x s) z))) as A3. rewrite Xn2 in A3. apply Rabs_le_inv in A3.
      assert (An : - bpow radix2 emax < Rmin (IZR H) (IZR n)).
      { assert (is_finite (Bnearbyint mode_NE (Bplus mode_NE (Bdiv mode_NE x s) z)) = true).
        { destruct (Bnearbyint_correct prec emax _ mode_NE (Bplus mode_NE (Bdiv mode_NE x s) z)) as (_ & F1 & _). rewrite F1. exact Fp. }
        pose proof (abs_B2R_lt_emax prec emax (Bnearbyint mode_NE (Bplus mode_NE (Bdiv mode_NE x s) z))) as A4.
        rewrite <- (xr_finite prec emax _ H0), Xn2 in A4. apply Rabs_lt_inv in A4. apply Rmin_glb_lt; lra. }
      pose proof (Rmin_l (IZR H) (IZR n)). apply Rabs_lt.
      split; [apply Rlt_le_trans with (2 := Rmax_r _ _); exact An|apply Rmax_lub_lt; lra].
    + rewrite Xc in Rc. split; [exact Fc|exact Rc].
Qed.

Lemma dequant_spec (s z c : float) C Z0 : is_finite s = true -> normal (B2R s) -> 0 < B2R s ->
  is_finite z = true -> B2R z = IZR Z0 -> is_finite c = true -> B2R c = IZR C ->
  (Z.abs (C - Z0) <= 2 ^ (prec - 3))%Z -> Rabs (IZR (C - Z0)) * B2R s <= bpow radix2 (emax - 1) ->
  is_finite (fdequant s z c) = true /\ B2R (fdequant s z c) = rnd (IZR (C - Z0) * B2R s)
  /\ Rabs (B2R (fdequant s z c) - IZR (C - Z0) * B2R s) <= u * Rabs (IZR (C - Z0)) * B2R s.
Proof.
  intros Fs Ns Hs Fz Ez Fc Ec Hk Ho. unfold fdequant.
  destruct (minus_exact prec emax _ _ Hprec4 c z C Z0 Fc Fz Ec Ez Hk) as [Rm Fm].
  pose proof (Bmult_correct prec emax _ _ mode_NE (Bminus mode_NE c z) s) as M. rewrite Rm in M. cbn [round_mode] in M.
  rewrite Rlt_bool_true in M.
  - destruct M as (R1 & F1 & _). rewrite Fm, Fs in F1. split; [exact F1|]. split; [exact R1|]. rewrite R1.
    destruct (Z.eq_dec (C - Z0) 0) as [Z1|Z1].
    + rewrite Z1, Rmult_0_l, round_0 by typeclasses eauto. rewrite Rminus_0_r, Rabs_R0. lra.
    + assert (K1 : 1 <= Rabs (IZR (C - Z0))) by (rewrite <- abs_IZR; apply IZR_le; lia).
      eapply Rle_trans; [apply (rel_error prec emax _)|].
      * unfold FloatQuantProps.normal in Ns |- *. rewrite Rabs_mult. apply Rle_trans with (1 := Ns). pose proof (Rabs_pos (B2R s)). nra.
      * rewrite Rabs_mult, (Rabs_pos_eq (B2R s)) by lra. lra.
  - apply Rle_lt_trans with (bpow radix2 (emax - 1)); [|apply bpow_lt; lia].
    apply abs_round_le_generic; [typeclasses eauto|typeclasses eauto| |].
    + apply generic_format_FLT_bpow; [assumption|]. unfold SpecFloat.emin. pose proof prec_lt_emax_ as P. red in P. lia.
    + rewrite Rabs_mult, (Rabs_pos_eq (B2R s)) by lra. exact Ho.
Qed.

(** The scale is not too small. *)
Definition min_val_finite (mv : option float) : Prop := match mv with Some v => is_finite v = true | None => True end.
Lemma scale_lower (T st : R) (mv : option float) (stf tf : float) :
  min_val_finite mv -> is_finite stf = true -> is_finite tf = true -> B2R stf = st -> B2R tf = T -> 0 <= st -> 1 <= T ->
  let s := fscale mv stf tf in normal (B2R s) ->
  is_finite s = true /\ 0 < B2R s /\ st * (1 - u) <= B2R s * T.
Proof.
  intros Fv F1 F2 E1 E2 S0 T1 s Ns. pose proof u_small as [U0 U1].
  destruct (div_xr prec emax _ _ stf tf F1 F2 ltac:(rewrite E2; lra)) as [Xd Nd]. rewrite E1, E2 in Xd.
  assert (Q0 : 0 <= st / T <= st). { split; [apply Rmult_le_pos; [lra|apply Rlt_le, Rinv_0_lt_compat; lra]|]. apply (Rmult_le_reg_r T); [lra|]. unfold Rdiv. rewrite Rmult_assoc, Rinv_l by lra. nra. }
  assert (St : Rabs (rnd (st / T)) < bpow radix2 emax).
  { apply Rle_lt_trans with (B2R stf); [|pose proof (abs_B2R_lt_emax prec emax stf) as A; apply Rabs_lt_inv in A; lra].
    apply abs_round_le_generic; [typeclasses eauto|typeclasses eauto|apply generic_format_B2R|]. rewrite Rabs_pos_eq by lra. lra. }
  rewrite (sat_id emax _ St) in Xd. destruct (fin_of_xr _ Nd) as [Fd Rd]; [rewrite Xd; exact St|]. rewrite Xd in Rd.
  assert (G : is_finite s = true /\ rnd (st / T) <= B2R s).
  { unfold s, fscale. destruct mv as [v|]; [|rewrite Rd; split; [exact Fd|lra]].
    destruct (fmax2_fin _ v Fd Fv) as [Fm Rm]. rewrite Rm, Rd. split; [exact Fm|apply Rmax_l]. }
  destruct G as [Fs G]. split; [exact Fs|].
  assert (R0 : 0 <= rnd (st / T)) by (apply round_ge_generic; [typeclasses eauto|typeclasses eauto|apply generic_format_0|lra]).
  assert (Ps : 0 < B2R s).
  { destruct (Rle_lt_or_eq_dec 0 (B2R s) ltac:(lra)) as [P|P]; [exact P|]. exfalso. unfold FloatQuantProps.normal in Ns.
    rewrite <- P, Rabs_R0 in Ns. pose proof (bpow_gt_0 radix2 (2 - emax)). lra. }
  split; [exact Ps|].
  destruct (Rle_or_lt (bpow radix2 (2 - emax)) (Rabs (st / T))) as [N|N].
  - pose proof (rel_error prec emax _ (st / T) N) as E. apply Rabs_le_inv in E. rewrite (Rabs_pos_eq (st / T)) in E by lra.
    assert (st / T * (1 - u) <= B2R s) by lra. replace (st * (1 - u)) with (st / T * (1 - u) * T) by (field; lra). nra.
  - rewrite Rabs_pos_eq in N by lra. unfold FloatQuantProps.normal in Ns. rewrite Rabs_pos_eq in Ns by lra.
    assert (st / T * T <= B2R s * T) by nra. replace (st / T * T) with st in H by (field; lra). nra.
Qed.

Lemma thr_bounds T : (1 <= T <= 2 ^ (prec - 3))%Z -> 1 <= IZR T <= bpow radix2 (prec - 3) /\ u * IZR T <= / 8.
Proof.
  intros [A B]. apply IZR_le in A, B. change 2%Z with (radix_val radix2) in B. rewrite IZR_Zpower in B by lia.
  split; [lra|]. apply Rle_trans with (u * bpow radix2 (prec - 3)); [apply Rmult_le_compat_l; [apply bpow_ge_0|exact B]|].
  rewrite <- bpow_plus. replace (- prec + (prec - 3))%Z with (-3)%Z by ring. apply Req_le. reflexivity.
Qed.
Lemma quot_le x s K : 0 < s -> Rabs x <= K * s -> Rabs (x / s) <= K.
Proof.
  intros Hs H. unfold Rdiv. rewrite Rabs_mult, (Rabs_pos_eq (/ s)) by (apply Rlt_le, Rinv_0_lt_compat; exact Hs).
  apply (Rmult_le_reg_r s); [exact Hs|]. rewrite Rmult_assoc, Rinv_l by lra. lra.
Qed.

(** ** C100: symmetric quantizers *)
Theorem C100_symmetric (mv : option float) (b : Z) (w : list float) ys s :
  (2 <= b <= prec - 2)%Z -> Forall (fun x => is_finite x = true) w -> min_val_finite mv ->
  fsym_quant mv b w = Some (ys, s) -> normal (B2R s) ->
  IZR (2 ^ (b - 1) - 1) * B2R s <= bpow radix2 (emax - 1) ->
  0 < B2R s /\
  Forall2 (fun x y => is_finite y = true /\
    (exists n : Z, (Z.abs n <= 2 ^ (b - 1) - 1)%Z /\ B2R y = rnd (IZR n * B2R s)) /\
    Rabs (B2R y - B2R x) <= (/ 2 + 4 * u * IZR (2 ^ (b - 1))) * B2R s) w ys.
Proof.
  intros Hb Fw Fv Q Ns Ho. unfold fsym_quant in Q. set (T := (2 ^ (b - 1) - 1)%Z) in *.
  assert (HT : (1 <= T <= 2 ^ (prec - 3))%Z).
  { assert (2 ^ 1 <= 2 ^ (b - 1))%Z by (apply Z.pow_le_mono_r; lia).
    assert (2 ^ (b - 1) <= 2 ^ (prec - 3))%Z by (apply Z.pow_le_mono_r; lia). unfold T. lia. }
  replace (2 ^ (b - 1))%Z with (T + 1)%Z by (unfold T; ring). rewrite plus_IZR.
  destruct (thr_bounds T HT) as [[T1 T2] T3]. pose proof u_small as [U0 U1].
  assert (P2 : (2 ^ (prec - 3) < 2 ^ prec)%Z) by (apply Z.pow_lt_mono_r; lia).
  destruct (of_Z_spec T ltac:(lia)) as [FT RT]. destruct (of_Z_spec (- T) ltac:(lia)) as [FN RN].
  destruct (fabs_max w) as [st|] eqn:Em; [|discriminate].
  assert (Fa : Forall (fun x => is_finite x = true) (map Babs w)).
  { apply Forall_map. eapply Forall_impl; [|exact Fw]. intros a Ha. cbv beta. rewrite is_finite_Babs. exact Ha. }
  destruct (freduce_max_spec _ st Fa Em) as (Fst & Mst & Ist).
  assert (S0 : 0 <= B2R st). { apply in_map_iff in Ist. destruct Ist as (v & <- & _). rewrite B2R_Babs. apply Rabs_pos. }
  assert (Qs : s = fscale mv st (of_Z T)) by (injection Q; intros; congruence).
  assert (Qy : ys = map (fforward s fzero (of_Z (- T)) (of_Z T)) w) by (injection Q; intros; subst; reflexivity).
  clear Q. subst ys. rewrite Qs in Ns.
  destruct (scale_lower (IZR T) (B2R st) mv st (of_Z T) Fv Fst FT eq_refl RT S0 T1 Ns) as (Fs & Ps & Ls).
  rewrite <- Qs in Fs, Ps, Ls, Ns. split; [exact Ps|]. clear Qs Em.
  assert (BB : bpow radix2 (prec - 2) = 2 * bpow radix2 (prec - 3)).
  { replace (prec - 2)%Z with (1 + (prec - 3))%Z by ring. rewrite bpow_plus. reflexivity. }
  assert (W : forall x, In x w -> is_finite x = true /\ Rabs (B2R x) <= B2R st).
  { intros x Hx. split; [rewrite Forall_forall in Fw; exact (Fw x Hx)|]. rewrite <- B2R_Babs. apply Mst, in_map, Hx. }
  clear Mst Ist Fa Fw.
  assert (G : forall l, incl l w -> Forall2 (fun x y => is_finite y = true /\
    (exists n : Z, (Z.abs n <= T)%Z /\ B2R y = rnd (IZR n * B2R s)) /\
    Rabs (B2R y - B2R x) <= (/ 2 + 4 * u * (IZR T + 1)) * B2R s) l (map (fforward s fzero (of_Z (- T)) (of_Z T)) l)).
  { induction l as [|x l IH]; intros I; [constructor|]. cbn [map]. constructor; [|apply IH; intros v Hv; apply I; right; exact Hv].
    destruct (W x (I x (or_introl eq_refl))) as [Fx Mx].
    assert (Qx : Rabs (B2R x / B2R s) <= IZR T + 2 * u * IZR T).
    { apply quot_le; [exact Ps|]. apply Rle_trans with (1 := Mx).
      apply (Rmult_le_reg_r (1 - u)); [lra|]. apply Rle_trans with (1 := Ls).
      apply Rle_trans with ((B2R s * IZR T) * ((1 + 2 * u) * (1 - u))); [|apply Req_le; ring].
      assert (0 <= B2R s * IZR T) by (apply Rmult_le_pos; lra). assert (1 <= (1 + 2 * u) * (1 - u)) by nra. nra. }
    destruct (to_int_spec s fzero (of_Z (- T)) (of_Z T) x 0 (- T) T (IZR T + 2 * u * IZR T) Fs Ps eq_refl eq_refl Fx FN FT RN RT)
      as (n & En & Fc & Rc); try nra.
    { rewrite Rplus_0_r. exact Qx. }
    destruct (Z.eq_dec 0 0) as [_|K]; [|congruence]. rewrite Rplus_0_r in En.
    assert (Bn : (Z.abs n <= T)%Z).
    { apply Rabs_le_inv in En, Qx. assert (u * (IZR T + 2 * u * IZR T) <= / 8 * (1 + / 128)) by nra.
      apply Z.abs_le. split; [apply Z.lt_succ_r with (n := (-T)%Z); rewrite Z.lt_succ_r; apply Z.lt_pred_le; apply lt_IZR; unfold Z.pred; rewrite plus_IZR, opp_IZR; lra
                            |apply Z.lt_succ_r; apply lt_IZR; unfold Z.succ; rewrite plus_IZR; lra]. }
    assert (Cl : Rmax (IZR (- T)) (Rmin (IZR T) (IZR n)) = IZR n).
    { rewrite Rmin_right by (apply IZR_le; lia). apply Rmax_right. apply IZR_le. lia. }
    rewrite Cl in Rc.
    assert (Bn' : Rabs (IZR n) <= IZR T) by (rewrite <- abs_IZR; apply IZR_le; exact Bn).
    destruct (dequant_spec s fzero _ n 0 Fs Ns Ps eq_refl eq_refl Fc Rc) as (Fy & Ry & Ey).
    { lia. }
    { rewrite Z.sub_0_r. nra. }
    rewrite Z.sub_0_r in Ry, Ey. unfold fforward.
    split; [exact Fy|]. split; [exists n; split; assumption|].
    set (y := B2R (fdequant s fzero (fto_int s fzero (of_Z (- T)) (of_Z T) x))) in *.
    replace (y - B2R x) with ((y - IZR n * B2R s) + (IZR n - B2R x / B2R s) * B2R s) by (field; lra).
    eapply Rle_trans; [apply Rabs_triang|]. rewrite Rabs_mult, (Rabs_pos_eq (B2R s)) by lra.
    assert (u * Rabs (IZR n) * B2R s <= u * IZR T * B2R s) by (apply Rmult_le_compat_r; [lra|apply Rmult_le_compat_l; lra]).
    assert (Rabs (IZR n - B2R x / B2R s) * B2R s <= (/ 2 + u * (IZR T + 2 * u * IZR T)) * B2R s) by (apply Rmult_le_compat_r; lra).
    assert (u * (u * IZR T) <= u * / 8) by (apply Rmult_le_compat_l; lra).
    assert (u * IZR T * B2R s + (/ 2 + u * (IZR T + 2 * u * IZR T)) * B2R s <= (/ 2 + 4 * u * (IZR T + 1)) * B2R s); [|lra].
    rewrite <- Rmult_plus_distr_r. apply Rmult_le_compat_r; nra. }
  apply G, incl_refl.
Qed.

(** ** C100: asymmetric quantizers *)
Lemma fscale_inf (mv : option float) (st tf : float) : min_val_finite mv -> is_finite st = false -> is_nan st = false ->
  0 <= xr prec emax st -> is_finite tf = true -> 0 < B2R tf -> B2R (fscale mv st tf) = 0.
Proof.
  intros Fv F N P Ft Pt. destruct (div_inf prec emax _ _ st tf F N Ft Pt) as [X Nd].
  assert (E : xr prec emax st = bpow radix2 emax).
  { destruct st as [b|[]| |b m e Hb]; try discriminate; [|reflexivity]. cbn [xr] in P. pose proof (bpow_gt_0 radix2 emax). lra. }
  rewrite E in X.
  assert (D : B2R (Bdiv mode_NE st tf) = 0).
  { destruct (is_finite (Bdiv mode_NE st tf)) eqn:Fd; [|destruct (Bdiv mode_NE st tf); try discriminate; reflexivity].
    rewrite (xr_finite _ _ _ Fd) in X. pose proof (abs_B2R_lt_emax prec emax (Bdiv mode_NE st tf)) as A. rewrite X in A.
    apply Rabs_lt_inv in A. lra. }
  unfold fscale. destruct mv as [v|]; [|exact D]. unfold fmax2. rewrite Nd, (fin_not_nan v Fv).
  rewrite (Bltb_xr prec emax _ v Nd (fin_not_nan v Fv)), X, (xr_finite _ _ v Fv).
  rewrite Rlt_bool_false; [exact D|]. pose proof (abs_B2R_lt_emax prec emax v) as A. apply Rabs_lt_inv in A. lra.
Qed.
Lemma clamp_near T n v d : (0 <= T)%Z -> 0 <= d -> - (/ 2 + d) <= v <= IZR T + (/ 2 + d) -> Rabs (IZR n - v) <= / 2 + d ->
  Rabs (IZR (Z.max 0 (Z.min T n)) - v) <= / 2 + d.
Proof.
  intros HT Hd Hv Hn. apply Rabs_le_inv in Hn. apply Rabs_le.
  destruct (Z_lt_le_dec n 0) as [A|A].
  - rewrite Z.min_r, Z.max_l by lia. apply Z.le_succ_l in A. apply IZR_le in A. unfold Z.succ in A. rewrite plus_IZR in A. lra.
  - destruct (Z_lt_le_dec T n) as [C|C].
    + rewrite Z.min_l, Z.max_r by lia. apply Z.le_succ_l in C. apply IZR_le in C. unfold Z.succ in C. rewrite plus_IZR in C. lra.
    + rewrite Z.min_r, Z.max_r by lia. lra.
Qed.
Lemma IZR_clamp T n : Rmax (IZR 0) (Rmin (IZR T) (IZR n)) = IZR (Z.max 0 (Z.min T n)).
Proof.
  destruct (Z_le_dec T n) as [A|A].
  - rewrite Z.min_l by lia. rewrite Rmin_left by (apply IZR_le; lia). destruct (Z_le_dec 0 T);
      [rewrite Z.max_r by lia; apply Rmax_right; apply IZR_le; lia|rewrite Z.max_l by lia; apply Rmax_left; apply IZR_le; lia].
  - rewrite Z.min_r by lia. rewrite Rmin_right by (apply IZR_le; lia). destruct (Z_le_dec 0 n);
      [rewrite Z.max_r by lia; apply Rmax_right; apply IZR_le; lia|rewrite Z.max_l by lia; apply Rmax_left; apply IZR_le; lia].
Qed.

Theorem C100_asymmetric (mv : option float) (b : Z) (w : list float) ys s z :
  (1 <= b <= prec - 3)%Z -> Forall (fun x => is_finite x = true) w -> min_val_finite mv ->
  (exists v, In v w /\ 0 <= B2R v) ->
  fasym_quant mv b w = Some (ys, s, z) -> normal (B2R s) ->
  IZR (2 ^ b - 1) * B2R s <= bpow radix2 (emax - 1) ->
  0 < B2R s /\
  (exists Z0 : Z, (0 <= Z0 <= 2 ^ b - 1)%Z /\ is_finite z = true /\ B2R z = IZR Z0 /\
  Forall2 (fun x y => is_finite y = true /\
    (exists n : Z, (0 <= n <= 2 ^ b - 1)%Z /\ B2R y = rnd (IZR (n - Z0) * B2R s)) /\
    Rabs (B2R y - B2R x) <= (/ 2 + 6 * u * IZR (2 ^ b)) * B2R s) w ys).
Proof.
  intros Hb Fw Fv (v0 & I0 & P0) Q Ns Ho. unfold fasym_quant in Q. set (T := (2 ^ b - 1)%Z) in *.
  assert (HT : (1 <= T <= 2 ^ (prec - 3))%Z).
  { assert (2 ^ 1 <= 2 ^ b)%Z by (apply Z.pow_le_mono_r; lia).
    assert (2 ^ b <= 2 ^ (prec - 3))%Z by (apply Z.pow_le_mono_r; lia). unfold T. lia. }
  replace (2 ^ b)%Z with (T + 1)%Z by (unfold T; ring). rewrite plus_IZR.
  destruct (thr_bounds T HT) as [[T1 T2] T3]. pose proof u_small as [U0 U1].
  assert (P2 : (2 ^ (prec - 3) < 2 ^ prec)%Z) by (apply Z.pow_lt_mono_r; lia).
  destruct (of_Z_spec T ltac:(lia)) as [FT RT].
  unfold fabs_min_max, fneg_min_or_zero in Q.
  destruct (freduce_max w) as [mx|] eqn:Emx; [|discriminate]. destruct (freduce_min w) as [mn|] eqn:Emn; [|discriminate].
  destruct (freduce_max_spec w mx Fw Emx) as (Fmx & Mmx & _). destruct (freduce_min_spec w mn Fw Emn) as (Fmn & Mmn & _).
  destruct (fmin2_fin mn fzero Fmn eq_refl) as [Fm Rm]. change (B2R (@fzero prec emax)) with 0 in Rm.
  set (m := fmin2 mn fzero) in *.
  assert (M0 : B2R m <= 0) by (rewrite Rm; apply Rmin_r). assert (M1 : B2R m <= B2R mn) by (rewrite Rm; apply Rmin_l).
  assert (X0 : 0 <= B2R mx) by (specialize (Mmx v0 I0); lra).
  set (stf := Babs (Bminus mode_NE mx m)) in *.
  assert (Qs : s = fscale mv stf (of_Z T)) by (injection Q; intros; congruence).
  assert (Qz : z = fto_int s fzero fzero (of_Z T) (Bopp m)) by (injection Q; intros; subst; reflexivity).
  assert (Qy : ys = map (fforward s z fzero (of_Z T)) w) by (injection Q; intros; subst; reflexivity).
  clear Q. subst ys. rewrite Qs in Ns.
  pose proof (Bminus_correct prec emax _ _ mode_NE mx m Fmx Fm) as C. cbn [round_mode] in C.
  set (D := B2R mx - B2R m) in *. assert (D0 : 0 <= D) by (unfold D; lra).
  assert (R0 : 0 <= rnd D) by (apply round_ge_generic; [typeclasses eauto|typeclasses eauto|apply generic_format_0|lra]).
  assert (Fst : is_finite stf = true /\ B2R stf = rnd D).
  { destruct (Rlt_bool (Rabs (rnd D)) (bpow radix2 emax)).
    - destruct C as (C1 & C2 & _). unfold stf. rewrite is_finite_Babs, B2R_Babs, C1, Rabs_pos_eq by exact R0. split; [exact C2|reflexivity].
    - exfalso. assert (E : stf = B754_infinity false).
      { unfold stf. destruct C as [C _]. destruct (Bminus mode_NE mx m) as [c|c| |c mm e Hc]; try discriminate C. reflexivity. }
      rewrite E in Ns. rewrite fscale_inf in Ns; try reflexivity; try assumption; [|cbn [xr]; apply bpow_ge_0|lra].
      unfold FloatQuantProps.normal in Ns. rewrite Rabs_R0 in Ns. pose proof (bpow_gt_0 radix2 (2 - emax)). lra. }
  destruct Fst as [Fst Rst]. clear C.
  destruct (scale_lower (IZR T) (rnd D) mv stf (of_Z T) Fv Fst FT Rst RT R0 T1 Ns) as (Fs & Ps & Ls).
  rewrite <- Qs in Fs, Ps, Ls, Ns. split; [exact Ps|]. clear Qs Emx Emn.
  assert (LD : D * (1 - u) * (1 - u) <= B2R s * IZR T).
  { destruct (Rle_or_lt (bpow radix2 (2 - emax)) (Rabs D)) as [N|N].
    - pose proof (rel_error prec emax _ D N) as E. rewrite (Rabs_pos_eq D) in E by lra. apply Rabs_le_inv in E. nra.
    - rewrite Rabs_pos_eq in N by lra. unfold FloatQuantProps.normal in Ns. rewrite Rabs_pos_eq in Ns by lra.
      assert (D <= B2R s * IZR T) by nra. assert (0 <= (1 - u) * (1 - u) <= 1) by nra. nra. }
  set (K := IZR T + 9 / 4 * u * IZR T).
  assert (DK : D <= K * B2R s).
  { apply (Rmult_le_reg_r ((1 - u) * (1 - u))); [nra|]. apply Rle_trans with (B2R s * IZR T); [lra|].
    unfold K. apply Rle_trans with ((B2R s * IZR T) * ((1 + 9 / 4 * u) * ((1 - u) * (1 - u)))); [|apply Req_le; ring].
    assert (0 <= B2R s * IZR T) by (apply Rmult_le_pos; lra). assert (1 <= (1 + 9 / 4 * u) * ((1 - u) * (1 - u))) by nra. nra. }
  assert (BB : bpow radix2 (prec - 2) = 2 * bpow radix2 (prec - 3)).
  { replace (prec - 2)%Z with (1 + (prec - 3))%Z by ring. rewrite bpow_plus. reflexivity. }
  assert (B32 : 32 <= bpow radix2 (prec - 3)) by (change 32 with (bpow radix2 5); apply bpow_le; lia).
  assert (uT0 : 0 < u * IZR T) by nra. assert (uuT : 0 <= u * (u * IZR T) <= u * IZR T / 256) by nra.
  assert (KT : IZR T <= K <= IZR T + 9 / 32) by (unfold K; lra).
  assert (uK : 0 <= u * K <= u * IZR T * (1 + 9 / 1024)) by (unfold K; nra).
  (* the zero point *)
  set (a := - B2R m) in *.
  assert (Ra : B2R (Bopp m) = a) by (rewrite B2R_Bopp; reflexivity).
  assert (A0 : 0 <= a <= D) by (unfold a, D; lra).
  assert (Qa : Rabs (a / B2R s) <= K) by (apply quot_le; [exact Ps|]; rewrite Rabs_pos_eq by lra; lra).
  assert (Qa0 : 0 <= a / B2R s) by (apply Rmult_le_pos; [lra|apply Rlt_le, Rinv_0_lt_compat; exact Ps]).
  destruct (to_int_spec s fzero fzero (of_Z T) (Bopp m) 0 0 T K Fs Ps eq_refl eq_refl
     ltac:(rewrite is_finite_Bopp; exact Fm) eq_refl FT eq_refl RT) as (Z0 & Ez & Fz & Rz); try lra.
  { rewrite Ra. exact Qa. }
  { rewrite Ra, Rplus_0_r. exact Qa. }
  rewrite Ra in Ez. destruct (Z.eq_dec 0 0) as [_|W]; [|congruence]. rewrite Rplus_0_r in Ez.
  rewrite <- Qz in Fz, Rz. clear Qz. rewrite IZR_clamp in Rz.
  assert (Bz : (0 <= Z0 <= T)%Z).
  { apply Rabs_le_inv in Ez, Qa. split; [apply Z.lt_succ_r; apply lt_IZR; unfold Z.succ; rewrite plus_IZR; lra
                            |apply Z.lt_succ_r; apply lt_IZR; unfold Z.succ; rewrite plus_IZR; lra]. }
  replace (Z.max 0 (Z.min T Z0)) with Z0 in Rz by lia.
  exists Z0. split; [exact Bz|]. split; [exact Fz|]. split; [exact Rz|].
  set (d := 4 * (u * (IZR T + 1))).
  assert (W : forall x, In x w -> is_finite x = true /\ B2R m <= B2R x <= B2R mx).
  { intros x Hx. split; [rewrite Forall_forall in Fw; exact (Fw x Hx)|]. specialize (Mmx x Hx). specialize (Mmn x Hx). lra. }
  clear Mmx Mmn Fw I0.
  assert (G : forall l, incl l w -> Forall2 (fun x y => is_finite y = true /\
    (exists n : Z, (0 <= n <= T)%Z /\ B2R y = rnd (IZR (n - Z0) * B2R s)) /\
    Rabs (B2R y - B2R x) <= (/ 2 + 6 * u * (IZR T + 1)) * B2R s) l (map (fforward s z fzero (of_Z T)) l)).
  { induction l as [|x l IH]; intros I; [constructor|]. cbn [map]. constructor; [|apply IH; intros t Ht; apply I; right; exact Ht].
    destruct (W x (I x (or_introl eq_refl))) as [Fx Mx]. set (q := B2R x / B2R s).
    assert (Sq : q * B2R s = B2R x) by (unfold q; field; lra).
    assert (Sa : a / B2R s * B2R s = a) by (field; lra).
    assert (Qx : Rabs q <= K) by (apply quot_le; [exact Ps|]; apply Rabs_le; unfold D, a in *; lra).
    assert (Qv : - (a / B2R s) <= q <= K - a / B2R s).
    { split; apply (Rmult_le_reg_r (B2R s)); try exact Ps; [rewrite Ropp_mult_distr_l_reverse, Sa, Sq; unfold a; lra|].
      rewrite Rmult_minus_distr_r, Sa, Sq. unfold a, D in *. lra. }
    assert (Ez' := Ez). apply Rabs_le_inv in Ez'.
    assert (Vb : - (/ 2 + u * K) <= q + IZR Z0 <= K + (/ 2 + u * K)) by lra.
    destruct (to_int_spec s z fzero (of_Z T) x Z0 0 T (IZR T + 1) Fs Ps Fz Rz Fx eq_refl FT eq_refl RT) as (n & En & Fc & Rc); try lra.
    { fold q. lra. }
    { fold q. apply Rabs_le. lra. }
    fold q in En. rewrite IZR_clamp in Rc. set (c := Z.max 0 (Z.min T n)) in *.
    assert (Ed : Rabs (IZR n - (q + IZR Z0)) <= / 2 + d).
    { apply Rle_trans with (1 := En). unfold d. destruct (Z.eq_dec Z0 0); nra. }
    assert (Ec : Rabs (IZR c - (q + IZR Z0)) <= / 2 + d).
    { apply clamp_near; [lia|unfold d; nra| |exact Ed]. unfold d, K in *. nra. }
    assert (Bc : (0 <= c <= T)%Z) by (unfold c; lia).
    assert (Bcz : Rabs (IZR (c - Z0)) <= IZR T) by (rewrite <- abs_IZR; apply IZR_le; lia).
    destruct (dequant_spec s z _ c Z0 Fs Ns Ps Fz Rz Fc Rc) as (Fy & Ry & Ey).
    { lia. }
    { apply Rle_trans with (2 := Ho). apply Rmult_le_compat_r; lra. }
    unfold fforward. split; [exact Fy|]. split; [exists c; split; assumption|].
    set (y := B2R (fdequant s z (fto_int s z fzero (of_Z T) x))) in *.
    replace (y - B2R x) with ((y - IZR (c - Z0) * B2R s) + (IZR c - (q + IZR Z0)) * B2R s) by (rewrite <- Sq, minus_IZR; ring).
    eapply Rle_trans; [apply Rabs_triang|]. rewrite Rabs_mult, (Rabs_pos_eq (B2R s)) by lra.
    assert (u * Rabs (IZR (c - Z0)) * B2R s <= u * IZR T * B2R s) by (apply Rmult_le_compat_r; [lra|apply Rmult_le_compat_l; lra]).
    assert (Rabs (IZR c - (q + IZR Z0)) * B2R s <= (/ 2 + d) * B2R s) by (apply Rmult_le_compat_r; lra).
    assert (u * IZR T * B2R s + (/ 2 + d) * B2R s <= (/ 2 + 6 * u * (IZR T + 1)) * B2R s); [|lra].
    rewrite <- Rmult_plus_distr_r. apply Rmult_le_compat_r; [lra|]. unfold d. nra. }
  apply G, incl_refl.
Qed.

(** ** C100: the scale itself *)
Definition at_least (mv : option float) (r : R) : R := match mv with Some v => Rmax r (B2R v) | None => r end.
Lemma fscale_value (mv : option float) (st tf : float) : min_val_finite mv -> is_finite st = true -> 0 <= B2R st ->
  is_finite tf = true -> 1 <= B2R tf ->
  is_finite (fscale mv st tf) = true /\ B2R (fscale mv st tf) = at_least mv (rnd (B2R st / B2R tf)).
Proof.
  intros Fv F1 S0 F2 T1. destruct (div_xr prec emax _ _ st tf F1 F2 ltac:(lra)) as [Xd Nd].
  set (T := B2R tf) in *. set (x := B2R st) in *.
  assert (Q0 : 0 <= x / T <= x). { split; [apply Rmult_le_pos; [lra|apply Rlt_le, Rinv_0_lt_compat; lra]|]. apply (Rmult_le_reg_r T); [lra|]. unfold Rdiv. rewrite Rmult_assoc, Rinv_l by lra. nra. }
  assert (St : Rabs (rnd (x / T)) < bpow radix2 emax).
  { apply Rle_lt_trans with (B2R st); [|pose proof (abs_B2R_lt_emax prec emax st) as A; apply Rabs_lt_inv in A; lra].
    apply abs_round_le_generic; [typeclasses eauto|typeclasses eauto|apply generic_format_B2R|]. rewrite Rabs_pos_eq by lra. fold x. lra. }
  rewrite (sat_id emax _ St) in Xd. destruct (fin_of_xr _ Nd) as [Fd Rd]; [rewrite Xd; exact St|]. rewrite Xd in Rd.
  unfold fscale. destruct mv as [v|]; cbn [at_least]; [|split; assumption].
  destruct (fmax2_fin _ v Fd Fv) as [Fm Rm]. rewrite Rm, Rd. split; [exact Fm|reflexivity].
Qed.
Theorem C100_symmetric_scale (mv : option float) (b : Z) (w : list float) ys s :
  (2 <= b <= prec)%Z -> Forall (fun x => is_finite x = true) w -> min_val_finite mv ->
  fsym_quant mv b w = Some (ys, s) ->
  exists x, In x w /\ (forall x', In x' w -> Rabs (B2R x') <= Rabs (B2R x)) /\
    is_finite s = true /\ B2R s = at_least mv (rnd (Rabs (B2R x) / IZR (2 ^ (b - 1) - 1))).
Proof.
  intros Hb Fw Fv Q. unfold fsym_quant in Q. set (T := (2 ^ (b - 1) - 1)%Z) in *.
  assert (HT : (1 <= T < 2 ^ prec)%Z).
  { assert (2 ^ 1 <= 2 ^ (b - 1))%Z by (apply Z.pow_le_mono_r; lia).
    assert (2 ^ (b - 1) <= 2 ^ prec)%Z by (apply Z.pow_le_mono_r; lia). unfold T. lia. }
  destruct (of_Z_spec T ltac:(lia)) as [FT RT].
  destruct (fabs_max w) as [st|] eqn:Em; [|discriminate].
  assert (Fa : Forall (fun x => is_finite x = true) (map Babs w)).
  { apply Forall_map. eapply Forall_impl; [|exact Fw]. intros a Ha. cbv beta. rewrite is_finite_Babs. exact Ha. }
  destruct (freduce_max_spec _ st Fa Em) as (Fst & Mst & Ist).
  assert (Qs : s = fscale mv st (of_Z T)) by (injection Q; intros; congruence).
  apply in_map_iff in Ist. destruct Ist as (x & Ex & Ix). exists x. split; [exact Ix|].
  assert (Rx : B2R st = Rabs (B2R x)) by (rewrite <- Ex; apply B2R_Babs).
  split; [intros x' Hx'; rewrite <- Rx, <- B2R_Babs; apply Mst, in_map, Hx'|].
  rewrite Qs, <- Rx, <- RT. apply fscale_value; try assumption; [rewrite Rx; apply Rabs_pos|rewrite RT; apply IZR_le; lia].
Qed.
Theorem C100_asymmetric_scale (mv : option float) (b : Z) (w : list float) ys s z :
  (1 <= b <= prec)%Z -> Forall (fun x => is_finite x = true /\ Rabs (B2R x) <= bpow radix2 (emax - 2)) w -> min_val_finite mv ->
  fasym_quant mv b w = Some (ys, s, z) ->
  exists hi lo, In hi w /\ In lo w /\ (forall x, In x w -> B2R lo <= B2R x <= B2R hi) /\
    is_finite s = true /\ B2R s = at_least mv (rnd (Rabs (rnd (B2R hi - Rmin (B2R lo) 0)) / IZR (2 ^ b - 1))).
Proof.
  intros Hb Fw' Fv Q. unfold fasym_quant in Q. set (T := (2 ^ b - 1)%Z) in *.
  assert (Fw : Forall (fun x => is_finite x = true) w) by (eapply Forall_impl; [|exact Fw']; intros a Ha; apply Ha).
  assert (HT : (1 <= T < 2 ^ prec)%Z).
  { assert (2 ^ 1 <= 2 ^ b)%Z by (apply Z.pow_le_mono_r; lia).
    assert (2 ^ b <= 2 ^ prec)%Z by (apply Z.pow_le_mono_r; lia). unfold T. lia. }
  destruct (of_Z_spec T ltac:(lia)) as [FT RT].
  unfold fabs_min_max, fneg_min_or_zero in Q.
  destruct (freduce_max w) as [mx|] eqn:Emx; [|discriminate]. destruct (freduce_min w) as [mn|] eqn:Emn; [|discriminate].
  destruct (freduce_max_spec w mx Fw Emx) as (Fmx & Mmx & Imx). destruct (freduce_min_spec w mn Fw Emn) as (Fmn & Mmn & Imn).
  destruct (fmin2_fin mn fzero Fmn eq_refl) as [Fm Rm]. change (B2R (@fzero prec emax)) with 0 in Rm.
  set (m := fmin2 mn fzero) in *.
  exists mx, mn. split; [exact Imx|]. split; [exact Imn|]. split; [intros x Hx; split; [exact (Mmn x Hx)|exact (Mmx x Hx)]|].
  assert (Qs : s = fscale mv (Babs (Bminus mode_NE mx m)) (of_Z T)) by (injection Q; intros; congruence).
  rewrite Forall_forall in Fw'. destruct (Fw' mx Imx) as [_ Bx]. destruct (Fw' mn Imn) as [_ Bn].
  pose proof (Bminus_correct prec emax _ _ mode_NE mx m Fmx Fm) as C. cbn [round_mode] in C. rewrite Rm in C.
  rewrite Rlt_bool_true in C.
  - destruct C as (C1 & C2 & _).
    rewrite Qs, <- C1, <- B2R_Babs, <- RT. apply fscale_value; try assumption;
      [rewrite is_finite_Babs; exact C2|rewrite B2R_Babs; apply Rabs_pos|rewrite RT; apply IZR_le; lia].
  - apply Rle_lt_trans with (bpow radix2 (emax - 1)); [|apply bpow_lt; lia].
    apply abs_round_le_generic; [typeclasses eauto|typeclasses eauto| |].
    + apply generic_format_FLT_bpow; [assumption|]. unfold SpecFloat.emin. pose proof prec_lt_emax_ as P. red in P. lia.
    + apply Rabs_le_inv in Bx, Bn. assert (E : bpow radix2 (emax - 1) = 2 * bpow radix2 (emax - 2)).
      { replace (emax - 1)%Z with (1 + (emax - 2))%Z by ring. rewrite bpow_plus. reflexivity. }
      pose proof (bpow_gt_0 radix2 (emax - 2)). apply Rabs_le. unfold Rmin. destruct (Rle_dec (B2R mn) 0); lra.
Qed.

(** With a positive normal minimum, as the default 1e-10 is in float32 and bfloat16, the scale
    needs no hypothesis. *)
Lemma scale_cap (v : float) x T : normal (B2R v) -> 0 < B2R v <= 1 -> 1 <= T <= bpow radix2 (prec - 3) ->
  0 <= x <= bpow radix2 (emax - 2) + bpow radix2 (emax - 3) -> normal (Rmax (rnd (x / T)) (B2R v)) /\ T * Rmax (rnd (x / T)) (B2R v) <= bpow radix2 (emax - 1).
Proof.
  intros Nv Hv HT Hx. pose proof u_small as [U0 U1].
  assert (Ev : Rabs (B2R v) = B2R v) by (apply Rabs_pos_eq; lra).
  pose proof (Rmax_r (rnd (x / T)) (B2R v)) as Mr. unfold FloatQuantProps.normal in *. rewrite Ev in Nv.
  split; [rewrite Rabs_pos_eq by lra; lra|].
  assert (P : T <= bpow radix2 (emax - 1)) by (apply Rle_trans with (1 := proj2 HT); apply bpow_le; pose proof prec_lt_emax_ as P; red in P; lia).
  apply Rmax_case; [|nra].
  assert (Q0 : 0 <= x / T) by (apply Rmult_le_pos; [lra|apply Rlt_le, Rinv_0_lt_compat; lra]).
  assert (QT : x / T * T = x) by (field; lra).
  destruct (Rle_or_lt (bpow radix2 (2 - emax)) (Rabs (x / T))) as [N|N].
  - pose proof (rel_error prec emax _ (x / T) N) as E. rewrite (Rabs_pos_eq (x / T)) in E by lra. apply Rabs_le_inv in E.
    apply Rle_trans with (T * (x / T * (1 + u))); [apply Rmult_le_compat_l; lra|].
    replace (T * (x / T * (1 + u))) with (x * (1 + u)) by (field; lra).
    assert (E1 : bpow radix2 (emax - 1) = 4 * bpow radix2 (emax - 3)).
    { replace (emax - 1)%Z with (2 + (emax - 3))%Z by ring. rewrite bpow_plus. reflexivity. }
    assert (E2 : bpow radix2 (emax - 2) = 2 * bpow radix2 (emax - 3)).
    { replace (emax - 2)%Z with (1 + (emax - 3))%Z by ring. rewrite bpow_plus. reflexivity. }
    pose proof (bpow_gt_0 radix2 (emax - 3)). nra.
  - apply Rle_trans with (T * 1); [|lra]. apply Rmult_le_compat_l; [lra|].
    apply round_le_generic; [typeclasses eauto|typeclasses eauto| |].
    + change 1 with (bpow radix2 0). apply generic_format_FLT_bpow; [assumption|]. unfold SpecFloat.emin. pose proof prec_lt_emax_ as P'. red in P'. lia.
    + rewrite Rabs_pos_eq in N by lra. apply Rlt_le, Rlt_le_trans with (1 := N). change 1 with (bpow radix2 0). apply bpow_le.
      pose proof prec_lt_emax_ as P'. red in P'. lia.
Qed.
Theorem C100_symmetric_min_val (v : float) (b : Z) (w : list float) :
  (2 <= b <= prec - 2)%Z -> w <> [] -> Forall (fun x => is_finite x = true /\ Rabs (B2R x) <= bpow radix2 (emax - 2)) w ->
  is_finite v = true -> normal (B2R v) -> 0 < B2R v <= 1 ->
  exists ys s, fsym_quant (Some v) b w = Some (ys, s) /\ is_finite s = true /\ 0 < B2R s /\
    Forall2 (fun x y => is_finite y = true /\ (exists n : Z, (Z.abs n <= 2 ^ (b - 1) - 1)%Z /\ B2R y = rnd (IZR n * B2R s)) /\
      Rabs (B2R y - B2R x) <= (/ 2 + 4 * u * IZR (2 ^ (b - 1))) * B2R s) w ys.
Proof.
  intros Hb Hw Fw' Fv Nv Hv.
  assert (Fw : Forall (fun x => is_finite x = true) w) by (eapply Forall_impl; [|exact Fw']; intros a Ha; apply Ha).
  destruct (fsym_quant (Some v) b w) as [[ys s]|] eqn:Q; [|destruct w; [congruence|discriminate Q]].
  destruct (C100_symmetric_scale (Some v) b w ys s ltac:(lia) Fw Fv Q) as (x & Ix & Mx & Fs & Es).
  rewrite Forall_forall in Fw'. destruct (Fw' x Ix) as [_ Bx]. cbn [at_least] in Es.
  assert (HT : (1 <= 2 ^ (b - 1) - 1 <= 2 ^ (prec - 3))%Z).
  { assert (2 ^ 1 <= 2 ^ (b - 1))%Z by (apply Z.pow_le_mono_r; lia).
    assert (2 ^ (b - 1) <= 2 ^ (prec - 3))%Z by (apply Z.pow_le_mono_r; lia). lia. }
  destruct (thr_bounds _ HT) as [T12 _]. pose proof (bpow_gt_0 radix2 (emax - 3)).
  destruct (scale_cap v (Rabs (B2R x)) (IZR (2 ^ (b - 1) - 1)) Nv Hv T12) as [N1 N2]; [split; [apply Rabs_pos|lra]|].
  rewrite <- Es in N1, N2.
  destruct (C100_symmetric (Some v) b w ys s Hb Fw Fv Q N1 N2) as [Ps G].
  exists ys, s. repeat split; assumption.
Qed.
Theorem C100_asymmetric_min_val (v : float) (b : Z) (w : list float) :
  (1 <= b <= prec - 3)%Z -> (exists x, In x w /\ 0 <= B2R x) ->
  Forall (fun x => is_finite x = true /\ Rabs (B2R x) <= bpow radix2 (emax - 3)) w ->
  is_finite v = true -> normal (B2R v) -> 0 < B2R v <= 1 ->
  exists ys s z, fasym_quant (Some v) b w = Some (ys, s, z) /\ is_finite s = true /\ 0 < B2R s /\
    exists Z0 : Z, (0 <= Z0 <= 2 ^ b - 1)%Z /\ is_finite z = true /\ B2R z = IZR Z0 /\
    Forall2 (fun x y => is_finite y = true /\ (exists n : Z, (0 <= n <= 2 ^ b - 1)%Z /\ B2R y = rnd (IZR (n - Z0) * B2R s)) /\
      Rabs (B2R y - B2R x) <= (/ 2 + 6 * u * IZR (2 ^ b)) * B2R s) w ys.
Proof.
  intros Hb Hw Fw' Fv Nv Hv.
  assert (E2 : bpow radix2 (emax - 2) = 2 * bpow radix2 (emax - 3)).
  { replace (emax - 2)%Z with (1 + (emax - 3))%Z by ring. rewrite bpow_plus. reflexivity. }
  pose proof (bpow_gt_0 radix2 (emax - 3)) as G0.
  assert (Fw : Forall (fun x => is_finite x = true) w) by (eapply Forall_impl; [|exact Fw']; intros a Ha; apply Ha).
  assert (Fw2 : Forall (fun x => is_finite x = true /\ Rabs (B2R x) <= bpow radix2 (emax - 2)) w).
  { eapply Forall_impl; [|exact Fw']; intros a [Ha Hb']; split; [exact Ha|lra]. }
  destruct (fasym_quant (Some v) b w) as [[[ys s] z]|] eqn:Q; [|destruct w; [destruct Hw as (? & [] & _)|discriminate Q]].
  destruct (C100_asymmetric_scale (Some v) b w ys s z ltac:(lia) Fw2 Fv Q) as (hi & lo & Ih & Il & M & Fs & Es).
  rewrite Forall_forall in Fw'. destruct (Fw' hi Ih) as [_ Bh]. destruct (Fw' lo Il) as [_ Bl]. cbn [at_least] in Es.
  assert (HT : (1 <= 2 ^ b - 1 <= 2 ^ (prec - 3))%Z).
  { assert (2 ^ 1 <= 2 ^ b)%Z by (apply Z.pow_le_mono_r; lia).
    assert (2 ^ b <= 2 ^ (prec - 3))%Z by (apply Z.pow_le_mono_r; lia). lia. }
  destruct (thr_bounds _ HT) as [T12 _].
  destruct (scale_cap v (Rabs (rnd (B2R hi - Rmin (B2R lo) 0))) (IZR (2 ^ b - 1)) Nv Hv T12) as [N1 N2].
  { split; [apply Rabs_pos|]. apply Rle_trans with (bpow radix2 (emax - 2)); [|lra].
    apply abs_round_le_generic; [typeclasses eauto|typeclasses eauto| |].
    - apply generic_format_FLT_bpow; [assumption|]. unfold SpecFloat.emin. pose proof prec_lt_emax_ as P. red in P. lia.
    - apply Rabs_le_inv in Bh, Bl. apply Rabs_le. unfold Rmin. destruct (Rle_dec (B2R lo) 0); lra. }
  rewrite <- Es in N1, N2.
  destruct (C100_asymmetric (Some v) b w ys s z Hb Fw Fv Hw Q N1 N2) as [Ps G].
  exists ys, s, z. repeat split; assumption.
Qed.
End Float.
Arguments at_least {prec emax}.
Arguments min_val_finite {prec emax}.

(** ** float32 with the default scaling_min_val *)
Definition min_val32 : float32 := binary_normalize 24 128 _ _ mode_NE 14411519 (-57) false.
Lemma min_val32_spec : is_finite min_val32 = true /\ normal 128 (B2R min_val32) /\ 0 < B2R min_val32 <= 1.
Proof.
  assert (E : B2SF min_val32 = SpecFloat.S754_finite false 14411519 (-57)) by (vm_compute; reflexivity).
  assert (R : B2R min_val32 = 14411519 * bpow radix2 (-57)) by (rewrite <- SF2R_B2SF, E; reflexivity).
  assert (P : 0 < bpow radix2 (-57)) by apply bpow_gt_0.
  assert (Q : 33554432 * bpow radix2 (-57) <= 1).
  { change 33554432 with (bpow radix2 25). rewrite <- bpow_plus. change 1 with (bpow radix2 0). apply bpow_le. lia. }
  split; [vm_compute; reflexivity|]. rewrite R. split; [|split; lra].
  unfold normal. rewrite Rabs_pos_eq by lra. apply Rle_trans with (bpow radix2 (-57)); [apply bpow_le; lia|lra].
Qed.
Lemma Forall2_impl' {A B} (P Q : A -> B -> Prop) l l' : (forall a b, P a b -> Q a b) -> Forall2 P l l' -> Forall2 Q l l'.
Proof. intros H F. induction F; constructor; auto. Qed.
Theorem C100_float32_symmetric (b : Z) (w : list float32) :
  (2 <= b <= 22)%Z -> w <> [] -> Forall (fun x => is_finite x = true /\ Rabs (B2R x) <= bpow radix2 126) w ->
  exists ys s, fsym_quant (Some min_val32) b w = Some (ys, s) /\ is_finite s = true /\ 0 < B2R s /\
    Forall2 (fun x y => is_finite y = true /\ Rabs (B2R y - B2R x) <= (/ 2 + bpow radix2 (b - 23)) * B2R s) w ys.
Proof.
  intros Hb Hw Fw. destruct min_val32_spec as (A & B & C).
  destruct (C100_symmetric_min_val 24 128 _ _ ltac:(lia) min_val32 b w ltac:(lia) Hw Fw A B C) as (ys & s & E1 & E2 & E3 & G).
  exists ys, s. repeat split; try assumption; try apply E3. eapply Forall2_impl'; [|exact G].
  intros x y (F & _ & H). split; [exact F|]. replace (bpow radix2 (b - 23)) with (4 * bpow radix2 (-24) * IZR (2 ^ (b - 1))); [exact H|].
  rewrite (IZR_Zpower radix2) by lia. change 4 with (bpow radix2 2). rewrite <- !bpow_plus. f_equal. ring.
Qed.
Theorem C100_float32_asymmetric (b : Z) (w : list float32) :
  (1 <= b <= 21)%Z -> (exists x, In x w /\ 0 <= B2R x) ->
  Forall (fun x => is_finite x = true /\ Rabs (B2R x) <= bpow radix2 125) w ->
  exists ys s z, fasym_quant (Some min_val32) b w = Some (ys, s, z) /\ is_finite s = true /\ 0 < B2R s /\
    (exists Z0 : Z, (0 <= Z0 <= 2 ^ b - 1)%Z /\ B2R z = IZR Z0) /\
    Forall2 (fun x y => is_finite y = true /\ Rabs (B2R y - B2R x) <= (/ 2 + 3 * bpow radix2 (b - 23)) * B2R s) w ys.
Proof.
  intros Hb Hw Fw. destruct min_val32_spec as (A & B & C).
  destruct (C100_asymmetric_min_val 24 128 _ _ ltac:(lia) min_val32 b w ltac:(lia) Hw Fw A B C) as (ys & s & z & E1 & E2 & E3 & Z0 & Hz & Fz & Ez & G).
  exists ys, s, z. split; [exact E1|]. split; [exact E2|]. split; [exact E3|]. split; [exists Z0; split; assumption|].
  eapply Forall2_impl'; [|exact G].
  intros x y (F & _ & H). split; [exact F|].
  replace (3 * bpow radix2 (b - 23)) with (6 * bpow radix2 (-24) * IZR (2 ^ b)); [exact H|].
  rewrite (IZR_Zpower radix2) by lia. replace (b - 23)%Z with (1 + (-24 + b))%Z by ring. rewrite !bpow_plus. change (bpow radix2 1) with 2. ring.
Qed.

(** ** Half precision *)
Ltac eval_float E := rewrite <- SF2R_B2SF, E; unfold SF2R, F2R; cbn.

(** The largest finite half-precision weight is quantized to infinity: 65504 / 127 rounds up to 516,
    and 127 * 516 overflows. *)
Definition h65504 : float16 := of_Z 65504.
Theorem C100_float16_overflow_refuted : exists (w : list float16) ys s,
  Forall (fun x => is_finite x = true) w /\ fsym_quant (Some (B754_zero false)) 8 w = Some (ys, s) /\
  is_finite s = true /\ B2R s = 516 /\ ys = [B754_infinity false].
Proof.
  exists [h65504]. eexists _, (fscale (Some (B754_zero false)) h65504 (of_Z 127)). split; [constructor; [vm_compute; reflexivity|constructor]|].
  split; [unfold fsym_quant; cbn [fabs_max freduce_max map fold_left]; reflexivity|].
  assert (E : B2SF (fscale (Some (B754_zero false)) h65504 (of_Z 127)) = SpecFloat.S754_finite false 1032 (-1)) by (vm_compute; reflexivity).
  split; [vm_compute; reflexivity|]. split; [eval_float E; lra|].
  vm_compute. reflexivity.
Qed.

(** Weights whose scale is subnormal: 190 * 2^-24 gets the scale 2^-24, so it is clipped to 127
    steps and is off by 63 steps. *)
Definition h190 : float16 := binary_normalize 11 16 _ _ mode_NE 190 (-24) false.
Theorem C100_float16_subnormal_refuted : exists (w : list float16) x y s,
  fsym_quant (Some (B754_zero false)) 8 w = Some ([y], s) /\ w = [x] /\ is_finite x = true /\ is_finite y = true /\
  0 < B2R s /\ B2R x - B2R y = 63 * B2R s.
Proof.
  exists [h190], h190, (fforward (fscale (Some (B754_zero false)) h190 (of_Z 127)) fzero (of_Z (-127)) (of_Z 127) h190), (fscale (Some (B754_zero false)) h190 (of_Z 127)).
  assert (E0 : B2SF h190 = SpecFloat.S754_finite false 190 (-24)) by (vm_compute; reflexivity).
  assert (A : Babs h190 = h190) by (apply B2SF_inj; vm_compute; reflexivity).
  split; [unfold fsym_quant, fabs_max; cbn [map]; rewrite A; reflexivity|]. split; [reflexivity|].
  assert (E : B2SF (fscale (Some (B754_zero false)) h190 (of_Z 127)) = SpecFloat.S754_finite false 1 (-24)) by (vm_compute; reflexivity).
  assert (E1 : B2SF (fforward (fscale (Some (B754_zero false)) h190 (of_Z 127)) fzero (of_Z (-127)) (of_Z 127) h190) = SpecFloat.S754_finite false 127 (-24)) by (vm_compute; reflexivity).
  split; [vm_compute; reflexivity|]. split; [vm_compute; reflexivity|].
  rewrite <- !SF2R_B2SF, E, E1, E0. unfold SF2R, F2R. cbn. split; lra.
Qed.

(** The default scaling_min_val, 1e-10, is zero in half precision, so it does not keep the scale of
    an all-zero weight away from zero: every element becomes NaN. *)
Definition min_val16 : float16 := binary_normalize 11 16 _ _ mode_NE 14411519 (-57) false.
Theorem C100_float16_zero_weight_refuted : forall n,
  fsym_quant (Some min_val16) 8 (repeat (B754_zero false) (S n)) = Some (repeat B754_nan (S n), B754_zero false).
Proof.
  intros n. unfold fsym_quant, fabs_max. cbn [repeat map freduce_max].
  assert (M : forall k, fold_left fmax2 (map Babs (repeat (B754_zero false : float16) k)) (B754_zero false) = B754_zero false).
  { induction k as [|k IH]; [reflexivity|]. exact IH. }
  change (Babs (B754_zero false : float16)) with (B754_zero false : float16). rewrite M.
  assert (Sc : fscale (Some min_val16) (B754_zero false) (of_Z (2 ^ (8 - 1) - 1)) = (B754_zero false : float16)) by (apply B2SF_inj; vm_compute; reflexivity).
  rewrite Sc. f_equal. f_equal. cbn [map repeat].
  assert (N : fforward (B754_zero false) fzero (of_Z (- (2 ^ (8 - 1) - 1))) (of_Z (2 ^ (8 - 1) - 1)) (B754_zero false) = (B754_nan : float16)) by (apply B2SF_inj; vm_compute; reflexivity).
  rewrite N. f_equal. induction n as [|n IH]; [reflexivity|]. cbn [repeat map]. rewrite N. f_equal. exact IH.
Qed.
(** In single precision the minimum does its work. *)
Example C100_float32_zero_weight :
  fsym_quant (Some min_val32) 8 [B754_zero false; B754_zero false] = Some ([B754_zero false; B754_zero false], min_val32).
Proof.
  unfold fsym_quant.
  assert (A : fabs_max [B754_zero false; B754_zero false] = Some (B754_zero false : float32)) by reflexivity.
  rewrite A. cbv zeta.
  assert (Sc : fscale (Some min_val32) (B754_zero false) (of_Z (2 ^ (8 - 1) - 1)) = min_val32) by (apply B2SF_inj; vm_compute; reflexivity).
  rewrite Sc. cbn [map].
  assert (N : fforward min_val32 fzero (of_Z (- (2 ^ (8 - 1) - 1))) (of_Z (2 ^ (8 - 1) - 1)) (B754_zero false) = (B754_zero false : float32)) by (apply B2SF_inj; vm_compute; reflexivity).
  rewrite N. reflexivity.
Qed.

(** ** bfloat16 *)
(** Eight bits do not fit in bfloat16 arithmetic: with 174 as the largest weight the scale is 175/128,
    and the weight 127.5 is returned as 129, more than one step away. *)
Definition bf127_5 : bfloat16 := binary_normalize 8 128 _ _ mode_NE 255 (-1) false.
Theorem C100_bfloat16_int8_refuted : exists (w : list bfloat16) x y y0 s,
  w = [of_Z 174; x] /\ fsym_quant None 8 w = Some ([y0; y], s) /\ B2R x = 255 / 2 /\ B2R y = 129 /\ B2R s = 175 / 128 /\
  B2R y - B2R x > B2R s.
Proof.
  set (s := fscale None (of_Z 174) (of_Z 127) : bfloat16).
  exists [of_Z 174; bf127_5], bf127_5, (fforward s fzero (of_Z (-127)) (of_Z 127) bf127_5), (fforward s fzero (of_Z (-127)) (of_Z 127) (of_Z 174)), s.
  split; [reflexivity|].
  assert (A : fabs_max [of_Z 174; bf127_5] = Some (of_Z 174 : bfloat16)).
  { unfold fabs_max. cbn [map freduce_max fold_left]. apply f_equal. apply B2SF_inj. vm_compute. reflexivity. }
  split; [unfold fsym_quant; rewrite A; reflexivity|].
  assert (E1 : B2SF bf127_5 = SpecFloat.S754_finite false 255 (-1)) by (vm_compute; reflexivity).
  assert (E2 : B2SF (fforward s fzero (of_Z (-127)) (of_Z 127) bf127_5) = SpecFloat.S754_finite false 129 0) by (vm_compute; reflexivity).
  assert (E3 : B2SF s = SpecFloat.S754_finite false 175 (-7)) by (vm_compute; reflexivity).
  rewrite <- !SF2R_B2SF, E1, E2, E3. unfold SF2R, F2R. cbn. repeat split; lra.
Qed.

(** ** Examples *)
(** Weights 0.1, -1, 0.33 at 4 bits: scale 1/7, codes 1, -7, 2. *)
Definition w01 : float32 := binary_normalize 24 128 _ _ mode_NE 13421773 (-27) false.
Definition w33 : float32 := binary_normalize 24 128 _ _ mode_NE 11072963 (-25) false.
Definition ex_w : list float32 := [w01; of_Z (-1); w33].
Example C100_example_sym : exists ys s, fsym_quant (Some min_val32) 4 ex_w = Some (ys, s) /\
  map B2SF ys = [SpecFloat.S754_finite false 9586981 (-26); SpecFloat.S754_finite true 8388608 (-23); SpecFloat.S754_finite false 9586981 (-25)] /\
  B2SF s = SpecFloat.S754_finite false 9586981 (-26).
Proof. eexists _, _. split; [reflexivity|]. vm_compute. split; reflexivity. Qed.
Example C100_example_hyp : ex_w <> [] /\ Forall (fun x => is_finite x = true) ex_w.
Proof. split; [discriminate|]. repeat constructor. Qed.
Example C100_example_asym : exists ys s z, fasym_quant (Some min_val32) 4 ex_w = Some (ys, s, z) /\
  B2SF z = SpecFloat.S754_finite false 11534336 (-20) /\ length ys = 3%nat.
Proof. eexists _, _, _. split; [reflexivity|]. vm_compute. split; reflexivity. Qed.

Print Assumptions C100_symmetric.
Print Assumptions C100_asymmetric.
Print Assumptions C100_symmetric_scale.
Print Assumptions C100_asymmetric_scale.
Print Assumptions C100_symmetric_min_val.
Print Assumptions C100_asymmetric_min_val.
Print Assumptions C100_float32_symmetric.
Print Assumptions C100_float32_asymmetric.
Print Assumptions C100_float16_overflow_refuted.
Print Assumptions C100_float16_subnormal_refuted.
Print Assumptions C100_float16_zero_weight_refuted.
Print Assumptions C100_bfloat16_int8_refuted.
