(** C51 (straight-through gradients), C73 (the implementations of each straight-through operation
    agree), C74 (minifloat gradients). *)
From Coq Require Import ZArith Reals Lra Lia List Bool.
From Coquelicot Require Import Coquelicot.
From Verif Require Import Ste.
Local Open Scope R_scope.

(** ** Specification: integer range of a format as a function of the (real) bit width. *)
Definition qmax (signed narrow : bool) (b : R) : R :=
  match signed, narrow with
  | false, false => Rpower 2 b - 1
  | false, true => Rpower 2 b - 2
  | true, _ => Rpower 2 (b - 1) - 1
  end.
Definition qmin (signed narrow : bool) (b : R) : R :=
  match signed, narrow with
  | false, _ => 0
  | true, true => - Rpower 2 (b - 1) + 1
  | true, false => - Rpower 2 (b - 1)
  end.
(** Their derivatives with respect to the bit width. *)
Definition qmax' (signed : bool) (b : R) : R := ln 2 * Rpower 2 (if signed then b - 1 else b).
Definition qmin' (signed : bool) (b : R) : R := if signed then - (ln 2 * Rpower 2 (b - 1)) else 0.

Lemma max_int_spec sg nr b :
  val (dmax_int sg nr b) = qmax sg nr (val b) /\
  der (dmax_int sg nr b) = qmax' sg (val b) * der b.
Proof. unfold qmax'. destruct sg, nr; cbn; split; ring. Qed.

Lemma min_int_spec sg nr b :
  val (dmin_int sg nr b) = qmin sg nr (val b) /\
  der (dmin_int sg nr b) = qmin' sg (val b) * der b.
Proof. destruct sg, nr; cbn; split; ring. Qed.

Lemma pow2_ge1 t : 0 <= t -> 1 <= Rpower 2 t.
Proof.
  intros H. rewrite <- (Rpower_O 2) by lra. destruct (Req_dec t 0) as [->|N]; [lra|].
  left. apply Rpower_lt; lra.
Qed.

Lemma pow2_S t : Rpower 2 t = 2 * Rpower 2 (t - 1).
Proof.
  replace t with (1 + (t - 1)) at 1 by ring. rewrite Rpower_plus, Rpower_1 by lra. reflexivity.
Qed.

Lemma range_ok sg nr b : 1 <= b -> qmin sg nr b <= qmax sg nr b.
Proof.
  intros H. assert (P := pow2_ge1 (b - 1) ltac:(lra)). assert (E := pow2_S b).
  destruct sg, nr; cbn; lra.
Qed.

Lemma dclamp_in a lo hi :
  val lo <= val a <= val hi -> dtensor_clamp a lo hi = a.
Proof.
  intros H. unfold dtensor_clamp, dwhere. destruct (Rlt_dec (val hi) (val a)); [lra|].
  destruct (Rlt_dec (val a) (val lo)); [lra|reflexivity].
Qed.
Lemma dclamp_above a lo hi :
  val lo <= val hi -> val hi < val a -> dtensor_clamp a lo hi = hi.
Proof.
  intros H1 H2. unfold dtensor_clamp, dwhere. destruct (Rlt_dec (val hi) (val a)); [|lra].
  destruct (Rlt_dec (val hi) (val lo)); [lra|reflexivity].
Qed.
Lemma dclamp_below a lo hi :
  val lo <= val hi -> val a < val lo -> dtensor_clamp a lo hi = lo.
Proof.
  intros H1 H2. unfold dtensor_clamp, dwhere. destruct (Rlt_dec (val hi) (val a)); [lra|].
  destruct (Rlt_dec (val a) (val lo)); [reflexivity|lra].
Qed.

Lemma val_dclamp a lo hi :
  val (dtensor_clamp a lo hi) = tensor_clamp (val a) (val lo) (val hi).
Proof.
  unfold dtensor_clamp, tensor_clamp, dwhere.
  destruct (Rlt_dec (val hi) (val a));
    (match goal with |- context [Rlt_dec ?u ?v] => destruct (Rlt_dec u v) end); reflexivity.
Qed.

(** The rounded, not yet clamped code of [x]. *)
Definition code (k : ste_kind) (s z x : R) : R := ste_value k (x / s + z).

(** Inputs whose code is within the integer range (boundaries included): the gradient with
    respect to the input is one, with respect to the scale the quantization error in units of
    the scale, and the zero point and bit width get none. *)
Theorem C51_gradient_in_range k sg nr s z b x ds dz db dx :
  s <> 0 ->
  qmin sg nr b <= code k s z x <= qmax sg nr b ->
  dint_quant k false sg nr (D s ds) (D z dz) (D b db) (D x dx) =
  D ((code k s z x - z) * s) (dx + (code k s z x - z - x / s) * ds).
Proof.
  intros Hs H. unfold dint_quant, dto_int, dclamp_impl.
  destruct (max_int_spec sg nr (D b db)) as [M1 M2].
  destruct (min_int_spec sg nr (D b db)) as [N1 N2]. cbn [val der] in *.
  rewrite dclamp_in.
  2:{ rewrite M1, N1. cbn. exact H. }
  unfold code, dmul, dsub, ste_op, ste, dadd, ddiv. cbn [val der]. f_equal. field. assumption.
Qed.

(** Inputs whose code is too large or too small: no gradient for the input; the scale, zero point
    and bit width get the gradient of the range boundary. *)
Theorem C51_gradient_above k sg nr s z b x ds dz db dx :
  s <> 0 -> 1 <= b -> qmax sg nr b < code k s z x ->
  dint_quant k false sg nr (D s ds) (D z dz) (D b db) (D x dx) =
  D ((qmax sg nr b - z) * s) (s * (qmax' sg b * db - dz) + (qmax sg nr b - z) * ds).
Proof.
  intros Hs Hb H. unfold dint_quant, dto_int, dclamp_impl.
  destruct (max_int_spec sg nr (D b db)) as [M1 M2].
  destruct (min_int_spec sg nr (D b db)) as [N1 N2]. cbn [val der] in *.
  rewrite dclamp_above.
  2:{ rewrite M1, N1. apply range_ok. assumption. }
  2:{ rewrite M1. exact H. }
  unfold dmul, dsub. cbn [val der]. rewrite M1, M2. f_equal. ring.
Qed.

Theorem C51_gradient_below k sg nr s z b x ds dz db dx :
  s <> 0 -> 1 <= b -> code k s z x < qmin sg nr b ->
  dint_quant k false sg nr (D s ds) (D z dz) (D b db) (D x dx) =
  D ((qmin sg nr b - z) * s) (s * (qmin' sg b * db - dz) + (qmin sg nr b - z) * ds).
Proof.
  intros Hs Hb H. unfold dint_quant, dto_int, dclamp_impl.
  destruct (max_int_spec sg nr (D b db)) as [M1 M2].
  destruct (min_int_spec sg nr (D b db)) as [N1 N2]. cbn [val der] in *.
  rewrite dclamp_below.
  2:{ rewrite M1, N1. apply range_ok. assumption. }
  2:{ rewrite N1. exact H. }
  unfold dmul, dsub. cbn [val der]. rewrite N1, N2. f_equal. ring.
Qed.

(** With respect to the input alone: one exactly on the in-range inputs, zero elsewhere. *)
Theorem C51_input_gradient_mask k sg nr s z b x :
  s <> 0 -> 1 <= b ->
  der (dint_quant k false sg nr (const s) (const z) (const b) (D x 1)) =
  if Rle_dec (qmin sg nr b) (code k s z x)
  then if Rle_dec (code k s z x) (qmax sg nr b) then 1 else 0
  else 0.
Proof.
  intros Hs Hb. unfold const. destruct (Rle_dec (qmin sg nr b) (code k s z x)) as [H1|H1].
  - destruct (Rle_dec (code k s z x) (qmax sg nr b)) as [H2|H2].
    + rewrite C51_gradient_in_range by tauto. cbn. ring.
    + rewrite C51_gradient_above by (assumption || lra). cbn. ring.
  - rewrite C51_gradient_below by (assumption || lra). cbn. ring.
Qed.

(** With the straight-through clamp every input gets the full gradient, in range or not, and the
    bit width and zero point never get one. *)
Theorem C51_ste_clamp_gradient k sg nr s z b x ds dz db dx :
  s <> 0 ->
  exists q, val (dint_quant k true sg nr (D s ds) (D z dz) (D b db) (D x dx)) = (q - z) * s /\
    q = val (dto_int k false sg nr (D s ds) (D z dz) (D b db) (D x dx)) /\
    der (dint_quant k true sg nr (D s ds) (D z dz) (D b db) (D x dx)) =
      dx + (q - z - x / s) * ds.
Proof.
  intros Hs. eexists. split; [reflexivity|]. split.
  - unfold dto_int, dclamp_impl. rewrite val_dclamp. reflexivity.
  - cbn. field. assumption.
Qed.

(** ** The gradient is the derivative of a surrogate *)

(** Replace, around a given point, the rounding by the translation it performs there, and leave
    everything else - division, clamping to the bit-width dependent range, rescaling - as is. *)
Definition clampR (x lo hi : R) : R := Rmax lo (Rmin x hi).
Definition surrogate (sg nr : bool) (e s z b x : R) : R :=
  (clampR (x / s + z + e) (qmin sg nr b) (qmax sg nr b) - z) * s.

Lemma is_derive_extR (f g : R -> R) (t l : R) :
  (forall u : R, f u = g u :> R) -> is_derive f t l -> is_derive g t l.
Proof. apply is_derive_ext. Qed.

Lemma is_derive_Rpower2 (u : R -> R) t u' :
  is_derive u t u' -> is_derive (fun t => Rpower 2 (u t)) t (ln 2 * Rpower 2 (u t) * u').
Proof.
  intros H. unfold Rpower. evar_last.
  - apply (is_derive_comp (fun v => exp v) (fun t => u t * ln 2)).
    + apply is_derive_exp.
    + apply (is_derive_scal_l u t u' (ln 2)). exact H.
  - unfold scal. cbn. unfold mult. cbn. ring.
Qed.

Lemma qmax_derive sg nr b db :
  is_derive (fun t => qmax sg nr (b + t * db)) 0 (qmax' sg b * db).
Proof.
  assert (L : forall c, is_derive (fun t => b - c + t * db) 0 db).
  { intros c. auto_derive; [exact I|ring]. }
  assert (P : forall c, is_derive (fun t => Rpower 2 (b - c + t * db)) 0 (ln 2 * Rpower 2 (b - c) * db)).
  { intros c. evar_last. apply is_derive_Rpower2. apply L. cbn. f_equal. f_equal. f_equal. ring. }
  unfold qmax'. destruct sg; [|destruct nr]; cbn [qmax].
  - apply (is_derive_extR (fun t => Rpower 2 (b - 1 + t * db) - 1)).
    { intros t. destruct nr; do 2 f_equal; ring. }
    evar_last. apply @is_derive_minus; [apply P|apply @is_derive_const].
    unfold minus, plus, opp, zero. cbn. ring.
  - apply (is_derive_extR (fun t => Rpower 2 (b - 0 + t * db) - 2)).
    { intros t. do 2 f_equal. ring. }
    evar_last. apply @is_derive_minus; [apply P|apply @is_derive_const].
    unfold minus, plus, opp, zero. cbn. rewrite Rminus_0_r. ring.
  - apply (is_derive_extR (fun t => Rpower 2 (b - 0 + t * db) - 1)).
    { intros t. do 2 f_equal. ring. }
    evar_last. apply @is_derive_minus; [apply P|apply @is_derive_const].
    unfold minus, plus, opp, zero. cbn. rewrite Rminus_0_r. ring.
Qed.

Lemma qmin_derive sg nr b db :
  is_derive (fun t => qmin sg nr (b + t * db)) 0 (qmin' sg b * db).
Proof.
  destruct sg.
  - assert (H := qmax_derive true false b db). cbn [qmax qmax' qmin qmin'] in *.
    unfold qmax' in H.
    assert (K : forall c, is_derive (fun t => - (Rpower 2 (b + t * db - 1) - 1) + c) 0
                            (- (ln 2 * Rpower 2 (b - 1)) * db)).
    { intros c. evar_last. apply @is_derive_plus; [apply @is_derive_opp; apply H|apply @is_derive_const].
      unfold plus, opp, zero. cbn. ring. }
    destruct nr.
    + apply (is_derive_extR (fun t => - (Rpower 2 (b + t * db - 1) - 1) + 0));
        [intros t; ring|apply K].
    + apply (is_derive_extR (fun t => - (Rpower 2 (b + t * db - 1) - 1) + (-1)));
        [intros t; ring|apply K].
  - cbn. rewrite Rmult_0_l. apply @is_derive_const.
Qed.

Lemma in_range_eventually (f : R -> R) (l : R) (lo : R) :
  is_derive f 0 l -> lo < f 0 -> locally 0 (fun t => lo < f t).
Proof.
  intros D H. assert (C : continuous f 0) by (apply @ex_derive_continuous; exists l; exact D).
  apply C. apply (open_gt lo). exact H.
Qed.
Lemma lt_eventually (f g : R -> R) (l m : R) :
  is_derive f 0 l -> is_derive g 0 m -> f 0 < g 0 -> locally 0 (fun t => f t < g t).
Proof.
  intros Df Dg H.
  assert (D : is_derive (fun t => g t - f t) 0 (m - l)) by (apply @is_derive_minus; assumption).
  assert (L := in_range_eventually _ _ 0 D ltac:(cbn; lra)).
  revert L. apply filter_imp. intros t Ht. lra.
Qed.

(** Everywhere except exactly at the range boundaries, the gradient computed by the
    straight-through estimators is the derivative of the surrogate, in every direction of input,
    scale, zero point and bit width. *)
Theorem C51_gradient_is_surrogate_derivative k sg nr s z b x ds dz db dx :
  s <> 0 -> 1 < b ->
  code k s z x <> qmin sg nr b -> code k s z x <> qmax sg nr b ->
  let e := code k s z x - (x / s + z) in
  val (dint_quant k false sg nr (D s ds) (D z dz) (D b db) (D x dx)) = surrogate sg nr e s z b x /\
  is_derive (fun t => surrogate sg nr e (s + t * ds) (z + t * dz) (b + t * db) (x + t * dx)) 0
            (der (dint_quant k false sg nr (D s ds) (D z dz) (D b db) (D x dx))).
Proof.
  intros Hs Hb N1 N2 e.
  assert (Hr := range_ok sg nr b ltac:(lra)).
  assert (Ee : x / s + z + e = code k s z x) by (unfold e; ring).
  set (y := fun t => (x + t * dx) / (s + t * ds) + (z + t * dz) + e).
  assert (Y0 : y 0 = code k s z x).
  { unfold y. rewrite !Rmult_0_l, !Rplus_0_r. exact Ee. }
  assert (DY : is_derive y 0 (dx / s - x * ds / (s * s) + dz)).
  { unfold y. auto_derive; [lra|field; lra]. }
  assert (B0 : forall t, b + 0 * t = b) by (intros; ring).
  assert (DM := qmax_derive sg nr b db). assert (DN := qmin_derive sg nr b db).
  assert (DS : is_derive (fun t => s + t * ds) 0 ds) by (auto_derive; [exact I|ring]).
  assert (DZ : is_derive (fun t => z + t * dz) 0 dz) by (auto_derive; [exact I|ring]).
  assert (PROD : forall (g : R -> R) (g' : R), is_derive g 0 g' ->
     is_derive (fun t => (g t - (z + t * dz)) * (s + t * ds)) 0
       ((g' - dz) * s + (g 0 - z) * ds)).
  { intros g g' Dg. evar_last.
    - apply @is_derive_mult; [apply @is_derive_minus; [apply Dg|apply DZ]|apply DS|].
      intros; apply Rmult_comm.
    - unfold minus, plus, opp, mult. cbn. ring. }
  destruct (Rlt_dec (code k s z x) (qmin sg nr b)) as [Lo|Lo];
    [|destruct (Rlt_dec (qmax sg nr b) (code k s z x)) as [Hi|Hi]].
  - rewrite C51_gradient_below by (assumption || lra). cbn [val der]. split.
    + unfold surrogate, clampR. rewrite Ee, Rmin_left, Rmax_left by lra. reflexivity.
    + apply (is_derive_ext_loc (fun t => (qmin sg nr (b + t * db) - (z + t * dz)) * (s + t * ds))).
      * assert (L1 := lt_eventually y _ _ _ DY DN ltac:(cbn beta; rewrite Y0, Rmult_0_l, Rplus_0_r; exact Lo)).
        revert L1. apply filter_imp. intros t Ht. unfold surrogate, clampR. fold (y t).
        rewrite Rmax_left; [reflexivity|]. apply Rle_trans with (y t); [apply Rmin_l|lra].
      * evar_last; [apply (PROD _ _ DN)|]. cbn beta. rewrite Rmult_0_l, Rplus_0_r.
        match goal with |- ?l = ?r => change (l = r :> R) end. ring.
  - rewrite C51_gradient_above by (assumption || lra). cbn [val der]. split.
    + unfold surrogate, clampR. rewrite Ee, Rmin_right, Rmax_right by lra. reflexivity.
    + assert (Hr' : qmin sg nr b < qmax sg nr b).
      { assert (P := pow2_S b). assert (1 < Rpower 2 (b - 1)).
        { assert (Q : Rpower 2 0 < Rpower 2 (b - 1)) by (apply Rpower_lt; lra).
          rewrite Rpower_O in Q; lra. }
        destruct sg, nr; cbn; lra. }
      apply (is_derive_ext_loc (fun t => (qmax sg nr (b + t * db) - (z + t * dz)) * (s + t * ds))).
      * assert (L1 := lt_eventually _ y _ _ DM DY ltac:(cbn beta; rewrite Y0, Rmult_0_l, Rplus_0_r; exact Hi)).
        assert (L2 := lt_eventually _ _ _ _ DN DM ltac:(cbn beta; rewrite !Rmult_0_l, !Rplus_0_r; exact Hr')).
        generalize (filter_and _ _ L1 L2). apply filter_imp. intros t [Ht1 Ht2].
        unfold surrogate, clampR. fold (y t).
        rewrite Rmin_right by lra. rewrite Rmax_right by lra. reflexivity.
      * evar_last; [apply (PROD _ _ DM)|]. cbn beta. rewrite Rmult_0_l, Rplus_0_r.
        match goal with |- ?l = ?r => change (l = r :> R) end. ring.
  - rewrite C51_gradient_in_range by (assumption || lra). cbn [val der]. split.
    + unfold surrogate, clampR. rewrite Ee, Rmin_left, Rmax_right by lra. reflexivity.
    + apply (is_derive_ext_loc (fun t => (y t - (z + t * dz)) * (s + t * ds))).
      * assert (L1 := lt_eventually y _ _ _ DY DM ltac:(cbn beta; rewrite Y0, Rmult_0_l, Rplus_0_r; lra)).
        assert (L2 := lt_eventually _ y _ _ DN DY ltac:(cbn beta; rewrite Y0, Rmult_0_l, Rplus_0_r; lra)).
        generalize (filter_and _ _ L1 L2). apply filter_imp. intros t [Ht1 Ht2].
        unfold surrogate, clampR. fold (y t).
        rewrite Rmin_left by lra. rewrite Rmax_right by lra. reflexivity.
      * evar_last; [apply (PROD _ _ DY)|]. rewrite Y0.
        match goal with |- ?l = ?r => change (l = r :> R) end. field. assumption.
Qed.

(** ** Binary and ternary quantizers *)

(** Binary quantization passes the gradient of every input, scaled by the scale. *)
Theorem C51_binary_gradient s ds x dx :
  der (dbinary (D s ds) (D x dx)) = s * dx + binary_sign x * ds.
Proof. cbn. ring. Qed.

(** The clamped variant zeroes it exactly outside [-scale, scale] (boundaries pass). *)
Theorem C51_clamped_binary_gradient s x :
  0 < s ->
  der (dclamped_binary false (const s) (D x 1)) =
  (if Rle_dec (Rabs x) s then s else 0).
Proof.
  intros Hs. unfold dclamped_binary, dclamp_impl.
  destruct (Rle_dec (Rabs x) s) as [H|H].
  - rewrite dclamp_in; [cbn; ring|]. cbn. apply Rabs_le_between. exact H.
  - destruct (Rlt_dec s x) as [A|A].
    + rewrite dclamp_above by (cbn; lra). cbn. ring.
    + assert (x < - s).
      { destruct (Rlt_dec x (- s)); [assumption|]. exfalso. apply H. apply Rabs_le_between. lra. }
      rewrite dclamp_below by (cbn; lra). cbn. ring.
Qed.

(** Ternary quantization zeroes it exactly inside the threshold. *)
Theorem C51_ternary_gradient th s x :
  der (dternary th (const s) (D x 1)) =
  (if Rlt_dec (th * s) (Rabs x) then s else 0).
Proof. unfold dternary. cbn. destruct (Rlt_dec (th * s) (Rabs x)); ring. Qed.

(** [abs_binary_sign_grad] has subgradient one at zero, unlike torch.abs, and the same gradient
    elsewhere. *)
Theorem C51_abs_gradient x dx :
  val (dabs_binary_sign_grad (D x dx)) = val (dabs (D x dx)) /\
  der (dabs_binary_sign_grad (D 0 dx)) = dx /\ der (dabs (D 0 dx)) = 0 /\
  (x <> 0 -> der (dabs_binary_sign_grad (D x dx)) = der (dabs (D x dx))).
Proof.
  cbn. unfold signR, binary_sign. split; [reflexivity|].
  split; [destruct (Rle_dec 0 0); [ring|lra]|]. split.
  - destruct (Rlt_dec 0 0); [lra|ring].
  - intros N. destruct (Rle_dec 0 x); destruct (Rlt_dec 0 x); try lra; destruct (Rlt_dec x 0); lra.
Qed.

(** ** Minifloat quantizers: the internal scale is differentiated too. *)

Lemma ln2_nz : ln 2 <> 0.
Proof. assert (0 < ln 2) by (rewrite <- ln_1; apply ln_increasing; lra). lra. Qed.

Lemma signR_abs u : u = signR u * Rabs u.
Proof.
  unfold signR. destruct (Rlt_dec 0 u); [rewrite Rabs_right by lra; ring|].
  destruct (Rlt_dec u 0); [rewrite Rabs_left by lra; ring|]. replace u with 0 by lra. rewrite Rabs_R0. ring.
Qed.

(** The value before clamping, in units of the scale. *)
Definition minifloat (m fmin eps u : R) : R :=
  let i := Rpower 2 (Rmax (floorR (ln (Rabs u + eps) / ln 2) - m) fmin) in
  i * roundR (u / i).

(** Normal values within range: the input gradient is the ratio of the quantized to the original
    value and the scale gets no gradient, both up to the guard [eps]. *)
Theorem C74_minifloat_gradient_normal m fmin eps maxv s x ds dx :
  0 <= eps -> s <> 0 -> x <> 0 ->
  let u := x / s in
  let q := minifloat m fmin eps u in
  fmin <= floorR (ln (Rabs u + eps) / ln 2) - m -> - maxv <= q <= maxv ->
  dfloat_quant false m fmin eps maxv (D s ds) (D x dx) =
  D (q * s)
    (dx * (1 + (q - u) * signR u / (Rabs u + eps)) + ds * ((q - u) * eps / (Rabs u + eps))).
Proof.
  intros He Hs Hx u q H Hq. unfold dfloat_quant, dclamp_impl.
  assert (Hu : u <> 0) by (unfold u, Rdiv; apply Rmult_integral_contrapositive_currified;
                           [assumption|apply Rinv_neq_0_compat; assumption]).
  assert (A : 0 < Rabs u) by (apply Rabs_pos_lt; exact Hu).
  assert (L := ln2_nz).
  assert (Q : dfloat_quantize m fmin eps (D s ds) (D x dx) =
              D q ((dx / s - u * ds / s) * (1 + (q - u) * signR u / (Rabs u + eps)))).
  { unfold dfloat_quantize, dmul, ste_op, ste, ddiv, dfloat_internal_scale, dexp2, dclamp_min,
      dsub, dlog2, dadd, dabs, const, ste_op, ste. cbn [val der ste_value]. fold u.
    unfold clamp_min. rewrite Rmax_left by lra.
    destruct (Rle_dec fmin _) as [_|F]; [|exfalso; apply F; exact H].
    unfold q, minifloat. cbv zeta. rewrite Rmax_left by lra.
    set (E := Rpower 2 (floorR (ln (Rabs u + eps) / ln 2) - m)).
    assert (P : E <> 0) by (unfold E, Rpower; apply Rgt_not_eq, exp_pos).
    f_equal. unfold u in *. field. repeat split; lra. }
  rewrite Q, dclamp_in by (cbn; lra). unfold dmul. cbn [val der]. f_equal.
  assert (X : x = u * s) by (unfold u; field; assumption).
  assert (S1 : u = signR u * Rabs u) by apply signR_abs.
  assert (S2 : signR u * signR u = 1).
  { unfold signR. destruct (Rlt_dec 0 u); [ring|]. destruct (Rlt_dec u 0); [ring|lra]. }
  set (g := signR u) in *. set (a := Rabs u) in *. clearbody g a q.
  field_simplify; [|lra|lra]. 
  assert (K : u * g = a) by (rewrite S1, Rmult_assoc, (Rmult_comm a), <- Rmult_assoc, S2; ring).
  f_equal. replace (u ^ 2 * ds * g) with (u * ds * (u * g)) by ring.
  replace (u * ds * q * g) with (ds * q * (u * g)) by ring. rewrite K. ring.
Qed.

(** Without the guard, exactly: input gradient q/u, scale gradient zero. *)
Corollary C74_minifloat_gradient_ratio m fmin maxv s x ds dx :
  s <> 0 -> x <> 0 ->
  let u := x / s in
  let q := minifloat m fmin 0 u in
  fmin <= floorR (ln (Rabs u + 0) / ln 2) - m -> - maxv <= q <= maxv ->
  der (dfloat_quant false m fmin 0 maxv (D s ds) (D x dx)) = dx * (q / u).
Proof.
  intros Hs Hx u q H Hq. unfold u, q in *.
  rewrite C74_minifloat_gradient_normal by (assumption || lra). cbn [der].
  assert (Hu : x / s <> 0) by (unfold Rdiv; apply Rmult_integral_contrapositive_currified;
                           [assumption|apply Rinv_neq_0_compat; assumption]).
  fold u in Hu |- *. fold q. assert (A : 0 < Rabs u) by (apply Rabs_pos_lt; exact Hu).
  assert (S1 : Rabs u = u * signR u).
  { unfold signR. destruct (Rlt_dec 0 u); [rewrite Rabs_right by lra; ring|].
    destruct (Rlt_dec u 0); [rewrite Rabs_left by lra; ring|lra]. }
  assert (S3 : signR u <> 0) by (intros E; rewrite E in S1; lra).
  rewrite S1 in *. clearbody u q. field. split; assumption.
Qed.

(** Subnormal values: the internal scale is constant there, so the gradients are those of an
    integer quantizer. *)
Theorem C74_minifloat_gradient_subnormal m fmin eps maxv s x ds dx :
  s <> 0 ->
  let u := x / s in
  let q := minifloat m fmin eps u in
  floorR (ln (Rabs u + eps) / ln 2) - m < fmin -> - maxv <= q <= maxv ->
  dfloat_quant false m fmin eps maxv (D s ds) (D x dx) = D (q * s) (dx + (q - u) * ds).
Proof.
  intros Hs u q H Hq. unfold dfloat_quant, dclamp_impl.
  assert (Q : dfloat_quantize m fmin eps (D s ds) (D x dx) = D q (dx / s - u * ds / s)).
  { unfold dfloat_quantize, dmul, ste_op, ste, ddiv, dfloat_internal_scale, dexp2, dclamp_min,
      dsub, dlog2, dadd, dabs, const, ste_op, ste. cbn [val der ste_value]. fold u.
    unfold clamp_min. rewrite Rmax_right by lra.
    destruct (Rle_dec fmin _) as [F|_]; [lra|].
    unfold q, minifloat. cbv zeta. rewrite Rmax_right by lra.
    assert (P : Rpower 2 fmin <> 0) by (unfold Rpower; apply Rgt_not_eq, exp_pos).
    f_equal. unfold u in *. field. repeat split; lra. }
  rewrite Q, dclamp_in by (cbn; lra). unfold dmul. cbn [val der]. f_equal.
  unfold u. field. assumption.
Qed.

(** Saturated values: only the scale gets a gradient. *)
Theorem C74_minifloat_gradient_saturated m fmin eps maxv s x ds dx :
  0 <= maxv -> maxv < minifloat m fmin eps (x / s) ->
  dfloat_quant false m fmin eps maxv (D s ds) (D x dx) = D (maxv * s) (maxv * ds).
Proof.
  intros Hm H. unfold dfloat_quant, dclamp_impl. rewrite dclamp_above.
  - unfold dmul. cbn. f_equal. ring.
  - cbn. lra.
  - exact H.
Qed.

Lemma Int_part_uniq (x : R) (k : Z) : IZR k <= x < IZR k + 1 -> Int_part x = k.
Proof.
  intros H. destruct (base_Int_part x) as [A B].
  assert (C : (Int_part x < k + 1)%Z) by (apply lt_IZR; rewrite plus_IZR; lra).
  assert (E : (k < Int_part x + 1)%Z) by (apply lt_IZR; rewrite plus_IZR; lra). lia.
Qed.

Lemma log2_bounds u : 1 <= u < 2 -> 0 <= ln u / ln 2 < 1.
Proof.
  intros H. assert (P : 0 < ln 2) by (rewrite <- ln_1; apply ln_increasing; lra).
  split.
  - apply Rmult_le_pos; [|left; apply Rinv_0_lt_compat; exact P].
    destruct (Req_dec u 1) as [->|]; [rewrite ln_1; lra|]. rewrite <- ln_1. left. apply ln_increasing; lra.
  - apply Rmult_lt_reg_r with (ln 2); [exact P|]. unfold Rdiv.
    rewrite Rmult_assoc, Rinv_l, Rmult_1_r, Rmult_1_l by lra. apply ln_increasing; lra.
Qed.

(** So minifloat quantization is not straight-through: with one mantissa bit, 5/4 is quantized
    to 1 and its gradient is 4/5. *)
Theorem C74_minifloat_identity_gradient_refuted :
  exists m fmin maxv x, 0 < maxv /\
    - maxv <= minifloat m fmin 0 x <= maxv /\
    val (dfloat_quant false m fmin 0 maxv (const 1) (D x 1)) = 1 /\
    der (dfloat_quant false m fmin 0 maxv (const 1) (D x 1)) = 4 / 5.
Proof.
  exists 1, (-10), 6, (5/4).
  assert (F : floorR (ln (Rabs (5/4) + 0) / ln 2) = 0).
  { rewrite Rplus_0_r, Rabs_right by lra. unfold floorR.
    rewrite (Int_part_uniq _ 0); [reflexivity|]. assert (B := log2_bounds (5/4) ltac:(lra)). lra. }
  assert (Q : minifloat 1 (-10) 0 (5/4) = 1).
  { unfold minifloat. cbv zeta. rewrite F, Rmax_left by lra.
    replace (0 - 1) with (- (1)) by ring. rewrite Rpower_Ropp, Rpower_1 by lra.
    replace (5/4 / / 2) with (5/2) by field. unfold roundR.
    rewrite (Int_part_uniq (5/2) 2) by lra.
    destruct (Rlt_dec (5/2 - 2) (1/2)); [lra|]. destruct (Rlt_dec (1/2) (5/2 - 2)); [lra|].
    cbn [Z.even]. lra. }
  unfold const. replace (5/4) with (5/4/1) in F, Q by field.
  split; [lra|]. replace (5/4) with (5/4/1) at 1 2 by field. rewrite Q. split; [lra|].
  assert (N := C74_minifloat_gradient_normal 1 (-10) 0 6 1 (5/4) 0 1).
  cbv zeta in N. rewrite F, Q in N.
  assert (V := N ltac:(lra) ltac:(lra) ltac:(lra) ltac:(lra) ltac:(lra)).
  rewrite V. cbn [val der]. split; [ring|].
  unfold signR. destruct (Rlt_dec 0 (5/4/1)) as [_|Z]; [|exfalso; apply Z; lra].
  rewrite Rabs_right by lra. field.
Qed.

(** ** The variants of each operation agree *)

(** Python, native (C++) and exported (ONNX) forms of the sign, rounding and tensor clamp
    operations compute the same values; the in-place and scalar clamps agree with the tensor
    clamp whenever the bounds are ordered. *)
Theorem C73_variants_agree x lo hi :
  binary_sign x = native_binary_sign x /\ binary_sign x = onnx_binary_sign x /\
  round_to_zero x = native_round_to_zero x /\ round_to_zero x = onnx_round_to_zero x /\
  dpu_round x = native_dpu_round x /\
  tensor_clamp x lo hi = native_tensor_clamp x lo hi /\
  tensor_clamp x lo hi = onnx_tensor_clamp x lo hi /\
  tensor_clamp x lo hi = tensor_clamp_inplace x lo hi /\
  (lo <= hi -> tensor_clamp x lo hi = torch_clamp x lo hi /\ tensor_clamp x lo hi = onnx_clip x lo hi).
Proof.
  unfold native_binary_sign, onnx_binary_sign, binary_sign, native_round_to_zero, onnx_round_to_zero,
    round_to_zero, native_dpu_round, dpu_round, native_tensor_clamp, onnx_tensor_clamp,
    tensor_clamp_inplace, torch_clamp, onnx_clip, tensor_clamp.
  repeat match goal with |- _ /\ _ => split end; try reflexivity.
  - destruct (Rle_dec 0 x); destruct (Rlt_dec x 0); lra.
  - destruct (Rle_dec 0 x); destruct (Rlt_dec x 0); lra.
  - destruct (Rlt_dec hi x).
    + rewrite Rmin_right by lra. destruct (Rlt_dec hi lo); [rewrite Rmax_right by lra|rewrite Rmax_left by lra]; reflexivity.
    + rewrite Rmin_left by lra. destruct (Rlt_dec x lo); [rewrite Rmax_right by lra|rewrite Rmax_left by lra]; reflexivity.
  - intros H. assert (E : (if Rlt_dec (if Rlt_dec hi x then hi else x) lo then lo
                           else if Rlt_dec hi x then hi else x) = Rmin (Rmax x lo) hi).
    { destruct (Rlt_dec hi x).
      - rewrite Rmax_left by lra. rewrite Rmin_right by lra. destruct (Rlt_dec hi lo); lra.
      - destruct (Rlt_dec x lo).
        + rewrite Rmax_right, Rmin_left by lra. reflexivity.
        + rewrite Rmax_left, Rmin_left by lra. reflexivity. }
    split; exact E.
Qed.

(** With crossed bounds the tensor clamp returns the lower and the scalar clamp the upper one. *)
Theorem C73_crossed_bounds_refuted :
  exists x lo hi, tensor_clamp x lo hi = lo /\ torch_clamp x lo hi = hi /\ lo <> hi.
Proof.
  exists 0, 1, (-1). unfold tensor_clamp, torch_clamp.
  destruct (Rlt_dec (-1) 0); [|lra]. destruct (Rlt_dec (-1) 1); [|lra].
  split; [reflexivity|]. rewrite Rmax_right, Rmin_right by lra. lra.
Qed.

(** ** Examples *)
Lemma code_example : code KRound (1/10) 0 (7/50) = 1.
Proof.
  unfold code, ste_value, roundR. replace (7/50/(1/10) + 0) with (7/5) by field.
  rewrite (Int_part_uniq (7/5) 1) by lra. destruct (Rlt_dec (7/5 - 1) (1/2)); [reflexivity|lra].
Qed.

Lemma q8 : qmin true false 8 = -128 /\ qmax true false 8 = 127.
Proof.
  cbn. replace (8 - 1) with (INR 7) by (cbn; ring). rewrite Rpower_pow by lra. cbn. lra.
Qed.

(** 0.14 at scale 0.1: quantized to 0.1, input gradient 1, scale gradient 1 - 1.4. *)
Example C51_example_in_range :
  dint_quant KRound false true false (D (1/10) 1) (const 0) (const 8) (D (7/50) 0) =
  D ((1 - 0) * (1/10)) (0 + (1 - 0 - 7/50/(1/10)) * 1).
Proof.
  unfold const. destruct q8 as [A B].
  rewrite C51_gradient_in_range by (lra || (rewrite code_example, A, B; lra)).
  rewrite code_example. reflexivity.
Qed.

(** 20 at scale 0.1 saturates at 12.7: no input gradient, scale gradient 127. *)
Example C51_example_above :
  qmax true false 8 < code KFloor (1/10) 0 20 /\
  dint_quant KFloor false true false (D (1/10) 1) (const 0) (const 8) (D 20 1) =
  D ((127 - 0) * (1/10)) (1/10 * (qmax' true 8 * 0 - 0) + (127 - 0) * 1).
Proof.
  destruct q8 as [A B]. assert (C : code KFloor (1/10) 0 20 = 200).
  { unfold code, ste_value, floorR. replace (20/(1/10) + 0) with 200 by field.
    rewrite (Int_part_uniq 200 200) by lra. reflexivity. }
  rewrite B, C. split; [lra|]. unfold const.
  rewrite C51_gradient_above by (lra || (rewrite B, C; lra)). rewrite B. reflexivity.
Qed.

Print Assumptions C51_gradient_is_surrogate_derivative.
Print Assumptions C74_minifloat_gradient_normal.
Print Assumptions C73_variants_agree.
