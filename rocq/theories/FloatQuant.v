(** Integer quantization evaluated in IEEE-754 binary arithmetic with rounding to nearest, ties to
    even.  [prec]/[emax]: 24/128 is torch.float32, 11/16 torch.float16, 8/128 torch.bfloat16.
    Half and bfloat16 kernels compute in single precision and round once more; for one multiplication,
    division, addition or subtraction this is the correctly rounded result (24 >= 2*11+2), so one
    rounded operation of the narrow format is used.

    Not modelled here: NaN payloads, the STE gradients, broadcasting (one scale, zero point and
    element at a time), delay_wrapper (zero delay steps). *)
From Coq Require Import ZArith Bool.
From Flocq Require Import Core BinarySingleNaN.

Section Model.
Variable prec emax : Z.
Context (prec_gt_0_ : Prec_gt_0 prec) (prec_lt_emax_ : Prec_lt_emax prec emax).
Notation float := (binary_float prec emax).

(** brevitas/function/ops.py tensor_clamp L96-98: where(x > max, max, x), then where(out < min, min, out).
    Comparisons with NaN are false. *)
Definition fclamp (x lo hi : float) : float :=
  let out := if Bltb hi x then hi else x in
  if Bltb out lo then lo else out.

(** core/quant/int_base.py IntQuant.to_int L66-76 with RoundSte (torch.round, ties to even). *)
Definition fto_int (s zp lo hi x : float) : float :=
  let y := Bdiv mode_NE x s in
  let y := Bplus mode_NE y zp in
  let y := Bnearbyint mode_NE y in
  fclamp y lo hi.

(** The last two lines of IntQuant.forward L87-92. *)
Definition fdequant (s zp n : float) : float := Bmult mode_NE (Bminus mode_NE n zp) s.
Definition fforward (s zp lo hi x : float) : float := fdequant s zp (fto_int s zp lo hi x).

(** quant_tensor/int_quant_tensor.py _pre_round_int_value L62-73 (no bfloat16 conversion) and the
    rounded value of int() L110-112. *)
Definition fpre_round (s zp v : float) : float := Bplus mode_NE (Bdiv mode_NE v s) zp.
Definition fint (s zp v : float) : float := Bnearbyint mode_NE (fpre_round s zp v).
End Model.

Arguments fclamp {prec emax}.
Arguments fto_int {prec emax _ _}.
Arguments fdequant {prec emax _ _}.
Arguments fforward {prec emax _ _}.
Arguments fpre_round {prec emax _ _}.
Arguments fint {prec emax _ _}.

#[global] Instance prec24 : Prec_gt_0 24. Proof. reflexivity. Qed.
#[global] Instance lt24 : Prec_lt_emax 24 128. Proof. reflexivity. Qed.
#[global] Instance prec11 : Prec_gt_0 11. Proof. reflexivity. Qed.
#[global] Instance lt11 : Prec_lt_emax 11 16. Proof. reflexivity. Qed.
#[global] Instance prec8 : Prec_gt_0 8. Proof. reflexivity. Qed.
#[global] Instance lt8 : Prec_lt_emax 8 128. Proof. reflexivity. Qed.
Notation float32 := (binary_float 24 128).
Notation float16 := (binary_float 11 16).
Notation bfloat16 := (binary_float 8 128).

(** .type(torch.float32) of a bfloat16 tensor (exact). *)
Definition to_f32 (x : bfloat16) : float32 :=
  match x with
  | B754_zero s => B754_zero s
  | B754_infinity s => B754_infinity s
  | B754_nan => B754_nan
  | B754_finite s m e _ => binary_normalize 24 128 _ _ mode_NE (cond_Zopp s (Zpos m)) e s
  end.
(** int() of a bfloat16 quant tensor, int_quant_tensor.py L66-69: single-precision division. *)
Definition bf16_int (s zp v : bfloat16) : float32 := fint (to_f32 s) (to_f32 zp) (to_f32 v).
