(** Statistics-based weight scaling evaluated in IEEE-754 binary arithmetic (the formats of
    [FloatQuant]): src/brevitas/core/stats/stats_op.py, core/scaling/runtime.py,
    core/scaling/int_scaling.py, core/zero_point.py and core/quant/int.py [RescalingIntQuant],
    for FloatRestrictValue and RoundSte.  One channel (or one tensor) of weights is a list.
    Integer constants are exact in the formats and bit widths considered.

    torch.clamp_min with a Python scalar compares with the scalar rounded to the tensor's type:
    the default scaling_min_val of 1e-10 is a normal number of float32 and bfloat16, and zero in
    float16 (half of its smallest subnormal is 2^-25). *)
From Coq Require Import ZArith Bool List.
From Flocq Require Import Core BinarySingleNaN.
From Verif Require Import FloatQuant.
Import ListNotations.

Section Model.
Variable prec emax : Z.
Context (prec_gt_0_ : Prec_gt_0 prec) (prec_lt_emax_ : Prec_lt_emax prec emax).
Notation float := (binary_float prec emax).

(** torch.max / torch.min of two numbers: NaN is propagated. *)
Definition fmax2 (a b : float) : float :=
  if is_nan a then a else if is_nan b then b else if Bltb a b then b else a.
Definition fmin2 (a b : float) : float :=
  if is_nan a then a else if is_nan b then b else if Bltb b a then b else a.
Definition freduce_max (l : list float) : option float :=
  match l with [] => None | x :: xs => Some (fold_left fmax2 xs x) end.
Definition freduce_min (l : list float) : option float :=
  match l with [] => None | x :: xs => Some (fold_left fmin2 xs x) end.
Definition fzero : float := B754_zero false.

(** stats_op.py L164-177 [AbsMax]. *)
Definition fabs_max (l : list float) : option float := freduce_max (map Babs l).
(** stats_op.py L27-47 [NegativeMinOrZero]. *)
Definition fneg_min_or_zero (l : list float) : option float :=
  match freduce_min l with Some m => Some (fmin2 m fzero) | None => None end.
(** stats_op.py L180-204 [AbsMinMax]. *)
Definition fabs_min_max (l : list float) : option float :=
  match freduce_max l, freduce_min l with
  | Some mx, Some mn => Some (Babs (Bminus mode_NE mx (fmin2 mn fzero)))
  | _, _ => None
  end.

(** runtime.py L87-97 [_StatsScaling.forward] with restrict_val.py L24-44. *)
Definition fscale (mv : option float) (stats threshold : float) : float :=
  let s := Bdiv mode_NE stats threshold in
  match mv with Some v => fmax2 s v | None => s end.

(** The number n in the format. *)
Definition of_Z (n : Z) : float := binary_normalize prec emax _ _ mode_NE n 0 false.

(** int.py L150-160 for a signed, narrow-range quantizer with zero zero point and AbsMax
    (int_scaling.py L18-23: the threshold is 2^(b-1) - 1). *)
Definition fsym_quant (mv : option float) (b : Z) (w : list float) : option (list float * float) :=
  let t := (2 ^ (b - 1) - 1)%Z in
  match fabs_max w with
  | Some st =>
      let s := fscale mv st (of_Z t) in
      Some (map (fforward s fzero (of_Z (- t)) (of_Z t)) w, s)
  | None => None
  end.

(** int.py L150-160 for an unsigned quantizer with AbsMinMax and zero_point.py L65-87
    [StatsFromParameterZeroPoint] with a quantized zero point (L53-60). *)
Definition fasym_quant (mv : option float) (b : Z) (w : list float)
  : option (list float * float * float) :=
  let t := (2 ^ b - 1)%Z in
  match fabs_min_max w, fneg_min_or_zero w with
  | Some st, Some mn =>
      let s := fscale mv st (of_Z t) in
      let z := fto_int s fzero fzero (of_Z t) (Bopp mn) in
      Some (map (fforward s z fzero (of_Z t)) w, s, z)
  | _, _ => None
  end.
End Model.

Arguments fmax2 {prec emax}.
Arguments fmin2 {prec emax}.
Arguments freduce_max {prec emax}.
Arguments freduce_min {prec emax}.
Arguments fzero {prec emax}.
Arguments fabs_max {prec emax}.
Arguments fneg_min_or_zero {prec emax}.
Arguments fabs_min_max {prec emax _ _}.
Arguments fscale {prec emax _ _}.
Arguments of_Z {prec emax _ _}.
Arguments fsym_quant {prec emax _ _}.
Arguments fasym_quant {prec emax _ _}.
