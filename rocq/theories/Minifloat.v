(** Model of minifloat quantization:
    src/brevitas/core/quant/float.py, src/brevitas/core/function_wrapper/clamp.py
    [FloatClamp], src/brevitas/utils/float_quant_utils.py,
    src/brevitas/utils/torch_utils.py [float_internal_scale],
    src/brevitas/function/ops.py [max_float] and
    src/brevitas/core/scaling/float_scaling.py.

    Element-wise, exact rationals.  [floor(log2 y)] on y > 0 is [floor_log2] (exact). *)
From Verif Require Import QUtil Ops Log2Q.
Open Scope Q_scope.

(** utils/torch_utils.py L94-104 [float_internal_scale]:
    exp2(clamp_min(floor(log2(|x| + eps)) - mantissa_bit_width, fp_internal_scale_min)). *)
Definition float_internal_scale (x : Q) (m smin : Z) (eps : Q) : Q :=
  pow2 (Z.max (floor_log2 (Qabs x + eps) - m) smin).

(** core/quant/float.py L49-50: [fp_internal_scale_min = 1 - exponent_bias - mantissa]. *)
Definition fp_internal_scale_min (m bias : Z) : Z := (1 - bias - m)%Z.

(** function/ops.py L192-203 [max_float]: the sum of 2^0, 2^-1, ..., 2^-m, times
    2^(2^e - 1 - bias). *)
Definition max_float (e m bias : Z) : Q :=
  fold_left (fun a i => a + pow2 (- Z.of_nat i)) (seq 0 (Z.to_nat m + 1)) 0
  * pow2 (2 ^ e - 1 - bias).

(** A result element: finite or one of the special values FloatClamp writes. *)
Inductive fval := Fin (q : Q) | PInf | NInf | NaN.

(** Reserved codes are strings of '0'/'1' written mantissa-first; a string is a list of
    bits, most significant first. *)
Definition bits := list bool.

(** The configuration of a FloatQuant together with its FloatClamp. *)
Record fcfg := FCfg {
  fe : Z;                       (* exponent_bit_width *)
  fm : Z;                       (* mantissa_bit_width *)
  fbias : Z;                    (* exponent_bias *)
  fsigned : bool;
  fsat : bool;                  (* saturating *)
  finf : option (list bits);    (* inf_values *)
  fnan : option (list bits);    (* nan_values *)
  fmax_avail : option Q;        (* max_available_float *)
  fmode : rmode                 (* float_to_int_impl *)
}.

(** clamp.py L103-107 and float_scaling.py L29-33: `if max_available_float:` keeps the
    limit only when it is truthy, i.e. given and different from zero. *)
Definition kept_limit (o : option Q) : option Q :=
  match o with
  | Some a => if Qeq_bool a 0 then None else Some a
  | None => None
  end.

(** clamp.py L144-147 and float_scaling.py L36-41 [FloatScaling.forward]. *)
Definition float_max_value (c : fcfg) : Q :=
  let mx := max_float (fe c) (fm c) (fbias c) in
  match kept_limit (fmax_avail c) with
  | None => mx
  | Some a => torch_min mx a
  end.

(** clamp.py L116-134 [inf_nan_clamp] on a finite element: [p]/[n] are the masks computed
    before clamping, [x] the already clamped value. None: the RuntimeError branch. *)
Definition inf_nan_clamp (c : fcfg) (p n : bool) (x : Q) : option fval :=
  match finf c, fnan c with
  | Some _, _ =>
      (* the second assignment wins when both masks hold *)
      Some (if n then NInf else if p then PInf else Fin x)
  | None, Some _ => Some (if p || n then NaN else Fin x)
  | None, None => None
  end.

(** clamp.py L139-163 [FloatClamp.forward] on a finite element. *)
Definition float_clamp (c : fcfg) (x : Q) : option fval :=
  let max_value := float_max_value c in
  let min_value := if fsigned c then - max_value else 0 in
  let p := Qlt_bool max_value x in
  let n := Qlt_bool max_value (- x) in
  let y := tensor_clamp x min_value max_value in
  if fsat c then Some (Fin y) else inf_nan_clamp c p n y.

(** core/quant/float.py L69-76 [FloatQuant.quantize] on one element
    (input_view_impl is element-wise neutral). *)
Definition float_quantize (c : fcfg) (eps x scale : Q) : Q :=
  let scaled := x / scale in
  let s := float_internal_scale scaled (fm c) (fp_internal_scale_min (fm c) (fbias c)) eps in
  s * float_to_int (fmode c) (scaled / s).

(** core/quant/float.py L78-80 [dequantize]; scaling +-inf by a positive scale and NaN by
    anything leaves them unchanged. *)
Definition float_dequantize (v : fval) (scale : Q) : fval :=
  match v with Fin y => Fin (y * scale) | w => w end.

(** core/quant/float.py L83-100 [FloatQuant.forward], value output, given the scale
    computed by [scaling_impl] (observer_only is modelled by the flag). *)
Definition float_quant (c : fcfg) (observer : bool) (eps x scale : Q) : option fval :=
  if observer then Some (Fin x)
  else
    match float_clamp c (float_quantize c eps x scale) with
    | Some v => Some (float_dequantize v scale)
    | None => None
    end.

(** core/quant/float.py L32-47: construction fails on inconsistent widths. *)
Definition float_quant_init_ok (bit_width : Z) (c : fcfg) : bool :=
  (bit_width =? fe c + fm c + (if fsigned c then 1 else 0))%Z
  && negb (fe c =? 0)%Z && negb (fm c =? 0)%Z.

(** ** utils/float_quant_utils.py *)

(** Python int(s, 2). *)
Definition int_of_bits (s : bits) : Z :=
  fold_left (fun a (b : bool) => 2 * a + (if b then 1 else 0))%Z s 0%Z.

(** Python format(n, '0{w}b') for 0 <= n < 2^w: exactly w bits. *)
Fixpoint format_bits (w : nat) (n : Z) : bits :=
  match w with
  | O => []
  | S w' => format_bits w' (n / 2) ++ [Z.odd n]
  end.

(** L8-17 [mantissa_bits_to_float] with frexp_compatible = False. *)
Fixpoint mantissa_loop (i : Z) (s : bits) (res : Q) : Q :=
  match s with
  | [] => res
  | b :: s' => mantissa_loop (i + 1) s' (res + pow2 (- (i + 1)) * (if b then 1 else 0))
  end.
Definition mantissa_bits_to_float (s : bits) (normal : bool) : Q :=
  mantissa_loop 0 s (if normal then 1 else 0).

(** L20-33 [get_minifloat_value]. *)
Definition get_minifloat_value (exponent mantissa : bits) (bias : Z) : Q :=
  let ev := int_of_bits exponent in
  if (ev =? 0)%Z then pow2 (ev - (bias - 1)) * mantissa_bits_to_float mantissa false
  else pow2 (ev - bias) * mantissa_bits_to_float mantissa true.

Fixpoint min_list (a : Z) (l : list Z) : Z :=
  match l with [] => a | b :: l' => min_list (Z.min a b) l' end.

(** L36-83 [get_max_available_float]. None: an exception (assertion, RuntimeError, or the
    ValueError of min() on an empty tuple). *)
Definition get_max_available_float (e m : nat) (bias : Z)
    (nan_values inf_values : option (list bits)) (saturating : bool) : option Q :=
  match inf_values, nan_values with
  | None, None =>
      if saturating then
        Some (get_minifloat_value (repeat true e) (repeat true m) bias)
      else None
  | _, Some nv =>
      let special := match inf_values with Some iv => nv ++ iv | None => nv end in
      if existsb (fun s => Nat.ltb m (length s)) special then None
      else
        match map int_of_bits special with
        | [] => None
        | a :: l =>
            let max_value_mantissa := (min_list a l - 1)%Z in
            if (max_value_mantissa <? 0)%Z then
              Some (get_minifloat_value (repeat true (e - 1) ++ [false]) (repeat true m) bias)
            else
              Some (get_minifloat_value (repeat true e) (format_bits m max_value_mantissa) bias)
        end
  | Some _, None => None
  end.

(** L86-97 [get_min_available_float]. *)
Definition get_min_available_float (e m : nat) (bias : Z) : Q :=
  get_minifloat_value (repeat false e) (repeat false (m - 1) ++ [true]) bias.
