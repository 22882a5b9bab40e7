(** Model of the straight-through estimators and of the gradients they induce on the quantizers:
    src/brevitas/ops/autograd_ste_ops.py, src/brevitas/function/ops_ste.py,
    src/brevitas/function/ops.py, src/brevitas/csrc/autograd_ste_ops.cpp,
    src/brevitas/core/function_wrapper/{clamp,ops_ste}.py and
    src/brevitas/core/quant/{int_base,binary,ternary,float}.py.

    Real arithmetic (no rounding of floats, no NaN).  A tensor element is a dual number: its value
    and its derivative along a direction of all differentiable inputs (parameters, scale, zero
    point, bit width, input).  The autograd Functions return [grad_y] for their first argument and
    None for the others, i.e. the derivative of the result is the derivative of the first
    argument; for all other operations the derivative is PyTorch's. *)
From Coq Require Import ZArith Reals Lra List Bool.
Import ListNotations.
Local Open Scope R_scope.

(** ** Values *)

Definition floorR (x : R) : R := IZR (Int_part x).
Definition ceilR (x : R) : R := - floorR (- x).
(** torch.round: halves to even. *)
Definition roundR (x : R) : R :=
  let f := Int_part x in
  let d := x - IZR f in
  if Rlt_dec d (1/2) then IZR f
  else if Rlt_dec (1/2) d then IZR (f + 1)
  else if Z.even f then IZR f else IZR (f + 1).
(** torch.sign *)
Definition signR (x : R) : R := if Rlt_dec 0 x then 1 else if Rlt_dec x 0 then -1 else 0.
(** function/ops.py L16-31 [binary_sign]: mask * 2 - 1. *)
Definition binary_sign (x : R) : R := (if Rle_dec 0 x then 1 else 0) * 2 - 1.
(** function/ops.py L34-49 [round_to_zero]. *)
Definition round_to_zero (x : R) : R := signR x * floorR (Rabs x).
(** function/ops.py L52-67 [dpu_round]. *)
Definition dpu_round (x : R) : R :=
  if Rlt_dec x 0 then
    if Req_EM_T (x - floorR x) (1/2) then ceilR x else roundR x
  else roundR x.
(** function/ops.py L73-98 [tensor_clamp]. *)
Definition tensor_clamp (x lo hi : R) : R :=
  let out := if Rlt_dec hi x then hi else x in
  if Rlt_dec out lo then lo else out.
(** function/ops.py L101-109 [tensor_clamp_] (the value written in place). *)
Definition tensor_clamp_inplace (x lo hi : R) : R := Rmax (Rmin x hi) lo.
(** torch.clamp(x, lo, hi) = min(max(x, lo), hi). *)
Definition torch_clamp (x lo hi : R) : R := Rmin (Rmax x lo) hi.
(** torch.clamp_min *)
Definition clamp_min (x lo : R) : R := Rmax x lo.

(** csrc/autograd_ste_ops.cpp: the native forward functions. *)
(** L124-137 BinarySignSteFn *)
Definition native_binary_sign (x : R) : R :=
  (if Rle_dec 0 x then 1 else 0) - (if Rlt_dec x 0 then 1 else 0).
(** L27-45 TensorClampSteFn *)
Definition native_tensor_clamp (x lo hi : R) : R :=
  let output := if Rlt_dec hi x then hi else x in
  if Rlt_dec output lo then lo else output.
(** L155-166 RoundToZeroSteFn *)
Definition native_round_to_zero (x : R) : R := signR x * floorR (Rabs x).
(** L169-182 DPURoundSteFn *)
Definition native_dpu_round (x : R) : R :=
  if Rlt_dec x 0 then
    if Req_EM_T (x - floorR x) (1/2) then ceilR x else roundR x
  else roundR x.

(** The ONNX expressions produced by the [symbolic] methods of autograd_ste_ops.py. *)
(** ONNX Clip(x, lo, hi) = min(max(x, lo), hi). *)
Definition onnx_clip (x lo hi : R) : R := Rmin (Rmax x lo) hi.
(** L121-127: Where(Greater(x, hi), hi, x), then Where(Less(y, lo), lo, y). *)
Definition onnx_tensor_clamp (x lo hi : R) : R :=
  let y := if Rlt_dec hi x then hi else x in if Rlt_dec y lo then lo else y.
(** L290-298: Cast(x >= 0) - Cast(x < 0). *)
Definition onnx_binary_sign (x : R) : R :=
  (if Rle_dec 0 x then 1 else 0) - (if Rlt_dec x 0 then 1 else 0).
(** L183-189: Sign(x) * Floor(Abs(x)). *)
Definition onnx_round_to_zero (x : R) : R := signR x * floorR (Rabs x).

(** ** Dual numbers *)
Record dual := D { val : R; der : R }.
Definition const (v : R) : dual := D v 0.
Definition dadd a b := D (val a + val b) (der a + der b).
Definition dsub a b := D (val a - val b) (der a - der b).
Definition dneg a := D (- val a) (- der a).
Definition dmul a b := D (val a * val b) (der a * val b + val a * der b).
Definition ddiv a b := D (val a / val b) ((der a * val b - val a * der b) / (val b * val b)).
(** torch.where: the derivative of the selected branch. *)
Definition dwhere {P Q : Prop} (c : {P} + {Q}) (a b : dual) : dual := if c then a else b.
(** torch.abs: derivative torch.sign (0 at 0). *)
Definition dabs a := D (Rabs (val a)) (signR (val a) * der a).
(** 2 ** b and torch.exp2. *)
Definition dexp2 a := D (Rpower 2 (val a)) (Rpower 2 (val a) * ln 2 * der a).
(** torch.log2 *)
Definition dlog2 a := D (ln (val a) / ln 2) (der a / (val a * ln 2)).
(** torch.clamp_min with a constant bound: the gradient passes where x >= bound. *)
Definition dclamp_min a (lo : R) :=
  D (clamp_min (val a) lo) (if Rle_dec lo (val a) then der a else 0).

(** Autograd Functions of autograd_ste_ops.py: [backward] returns [grad_y]. *)
Definition ste (f : R -> R) (a : dual) : dual := D (f (val a)) (der a).
Inductive ste_kind := KRound | KFloor | KCeil | KRoundToZero | KDPURound | KBinarySign | KTernarySign.
Definition ste_value (k : ste_kind) : R -> R :=
  match k with
  | KRound => roundR          (* L333-355 RoundSteFn *)
  | KFloor => floorR          (* L246-268 FloorSteFn *)
  | KCeil => ceilR            (* L222-243 CeilSteFn *)
  | KRoundToZero => round_to_zero  (* L162-189 *)
  | KDPURound => dpu_round    (* L192-219 *)
  | KBinarySign => binary_sign  (* L271-298 *)
  | KTernarySign => signR     (* L301-330 *)
  end.
Definition ste_op (k : ste_kind) (a : dual) : dual := ste (ste_value k) a.
(** L101-127 TensorClampSteFn, L130-159 the in-place variant. *)
Definition dtensor_clamp_ste (a lo hi : dual) : dual :=
  D (tensor_clamp (val a) (val lo) (val hi)) (der a).
Definition dtensor_clamp_ste_inplace (a lo hi : dual) : dual :=
  D (tensor_clamp_inplace (val a) (val lo) (val hi)) (der a).
(** L46-71 ScalarClampSteFn, L74-98 ScalarClampMinSteFn. *)
Definition dscalar_clamp_ste (a : dual) (lo hi : R) : dual := D (torch_clamp (val a) lo hi) (der a).
Definition dscalar_clamp_min_ste (a : dual) (lo : R) : dual := D (clamp_min (val a) lo) (der a).
(** L358-385 AbsBinarySignGradFn: backward multiplies by binary_sign(x). *)
Definition dabs_binary_sign_grad (a : dual) : dual :=
  D (Rabs (val a)) (binary_sign (val a) * der a).

(** function/ops.py [tensor_clamp] on duals (differentiable in all three arguments). *)
Definition dtensor_clamp (a lo hi : dual) : dual :=
  let out := dwhere (Rlt_dec (val hi) (val a)) hi a in
  dwhere (Rlt_dec (val out) (val lo)) lo out.

(** ** Integer quantization (int_base.py L65-94, ops.py L126-192) *)
Definition dmax_int (signed narrow : bool) (b : dual) : dual :=
  if negb signed && negb narrow then dsub (dexp2 b) (const 1)
  else if negb signed && narrow then dsub (dexp2 b) (const 2)
  else dsub (dexp2 (dsub b (const 1))) (const 1).
Definition dmin_int (signed narrow : bool) (b : dual) : dual :=
  if signed && narrow then dadd (dneg (dexp2 (dsub b (const 1)))) (const 1)
  else if signed && negb narrow then dneg (dexp2 (dsub b (const 1)))
  else dmul (const 0) b.

Definition dclamp_impl (use_ste : bool) : dual -> dual -> dual -> dual :=
  if use_ste then dtensor_clamp_ste else dtensor_clamp.

Definition dto_int (k : ste_kind) (use_ste signed narrow : bool) (scale zp b x : dual) : dual :=
  let y := ddiv x scale in
  let y := dadd y zp in
  let lo := dmin_int signed narrow b in
  let hi := dmax_int signed narrow b in
  let y := ste_op k y in
  dclamp_impl use_ste y lo hi.

Definition dint_quant (k : ste_kind) (use_ste signed narrow : bool) (scale zp b x : dual) : dual :=
  let y := dto_int k use_ste signed narrow scale zp b x in
  dmul (dsub y zp) scale.

(** ** Binary and ternary quantization (scales that do not depend on the input) *)
(** binary.py L55-60. *)
Definition dbinary (scale x : dual) : dual := dmul (ste_op KBinarySign x) scale.
(** binary.py L110-116. *)
Definition dclamped_binary (use_ste : bool) (scale x : dual) : dual :=
  let y := dclamp_impl use_ste x (dneg scale) scale in
  dmul (ste_op KBinarySign y) scale.
(** ternary.py L60-67. *)
Definition dternary (threshold : R) (scale x : dual) : dual :=
  let mask := if Rlt_dec (threshold * val scale) (Rabs (val x)) then 1 else 0 in
  let y := dmul (const mask) (ste_op KTernarySign x) in
  dmul y scale.

(** ** Minifloat quantization (utils/torch_utils.py L94-104, float.py L74-87) *)
Definition dfloat_internal_scale (x : dual) (m fmin eps : R) : dual :=
  let i := dsub (ste_op KFloor (dlog2 (dadd (dabs x) (const eps)))) (const m) in
  let i := dclamp_min i fmin in
  dexp2 i.
Definition dfloat_quantize (m fmin eps : R) (scale x : dual) : dual :=
  let sx := ddiv x scale in
  let i := dfloat_internal_scale sx m fmin eps in
  dmul i (ste_op KRound (ddiv sx i)).
(** Saturating clamp (clamp.py L127-148) and dequantization. *)
Definition dfloat_quant (use_ste : bool) (m fmin eps maxv : R) (scale x : dual) : dual :=
  dmul (dclamp_impl use_ste (dfloat_quantize m fmin eps scale x) (const (- maxv)) (const maxv)) scale.
