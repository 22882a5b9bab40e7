(** Model of the ONNX QCDQ export of FP8 quantizers: the standard-format tests of
    src/brevitas/proxy/float_runtime_quant.py and float_parameter_quant.py, the preparation in
    src/brevitas/export/common/handler/qcdq.py, the checks of
    src/brevitas/export/onnx/standard/qcdq/handler.py, and the formats built by
    src/brevitas/quant/experimental/float_base.py, float_quant_ocp.py and float_quant_fnuz.py.

    Exceptions are [None].  The zero point of every minifloat quantizer is zero. *)
From Verif Require Import QUtil Ops Log2Q Minifloat FloatTensor.
Open Scope Z_scope.

(** Reserved codes as Python strings. *)
Definition s111 : bits := [true; true; true].
Definition s00 : bits := [false; false].
Definition s01 : bits := [false; true].
Definition s10 : bits := [true; false].
Definition s11 : bits := [true; true].

(** Tuple equality, in order. *)
Fixpoint tuple_eqb (a b : list bits) : bool :=
  match a, b with
  | [], [] => true
  | x :: a', y :: b' => bits_eqb x y && tuple_eqb a' b'
  | _, _ => false
  end.
Definition is_none {A} (o : option A) : bool := match o with None => true | Some _ => false end.
Definition equals (o : option (list bits)) (l : list bits) : bool :=
  match o with Some l' => tuple_eqb l' l | None => false end.

(** float_runtime_quant.py L47-56 [is_ocp] (the same text in float_parameter_quant.py L66-75). *)
Definition is_ocp (c : fcfg) : bool :=
  let is_e4m3 := (fm c =? 3) && (fe c =? 4) in
  let is_ocp_e4m3 := is_e4m3 && is_none (finf c) && equals (fnan c) [s111] in
  let is_e5m2 := (fm c =? 2) && (fe c =? 5) in
  let is_ocp_e5m2 := is_e5m2 && equals (finf c) [s00] && equals (fnan c) [s01; s11; s10] in
  is_ocp_e4m3 || is_ocp_e5m2.

(** float_runtime_quant.py L58-67 [is_fnuz] (float_parameter_quant.py L77-86). *)
Definition is_fnuz (c : fcfg) : bool :=
  let is_e4m3 := (fm c =? 3) && (fe c =? 4) in
  let is_fnuz_e4m3 := is_e4m3 && is_none (finf c) && is_none (fnan c) && (fbias c =? 8) in
  let is_e5m2 := (fm c =? 2) && (fe c =? 5) in
  let is_fnuz_e5m2 := is_e5m2 && is_none (finf c) && is_none (fnan c) && (fbias c =? 16) in
  is_fnuz_e4m3 || is_fnuz_e5m2.

(** The torch (and ONNX) 8-bit floating-point types. *)
Inductive f8 := E4M3FN | E5M2 | E4M3FNUZ | E5M2FNUZ.

(** qcdq.py L80-95 [signed_dtype]; NotImplementedError, or an unbound local. *)
Definition signed_dtype (e m : Z) (ocp fnuz : bool) : option f8 :=
  if ocp then
    if (e =? 4) && (m =? 3) then Some E4M3FN
    else if (e =? 5) && (m =? 2) then Some E5M2
    else None
  else if fnuz then
    if (e =? 4) && (m =? 3) then Some E4M3FNUZ
    else if (e =? 5) && (m =? 2) then Some E5M2FNUZ
    else None
  else None.

(** handler.py L55-58 and L73-78 [validate]: the rounding mode is checked when a QuantizeLinear
    node is exported, then the format has to be a standard one. *)
Definition round_mode (c : fcfg) : bool := match fmode c with Round => true | _ => false end.
Definition validate (q_node : bool) (c : fcfg) : bool :=
  (if q_node then round_mode c else true) && (is_ocp c || is_fnuz c).

(** qcdq.py L451-493 [prepare_for_export] of an activation: the type written by QuantizeLinear
    and read by DequantizeLinear.  base.py L43-47: there is no clipping node. *)
Definition export_act (c : fcfg) : option f8 :=
  if validate true c then signed_dtype (fe c) (fm c) (is_ocp c) (is_fnuz c) else None.

(** qcdq.py L226-270 [prepare_for_export] of a weight: without a QuantizeLinear node,
    [prepare_quantize_from_minifloat] raises NotImplementedError. *)
Definition export_weight (export_weight_q_node : bool) (c : fcfg) : option f8 :=
  if validate export_weight_q_node c then
    if export_weight_q_node then signed_dtype (fe c) (fm c) (is_ocp c) (is_fnuz c) else None
  else None.

(** float_base.py L25-27: the default exponent bias. *)
Definition default_bias (e : Z) : Z := 2 ^ (e - 1) - 1.

(** float_quant_ocp.py L18-51 [FpOCPMixin] for the given widths, exponent bias, sign,
    saturation and rounding ([get_max_available_float] may raise). *)
Definition ocp_inf (bw e m : Z) : option (list bits) :=
  if bw =? 8 then
    if (m =? 3) && (e =? 4) then None
    else if (m =? 2) && (e =? 5) then Some [s00]
    else None
  else None.
Definition ocp_nan (bw e m : Z) : option (list bits) :=
  if bw =? 8 then
    if (m =? 3) && (e =? 4) then Some [s111]
    else if (m =? 2) && (e =? 5) then Some [s01; s11; s10]
    else None
  else None.
Definition ocp_quantizer (bw e m bias : Z) (signed sat : bool) (mode : rmode) : option fcfg :=
  match get_max_available_float (Z.to_nat e) (Z.to_nat m) bias (ocp_nan bw e m) (ocp_inf bw e m) sat with
  | Some a => Some (FCfg e m bias signed sat (ocp_inf bw e m) (ocp_nan bw e m) (Some a) mode)
  | None => None
  end.

(** float_quant_fnuz.py L17-22 [FpFNUZMixin]: neither infinities nor NaNs are declared. *)
Definition fnuz_bias (e : Z) : Z := 2 ^ (e - 1).
Definition fnuz_quantizer (e m bias : Z) (signed sat : bool) (mode : rmode) : fcfg :=
  FCfg e m bias signed sat None None None mode.
