(** Model of the exported inference arithmetic:
    src/brevitas/export/common/handler/base.py, .../qcdq.py,
    src/brevitas/export/torch/qcdq/handler.py, src/brevitas/export/onnx/standard/qcdq/handler.py
    and src/brevitas/export/inference/handler.py.

    Per-tensor parameters, element-wise, exact arithmetic.  The operators of the target
    runtimes (torch.quantize_per_tensor / ONNX QuantizeLinear, Clip, DequantizeLinear) are
    modelled after their documented meaning: QuantizeLinear computes
    saturate(round_half_even(x / scale) + zero_point). *)
From Verif Require Import QUtil Ops IntQuant QuantTensor Minifloat.
Open Scope Q_scope.

(** Storage range of a dtype. *)
Definition dt_min (d : dtype) : Z := match d with Int8 => -128 | UInt8 => 0 | Int32 => - 2 ^ 31 end%Z.
Definition dt_max (d : dtype) : Z := match d with Int8 => 127 | UInt8 => 255 | Int32 => 2 ^ 31 - 1 end%Z.

Definition satZ (lo hi n : Z) : Z := Z.min hi (Z.max lo n).

(** base.py L52-71 [ClipMixin.int_clip_symbolic_kwargs].  Outer None: RuntimeError;
    inner None: no clip node is emitted. *)
Definition int_clip_kwargs (narrow signed : bool) (b : Z) : option (option (Z * Z)) :=
  if narrow || (negb (b =? 8)%Z && negb (b =? 32)%Z) then
    let dt :=
      if signed && ((b <? 8)%Z || narrow && (b <=? 8)%Z) then Some Int8
      else if negb signed && ((b <? 8)%Z || narrow && (b <=? 8)%Z) then Some UInt8
      else if signed && ((b <? 32)%Z || narrow && (b <=? 32)%Z) then Some Int32
      else None in
    match dt with
    | None => None
    | Some d => Some (Some (cast d (min_int signed narrow b), cast d (max_int signed narrow b)))
    end
  else Some None.

(** base.py L145-157 [ZeroPointHandlerMixin.zero_point_with_dtype]. *)
Definition zero_point_with_dtype (signed : bool) (b zp : Z) : option Z :=
  if negb signed then
    if (zp <? 0)%Z then None
    else if (8 <? b)%Z then None
    else Some (cast UInt8 zp)
  else if (b <=? 8)%Z then Some (cast Int8 zp) else Some (cast Int32 zp).

(** qcdq.py L119-133 [QMixin.signed_dtype]. *)
Definition signed_dtype (b : Z) (signed : bool) : option dtype :=
  if signed && (b <=? 8)%Z then Some Int8
  else if negb signed && (b <=? 8)%Z then Some UInt8
  else if signed && (8 <? b)%Z then Some Int32
  else None.

(** The target operators. *)
Definition quantize_linear (d : dtype) (scale : Q) (zp : Z) (x : Q) : Z :=
  satZ (dt_min d) (dt_max d) (roundZ (x / scale) + zp).
Definition dequantize_linear (scale : Q) (zp q : Z) : Q := (inject_Z q - inject_Z zp) * scale.
Definition apply_clip (c : option (Z * Z)) (q : Z) : Z :=
  match c with Some (lo, hi) => satZ lo hi q | None => q end.

Inductive target := TorchQCDQ | OnnxQCDQ.

(** torch/qcdq/handler.py L54-55, L80-84 and onnx/standard/qcdq/handler.py L55-56, L96-106:
    [validate].  [q_node]: the handler emits a quantize node ([_export_q_node]). *)
Definition validate (t : target) (q_node : bool) (b : Z) (m : rmode) : bool :=
  (1 <? b)%Z
  && (if q_node then match m with Round => true | _ => false end else true)
  && match t with TorchQCDQ => true | OnnxQCDQ => (b <=? 8)%Z end.

(** qcdq.py L52-57 [assert_ge_zero] on scale, zero point and bit width. *)
Definition assert_ge_zero (scale : Q) (zp b : Z) : bool :=
  Qle_bool 0 scale && (0 <=? zp)%Z && (0 <=? b)%Z.

(** qcdq.py L528-594 [QCDQCastActQuantProxyHandlerMixin]: prepare_for_export then
    symbolic_execution on one element.  None: export fails. *)
Definition qcdq_act (t : target) (signed narrow : bool) (m : rmode) (b : Z) (scale : Q) (zp : Z) (x : Q) : option Q :=
  if validate t true b m then
    match zero_point_with_dtype signed b zp, signed_dtype b signed, int_clip_kwargs narrow signed b with
    | Some zp', Some d, Some clip =>
        if assert_ge_zero scale zp' b then
          Some (dequantize_linear scale zp' (apply_clip clip (quantize_linear d scale zp' x)))
        else None
    | _, _, _ => None
    end
  else None.

(** qcdq.py L315-409 [QCDQCastWeightQuantProxyHandlerMixin] with [_export_q_node = False]:
    the integer weights of the quantized weight tensor, clipped and dequantized. *)
Definition qcdq_weight (t : target) (narrow : bool) (m : rmode) (w : iqt) (zp : Z) : option (list Q) :=
  if validate t false (qt_bw w) m then
    match int_repr w, zero_point_with_dtype (qt_signed w) (qt_bw w) zp,
          int_clip_kwargs narrow (qt_signed w) (qt_bw w) with
    | Some (ints, _), Some zp', Some clip =>
        if assert_ge_zero (qt_scale w) zp' (qt_bw w) then
          Some (map (fun q => dequantize_linear (qt_scale w) zp' (apply_clip clip q)) ints)
        else None
    | _, _, _ => None
    end
  else None.

(** qcdq.py L710-765 [CDQCastBiasQuantProxyHandlerMixin]: signed, round-to-nearest biases;
    no clip node, dequantized with the scale given at run time. *)
Definition qcdq_bias (m : rmode) (bq : iqt) (run_scale : Q) (zp : Z) : option (list Q) :=
  if (1 <? qt_bw bq)%Z && qt_signed bq && match m with Round => true | _ => false end then
    match int_repr bq, zero_point_with_dtype true (qt_bw bq) zp with
    | Some (ints, _), Some zp' => Some (map (dequantize_linear run_scale zp') ints)
    | _, _ => None
    end
  else None.

(** torch.clamp(x, lo, hi) = min(max(x, lo), hi). *)
Definition torch_clamp (x lo hi : Q) : Q := torch_min (torch_max x lo) hi.

(** inference/handler.py L39-63 [IntInferencetHandler] on one element: always torch.round. *)
Definition int_inference (signed narrow : bool) (b : Z) (scale zp x : Q) : Q :=
  let q := torch_clamp (inject_Z (roundZ (x / scale + zp)))
             (inject_Z (min_int signed narrow b)) (inject_Z (max_int signed narrow b)) in
  (q - zp) * scale.

(** inference/handler.py L66-81 [IntWeightInferencetHandler]: a cached value, if any. *)
Definition int_weight_inference (cached : option Q) (signed narrow : bool) (b : Z) (scale zp x : Q) : Q :=
  match cached with Some v => v | None => int_inference signed narrow b scale zp x end.

(** inference/handler.py L83-135 [FloatInferencetHandler] on one finite element.  The masks
    are computed on the unscaled input and the limit is [max_float] of the format; the
    zero point is 0. *)
Definition float_inference (c : fcfg) (eps x scale : Q) : option fval :=
  let max_value := max_float (fe c) (fm c) (fbias c) in
  let min_value := if fsigned c then - max_value else 0 in
  let p := Qlt_bool max_value x in
  let n := Qlt_bool max_value (- x) in
  let y := tensor_clamp (float_quantize c eps x scale) min_value max_value in
  match (if fsat c then Some (Fin y) else inf_nan_clamp c p n y) with
  | Some v => Some (float_dequantize v scale)
  | None => None
  end.
