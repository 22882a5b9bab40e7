(** Model of src/brevitas/quant_tensor/float_quant_tensor.py [FloatQuantTensor], of the parts of
    src/brevitas/quant_tensor/base_quant_tensor.py it inherits, and of the pass-through branch
    of src/brevitas/proxy/float_runtime_quant.py.

    A tensor is the list of its elements, all sharing one scale and one zero point (a
    per-channel tensor is a family of such lists); elements may be infinite or NaN.  The dtype
    is float32 (so the validity tolerance is 0.2) and the arithmetic is exact.  The widths and
    the exponent bias are float tensors in the code, hence rationals here, because [cat]
    averages them; they are integral in everything a quantizer produces, and
    [pre_round_float_value] is only faithful there (it takes their floor).  Exceptions are
    [None].  [eps] is torch.finfo(scale.dtype).tiny (L77-79). *)
From Verif Require Import QUtil Log2Q Ops Minifloat QuantTensor.
Open Scope Q_scope.

(** base_quant_tensor.py L104-115 [FloatQuantTensorBase]. *)
Record fqt := FQT {
  ft_value : list fval;
  ft_scale : Q;
  ft_zp : Q;
  ft_exp : Q;                     (* exponent_bit_width *)
  ft_man : Q;                     (* mantissa_bit_width *)
  ft_bias : Q;                    (* exponent_bias *)
  ft_saturating : bool;
  ft_inf : option (list bits);    (* inf_values *)
  ft_nan : option (list bits);    (* nan_values *)
  ft_signed : bool;
  ft_training : bool }.

(** float_quant_tensor.py L105-107: the step used for one element, computed from the value
    itself and not from value / scale. *)
Definition step (eps : Q) (t : fqt) (q : Q) : Q :=
  let fp_internal_scale := Qfloor (1 - ft_bias t - ft_man t) in
  float_internal_scale q (Qfloor (ft_man t)) fp_internal_scale eps.

(** L97-109 [_pre_round_float_value] on one element.  An infinite value divided by its
    infinite step is NaN, and so is a NaN: [None]. *)
Definition pre_round_float_value (eps : Q) (t : fqt) (v : fval) : option Q :=
  match v with
  | Fin q => Some (q / ft_scale t / step eps t q)
  | _ => None
  end.

(** L111-121 [is_valid].  torch.max raises on an empty tensor; a NaN makes the maximum NaN and
    the comparison false. *)
Definition elem_valid (eps : Q) (t : fqt) (v : fval) : bool :=
  match pre_round_float_value eps t v with
  | Some p => Qlt_bool (Qabs (p - inject_Z (roundZ p))) is_valid_atol
  | None => false
  end.
Definition fis_valid (eps : Q) (t : fqt) : option bool :=
  match ft_value t with
  | [] => None
  | vs => Some (forallb (elem_valid eps t) vs)
  end.

(** L137-148 [minifloat]; only called on finite elements (validity has been checked). *)
Definition minifloat_elem (eps : Q) (t : fqt) (v : fval) : Q :=
  match v with
  | Fin q => inject_Z (roundZ (q / ft_scale t / step eps t q)) * step eps t q
  | _ => 0
  end.
Definition to_minifloat (eps : Q) (t : fqt) : option (list Q) :=
  match fis_valid eps t with
  | Some true => Some (map (minifloat_elem eps t) (ft_value t))
  | _ => None
  end.

(** L160-189 the checks of [cat]; false = RuntimeError, [None] = TypeError. *)
Definition check_fscale (a b : fqt) : bool :=
  if ft_training a then true else allclose (ft_scale a) (ft_scale b).
Definition check_fzp (a b : fqt) : bool :=
  if ft_training a then true else allclose (ft_zp a) (ft_zp b).
Definition check_widths (a b : fqt) : bool :=
  negb (negb (allclose (ft_exp a) (ft_exp b)) && negb (allclose (ft_man a) (ft_man b))).
Definition check_bias (a b : fqt) : bool := allclose (ft_bias a) (ft_bias b).

Fixpoint bits_eqb (a b : bits) : bool :=
  match a, b with
  | [], [] => true
  | x :: a', y :: b' => Bool.eqb x y && bits_eqb a' b'
  | _, _ => false
  end.
(** set(a) == set(b) on lists of strings. *)
Definition set_eqb (a b : list bits) : bool :=
  forallb (fun x => existsb (bits_eqb x) b) a && forallb (fun x => existsb (bits_eqb x) a) b.
(** set(None) is a TypeError; the NaN codes are only looked at when the infinities differ. *)
Definition same_set (a b : option (list bits)) : option bool :=
  match a, b with
  | Some a', Some b' => Some (set_eqb a' b')
  | _, _ => None
  end.
Definition check_inf_nan (a b : fqt) : option bool :=
  match same_set (ft_inf a) (ft_inf b) with
  | None => None
  | Some true => Some true
  | Some false => same_set (ft_nan a) (ft_nan b)
  end.
Definition check_fsign (a b : fqt) : bool := Bool.eqb (ft_signed a) (ft_signed b).
Definition cat_check (a b : fqt) : bool :=
  check_fscale a b && check_fzp a b && check_widths a b && check_bias a b
  && match check_inf_nan a b with Some true => true | _ => false end
  && check_fsign a b.

(** A tensor argument or result: a FloatQuantTensor, or a plain tensor. *)
Inductive arg := QT (t : fqt) | Plain (vs : list fval).
Definition unpack (a : arg) : list fval := match a with QT t => ft_value t | Plain vs => vs end.
Fixpoint all_qt (l : list arg) : option (list fqt) :=
  match l with
  | [] => Some []
  | QT t :: l' => match all_qt l' with Some ts => Some (t :: ts) | None => None end
  | Plain _ :: _ => None
  end.

(** L216-267 [cat] along the list dimension (out=None). *)
Definition mean (f : fqt -> Q) (ts : list fqt) : Q :=
  Qsum (map f ts) / inject_Z (Z.of_nat (length ts)).
Definition fcat (l : list arg) : option arg :=
  match l with
  | [] => None
  | [a] => Some a
  | _ =>
      match all_qt l with
      | Some (first :: rest) =>
          if forallb (cat_check first) rest then
            let ts := first :: rest in
            let tr := existsb ft_training ts in
            Some (QT {| ft_value := concat (map ft_value ts);
                        ft_scale := if tr then mean ft_scale ts else ft_scale first;
                        ft_zp := if tr then mean ft_zp ts else ft_zp first;
                        ft_exp := if tr then mean ft_exp ts else ft_exp first;
                        ft_man := if tr then mean ft_man ts else ft_man first;
                        ft_bias := if tr then mean ft_bias ts else ft_bias first;
                        ft_saturating := ft_saturating first;
                        ft_inf := ft_inf first;
                        ft_nan := ft_nan first;
                        ft_signed := ft_signed first;
                        ft_training := tr |})
          else None
      | _ => Some (Plain (concat (map unpack l)))
      end
  end.

(** Same metadata, other elements and sign flag. *)
Definition with_value (t : fqt) (vs : list fval) (sg : bool) : fqt :=
  {| ft_value := vs; ft_scale := ft_scale t; ft_zp := ft_zp t; ft_exp := ft_exp t;
     ft_man := ft_man t; ft_bias := ft_bias t; ft_saturating := ft_saturating t;
     ft_inf := ft_inf t; ft_nan := ft_nan t; ft_signed := sg; ft_training := ft_training t |}.

(** L271-290 [__neg__]; NotImplementedError on unsigned tensors. *)
Definition fneg (eps : Q) (t : fqt) : option fqt :=
  match to_minifloat eps t with
  | None => None
  | Some ms =>
      let neg_value := map (fun r => Fin ((- r - ft_zp t) * ft_scale t)) ms in
      if ft_signed t then Some (with_value t neg_value (ft_signed t)) else None
  end.

(** L316-335 [__abs__]. *)
Definition fabs (eps : Q) (t : fqt) : option fqt :=
  if ft_signed t then
    match to_minifloat eps t with
    | None => None
    | Some ms =>
        Some (with_value t (map (fun r => Fin ((Qabs r - ft_zp t) * ft_scale t)) ms) false)
    end
  else Some t.

(** IEEE addition of elements. *)
Definition fval_add (a b : fval) : fval :=
  match a, b with
  | Fin x, Fin y => Fin (x + y)
  | NaN, _ | _, NaN => NaN
  | PInf, NInf | NInf, PInf => NaN
  | PInf, _ | _, PInf => PInf
  | NInf, _ | _, NInf => NInf
  end.

(** L292-297 [__add__] of two quantized tensors of equal shape: a plain tensor. *)
Definition fadd (a b : fqt) : arg := Plain (map2 fval_add (ft_value a) (ft_value b)).

(** base_quant_tensor.py L85-86 [__sub__]: self.__add__(-other). *)
Definition fsub (eps : Q) (a b : fqt) : option arg :=
  match fneg eps b with
  | Some nb => Some (fadd a nb)
  | None => None
  end.

(** proxy/runtime_quant.py L165-205 [forward] of an activation proxy whose quantization is
    disabled, with a quantized input, and proxy/float_runtime_quant.py L76-95
    [create_quant_tensor]: the activation function is applied to the value; a pass-through
    proxy rebuilds a FloatQuantTensor positionally (the mantissa width comes before the
    exponent width in that call). *)
Definition float_act_disabled (passthrough training : bool) (act : fval -> fval) (x : fqt) : arg :=
  let y := map act (ft_value x) in
  if passthrough then
    QT (FQT y (ft_scale x) (ft_zp x) (ft_man x) (ft_exp x) (ft_bias x) (ft_saturating x)
            (ft_inf x) (ft_nan x) (ft_signed x) training)
  else Plain y.
