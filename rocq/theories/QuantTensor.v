(** Model of src/brevitas/quant_tensor/int_quant_tensor.py: [IntQuantTensor].

    A tensor is the list of its elements, all sharing one scale / zero point (a per-channel
    tensor is a family of such lists).  Bit widths are integers.  RuntimeErrors are [None].
    The floating dtype is float32 (so the validity tolerance is 0.2). *)
From Verif Require Import QUtil Log2Q Ops.
Open Scope Q_scope.

(** base_quant_tensor.py [IntQuantTensorBase]. *)
Record iqt := {
  qt_value : list Q;
  qt_scale : Q;
  qt_zp : Q;
  qt_bw : Z;
  qt_signed : bool;
  qt_training : bool }.

(** int_quant_tensor.py L60-72 [_pre_round_int_value]. *)
Definition pre_round (t : iqt) : list Q :=
  map (fun v => v / qt_scale t + qt_zp t) (qt_value t).

Definition is_valid_atol : Q := 2 # 10.

(** Distinct values of a list of integers (torch.unique). *)
Fixpoint unique (l : list Z) : list Z :=
  match l with
  | [] => []
  | x :: l' => if existsb (Z.eqb x) l' then unique l' else x :: unique l'
  end.

(** L74-98 [is_valid].  max |pre - rounded| < atol is written element by element (torch
    raises on an empty tensor, here the empty tensor is valid). *)
Definition is_valid (t : iqt) : bool :=
  let pre := pre_round t in
  let rounded := map roundZ pre in
  let is_int := forallb (fun p => Qlt_bool (Qabs (p - inject_Z (roundZ p))) is_valid_atol) pre in
  if (2 <=? qt_bw t)%Z then
    if qt_signed t then
      is_int && forallb (fun r => (r <=? 2 ^ (qt_bw t - 1) - 1)%Z) rounded
             && forallb (fun r => (- 2 ^ (qt_bw t - 1) <=? r)%Z) rounded
    else
      is_int && forallb (fun r => (r <=? 2 ^ qt_bw t - 1)%Z) rounded
             && forallb (fun r => (0 <=? r)%Z) rounded
  else
    let u := unique rounded in
    is_int && (length u =? 2)%nat && Bool.eqb (existsb (fun r => (r <? 0)%Z) u) (qt_signed t).

Inductive dtype := Int8 | UInt8 | Int32.

(** Conversion of an integer-valued float to an integer dtype: two's complement wrap. *)
Definition wrap_signed (bits n : Z) : Z :=
  ((n + 2 ^ (bits - 1)) mod 2 ^ bits - 2 ^ (bits - 1))%Z.
Definition cast (d : dtype) (n : Z) : Z :=
  match d with
  | Int8 => wrap_signed 8 n
  | UInt8 => (n mod 256)%Z
  | Int32 => wrap_signed 32 n
  end.

(** L110-131 [int] with float_datatype=False. *)
Definition int_repr (t : iqt) : option (list Z * dtype) :=
  if is_valid t then
    let ints := map roundZ (pre_round t) in
    let d := if (qt_bw t <=? 8)%Z && qt_signed t then Int8
             else if (qt_bw t <=? 8)%Z && negb (qt_signed t) then UInt8
             else Int32 in
    Some (map (cast d) ints, d)
  else None.

(** L110-122 [int] with float_datatype=True (float conversions are exact in this model). *)
Definition int_float (t : iqt) : option (list Z) :=
  if is_valid t then Some (map roundZ (pre_round t)) else None.

(** torch.allclose on scalars with the default tolerances rtol=1e-5, atol=1e-8. *)
Definition allclose (a b : Q) : bool :=
  Qle_bool (Qabs (a - b)) ((1 # 100000000) + (1 # 100000) * Qabs b).

(** L140-158 [check_scaling_factors_same], [check_zero_points_same], [check_bit_width_same],
    [check_sign_same]; false = RuntimeError. *)
Definition check_scale (a b : iqt) : bool := if qt_training a then true else allclose (qt_scale a) (qt_scale b).
Definition check_zp (a b : iqt) : bool := if qt_training a then true else allclose (qt_zp a) (qt_zp b).
Definition check_bw (a b : iqt) : bool := allclose (inject_Z (qt_bw a)) (inject_Z (qt_bw b)).
Definition check_sign (a b : iqt) : bool := Bool.eqb (qt_signed a) (qt_signed b).

Fixpoint Qsum (l : list Q) : Q := match l with [] => 0 | x :: l' => x + Qsum l' end.

(** L205-242 [cat] of IntQuantTensors along the list dimension (out=None).  In training mode
    scale and zero point are averaged; the bit widths have been checked to agree, so their
    mean is the first one.  An empty argument list raises. *)
Definition cat (ts : list iqt) : option iqt :=
  match ts with
  | [] => None
  | [t] => Some t
  | first :: rest =>
      if forallb (fun q => check_scale first q && check_zp first q && check_bw first q && check_sign first q) rest then
        let tr := existsb qt_training ts in
        let n := inject_Z (Z.of_nat (length ts)) in
        Some {| qt_value := concat (map qt_value ts);
                qt_scale := if tr then Qsum (map qt_scale ts) / n else qt_scale first;
                qt_zp := if tr then Qsum (map qt_zp ts) / n else qt_zp first;
                qt_bw := qt_bw first; qt_signed := qt_signed first; qt_training := tr |}
      else None
  end.

(** L246-265 [__neg__]. *)
Definition neg (t : iqt) : option iqt :=
  match int_float t with
  | None => None
  | Some ints =>
      let v := map (fun k => (- inject_Z k - qt_zp t) * qt_scale t) ints in
      Some (if qt_signed t then
        {| qt_value := v; qt_scale := qt_scale t; qt_zp := qt_zp t; qt_bw := qt_bw t;
           qt_signed := qt_signed t; qt_training := qt_training t |}
      else
        {| qt_value := v; qt_scale := qt_scale t; qt_zp := qt_zp t; qt_bw := (qt_bw t + 1)%Z;
           qt_signed := true; qt_training := qt_training t |})
  end.

Definition map2 {A B C} (f : A -> B -> C) (a : list A) (b : list B) : list C :=
  map (fun p => f (fst p) (snd p)) (combine a b).

(** L267-287 [__add__] of two IntQuantTensors of equal shape. *)
Definition add_bit_width (sg1 sg2 : bool) (b1 b2 : Z) : Z :=
  let max_val := (max_int sg1 false b1 + max_int sg2 false b2)%Z in
  let min_val := (min_int sg1 false b1 + min_int sg2 false b2)%Z in
  ceil_log2 (inject_Z (max_val - min_val)).

Definition add (a b : iqt) : option iqt :=
  if check_scale a b then
    Some {| qt_value := map2 Qplus (qt_value a) (qt_value b);
            qt_scale := (qt_scale a + qt_scale b) / 2;
            qt_zp := qt_zp a + qt_zp b;
            qt_bw := add_bit_width (qt_signed a) (qt_signed b) (qt_bw a) (qt_bw b);
            qt_signed := qt_signed a || qt_signed b;
            qt_training := qt_training a || qt_training b |}
  else None.

(** L290-299 [__add__] with a plain tensor (here a scalar constant). *)
Definition add_const (a : iqt) (c : Q) : iqt :=
  {| qt_value := map (fun v => v + c) (qt_value a); qt_scale := qt_scale a;
     qt_zp := qt_zp a - c / qt_scale a; qt_bw := qt_bw a; qt_signed := qt_signed a;
     qt_training := qt_training a |}.

(** base_quant_tensor.py [__sub__]: self + (-other). *)
Definition sub (a b : iqt) : option iqt :=
  match neg b with Some nb => add a nb | None => None end.

(** L301-321 [__mul__] of two IntQuantTensors of equal shape. *)
Definition mul (a b : iqt) : option iqt :=
  if Qeq_bool (qt_zp a) 0 && Qeq_bool (qt_zp b) 0 then
    Some {| qt_value := map2 Qmult (qt_value a) (qt_value b);
            qt_scale := qt_scale a * qt_scale b;
            qt_zp := qt_zp a * qt_zp b;
            qt_bw := (qt_bw a + qt_bw b)%Z;
            qt_signed := qt_signed a || qt_signed b;
            qt_training := qt_training a || qt_training b |}
  else None.

(** L326-347 [__truediv__] of two IntQuantTensors of equal shape. *)
Definition truediv (a b : iqt) : option iqt :=
  if Qeq_bool (qt_zp a) 0 && Qeq_bool (qt_zp b) 0 then
    let max_den := pow2 (qt_bw b - (if qt_signed b then 1 else 0)) in
    Some {| qt_value := map2 Qdiv (qt_value a) (qt_value b);
            qt_scale := qt_scale a / (qt_scale b * max_den);
            qt_zp := qt_zp a * qt_zp b;
            qt_bw := (qt_bw a + qt_bw b)%Z;
            qt_signed := qt_signed a || qt_signed b;
            qt_training := qt_training a || qt_training b |}
  else None.

(** L349-362 [__abs__]. *)
Definition abs (t : iqt) : option iqt :=
  if qt_signed t then
    match int_float t with
    | None => None
    | Some ints =>
        Some {| qt_value := map (fun k => (Qabs (inject_Z k) - qt_zp t) * qt_scale t) ints;
                qt_scale := qt_scale t; qt_zp := qt_zp t; qt_bw := (qt_bw t - 1)%Z;
                qt_signed := false; qt_training := qt_training t |}
    end
  else Some t.
