(** Model of the group-wise quantized tensors and of what can be done with them:
    src/brevitas/quant_tensor/groupwise_int_quant_tensor.py [GroupwiseIntQuantTensor],
    src/brevitas/quant_tensor/groupwise_float_quant_tensor.py [GroupwiseFloatQuantTensor],
    src/brevitas/quant_tensor/base_quant_tensor.py [QuantTensor],
    src/brevitas/quant_tensor/torch_handler.py,
    src/brevitas/nn/mixin/base.py [QuantLayerMixin.unpack_input],
    src/brevitas/utils/quant_utils.py [_CachedIOGroupwiseInt], [_CachedIOGroupwiseFloat].

    A tensor is a shape with a function from index tuples to rationals ([Groupwise.tens]); the
    dtype is float32 (validity tolerance 0.2) and the arithmetic is exact.  Exceptions of any
    kind are [None].  Divisions by zero, which give infinities in torch, are outside of the
    model: the theorems about divisions ask for non-zero divisors. *)
From Coq Require Import String.
From Verif Require Import QUtil Log2Q Ops Minifloat QuantTensor Groupwise.
Open Scope Q_scope.

(** ** Broadcasting (torch semantics assumed) *)
(** Shape of the result, on reversed shapes. *)
Fixpoint bsh (a b : list Z) : option (list Z) :=
  match a, b with
  | [], _ => Some b
  | _, [] => Some a
  | x :: a', y :: b' =>
      match bsh a' b' with
      | None => None
      | Some s => if (x =? y)%Z then Some (x :: s)
                  else if (x =? 1)%Z then Some (y :: s)
                  else if (y =? 1)%Z then Some (x :: s) else None
      end
  end.
Fixpoint map2 {A B C} (f : A -> B -> C) (l : list A) (m : list B) : list C :=
  match l, m with a :: l', b :: m' => f a b :: map2 f l' m' | _, _ => [] end.
(** Reading a tensor at an index of the broadcast shape. *)
Definition bread (x : tens) (idx : list Z) : Q :=
  at_ x (map2 (fun d i => if (d =? 1)%Z then 0%Z else i) (shape x)
              (skipn (List.length idx - List.length (shape x)) idx)).
Definition bop (f : Q -> Q -> Q) (x y : tens) : option tens :=
  match bsh (rev (shape x)) (rev (shape y)) with
  | Some s => Some (T (rev s) (fun idx => f (bread x idx) (bread y idx)))
  | None => None
  end.
Definition tmap (f : Q -> Q) (x : tens) : tens := T (shape x) (fun idx => f (at_ x idx)).
Definition scalar (c : Q) : tens := T [] (fun _ => c).
(** torch.Tensor.expand to a given shape. *)
Definition list_eqb (a b : list Z) : bool := if list_eq_dec Z.eq_dec a b then true else false.
Definition texpand (x : tens) (sh : list Z) : option tens :=
  match bsh (rev (shape x)) (rev sh) with
  | Some s => if list_eqb (rev s) sh then Some (T sh (bread x)) else None
  | None => None
  end.

(** ** The tensors *)
Inductive fmt := FInt (bw : Z) | FFloat (exp man bias : Z).

(** base_quant_tensor.py L118-142 [GroupwiseFloatQuantTensorBase], [GroupwisIntQuantTensorBase]
    (the saturation flag and the special values are only stored). *)
Record gqt := G {
  g_value : tens;    (* value_ *)
  g_scale : tens;    (* scale_ *)
  g_zp : tens;       (* zero_point_ *)
  g_size : Z;
  g_dim : Z;
  g_fmt : fmt;
  g_signed : bool;
  g_training : bool }.

(** base_quant_tensor.py L36-37 [set] is NamedTuple._replace, which raises ValueError for a name
    that is not a field (here for one tensor-valued field). *)
Definition gset (name : string) (v : tens) (t : gqt) : option gqt :=
  if (name =? "value_")%string then Some (G v (g_scale t) (g_zp t) (g_size t) (g_dim t) (g_fmt t) (g_signed t) (g_training t))
  else if (name =? "scale_")%string then Some (G (g_value t) v (g_zp t) (g_size t) (g_dim t) (g_fmt t) (g_signed t) (g_training t))
  else if (name =? "zero_point_")%string then Some (G (g_value t) (g_scale t) v (g_size t) (g_dim t) (g_fmt t) (g_signed t) (g_training t))
  else None.

(** groupwise_int_quant_tensor.py L60-73 [expand]; the float class has the same code (L91-105). *)
Definition expand_meta (t : gqt) (m : tens) : option tens :=
  match shape m with
  | [] => Some m
  | _ => obind (texpand m (shape (g_value t))) (fun e => flatten2 e (expand_start (g_dim t)))
  end.
Definition expand (t : gqt) : option (tens * tens * tens) :=
  obind (flatten2 (g_value t) (expand_start (g_dim t))) (fun v =>
  obind (expand_meta t (g_scale t)) (fun s =>
  obind (expand_meta t (g_zp t)) (fun z => Some (v, s, z)))).

(** L92-105 the properties [value], [scale], [zero_point]. *)
Definition p_value (t : gqt) : option tens := option_map (fun r => fst (fst r)) (expand t).
Definition p_scale (t : gqt) : option tens := option_map (fun r => snd (fst r)) (expand t).
Definition p_zero_point (t : gqt) : option tens := option_map (fun r => snd r) (expand t).

(** L75-86 [from_expanded]. *)
Definition from_expanded (v : tens) (group_size group_dim : Z) (compress : bool) : option tens :=
  let gd := expand_start group_dim in
  if (py_get (shape v) gd mod group_size =? 0)%Z then
    let size := py_set (shape v) gd (if compress then 1 else (py_get (shape v) gd / group_size))%Z in
    view v (py_insert size (gd + 1) group_size)
  else None.

(** All index tuples of a shape. *)
Definition indices (sh : list Z) : list (list Z) :=
  map (fun n => unflat sh (Z.of_nat n)) (seq 0 (Z.to_nat (prodZ sh))).

(** L107-118 [_pre_round_int_value]. *)
Definition g_pre_round (t : gqt) : option tens :=
  obind (expand t) (fun r =>
  obind (bop Qdiv (fst (fst r)) (snd (fst r))) (fun y => bop Qplus y (snd r))).

(** L120-142 [is_valid]; torch.max raises on an empty tensor, here the empty tensor is valid. *)
Definition g_is_valid (t : gqt) (bw : Z) : option bool :=
  obind (g_pre_round t) (fun pre =>
  let ps := map (at_ pre) (indices (shape pre)) in
  let rounded := map roundZ ps in
  let is_int := forallb (fun p => Qlt_bool (Qabs (p - inject_Z (roundZ p))) is_valid_atol) ps in
  Some
   (if (2 <=? bw)%Z then
      if g_signed t then
        is_int && forallb (fun r => (r <=? 2 ^ (bw - 1) - 1)%Z) rounded
               && forallb (fun r => (- 2 ^ (bw - 1) <=? r)%Z) rounded
      else
        is_int && forallb (fun r => (r <=? 2 ^ bw - 1)%Z) rounded
               && forallb (fun r => (0 <=? r)%Z) rounded
    else
      let u := unique rounded in
      is_int && (List.length u =? 2)%nat && Bool.eqb (existsb (fun r => (r <? 0)%Z) u) (g_signed t))).

(** L158-176 [int] with float_datatype=False: shape, codes and dtype.  The float class has no
    such method. *)
Definition g_int (t : gqt) : option (list Z * (list Z -> Z) * dtype) :=
  match g_fmt t with
  | FFloat _ _ _ => None
  | FInt bw =>
      obind (g_is_valid t bw) (fun ok =>
      if ok then
        obind (g_pre_round t) (fun pre =>
        let d := if (bw <=? 8)%Z && g_signed t then Int8
                 else if (bw <=? 8)%Z && negb (g_signed t) then UInt8 else Int32 in
        Some (shape pre, fun idx => cast d (roundZ (at_ pre idx)), d))
      else None)
  end.

(** utils/torch_utils.py L94-104 [float_internal_scale] takes four arguments, without defaults:
    a call with another number of arguments is a TypeError. *)
Definition call_float_internal_scale (x : tens) (args : list Q) : option tens :=
  match args with
  | [m; fp_min; eps] => Some (tmap (fun v => float_internal_scale v (Qfloor m) (Qfloor fp_min) eps) x)
  | _ => None
  end.

(** groupwise_float_quant_tensor.py L139-149 [_pre_round_float_value], L151-161 [is_valid] and
    L177-187 [minifloat].  GroupwiseIntQuantTensor has no attribute [minifloat]. *)
Definition f_pre_round (t : gqt) (man bias : Z) : option tens :=
  obind (expand t) (fun r =>
  obind (bop Qdiv (fst (fst r)) (snd (fst r))) (fun y =>
  obind (call_float_internal_scale (fst (fst r)) [inject_Z man; inject_Z (1 - bias - man)]) (fun s =>
  bop Qdiv y s))).
Definition f_is_valid (t : gqt) (man bias : Z) : option bool :=
  obind (f_pre_round t man bias) (fun pre =>
  Some (forallb (fun idx => Qlt_bool (Qabs (at_ pre idx - inject_Z (roundZ (at_ pre idx)))) is_valid_atol)
                (indices (shape pre)))).
Definition g_minifloat (t : gqt) : option tens :=
  match g_fmt t with
  | FInt _ => None
  | FFloat _ man bias =>
      obind (f_is_valid t man bias) (fun ok =>
      if ok then
        obind (f_pre_round t man bias) (fun pre =>
        obind (p_value t) (fun v =>
        obind (call_float_internal_scale v [inject_Z man; inject_Z (1 - bias - man)]) (fun s =>
        bop Qmult (tmap (fun p => inject_Z (roundZ p)) pre) s)))
      else None)
  end.

(** groupwise_int_quant_tensor.py L240-264 and groupwise_float_quant_tensor.py L251-279
    [__neg__].  The int class also passes an argument its constructor does not take. *)
Definition g_neg (t : gqt) : option gqt :=
  obind (g_minifloat t) (fun mf =>
  let neg_deq := tmap Qopp mf in
  obind (expand t) (fun r =>
  obind (bop Qminus (tmap Qopp neg_deq) (snd r)) (fun y =>
  obind (bop Qmult y (snd (fst r))) (fun nv =>
  obind (from_expanded nv (g_size t) (g_dim t) false) (fun nv =>
  obind (from_expanded (snd (fst r)) (g_size t) (g_dim t) true) (fun sc =>
  match g_signed t, g_fmt t with
  | true, FFloat _ _ _ => Some (G nv sc (snd r) (g_size t) (g_dim t) (g_fmt t) true (g_training t))
  | _, _ => None
  end)))))).

(** L290-314 and L305-333 [__abs__]. *)
Definition g_abs (t : gqt) : option gqt :=
  if g_signed t then
    obind (g_minifloat t) (fun mf =>
    obind (expand t) (fun r =>
    obind (bop Qminus mf (snd r)) (fun y =>
    obind (bop Qmult y (snd (fst r))) (fun av =>
    obind (from_expanded av (g_size t) (g_dim t) false) (fun av =>
    obind (from_expanded (snd (fst r)) (g_size t) (g_dim t) true) (fun _ =>
    match g_fmt t with
    | FFloat _ _ _ => Some (G av (snd (fst r)) (snd r) (g_size t) (g_dim t) (g_fmt t) false (g_training t))
    | FInt _ => None
    end))))))
  else Some t.

(** ** Arithmetic *)
(** The other operand: a tensor or a number, another kind of QuantTensor (given by its value and
    the value of its negation, [None] when the negation raises), or a group-wise one. *)
Inductive operand := OPlain (x : tens) | OQuant (v : tens) (neg : option tens) | OGroup (t : gqt).
Definition o_value (o : operand) : option tens :=
  match o with OPlain x => Some x | OQuant v _ => Some v | OGroup t => p_value t end.
Definition o_neg (o : operand) : option operand :=
  match o with
  | OPlain x => Some (OPlain (tmap Qopp x))
  | OQuant v n => option_map (fun n => OQuant n (Some v)) n
  | OGroup t => option_map OGroup (g_neg t)
  end.

(** L266-288 [__add__], [__mul__], [__truediv__]: always a plain tensor. *)
Definition g_op (f : Q -> Q -> Q) (t : gqt) (o : operand) : option tens :=
  obind (p_value t) (fun v => obind (o_value o) (fun w => bop f v w)).
Definition g_add := g_op Qplus.
Definition g_mul := g_op Qmult.
Definition g_div := g_op Qdiv.
(** base_quant_tensor.py L79-86 [__radd__], [__rmul__], [__sub__]. *)
Definition g_radd := g_add.
Definition g_rmul := g_mul.
Definition g_sub (t : gqt) (o : operand) : option tens := obind (o_neg o) (g_add t).

(** ** Torch functions *)
Inductive result := RPlain (x : tens) | RGroup (t : gqt).

(** torch_handler.py L37-49: these call the method of the same name, which for a group-wise
    tensor works on the value (groupwise_int_quant_tensor.py L219-236). *)
Definition method_fns : list string := ["flatten"; "reshape"; "transpose"]%string.
(** torch_handler.py L52-120 and L153-160: handled by [quant_invariant_handler]. *)
Definition invariant_fns : list string :=
  ["pad"; "relu"; "relu6"; "hardtanh"; "alpha_dropout"; "dropout"; "dropout2d"; "dropout3d";
   "max_pool1d"; "max_pool2d"; "max_pool3d"; "adaptive_max_pool1d"; "adaptive_max_pool2d";
   "adaptive_max_pool3d"; "pixel_shuffle"; "pixel_unshuffle"]%string.
Definition str_in (s : string) (l : list string) : bool := existsb (String.eqb s) l.

(** torch_handler.py L32-34 [quant_invariant_handler]. *)
Definition quant_invariant_handler (fn : tens -> option tens) (t : gqt) : option result :=
  obind (p_value t) (fun v => obind (fn v) (fun out => option_map RGroup (gset "value" out t))).

(** groupwise_int_quant_tensor.py L49-58 [__torch_function__] on one group-wise argument;
    torch_handler.py L123-150 [interpolate_handler].  [mode] matters for interpolate only. *)
Definition torch_function (name mode : string) (fn : tens -> option tens) (t : gqt) : option result :=
  let plain := obind (p_value t) (fun v => option_map RPlain (fn v)) in
  if str_in name method_fns then plain
  else if str_in name invariant_fns then quant_invariant_handler fn t
  else if (name =? "interpolate")%string then
    if (mode =? "nearest")%string || (mode =? "nearest_exact")%string then quant_invariant_handler fn t
    else plain
  else plain.

(** ** Layers and caches *)
(** nn/mixin/base.py L84-98 [unpack_input] outside of tracing of decayed tuples: the names of the
    dimensions are dropped, which needs [set] unless tracing or compiling. *)
Definition unpack_input (tracing compiling : bool) (inp : operand) : option operand :=
  if negb tracing && negb compiling then
    match inp with
    | OGroup t => obind (p_value t) (fun v => option_map OGroup (gset "value" v t))
    | _ => Some inp
    end
  else Some inp.

(** utils/quant_utils.py L90-101 and L145-156: what is kept in the cache. *)
Record gcache := GC { c_shape : list Z; c_value : option tens; c_tensor : gqt; c_scale : tens }.
Definition cache_io (metadata_only : bool) (none : tens) (t : gqt) : option gcache :=
  obind (p_value t) (fun v => obind (p_scale t) (fun s =>
  if metadata_only then option_map (fun q => GC (shape v) None q s) (gset "value" none t)
  else Some (GC (shape v) (Some v) t s))).
