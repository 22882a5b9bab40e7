(** Model of the numeric primitives in src/brevitas/function/ops.py and of the
    float-to-int modes of src/brevitas/core/function_wrapper/ops_ste.py.

    Tensors are modelled element-wise; an element is an exact rational [Q]. *)
From Verif Require Import QUtil.
Open Scope Q_scope.

(** torch.floor / torch.ceil on one element (torch kernels, mathematical meaning). *)
Definition floorZ (x : Q) : Z := Qfloor x.
Definition ceilZ (x : Q) : Z := Qceiling x.

(** torch.round: nearest integer, ties to the even neighbour (torch kernel). *)
Definition roundZ (x : Q) : Z :=
  let f := Qfloor x in
  let r := x - inject_Z f in
  if Qlt_bool r (1 # 2) then f
  else if Qlt_bool (1 # 2) r then (f + 1)%Z
  else if Z.even f then f else (f + 1)%Z.

(** torch.sign *)
Definition sgnZ (x : Q) : Z :=
  if Qlt_bool 0 x then 1%Z else if Qlt_bool x 0 then (-1)%Z else 0%Z.

(** ops.py L16-32 [binary_sign]: (x >= 0) * 2 - 1. *)
Definition binary_sign (x : Q) : Q :=
  (if Qle_bool 0 x then 1 else 0) * 2 - 1.

(** ops.py L36-51 [round_to_zero]: sign(x) * floor(|x|). *)
Definition round_to_zeroZ (x : Q) : Z := (sgnZ x * floorZ (Qabs x))%Z.

(** ops.py L55-70 [dpu_round]: ceil on negative half-integers, torch.round elsewhere. *)
Definition dpu_roundZ (x : Q) : Z :=
  if Qlt_bool x 0 && Qeq_bool (x - inject_Z (floorZ x)) (1 # 2)
  then ceilZ x else roundZ x.

(** ops.py L74-98 [tensor_clamp]: first against the maximum, then against the minimum. *)
Definition tensor_clamp (x lo hi : Q) : Q :=
  let out := if Qlt_bool hi x then hi else x in
  if Qlt_bool out lo then lo else out.

(** ops.py L102-109 [tensor_clamp_]: torch.min with the maximum, torch.max with the minimum. *)
Definition torch_min (a b : Q) : Q := if Qle_bool a b then a else b.
Definition torch_max (a b : Q) : Q := if Qle_bool b a then a else b.
Definition tensor_clamp_ (x lo hi : Q) : Q := torch_max (torch_min x hi) lo.

(** ops.py L131-158 [max_int]. The bit width is an integer, [b >= 1]. *)
Definition max_int (signed narrow : bool) (b : Z) : Z :=
  if negb signed && negb narrow then (2 ^ b - 1)%Z
  else if negb signed && narrow then (2 ^ b - 2)%Z
  else (2 ^ (b - 1) - 1)%Z.

(** ops.py L162-189 [min_int]. *)
Definition min_int (signed narrow : bool) (b : Z) : Z :=
  if signed && narrow then (- 2 ^ (b - 1) + 1)%Z
  else if signed && negb narrow then (- 2 ^ (b - 1))%Z
  else (0 * b)%Z.

(** The float-to-int implementations selectable by FloatToIntImplType
    (src/brevitas/inject/enum.py, mapped in src/brevitas/quant/solver/common.py):
    RoundSte, FloorSte, CeilSte, RoundToZeroSte, DPURoundSte.  Their forward pass is
    the plain operation (src/brevitas/ops/autograd_ste_ops.py). *)
Inductive rmode := Round | Floor | Ceil | RoundToZero | DPU.

Definition float_to_intZ (m : rmode) (x : Q) : Z :=
  match m with
  | Round => roundZ x
  | Floor => floorZ x
  | Ceil => ceilZ x
  | RoundToZero => round_to_zeroZ x
  | DPU => dpu_roundZ x
  end.

Definition float_to_int (m : rmode) (x : Q) : Q := inject_Z (float_to_intZ m x).
