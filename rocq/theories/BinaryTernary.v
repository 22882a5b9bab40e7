(** Model of src/brevitas/core/quant/binary.py, core/quant/ternary.py, core/quant/delay.py,
    core/bit_width/parameter.py and core/bit_width/const.py. *)
From Verif Require Import QUtil Ops.
Open Scope Q_scope.

(** ** delay.py *)

(** delay.py L45-50 [DelayWrapper.__init__]: no delay for None or a non-positive number of
    steps; the state of [_DelayQuant] is its counter. *)
Inductive delay := NoDelay | DelaySteps (n : Z).

Definition delay_init (steps : option Z) : delay :=
  match steps with
  | None => NoDelay
  | Some n => if (n <=? 0)%Z then NoDelay else DelaySteps n
  end.

(** delay.py L13-15 and L26-32 [forward]: returns the output and the next state.  There is no
    test of the training flag. *)
Definition delay_forward {A : Type} (d : delay) (x y : A) : A * delay :=
  match d with
  | NoDelay => (y, NoDelay)
  | DelaySteps n => if (0 <? n)%Z then (x, DelaySteps (n - 1)) else (y, DelaySteps n)
  end.

(** ** binary.py *)

(** Result of a quantizer call: value, scale, zero point, bit width. *)
Definition quant_out : Type := list Q * Q * Q * Z.

(** binary.py L60-66 [BinaryQuant.forward]; the scaling implementation is any function of
    the tensor. *)
Definition binary_quant (scaling : list Q -> Q) (d : delay) (x : list Q) : quant_out * delay :=
  let scale := scaling x in
  let y := map (fun v => binary_sign v * scale) x in
  let '(y, d') := delay_forward d x y in
  ((y, scale, 0, 1%Z), d').

(** binary.py L117-124 [ClampedBinaryQuant.forward]. *)
Definition clamped_binary_quant (scaling : list Q -> Q) (d : delay) (x : list Q) : quant_out * delay :=
  let scale := scaling x in
  let y := map (fun v => tensor_clamp v (- scale) scale) x in
  let y := map (fun v => binary_sign v * scale) y in
  let '(y, d') := delay_forward d x y in
  ((y, scale, 0, 1%Z), d').

(** ** ternary.py L61-69 [TernaryQuant.forward]; ternary_sign_ste is torch.sign. *)
Definition ternary_quant (scaling : list Q -> Q) (threshold : Q) (d : delay) (x : list Q)
  : quant_out * delay :=
  let scale := scaling x in
  let y := map (fun v =>
     let mask := Qlt_bool (threshold * scale) (Qabs v) in
     (if mask then 1 else 0) * inject_Z (sgnZ v) * scale) x in
  let '(y, d') := delay_forward d x y in
  ((y, scale, 0, 2%Z), d').

(** A module that is called repeatedly: thread the state through the calls. *)
Fixpoint run_calls {S A B : Type} (call : S -> A -> B * S) (s : S) (xs : list A) : list B * S :=
  match xs with
  | [] => ([], s)
  | x :: xs' =>
      let '(y, s') := call s x in
      let '(ys, s'') := run_calls call s' xs' in
      (y :: ys, s'')
  end.

(** ** bit_width/parameter.py *)

(** parameter.py L52-83 [BitWidthParameter.__init__]: state (offset, base); None = RuntimeError.
    The restriction is [IntRestrictValue] with rounding [m] (default RoundSte), whose
    restrict_init_float is the identity (restrict_val.py L134-135). *)
Definition min_int_bit_width : Z := 2.

Definition bit_width_parameter_init (bit_width min_bit_width : Z) : option (Q * Q) :=
  if (bit_width <? min_int_bit_width)%Z then None
  else if (min_bit_width <? min_int_bit_width)%Z then None
  else if (bit_width <? min_bit_width)%Z then None
  else Some (inject_Z bit_width - inject_Z min_bit_width, inject_Z min_bit_width).

(** parameter.py L88-92 [BitWidthParameter.forward]. *)
Definition bit_width_parameter_forward (m : rmode) (st : Q * Q) : Q :=
  let '(offset, base) := st in
  float_to_int m (Qabs offset + base).

(** parameter.py L91-105: loading a checkpoint that stores a constant bit width. *)
Definition bit_width_parameter_load_const (st : Q * Q) (stored : Q) : Q * Q :=
  let '(_, base) := st in (stored - base, base).

(** parameter.py L120-141 [RemoveBitwidthParameter]. *)
Definition remove_bit_width_init (to_remove : Z) : option Q :=
  if (to_remove <? 0)%Z then None
  else if (to_remove =? 0)%Z then Some (1 / (1 # 10))
  else Some (1 / inject_Z to_remove).

Definition remove_bit_width_forward (eps coeff : Q) : Q := 1 / (eps + Qabs coeff).

(** const.py L116-122 [MsbClampBitWidth.forward]. *)
Definition msb_clamp_bit_width (to_remove : Q) (lo hi : Z) (input_bit_width : Q) : Q :=
  tensor_clamp (Qabs (input_bit_width - to_remove)) (inject_Z lo) (inject_Z hi).
