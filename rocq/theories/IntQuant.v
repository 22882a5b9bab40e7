(** Model of src/brevitas/core/quant/int_base.py and src/brevitas/core/quant/int.py. *)
From Verif Require Import QUtil Ops.
Open Scope Q_scope.

(** Static configuration of an [IntQuant] module (int_base.py L50-64).  The delay
    wrapper is modelled separately ([Delay]); here it is the NoDelay instance.  The
    float-to-int implementation is a function on elements; [input_view_impl] only
    reshapes and is the identity on elements. *)
Record int_quant_cfg := {
  iq_signed : bool;
  iq_narrow : bool;
  iq_f2i : Q -> Q }.

Definition cfg (signed narrow : bool) (m : rmode) : int_quant_cfg :=
  {| iq_signed := signed; iq_narrow := narrow; iq_f2i := float_to_int m |}.

(** int_base.py L66-75 [IntQuant.to_int] on one element. *)
Definition to_int (c : int_quant_cfg) (scale zero_point : Q) (bit_width : Z) (x : Q) : Q :=
  let y := x / scale in
  let y := y + zero_point in
  let min_int_val := inject_Z (min_int (iq_signed c) (iq_narrow c) bit_width) in
  let max_int_val := inject_Z (max_int (iq_signed c) (iq_narrow c) bit_width) in
  let y := iq_f2i c y in
  tensor_clamp y min_int_val max_int_val.

(** int_base.py L85-91 [IntQuant.forward] on one element. *)
Definition int_quant (c : int_quant_cfg) (scale zero_point : Q) (bit_width : Z) (x : Q) : Q :=
  let y_int := to_int c scale zero_point bit_width x in
  let y := y_int - zero_point in
  y * scale.

(** int_base.py L142-176 [DecoupledIntQuant]: integers computed with the pre-scale and
    pre-zero-point, de-quantized with scale and zero-point. *)
Definition decoupled_to_int (c : int_quant_cfg) (pre_scale pre_zero_point : Q)
    (bit_width : Z) (x : Q) : Q :=
  let y := x / pre_scale in
  let y := y + pre_zero_point in
  let y := iq_f2i c y in
  tensor_clamp y (inject_Z (min_int (iq_signed c) (iq_narrow c) bit_width))
                 (inject_Z (max_int (iq_signed c) (iq_narrow c) bit_width)).

Definition decoupled_int_quant (c : int_quant_cfg)
    (pre_scale pre_zero_point scale zero_point : Q) (bit_width : Z) (x : Q) : Q :=
  let y_int := decoupled_to_int c pre_scale pre_zero_point bit_width x in
  (y_int - zero_point) * scale.

(** int_base.py is applied to tensors element by element; per-tensor scale. *)
Definition int_quant_tensor (c : int_quant_cfg) (scale zero_point : Q) (bit_width : Z)
    (x : list Q) : list Q := map (int_quant c scale zero_point bit_width) x.
