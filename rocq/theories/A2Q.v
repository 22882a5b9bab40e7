(** Model of the accumulator-aware weight quantizers:
    src/brevitas/core/scaling/pre_scaling.py, src/brevitas/function/ops.py L206-219,
    src/brevitas/core/zero_point.py L301-328 and
    src/brevitas/core/quant/int.py L228-265, configured as in src/brevitas/quant/base.py L394-494
    (AccumulatorAwareWeightQuant, AccumulatorAwareZeroCenterWeightQuant).

    One output channel at a time: the statistics are per channel (OverOutputChannelView,
    L1Norm with stats_reduce_dim), so [w] is the flattened weight of one channel.  Division by
    zero, which gives inf/nan in torch, is [None]. *)
From Verif Require Import QUtil Ops IntQuant QuantTensor.
Open Scope Q_scope.

Definition qdiv (a b : Q) : option Q := if Qeq_bool b 0 then None else Some (a / b).

Definition obind {A B} (o : option A) (f : A -> option B) : option B :=
  match o with Some a => f a | None => None end.

Fixpoint omap {A B} (f : A -> option B) (l : list A) : option (list B) :=
  match l with
  | [] => Some []
  | a :: l' => obind (f a) (fun b => obind (omap f l') (fun bs => Some (b :: bs)))
  end.

(** stats_op.py L403-418 [L1Norm]. *)
Definition l1_norm (w : list Q) : Q := Qsum (map Qabs w).

(** ops.py L206-219 [get_upper_bound_on_l1_norm]. *)
Definition get_upper_bound_on_l1_norm (acc_bw in_bw : Z) (in_signed : bool) : Q :=
  (pow2 (acc_bw - 1) - 1) * pow2 ((if in_signed then 1 else 0) - in_bw).

(** restrict_val.py L25-45 [_RestrictClampValue.clamp_min_ste]: lower bound when one is set. *)
Definition clamp_min_opt (m : option Q) (x : Q) : Q :=
  match m with Some lo => if Qlt_bool x lo then lo else x | None => x end.

(** pre_scaling.py L183-194 [inner_forward].  [v] is the learned value after restriction (the
    sub-injector of quant/base.py passes no restriction, so it is the raw parameter), [s] the
    post-scale, [T] the bound of [calc_max_l1_norm]. *)
Definition inner_forward (T s v : Q) (min_val : option Q) (w : list Q) : option Q :=
  let d_w := l1_norm w in
  let g := Qabs (clamp_min_opt min_val v) in
  obind (qdiv g s) (fun gs =>
  let g := if Qlt_bool T gs then T else gs in
  obind (qdiv d_w g) (fun value => Some (clamp_min_opt min_val value))).

(** int_base.py L142-176 with explicit division, narrow signed range (base.py L437-438),
    given float-to-int mode. *)
Definition decoupled_elem (m : rmode) (pre_scale pre_zp scale : Q) (bw : Z) (x : Q) : option Q :=
  obind (qdiv x pre_scale) (fun y =>
  let y := float_to_int m (y + pre_zp) in
  let y := tensor_clamp y (inject_Z (min_int true true bw)) (inject_Z (max_int true true bw)) in
  Some ((y - 0) * scale)).

(** int.py L251-265 [DecoupledRescalingIntQuantWithInput.forward] with int_scaling 1, zero
    zero-points and RoundToZero: AccumulatorAwareWeightQuant. *)
Definition a2q_quant (m : rmode) (acc_bw in_bw : Z) (in_signed : bool) (bw : Z) (s v : Q)
    (min_val : option Q) (w : list Q) : option (list Q) :=
  let T := get_upper_bound_on_l1_norm acc_bw in_bw in_signed in
  obind (inner_forward T s v min_val w) (fun pre_threshold =>
  let pre_scale := pre_threshold / 1 in
  omap (decoupled_elem m pre_scale 0 s bw) w).

(** zero_point.py L315-320 [get_zero_center]: minus the mean of the channel. *)
Definition zero_center (w : list Q) : Q := - (Qsum w / inject_Z (Z.of_nat (length w))).

(** pre_scaling.py L252-259 [calc_max_l1_norm] of the zero-centred variant. *)
Definition max_l1_norm_zero_center (acc_bw in_bw : Z) : option Q :=
  qdiv (pow2 acc_bw - 2) (pow2 in_bw - 1).

(** AccumulatorAwareZeroCenterWeightQuant: pre-zero-point [zero_center / pre_scale]. *)
Definition a2q_plus_quant (m : rmode) (acc_bw in_bw : Z) (bw : Z) (s v : Q)
    (min_val : option Q) (w : list Q) : option (list Q) :=
  let z := zero_center w in
  obind (max_l1_norm_zero_center acc_bw in_bw) (fun T =>
  obind (inner_forward T s v min_val (map (fun x => x + z) w)) (fun pre_threshold =>
  let pre_scale := pre_threshold / 1 in
  obind (qdiv z pre_scale) (fun pre_zp =>
  omap (decoupled_elem m pre_scale pre_zp s bw) w))).
