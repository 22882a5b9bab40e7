(** Model of the scales and zero points that are set by the user or learned without statistics of
    activations: src/brevitas/core/scaling/standalone.py [ConstScaling], [ParameterScaling],
    src/brevitas/core/zero_point.py [ParameterZeroPoint], [ParameterFromStatsFromParameterZeroPoint],
    src/brevitas/quant/solver/act.py [MinMaxScalingInit], and the integer quantizer they feed
    (core/quant/int.py [RescalingIntQuant], core/quant/int_base.py [IntQuant] with RoundSte).

    Real arithmetic; one element of the scale at a time except for the shapes of the learned
    scale.  The value restrictions are those of [Runtime]. *)
From Coq Require Import Reals ZArith List Bool.
From Verif Require Import Ops Scaling Runtime.
Import ListNotations.
Open Scope R_scope.

(** ** Scales *)

(** restrict_val.py L24-44 [_RestrictClampValue]. *)
Definition restrict_clamp_scaling (r : Runtime.restrict) (mv : option R) (x : R) : R :=
  clamp_value mv (restrict_fwd r x).

(** standalone.py L81-89 [ConstScaling.forward]; [threshold = None] stands for one.  The stored
    constant is [restrict_init_float] / [restrict_init_tensor] of [init] (L70-78). *)
Definition const_scaling (r : Runtime.restrict) (mv : option R) (init : R) (threshold : option R) : R :=
  let threshold := match threshold with Some t => t | None => 1 end in
  let threshold := restrict_clamp_scaling r mv (pre r threshold) in
  let restricted_value := restrict_clamp_scaling r mv (pre r init) in
  restricted_value / threshold.

(** A float or a scalar tensor, or a tensor with dimensions (shape and flattened values). *)
Inductive init_val := IScalar (v : R) | ITensor (shape : list nat) (vals : list R).

(** standalone.py L131-157 [ParameterScaling.__init__]: the parameter, or None for the error. *)
Definition param_scaling_init (r : Runtime.restrict) (init : init_val) (scaling_shape : option (list nat))
  : option (list nat * list R) :=
  match init, scaling_shape with
  | IScalar v, Some sh => Some (sh, repeat (pre r v) (fold_right Nat.mul 1%nat sh))
  | IScalar v, None => Some ([], [pre r v])
  | ITensor sh vs, None => Some (sh, map (pre r) vs)
  | ITensor sh vs, Some sh' =>
      if list_eq_dec Nat.eq_dec sh sh' then Some (sh, map (pre r) vs) else None
  end.

(** standalone.py L160-167 [ParameterScaling.forward], one element of the parameter. *)
Definition param_scaling (r : Runtime.restrict) (mv : option R) (value : R) (threshold : option R) : R :=
  let threshold := match threshold with Some t => t | None => 1 end in
  let threshold := restrict_clamp_scaling r mv (pre r threshold) in
  let value := Rabs (restrict_clamp_scaling r mv value) in
  value / threshold.

(** act.py L33-39 [MinMaxScalingInit]. *)
Definition min_max_scaling_init (min_val max_val : R) : R := Rmax (Rabs min_val) (Rabs max_val).

(** ** Zero points *)

(** [tensor_clamp] (function/ops.py L73-98) on reals. *)
Definition clampR (x lo hi : R) : R :=
  let out := if Rlt_dec hi x then hi else x in
  if Rlt_dec out lo then lo else out.

(** int_base.py L66-75 [IntQuant.to_int] with RoundSte. *)
Definition to_intR (signed narrow : bool) (scale zero_point : R) (b : Z) (x : R) : R :=
  clampR (IZR (Runtime.roundR (x / scale + zero_point)))
         (IZR (min_int signed narrow b)) (IZR (max_int signed narrow b)).

(** int_base.py L86-91 [IntQuant.forward]. *)
Definition int_quantR (signed narrow : bool) (scale zero_point : R) (b : Z) (x : R) : R :=
  (to_intR signed narrow scale zero_point b x - zero_point) * scale.

(** zero_point.py L53-60 [_ScaleShiftZeroPoint.forward]. *)
Definition scale_shift (signed narrow quantize_zero_point : bool) (zero_point scale : R) (b : Z) : R :=
  let mn := IZR (min_int signed narrow b) in
  if quantize_zero_point then to_intR signed narrow scale mn b zero_point
  else zero_point / scale + mn.

(** zero_point.py L218-221 [ParameterZeroPoint.forward]. *)
Definition param_zero_point (signed narrow quantize : bool) (value scale : R) (b : Z) : R :=
  scale_shift signed narrow quantize (Rabs value) scale b.

(** zero_point.py L83-86 [StatsFromParameterZeroPoint.forward]. *)
Definition stats_zero_point (signed narrow quantize : bool) (stats scale : R) (b : Z) : R :=
  scale_shift signed narrow quantize (- stats) scale b.

(** zero_point.py L233-298 [ParameterFromStatsFromParameterZeroPoint]. *)
Record zpcfg := { z_signed : bool; z_narrow : bool; z_quantize : bool; z_bw : Z }.
Definition wz_init : wstate := {| ws_done := false; ws_value := 0 |}.

(** L262-278 [forward]; [stats] is the statistic of the tracked parameter at this moment. *)
Definition wz_forward (c : zpcfg) (local : bool) (st : wstate) (stats scale : R) : wstate * R :=
  let shift v := scale_shift (z_signed c) (z_narrow c) (z_quantize c) v scale (z_bw c) in
  if ws_done st then (st, shift (Rabs (ws_value st)))
  else if local then (st, shift (- stats))
  else
    let value := ws_value st + stats in
    ({| ws_done := true; ws_value := value |}, shift (Rabs value)).

(** Calls, optimizer steps and loads of a checkpoint entry in any order. *)
Inductive wz_event :=
  | WCall (local : bool) (stats scale : R)
  | WOpt (value : R).
Definition wz_step (c : zpcfg) (st : wstate) (e : wz_event) : wstate :=
  match e with
  | WCall local s sc => fst (wz_forward c local st s sc)
  | WOpt v => {| ws_done := ws_done st; ws_value := v |}
  end.
Definition wz_run (c : zpcfg) (st : wstate) (es : list wz_event) : wstate := fold_left (wz_step c) es st.

(** L280-287 [state_dict]. *)
Definition wz_save (full : bool) (st : wstate) : option R :=
  if negb (ws_done st) && negb full then None else Some (ws_value st).

(** L288-298 [_load_from_state_dict] inside load_state_dict: with [strict] a missing entry is an
    error (None) unless config.IGNORE_MISSING_KEYS is set. *)
Definition wz_load (strict ignore_missing : bool) (st : wstate) (d : option R) : option wstate :=
  match d with
  | Some v => Some {| ws_done := true; ws_value := v |}
  | None => if strict && negb ignore_missing then None else Some st
  end.

(** ** An activation quantizer with user-defined limits *)

(** quant/scaled_int.py L43-76, fixed_point.py L107-166: [IntQuant] / [UintQuant] with
    [ParamMinMaxInitScaling]; the threshold is chosen by the restriction
    (quant/solver/common.py L158-169). *)
Definition act_threshold (r : Runtime.restrict) (signed narrow : bool) (b : Z) : option R :=
  match r with
  | RFloat | RLogFloat => Some (IZR (int_scaling signed narrow b))
  | RPowerOfTwo => Some (IZR (pot_int_scaling signed b))
  | RInt => None
  end.

(** The scale right after construction, and int.py L150-160 [RescalingIntQuant.forward] with
    [ZeroZeroPoint]. *)
Definition act_scale (r : Runtime.restrict) (signed narrow : bool) (b : Z) (min_val max_val : R) : option R :=
  match act_threshold r signed narrow b, param_scaling_init r (IScalar (min_max_scaling_init min_val max_val)) None with
  | Some t, Some (_, [v]) => Some (param_scaling r None v (Some t))
  | _, _ => None
  end.
Definition act_quant (r : Runtime.restrict) (signed narrow : bool) (b : Z) (min_val max_val x : R) : option R :=
  match act_scale r signed narrow b min_val max_val with
  | Some s => Some (int_quantR signed narrow s 0 b x)
  | None => None
  end.
