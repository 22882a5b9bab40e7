(** Model of the MX (microscaling) quantizers:
    src/brevitas/quant/experimental/mx_quant_ocp.py,
    src/brevitas/core/scaling/runtime.py [_StatsScaling], [RuntimeDynamicGroupStatsScaling],
    src/brevitas/core/restrict_val.py [_RestrictClampValue], [PowerOfTwoRestrictValue],
    src/brevitas/core/scaling/int_scaling.py and float_scaling.py,
    src/brevitas/quant/base.py [MaxStatsScaling], [IntQuant].

    Exact rationals; log2 appears only under a ceiling and is exact there (float rounding of
    torch.log2 near a power of two, and overflow of 2.0 ** x, are not modelled).  The views,
    the reduction over the groups and the broadcast of the scale are those of [Groupwise]. *)
From Verif Require Import QUtil Log2Q Ops IntQuant Scaling Minifloat Groupwise.
Open Scope Q_scope.

(** stats_op.py L164-177 [AbsMax] over the elements of one group (keepdim). *)
Definition group_abs_max (l : list Q) : Q := match abs_max l with Some m => m | None => 0 end.

(** base.py L94-99 [MaxStatsScaling] and float_base.py L16-28 [FloatBase]: scaling_min_val. *)
Definition mx_min_val : Q := 1 # 10000000000.

(** mx_quant_ocp.py L46-50 [MXWeightMixin]: statistics of the group of the weight, restricted
    to a power of two through CeilSte; runtime.py L87-97 [_StatsScaling.forward]. *)
Definition mx_weight_scale (threshold : Q) (l : list Q) : Q :=
  stats_scaling (RestrictPoT Ceil) (Some mx_min_val) (group_abs_max l) threshold.

(** restrict_val.py L178-181 [PowerOfTwoRestrictValue.forward] by itself: the value is rounded
    and used as an exponent. *)
Definition pot_forward (m : rmode) (x : Q) : Q := pow2 (float_to_intZ m x).

(** mx_quant_ocp.py L53-66 [MXActMixin]; runtime.py L192-203
    [RuntimeDynamicGroupStatsScaling.forward]: the statistic is divided by the threshold and
    handed to the restriction as it is. *)
Definition mx_act_scale (threshold : Q) (l : list Q) : Q :=
  clamp_min_opt (Some mx_min_val) (pot_forward Ceil (group_abs_max l / threshold)).

(** mx_quant_ocp.py L95-105 [MXInt8Weight]: IntQuant (signed, not narrow), zero point 0, and
    solver/common.py L158-169: PowerOfTwoIntScaling for a power-of-two restriction. *)
Definition mx_int_threshold (b : Z) : Q := inject_Z (pot_int_scaling true b).
Definition mx_int (b : Z) (scale x : Q) : Q := int_quant (cfg true false Round) scale 0 b x.
Definition mx_int_weight (b group_size group_dim : Z) (w : tens) : option (tens * tens) :=
  groupwise_weight (mx_weight_scale (mx_int_threshold b)) (mx_int b) group_size group_dim w.

(** mx_quant_ocp.py L119-123 [MXInt8Act]. *)
Definition mx_int_act (b group_size group_dim : Z) (x : tens) : option (tens * tens) :=
  groupwise_act (mx_act_scale (mx_int_threshold b)) (mx_int b) group_size group_dim x.

(** mx_quant_ocp.py L69-78 [MXFloat8e4m3Weight], L81-87 [MXFloat8e4m3Act]: FloatQuant with
    FloatScaling as the threshold.  The formats are saturating (float_quant_ocp.py L12), so the
    result is always finite and the default below is never used. *)
Definition mx_float (c : fcfg) (eps scale x : Q) : Q :=
  match float_quant c false eps x scale with Some (Fin y) => y | _ => 0 end.
Definition mx_float_weight (c : fcfg) (eps : Q) (group_size group_dim : Z) (w : tens) : option (tens * tens) :=
  groupwise_weight (mx_weight_scale (float_max_value c)) (mx_float c eps) group_size group_dim w.
Definition mx_float_act (c : fcfg) (eps : Q) (group_size group_dim : Z) (x : tens) : option (tens * tens) :=
  groupwise_act (mx_act_scale (float_max_value c)) (mx_float c eps) group_size group_dim x.
