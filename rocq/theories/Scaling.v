(** Model of statistics-based scaling and zero-points:
    src/brevitas/core/stats/stats_op.py, core/restrict_val.py, core/scaling/int_scaling.py,
    core/scaling/runtime.py, core/zero_point.py and the wrapper core/quant/int.py
    [RescalingIntQuant].  A tensor is the list of its elements (per-tensor scaling; a
    per-channel quantizer applies the same function to each channel slice). *)
From Verif Require Import QUtil Log2Q Ops IntQuant.
Open Scope Q_scope.

(** torch.max / torch.min reductions of a non-empty tensor; torch raises on an empty one. *)
Definition reduce_max (l : list Q) : option Q :=
  match l with [] => None | x :: xs => Some (fold_left torch_max xs x) end.
Definition reduce_min (l : list Q) : option Q :=
  match l with [] => None | x :: xs => Some (fold_left torch_min xs x) end.

(** stats_op.py L164-177 [AbsMax] with stats_reduce_dim None. *)
Definition abs_max (l : list Q) : option Q := reduce_max (map Qabs l).

(** stats_op.py L27-47 [NegativeMinOrZero]: clamp(min(x), max=0). *)
Definition negative_min_or_zero (l : list Q) : option Q :=
  match reduce_min l with Some m => Some (torch_min m 0) | None => None end.

(** stats_op.py L180-204 [AbsMinMax]: |max(x) - clamp(min(x), max=0)|. *)
Definition abs_min_max (l : list Q) : option Q :=
  match reduce_max l, reduce_min l with
  | Some mx, Some mn => Some (Qabs (mx - torch_min mn 0))
  | _, _ => None
  end.

(** int_scaling.py L11-25 [IntScaling]. *)
Definition int_scaling (signed narrow : bool) (b : Z) : Z :=
  if signed then (- min_int signed narrow b)%Z else max_int signed narrow b.

(** int_scaling.py L28-38 [PowerOfTwoIntScaling]. *)
Definition pot_int_scaling (signed : bool) (b : Z) : Z := (max_int signed false b + 1)%Z.

(** restrict_val.py L76-181: value restrictions. *)
Inductive restrict :=
| RestrictFP                    (* FloatRestrictValue *)
| RestrictLogFP                 (* LogFloatRestrictValue *)
| RestrictInt (m : rmode)       (* IntRestrictValue *)
| RestrictPoT (m : rmode).      (* PowerOfTwoRestrictValue *)

(** float_to_int(log2 x) for x > 0. *)
Definition f2i_log2 (m : rmode) (x : Q) : Z :=
  match m with
  | Round | DPU => round_log2 x
  | Floor => floor_log2 x
  | Ceil => ceil_log2 x
  | RoundToZero => rtz_log2 x
  end.

(** runtime.py L92-96 without affine rescaling: pre-process (log2 for the log domain
    restrictions), combine with the threshold (division, or subtraction of logs), restrict.
    In the log domain log2(x) - log2(t) = log2(x/t); log2 0 = -inf restricts to 0. *)
Definition restrict_combine (r : restrict) (stats threshold : Q) : Q :=
  match r with
  | RestrictFP => stats / threshold
  | RestrictLogFP => stats / threshold
  | RestrictInt m => float_to_int m (stats / threshold)
  | RestrictPoT m => if Qle_bool stats 0 then 0 else pow2 (f2i_log2 m (stats / threshold))
  end.

(** restrict_val.py L28-32: ScalarClampMinSte unless min_val is None or 0. *)
Definition clamp_min_opt (mv : option Q) (x : Q) : Q :=
  match mv with
  | None => x
  | Some v => if Qeq_bool v 0 then x else torch_max x v
  end.

(** runtime.py L87-97 [_StatsScaling.forward]. *)
Definition stats_scaling (r : restrict) (mv : option Q) (stats threshold : Q) : Q :=
  clamp_min_opt mv (restrict_combine r stats threshold).

(** zero_point.py L53-60 [_ScaleShiftZeroPoint.forward]. *)
Definition scale_shift_zero_point (c : int_quant_cfg) (quantize_zero_point : bool)
    (zero_point scale : Q) (b : Z) : Q :=
  let mn := inject_Z (min_int (iq_signed c) (iq_narrow c) b) in
  if quantize_zero_point then to_int c scale mn b zero_point
  else zero_point / scale + mn.

Inductive int_scaling_kind := ISInt | ISPoT.
Inductive zero_point_kind := ZPZero | ZPStats (quantize : bool).
Inductive stats_kind := StatsAbsMax | StatsAbsMinMax.

(** A weight quantizer whose scale and zero point are statistics of the weight itself
    (quant/base.py, e.g. NarrowIntQuant + MaxStatsScaling + PerTensorFloatScaling8bit). *)
Record wq_cfg := {
  wq_int : int_quant_cfg;
  wq_stats : stats_kind;
  wq_restrict : restrict;
  wq_min_val : option Q;
  wq_int_scaling : int_scaling_kind;
  wq_zero_point : zero_point_kind }.

Definition wq_threshold (c : wq_cfg) (b : Z) : Z :=
  match wq_int_scaling c with
  | ISInt => int_scaling (iq_signed (wq_int c)) (iq_narrow (wq_int c)) b
  | ISPoT => pot_int_scaling (iq_signed (wq_int c)) b
  end.

Definition wq_stat (c : wq_cfg) (w : list Q) : option Q :=
  match wq_stats c with StatsAbsMax => abs_max w | StatsAbsMinMax => abs_min_max w end.

(** runtime.py L54-60 [StatsFromParameterScaling.forward]. *)
Definition wq_scale (c : wq_cfg) (b : Z) (w : list Q) : option Q :=
  match wq_stat c w with
  | Some st => Some (stats_scaling (wq_restrict c) (wq_min_val c) st (inject_Z (wq_threshold c b)))
  | None => None
  end.

(** zero_point.py L38-42 [ZeroZeroPoint], L65-87 [StatsFromParameterZeroPoint]. *)
Definition wq_zp (c : wq_cfg) (scale : Q) (b : Z) (w : list Q) : option Q :=
  match wq_zero_point c with
  | ZPZero => Some 0
  | ZPStats qz =>
      match negative_min_or_zero w with
      | Some st => Some (scale_shift_zero_point (wq_int c) qz (- st) scale b)
      | None => None
      end
  end.

(** int.py L150-160 [RescalingIntQuant.forward]; division by a zero scale is reported as
    [None] (torch would produce inf/nan). *)
Definition rescaling_int_quant (c : wq_cfg) (observer_only : bool) (b : Z) (w : list Q)
  : option (list Q * Q * Q * Z) :=
  match wq_scale c b w with
  | None => None
  | Some s =>
      if Qeq_bool s 0 then None else
      match wq_zp c s b w with
      | None => None
      | Some z =>
          let y := if observer_only then w else map (int_quant (wq_int c) s z b) w in
          Some (y, s, z, b)
      end
  end.
