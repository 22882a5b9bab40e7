(** Model of the code that rewrites checkpoints of older versions, or of quantizers that kept
    running statistics: src/brevitas/proxy/utils.py [ConvertRuntimeStatsToParameter],
    src/brevitas/core/scaling/standalone.py (the name learned_value),
    src/brevitas/core/bit_width/parameter.py [_load_from_state_dict],
    src/brevitas/proxy/quant_proxy.py and src/brevitas/proxy/runtime_quant.py (the entry
    zero_hw_sentinel), src/brevitas/nn/quant_layer.py L56-62, and of the scale of
    src/brevitas/core/scaling/runtime.py [RuntimeStatsScaling] that such a checkpoint comes from.

    Checkpoints are the dictionaries of [StateDict]; one real number per entry (the rewriting is
    element-wise). *)
From Coq Require Import Reals List Bool String Ascii.
From Verif Require Import StateDict Runtime StaticScaling.
Import ListNotations.
Open Scope string_scope.

(** ** proxy/utils.py *)
(** L11-15. *)
Definition scaling_impl_postfix : string := "fused_activation_quant_proxy.tensor_quant.scaling_impl".
Definition runtime_stats_postfix : string := scaling_impl_postfix ++ ".runtime_stats".
Definition running_stats_postfix : string := scaling_impl_postfix ++ ".runtime_stats.running_stats".
Definition scaling_parameter_postfix : string := scaling_impl_postfix ++ ".value".

(** L17-30 [__call__]; restrict_init_tensor is [pre]. *)
Definition convert_stats (r : restrict) (prefix : string) (d : dict R) : dict R :=
  let running_stats_key := prefix ++ running_stats_postfix in
  let scaling_parameter_key := prefix ++ scaling_parameter_postfix in
  let d := match get d running_stats_key, get d scaling_parameter_key with
           | Some s, None => set d scaling_parameter_key (pre r (Rabs s))
           | _, _ => d
           end in
  filter (fun e => negb (startswith (fst e) (prefix ++ runtime_stats_postfix))) d.

(** core/scaling/standalone.py L172-175 and L406-409. *)
Definition rename_learned (prefix : string) (d : dict R) : dict R :=
  match pop d (prefix ++ "learned_value") with
  | Some (v, d') => set d' (prefix ++ "value") v
  | None => d
  end.

(** What an activation layer at prefix [p] does to the checkpoint before the scale is read:
    quant_layer.py L59-60, quant_proxy.py L130-131, standalone.py. *)
Definition act_checkpoint (r : restrict) (p : string) (d : dict R) : option (dict R) :=
  match rename_by_prefix (p ++ "act_quant_proxy") (p ++ "act_quant") d with
  | None => None
  | Some d =>
      let d := convert_stats r (p ++ "act_quant.") d in
      Some (rename_learned (p ++ "act_quant." ++ scaling_impl_postfix ++ ".") d)
  end.

(** ** core/scaling/runtime.py L87-97 [_StatsScaling.forward], L157-161 [_AffineRescaling]
    ([affine]: weight and bias), on the running average in evaluation mode. *)
Definition stats_scale (r : restrict) (mv : option R) (affine : option (R * R)) (stats threshold : R) : R :=
  let threshold := pre r threshold in
  let stats := pre r stats in
  let stats := combine_thr r stats threshold in
  let stats := match affine with Some (w, b) => Rabs (stats * w + b) | None => stats end in
  restrict_clamp_scaling r mv stats.

(** ** core/bit_width/parameter.py L94-110 [BitWidthParameter._load_from_state_dict], up to the
    default loader; [None]: the assertion.  L88-92 [forward]. *)
Definition load_bit_width (override_pretrained : bool) (base : R) (prefix : string) (d : dict R) : option (dict R) :=
  let const_key := prefix ++ "bit_width" in
  let offset_key := prefix ++ "bit_width_offset" in
  let d := match get d const_key with
           | Some b => match get d offset_key with
                       | Some _ => None
                       | None => Some (without (set d offset_key (b - base)%R) const_key)
                       end
           | None => Some d
           end in
  match d with
  | None => None
  | Some d => Some (if override_pretrained then without d offset_key else d)
  end.
Definition learned_bit_width (r : restrict) (min_bit_width offset : R) : R :=
  restrict_fwd r (Rabs offset + pre r min_bit_width)%R.
(** The offset after loading: the default loader takes the entry or keeps the initial value. *)
Definition loaded_offset (override_pretrained : bool) (base : R) (prefix : string) (init : R) (d : dict R) : option R :=
  match load_bit_width override_pretrained base prefix d with
  | None => None
  | Some d' => Some (match get d' (prefix ++ "bit_width_offset") with Some o => o | None => init end)
  end.

(** ** The entry zero_hw_sentinel *)
(** list.remove: the first occurrence, or ValueError. *)
Fixpoint remove_first (k : string) (l : list string) : option (list string) :=
  match l with
  | [] => None
  | x :: l' => if String.eqb x k then Some l' else option_map (cons x) (remove_first k l')
  end.
Definition mem (k : string) (l : list string) : bool := existsb (String.eqb k) l.
Definition zhs : string := "zero_hw_sentinel".
(** quant_proxy.py L141-144, on the list of unexpected keys. *)
Definition proxy_unexpected (prefix : string) (l : list string) : option (list string) :=
  let key := prefix ++ zhs in
  if mem key l then remove_first key l else Some l.
(** Python's split and join on dots. *)
Fixpoint split_dot (s : string) : list string :=
  match s with
  | EmptyString => [""]
  | String c s' =>
      if Ascii.eqb c "." then "" :: split_dot s'
      else match split_dot s' with x :: l => String c x :: l | [] => [String c ""] end
  end.
Fixpoint join_dot (l : list string) : string :=
  match l with [] => "" | [x] => x | x :: l' => x ++ "." ++ join_dot l' end.
(** [l[:-2]] *)
Definition but_last2 (l : list string) : list string := removelast (removelast l).
(** runtime_quant.py L282-294. *)
Definition trunc_unexpected (prefix : string) (l : list string) : option (list string) :=
  match proxy_unexpected prefix l with
  | None => None
  | Some l =>
      let zhs_key := prefix ++ zhs in
      let zhs_old_prefix_key := join_dot (but_last2 (split_dot prefix)) ++ ".accumulator_quant." ++ zhs in
      match (if mem zhs l then remove_first zhs_key l else Some l) with
      | None => None
      | Some l => if mem zhs_old_prefix_key l then remove_first zhs_old_prefix_key l else Some l
      end
  end.
