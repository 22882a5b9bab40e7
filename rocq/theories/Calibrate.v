(** Model of src/brevitas/graph/calibrate.py: calibration_mode L85-106, DisableEnableQuantization
    L168-254, load_quant_model_mode L137-151, ClipFloatWeights L154-165, _BiasCorrection L257-357,
    norm_correction_mode L360-385.

    Modules are numbered; [mods] is [model.modules()], [subs m] is [m.modules()].  The mutable
    attributes of a module form a record; [None] means [hasattr] is false. *)
From Coq Require Import Reals List Bool ZArith Lia.
Import ListNotations.

Inductive kind := KAct | KAcc | KWeight | KBias | KOther.
Record attrs := A {
  training : bool;
  disable_quant : bool;
  observer_only : option bool;
  return_quant_tensor : option bool;
  steps : option Z;      (** collect_stats_steps *)
  counter : option Z;
  momentum : option (option R);  (** [Some None] is [momentum = None] *)
}.
Definition state := nat -> attrs.
Definition upd (st : state) (m : nat) (f : attrs -> attrs) : state := fun i => if Nat.eqb i m then f (st i) else st i.

Definition set_training b (a : attrs) := A b (disable_quant a) (observer_only a) (return_quant_tensor a) (steps a) (counter a) (momentum a).
Definition set_disable b (a : attrs) := A (training a) b (observer_only a) (return_quant_tensor a) (steps a) (counter a) (momentum a).
Definition set_observer b (a : attrs) := A (training a) (disable_quant a) (match observer_only a with Some _ => Some b | None => None end) (return_quant_tensor a) (steps a) (counter a) (momentum a).
Definition set_rqt b (a : attrs) := A (training a) (disable_quant a) (observer_only a) (match return_quant_tensor a with Some _ => Some b | None => None end) (steps a) (counter a) (momentum a).
Definition set_steps s (a : attrs) := A (training a) (disable_quant a) (observer_only a) (return_quant_tensor a) (match steps a with Some _ => Some s | None => None end) (counter a) (momentum a).
Definition set_counter s (a : attrs) := A (training a) (disable_quant a) (observer_only a) (return_quant_tensor a) (steps a) s (momentum a).
Definition set_momentum s (a : attrs) := A (training a) (disable_quant a) (observer_only a) (return_quant_tensor a) (steps a) (counter a) s.

Definition maxsize : Z := 9223372036854775807.

Section Model.
  Variable kind_of : nat -> kind.
  Variable mods : list nat.
  Variable subs : nat -> list nat.
  Variable root : nat.

  Definition for_each (l : list nat) (f : nat -> state -> state) (st : state) : state := fold_left (fun s m => f m s) l st.
  (** [module.train(b)] *)
  Definition train (m : nat) (b : bool) (st : state) : state := for_each (subs m) (fun i s => upd s i (set_training b)) st.
  Definition observe (m : nat) (b : bool) (st : state) : state := for_each (subs m) (fun i s => upd s i (set_observer b)) st.

  (** disable_act_quantization L195-210 on [ms] = the modules of the argument *)
  Definition disable_act (call_impl : bool) (ms : list nat) (is_training : bool) (st : state) : state :=
    for_each ms (fun m s =>
      match kind_of m with
      | KAct => let s := train m is_training s in if call_impl then observe m true s else upd s m (set_disable true)
      | KAcc => upd (train m is_training s) m (set_disable true)
      | _ => s
      end) st.
  (** disable_param_quantization L212-216 *)
  Definition disable_param (ms : list nat) (is_training : bool) (st : state) : state :=
    for_each ms (fun m s =>
      match kind_of m with KWeight | KBias => upd (train m is_training s) m (set_disable true) | _ => s end) st.
  (** enable_act_quantization L224-234 *)
  Definition enable_act (ms : list nat) (is_training : bool) (st : state) : state :=
    for_each ms (fun m s =>
      match kind_of m with
      | KAcc => upd (train m is_training s) m (set_disable false)
      | KAct => observe m false (train m is_training (upd s m (set_disable false)))
      | _ => s
      end) st.
  (** enable_param_quantization L236-240 *)
  Definition enable_param (ms : list nat) (is_training : bool) (st : state) : state :=
    for_each ms (fun m s =>
      match kind_of m with KWeight | KBias => train m is_training (upd s m (set_disable false)) | _ => s end) st.
  (** DisableEnableQuantization.apply L248-254 *)
  Definition apply_quant (call_impl is_training quantization_enabled : bool) (st : state) : state :=
    if quantization_enabled then enable_param mods is_training (enable_act mods is_training st)
    else disable_param mods is_training (disable_act call_impl mods is_training st).

  (** L50-63: saved flags in visiting order *)
  Definition saved := list (nat * bool).
  Definition lookup (sv : saved) (m : nat) : option bool := match find (fun p => Nat.eqb (fst p) m) sv with Some p => Some (snd p) | None => None end.
  Definition disable_rqt (st : state) : saved * state :=
    (flat_map (fun m => match return_quant_tensor (st m) with Some b => [(m, b)] | None => [] end) mods,
     for_each mods (fun m s => upd s m (set_rqt false)) st).
  Definition restore_rqt (sv : saved) (st : state) : state :=
    for_each mods (fun m s => match lookup sv m with Some b => upd s m (set_rqt b) | None => s end) st.

  (** L65-82 *)
  Definition extend_steps (st : state) : state := for_each mods (fun m s => upd s m (set_steps maxsize)) st.
  Definition to_average (st : state) : state :=
    for_each mods (fun m s => upd s m (fun a => match steps a, momentum a with Some _, Some _ => set_momentum (Some None) a | _, _ => a end)) st.
  Definition finalize (st : state) : state :=
    for_each mods (fun m s => upd s m (fun a => match steps a, counter a with Some n, Some c => set_counter (Some (Z.max n c)) a | _, _ => a end)) st.

  (** calibration_mode.__enter__ / __exit__ L94-106; [previous] is [model.training] at construction *)
  Definition calib_enter (enabled : bool) (st : state) : saved * state :=
    if enabled then
      let st := to_average (extend_steps st) in
      let (sv, st) := disable_rqt st in
      (sv, apply_quant true true false st)
    else ([], st).
  Definition calib_exit (previous : bool) (sv : saved) (st : state) : state :=
    restore_rqt sv (apply_quant true previous true (finalize st)).
  (** A [with calibration_mode(model, enabled):] block around an arbitrary computation. *)
  Definition with_calibration (enabled : bool) (body : state -> state) (st : state) : state :=
    let previous := training (st root) in
    let (sv, st1) := calib_enter enabled st in
    calib_exit previous sv (body st1).
End Model.

(** ** Bias correction, one output channel.  A batch output is the list of that channel's values. *)
Open Scope R_scope.
Definition Rsum (l : list R) : R := fold_right Rplus 0 l.
(** compute_mean L271-273 *)
Definition mean (l : list R) : R := Rsum l / INR (length l).

Record bc := BC { float_mean : option R; correction : option R; iterations : nat }.
Definition bc0 : bc := BC None None 0.
(** collect_float_mean L282-287, [None] is the RuntimeError *)
Definition collect_float_mean (out_float : list R) (s : bc) : option bc :=
  match float_mean s with Some _ => None | None => Some (BC (Some (mean out_float)) (correction s) (iterations s)) end.
(** compute_correct_bias L312-319 with update_correction L289-293 *)
Definition compute_correct_bias (out_quant : list R) (s : bc) : bc :=
  match float_mean s with
  | Some f =>
      let error := f - mean out_quant in
      BC None (Some (match correction s with None => error | Some c => c + error end)) (iterations s)
  | None => s
  end.
(** forward_hook_wbiol L337-357 *)
Definition hook (out_float out_quant : list R) (s : bc) : option bc :=
  match collect_float_mean out_float s with
  | Some s => let s := compute_correct_bias out_quant s in Some (BC (float_mean s) (correction s) (S (iterations s)))
  | None => None
  end.
Fixpoint run_hooks (l : list (list R * list R)) (s : bc) : option bc :=
  match l with [] => Some s | (f, q) :: l' => match hook f q s with Some s' => run_hooks l' s' | None => None end end.
(** apply_correction L295-310: the new bias parameter *)
Definition apply_correction (skip_if_no_bias : bool) (b : option R) (s : bc) : option R :=
  match correction s with
  | None => b
  | Some c =>
      let c := c / INR (iterations s) in
      match b with Some v => Some (v + c) | None => if skip_if_no_bias then None else Some c end
  end.
(** channel_dim L275-280 for an output of the given rank *)
Definition channel_dim (rank : nat) (is_linear : bool) : nat := if Nat.eqb rank 3 && is_linear then 2 else 1.

(** ** norm_correction_mode.__exit__ L376-385, one channel: running mean and variance *)
Definition norm_exit (old_mean old_var new_mean new_var : R) : R * R :=
  let a := sqrt (old_var / new_var) in
  let b := old_mean - a * new_mean in
  ((old_mean - b) / a, old_var / a).

(** ** ClipFloatWeights.apply L161-165 *)
Definition clip_weight (threshold : R) (w : R) : R := Rmin (Rmax w (- threshold)) threshold.
