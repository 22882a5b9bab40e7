(** Model of the stateful scaling and zero-point modules that collect statistics:
    src/brevitas/core/stats/stats_wrapper.py [_RuntimeStats],
    src/brevitas/core/scaling/standalone.py [ParameterFromRuntimeStatsScaling],
    src/brevitas/core/zero_point.py [ParameterFromRuntimeZeroPoint],
    src/brevitas/core/utils.py [inplace_momentum_update],
    src/brevitas/core/restrict_val.py.

    One element of the (per-tensor or per-channel) statistic is modelled; all operations are
    element-wise.  Logarithms and powers are needed here, so values are real numbers of the
    standard library.  The statistics operator itself is abstracted: a call receives the value
    of the statistic on its batch. *)
From Coq Require Import Reals ZArith List Bool.
Import ListNotations.
Open Scope R_scope.

Definition log2R (x : R) : R := ln x / ln 2.
Definition exp2R (x : R) : R := Rpower 2 x.
Definition floorR (x : R) : Z := (up x - 1)%Z.

(** torch.round: nearest integer, ties to even. *)
Definition roundR (x : R) : Z :=
  let f := floorR x in
  let r := x - IZR f in
  if Rlt_dec r (1 / 2) then f
  else if Rlt_dec (1 / 2) r then (f + 1)%Z
  else if Z.even f then f else (f + 1)%Z.

(** restrict_val.py L77-181: FloatRestrictValue, LogFloatRestrictValue, IntRestrictValue,
    PowerOfTwoRestrictValue (the latter two with RoundSte). *)
Inductive restrict := RFloat | RLogFloat | RInt | RPowerOfTwo.

(** restrict_init_module / restrict_init_inplace_module. *)
Definition pre (r : restrict) (x : R) : R :=
  match r with RFloat | RInt => x | RLogFloat | RPowerOfTwo => log2R x end.

(** combine_scale_threshold *)
Definition combine_thr (r : restrict) (x t : R) : R :=
  match r with RFloat | RInt => x / t | RLogFloat | RPowerOfTwo => x - t end.

(** forward *)
Definition restrict_fwd (r : restrict) (x : R) : R :=
  match r with
  | RFloat => x
  | RLogFloat => exp2R x
  | RInt => IZR (roundR x)
  | RPowerOfTwo => exp2R (IZR (roundR x))
  end.

(** restrict_val.py L60-73 [_ClampValue] ([None]: no minimum, or minimum 0). *)
Definition clamp_value (m : option R) (x : R) : R :=
  match m with Some lo => if Rlt_dec x lo then lo else x | None => x end.

(** utils.py L26-38 [inplace_momentum_update]. *)
Definition momentum_update (m : option R) (t u : R) (counter new_counter : nat) : R :=
  match m with
  | None => t * (INR counter / INR new_counter) + u / INR new_counter
  | Some m => t * (1 - m) + m * u
  end.

(** ** stats_wrapper.py L37-83 [_RuntimeStats] *)
Record rstats := { rs_counter : nat; rs_running : R }.
Definition rs_init : rstats := {| rs_counter := 0; rs_running := 1 |}.

(** forward in training mode (L57-66): returns the batch statistic, updates the average. *)
Definition rs_train (m : option R) (st : rstats) (stats : R) : rstats * R :=
  let new_counter := S (rs_counter st) in
  let running := if Nat.eqb (rs_counter st) 0 then rs_running st * stats
                 else momentum_update m (rs_running st) stats (rs_counter st) new_counter in
  ({| rs_counter := new_counter; rs_running := running |}, stats).

(** forward in evaluation mode (L67-69). *)
Definition rs_eval (st : rstats) : rstats * R := (st, rs_running st).

(** The state dict holds running_stats only (the counter is not a buffer); loading (L71-83)
    overwrites the buffer of the receiving module and leaves its counter alone. *)
Definition rs_save (st : rstats) : R := rs_running st.
Definition rs_load (st : rstats) (d : R) : rstats := {| rs_counter := rs_counter st; rs_running := d |}.

Inductive rs_event := RTrain (stats : R) | REval.
Definition rs_step (m : option R) (st : rstats) (e : rs_event) : rstats * R :=
  match e with RTrain s => rs_train m st s | REval => rs_eval st end.
Fixpoint rs_run (m : option R) (st : rstats) (es : list rs_event) : rstats * list R :=
  match es with
  | [] => (st, [])
  | e :: es' => let (st1, o) := rs_step m st e in
                let (st2, os) := rs_run m st1 es' in (st2, o :: os)
  end.

(** ** standalone.py L262-423 [ParameterFromRuntimeStatsScaling] *)
Record pcfg := { p_steps : nat; p_momentum : option R; p_restrict : restrict; p_min : option R }.
Record pstate := { ps_counter : nat; ps_buffer : R; ps_value : R }.
Definition ps_init : pstate := {| ps_counter := 0; ps_buffer := 1; ps_value := 1 |}.

Definition learned_scale (c : pcfg) (value threshold : R) : R :=
  let threshold := pre (p_restrict c) threshold in
  let value := combine_thr (p_restrict c) value threshold in
  Rabs (clamp_value (p_min c) (restrict_fwd (p_restrict c) value)).

(** L337-370 [training_forward]; [local] is local_loss_mode.  [stats + 0. * value] is [stats]. *)
Definition ps_train (c : pcfg) (local : bool) (st : pstate) (stats threshold : R) : pstate * R :=
  if Nat.ltb (ps_counter st) (p_steps c) then
    let clamped := clamp_value (p_min c) stats in
    let new_counter := S (ps_counter st) in
    if local then (st, Rabs (clamped / threshold))
    else
      let buffer := if Nat.eqb (ps_counter st) 0 then ps_buffer st * clamped
                    else momentum_update (p_momentum c) (ps_buffer st) clamped (ps_counter st) new_counter in
      ({| ps_counter := new_counter; ps_buffer := buffer; ps_value := ps_value st |},
       Rabs (clamped / threshold))
  else if Nat.eqb (ps_counter st) (p_steps c) then
    let buffer := pre (p_restrict c) (ps_buffer st) in
    let value := ps_value st * buffer in
    ({| ps_counter := S (ps_counter st); ps_buffer := buffer; ps_value := value |},
     learned_scale c value threshold)
  else (st, learned_scale c (ps_value st) threshold).

(** L372-387 [forward] in evaluation mode. *)
Definition ps_eval (c : pcfg) (st : pstate) (threshold : R) : R :=
  if Nat.leb (ps_counter st) (p_steps c) then
    let out := ps_buffer st / threshold in
    let out := pre (p_restrict c) out in
    Rabs (clamp_value (p_min c) (restrict_fwd (p_restrict c) out))
  else learned_scale c (ps_value st) threshold.

(** L389-400 [state_dict]: the only entry is value; [full] is config._FULL_STATE_DICT. *)
Definition ps_save (c : pcfg) (full : bool) (st : pstate) : option R :=
  if Nat.eqb (ps_counter st) 0 && negb full then None
  else if Nat.leb (ps_counter st) (p_steps c) then Some (pre (p_restrict c) (ps_buffer st))
  else Some (ps_value st).

(** L402-423 [_load_from_state_dict]. *)
Definition ps_load (c : pcfg) (st : pstate) (d : option R) : pstate :=
  match d with
  | None => st
  | Some v => {| ps_counter := S (p_steps c); ps_buffer := ps_buffer st; ps_value := v |}
  end.

(** What can happen to the module: training calls, training calls in local-loss mode,
    evaluation calls, and optimizer steps that overwrite the parameter. *)
Inductive pevent :=
| PTrain (stats threshold : R)
| PLocal (stats threshold : R)
| PEval (threshold : R)
| POpt (value : R).

Definition ps_step (c : pcfg) (st : pstate) (e : pevent) : pstate * R :=
  match e with
  | PTrain s t => ps_train c false st s t
  | PLocal s t => ps_train c true st s t
  | PEval t => (st, ps_eval c st t)
  | POpt v => ({| ps_counter := ps_counter st; ps_buffer := ps_buffer st; ps_value := v |}, v)
  end.

Fixpoint ps_run (c : pcfg) (st : pstate) (es : list pevent) : pstate :=
  match es with [] => st | e :: es' => ps_run c (fst (ps_step c st e)) es' end.

(** ** zero_point.py L89-186 [ParameterFromRuntimeZeroPoint], before scale_shift_zero_point:
    the (non-negative) float zero point. *)
Definition zp_init : pstate := {| ps_counter := 0; ps_buffer := 0; ps_value := 0 |}.

(** L118-141 [training_forward] followed by abs (L152). *)
Definition zp_train (c : pcfg) (local : bool) (st : pstate) (stats : R) : pstate * R :=
  if Nat.ltb (ps_counter st) (p_steps c) then
    if local then (st, Rabs stats)
    else
      let new_counter := S (ps_counter st) in
      let buffer := if Nat.eqb (ps_counter st) 0 then ps_buffer st + stats
                    else momentum_update (p_momentum c) (ps_buffer st) stats (ps_counter st) new_counter in
      ({| ps_counter := new_counter; ps_buffer := buffer; ps_value := ps_value st |}, Rabs stats)
  else if Nat.eqb (ps_counter st) (p_steps c) then
    let value := ps_value st + ps_buffer st in
    ({| ps_counter := S (ps_counter st); ps_buffer := ps_buffer st; ps_value := value |}, Rabs value)
  else (st, Rabs (ps_value st)).

(** L144-154 [forward] in evaluation mode. *)
Definition zp_eval (c : pcfg) (st : pstate) : R :=
  Rabs (if Nat.leb (ps_counter st) (p_steps c) then ps_buffer st else ps_value st).

(** L156-167 [state_dict], L169-186 [_load_from_state_dict]. *)
Definition zp_save (c : pcfg) (st : pstate) : option R :=
  if Nat.eqb (ps_counter st) 0 then None
  else if Nat.leb (ps_counter st) (p_steps c) then Some (ps_buffer st)
  else Some (ps_value st).

Definition zp_step (c : pcfg) (st : pstate) (e : pevent) : pstate * R :=
  match e with
  | PTrain s _ => zp_train c false st s
  | PLocal s _ => zp_train c true st s
  | PEval _ => (st, zp_eval c st)
  | POpt v => ({| ps_counter := ps_counter st; ps_buffer := ps_buffer st; ps_value := v |}, v)
  end.

Fixpoint zp_run (c : pcfg) (st : pstate) (es : list pevent) : pstate :=
  match es with [] => st | e :: es' => zp_run c (fst (zp_step c st e)) es' end.

(** ** standalone.py L181-259 [ParameterFromStatsFromParameterScaling] *)
Record wstate := { ws_done : bool; ws_value : R }.
Definition ws_init : wstate := {| ws_done := false; ws_value := 1 |}.

(** restrict_val.py L40-44 [_RestrictClampValue]. *)
Definition restrict_clamp (c : pcfg) (x : R) : R := clamp_value (p_min c) (restrict_fwd (p_restrict c) x).

(** L215-240 [forward]; [stats] is the statistic of the tracked parameter at this moment;
    runtime.py L88-98 [_StatsScaling.forward] in local-loss mode. *)
Definition ws_forward (c : pcfg) (local : bool) (st : wstate) (stats threshold : R) : wstate * R :=
  if ws_done st then
    (st, Rabs (restrict_clamp c (combine_thr (p_restrict c) (ws_value st) (pre (p_restrict c) threshold))))
  else if local then
    (st, restrict_clamp c (combine_thr (p_restrict c) (pre (p_restrict c) stats) (pre (p_restrict c) threshold)))
  else
    let value := ws_value st * pre (p_restrict c) stats in
    ({| ws_done := true; ws_value := value |},
     Rabs (restrict_clamp c (combine_thr (p_restrict c) value (pre (p_restrict c) threshold)))).

(** L242-249 [state_dict], L251-261 [_load_from_state_dict]. *)
Definition ws_save (full : bool) (st : wstate) : option R :=
  if negb (ws_done st) && negb full then None else Some (ws_value st).
Definition ws_load (st : wstate) (d : option R) : wstate :=
  match d with None => st | Some v => {| ws_done := true; ws_value := v |} end.
