(** Model of what an export does to the model: src/brevitas/common.py (L10-48, [ExportMixin]),
    src/brevitas/export/manager.py (L53-236), src/brevitas/export/onnx/manager.py (L107-191) and
    the parts of src/brevitas/proxy/runtime_quant.py and src/brevitas/proxy/parameter_quant.py that
    look at the export state.

    A model is the list of its modules in the order of [modules()], the root first; no quantization
    proxy contains another one, so [apply] reaches the proxies in the same order.  [P] is the state
    of a quantizer (parameters and buffers), [M] what its handler stores (scale, zero point, bit
    width, quantized weight); [meta] computes it.  Not modelled: recurrent layers, dynamic
    activation quantizers, quantized biases whose scale comes from the input, passthrough of
    quantized tensors by disabled activations, weight caching, the ONNX graph itself. *)
From Coq Require Import List Bool Arith.
Import ListNotations.

(** [KAct fused]: an activation proxy; [fused] is false when it has neither an activation function
    nor a quantizer (runtime_quant.py L164-166). *)
Inductive kind := KPlain | KWeight | KBias | KAct (fused : bool).

Definition set_nth {A} (i : nat) (x : A) (l : list A) : list A := firstn i l ++ x :: skipn (S i) l.

Section Export.
Context {P M : Type}.
Variable meta : P -> M.
(** [handles mgr cls]: the manager has a handler for the class; [valid mgr v]: the handler's
    prepare_for_export accepts the metadata (e.g. no unsigned quantization above 8 bits for QCDQ,
    no zero point of binary quantizers for QONNX). *)
Variable handles : nat -> nat -> bool.
Variable valid : nat -> M -> bool.

Record qmod := Mod {
  m_kind : kind; m_class : nat; m_param : P; m_train : bool;
  m_enabled : bool;                          (* not disable_quant, and a quantizer is given *)
  m_mode : bool;                             (* _export_mode *)
  m_handler : option (nat * option M);       (* export_handler: its manager and what it stored *)
  m_flag : bool; m_flag_bak : option bool;   (* cache_inference_quant_act / _bias and its backup *)
  m_io : bool; m_io_bak : option bool;       (* cache_quant_io_metadata_only and its backup *)
  m_cache : option M                         (* _cached_act / _cached_bias *) }.

Definition with_param p (m : qmod) := Mod (m_kind m) (m_class m) p (m_train m) (m_enabled m) (m_mode m) (m_handler m) (m_flag m) (m_flag_bak m) (m_io m) (m_io_bak m) (m_cache m).
Definition with_train b (m : qmod) := Mod (m_kind m) (m_class m) (m_param m) b (m_enabled m) (m_mode m) (m_handler m) (m_flag m) (m_flag_bak m) (m_io m) (m_io_bak m) (m_cache m).
Definition with_enabled b (m : qmod) := Mod (m_kind m) (m_class m) (m_param m) (m_train m) b (m_mode m) (m_handler m) (m_flag m) (m_flag_bak m) (m_io m) (m_io_bak m) (m_cache m).
Definition with_export b h (m : qmod) := Mod (m_kind m) (m_class m) (m_param m) (m_train m) (m_enabled m) b h (m_flag m) (m_flag_bak m) (m_io m) (m_io_bak m) (m_cache m).
Definition with_flag b k (m : qmod) := Mod (m_kind m) (m_class m) (m_param m) (m_train m) (m_enabled m) (m_mode m) (m_handler m) b k (m_io m) (m_io_bak m) (m_cache m).
Definition with_io b k (m : qmod) := Mod (m_kind m) (m_class m) (m_param m) (m_train m) (m_enabled m) (m_mode m) (m_handler m) (m_flag m) (m_flag_bak m) b k (m_cache m).
Definition with_cache c (m : qmod) := Mod (m_kind m) (m_class m) (m_param m) (m_train m) (m_enabled m) (m_mode m) (m_handler m) (m_flag m) (m_flag_bak m) (m_io m) (m_io_bak m) c.

Definition is_act (m : qmod) : bool := match m_kind m with KAct _ => true | _ => false end.
Definition is_bias (m : qmod) : bool := match m_kind m with KBias => true | _ => false end.
(** is_quant_enabled; never true without a quantizer. *)
Definition quant_on (m : qmod) : bool := match m_kind m with KPlain | KAct false => false | _ => m_enabled m end.
Definition is_proxy (m : qmod) : bool := match m_kind m with KPlain => false | _ => true end.

(** ** Forward passes *)

(** runtime_quant.py L204-206, parameter_quant.py L356-359: caching in evaluation mode. *)
Definition cache_out (v : M) (m : qmod) : qmod :=
  if negb (m_train m) && m_flag m then with_cache (Some v) m else m.
(** The proxy's forward (runtime_quant.py L167-207, parameter_quant.py L87-150 and L332-362): the
    quantizer applied, by the handler of a manager ([Some]) or by tensor_quant ([None]) and with
    which metadata; no quantizer; the outer None raises (a handler that stored nothing: KeyError
    for QONNX, assertion for QCDQ). *)
Definition handler_data (m : qmod) : option (option nat * M) :=
  match m_handler m with Some (g, Some v) => Some (Some g, v) | _ => None end.
Definition forward1 (m : qmod) : option (qmod * option (option nat * M)) :=
  let quantized :=
    match (if m_mode m then handler_data m else Some (None, meta (m_param m))) with
    | Some (g, v) => Some (match m_kind m with KWeight => m | _ => cache_out v m end, Some (g, v))
    | None => None
    end in
  match m_kind m with
  | KPlain => Some (m, None)
  | KWeight | KBias => if quant_on m then quantized else Some (m, None)
  | KAct false => Some (m, None)
  | KAct true => if m_mode m then quantized
                 else if quant_on m then quantized else Some (m, None)
  end.

(** A forward pass that calls the modules [vis] in this order; the quantizers applied, and false
    when it raises. *)
Fixpoint forward (vis : list nat) (l : list qmod) : list qmod * list (nat * (option nat * M)) * bool :=
  match vis with
  | [] => (l, [], true)
  | i :: r =>
      match nth_error l i with
      | None => forward r l
      | Some m =>
          match forward1 m with
          | None => (l, [], false)
          | Some (m', o) =>
              let '(l', os, ok) := forward r (set_nth i m' l) in
              (l', match o with Some q => (i, q) :: os | None => os end, ok)
          end
      end
  end.

(** runtime_quant.py L110-125 ([internal_forward] and [retrieve_attribute]) with force_eval (the
    metadata getters scale(), zero_point(), bit_width()); weights and biases always recompute.
    Called with quantization enabled. *)
Definition getter (m : qmod) : qmod * option M :=
  match m_kind m with
  | KAct _ =>
      match m_cache m with
      | Some v => (m, Some v)
      | None =>
          match forward1 (with_train false m) with
          | Some (m', o) => (with_train (m_train m) m', option_map snd o)
          | None => (with_train false m, None)
          end
      end
  | _ => (m, match (if m_mode m then handler_data m else Some (None, meta (m_param m))) with Some (_, v) => Some v | None => None end)
  end.

(** ** Export mode *)

(** manager.py L110-120 [_set_export_handler] for proxies; false raises. *)
Definition set_handler (mgr : nat) (m : qmod) : qmod * bool :=
  if is_proxy m then
    match m_handler m with
    | Some _ => (m, true)
    | None => if handles mgr (m_class m) then (with_export (m_mode m) (Some (mgr, None)) m, true)
              else (m, negb (quant_on m))
    end
  else (m, true).

(** common.py L29-48 [export_mode = True], without BREVITAS_JIT; prepare_for_export of the
    handlers reads the metadata through the getters. *)
Definition mode_on (m : qmod) : qmod * bool :=
  if is_proxy m then
    if m_train m then (m, false)
    else match m_handler m with
         | None => (m, negb (quant_on m))
         | Some (g, _) =>
             if m_mode m then (m, true)
             else if quant_on m then
               match getter m with
               | (m1, Some v) => if valid g v then (with_export true (Some (g, Some v)) m1, true) else (m1, false)
               | (m1, None) => (m1, false)
               end
             else (with_export true (m_handler m) m, true)
         end
  else (m, true).
(** [export_mode = False]: the handler is dropped. *)
Definition mode_off (m : qmod) : qmod := if is_proxy m then with_export false None m else m.

(** manager.py L53-90: [_override_*_caching_mode] and [_restore_*_caching_mode]. *)
Definition override_flag (sel : qmod -> bool) (b : bool) (m : qmod) : qmod :=
  if sel m then match m_flag_bak m with None => with_flag b (Some (m_flag m)) m | Some _ => m end else m.
Definition restore_flag (sel : qmod -> bool) (m : qmod) : qmod :=
  if sel m then match m_flag_bak m with Some b => with_flag b None m | None => m end else m.
Definition override_io (b : bool) (m : qmod) : qmod :=
  if is_act m then match m_io_bak m with None => with_io b (Some (m_io m)) m | Some _ => m end else m.
Definition restore_io (m : qmod) : qmod :=
  if is_act m then match m_io_bak m with Some b => with_io b None m | None => m end else m.

(** A loop over the modules that stops at the first exception. *)
Fixpoint each (f : qmod -> qmod * bool) (l : list qmod) : list qmod * bool :=
  match l with
  | [] => ([], true)
  | m :: r => let '(m', ok) := f m in
              if ok then let '(r', ok') := each f r in (m' :: r', ok') else (m' :: r, false)
  end.

(** ** Exports *)
Record state := St { s_mods : list qmod; s_grads : list bool (* requires_grad of the parameters *) }.
Definition root_train (l : list qmod) : bool := match l with m :: _ => m_train m | [] => false end.
Inductive result := Raised | Exported (nodes : list (nat * (option nat * M))).

(** One call: the manager, the modules reached by the caching forward pass and whether it returns,
    and the same for the tracing pass; torch or the model may raise in either. *)
Record call := Call { c_mgr : nat; c_vis1 : list nat; c_ok1 : bool; c_vis2 : list nat; c_ok2 : bool }.

(** manager.py L191-201 [_cache_inp_out]. *)
Definition cache_inp_out (c : call) (l : list qmod) : list qmod * bool :=
  let l := map (override_io true) l in
  let l := map (override_flag is_bias true) l in
  let l := map (override_flag is_act true) l in
  let '(l, _, ok) := forward (c_vis1 c) l in
  if ok && c_ok1 c then
    let l := map restore_io l in
    let l := map (restore_flag is_bias) l in
    let l := map (restore_flag is_act) l in
    (l, true)
  else (l, false).

(** Both exports up to the tracing pass (onnx/manager.py L128-158, manager.py L203-219). *)
Definition before_trace (c : call) (l : list qmod) : list qmod * bool :=
  let l := map (with_train false) l in
  let '(l, ok) := each (set_handler (c_mgr c)) l in
  if ok then
    let '(l, ok) := cache_inp_out c l in
    if ok then each mode_on l else (l, false)
  else (l, false).

(** onnx/manager.py L127-176 [export_onnx] (what follows only touches the ONNX model). *)
Definition export_onnx (c : call) (s : state) : state * result :=
  let ts := root_train (s_mods s) in
  let '(l, ok) := before_trace c (s_mods s) in
  if ok then
    let l := map (override_flag is_act false) l in
    let '(l, nodes, ok) := forward (c_vis2 c) l in
    if ok && c_ok2 c then
      let l := map (restore_flag is_act) l in
      let l := map mode_off l in
      (St (map (with_train ts) l) (s_grads s), Exported nodes)
    else (St l (s_grads s), Raised)
  else (St l (s_grads s), Raised).

(** manager.py L203-236 [jit_inference_trace]. *)
Definition export_torch (c : call) (s : state) : state * result :=
  let ts := root_train (s_mods s) in
  let '(l, ok) := before_trace c (s_mods s) in
  if ok then
    let backup := s_grads s in
    let grads := map (fun _ => false) backup in
    let '(l, nodes, ok) := forward (c_vis2 c) l in
    if ok && c_ok2 c then
      let l := map mode_off l in
      (St (map (with_train ts) l) backup, Exported nodes)
    else (St l grads, Raised)
  else (St l (s_grads s), Raised).

(** ** What a program does with a model *)
Inductive step :=
| SParam (i : nat) (p : P)       (* training, load_state_dict *)
| STrain (b : bool)              (* model.train(b) *)
| SSub (i : nat) (b : bool)      (* model.sub.train(b) *)
| SEnable (i : nat) (b : bool)   (* disable_quant of a proxy *)
| SFlag (i : nat) (b : bool)     (* cache_inference_quant_act / _bias *)
| SForward (vis : list nat)
| SGet (i : nat)                 (* proxy.scale(), ... *)
| SOnnx (c : call) | STorch (c : call).

Definition at_mod (i : nat) (f : qmod -> qmod) (l : list qmod) : list qmod :=
  match nth_error l i with Some m => set_nth i (f m) l | None => l end.
(** The observation made by a step: the quantizers applied, the exported nodes, the attribute. *)
Inductive obs := ONone | OFail | OQuant (q : list (nat * (option nat * M))) | ONodes (q : list (nat * (option nat * M))) | OAttr (v : option M).
Definition obs_of (r : result) : obs := match r with Raised => OFail | Exported q => ONodes q end.

Definition do_step (st : step) (s : state) : state * obs :=
  let put l := St l (s_grads s) in
  match st with
  | SParam i p => (put (at_mod i (with_param p) (s_mods s)), ONone)
  | STrain b => (put (map (with_train b) (s_mods s)), ONone)
  | SSub i b => (put (at_mod i (with_train b) (s_mods s)), ONone)
  | SEnable i b => (put (at_mod i (with_enabled b) (s_mods s)), ONone)
  | SFlag i b => (put (at_mod i (fun m => with_flag b (m_flag_bak m) m) (s_mods s)), ONone)
  | SForward vis => let '(l, q, ok) := forward vis (s_mods s) in (put l, if ok then OQuant q else OFail)
  | SGet i => match nth_error (s_mods s) i with
              | Some m => if is_proxy m && quant_on m then let '(m', v) := getter m in (put (set_nth i m' (s_mods s)), OAttr v)
                          else (s, ONone)
              | None => (s, ONone)
              end
  | SOnnx c => let '(s', r) := export_onnx c s in (s', obs_of r)
  | STorch c => let '(s', r) := export_torch c s in (s', obs_of r)
  end.
Fixpoint run (sts : list step) (s : state) : state * list obs :=
  match sts with
  | [] => (s, [])
  | st :: r => let '(s1, o) := do_step st s in let '(s2, os) := run r s1 in (s2, o :: os)
  end.

(** A freshly built module, and a model of them. *)
Definition fresh (k : kind) (cls : nat) (p : P) (enabled : bool) : qmod := Mod k cls p true enabled false None false None true None None.
End Export.
