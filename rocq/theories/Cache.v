(** Model of the inference caches of the quantization proxies and of [quant_inference_mode]:
    src/brevitas/proxy/parameter_quant.py, src/brevitas/proxy/runtime_quant.py,
    src/brevitas/common.py, src/brevitas/export/manager.py,
    src/brevitas/export/inference/{manager,handler}.py and src/brevitas/utils/quant_utils.py.

    Tensors are abstract.  [W] is the type of a weight parameter, [V] of its dequantized value,
    [M] of its quantization metadata (scale, zero point, bit width); [P] is the parameter of an
    activation quantizer, [X] its input, [A] its output and [S] its metadata.  [tqw]/[tqa] are
    the [tensor_quant] modules, [rqw]/[rqa] the arithmetic of the inference handlers
    (handler.py L56-63), which only see the metadata.  Dynamo compilation is not modelled. *)
From Coq Require Import List Bool Arith.
Import ListNotations.

Section Cache.
Context {W V M P X A S : Type}.
Variable tqw : W -> V * M.
Variable rqw : M -> W -> V.
Variable plainw : W -> V.          (* apply_input_view of the float weight *)
Variable tqa : P -> X -> A.
Variable sca : P -> S.             (* static activation metadata *)
Variable rqa : S -> X -> A.
Variable plaina : X -> A.          (* activation function without quantization *)

(** ** Weight proxies (parameter_quant.py L87-150) *)

(** utils/quant_utils.py L14-36 [_CachedIO]: the value is dropped when [metadata_only]. *)
Definition cached_io (out : V * M) (metadata_only : bool) : option V * M :=
  (if metadata_only then None else Some (fst out), snd out).

(** [wp_handler]: [None] - no export handler; [Some None] - a handler that was not prepared;
    [Some (Some (c, m))] - prepared with cached weight [c] and metadata [m]. *)
Record wproxy := WP {
  wp_param : W; wp_training : bool; wp_enabled : bool;
  wp_flag : bool; wp_meta : bool; wp_cache : option (option V * M);
  wp_export : bool; wp_handler : option (option (option V * M)) }.

Definition wp_set_param (w : W) (s : wproxy) := WP w (wp_training s) (wp_enabled s) (wp_flag s) (wp_meta s) (wp_cache s) (wp_export s) (wp_handler s).
Definition wp_set_training (b : bool) (s : wproxy) := WP (wp_param s) b (wp_enabled s) (wp_flag s) (wp_meta s) (wp_cache s) (wp_export s) (wp_handler s).
Definition wp_set_enabled (b : bool) (s : wproxy) := WP (wp_param s) (wp_training s) b (wp_flag s) (wp_meta s) (wp_cache s) (wp_export s) (wp_handler s).
Definition wp_set_meta (b : bool) (s : wproxy) := WP (wp_param s) (wp_training s) (wp_enabled s) (wp_flag s) b (wp_cache s) (wp_export s) (wp_handler s).
Definition wp_set_cache c (s : wproxy) := WP (wp_param s) (wp_training s) (wp_enabled s) (wp_flag s) (wp_meta s) c (wp_export s) (wp_handler s).
Definition wp_set_exp (b : bool) h (s : wproxy) := WP (wp_param s) (wp_training s) (wp_enabled s) (wp_flag s) (wp_meta s) (wp_cache s) b h.

(** parameter_quant.py L108-112: the setter of [cache_inference_quant_weight]. *)
Definition wp_set_flag (b : bool) (s : wproxy) :=
  WP (wp_param s) (wp_training s) (wp_enabled s) b (wp_meta s)
     (if b then wp_cache s else None) (wp_export s) (wp_handler s).

(** handler.py L75-80 [IntWeightInferencetHandler.forward] (L148-153 for minifloats). *)
Definition wh_forward (h : option V * M) (x : W) : V :=
  match fst h with Some v => v | None => rqw (snd h) x end.

(** parameter_quant.py L131-150 [forward]; [None] as result stands for the AttributeError of a
    handler that was never prepared. *)
Definition wp_forward (x : W) (s : wproxy) : wproxy * option V :=
  if wp_enabled s then
    if wp_export s then
      match wp_handler s with
      | Some (Some h) => (s, Some (wh_forward h x))
      | _ => (s, None)
      end
    else
      let out := tqw x in
      let s' := if negb (wp_training s) && wp_flag s
                   && (match wp_cache s with None => true | _ => false end)
                then wp_set_cache (Some (cached_io out (wp_meta s))) s else s in
      (s', Some (fst out))
  else (s, Some (plainw x)).

(** handler.py L68-73 [prepare_for_export]; [module.scale()] (parameter_quant.py L190-194) calls
    the module on its own weight, which may fill the cache. *)
Definition wp_prepare (s : wproxy) : wproxy :=
  if wp_enabled s then
    let s1 := fst (wp_forward (wp_param s) s) in
    let c := match wp_cache s1 with
             | Some (v, _) => if wp_meta s1 then None else v
             | None => None
             end in
    wp_set_exp (wp_export s1) (Some (Some (c, snd (tqw (wp_param s))))) s1
  else s.

(** export/manager.py L110-119 [_set_export_handler]. *)
Definition wp_set_handler (s : wproxy) : wproxy :=
  match wp_handler s with
  | None => wp_set_exp (wp_export s) (Some None) s
  | Some _ => s
  end.

(** common.py L29-46: the setter of [export_mode]; [None] is a RuntimeError. *)
Definition wp_set_export (b : bool) (s : wproxy) : option wproxy :=
  if b then
    if wp_training s then None
    else match wp_handler s with
         | None => if wp_enabled s then None else Some s
         | Some _ =>
             let s1 := if wp_export s then s else wp_prepare s in
             Some (wp_set_exp true (wp_handler s1) s1)
         end
  else Some (wp_set_exp false None s).

(** ** Activation proxies (runtime_quant.py L90-205) *)

Record aproxy := AP {
  ap_param : P; ap_training : bool; ap_enabled : bool;
  ap_flag : bool; ap_cache : option S;
  ap_export : bool; ap_handler : option (option S) }.

Definition ap_set_param (p : P) (s : aproxy) := AP p (ap_training s) (ap_enabled s) (ap_flag s) (ap_cache s) (ap_export s) (ap_handler s).
Definition ap_set_training (b : bool) (s : aproxy) := AP (ap_param s) b (ap_enabled s) (ap_flag s) (ap_cache s) (ap_export s) (ap_handler s).
Definition ap_set_enabled (b : bool) (s : aproxy) := AP (ap_param s) (ap_training s) b (ap_flag s) (ap_cache s) (ap_export s) (ap_handler s).
(** [cache_inference_quant_act] is a plain attribute (L98): turning it off keeps the cache. *)
Definition ap_set_flag (b : bool) (s : aproxy) := AP (ap_param s) (ap_training s) (ap_enabled s) b (ap_cache s) (ap_export s) (ap_handler s).
Definition ap_set_cache c (s : aproxy) := AP (ap_param s) (ap_training s) (ap_enabled s) (ap_flag s) c (ap_export s) (ap_handler s).
Definition ap_set_exp (b : bool) h (s : aproxy) := AP (ap_param s) (ap_training s) (ap_enabled s) (ap_flag s) (ap_cache s) b h.

(** runtime_quant.py L167-207 [forward] of a proxy with an activation function
    ([fused_activation_quant_proxy] is not None), on a float input. *)
Definition ap_forward (x : X) (s : aproxy) : aproxy * option A :=
  let y :=
    if ap_export s then
      match ap_handler s with
      | Some (Some m) => Some (rqa m x, Some m)
      | _ => None
      end
    else if ap_enabled s then Some (tqa (ap_param s) x, Some (sca (ap_param s)))
    else Some (plaina x, None) in
  match y with
  | None => (s, None)
  | Some (v, m) =>
      let s' := match m with
                | Some m' => if negb (ap_training s) && ap_flag s
                             then ap_set_cache (Some m') s else s
                | None => s
                end in
      (s', Some v)
  end.

(** runtime_quant.py L110-116 [internal_forward] / [retrieve_attribute], called with
    [force_eval=True] by [scale()], [zero_point()], [bit_width()] (L216-223).  [x0] is the zero
    sentinel.  [None] in the second component: Python's None or the AttributeError. *)
Definition ap_internal_forward (x0 : X) (s : aproxy) : aproxy * option A :=
  let '(s1, o) := ap_forward x0 (ap_set_training false s) in
  (ap_set_training (ap_training s) s1, o).

Definition ap_metadata (x0 : X) (s : aproxy) : aproxy * option S :=
  match ap_cache s with
  | Some m => (s, Some m)
  | None =>
      if ap_enabled s then
        let s1 := fst (ap_internal_forward x0 s) in
        (s1, if ap_export s then match ap_handler s with Some h => h | None => None end
             else Some (sca (ap_param s)))
      else (s, None)
  end.

(** handler.py L45-51 [IntInferencetHandler.prepare_for_export]. *)
Definition ap_prepare (x0 : X) (s : aproxy) : aproxy :=
  if ap_enabled s then
    let '(s1, m) := ap_metadata x0 s in ap_set_exp (ap_export s1) (Some m) s1
  else s.

Definition ap_set_handler (s : aproxy) : aproxy :=
  match ap_handler s with
  | None => ap_set_exp (ap_export s) (Some None) s
  | Some _ => s
  end.

Definition ap_set_export (x0 : X) (b : bool) (s : aproxy) : option aproxy :=
  if b then
    if ap_training s then None
    else match ap_handler s with
         | None => if ap_enabled s then None else Some s
         | Some _ =>
             let s1 := if ap_export s then s else ap_prepare x0 s in
             Some (ap_set_exp true (ap_handler s1) s1)
         end
  else Some (ap_set_exp false None s).

(** ** Models and [quant_inference_mode] (export/inference/manager.py L40-90)

    A model with one weight proxy and one activation proxy; [md_hooks] lists the contexts whose
    forward hook is still registered; [md_rqt] is the [return_quant_tensor] flag of the layers.
    [md_saved] records the [return_quant_tensor_state] of each context. *)
Record model := MD {
  md_w : wproxy; md_a : aproxy;
  md_hooks : list nat; md_rqt : bool; md_saved : nat -> option bool }.

Definition md_with_w f (s : model) := MD (f (md_w s)) (md_a s) (md_hooks s) (md_rqt s) (md_saved s).
Definition md_with_a f (s : model) := MD (md_w s) (f (md_a s)) (md_hooks s) (md_rqt s) (md_saved s).

(** [_set_proxy_export_mode] (export/manager.py L101-104). *)
Definition md_set_export (x0 : X) (b : bool) (s : model) : option model :=
  match wp_set_export b (md_w s), ap_set_export x0 b (md_a s) with
  | Some w, Some a => Some (MD w a (md_hooks s) (md_rqt s) (md_saved s))
  | _, _ => None
  end.

(** manager.py L82-90 [hook] of context [c]. *)
Definition md_hook (x0 : X) (c : nat) (s : model) : option model :=
  let s1 := MD (wp_set_handler (md_w s)) (ap_set_handler (md_a s))
               (remove Nat.eq_dec c (md_hooks s)) (md_rqt s) (md_saved s) in
  match md_set_export x0 true s1 with
  | None => None
  | Some s2 =>
      Some (MD (md_w s2) (md_a s2) (md_hooks s2) false
               (fun k => if Nat.eqb k c then Some (md_rqt s2) else md_saved s2 k))
  end.

Fixpoint md_run_hooks (x0 : X) (cs : list nat) (s : model) : option model :=
  match cs with
  | [] => Some s
  | c :: cs' => match md_hook x0 c s with None => None | Some s' => md_run_hooks x0 cs' s' end
  end.

(** A forward pass: quantize the input, quantize the weight, then run the forward hooks.  The
    output is what the layer computes with: input, weight, and whether a QuantTensor is
    returned. *)
Definition md_forward (x0 x : X) (s : model) : option (model * (A * V * bool)) :=
  match ap_forward x (md_a s) with
  | (_, None) => None
  | (a', Some va) =>
      match wp_forward (wp_param (md_w s)) (md_w s) with
      | (_, None) => None
      | (w', Some vw) =>
          match md_run_hooks x0 (md_hooks s) (MD w' a' (md_hooks s) (md_rqt s) (md_saved s)) with
          | None => None
          | Some s' => Some (s', (va, vw, md_rqt s))
          end
      end
  end.

(** A context: [cache_quant_weight] and [enabled] arguments. *)
Record ctx := CT { ct_id : nat; ct_cachew : bool; ct_enabled : bool }.

(** manager.py L51-63 [__enter__]. *)
Definition md_enter (c : ctx) (s : model) : model :=
  if ct_enabled c then
    MD (wp_set_meta (negb (ct_cachew c)) (wp_set_flag true (md_w s)))
       (ap_set_flag true (md_a s))
       (md_hooks s ++ [ct_id c]) (md_rqt s) (md_saved s)
  else s.

(** manager.py L65-80 [__exit__]. *)
Definition md_exit (x0 : X) (c : ctx) (s : model) : option model :=
  let s1 := md_with_a (ap_set_flag false) s in
  let s2 := if ct_cachew c
            then md_with_w (fun w => wp_set_meta false (wp_set_flag false w)) s1 else s1 in
  match md_set_export x0 false s2 with
  | None => None
  | Some s3 =>
      Some (MD (md_w s3) (md_a s3) (md_hooks s3)
               (match md_saved s3 (ct_id c) with Some b => b | None => md_rqt s3 end)
               (md_saved s3))
  end.

(** model.train(b). *)
Definition md_train (b : bool) (s : model) : model :=
  MD (wp_set_training b (md_w s)) (ap_set_training b (md_a s)) (md_hooks s) (md_rqt s) (md_saved s).

(** Consecutive forward passes. *)
Fixpoint md_forwards (x0 : X) (xs : list X) (s : model) : option (model * list (A * V * bool)) :=
  match xs with
  | [] => Some (s, [])
  | x :: xs' =>
      match md_forward x0 x s with
      | None => None
      | Some (s1, o) =>
          match md_forwards x0 xs' s1 with
          | None => None
          | Some (s2, os) => Some (s2, o :: os)
          end
      end
  end.

(** with quant_inference_mode(model, ...): for x in xs: model(x) *)
Definition md_session (x0 : X) (c : ctx) (xs : list X) (s : model)
  : option (model * list (A * V * bool)) :=
  match md_forwards x0 xs (md_enter c s) with
  | None => None
  | Some (s1, os) =>
      match md_exit x0 c s1 with None => None | Some s2 => Some (s2, os) end
  end.

(** What a program does with a model. *)
Inductive step :=
| SWeight (w : W)            (* optimizer step / load_state_dict *)
| SAct (p : P)               (* change of the activation quantizer *)
| STrain (b : bool)
| SForward (x : X)
| SSession (c : ctx) (xs : list X).

Definition run_step (x0 : X) (st : step) (s : model) : option (model * list (A * V * bool)) :=
  match st with
  | SWeight w => Some (md_with_w (wp_set_param w) s, [])
  | SAct p => Some (md_with_a (ap_set_param p) s, [])
  | STrain b => Some (md_train b s, [])
  | SForward x => md_forwards x0 [x] s
  | SSession c xs => md_session x0 c xs s
  end.

Fixpoint run (x0 : X) (sts : list step) (s : model) : option (model * list (A * V * bool)) :=
  match sts with
  | [] => Some (s, [])
  | st :: sts' =>
      match run_step x0 st s with
      | None => None
      | Some (s1, o1) =>
          match run x0 sts' s1 with None => None | Some (s2, o2) => Some (s2, o1 ++ o2) end
      end
  end.

(** A freshly built model in training mode. *)
Definition md_new (w : W) (p : P) (rqt : bool) : model :=
  MD (WP w true true false false None false None) (AP p true true false None false None)
     [] rqt (fun _ => None).

(** ** Histories of one weight proxy *)
Inductive wop :=
| WParam (w : W) | WTrain (b : bool) | WFlag (b : bool) | WMeta (b : bool) | WEnable (b : bool)
| WForward.

Definition wp_step (o : wop) (s : wproxy) : wproxy :=
  match o with
  | WParam w => wp_set_param w s
  | WTrain b => wp_set_training b s
  | WFlag b => wp_set_flag b s
  | WMeta b => wp_set_meta b s
  | WEnable b => wp_set_enabled b s
  | WForward => fst (wp_forward (wp_param s) s)
  end.

Definition wp_run (h : list wop) (s : wproxy) : wproxy := fold_left (fun s o => wp_step o s) h s.

Definition wp_new (w : W) : wproxy := WP w true true false false None false None.
End Cache.
