(** Model of the QONNX export: src/brevitas/export/onnx/qonnx/handler.py and function.py, with
    the proxy attributes they read (src/brevitas/proxy/quant_proxy.py L24-48,
    src/brevitas/utils/quant_utils.py L204-223, src/brevitas/quant/solver/common.py L37-53).

    One scale and zero point at a time (a per-channel quantizer is one such tensor per
    channel), exact arithmetic, evaluation mode.  The keyword dictionary of a handler is an
    ordered list whose values are passed by position, as [*self.symbolic_kwargs.values()] does. *)
From Coq Require Import Ascii String.
From Verif Require Import QUtil Ops IntQuant BinaryTernary Trunc.
Open Scope Q_scope.

(** ** Names of float-to-int implementations *)

(** str.lower() / str.upper() on ASCII. *)
Definition lower_ascii (c : ascii) : ascii :=
  let n := N_of_ascii c in
  if ((65 <=? n) && (n <=? 90))%N then ascii_of_N (n + 32) else c.
Definition upper_ascii (c : ascii) : ascii :=
  let n := N_of_ascii c in
  if ((97 <=? n) && (n <=? 122))%N then ascii_of_N (n - 32) else c.
Fixpoint str_map (f : ascii -> ascii) (s : string) : string :=
  match s with EmptyString => EmptyString | String c s' => String (f c) (str_map f s') end.
Definition lower (s : string) : string := str_map lower_ascii s.
Definition upper (s : string) : string := str_map upper_ascii s.

(** python_utils.py L17-18 [AutoName.__eq__]: comparison of an enum member with a string. *)
Definition enum_eqb (impl_type member : string) : bool := String.eqb (lower impl_type) (lower member).

(** The float-to-int modules: the five plain modes; StochasticRoundSte
    (core/function_wrapper/stochastic_round.py L30-51) with its [deterministic_inference];
    LearnedRoundSte (core/function_wrapper/learned_round.py L55-85) with its per-element choice
    in evaluation mode; a user-defined module. *)
Inductive f2i_impl :=
  | IMode (m : rmode)
  | IStoch (deterministic : bool)
  | ILearned (p : list bool)
  | ICustom (f : Q -> Q).

(** common.py L37-53 [solve_float_to_int_impl_from_enum], the class that is returned. *)
Inductive f2i_class := CMode (m : rmode) | CLearned | CStoch.
Definition solve_f2i (impl_type : string) : option f2i_class :=
  if enum_eqb impl_type "ROUND" then Some (CMode Round)
  else if enum_eqb impl_type "FLOOR" then Some (CMode Floor)
  else if enum_eqb impl_type "CEIL" then Some (CMode Ceil)
  else if enum_eqb impl_type "ROUND_TO_ZERO" then Some (CMode RoundToZero)
  else if enum_eqb impl_type "DPU" then Some (CMode DPU)
  else if enum_eqb impl_type "LEARNED_ROUND" then Some CLearned
  else if enum_eqb impl_type "STOCHASTIC_ROUND" then Some CStoch
  else None.

(** quant_utils.py L204-223 [float_to_int_impl_to_enum]. *)
Definition impl_to_enum (i : f2i_impl) : option string :=
  match i with
  | IMode Round => Some "ROUND"%string
  | IMode RoundToZero => Some "ROUND_TO_ZERO"%string
  | IMode Floor => Some "FLOOR"%string
  | IMode Ceil => Some "CEIL"%string
  | IMode DPU => Some "DPU"%string
  | ILearned _ => Some "LEARNED_ROUND"%string
  | IStoch true => Some "ROUND"%string
  | IStoch false => Some "STOCHASTIC_ROUND"%string
  | ICustom _ => None
  end.

(** ** Proxies *)

(** The attributes of the quantizer class that matter here.  [inj_impl] is a
    [float_to_int_impl] written in the class, which replaces the one the solver derives from
    [float_to_int_impl_type] (common.py L138-142); [inj_learned] are the learned rounding
    choices used when the type is LEARNED_ROUND. *)
Record injector := Inj {
  inj_type : option string;
  inj_impl : option f2i_impl;
  inj_learned : list bool;
  inj_narrow : option bool;
  inj_signed : option bool;
  inj_groupwise : bool }.

Definition resolve_impl (j : injector) : option f2i_impl :=
  match inj_impl j with
  | Some i => Some i
  | None =>
      match inj_type j with
      | Some s => match solve_f2i s with
                  | Some (CMode m) => Some (IMode m)
                  | Some CLearned => Some (ILearned (inj_learned j))
                  | Some CStoch => Some (IStoch true)
                  | None => None
                  end
      | None => None
      end
  end.

(** quant_proxy.py L34-45 [_rounding_mode]; str(None).upper() is "NONE". *)
Definition rounding_mode (j : injector) : option string :=
  match inj_type j with
  | Some s => Some s
  | None =>
      match inj_impl j with
      | Some i => Some (upper (match impl_to_enum i with Some e => e | None => "None"%string end))
      | None => None
      end
  end.

(** The kinds of tensor quantizer (quant_type INT, BINARY with or without clamping, TERNARY;
    quant/solver/act.py L62-76), and the decoupled integer quantizers of weights with their own
    pre-scale and pre-zero-point. *)
Inductive qkind :=
  | KInt | KBinary | KClampedBinary | KTernary (threshold : Q)
  | KDecoupled (pre_scale pre_zp : list Q -> Q).

(** A proxy: scale and zero point are computed from the tensor (constant functions for
    activations and for weights scaled by their own statistics). *)
Record qproxy := Px {
  px_inj : injector; px_kind : qkind; px_enabled : bool;
  px_scale : list Q -> Q; px_zp : list Q -> Q; px_bw : Z }.

(** The float-to-int module on a tensor in evaluation mode; None: the result is random or the
    shapes do not match. *)
Definition f2i_tensor (i : f2i_impl) (x : list Q) : option (list Q) :=
  match i with
  | IMode m => Some (map (float_to_int m) x)
  | IStoch true => Some (map (float_to_int Round) x)
  | IStoch false => None
  | ILearned p =>
      if Nat.eqb (List.length p) (List.length x) then
        Some (map (fun xp => inject_Z (floorZ (fst xp)) + (if snd xp : bool then 1 else 0)) (combine x p))
      else None
  | ICustom f => Some (map f x)
  end.

(** int_base.py L66-91 [IntQuant.to_int] and [IntQuant.forward] on a tensor, with
    [pre_scale = scale] and [pre_zp = zp]; L142-176 [DecoupledIntQuant] otherwise. *)
Definition int_quant_f2i (i : f2i_impl) (signed narrow : bool) (pre_scale pre_zp scale zp : Q) (bw : Z)
    (x : list Q) : option (list Q) :=
  match f2i_tensor i (map (fun v => v / pre_scale + pre_zp) x) with
  | Some y =>
      Some (map (fun v => (tensor_clamp v (inject_Z (min_int signed narrow bw))
                                          (inject_Z (max_int signed narrow bw)) - zp) * scale) y)
  | None => None
  end.

(** The quantizer itself: value, scale, zero point and bit width.  [signed] and [narrow_range]
    of an IntQuant are the ones of the class (both required by its constructor). *)
Definition int_forward (p : qproxy) (pre_scale pre_zp : list Q -> Q) (x : list Q) : option quant_out :=
  match resolve_impl (px_inj p), inj_signed (px_inj p), inj_narrow (px_inj p) with
  | Some i, Some sg, Some nr =>
      let s := px_scale p x in
      let z := px_zp p x in
      match int_quant_f2i i sg nr (pre_scale x) (pre_zp x) s z (px_bw p) x with
      | Some y => Some (y, s, z, px_bw p)
      | None => None
      end
  | _, _, _ => None
  end.

Definition proxy_forward (p : qproxy) (x : list Q) : option quant_out :=
  match px_kind p with
  | KInt => int_forward p (px_scale p) (px_zp p) x
  | KDecoupled pre_scale pre_zp => int_forward p pre_scale pre_zp x
  | KBinary => Some (fst (binary_quant (px_scale p) NoDelay x))
  | KClampedBinary => Some (fst (clamped_binary_quant (px_scale p) NoDelay x))
  | KTernary t => Some (fst (ternary_quant (px_scale p) t NoDelay x))
  end.

(** ** The exported functions *)

(** Values of the keyword dictionary. *)
Inductive kv := VQ (q : Q) | VZ (b : Z) | VB (b : option bool) | VS (s : option string) | VNone.

(** Nodes of the onnx.brevitas domain, with inputs and attributes. *)
Inductive node :=
  | NQuant (scale zp : Q) (bw : Z) (mode : string) (signed narrow : bool)
  | NBipolar (scale : Q)
  | NTrunc (scale zp : Q) (in_bw out_bw : Z) (mode : string).

(** function.py L19-31 [BrevitasBinaryQuantFn]: the node and the value seen while tracing. *)
Definition binary_quant_fn (x : list Q) (args : list kv) : option (list Q * node) :=
  match args with
  | [VQ scale; VQ zero_point; VZ bit_width; VB narrow_range; VB signed; VS rounding_mode] =>
      Some (map (fun v => binary_sign v * scale) x, NBipolar scale)
  | _ => None
  end.

(** function.py L33-59 [BrevitasQuantFn]; int(None) raises, LearnedRoundSte() lacks its
    arguments, and a fresh StochasticRoundSte is in training mode (random, not modelled). *)
Definition quant_fn (x : list Q) (args : list kv) : option (list Q * node) :=
  match args with
  | [VQ scale; VQ zero_point; VZ bit_width; VB (Some narrow_range); VB (Some signed); VS (Some mode)] =>
      match solve_f2i mode with
      | Some (CMode m) =>
          Some (map (int_quant (cfg signed narrow_range m) scale zero_point bit_width) x,
                NQuant scale zero_point bit_width mode signed narrow_range)
      | _ => None
      end
  | _ => None
  end.

(** function.py L62-84 [BrevitasTruncFn]. *)
Definition trunc_fn (x : list Q) (args : list kv) : option (list Q * node) :=
  match args with
  | [VQ scale; VQ zero_point; VZ input_bit_width; VZ output_bit_width; VS (Some mode)] =>
      match solve_f2i mode with
      | Some (CMode m) =>
          Some (map (trunc_int_quant m scale zero_point input_bit_width output_bit_width) x,
                NTrunc scale zero_point input_bit_width output_bit_width mode)
      | _ => None
      end
  | _ => None
  end.

(** ** Handlers *)

Definition kwargs : Type := list (string * kv).

Fixpoint get (k : string) (d : kwargs) : option kv :=
  match d with
  | [] => None
  | (k', v) :: d' => if String.eqb k k' then Some v else get k d'
  end.

(** dict.pop. *)
Fixpoint pop (k : string) (d : kwargs) : option (kv * kwargs) :=
  match d with
  | [] => None
  | (k', v) :: d' =>
      if String.eqb k k' then Some (v, d')
      else match pop k d' with Some (w, r) => Some (w, (k', v) :: r) | None => None end
  end.

(** Result of an exported proxy: traced value, node, and the scale, zero point and bit width
    handed to the quantized tensor. *)
Definition exported : Type := list Q * node * kv * kv * kv.

(** handler.py L27-30 [BrevitasQuantProxyHandler.validate]. *)
Definition validate_proxy (bw : Z) (zp : Q) (groupwise : bool) : bool :=
  (if (bw =? 1)%Z then Qeq_bool zp 0 else true) && negb groupwise.

(** runtime_quant.py L108-126: [scale()], [zero_point()] and [bit_width()] of an activation
    proxy come from a forward pass on the zero sentinel. *)
Definition sentinel : list Q := [0].

(** handler.py L32-41 [prepare_for_export]; None: an assertion or the forward pass fails. *)
Definition prepare_act (p : qproxy) : option kwargs :=
  if px_enabled p then
    match proxy_forward p sentinel with
    | Some (_, s, z, b) =>
        if validate_proxy b z (inj_groupwise (px_inj p)) then
          Some [("scale", VQ s); ("zero_point", VQ z); ("bit_width", VZ b);
                ("narrow_range", VB (inj_narrow (px_inj p)));
                ("signed", VB (inj_signed (px_inj p)));
                ("rounding_mode", VS (rounding_mode (px_inj p)))]%string
        else None
    | None => None
    end
  else Some [].

(** handler.py L43-52 [symbolic_execution]; a missing key raises. *)
Definition symbolic_execution (d : kwargs) (x : list Q) : option exported :=
  match get "scale" d, get "zero_point" d, get "bit_width" d with
  | Some scale, Some zero_point, Some bit_width =>
      let one := match bit_width with VZ b => (b =? 1)%Z | _ => false end in
      match (if one then binary_quant_fn x (map snd d) else quant_fn x (map snd d)) with
      | Some (y, n) => Some (y, n, scale, zero_point, bit_width)
      | None => None
      end
  | _, _, _ => None
  end.

(** Export of an activation quantizer (runtime_quant.py L177-179: the activation function is
    applied first, the handler gets its result). *)
Definition export_act (p : qproxy) (x : list Q) : option exported :=
  match prepare_act p with
  | Some d => symbolic_execution d x
  | None => None
  end.

(** A layer tracked by a weight proxy: address of the weight and its value. *)
Record tracked := Tr { tr_ptr : Z; tr_weight : list Q }.

(** Later entries of a dictionary comprehension replace earlier ones. *)
Fixpoint lookup_last (k : Z) (d : list (Z * list Q)) : option (list Q) :=
  match d with
  | [] => None
  | (k', v) :: d' =>
      match lookup_last k d' with
      | Some w => Some w
      | None => if (k =? k')%Z then Some v else None
      end
  end.

Fixpoint all_some {A : Type} (l : list (option A)) : option (list A) :=
  match l with
  | [] => Some []
  | Some a :: l' => match all_some l' with Some r => Some (a :: r) | None => None end
  | None :: _ => None
  end.

Definition out_value (q : quant_out) : list Q := fst (fst (fst q)).

(** handler.py L61-79 [BrevitasWeightQuantProxyHandler]: values per weight address, all other
    parameters from the first tracked module. *)
Definition prepare_weight (p : qproxy) (ms : list tracked) : option (list (Z * list Q) * kwargs) :=
  match ms with
  | [] => None
  | m0 :: _ =>
      match proxy_forward p (tr_weight m0) with
      | Some (_, s, z, b) =>
          if (if (b =? 1)%Z then Qeq_bool z 0 else true) then
            match all_some (map (fun m => match proxy_forward p (tr_weight m) with
                                          | Some q => Some (tr_ptr m, out_value q)
                                          | None => None
                                          end) ms) with
            | Some vals =>
                Some (vals,
                  [("scale", VQ s); ("zero_point", VQ z); ("bit_width", VZ b);
                   ("narrow_range", VB (inj_narrow (px_inj p)));
                   ("signed", VB (inj_signed (px_inj p)));
                   ("rounding_mode", VS (Some "ROUND"))]%string)
            | None => None
            end
          else None
      | None => None
      end
  end.

(** handler.py L81-83. *)
Definition export_weight (p : qproxy) (ms : list tracked) (ptr : Z) : option exported :=
  match prepare_weight p ms with
  | Some (vals, d) =>
      match lookup_last ptr vals with
      | Some w => symbolic_execution d w
      | None => None
      end
  | None => None
  end.

(** handler.py L89-95 [BrevitasDecoupledWeightQuantProxyHandler]: the pre-scale is reported as
    the scale. *)
Definition export_decoupled (p : qproxy) (ms : list tracked) (ptr : Z) : option (exported * kv * kv) :=
  match export_weight p ms ptr with
  | Some ((y, n), s, z, b) => Some ((y, n), s, z, b, s, z)
  | None => None
  end.

(** A bias proxy (parameter_quant.py L263-362): an integer quantizer whose scale is its own or
    ([requires_input_scale]) the one of the accumulator, with the cached scale of the last
    evaluation pass. *)
Record bproxy := BP { bp_px : qproxy; bp_requires : bool; bp_cached : option Q }.

(** One call of the bias quantizer outside export (L326-362): the scale that is used. *)
Definition bias_scale (b : bproxy) (input_scale : option Q) (x : list Q) : option Q :=
  if bp_requires b then
    match input_scale with Some s => Some s | None => bp_cached b end
  else Some (px_scale (bp_px b) x).

Definition bias_forward (b : bproxy) (input_scale : option Q) (x : list Q) : option quant_out :=
  match bias_scale b input_scale x with
  | Some s => proxy_forward (Px (px_inj (bp_px b)) (px_kind (bp_px b)) (px_enabled (bp_px b))
                                (fun _ => s) (px_zp (bp_px b)) (px_bw (bp_px b))) x
  | None => None
  end.

(** The caching pass of the export (export/manager.py L188-199): every call of the layer
    overwrites the cache. *)
Fixpoint cache_pass (b : bproxy) (calls : list Q) : bproxy :=
  match calls with
  | [] => b
  | s :: cs => cache_pass (BP (bp_px b) (bp_requires b) (Some s)) cs
  end.

(** handler.py L27-41 on a bias proxy with parameter [bias]: [scale()], [zero_point()] and
    [bit_width()] (parameter_quant.py L265-286) run the quantizer, which fails without a cached
    scale when one is required. *)
Definition prepare_bias (b : bproxy) (bias : list Q) : option kwargs :=
  match bias_forward b None bias with
  | Some (_, s, z, bw) =>
      if validate_proxy bw z (inj_groupwise (px_inj (bp_px b))) then
        Some [("scale", if bp_requires b then match bp_cached b with Some c => VQ c | None => VNone end else VQ s);
              ("zero_point", VQ z); ("bit_width", VZ bw);
              ("narrow_range", VB (inj_narrow (px_inj (bp_px b))));
              ("signed", VB (inj_signed (px_inj (bp_px b))));
              ("rounding_mode", VS (rounding_mode (px_inj (bp_px b))))]%string
      else None
  | None => None
  end.

(** handler.py L109-122 [BrevitasBiasQuantProxyHandler.symbolic_execution]. *)
Definition symbolic_bias (d : kwargs) (input_scale : option Q) (x : list Q) : option exported :=
  match pop "scale" d with
  | Some (scale, d) =>
      match pop "bit_width" d with
      | Some (bit_width, d) =>
          match pop "zero_point" d with
          | Some (zero_point, d) =>
              let scale := match scale, input_scale with
                           | VNone, Some s => VQ s
                           | _, _ => scale
                           end in
              match quant_fn x (scale :: zero_point :: bit_width :: map snd d) with
              | Some (y, n) => Some (y, n, scale, zero_point, bit_width)
              | None => None
              end
          | None => None
          end
      | None => None
      end
  | None => None
  end.

Definition export_bias (b : bproxy) (input_scale : option Q) (bias : list Q) : option exported :=
  match prepare_bias b bias with
  | Some d => symbolic_bias d input_scale bias
  | None => None
  end.

(** handler.py L128-137 [BrevitasTruncQuantProxyHandler]: the sign of the input is dropped. *)
Definition export_trunc (j : injector) (out_bw : Z) (scale zp : Q) (in_bw : Z) (signed : bool) (x : list Q)
  : option exported :=
  let d := [("output_bit_width", VZ out_bw); ("rounding_mode", VS (rounding_mode j))]%string in
  match trunc_fn x (VQ scale :: VQ zp :: VZ in_bw :: map snd d) with
  | Some (y, n) => Some (y, n, VQ scale, VQ zp, VZ out_bw)
  | None => None
  end.

(** The truncation quantizer itself (runtime_quant.py L253-266). *)
Definition trunc_forward (j : injector) (out_bw : Z) (scale zp : Q) (in_bw : Z) (x : list Q) : option quant_out :=
  match resolve_impl j with
  | Some (IMode m) => Some (map (trunc_int_quant m scale zp in_bw out_bw) x, scale, zp, out_bw)
  | Some (IStoch true) => Some (map (trunc_int_quant Round scale zp in_bw out_bw) x, scale, zp, out_bw)
  | _ => None
  end.
