(** Model of where weight quantizers keep their state: sharing a quantizer between layers,
    replacing weights, folding batch norms, optimizers, saving and loading checkpoints.
    src/brevitas/proxy/quant_proxy.py [QuantProxyFromInjector],
    src/brevitas/proxy/parameter_quant.py [ParameterQuantProxyFromInjector],
    src/brevitas/nn/mixin/base.py [QuantProxyMixin], src/brevitas/nn/mixin/parameter.py
    [QuantWeightMixin], src/brevitas/nn/utils.py [merge_bn],
    src/brevitas/core/scaling/standalone.py, src/brevitas/core/scaling/runtime.py
    [StatsFromParameterScaling], src/brevitas/core/stats/view_wrapper.py,
    src/brevitas/config.py.

    A Parameter object is a cell of a heap; weights and scales are values of an abstract type.
    A model is a list of layers in module order, each with a weight and a weight quantizer
    (proxy), which layers may share; quantizers have one scale.  Zero points, bit widths,
    biases and activation quantizers follow the same pattern and are left out.  Layers are
    never removed. *)
From Coq Require Import List Bool Arith Lia.
Import ListNotations.

(** Where the scale comes from (quant/solver/parameter.py L94-108 [scaling_impl]). *)
Inductive kind :=
| KStats        (* StatsFromParameterScaling: statistics of the weights at each call *)
| KParam        (* ParameterScaling: a parameter initialised when it is built *)
| KFromStats.   (* ParameterFromStatsFromParameterScaling: a parameter initialised at the first call *)

(** config.py L17-18: REINIT_ON_STATE_DICT_LOAD (default True), IGNORE_MISSING_KEYS (default False). *)
Record flags := Flags { f_reinit : bool; f_ignore : bool }.

(** Keys of a state dict: layer [i], its weight or the scale value of its quantizer. *)
Inductive field := FWeight | FValue.
Definition key : Type := nat * field.
Definition field_eqb (a b : field) : bool := match a, b with FWeight, FWeight | FValue, FValue => true | _, _ => false end.
Definition key_eqb (a b : key) : bool := Nat.eqb (fst a) (fst b) && field_eqb (snd a) (snd b).

Record proxy := Px {
  px_kind : kind;
  px_tracked : list nat;   (* tracked_module_list, quant_proxy.py L79-80 *)
  px_refs : list nat;      (* the Parameters handed to the statistics when tensor_quant was built *)
  px_val : nat;            (* the scale Parameter (KParam, KFromStats) *)
  px_init : bool }.        (* init_done (KFromStats) *)

Section State.
  Context {V : Type}.
  Variable stat : list V -> V.     (* statistics of the tracked weights *)
  Variable ini : list V -> V.      (* scaling_init of a ParameterScaling, possibly from the weights *)
  Variable mul : V -> V -> V.      (* inplace_tensor_mul *)
  Variable one : V.                (* torch.full(scaling_shape, 1.0) *)

  Record model := Md {
    heap : nat -> V;
    fresh : nat;                 (* cells below are allocated *)
    wts : list nat;              (* weight Parameter of each layer *)
    prx : list nat;              (* quantizer of each layer *)
    pxs : list proxy }.

  Definition empty (h : nat -> V) : model := Md h 0 [] [] [].

  Definition upd (h : nat -> V) (c : nat) (v : V) : nat -> V := fun j => if Nat.eqb j c then v else h j.
  Definition write (m : model) (c : nat) (v : V) : model := Md (upd (heap m) c v) (fresh m) (wts m) (prx m) (pxs m).
  Fixpoint set_at {A} (k : nat) (a : A) (l : list A) : list A :=
    match l, k with [], _ => [] | _ :: l', O => a :: l' | b :: l', S k' => b :: set_at k' a l' end.

  Definition wcell (m : model) (i : nat) : nat := nth i (wts m) 0.
  Definition weight (m : model) (i : nat) : V := heap m (wcell m i).

  (** parameter_quant.py L64-80 [init_tensor_quant], quant_proxy.py L97-98: a new tensor_quant
      from the Parameters the tracked modules hold now (L116-117 [tracked_parameter_list]);
      its own Parameters are new objects. standalone.py L142-156, L196-213. *)
  Definition init_tensor_quant (m : model) (q : nat) : model :=
    match nth_error (pxs m) q with
    | None => m
    | Some p =>
        let refs := map (wcell m) (px_tracked p) in
        match px_kind p with
        | KStats => Md (heap m) (fresh m) (wts m) (prx m) (set_at q (Px KStats (px_tracked p) refs (px_val p) (px_init p)) (pxs m))
        | KParam => Md (upd (heap m) (fresh m) (ini (map (heap m) refs))) (S (fresh m)) (wts m) (prx m)
                       (set_at q (Px KParam (px_tracked p) refs (fresh m) true) (pxs m))
        | KFromStats => Md (upd (heap m) (fresh m) one) (S (fresh m)) (wts m) (prx m)
                       (set_at q (Px KFromStats (px_tracked p) refs (fresh m) false) (pxs m))
        end
    end.

  (** Building a layer with a quantizer class (nn/mixin/base.py L46-52; quant_proxy.py
      L69-81): the weight exists before the quantizer is built. *)
  Definition new_layer (m : model) (k : kind) (w : V) : model :=
    let n := length (wts m) in
    let m1 := Md (upd (heap m) (fresh m) w) (S (fresh m)) (wts m ++ [fresh m]) (prx m ++ [length (pxs m)])
                 (pxs m ++ [Px k [n] [] 0 true]) in
    init_tensor_quant m1 (length (pxs m)).

  (** Building a layer with the quantizer of another layer (nn/mixin/base.py L53-60;
      quant_proxy.py L116-120 [add_tracked_module]). An unknown quantizer: nothing happens. *)
  Definition share_layer (m : model) (q : nat) (w : V) : model :=
    match nth_error (pxs m) q with
    | None => m
    | Some p =>
        let n := length (wts m) in
        let m1 := Md (upd (heap m) (fresh m) w) (S (fresh m)) (wts m ++ [fresh m]) (prx m ++ [q])
                     (set_at q (Px (px_kind p) (px_tracked p ++ [n]) (px_refs p) (px_val p) (px_init p)) (pxs m)) in
        init_tensor_quant m1 q
    end.

  (** `layer.weight = Parameter(w)`: nn/mixin/parameter.py L80-84 [register_parameter]. *)
  Definition replace_weight (m : model) (i : nat) (w : V) : model :=
    if Nat.ltb i (length (wts m)) then
      init_tensor_quant (Md (upd (heap m) (fresh m) w) (S (fresh m)) (set_at i (fresh m) (wts m)) (prx m) (pxs m)) (nth i (prx m) 0)
    else m.
  (** `layer_i.weight = layer_j.weight` (tied weights), through the same method. *)
  Definition tie_weight (m : model) (i j : nat) : model :=
    if Nat.ltb i (length (wts m)) && Nat.ltb j (length (wts m)) then
      init_tensor_quant (Md (heap m) (fresh m) (set_at i (wcell m j) (wts m)) (prx m) (pxs m)) (nth i (prx m) 0)
    else m.
  (** nn/utils.py L17-40 [merge_bn]: the weight is rescaled in place, then the quantizer is
      rebuilt. *)
  Definition merge_bn (m : model) (i : nat) (f : V -> V) : model :=
    if Nat.ltb i (length (wts m)) then
      init_tensor_quant (write m (wcell m i) (f (weight m i))) (nth i (prx m) 0)
    else m.
  (** `layer.weight.data.copy_(w)`: in place, nothing else. *)
  Definition set_weight (m : model) (i : nat) (w : V) : model :=
    if Nat.ltb i (length (wts m)) then write m (wcell m i) w else m.

  (** A call of quantizer [q]: the scale it uses (up to the restriction and the threshold,
      which do not depend on state), and the model afterwards. runtime.py L54-60;
      standalone.py L160-167, L216-239. *)
  Definition proxy_scale (m : model) (q : nat) : option V * model :=
    match nth_error (pxs m) q with
    | None => (None, m)
    | Some p =>
        match px_kind p with
        | KStats => (Some (stat (map (heap m) (px_refs p))), m)
        | KParam => (Some (heap m (px_val p)), m)
        | KFromStats =>
            if px_init p then (Some (heap m (px_val p)), m)
            else
              let v := mul (heap m (px_val p)) (stat (map (heap m) (px_refs p))) in
              (Some v, Md (upd (heap m) (px_val p) v) (fresh m) (wts m) (prx m)
                          (set_at q (Px KFromStats (px_tracked p) (px_refs p) (px_val p) true) (pxs m)))
        end
    end.
  Definition layer_scale (m : model) (i : nat) : option V * model :=
    match nth_error (prx m) i with Some q => proxy_scale m q | None => (None, m) end.

  (** Parameters of the model (model.parameters()): weights and learned scales. *)
  Definition stateful (k : kind) : bool := match k with KStats => false | _ => true end.
  Definition parameters (m : model) : list nat :=
    wts m ++ map px_val (filter (fun p => stateful (px_kind p)) (pxs m)).

  (** A step of an optimizer built over the cells [opt]: any new values for them. *)
  Definition opt_step (m : model) (opt : list nat) (g : nat -> V) : model :=
    Md (fun c => if existsb (Nat.eqb c) opt then g c else heap m c) (fresh m) (wts m) (prx m) (pxs m).

  (** ** Checkpoints *)

  Definition dict := list (key * V).
  Fixpoint get (d : dict) (k : key) : option V :=
    match d with [] => None | (a, v) :: d' => if key_eqb a k then Some v else get d' k end.

  (** standalone.py L241-247 [state_dict]: the value is left out before the first call. *)
  Definition saved_value (m : model) (q : nat) : option V :=
    match nth_error (pxs m) q with
    | None => None
    | Some p =>
        match px_kind p with
        | KStats => None
        | KParam => Some (heap m (px_val p))
        | KFromStats => if px_init p then Some (heap m (px_val p)) else None
        end
    end.
  Definition save_layer (m : model) (i : nat) : dict :=
    ((i, FWeight), weight m i) ::
    match saved_value m (nth i (prx m) 0) with Some v => [((i, FValue), v)] | None => [] end.
  Definition state_dict (m : model) : dict := flat_map (save_layer m) (seq 0 (length (wts m))).

  (** Writing the value of quantizer [q] from a checkpoint: the copy into the Parameter, and
      standalone.py L254-256: the statistics are not collected any more. *)
  Definition load_value (m : model) (q : nat) (v : V) : model :=
    match nth_error (pxs m) q with
    | None => m
    | Some p => Md (upd (heap m) (px_val p) v) (fresh m) (wts m) (prx m)
                   (set_at q (Px (px_kind p) (px_tracked p) (px_refs p) (px_val p) true) (pxs m))
    end.

  (** torch load_state_dict visits a module's own Parameters, then its children: the weight of
      layer [i], then its quantizer (quant_proxy.py L127-144 [_load_from_state_dict]: rebuilt
      first when REINIT_ON_STATE_DICT_LOAD), then the value inside it (standalone.py L169-179,
      L249-259). Returns the model and whether some key of the layer is missing. *)
  Definition load_layer (f : flags) (d : dict) (m : model) (i : nat) : model * bool :=
    let '(m1, miss_w) := match get d (i, FWeight) with
                         | Some v => (write m (wcell m i) v, false)
                         | None => (m, true)
                         end in
    let q := nth i (prx m) 0 in
    let m2 := if f_reinit f then init_tensor_quant m1 q else m1 in
    match nth_error (pxs m2) q with
    | None => (m2, miss_w)
    | Some p =>
        if stateful (px_kind p) then
          match get d (i, FValue) with
          | Some v => (load_value m2 q v, miss_w)
          | None => (m2, miss_w || negb (f_ignore f))
          end
        else (m2, miss_w)
    end.
  Fixpoint load_layers (f : flags) (d : dict) (m : model) (is : list nat) : model * bool :=
    match is with
    | [] => (m, false)
    | i :: is' =>
        let '(m1, b) := load_layer f d m i in
        let '(m2, b') := load_layers f d m1 is' in (m2, b || b')
    end.
  Definition known_key (m : model) (k : key) : bool :=
    Nat.ltb (fst k) (length (wts m)) &&
    match snd k with
    | FWeight => true
    | FValue => match nth_error (pxs m) (nth (fst k) (prx m) 0) with Some p => stateful (px_kind p) | None => false end
    end.
  (** [load_state_dict(d, strict)]: torch raises at the end, after everything was copied; the
      second component says whether it returned. *)
  Definition load_state_dict (f : flags) (strict : bool) (m : model) (d : dict) : model * bool :=
    let '(m1, missing) := load_layers f d m (seq 0 (length (wts m))) in
    let unexpected := existsb (fun e => negb (known_key m (fst e))) d in
    (m1, negb (strict && (missing || unexpected))).

  (** parameter_quant.py L64-80 with preserve_state_dict = True: the proxy's own state dict is
      taken before and loaded after, without reinitialisation and ignoring missing keys. *)
  Definition init_preserving (m : model) (q : nat) : model :=
    let m1 := init_tensor_quant m q in
    match saved_value m q with Some v => load_value m1 q v | None => m1 end.

  (** ** Histories *)
  Inductive op :=
  | NewLayer (k : kind) (w : V)
  | ShareLayer (q : nat) (w : V)
  | ReplaceWeight (i : nat) (w : V)
  | TieWeight (i j : nat)
  | MergeBN (i : nat) (f : V -> V)
  | SetWeight (i : nat) (w : V)
  | Forward (i : nat)
  | OptStep (opt : list nat) (g : nat -> V)
  | Load (f : flags) (strict : bool) (d : dict)
  | InitPreserving (q : nat).

  Definition step (m : model) (o : op) : model :=
    match o with
    | NewLayer k w => new_layer m k w
    | ShareLayer q w => share_layer m q w
    | ReplaceWeight i w => replace_weight m i w
    | TieWeight i j => tie_weight m i j
    | MergeBN i f => merge_bn m i f
    | SetWeight i w => set_weight m i w
    | Forward i => snd (layer_scale m i)
    | OptStep opt g => opt_step m opt g
    | Load f strict d => fst (load_state_dict f strict m d)
    | InitPreserving q => init_preserving m q
    end.
  Definition run (m : model) (os : list op) : model := fold_left step os m.
End State.
