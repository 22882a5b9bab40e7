(** Model of src/brevitas/inject/__init__.py (resolution of injector attributes and inheritance of
    injectors) and of the routing of keyword arguments to quantizers (src/brevitas/nn/mixin/utils.py,
    src/brevitas/nn/mixin/base.py L34-60).

    Values, classes and functions are abstract; what the external package [dependencies] computes
    from a class or a [this] expression is the [spec] that the outcome carries.  The replacement of
    nested injectors through the [_Replace] exception is left out.  The dictionary
    [cls.__dependencies__] is threaded through; Python exceptions are [Failed] with the dictionary
    they leave behind. *)
From Coq Require Import List Bool String Arith.
From Verif Require Import StateDict.
Import ListNotations.
Open Scope string_scope.

Section Inject.
Context {V : Type}.
(** A spec (marker, attribute, args, have_defaults): [nested] tells whether 'nested' is in the marker;
    [run] calls the attribute with keyword arguments; the argument number n (from 1) has a default
    when n >= have_defaults. *)
Inductive spec := Spec (nested : bool) (args : list string) (have_defaults : nat) (run : list (string * V) -> outcome)
with outcome :=
  | Val (v : V)                  (* any other value *)
  | Class (v : V) (init : spec)  (* a class that is no injector, and _make_init_spec of it *)
  | This (s : spec)              (* a [this] expression, and _make_this_spec of it *)
  | Raise.
Definition nested (s : spec) := let '(Spec b _ _ _) := s in b.
Definition args (s : spec) := let '(Spec _ l _ _) := s in l.
Definition have_defaults (s : spec) := let '(Spec _ _ n _) := s in n.
Definition run (s : spec) := let '(Spec _ _ _ f) := s in f.
Definition mem (x : string) (l : list string) : bool := existsb (String.eqb x) l.
Fixpoint required_from (n : nat) (s : spec) (l : list string) : list string :=
  match l with [] => [] | x :: l => if (n <? have_defaults s)%nat then x :: required_from (S n) s l else required_from (S n) s l end.
(** attribute( **kwargs): a call without a required argument raises TypeError. *)
Definition call (s : spec) (kw : list (string * V)) : outcome :=
  if forallb (fun x => mem x (keys kw)) (required_from 1 s (args s)) then run s kw else Raise.

(** L30-31 [_check_loops], [_check_circles] (external): they raise when false. *)
Variable check : dict spec -> bool.
(** L107 [cache = {"__self__": cls}] *)
Variable self : V.

Record st := St {
  deps : dict spec; cache : dict V; cached : list string;
  cur : string; stack : list string; dflt : bool;
  replaced : dict spec; log : list string }.
Inductive step_result := Next (s : st) | Failed (d : dict spec).
(** [attrs_stack.pop()]; the stack is kept with its last element first. *)
Definition popped (s : st) : step_result :=
  match stack s with
  | [] => Failed (deps s)
  | a :: k => Next (St (deps s) (cache s) (cached s) a k false (replaced s) (log s))
  end.
(** L163-168: the first argument not cached yet. *)
Fixpoint first_arg (n : nat) (hd : nat) (l : list string) (c : list string) : option (string * bool) :=
  match l with [] => None | x :: l => if mem x c then first_arg (S n) hd l c else Some (x, negb (n <? hd)%nat) end.
(** L27-32 [_replace_dependency] and the bookkeeping of L138-149. *)
Definition replace (s : st) (new : spec) (old : spec) : step_result :=
  let d := set (deps s) (cur s) new in
  if check d then Next (St d (cache s) (cached s) (cur s) (stack s) (dflt s) (set (replaced s) (cur s) old) (log s)) else Failed d.
(** L112-168: one turn of the loop. *)
Definition step (s : st) : step_result :=
  match get (deps s) (cur s) with
  | None => if dflt s then popped (St (deps s) (cache s) (cur s :: cached s) (cur s) (stack s) (dflt s) (replaced s) (log s)) else Failed (deps s)
  | Some sp =>
      if forallb (fun x => mem x (cached s)) (args sp) then
        let kw := flat_map (fun x => match get (cache s) x with Some v => [(x, v)] | None => [] end) (args sp) in
        let done v := popped (St (deps s) (set (cache s) (cur s) v) (cur s :: cached s) (cur s) (stack s) (dflt s) (replaced s) (log s ++ [cur s])%list) in
        match call sp kw with
        | Raise => Failed (deps s)
        | Class v init => if nested sp || endswith (cur s) "_class" then done v else replace s init sp
        | This sp' => replace s sp' sp
        | Val v => done v
        end
      else match first_arg 1 (have_defaults sp) (args sp) (cached s) with
           | Some (x, b) => Next (St (deps s) (cache s) (cached s) x (cur s :: stack s) b (replaced s) (log s))
           | None => Failed (deps s)
           end
  end.
(** L170-175: restoring, and the value. *)
Definition restore (r d : dict spec) : dict spec := fold_left (fun d e => set d (fst e) (snd e)) r d.
Inductive result := Done (v : V) (d : dict spec) (l : list string) | Error (d : dict spec) | Timeout.
Fixpoint loop (fuel : nat) (attr : string) (s : st) : result :=
  match get (cache s) attr with
  | Some v => Done v (restore (replaced s) (deps s)) (log s)
  | None =>
      match fuel with
      | O => Timeout
      | S fuel => match step s with Next s => loop fuel attr s | Failed d => Error d end
      end
  end.
(** L104-175 [__getattr__] *)
Definition getattr (fuel : nat) (d : dict spec) (attr : string) : result :=
  loop fuel attr (St d [("__self__", self)] ["__self__"] attr [attr] false [] []).

(** L90-97 of [__new__]: the dependencies of a new injector.  [let] (external) is a class with one
    base. *)
Definition update (d e : dict spec) : dict spec := fold_left (fun d x => set d (fst x) (snd x)) e d.
Definition new_class (bases : list (dict spec)) (namespace : dict spec) : dict spec :=
  update (fold_left update (rev bases) []) namespace.
Definition let_ (d : dict spec) (kw : dict spec) : dict spec := new_class [d] kw.
End Inject.
Arguments spec V : clear implicits.
Arguments outcome V : clear implicits.
Arguments result V : clear implicits.

(** ** Keyword arguments of layers
    src/brevitas/nn/mixin/utils.py L5-6 [filter_kwargs]: a dictionary comprehension. *)
Definition filter_kwargs {A} (prefix : string) (kw : dict A) : dict A :=
  fold_left (fun d x => if startswith (fst x) prefix then set d (drop (length prefix) (fst x)) (snd x) else d) kw [].
(** What a layer takes as quantizer: None, an injector, a proxy (known by its identity), or something
    else. *)
Inductive quant_arg {V} := QNone | QInjector (d : dict (spec V)) | QProxy (id : nat) | QOther.
Arguments quant_arg V : clear implicits.
(** The proxy of the layer: built from an injector, or the given one; [warned] is the warning that
    keywords are not used. *)
Inductive proxy {V} := Built (d : dict (spec V)) | Shared (id : nat) (warned : bool).
Arguments proxy V : clear implicits.
Section Layers.
Context {V : Type}.
(** src/brevitas/nn/mixin/base.py L37-60 [QuantProxyMixin.__init__]; [None] is RuntimeError. *)
Definition proxy_init (none : dict (spec V)) (prefix : string) (kw : dict (spec V)) (q : quant_arg V) : option (proxy V) :=
  match q with
  | QNone => Some (Built (let_ none (filter_kwargs prefix kw)))
  | QInjector d => Some (Built (let_ d (filter_kwargs prefix kw)))
  | QProxy id => Some (Shared id (match filter_kwargs prefix kw with [] => false | _ => true end))
  | QOther => None
  end.
(** Calling with keywords that [kw] repeats raises TypeError. *)
Definition extend (extra kw : dict (spec V)) : option (dict (spec V)) :=
  if existsb (fun x => mem (fst x) (keys kw)) extra then None else Some (extra ++ kw)%list.
(** src/brevitas/nn/mixin/act.py L20-33, L36-49 [QuantInputMixin], [QuantOutputMixin]: [no_impl] and
    [passthrough] are the specs of None and True. *)
Variables (none_act none_weight none_bias : dict (spec V)) (no_impl passthrough : spec V).
Definition io_mixin (prefix : string) (q : quant_arg V) (kw : dict (spec V)) : option (proxy V) :=
  match extend [(prefix ++ "act_impl", no_impl); (prefix ++ "passthrough_act", passthrough)] kw with
  | Some kw => proxy_init none_act prefix kw q
  | None => None
  end.
(** src/brevitas/nn/mixin/parameter.py L25-33, L90-101 [QuantWeightMixin], [QuantBiasMixin] *)
Definition weight_mixin (q : quant_arg V) (kw : dict (spec V)) := proxy_init none_weight "weight_" kw q.
Definition bias_mixin (q : quant_arg V) (kw : dict (spec V)) := proxy_init none_bias "bias_" kw q.
Record layer_proxies := { input_p : proxy V; output_p : proxy V; weight_p : proxy V; bias_p : proxy V }.
(** src/brevitas/nn/quant_layer.py L95-112 [QuantWeightBiasInputOutputLayer.__init__] *)
Definition layer_init (qi qo qw qb : quant_arg V) (kw : dict (spec V)) : option layer_proxies :=
  match io_mixin "input_" qi kw, io_mixin "output_" qo kw, weight_mixin qw kw, bias_mixin qb kw with
  | Some i, Some o, Some w, Some b => Some {| input_p := i; output_p := o; weight_p := w; bias_p := b |}
  | _, _, _, _ => None
  end.
(** src/brevitas/nn/mixin/act.py L52-74 [QuantNonLinearActMixin]: [impl] and [pass] are the specs of
    act_impl and passthrough_act.  src/brevitas/nn/quant_layer.py L23-34: an activation layer has an
    input and an activation quantizer. *)
Definition act_mixin (prefix : string) (impl pass : spec V) (q : quant_arg V) (kw : dict (spec V)) : option (proxy V) :=
  match extend [(prefix ++ "act_impl", impl); (prefix ++ "passthrough_act", pass)] kw with
  | Some kw => proxy_init none_act prefix kw q
  | None => None
  end.
Definition act_layer_init (prefix : string) (impl pass : spec V) (qi qa : quant_arg V) (kw : dict (spec V)) : option (proxy V * proxy V) :=
  match io_mixin "input_" qi kw, act_mixin prefix impl pass qa kw with
  | Some i, Some a => Some (i, a)
  | _, _ => None
  end.
(** src/brevitas/nn/quant_rnn.py L346-348 and L506-511: the accumulator quantizers of the recurrent
    layers. *)
Definition rnn_gate_acc (impl pass : spec V) (q : quant_arg V) (kw : dict (spec V)) := act_layer_init "gate_acc_quant_" impl pass QNone q kw.
Definition lstm_gate_acc (impl pass : spec V) (q : quant_arg V) (kw : dict (spec V)) := act_layer_init "gate_acc_" impl pass QNone q kw.
End Layers.
