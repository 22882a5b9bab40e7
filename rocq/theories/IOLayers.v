(** Model of src/brevitas/nn/quant_eltwise.py [QuantEltwiseAdd], [QuantCat],
    src/brevitas/nn/quant_embedding.py [QuantEmbedding], the base class
    [QuantInputOutputLayer] of src/brevitas/nn/quant_layer.py and the embedding handler of
    src/brevitas/quant_tensor/int_torch_handler.py.

    Tensors are lists of elements and operands have the same shape.  Activation quantizers are
    integer quantizers with a fixed scale, integer zero point and bit width.  Exceptions are
    None.  Export mode, tracing and gradients are left out. *)
From Coq Require Import String.
From Verif Require Import QUtil Ops IntQuant QuantTensor.
Open Scope Q_scope.

(** What a layer is called with and what it returns.  [TE]: an IntQuantTensor whose zero point
    is a tensor (one per element). *)
Inductive operand := OPlain (v : list Q) | OQuant (t : iqt).
Inductive tensor := TP (v : list Q) | TQ (t : iqt) | TE (v : list Q) (scale : Q) (zps : list Q) (bw : Z) (signed : bool).
Definition to_tensor (o : operand) : tensor := match o with OPlain v => TP v | OQuant t => TQ t end.
Definition op_value (o : operand) : list Q := match o with OPlain v => v | OQuant t => qt_value t end.
Definition value (t : tensor) : list Q := match t with TP v => v | TQ t => qt_value t | TE v _ _ _ _ => v end.

Record actq := AQ { a_signed : bool; a_narrow : bool; a_mode : rmode; a_scale : Q; a_zp : Z; a_bw : Z }.

(** proxy/runtime_quant.py L168-206 [ActQuantProxyFromInjectorBase.forward] of an input or
    output quantizer (no activation function): without a quantizer there is no fused proxy and
    the input is returned. *)
Definition quantized (training : bool) (q : actq) (v : list Q) : iqt :=
  {| qt_value := int_quant_tensor (cfg (a_signed q) (a_narrow q) (a_mode q)) (a_scale q) (inject_Z (a_zp q)) (a_bw q) v;
     qt_scale := a_scale q; qt_zp := inject_Z (a_zp q); qt_bw := a_bw q; qt_signed := a_signed q; qt_training := training |}.
Definition act_quant (training : bool) (q : option actq) (x : tensor) : tensor :=
  match q with Some q => TQ (quantized training q (value x)) | None => x end.
Definition in_quant (training : bool) (q : option actq) (x : operand) : operand :=
  match q with Some q => OQuant (quantized training q (op_value x)) | None => x end.

(** int_quant_tensor.py L267-299 [__add__] and torch's [Tensor.__add__], which unpacks a
    quantized right operand. *)
Definition plus (a b : operand) : option tensor :=
  match a, b with
  | OPlain u, OPlain v => Some (TP (map2 Qplus u v))
  | OPlain u, OQuant t => Some (TP (map2 Qplus u (qt_value t)))
  | OQuant t, OPlain v => Some (TE (map2 Qplus (qt_value t) v) (qt_scale t) (map (fun x => qt_zp t - x / qt_scale t) v) (qt_bw t) (qt_signed t))
  | OQuant s, OQuant t => match add s t with Some r => Some (TQ r) | None => None end
  end.

(** nn/mixin/base.py L99-104 [pack_output]. *)
Definition pack_output (return_qt : bool) (t : tensor) : option tensor :=
  if return_qt then match t with TP _ => None | _ => Some t end else Some (TP (value t)).

(** quant_layer.py L66-85 [QuantInputOutputLayer.__init__].  The attributes set by the mixins
    (mixin/act.py L20-49) are [input_quant] and [output_quant]; the code for tied quantizers
    reads [act_quant]: an AttributeError when [act_quant] is not among them. *)
Definition mixin_attributes : list string := ["input_quant"; "output_quant"]%string.
Definition has_attr (s : string) (l : list string) : bool := existsb (String.eqb s) l.
Record layer := L { l_in : option actq; l_out : option actq; l_return_qt : bool }.
Definition io_init (input_quant output_quant : option actq) (tie return_qt : bool) : option layer :=
  if tie then
    if has_attr "act_quant" mixin_attributes then
      match input_quant, output_quant with
      | Some _, Some _ => None
      | Some q, None => Some (L (Some q) (Some q) return_qt)
      | None, Some q => Some (L (Some q) (Some q) return_qt)
      | None, None => Some (L None None return_qt)
      end
    else None
  else Some (L input_quant output_quant return_qt).

(** quant_eltwise.py L33-46 [QuantEltwiseAdd.forward]. *)
Definition eltwise_add (training : bool) (l : layer) (input other : operand) : option tensor :=
  let quant_input := in_quant training (l_in l) input in
  let quant_other := in_quant training (l_in l) other in
  match plus quant_input quant_other with
  | Some output => pack_output (l_return_qt l) (act_quant training (l_out l) output)
  | None => None
  end.

(** The methods of the class QuantTensor, quant_tensor/base_quant_tensor.py L10-90. *)
Definition quant_tensor_methods : list string :=
  ["detach_"; "detach"; "contiguous"; "set"; "shape"; "dim"; "add"; "to"; "cuda"; "cpu"; "__radd__"; "__rmul__"; "__sub__"; "__pos__"; "size"]%string.
(** quant_eltwise.py L66-80 [QuantCat.forward]: [QuantTensor.cat(...)]. *)
Fixpoint all_quant (l : list operand) : option (list iqt) :=
  match l with
  | [] => Some []
  | OQuant t :: l' => match all_quant l' with Some ts => Some (t :: ts) | None => None end
  | OPlain _ :: _ => None
  end.
Definition quant_cat (training : bool) (l : layer) (ts : list operand) : option tensor :=
  let qs := map (in_quant training (l_in l)) ts in
  if has_attr "cat" quant_tensor_methods then
    match all_quant qs with
    | Some ts => match cat ts with Some t => pack_output (l_return_qt l) (act_quant training (l_out l) (TQ t)) | None => None end
    | None => pack_output (l_return_qt l) (act_quant training (l_out l) (TP (concat (map op_value qs))))
    end
  else None.

(** ** Embedding *)

(** The quantized weight: one row per embedding; [w_scales] and [w_zps] hold one entry, or one
    per row. *)
Inductive weight :=
| WPlain (rows : list (list Q))
| WInt (rows : list (list Q)) (scales zps : list Q) (bw : Z) (signed training : bool)
| WOther (rows : list (list Q)).       (* any other QuantTensor *)
Definition w_rows (w : weight) : list (list Q) := match w with WPlain r => r | WInt r _ _ _ _ _ => r | WOther r => r end.

(** torch.nn.functional.embedding: with [max_norm], rows that are looked up and are longer are
    first scaled in place; an index out of range raises. *)
Definition renorm (norm : list Q -> Q) (max_norm : option Q) (row : list Q) : list Q :=
  match max_norm with
  | None => row
  | Some m => if Qlt_bool m (norm row) then map (fun x => x * (m / (norm row + (1 # 10000000)))) row else row
  end.
Fixpoint lookup (norm : list Q -> Q) (max_norm : option Q) (rows : list (list Q)) (idx : list nat) : option (list (list Q)) :=
  match idx with
  | [] => Some []
  | i :: idx' =>
      match nth_error rows i, lookup norm max_norm rows idx' with
      | Some r, Some rs => Some (renorm norm max_norm r :: rs)
      | _, _ => None
      end
  end.

Inductive emb_out := EP (rows : list (list Q)) | EQ (rows : list (list Q)) (scale zp : Q) (bw : Z) (signed training : bool).

(** int_torch_handler.py L75-93 [embedding_handler] (IntQuantTensor); other quantized tensors
    have no handler and are unpacked. *)
Definition embedding_fn (norm : list Q -> Q) (max_norm : option Q) (idx : list nat) (w : weight) : option emb_out :=
  match lookup norm max_norm (w_rows w) idx with
  | None => None
  | Some out =>
      match w with
      | WInt _ [s] [z] bw sg tr => Some (EQ out s z bw sg tr)
      | WInt _ _ _ _ _ _ => None            (* Only per-tensor quantization is supported *)
      | _ => Some (EP out)
      end
  end.

(** quant_embedding.py L62-79 [QuantEmbedding.forward]. *)
Definition embedding (norm : list Q -> Q) (max_norm : option Q) (return_qt : bool) (w : weight) (idx : list nat) : option emb_out :=
  match embedding_fn norm max_norm idx w with
  | None => None
  | Some (EQ out s z bw sg tr) => Some (if return_qt then EQ out s z bw sg tr else EP out)
  | Some (EP out) => if return_qt then None else Some (EP out)
  end.
