(** Model of the recurrent layers, src/brevitas/nn/quant_rnn.py, and their mixin
    src/brevitas/nn/mixin/base.py L150-250.

    One batch element; vectors are index functions, matrices too; all quantizers are functions on
    vectors (a disabled one is the identity).  Export mode and the scripted fast cell (same code)
    are left out. *)
From Coq Require Import Reals List Bool ZArith Lia.
Import ListNotations.
Open Scope R_scope.

Definition vec := nat -> R.
Definition mat := nat -> nat -> R.
Definition vadd (a b : vec) : vec := fun i => a i + b i.
Definition vsub (a b : vec) : vec := fun i => a i - b i.
Definition vmul (a b : vec) : vec := fun i => a i * b i.
Definition vzero : vec := fun _ => 0.
Definition vones : vec := fun _ => 1.
Fixpoint sum_n (m : nat) (f : nat -> R) : R := match m with O => 0 | S m' => sum_n m' f + f m' end.
(** [F.linear(x, w)] with [m] input features *)
Definition linear (m : nat) (x : vec) (w : mat) : vec := fun i => sum_n m (fun j => w i j * x j).

(** ** The time loop of _QuantRNNCell.forward L149-174 and _QuantLSTMCell.forward L268-321 *)
Section Loop.
  Context {St X : Type}.
  Variable step : St -> X -> St.
  Fixpoint loop (xs : list X) (cnt : nat) (index stp : Z) (st : St) : option (list St) :=
    match cnt with
    | O => Some []
    | S cnt' =>
        match (if (index <? 0)%Z then None else nth_error xs (Z.to_nat index)) with
        | None => None
        | Some x =>
            let st' := step st x in
            match loop xs cnt' (index + stp) stp st' with Some l => Some (st' :: l) | None => None end
        end
    end.
  Definition cell_forward (reverse_input : bool) (xs : list X) (st : St) : option (list St) :=
    let e := Z.of_nat (length xs) in
    if reverse_input then loop xs (length xs) (e - 1) (-1) st else loop xs (length xs) 0 1 st.
  (** pack_quant_outputs (mixin/base.py L190-220) and [outputs[-1]], [None] on an empty sequence. *)
  Definition pack_outputs (reverse_input : bool) (outs : list St) : list St := if reverse_input then rev outs else outs.
  Definition layer_run (reverse_input : bool) (xs : list X) (st : St) : option (list St * St) :=
    match cell_forward reverse_input xs st with
    | Some outs => match rev outs with last :: _ => Some (pack_outputs reverse_input outs, last) | [] => None end
    | None => None
    end.
End Loop.

(** maybe_quantize_state, mixin/base.py L181-188 *)
Definition maybe_quantize_state (quant : vec -> vec) (st : option vec) : vec :=
  match st with None => vzero | Some s => quant s end.

(** ** Elman layer: _QuantRNNCell.forward_iter L140-147, _QuantRNNLayer.forward L411-440 *)
Record rnn_q := RQ { r_gate_acc : vec -> vec; r_act : vec -> vec; r_output : vec -> vec }.
Record gate := G { w_ih : mat; w_hh : mat; bias : vec }.
Definition rnn_iter (n_in n_hid : nat) (q : rnn_q) (g : gate) (st x : vec) : vec :=
  r_output q (r_act q (r_gate_acc q (vadd (vadd (linear n_in x (w_ih g)) (linear n_hid st (w_hh g))) (bias g)))).
Definition rnn_layer (n_in n_hid : nat) (q : rnn_q) (g : gate) (rv : bool) (xs : list vec) (st : option vec) : option (list vec * vec) :=
  layer_run (rnn_iter n_in n_hid q g) rv xs (maybe_quantize_state (r_output q) st).

(** ** LSTM: _QuantLSTMCell.forward_iter L217-266.  The sigmoid / tanh quantizers apply the
    activation function and then quantize; [q_one] is [input_sigmoid_quant.tensor_quant]. *)
Record lstm_q := LQ {
  q_in_acc : vec -> vec; q_forget_acc : vec -> vec; q_cell_acc : vec -> vec; q_out_acc : vec -> vec;
  q_in_sig : vec -> vec; q_forget_sig : vec -> vec; q_cell_tanh : vec -> vec; q_out_sig : vec -> vec;
  q_hid_tanh : vec -> vec; q_cell_state : vec -> vec; q_output : vec -> vec; q_one : vec -> vec }.
Record lstm_w := LW { g_in : gate; g_forget : gate; g_cell : gate; g_out : gate }.
Definition gate_in (n_in n_hid : nat) (g : gate) (x h : vec) : vec :=
  vadd (vadd (linear n_in x (w_ih g)) (linear n_hid h (w_hh g))) (bias g).
Definition lstm_iter (n_in n_hid : nat) (cifg : bool) (q : lstm_q) (w : lstm_w) (st : vec * vec) (x : vec) : vec * vec :=
  let (h, c) := st in
  let input_gate := q_in_sig q (q_in_acc q (gate_in n_in n_hid (g_in w) x h)) in
  let forget_gate :=
    if cifg then vsub (q_one q vones) input_gate
    else q_forget_sig q (q_forget_acc q (gate_in n_in n_hid (g_forget w) x h)) in
  let cell_gate := q_cell_tanh q (q_cell_acc q (gate_in n_in n_hid (g_cell w) x h)) in
  let out_gate := q_out_sig q (q_out_acc q (gate_in n_in n_hid (g_out w) x h)) in
  let forget_cell := q_cell_state q (vmul forget_gate c) in
  let inp_cell := q_cell_state q (vmul input_gate cell_gate) in
  let c' := q_cell_state q (vadd forget_cell inp_cell) in
  let h' := q_output q (vmul out_gate (q_hid_tanh q c')) in
  (h', c').
(** _QuantLSTMLayer.forward L690-732: outputs, last hidden state, last cell state *)
Definition lstm_layer (n_in n_hid : nat) (cifg : bool) (q : lstm_q) (w : lstm_w) (rv : bool) (xs : list vec)
    (hx cx : option vec) : option (list vec * vec * vec) :=
  let h0 := maybe_quantize_state (q_output q) hx in
  let c0 := maybe_quantize_state (q_cell_state q) cx in
  match layer_run (lstm_iter n_in n_hid cifg q w) rv xs (h0, c0) with
  | Some (outs, (h, c)) => Some (map fst outs, h, c)
  | None => None
  end.

(** ** The stack: QuantRecurrentStackBase.forward L839-859 (and QuantLSTM.forward with a pair as
    state).  A direction maps the input and its initial state to outputs and final state; [cat]
    is the concatenation of the directions' outputs on the feature dimension. *)
Section Stack.
  Context {I O St : Type}.
  Variable cat : list I -> I.
  Definition direction := I -> option St -> option (I * St).
  Fixpoint run_dirs (dirs : list direction) (l d : nat) (inp : I) (hx : option (list St)) : option (list I * list St) :=
    match dirs with
    | [] => Some ([], [])
    | dir :: dirs' =>
        let state :=
          match hx with
          | None => Some None
          | Some h => match nth_error h (2 * l + d) with Some s => Some (Some s) | None => None end
          end in
        match state with
        | None => None
        | Some s =>
            match dir inp s with
            | None => None
            | Some (o, st) =>
                match run_dirs dirs' l (S d) inp hx with
                | Some (os, sts) => Some (o :: os, st :: sts)
                | None => None
                end
            end
        end
    end.
  Fixpoint run_layers (layers : list (list direction)) (l : nat) (inp : I) (hx : option (list St)) : option (I * list St) :=
    match layers with
    | [] => Some (inp, [])
    | layer :: layers' =>
        match run_dirs layer l 0 inp hx with
        | None => None
        | Some (os, sts) =>
            let out := match os with [o] => o | _ => cat os end in
            match run_layers layers' (S l) out hx with
            | Some (final, rest) => Some (final, (sts ++ rest)%list)
            | None => None
            end
        end
    end.
  Definition stack_forward (layers : list (list direction)) (inp : I) (hx : option (list St)) := run_layers layers 0 inp hx.
End Stack.

(** ** Loading a torch LSTM layer: _QuantLSTMLayer._load_from_state_dict L734-773.
    Entries in dictionary order; [bias(gate)] starts at zero and accumulates. *)
Inductive entry := EBiasIH (v : vec) | EBiasHH (v : vec) | EWeightIH (w : mat) | EWeightHH (w : mat).
Definition slice_v (hs k : nat) (v : vec) : vec := fun i => v (k * hs + i)%nat.
Definition slice_m (hs k : nat) (w : mat) : mat := fun i j => w (k * hs + i)%nat j.
Definition add_bias (hs : nat) (v : vec) (w : lstm_w) : lstm_w :=
  let ab k (g : gate) := G (w_ih g) (w_hh g) (vadd (bias g) (slice_v hs k v)) in
  LW (ab 0%nat (g_in w)) (ab 1%nat (g_forget w)) (ab 2%nat (g_cell w)) (ab 3%nat (g_out w)).
Definition load_entry (hs : nat) (w : lstm_w) (e : entry) : lstm_w :=
  match e with
  | EBiasIH v | EBiasHH v => add_bias hs v w
  | EWeightIH m => let f k (g : gate) := G (slice_m hs k m) (w_hh g) (bias g) in
      LW (f 0%nat (g_in w)) (f 1%nat (g_forget w)) (f 2%nat (g_cell w)) (f 3%nat (g_out w))
  | EWeightHH m => let f k (g : gate) := G (w_ih g) (slice_m hs k m) (bias g) in
      LW (f 0%nat (g_in w)) (f 1%nat (g_forget w)) (f 2%nat (g_cell w)) (f 3%nat (g_out w))
  end.
Definition empty_gate : gate := G (fun _ _ => 0) (fun _ _ => 0) vzero.
Definition load_lstm (hs : nat) (es : list entry) : lstm_w :=
  fold_left (load_entry hs) es (LW empty_gate empty_gate empty_gate empty_gate).

(** ** Sharing of the input weights between directions: _QuantLSTMLayer.__init__ L477-616,
    weights_to_share L618-629, QuantRecurrentStackBase.__init__ L800-836.  A weight is named by
    the number of the parameter object it points to. *)
Record shared := Sh { s_input : option nat; s_forget : option nat; s_cell : option nat; s_output : option nat }.
Record gates_w := GW { p_input : nat; p_forget : option nat; p_cell : nat; p_output : nat }.
Definition or_new (fresh : nat) (o : option nat) : nat := match o with Some a => a | None => fresh end.
(** [input_gate_params] receives [input_forget_weight] and [forget_gate_params] receives
    [input_input_weight]. *)
Definition lstm_init (cifg : bool) (fresh : nat) (s : shared) : gates_w :=
  GW (or_new fresh (s_forget s))
     (if cifg then None else Some (or_new (S fresh) (s_input s)))
     (or_new (S (S fresh)) (s_cell s))
     (or_new (S (S (S fresh))) (s_output s)).
Definition weights_to_share (shared_input_hidden cifg : bool) (w : gates_w) : shared :=
  if shared_input_hidden
  then Sh (Some (p_input w)) (if cifg then None else p_forget w) (Some (p_cell w)) (Some (p_output w))
  else Sh None None None None.
Definition bidirectional_lstm (shared_input_hidden cifg : bool) : gates_w * gates_w :=
  let left := lstm_init cifg 0 (Sh None None None None) in
  (left, lstm_init cifg 4 (weights_to_share shared_input_hidden cifg left)).
(** _QuantRNNLayer: one gate, [input_weight] to [input_weight]. *)
Definition bidirectional_rnn (shared_input_hidden : bool) : nat * nat :=
  let left := or_new 0 None in
  (left, or_new 1 (if shared_input_hidden then Some left else None)).
