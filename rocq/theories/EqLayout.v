(** Model of the weight layouts behind equalization: which axis of a weight is taken for the
    input and output channels, the size checks and the scaling along that axis:
    src/brevitas/graph/equalize.py L254-306, L386-602 and L676-695.

    Real arithmetic.  A weight is a function of its first two axes and the flattened remaining
    ones.  Regions without concatenation (start and offset 0, end the size of the axis), without
    multi-head attention and without merging of the bias into the range. *)
From Verif Require Import BatchNorm Equalize.
From Coq Require Import Reals List Bool Arith Lra Lia.
Import ListNotations.
Open Scope R_scope.

Inductive ltype := TLinear | TConv (groups : nat) | TConvT (groups : nat).

(** nn.Linear, nn.ConvNd and nn.ConvTransposeNd, and the norms (L35-47). *)
Inductive layer :=
| LLin (t : ltype) (n_in n_out K : nat) (tap : nat -> nat -> option nat) (w : nat -> nat -> nat -> R) (b : option (nat -> R))
| LNorm (n : nat) (h : value -> value) (w b : nat -> R).

(** Shape of the weight in torch (external): Linear (out, in), Conv (out, in/groups, kernel),
    ConvTranspose (in, out/groups, kernel); norms (features). *)
Definition wsize (l : layer) (ax : bool) : nat :=
  match l with
  | LLin TLinear n_in n_out _ _ _ _ => if ax then n_in else n_out
  | LLin (TConv g) n_in n_out _ _ _ _ => if ax then n_in / g else n_out
  | LLin (TConvT g) n_in n_out _ _ _ _ => if ax then n_out / g else n_in
  | LNorm n _ _ _ => n
  end%nat.

(** The weight as seen by the forward pass of torch (external): an output of a grouped layer
    reads the inputs of its group. *)
Definition dense (t : ltype) (n_in n_out : nat) (w : nat -> nat -> nat -> R) (o i k : nat) : R :=
  match t with
  | TLinear => w o i k
  | TConv g => if (i / (n_in / g) =? o / (n_out / g))%nat then w o (i mod (n_in / g))%nat k else 0
  | TConvT g => if (i / (n_in / g) =? o / (n_out / g))%nat then w i (o mod (n_out / g))%nat k else 0
  end.
Definition bias_of (b : option (nat -> R)) : nat -> R := match b with Some b => b | None => fun _ => 0 end.
Definition to_mod (l : layer) : module :=
  match l with
  | LLin t n_in n_out K tap w b => Lin n_in n_out K tap (dense t n_in n_out w) (bias_of b)
  | LNorm n h w b => Norm n h w b
  end.

(** L254-281 [_get_input_axis]; axis 0 is false, axis 1 is true. *)
Definition input_axis (l : layer) : option bool :=
  match l with
  | LLin TLinear _ _ _ _ _ _ => Some true
  | LLin (TConv g) _ n_out _ _ _ _ => if g =? 1 then Some true else if g =? n_out then Some false else None
  | LLin (TConvT g) _ n_out _ _ _ _ => if g =? 1 then Some false else if g =? n_out then Some true else None
  | LNorm _ _ _ _ => Some false
  end%nat.
(** L284-306 [_get_output_axis]. *)
Definition output_axis (l : layer) : bool := match l with LLin (TConvT _) _ _ _ _ _ _ => true | _ => false end.

(** L676-684 [get_weight_source] and L687-695 [get_weight_sink], the size of the leading axis
    after the transposition (a missing input axis transposes as well). *)
Definition source_size (l : layer) : nat := wsize l (output_axis l).
Definition sink_size (l : layer) : nat := wsize l (match input_axis l with Some ax => ax | None => true end).

(** L249-252 along an axis. *)
Definition other_size (l : layer) (ax : bool) : nat := match l with LNorm _ _ _ _ => 1%nat | _ => wsize l (negb ax) end.
Definition n_taps (l : layer) : nat := match l with LLin _ _ _ K _ _ _ => K | LNorm _ _ _ _ => 1%nat end.
Definition entry (l : layer) (ax : bool) (c j k : nat) : R :=
  match l with LLin _ _ _ _ _ w _ => if ax then w j c k else w c j k | LNorm _ _ w _ => w c end.
Definition axis_range (l : layer) (ax : bool) (c : nat) : R :=
  rmax (flat_map (fun j => map (fun k => Rabs (entry l ax c j k)) (seq 0 (n_taps l))) (seq 0 (other_size l ax))).

(** L568-577, L586-596: product with the factors along the axis. *)
Definition scale_axis (ax : bool) (s : nat -> R) (w : nat -> nat -> nat -> R) : nat -> nat -> nat -> R :=
  fun a b k => w a b k * s (if ax then b else a).
(** L556-577: the factors are viewed as the bias, which raises unless they are as many. *)
Definition update_source (s : nat -> R) (l : layer) : option layer :=
  match l with
  | LLin t n_in n_out K tap w b =>
      let w' := scale_axis (output_axis l) (fun c => / s c) w in
      match b with
      | Some bv => if (source_size l =? n_out)%nat then Some (LLin t n_in n_out K tap w' (Some (fun o => bv o * / s o))) else None
      | None => Some (LLin t n_in n_out K tap w' None)
      end
  | LNorm n h w b => Some (LNorm n h (fun c => w c * / s c) (fun c => b c * / s c))
  end.
(** L578-596. *)
Definition update_sink (ax : bool) (s : nat -> R) (l : layer) : layer :=
  match l with
  | LLin t n_in n_out K tap w b => LLin t n_in n_out K tap (scale_axis ax s w) b
  | LNorm n h w b => LNorm n h (fun c => w c * s c) b
  end.

Definition layers := nat -> layer.
Definition nmax (l : list nat) : nat := fold_right Nat.max 0%nat l.
(** L478-505: channels beyond the axis of a layer are not updated by it. *)
Definition range_over (L : layers) (ms : list nat) (size : layer -> nat) (ax : layer -> bool) (c : nat) : R :=
  rmax (map (fun m => axis_range (L m) (ax (L m)) c) (filter (fun m => c <? size (L m))%nat ms)).
Definition some_axis (l : layer) : bool := match input_axis l with Some ax => ax | None => true end.
Definition layout_factors (alpha : R) (L : layers) (st : wstate) (c : nat) : R :=
  scaling_factor alpha (range_over L (srcs st) source_size output_axis c) (range_over L (sinks st) sink_size some_axis c).

(** L386-602 [_cross_layer_equalization] without activations: None when it raises. *)
Definition cross_layer (alpha : R) (st : wstate) (L : layers) : option layers :=
  if negb (nmax (map (fun m => source_size (L m)) (srcs st)) =? nmax (map (fun m => sink_size (L m)) (sinks st)))%nat then Some L
  else if existsb (fun m => match input_axis (L m) with None => true | Some _ => false end) (sinks st) then Some L
  else
    let s := layout_factors alpha L st in
    if forallb (fun m => match update_source s (L m) with Some _ => true | None => false end) (srcs st)
    then Some (fun m =>
      let l1 := if mem m (srcs st) then match update_source s (L m) with Some l => l | None => L m end else L m in
      if mem m (sinks st) then update_sink (some_axis l1) s l1 else l1)
    else None.

(** L612-638 over the regions [steps]. *)
Fixpoint layout_equalize (alpha : R) (steps : list wstate) (L : layers) : option layers :=
  match steps with
  | [] => Some L
  | st :: steps => match cross_layer alpha st L with Some L' => layout_equalize alpha steps L' | None => None end
  end.
