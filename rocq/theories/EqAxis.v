(** Model of the feature axis in equalization: src/brevitas/graph/equalize.py L309-327
    ([_get_act_axis]) and the axis check of L454-474, on a source followed by a sink.

    Real arithmetic.  An activation of one sample has two dimensions, value r c.  Convolutions
    take their channels along the first and linear layers along the last; a batch norm normalises
    along the first and a layer norm along the last (torch, external). *)
From Verif Require Import BatchNorm Equalize EqLayout.
From Coq Require Import Reals List Bool Arith Lra Lia.
Import ListNotations.
Open Scope R_scope.

Inductive axis := First | Last.
Definition axis_eqb (a b : axis) : bool := match a, b with First, First | Last, Last => true | _, _ => false end.

(** A layer and, for a norm, the axis it works along. *)
Record alayer := A { lay : layer; norm_axis : axis }.
Definition data_axis (l : alayer) : axis :=
  match lay l with LLin TLinear _ _ _ _ _ _ => Last | LLin _ _ _ _ _ _ _ => First | LNorm _ _ _ _ => norm_axis l end.
(** L309-327. *)
Definition get_act_axis (l : alayer) : option axis :=
  match lay l with LLin TLinear _ _ _ _ _ _ => Some Last | LLin _ _ _ _ _ _ _ => Some First | LNorm _ _ _ _ => None end.

Definition swap (x : value) : value := fun r c => x c r.
Definition fwd_axis (a : axis) (m : module) (x : value) : value :=
  match a with First => fwd m x | Last => swap (fwd m (swap x)) end.
Definition afwd (l : alayer) (x : value) : value := fwd_axis (data_axis l) (to_mod (lay l)) x.

(** A source, an elementwise operator and a sink. *)
Definition net (src : alayer) (act : R -> R) (sink : alayer) (x : value) : value :=
  afwd sink (fun r c => act (afwd src x r c)).

(** L386-602 for this region (weights only): the layers afterwards. *)
Definition two (src sink : alayer) : layers := fun m => if (m =? 0)%nat then lay src else lay sink.
Definition pair_region : wstate := W [0%nat] [1%nat] [] false.
Definition equalize_pair (alpha : R) (src sink : alayer) : option (alayer * alayer) :=
  match cross_layer alpha pair_region (two src sink) with
  | Some L => Some (A (L 0%nat) (norm_axis src), A (L 1%nat) (norm_axis sink))
  | None => None
  end.

(** L454-474: with activations the axis must be known and agree among the layers that have one. *)
Definition act_axis_check (srcs sinks : list alayer) : option axis :=
  let keep l := fold_right (fun x acc => match get_act_axis x with Some a => a :: acc | None => acc end) [] l in
  let ks := keep sinks in let ss := keep srcs in
  match (match ks with a :: _ => Some a | [] => match ss with a :: _ => Some a | [] => None end end) with
  | None => None
  | Some a => if existsb (fun b => negb (axis_eqb a b)) (ss ++ ks) then None else Some a
  end.
(** The same pair with the ranges of recorded activations as source ranges. *)
Definition act_equalize_pair (alpha : R) (act_range : nat -> R) (src sink : alayer) : option (alayer * alayer) :=
  match act_axis_check [src] [sink] with
  | None => Some (src, sink)
  | Some _ =>
      if negb (source_size (lay src) =? sink_size (lay sink))%nat then Some (src, sink)
      else match input_axis (lay sink) with
           | None => Some (src, sink)
           | Some ax =>
               let s := (fun c => scaling_factor alpha (act_range c) (axis_range (lay sink) ax c)) in
               match update_source s (lay src) with
               | None => None
               | Some l => Some (A l (norm_axis src), A (update_sink ax s (lay sink)) (norm_axis sink))
               end
           end
  end.
