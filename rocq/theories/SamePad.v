(** Model of strided 'same' padding: src/brevitas/nn/quant_conv.py L93-102, L181-191, L272-293.

    One channel (channels only add up); a tensor is its list of sizes and an index function.  A
    dimension carries the input size, kernel size, stride and dilation. *)
From Coq Require Import Reals List Bool ZArith Lia.
Import ListNotations.
Open Scope Z_scope.

Record dim := D { n : Z; k : Z; s : Z; d : Z }.
Definition idx := list Z.

(** [math.ceil (a / b)] *)
Definition ceil_div (a b : Z) : Z := - ((- a) / b).
(** [max((oh - 1) * s + (kh - 1) * d + 1 - ih, 0)] with [oh = ceil(ih / s)] *)
Definition pad (x : dim) : Z := Z.max ((ceil_div (n x) (s x) - 1) * s x + (k x - 1) * d x + 1 - n x) 0.

(** ** torch primitives *)
Fixpoint in_range (sizes : list Z) (i : idx) : bool :=
  match sizes, i with
  | [], [] => true
  | m :: sizes', a :: i' => (0 <=? a) && (a <? m) && in_range sizes' i'
  | _, _ => false
  end.
Fixpoint zip {A B C} (f : A -> B -> C) (a : list A) (b : list B) : list C :=
  match a, b with x :: a', y :: b' => f x y :: zip f a' b' | _, _ => [] end.
(** [F.pad] with zeros, [lr] gives the two amounts per dimension. *)
Definition F_pad (lr : list (Z * Z)) (sizes : list Z) (x : idx -> R) : list Z * (idx -> R) :=
  (zip (fun m p => m + fst p + snd p) sizes lr,
   fun i => let i' := zip (fun a p => a - fst p) i lr in if in_range sizes i' then x i' else 0%R).
(** All multi-indices of a box. *)
Fixpoint box (sizes : list Z) : list idx :=
  match sizes with
  | [] => [[]]
  | m :: sizes' => flat_map (fun a => map (cons (Z.of_nat a)) (box sizes')) (seq 0 (Z.to_nat m))
  end.
Definition Rsum (l : list R) : R := fold_right Rplus 0%R l.
(** [F.conv*d] without padding; [None] when the kernel does not fit. *)
Definition conv (dims : list dim) (sizes : list Z) (x : idx -> R) (w : idx -> R) : option (list Z * (idx -> R)) :=
  if forallb (fun b => b) (zip (fun m e => (k e - 1) * d e + 1 <=? m) sizes dims) then
    Some (zip (fun m e => (m - (k e - 1) * d e - 1) / s e + 1) sizes dims,
          fun o => Rsum (map (fun kk => (w kk * x (zip Z.add (zip (fun a e => (a * s e)%Z) o dims) (zip (fun b e => (b * d e)%Z) kk dims)))%R) (box (map k dims))))
  else None.

(** ** conv1d / conv2d / conv3d _same_zeros_pad_stride.  [checked] says whether the pad of a
    dimension takes part in the [if pad_h > 0 or pad_w > 0] test: always, except for the depth
    of the 3-D version. *)
Definition same_conv (checked : list bool) (dims : list dim) (x w : idx -> R) : option (list Z * (idx -> R)) :=
  let lr := map (fun e => (pad e / 2, pad e - pad e / 2)) dims in
  let sizes := map n dims in
  if existsb (fun b => b) (zip (fun c e => c && (0 <? pad e)) checked dims)
  then let (sizes', x') := F_pad lr sizes x in conv dims sizes' x' w
  else conv dims sizes x w.
Definition conv1d_same (a : dim) := same_conv [true] [a].
Definition conv2d_same (a b : dim) := same_conv [true; true] [a; b].
Definition conv3d_same (a b c : dim) := same_conv [false; true; true] [a; b; c].
