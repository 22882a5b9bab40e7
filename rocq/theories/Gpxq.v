(** Model of the greedy weight calibration algorithms GPTQ, GPFQ and GPFQv2:
    src/brevitas/graph/{gpxq,gptq,gpfq}.py.

    One convolution group at a time (groups never interact); matrices are index functions, rows
    are output channels, columns the flattened input channels.  Arithmetic is exact (the casts to
    float32 are not modelled).  [quant W r c] is the value [quant_weight] gives entry (r, c) when
    the layer currently holds the weights [W]; it may depend on the whole matrix because the
    scale can be computed from it. *)
From Coq Require Import Reals List Bool Arith.
Import ListNotations.
Open Scope R_scope.

Fixpoint sum (n : nat) (f : nat -> R) : R := match n with O => 0 | S k => sum k f + f k end.
Definition lsum {A} (f : A -> R) (l : list A) : R := fold_right (fun a s => f a + s) 0 l.
Definition mat := nat -> nat -> R.

(** ** gptq.py *)

(** L189-194 of [update_batch].  A batch is its size [inp.shape[0]] and the list of processed
    sample vectors (the columns of [inp_processed]: one per row for linear layers, one per patch
    for convolutions). *)
Record batch := B { size : nat; samples : list (nat -> R) }.
Definition update_batch (st : nat * mat) (b : batch) : nat * mat :=
  let (ns, H) := st in
  let ns' := (ns + size b)%nat in
  (ns', fun i j => H i j * (INR ns / INR ns')
                   + lsum (fun x => (sqrt (2 / INR ns') * x i) * (sqrt (2 / INR ns') * x j)) (samples b)).
Definition hessian (bs : list batch) : nat * mat := fold_left update_batch bs (0%nat, fun _ _ => 0).

(** L231-235: unit diagonal for dead inputs, and their weights zeroed. *)
Definition dead (H : mat) (i : nat) : bool := if Req_EM_T (H i i) 0 then true else false.
Definition fix_dead (H : mat) : mat := fun i j => if (i =? j)%nat && dead H i then 1 else H i j.
Definition zero_dead (H W : mat) : mat := fun r c => if dead H c then 0 else W r c.
(** L249-251: damping by [percdamp] times the mean of the diagonal. *)
Definition damp (percdamp : R) (n : nat) (H : mat) : mat := fun i j =>
  if (i =? j)%nat then H i j + percdamp * (sum n (fun k => H k k) / INR n) else H i j.

Section update.
Variable quant : mat -> nat -> nat -> R.
(** [perm] is the permutation of L238-244, [pos] its inverse, [h] is [h_inv]. *)
Variables perm pos : nat -> nat.
Variable h : mat.
Variable n : nat.

(** L277-280: error of the column at position [p]. *)
Definition err (W : mat) (p r : nat) : R := (W r (perm p) - quant W r (perm p)) / h p p.
(** L282-285: the columns at positions [p] to [i2 - 1] are updated. *)
Definition step (i2 p : nat) (W : mat) : mat := fun r c =>
  if ((p <=? pos c) && (pos c <? i2))%nat then W r c - err W p r * h p (pos c) else W r c.
(** L273-285: the columns of one block, recording the errors. *)
Fixpoint inner (i2 p k : nat) (W E : mat) : mat * mat :=
  match k with
  | O => (W, E)
  | S k' => inner i2 (S p) k' (step i2 p W) (fun p' r => if (p' =? p)%nat then err W p r else E p' r)
  end.
(** L287-291: all columns after the block. *)
Definition flush (i1 i2 : nat) (W E : mat) : mat := fun r c =>
  if ((i2 <=? pos c) && (pos c <? n))%nat
  then W r c - sum (i2 - i1) (fun i => E (i1 + i)%nat r * h (i1 + i)%nat (pos c)) else W r c.
(** L266-291. *)
Fixpoint blocks (bs fuel i1 : nat) (W : mat) : mat :=
  match fuel with
  | O => W
  | S fuel' =>
      if (i1 <? n)%nat then
        let i2 := Nat.min (i1 + bs) n in
        let (W', E) := inner i2 i1 (i2 - i1) W (fun _ _ => 0) in
        blocks bs fuel' (i1 + bs) (flush i1 i2 W' E)
      else W
  end.
Definition gptq (bs : nat) (W : mat) : mat := blocks bs n 0 W.

(** ** gpfq.py *)

(** L256-283 of [GPFQ.single_layer_update].  [X s c] and [Xq s c] are the float and quantized
    inputs ([m] samples), the state is the residual [U r s] and the weights. *)
Variables X Xq : mat.
Variable m : nat.
Definition dot (f g : nat -> R) : R := sum m (fun s => f s * g s).
Definition q_arg (U : mat) (c r : nat) : R :=
  let norm := dot (fun s => Xq s c) (fun s => Xq s c) in
  if Rlt_dec 0 norm then dot (U r) (fun s => Xq s c) / norm else 0.
Definition gpfq_step (t : nat) (st : mat * mat) : mat * mat :=
  let (U, W) := st in
  let c := perm t in
  let U1 := fun r s => U r s + W r c * X s c in
  let W1 := fun r c' => if (c' =? c)%nat then q_arg U1 c r else W r c' in
  (fun r s => U1 r s - quant W1 r c * Xq s c, W1).
Definition gpfq (W : mat) : mat * mat := fold_left (fun st t => gpfq_step t st) (seq 0 n) ((fun _ _ => 0), W).

(** L444-473 of [GPFQv2.single_layer_update]: [F] and [S] play the float and quantized inputs
    and the norms are given. *)
Definition gpfq2_step (F S : mat) (norms : nat -> R) (t : nat) (st : mat * mat) : mat * mat :=
  let (U, W) := st in
  let c := perm t in
  let U1 := fun r s => U r s + W r c * F s c in
  let W1 := fun r c' => if (c' =? c)%nat
                        then (if Rlt_dec 0 (norms c) then sum n (fun s => U1 r s * S s c) / norms c else 0)
                        else W r c' in
  (fun r s => U1 r s - quant W1 r c * S s c, W1).
Definition gpfq2 (F S : mat) (norms : nat -> R) (W : mat) : mat * mat :=
  fold_left (fun st t => gpfq2_step F S norms t st) (seq 0 n) ((fun _ _ => 0), W).
End update.

(** L337-360 of [GPFQv2.update_batch]: the covariance matrices, normalised by the number of
    channels [n]. *)
Definition covH (n m : nat) (Xq : mat) : mat := fun i j => sum m (fun s => (sqrt (2 / INR n) * Xq s i) * (sqrt (2 / INR n) * Xq s j)).
Definition covG (n m : nat) (X Xq : mat) : mat := fun i j => sum m (fun s => (sqrt (2 / INR n) * Xq s i) * (sqrt (2 / INR n) * X s j)).
Definition matmul (n : nat) (A B : mat) : mat := fun i j => sum n (fun k => A i k * B k j).

(** ** gpfq.py L199-207: the sampled rows for one batch of a convolution; [None] is an index
    error. *)
Definition select {A} (rand : list nat) (rows : list A) : option (list A) :=
  let indexes := if (length rows <? list_max rand)%nat
                 then filter (fun i => i <? length rows)%nat rand else rand in
  if forallb (fun i => i <? length rows)%nat indexes
  then Some (flat_map (fun i => match nth_error rows i with Some a => [a] | None => [] end) indexes) else None.

(** ** Views (gptq.py L204-229, gpfq.py L219-224)

    A tensor is a list of (size, stride) pairs.  [flatten(1)] returns a view when the trailing
    dimensions can be merged, otherwise a copy; only writes through a view reach the layer. *)
Definition layout := list (nat * nat).
Fixpoint contiguous (shape : list nat) : layout :=
  match shape with [] => [] | d :: rest => (d, fold_right Nat.mul 1%nat rest) :: contiguous rest end.
(** Merge a list of dimensions into one; dimensions of size 1 do not matter.  The result is the
    stride of the merged dimension. *)
Fixpoint mergeable (l : layout) : bool :=
  match l with
  | (d1, s1) :: (((d2, s2) :: _) as rest) => (s1 =? d2 * s2)%nat && mergeable rest
  | _ => true
  end.
Definition squeeze (l : layout) : layout := filter (fun ds => negb (fst ds =? 1)%nat) l.
Definition flatten_is_view (l : layout) : bool :=
  match l with [] => true | _ :: rest => mergeable (squeeze rest) end.
Definition transpose01 (l : layout) : layout := match l with a :: b :: rest => b :: a :: rest | _ => l end.
(** Weights [layer.weight.data] after the update, when the algorithm turns [w] into [w']. *)
Definition written_back {A} (transposed : bool) (shape : list nat) (w w' : A) : A :=
  let l := if transposed then transpose01 (contiguous shape) else contiguous shape in
  if flatten_is_view l then w' else w.

(** gpxq.py L281-287: the index of one column of the flattened matrix, per dimension
    [shapes = weight.shape[1:]]. *)
Fixpoint residual (shapes_rev : list nat) (i : nat) : list nat :=
  match shapes_rev with [] => [] | d :: rest => (i mod d)%nat :: residual rest (i / d) end.
Definition index_nd (shapes : list nat) (i : nat) : list nat := rev (residual (rev shapes) i).
