(** Model of src/brevitas/quant_tensor/torch_handler.py, of the shape methods of
    src/brevitas/quant_tensor/int_quant_tensor.py, of [embedding_handler] of
    src/brevitas/quant_tensor/int_torch_handler.py and of src/brevitas/nn/quant_upsample.py: tensor
    operations that keep the quantization metadata.

    Tensors have shapes; metadata are tensors that broadcast.  The bit width is one number.  Values are
    rational numbers (floating-point error is the subject of C54 and C80).  Exceptions are [None].  The
    torch operations themselves are modelled below as torch documents them. *)
From Verif Require Import QUtil Ops QuantTensor.
Open Scope nat_scope.

Record tensor (A : Type) := T { shape : list nat; at_ : list nat -> A }.
Arguments T {A}. Arguments shape {A}. Arguments at_ {A}.
Definition prod (s : list nat) : nat := fold_right Nat.mul 1 s.
(** All indices of a shape, in row-major order. *)
Fixpoint indices (s : list nat) : list (list nat) :=
  match s with [] => [[]] | n :: s => flat_map (fun i => map (cons i) (indices s)) (seq 0 n) end.

(** ** Broadcasting *)
Definition bidx (s idx : list nat) : list nat :=
  map (fun p => if fst p =? 1 then 0 else snd p) (combine s (skipn (length idx - length s) idx)).
Fixpoint bzip (a b : list nat) : option (list nat) :=
  match a, b with
  | [], l | l, [] => Some l
  | x :: a, y :: b =>
      match bzip a b with
      | None => None
      | Some r => if x =? y then Some (x :: r) else if x =? 1 then Some (y :: r) else if y =? 1 then Some (x :: r) else None
      end
  end.
Definition bshape (a b : list nat) : option (list nat) := option_map (@rev nat) (bzip (rev a) (rev b)).
Definition binop (f : Q -> Q -> Q) (a b : tensor Q) : option (tensor Q) :=
  match bshape (shape a) (shape b) with
  | None => None
  | Some s => Some (T s (fun i => f (at_ a (bidx (shape a) i)) (at_ b (bidx (shape b) i))))
  end.

(** base_quant_tensor.py L98-104 [IntQuantTensorBase] (the training flag is left out). *)
Record qtensor := QT { value : tensor Q; scale : tensor Q; zero_point : tensor Q; bit_width : Z; signed : bool }.
(** base_quant_tensor.py L36-37 [set] *)
Definition set_value (q : qtensor) (v : tensor Q) : qtensor := QT v (scale q) (zero_point q) (bit_width q) (signed q).
(** int_quant_tensor.py L62-73 [_pre_round_int_value] *)
Definition pre_round (q : qtensor) : option (tensor Q) :=
  match binop Qdiv (value q) (scale q) with Some t => binop Qplus t (zero_point q) | None => None end.
(** L75-98 [is_valid]; as in QuantTensor.v, but on shaped tensors.  [None]: metadata that do not broadcast. *)
Definition is_valid (q : qtensor) : option bool :=
  match pre_round q with
  | None => None
  | Some p => Some (QuantTensor.is_valid {| qt_value := map (at_ p) (indices (shape p)); qt_scale := 1; qt_zp := 0;
                      qt_bw := bit_width q; qt_signed := signed q; qt_training := false |})
  end.
(** L110-128 [int] with float_datatype=True. *)
Definition int_ (q : qtensor) : option (tensor Z) :=
  match is_valid q, pre_round q with
  | Some true, Some p => Some (T (shape p) (fun i => roundZ (at_ p i)))
  | _, _ => None
  end.

(** ** torch operations: reshaping *)
Fixpoint ravel (s idx : list nat) : nat :=
  match s, idx with _ :: s, i :: idx => i * prod s + ravel s idx | _, _ => 0 end.
Fixpoint unravel (s : list nat) (k : nat) : list nat :=
  match s with [] => [] | _ :: s => k / prod s :: unravel s (k mod prod s) end.
Definition reshape_to {A} (s : list nat) (t : tensor A) : option (tensor A) :=
  if prod s =? prod (shape t) then Some (T s (fun i => at_ t (unravel (shape t) (ravel s i)))) else None.
(** A dimension -1 is inferred. *)
Definition infer (dims : list Z) (n : nat) : option (list nat) :=
  let rest := prod (map Z.to_nat (filter (fun d => negb (d =? -1)%Z) dims)) in
  if existsb (fun d => d <? -1)%Z dims then None else
  match filter (fun d => d =? -1)%Z dims with
  | [] => Some (map Z.to_nat dims)
  | [_] => if (rest =? 0) || negb (n mod rest =? 0) then None
           else Some (map (fun d => if (d =? -1)%Z then n / rest else Z.to_nat d) dims)
  | _ => None
  end.
Definition reshape_t {A} (dims : list Z) (t : tensor A) : option (tensor A) :=
  match infer dims (prod (shape t)) with Some s => reshape_to s t | None => None end.
(** A dimension counted from the end; a tensor without dimensions counts as having one. *)
Definition norm_dim (d : Z) (rank : nat) : option nat :=
  let r := Z.of_nat (Nat.max rank 1) in
  if (- r <=? d)%Z && (d <? r)%Z then Some (Z.to_nat (if (d <? 0)%Z then d + r else d)) else None.
Definition flatten_t {A} (start end_ : Z) (t : tensor A) : option (tensor A) :=
  match norm_dim start (length (shape t)), norm_dim end_ (length (shape t)) with
  | Some a, Some b =>
      if b <? a then None
      else reshape_to (firstn a (shape t) ++ [prod (firstn (b + 1 - a) (skipn a (shape t)))] ++ skipn (b + 1) (shape t)) t
  | _, _ => None
  end.

(** ** torch operations: permuting dimensions *)
Definition gather (p l : list nat) : list nat := map (fun i => nth i l 0) p.
Fixpoint index_of (j : nat) (p : list nat) : nat := match p with [] => 0 | x :: p => if x =? j then 0 else S (index_of j p) end.
Definition permute_n {A} (p : list nat) (t : tensor A) : tensor A :=
  T (gather p (shape t)) (fun i => at_ t (map (fun j => nth (index_of j p) i 0) (seq 0 (length p)))).
Fixpoint map_opt {A B} (f : A -> option B) (l : list A) : option (list B) :=
  match l with [] => Some [] | x :: l => match f x, map_opt f l with Some y, Some r => Some (y :: r) | _, _ => None end end.
Definition is_perm (p : list nat) (n : nat) : bool := (length p =? n) && forallb (fun i => existsb (Nat.eqb i) p) (seq 0 n).
Definition permute_t {A} (dims : list Z) (t : tensor A) : option (tensor A) :=
  let n := length (shape t) in
  match map_opt (fun d => norm_dim d n) dims with
  | Some p => if is_perm p n then Some (permute_n p t) else None
  | None => None
  end.
Definition swap (a b i : nat) : nat := if i =? a then b else if i =? b then a else i.
Definition transpose_t {A} (d0 d1 : Z) (t : tensor A) : option (tensor A) :=
  let n := length (shape t) in
  match norm_dim d0 n, norm_dim d1 n with
  | Some a, Some b => Some (permute_n (map (swap a b) (seq 0 n)) t)
  | _, _ => None
  end.

(** ** torch operations: values *)
Definition tmap {A B} (f : A -> B) (t : tensor A) : tensor B := T (shape t) (fun i => f (at_ t i)).
Definition relu (x : Q) : Q := if Qle_bool 0 x then x else 0%Q.
Definition hardtanh (lo hi x : Q) : Q := if Qlt_bool x lo then lo else if Qlt_bool hi x then hi else x.
Definition relu6 : Q -> Q := hardtanh 0 6.
(** dropout, dropout2d, dropout3d with the random mask [keep]. *)
Definition dropout_t (training : bool) (p : Q) (keep : list nat -> bool) (t : tensor Q) : tensor Q :=
  if training then T (shape t) (fun i => if keep i then (at_ t i / (1 - p))%Q else 0%Q) else t.
(** F.pad in mode constant: pairs (before, after) from the last dimension on. *)
Definition pads_of (rank : nat) (pads : list (Z * Z)) : list (Z * Z) := repeat (0, 0)%Z (rank - length pads) ++ rev pads.
Definition pad_src (ps : list (Z * Z)) (idx : list nat) : list Z := map (fun x => (Z.of_nat (snd x) - fst (fst x))%Z) (combine ps idx).
Definition inside (s : list nat) (src : list Z) : bool := forallb (fun x => (0 <=? snd x)%Z && (snd x <? Z.of_nat (fst x))%Z) (combine s src).
Definition pad_t {A} (pads : list (Z * Z)) (c : A) (t : tensor A) : option (tensor A) :=
  let ps := pads_of (length (shape t)) pads in
  let size x := (Z.of_nat (fst x) + fst (snd x) + snd (snd x))%Z in
  if (length (shape t) <? length pads) || existsb (fun x => size x <? 0)%Z (combine (shape t) ps) then None
  else Some (T (map (fun x => Z.to_nat (size x)) (combine (shape t) ps))
               (fun i => let src := pad_src ps i in if inside (shape t) src then at_ t (map Z.to_nat src) else c)).
(** Max pooling over the last dimensions: each has an output size and windows of input positions.  torch
    gives -inf for an empty window, here 0. *)
Definition Qmaxb (a b : Q) : Q := if Qle_bool a b then b else a.
Definition maxl {A} (mx : A -> A -> A) (z : A) (l : list A) : A := match l with [] => z | x :: l => fold_left mx l x end.
Fixpoint products (ls : list (list nat)) : list (list nat) :=
  match ls with [] => [[]] | l :: ls => flat_map (fun i => map (cons i) (products ls)) l end.
Definition lead {A} (n : nat) (l : list A) : list A := firstn (length l - n) l.
Definition trail {A} (n : nat) (l : list A) : list A := skipn (length l - n) l.
Definition zipw (ws : list (nat * (nat -> list nat))) (idx : list nat) : list (list nat) := map (fun x => snd (fst x) (snd x)) (combine ws idx).
Definition pool_t {A} (mx : A -> A -> A) (z : A) (ws : list (nat * (nat -> list nat))) (t : tensor A) : tensor A :=
  let n := length ws in
  T (lead n (shape t) ++ map fst ws) (fun i => maxl mx z (map (fun src => at_ t (lead n i ++ src)) (products (zipw ws (trail n i))))).
(** Windows of max_pool: kernel, stride, padding, dilation; torch refuses a padding above half of the
    kernel. *)
Record pool_dim := PD { kernel : nat; stride : nat; padding : nat; dilation : nat }.
Definition window (n : nat) (d : pool_dim) (i : nat) : list nat :=
  map Z.to_nat (filter (fun p => (0 <=? p)%Z && (p <? Z.of_nat n)%Z) (map (fun j => (Z.of_nat (i * stride d) - Z.of_nat (padding d) + Z.of_nat (j * dilation d))%Z) (seq 0 (kernel d)))).
Definition pool_size (ceil : bool) (n : nat) (d : pool_dim) : nat :=
  let span := (Z.of_nat n + 2 * Z.of_nat (padding d) - Z.of_nat (dilation d) * (Z.of_nat (kernel d) - 1) - 1)%Z in
  let out := ((span + (if ceil then Z.of_nat (stride d) - 1 else 0)) / Z.of_nat (stride d) + 1)%Z in
  Z.to_nat (if ceil && (Z.of_nat n + Z.of_nat (padding d) <=? (out - 1) * Z.of_nat (stride d))%Z then out - 1 else out).
Definition pool_ok (d : pool_dim) : bool := (1 <=? kernel d) && (1 <=? stride d) && (1 <=? dilation d) && (2 * padding d <=? kernel d).
Definition max_pool_t (ceil : bool) (ds : list pool_dim) (t : tensor Q) : option (tensor Q) :=
  let dims := trail (length ds) (shape t) in
  let ws := map (fun x => (pool_size ceil (fst x) (snd x), window (fst x) (snd x))) (combine dims ds) in
  if (length (shape t) <=? length ds) || negb (forallb pool_ok ds) || existsb (Nat.eqb 0) dims || existsb (fun w => fst w =? 0) ws then None else Some (pool_t Qmaxb 0%Q ws t).
(** Windows of adaptive max pooling. *)
Definition adaptive (n out i : nat) : list nat := let a := i * n / out in seq a ((i * n + n + out - 1) / out - a).
Definition adaptive_max_pool_t (outs : list nat) (t : tensor Q) : option (tensor Q) :=
  let dims := trail (length outs) (shape t) in
  if (length (shape t) <=? length outs) || existsb (Nat.eqb 0) outs || existsb (Nat.eqb 0) dims then None
  else Some (pool_t Qmaxb 0%Q (map (fun x => (snd x, adaptive (fst x) (snd x))) (combine dims outs)) t).
(** Interpolation over the last dimensions: each output position is a weighted sum of input positions. *)
Definition interp_t (outs : list nat) (weights : list nat -> list (Q * list nat)) (t : tensor Q) : tensor Q :=
  let n := length outs in
  T (lead n (shape t) ++ outs)
    (fun i => fold_right (fun x a => (fst x * at_ t (lead n i ++ snd x) + a)%Q) 0%Q (weights (trail n i))).
(** Mode nearest: per dimension an output size and the ratio of input to output. *)
Definition nearest (n : nat) (ratio : Q) (i : nat) : nat := Nat.min (Z.to_nat (Qfloor (inject_Z (Z.of_nat i) * ratio))) (n - 1).
Definition nearest_t {A} (ds : list (nat * Q)) (t : tensor A) : tensor A :=
  let n := length ds in
  T (lead n (shape t) ++ map fst ds)
    (fun i => at_ t (lead n i ++ map (fun x => nearest (fst (fst x)) (snd (snd (fst x))) (snd x)) (combine (combine (trail n (shape t)) ds) (trail n i)))).
(** pixel_shuffle and pixel_unshuffle on the last three dimensions. *)
Definition pixel_shuffle_t {A} (r : nat) (t : tensor A) : option (tensor A) :=
  match trail 3 (shape t) with
  | [c; h; w] =>
      if (r =? 0) || negb (c mod (r * r) =? 0) then None
      else Some (T (lead 3 (shape t) ++ [c / (r * r); h * r; w * r])
                   (fun i => match trail 3 i with
                             | [oc; oh; ow] => at_ t (lead 3 i ++ [oc * (r * r) + (oh mod r) * r + ow mod r; oh / r; ow / r])
                             | _ => at_ t i
                             end))
  | _ => None
  end.
Definition pixel_unshuffle_t {A} (r : nat) (t : tensor A) : option (tensor A) :=
  match trail 3 (shape t) with
  | [c; h; w] =>
      if (r =? 0) || negb (h mod r =? 0) || negb (w mod r =? 0) then None
      else Some (T (lead 3 (shape t) ++ [c * (r * r); h / r; w / r])
                   (fun i => match trail 3 i with
                             | [oc; oh; ow] => at_ t (lead 3 i ++ [oc / (r * r); oh * r + (oc mod (r * r)) / r; ow * r + oc mod r])
                             | _ => at_ t i
                             end))
  | _ => None
  end.
(** F.embedding: rows of the table. *)
Definition embedding_t {A} (idx : tensor nat) (w : tensor A) : option (tensor A) :=
  match shape w with
  | [num; dim] =>
      if forallb (fun i => at_ idx i <? num) (indices (shape idx))
      then Some (T (shape idx ++ [dim]) (fun i => at_ w (at_ idx (lead 1 i) :: trail 1 i)))
      else None
  | _ => None
  end.

(** ** The handlers
    torch_handler.py L32-34 [quant_invariant_handler] *)
Definition quant_invariant_handler (fn : tensor Q -> option (tensor Q)) (q : qtensor) : option qtensor := option_map (set_value q) (fn (value q)).
(** int_quant_tensor.py L160-167 [view], [reshape], [flatten]; torch_handler.py L37-44. *)
Definition view (dims : list Z) (q : qtensor) : option qtensor := option_map (set_value q) (reshape_t dims (value q)).
Definition reshape := view.
Definition flatten (start end_ : Z) (q : qtensor) : option qtensor := option_map (set_value q) (flatten_t start end_ (value q)).
(** L169-185 [transpose], [permute]; torch_handler.py L47-49. *)
Definition move_meta (f : forall A, tensor A -> option (tensor A)) (q : qtensor) : option qtensor :=
  match f Q (value q) with
  | None => None
  | Some v =>
      let meta m := if length (shape v) =? length (shape m) then f Q m else Some m in
      match meta (scale q), meta (zero_point q) with
      | Some s, Some z => Some (QT v s z (bit_width q) (signed q))
      | _, _ => None
      end
  end.
Definition transpose (d0 d1 : Z) : qtensor -> option qtensor := move_meta (fun A => @transpose_t A d0 d1).
Definition permute (dims : list Z) : qtensor -> option qtensor := move_meta (fun A => @permute_t A dims).
(** torch_handler.py L52-120 and L153-160 *)
Definition pad_handler (pads : list (Z * Z)) (c : Q) := quant_invariant_handler (pad_t pads c).
Definition relu_qt_handler := quant_invariant_handler (fun t => Some (tmap relu t)).
Definition relu6_qt_handler := quant_invariant_handler (fun t => Some (tmap relu6 t)).
Definition hardtanh_qt_handler (lo hi : Q) := quant_invariant_handler (fun t => Some (tmap (hardtanh lo hi) t)).
Definition dropout_handler (training : bool) (p : Q) (keep : list nat -> bool) := quant_invariant_handler (fun t => Some (dropout_t training p keep t)).
Definition max_pool_handler (ceil : bool) (ds : list pool_dim) := quant_invariant_handler (max_pool_t ceil ds).
Definition adaptive_max_pool_handler (outs : list nat) := quant_invariant_handler (adaptive_max_pool_t outs).
Definition pixel_shuffle_handler (r : nat) := quant_invariant_handler (pixel_shuffle_t r).
Definition pixel_unshuffle_handler (r : nat) := quant_invariant_handler (pixel_unshuffle_t r).
(** L123-150 [interpolate_handler]: only mode nearest keeps the metadata ([inl]). *)
Inductive mode := Nearest (ds : list (nat * Q)) | Weighted (outs : list nat) (weights : list nat -> list (Q * list nat)).
Definition interpolate_v (m : mode) (t : tensor Q) : tensor Q :=
  match m with Nearest ds => nearest_t ds t | Weighted outs w => interp_t outs w t end.
Definition interpolate_handler (m : mode) (q : qtensor) : qtensor + tensor Q :=
  match m with
  | Nearest _ => inl (set_value q (interpolate_v m (value q)))
  | Weighted _ _ => inr (interpolate_v m (value q))
  end.
(** int_torch_handler.py L75-92 [embedding_handler] *)
Definition embedding_handler (idx : tensor nat) (w : qtensor) : option qtensor :=
  match embedding_t idx (value w) with
  | None => None
  | Some v => if (1 <? prod (shape (scale w))) || (1 <? prod (shape (zero_point w))) then None else Some (set_value w v)
  end.
(** nn/quant_upsample.py L38-51, L70-81, L101-109: interpolated values are rounded to the scale, unless
    the mode is nearest.  The input is a quantized tensor. *)
Definition upsample (m : mode) (q : qtensor) : option qtensor :=
  let y := interpolate_v m (value q) in
  match m with
  | Nearest _ => Some (set_value q y)
  | Weighted _ _ =>
      match binop Qdiv y (scale q) with
      | None => None
      | Some d => option_map (set_value q) (binop Qmult (tmap (fun x => inject_Z (roundZ x)) d) (scale q))
      end
  end.
