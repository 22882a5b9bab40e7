(** Model of the group-wise (sub-channel block) views:
    src/brevitas/utils/torch_utils.py [padding],
    src/brevitas/core/function_wrapper/shape.py [OverSubChannelBlockView],
    [DynamicOverSubChannelBlockView], src/brevitas/quant/solver/parameter.py
    [SolveParameterScalingShape], src/brevitas/quant/solver/common.py and
    src/brevitas/quant/experimental/mx_quant_ocp.py [stats_reduce_dim],
    src/brevitas/quant_tensor/groupwise_int_quant_tensor.py [expand].

    A tensor is a shape with a function from index tuples to values, in row-major order as
    seen by torch's view / flatten. *)
From Verif Require Import QUtil.
Open Scope Q_scope.

Record tens := T { shape : list Z; at_ : list Z -> Q }.

(** Python list indexing and list.insert, with negative positions. *)
Definition py_pos (n : nat) (i : Z) : nat := Z.to_nat (if (i <? 0)%Z then Z.of_nat n + i else i).
Definition py_get (l : list Z) (i : Z) : Z := nth (py_pos (length l) i) l 0%Z.
Fixpoint set_nth {A} (k : nat) (a : A) (l : list A) : list A :=
  match l, k with
  | [], _ => []
  | _ :: l', O => a :: l'
  | b :: l', S k' => b :: set_nth k' a l'
  end.
Definition py_set (l : list Z) (i a : Z) : list Z := set_nth (py_pos (length l) i) a l.
Definition py_insert (l : list Z) (i a : Z) : list Z :=
  let k := Nat.min (py_pos (length l) i) (length l) in firstn k l ++ a :: skipn k l.

(** Row-major flattening of an index tuple and its inverse. *)
Fixpoint prodZ (l : list Z) : Z := match l with [] => 1%Z | a :: l' => (a * prodZ l')%Z end.
Fixpoint flat (sh idx : list Z) : Z :=
  match sh, idx with
  | _ :: sh', i :: idx' => (i * prodZ sh' + flat sh' idx')%Z
  | _, _ => 0%Z
  end.
Fixpoint unflat (sh : list Z) (n : Z) : list Z :=
  match sh with
  | [] => []
  | _ :: sh' => (n / prodZ sh')%Z :: unflat sh' (n mod prodZ sh')
  end.

(** torch.Tensor.view (external behaviour assumed); None: incompatible size. *)
Definition view (x : tens) (sh : list Z) : option tens :=
  if (prodZ (shape x) =? prodZ sh)%Z
  then Some (T sh (fun idx => at_ x (unflat (shape x) (flat sh idx))))
  else None.

(** torch.Tensor.flatten(d, d+1) (external behaviour assumed): merges two neighbouring
    dimensions. [d] may be negative. *)
Definition flatten2 (x : tens) (d : Z) : option tens :=
  let k := py_pos (length (shape x)) d in
  let sh := firstn k (shape x) ++ (nth k (shape x) 1 * nth (S k) (shape x) 1)%Z :: skipn (S (S k)) (shape x) in
  view x sh.

(** torch.nn.functional.pad, constant 0 (external behaviour assumed): the list gives (left,
    right) for the last dimension first. *)
Definition pad_left (pad : list Z) (n j : nat) : Z := nth (2 * (n - 1 - j)) pad 0%Z.
Definition pad_right (pad : list Z) (n j : nat) : Z := nth (2 * (n - 1 - j) + 1) pad 0%Z.
Definition f_pad (x : tens) (pad : list Z) : tens :=
  let n := length (shape x) in
  let dims := seq 0 n in
  T (map (fun j => (pad_left pad n j + nth j (shape x) 0 + pad_right pad n j)%Z) dims)
    (fun idx =>
       let src := map (fun j => (nth j idx 0 - pad_left pad n j)%Z) dims in
       if forallb (fun j => (0 <=? nth j src 0)%Z && (nth j src 0 <? nth j (shape x) 0)%Z) dims
       then at_ x src else 0).

(** utils/torch_utils.py L107-116 [padding]. *)
Definition padding (sh : list Z) (group_size group_dim : Z) : list Z :=
  let p := repeat 0%Z (2 * length sh) in
  let sz := py_get sh group_dim in
  let p := if (sz mod group_size =? 0)%Z then p
           else py_set p (2 * group_dim) (group_size - sz mod group_size) in
  rev p.

(** core/function_wrapper/shape.py L187-202 [DynamicOverSubChannelBlockView.forward].
    [int(a / g)]: the padded size is a multiple of g, so the quotient is exact. *)
Definition dynamic_view (group_size group_dim : Z) (x : tens) : option tens :=
  let x := f_pad x (padding (shape x) group_size group_dim) in
  let l := py_set (shape x) group_dim (py_get (shape x) group_dim / group_size) in
  let block_dim := if (group_dim =? -1)%Z then (-1)%Z else (group_dim + 1)%Z in
  let l := py_insert l block_dim group_size in
  view x l.

(** quant/solver/parameter.py L136-151 [expanded_groupwise_shape]. *)
Definition expanded_groupwise_shape (sh : list Z) (group_dim group_size : Z) : list Z :=
  let size := py_set sh group_dim ((py_get sh group_dim + group_size - 1) / group_size) in
  py_insert size (group_dim + 1) group_size.

(** core/function_wrapper/shape.py L166-176 [OverSubChannelBlockView.forward]. *)
Definition static_view (expanded : list Z) (group_size group_dim : Z) (x : tens) : option tens :=
  if Nat.eqb (length (shape x)) (length expanded) then Some x
  else view (f_pad x (padding (shape x) group_size group_dim)) expanded.

(** Statistics over one dimension with keepdim (scaling_stats_impl of a group-wise
    quantizer): [stat] of the values along dimension [d]; the result is read at index 0
    there, and broadcasting ([expand]) reads it for every index. *)
Definition reduce_keepdim (stat : list Q -> Q) (d : Z) (x : tens) : tens :=
  let k := py_pos (length (shape x)) d in
  T (set_nth k 1%Z (shape x))
    (fun idx => stat (map (fun r => at_ x (set_nth k (Z.of_nat r) idx)) (seq 0 (Z.to_nat (nth k (shape x) 0%Z))))).

(** quant/solver/common.py L175-181 [stats_reduce_dim] for weights, and
    mx_quant_ocp.py L60-66 for activations. *)
Definition reduce_dim_weight (group_dim : Z) : Z := (group_dim + 1)%Z.
Definition reduce_dim_act (group_dim : Z) : Z := if (group_dim =? -1)%Z then (-1)%Z else (group_dim + 1)%Z.

(** Quantization of the viewed tensor with the broadcast scale (the scale tensor has size one
    in the reduced dimension, so every index there reads the same entry). *)
Definition quantize_view (q : Q -> Q -> Q) (scale x : tens) : tens :=
  T (shape x) (fun idx => q (at_ scale idx) (at_ x idx)).

(** groupwise_int_quant_tensor.py L60-73 [expand] on the value and the (broadcast) scale. *)
Definition expand_start (group_dim : Z) : Z := if (group_dim =? -1)%Z then (-2)%Z else group_dim.
Definition gw_expand (group_dim : Z) (v : tens) : option tens := flatten2 v (expand_start group_dim).

Definition obind {A B} (o : option A) (f : A -> option B) : option B := match o with Some a => f a | None => None end.

(** A group-wise weight quantizer, from the weight to the (value, scale) of the resulting
    GroupwiseIntQuantTensor. *)
Definition groupwise_weight (stat : list Q -> Q) (q : Q -> Q -> Q) (group_size group_dim : Z) (w : tens) : option (tens * tens) :=
  obind (static_view (expanded_groupwise_shape (shape w) group_dim group_size) group_size group_dim w) (fun v =>
  let scale := reduce_keepdim stat (reduce_dim_weight group_dim) v in
  obind (gw_expand group_dim (quantize_view q scale v)) (fun value =>
  obind (gw_expand group_dim (T (shape v) (at_ scale))) (fun sc => Some (value, sc)))).

(** The same for activations (RuntimeDynamicGroupStatsScaling, core/scaling/runtime.py L172-205). *)
Definition groupwise_act (stat : list Q -> Q) (q : Q -> Q -> Q) (group_size group_dim : Z) (x : tens) : option (tens * tens) :=
  obind (dynamic_view group_size group_dim x) (fun v =>
  let scale := reduce_keepdim stat (reduce_dim_act group_dim) v in
  obind (gw_expand group_dim (quantize_view q scale v)) (fun value =>
  obind (gw_expand group_dim (T (shape v) (at_ scale))) (fun sc => Some (value, sc)))).
