(** Model of the quantization of a part of a weight: src/brevitas/nn/mixin/parameter.py
    [QuantWeightMixin.quant_weight], src/brevitas/core/utils.py [SliceTensor],
    src/brevitas/core/function_wrapper/learned_round.py [LearnedRoundSte] and its only user
    src/brevitas/graph/gpxq.py [GPxQ.get_quant_weights].

    A tensor is a shape and a function on multi-indices; only the values of quantized tensors are
    modelled.  The scale and zero point of the weight quantizer depend on the tracked (whole)
    weight only, so they are tensors here.  Slice bounds are not negative. *)
From Coq Require Import ZArith QArith List Bool Lia Arith.
From Verif Require Import QUtil Ops Gpxq.
Import ListNotations.
Open Scope nat_scope.

Record tens := T { shape : list nat; at_ : list nat -> Q }.

Fixpoint map2 {A B C : Type} (f : A -> B -> C) (l : list A) (m : list B) : list C :=
  match l, m with a :: l', b :: m' => f a b :: map2 f l' m' | _, _ => [] end.

(** ** Indexing with a tuple of slices *)
Definition slice_t := option (nat * nat).
Definition slice_len (d : nat) (s : slice_t) : nat := match s with Some (a, b) => min b d - min a d | None => d end.
Definition slice_pos (s : slice_t) (i : nat) : nat := match s with Some (a, _) => a + i | None => i end.
Definition pad_slices (n : nat) (sl : list slice_t) : list slice_t := sl ++ repeat None (n - length sl).
(** [x[slices]]: trailing dimensions without a slice are whole, too many slices raise. *)
Definition slice (sl : list slice_t) (x : tens) : option tens :=
  if length (shape x) <? length sl then None
  else let ps := pad_slices (length (shape x)) sl in
       Some (T (map2 slice_len (shape x) ps) (fun idx => at_ x (map2 slice_pos ps idx))).

(** ** Elementwise operations with broadcasting (torch) *)
Definition pad_ones (n : nat) (s : list nat) : list nat := repeat 1 (n - length s) ++ s.
Fixpoint zip_dims (a b : list nat) : option (list nat) :=
  match a, b with
  | x :: a', y :: b' =>
      match zip_dims a' b' with
      | Some r => if x =? y then Some (x :: r) else if x =? 1 then Some (y :: r) else if y =? 1 then Some (x :: r) else None
      | None => None
      end
  | _, _ => Some []
  end.
Definition bshape (a b : list nat) : option (list nat) :=
  let n := max (length a) (length b) in zip_dims (pad_ones n a) (pad_ones n b).
Definition bindex (s idx : list nat) : list nat :=
  map2 (fun d i => if d =? 1 then 0 else i) s (skipn (length idx - length s) idx).
Definition broadcast (f : Q -> Q -> Q) (x y : tens) : option tens :=
  match bshape (shape x) (shape y) with
  | Some sh => Some (T sh (fun idx => f (at_ x (bindex (shape x) idx)) (at_ y (bindex (shape y) idx))))
  | None => None
  end.
Definition tmap (f : Q -> Q) (x : tens) : tens := T (shape x) (fun idx => f (at_ x idx)).
Definition obind {A B : Type} (o : option A) (f : A -> option B) : option B :=
  match o with Some a => f a | None => None end.

(** ** The weight quantizer *)

(** Float-to-int function: elementwise, or learned rounding with its parameter; [p] is 0 or 1 in
    evaluation (value > 0) and the sigmoid of the value in training (learned_round.py L79-85). *)
Inductive f2i := FMode (m : rmode) | FLearned (p : tens).

(** learned_round.py L73-77 [LearnedRoundSte.forward] with the slices held by its SliceTensor
    (core/utils.py L96-109). *)
Definition float_to_int_t (f : f2i) (slicer : list slice_t) (x : tens) : option tens :=
  match f with
  | FMode m => Some (tmap (float_to_int m) x)
  | FLearned p =>
      obind (slice slicer p) (fun p => broadcast Qplus (tmap (fun v => inject_Z (floorZ v)) x) p)
  end.

Record wquant := WQ { q_f2i : f2i; q_signed : bool; q_narrow : bool; q_scale : tens; q_zp : tens; q_bw : Z }.

(** int_base.py L66-91 [IntQuant.forward] on tensors. *)
Definition int_quant_t (q : wquant) (slicer : list slice_t) (x : tens) : option tens :=
  obind (broadcast Qdiv x (q_scale q)) (fun y =>
  obind (broadcast Qplus y (q_zp q)) (fun y =>
  obind (float_to_int_t (q_f2i q) slicer y) (fun y =>
  let y := tmap (fun v => tensor_clamp v (inject_Z (min_int (q_signed q) (q_narrow q) (q_bw q)))
                                         (inject_Z (max_int (q_signed q) (q_narrow q) (q_bw q)))) y in
  obind (broadcast Qminus y (q_zp q)) (fun y =>
  broadcast Qmult y (q_scale q))))).

(** A layer with its weight quantizer.  [slicer_id] names the SliceTensor object of the current
    [tensor_quant] (one that is rebuilt is a new object), [slicer] is its attribute
    [subtensor_slice_list], [cached] the layer's [_cached_sub_tensor_slice_list_modules]. *)
Record layer := Layer {
  weight : tens; weight_orig : option tens; enabled : bool; requires_input : bool;
  quant : wquant; slicer_id : nat; slicer : list slice_t; cached : option (list nat) }.

Definition has_slicer (q : wquant) : bool := match q_f2i q with FLearned _ => true | FMode _ => false end.
Definition set_state (l : layer) (s : list slice_t) (c : option (list nat)) : layer :=
  Layer (weight l) (weight_orig l) (enabled l) (requires_input l) (quant l) (slicer_id l) s c.
(** Assign the attribute of the cached modules; objects that are no longer part of the quantizer
    are out of sight. *)
Definition assign (ids : list nat) (s : list slice_t) (l : layer) : layer :=
  set_state l (if existsb (Nat.eqb (slicer_id l)) ids then s else slicer l) (Some ids).

(** The quantizer called on [x] (parameter_quant.py L125-151; an input-aware quantizer asserts
    that it gets a quantized input). *)
Definition weight_quant (l : layer) (quant_input : bool) (x : tens) : option tens :=
  if requires_input l && negb quant_input then None
  else if enabled l then int_quant_t (quant l) (slicer l) x else Some x.

(** parameter.py L41-77 [quant_weight]: state afterwards and result, None for an exception. *)
Definition quant_weight (quant_input : bool) (subtensor_slice_list : option (list slice_t)) (l : layer)
  : layer * option tens :=
  let w := if negb (enabled l) then match weight_orig l with Some o => o | None => weight l end else weight l in
  match subtensor_slice_list with
  | None => (l, weight_quant l quant_input w)
  | Some sl =>
      let ids := match cached l with
                 | Some ids => ids
                 | None => if has_slicer (quant l) then [slicer_id l] else []
                 end in
      let l1 := assign ids sl l in
      match obind (slice sl w) (weight_quant l1 quant_input) with
      | Some out => (assign ids [None] l1, Some out)
      | None => (l1, None)
      end
  end.

(** quant_proxy.py L97-98 [init_tensor_quant] (also on loading a state dict, L139-140): new
    modules, and the cache of the layer is kept. *)
Definition init_tensor_quant (q : wquant) (l : layer) : layer :=
  Layer (weight l) (weight_orig l) (enabled l) (requires_input l) q (S (slicer_id l)) [None] (cached l).
(** A new value of the weight. *)
Definition set_weight (w : tens) (l : layer) : layer :=
  Layer w (weight_orig l) (enabled l) (requires_input l) (quant l) (slicer_id l) (slicer l) (cached l).

(** ** gpxq.py L259-315 [get_quant_weights] *)
Inductive lkind := Linear | Conv | ConvT12 | ConvT3.

(** [x.flatten(1)] as rows and columns, [x.transpose(1, 0)], and the column of a matrix viewed as
    (groups, rows / groups, columns). *)
Definition prod (l : list nat) : nat := fold_right Nat.mul 1 l.
Record mat2 := M2 { rows : nat; cols : nat; ent : nat -> nat -> Q }.
Definition flatten1 (x : tens) : mat2 :=
  M2 (hd 1 (shape x)) (prod (tl (shape x))) (fun r c => at_ x (r :: index_nd (tl (shape x)) c)).
Definition swap01 {A : Type} (l : list A) : list A := match l with a :: b :: r => b :: a :: r | _ => l end.
Definition transpose10 (x : tens) : tens := T (swap01 (shape x)) (fun idx => at_ x (swap01 idx)).

(** The result: groups, rows per group, entries. *)
Record gres := G { g_groups : nat; g_rows : nat; g_ent : nat -> nat -> Q }.

Definition get_quant_weights (k : lkind) (groups : nat) (act_order groupwise quant_input : bool) (l : layer)
    (permutation_list : list (list nat)) (i1 i : nat) : layer * option gres :=
  let i := i1 + i in
  let perm0 := nth i (nth 0 permutation_list []) 0 in
  match k with
  | Linear =>
      if groupwise then
        let '(l', o) := quant_weight quant_input None l in
        (l', option_map (fun q => G 1 (hd 1 (shape q)) (fun _ r => at_ q [r; perm0])) o)
      else
        let '(l', o) := quant_weight quant_input (Some [None; Some (perm0, perm0 + 1)]) l in
        (l', option_map (fun q => G 1 (hd 1 (shape q)) (fun _ r => at_ q [r; 0])) o)
  | _ =>
      if groupwise || (1 <? groups) || match k with ConvT12 => groups =? 1 | _ => false end then
        let '(l', o) := quant_weight quant_input None l in
        (l', obind o (fun q =>
          let q := match k with ConvT12 => transpose10 q | _ => q end in
          let m := flatten1 q in
          if rows m mod groups =? 0 then
            Some (G groups (rows m / groups) (fun g r =>
              let row := g * (rows m / groups) + r in
              if act_order then ent m row (nth i (nth g permutation_list []) 0) else ent m row i))
          else None))
      else
        let shapes := tl (shape (weight l)) in
        let sl := None :: map (fun j => Some (j, j + 1)) (index_nd shapes perm0) in
        let '(l', o) := quant_weight quant_input (Some sl) l in
        (l', option_map (fun q => G 1 (rows (flatten1 q)) (fun _ r => ent (flatten1 q) r 0)) o)
  end.
