(** Model of cross-layer equalization: src/brevitas/graph/equalize.py.

    Real arithmetic (powers occur).  A value is a function of channel and (flattened) position.
    The region walk (find_srcs, find_sinks, L753-870) is modelled for graphs without
    concatenations, so every offset is 0 and source and sink channels coincide.  Broadcasting
    additions and multi-head attention are not modelled. *)
From Verif Require Import BatchNorm.
From Coq Require Import Reals List Bool Arith Lra Lia.
Import ListNotations.
Open Scope R_scope.

Definition value := nat -> nat -> R.

(** A supported layer (L35-47).  [Lin]: linear and (transposed) convolution layers, output o at
    position p is the sum over input channels i and taps k of w o i k times the input at
    position [tap p k] (None: padding), plus b o (zero outside the n_out channels); grouped
    layers have zeros in w.
    [Norm]: batch and layer norm, a fixed normalisation followed by weight and bias. *)
Inductive module :=
| Lin (n_in n_out K : nat) (tap : nat -> nat -> option nat) (w : nat -> nat -> nat -> R) (b : nat -> R)
| Norm (n : nat) (h : value -> value) (w b : nat -> R).

Definition is_norm (m : module) : bool := match m with Norm _ _ _ _ => true | _ => false end.
Definition read (x : nat -> R) (q : option nat) : R := match q with Some p => x p | None => 0 end.

(** torch forward of a layer (external behaviour). *)
Definition fwd (m : module) (x : value) : value :=
  match m with
  | Lin n_in n_out K tap w b => fun o p =>
      if (o <? n_out)%nat
      then Rsum (map (fun i => Rsum (map (fun k => w o i k * read (x i) (tap p k)) (seq 0 K))) (seq 0 n_in)) + b o
      else 0
  | Norm _ h w b => fun c p => h x c p * w c + b c
  end.

(** L563-580: a source's weight and bias are multiplied by the inverse factors along the
    output axis. *)
Definition scale_src (s : nat -> R) (m : module) : module :=
  match m with
  | Lin n_in n_out K tap w b => Lin n_in n_out K tap (fun o i k => w o i k * / s o) (fun o => b o * / s o)
  | Norm n h w b => Norm n h (fun c => w c * / s c) (fun c => b c * / s c)
  end.
(** L581-601: a sink's weight is multiplied by the factors along the input axis. *)
Definition scale_sink (s : nat -> R) (m : module) : module :=
  match m with
  | Lin n_in n_out K tap w b => Lin n_in n_out K tap (fun o i k => w o i k * s i) b
  | Norm n h w b => Norm n h (fun c => w c * s c) b
  end.

(** Nodes of the traced graph.  [KInv f]: scale-invariant module or function with one operand,
    acting on each channel; [KMul]: product of two nodes (L65-71); [KAdd ins const]: sum of
    nodes and a Python constant (constants are not graph nodes); [KOther]: anything else,
    including graph outputs.  Placeholders are names without a node. *)
Inductive kind :=
| KLayer (m : nat) (inp : nat)
| KInv (f : (nat -> R) -> nat -> R) (inp : nat)
| KMul (a b : nat)
| KAdd (ins : list nat) (const : R)
| KOther (f : list value -> value) (ins : list nat).
Definition graph := list (nat * kind).
Definition modules := nat -> module.

Definition inputs (k : kind) : list nat :=
  match k with KLayer _ i => [i] | KInv _ i => [i] | KMul a b => [a; b] | KAdd ins _ => ins | KOther _ ins => ins end.

Definition vsum (vs : list value) : value := fun c p => Rsum (map (fun v => v c p) vs).
Definition eval_kind (M : modules) (e : nat -> value) (k : kind) : value :=
  match k with
  | KLayer m i => fwd (M m) (e i)
  | KInv f i => fun c => f (e i c)
  | KMul a b => fun c p => e a c p * e b c p
  | KAdd ins const => fun c p => vsum (map e ins) c p + const
  | KOther f ins => f (map e ins)
  end.
Fixpoint eval (g : graph) (M : modules) (e : nat -> value) : nat -> value :=
  match g with
  | [] => e
  | (i, k) :: g' => eval g' M (fun j => if j =? i then eval_kind M e k else e j)
  end.

Definition kind_of (g : graph) (n : nat) : option kind :=
  match find (fun x => fst x =? n) g with Some x => Some (snd x) | None => None end.
Definition users (g : graph) (n : nat) : list nat :=
  map fst (filter (fun x => existsb (Nat.eqb n) (inputs (snd x))) g).
Definition ins_of (g : graph) (n : nat) : list nat := match kind_of g n with Some k => inputs k | None => [] end.

(** L130-175 [WalkRegionState]: sources and sinks are recorded by module name; [bad] is the
    presence of _UNSUPPORTED_OP. *)
Record wstate := W { srcs : list nat; sinks : list nat; hist : list (nat * nat); bad : bool }.
Definition seen (st : wstate) (e : nat * nat) : bool :=
  existsb (fun x => (fst x =? fst e) && (snd x =? snd e))%nat (hist st).
Definition visit (st : wstate) (e : nat * nat) : wstate := W (srcs st) (sinks st) (e :: hist st) (bad st).
Definition add_src (m : nat) (st : wstate) : wstate := W (m :: srcs st) (sinks st) (hist st) (bad st).
Definition add_sink (m : nat) (st : wstate) : wstate := W (srcs st) (m :: sinks st) (hist st) (bad st).
Definition set_bad (st : wstate) : wstate := W (srcs st) (sinks st) (hist st) true.

Section Walk.
Variables (g : graph) (M : modules).

(** L753-800 [find_srcs] ([down] = false) and L803-870 [find_sinks] ([down] = true).  Every
    recursive call follows a newly recorded edge; running out of fuel marks the region as
    unsupported. *)
Fixpoint walk (fuel : nat) (down : bool) (n : nat) (st : wstate) : wstate :=
  match fuel with
  | O => set_bad st
  | S f =>
      if down then
        fold_left (fun st u =>
          if seen st (n, u) then st else
          let st := visit st (n, u) in
          match kind_of g u with
          | Some (KLayer m _) => if is_norm (M m) then set_bad st else add_sink m st
          | Some (KInv _ _) | Some (KMul _ _) => walk f true u st
          | Some (KAdd _ _) => walk f false u (walk f true u st)
          | _ => set_bad st
          end) (users g n) st
      else
        fold_left (fun st i =>
          if seen st (i, n) then st else
          let st := visit st (i, n) in
          match kind_of g i with
          | Some (KLayer m _) => walk f true i (add_src m st)
          | Some (KInv _ _) | Some (KMul _ _) | Some (KAdd _ _) => walk f false i (walk f true i st)
          | _ => set_bad st
          end) (ins_of g n) st
  end.

Definition n_edges : nat := fold_right (fun x s => length (inputs (snd x)) + s)%nat 0%nat g.

(** L873-905 [_extract_regions]: the region started at layer node [n]. *)
Definition region (n : nat) : option wstate :=
  match kind_of g n with
  | Some (KLayer m _) =>
      let st := walk (S n_edges) true n (W [m] [] [] false) in
      if negb (bad st) && negb (length (sinks st) =? 0)%nat then Some st else None
  | _ => None
  end.
End Walk.

(** L563-601: apply the factors of a region.  Sources and sinks are dictionaries keyed by
    module (and indexes), so each module is scaled once as a source and once as a sink. *)
Definition mem (m : nat) (l : list nat) : bool := existsb (Nat.eqb m) l.
Definition apply_region (st : wstate) (s : nat -> R) (M : modules) : modules := fun m =>
  let m1 := if mem m (srcs st) then scale_src s (M m) else M m in
  if mem m (sinks st) then scale_sink s m1 else m1.

(** L33, L545-554: the factor of one channel from the ranges of sources and sinks. *)
Definition EPSILON : R := / 1000000000.
Definition scaling_factor (alpha srcs_range sinks_range : R) : R :=
  let no_equalize := (if Rle_dec sinks_range EPSILON then true else false) || (if Rle_dec srcs_range EPSILON then true else false) in
  let sinks_range := if no_equalize then 1 else sinks_range in
  let srcs_range := if no_equalize then 1 else srcs_range in
  Rpower srcs_range alpha / Rpower sinks_range (1 - alpha).

(** L249-252 [_channel_maxabs] of a source (output axis) and of a sink (input axis), without
    bias merging. *)
Definition rmax (l : list R) : R := fold_right Rmax (-1) l.
Definition src_range (m : module) (c : nat) : R :=
  match m with
  | Lin n_in _ K _ w _ => rmax (flat_map (fun i => map (fun k => Rabs (w c i k)) (seq 0 K)) (seq 0 n_in))
  | Norm _ _ w _ => Rabs (w c)
  end.
Definition sink_range (m : module) (c : nat) : R :=
  match m with
  | Lin _ n_out K _ w _ => rmax (flat_map (fun o => map (fun k => Rabs (w o c k)) (seq 0 K)) (seq 0 n_out))
  | Norm _ _ w _ => Rabs (w c)
  end.
(** L482-515: maximum over the region, starting from -1. *)
Definition region_factors (alpha : R) (M : modules) (st : wstate) (c : nat) : R :=
  scaling_factor alpha (rmax (map (fun m => src_range (M m) c) (srcs st)))
                       (rmax (map (fun m => sink_range (M m) c) (sinks st))).

(** L612-638 [_equalize]: any number of passes over the extracted regions (the early exit on
    the threshold only shortens the list). *)
Definition equalize (alpha : R) (steps : list wstate) (M : modules) : modules :=
  fold_left (fun M st => apply_region st (region_factors alpha M st) M) steps M.

(** Scale-invariant operators of L49-71 on one channel. *)
Definition relu (x : nat -> R) : nat -> R := fun p => Rmax 0 (x p).
Definition leaky_relu (slope : R) (x : nat -> R) : nat -> R := fun p => if Rle_dec 0 (x p) then x p else slope * x p.
(** average pooling: positions [win p], divisor [div p] *)
Definition avg_pool (win : nat -> list nat) (div : nat -> R) (x : nat -> R) : nat -> R := fun p => Rsum (map x (win p)) / div p.
(** max pooling over a non-empty window q :: l *)
Definition max_pool (first : nat -> nat) (win : nat -> list nat) (x : nat -> R) : nat -> R :=
  fun p => fold_right Rmax (x (first p)) (map x (win p)).
(** identity, dropout at evaluation, nearest-neighbour interpolation, spatial indexing *)
Definition gather (pos : nat -> nat) (x : nat -> R) : nat -> R := fun p => x (pos p).
(** product with a Python constant *)
Definition mul_const (a : R) (x : nat -> R) : nat -> R := fun p => x p * a.
