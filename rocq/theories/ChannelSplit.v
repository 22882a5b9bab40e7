(** Model of channel splitting: src/brevitas/graph/channel_splitting.py.

    Layers, graphs and regions are those of Equalize.v (Lin layers have groups = 1 here: grouped
    layers, norms and sink attention layers are rejected by [_is_supported]). *)
From Verif Require Import BatchNorm Equalize.
From Coq Require Import Reals List Bool Arith Lra Lia.
Import ListNotations.
Open Scope R_scope.

Fixpoint set_nth {A} (k : nat) (v : A) (l : list A) : list A :=
  match l, k with
  | [], _ => []
  | _ :: l', O => v :: l'
  | x :: l', S k' => x :: set_nth k' v l'
  end.

(** L84-95: the loop body on the list of channels, [sc] multiplies one channel by the split
    factor: scale channel [id] in place and append a copy of it. *)
Definition split1 {A} (dflt : A) (sc : A -> A) (rows : list A) (id : nat) : list A :=
  let r := sc (nth id rows dflt) in set_nth id r rows ++ [r].

(** L60-113 [_split_channels].  Output split: rows of the weight with their bias entries.
    Input split: columns of the weight, the bias is untouched. *)
Definition split_channels (ids : list nat) (split_input : bool) (f : R) (m : module) : module :=
  match m with
  | Norm _ _ _ _ => m
  | Lin n_in n_out K tap w b =>
      if split_input then
        let cols := fold_left (split1 (fun _ _ => 0) (fun c o k => c o k * f)) ids
                      (map (fun i o k => w o i k) (seq 0 n_in)) in
        Lin (n_in + length ids) n_out K tap (fun o i k => nth i cols (fun _ _ => 0) o k) b
      else
        let rows := fold_left (split1 ((fun _ _ => 0), 0) (fun r => ((fun i k => fst r i k * f), snd r * f))) ids
                      (map (fun o => (w o, b o)) (seq 0 n_out)) in
        Lin n_in (n_out + length ids) K tap (fun o => fst (nth o rows ((fun _ _ => 0), 0)))
            (fun o => snd (nth o rows ((fun _ _ => 0), 0)))
  end.

(** L115-135 [_split_channels_region]: which side is halved and which is duplicated. *)
Definition split_region (st : wstate) (ids : list nat) (split_input : bool) (M : modules) : modules := fun m =>
  if split_input then
    let m1 := if mem m (sinks st) then split_channels ids true (/ 2) (M m) else M m in
    if mem m (srcs st) then split_channels ids false 1 m1 else m1
  else
    let m1 := if mem m (srcs st) then split_channels ids false (/ 2) (M m) else M m in
    if mem m (sinks st) then split_channels ids true 1 m1 else m1.

(** L151-177 [_is_supported] for a region: no norms; all sources have as many output channels
    as all sinks have input channels. *)
Definition n_out_of (m : module) : option nat := match m with Lin _ n _ _ _ _ => Some n | Norm _ _ _ _ => None end.
Definition n_in_of (m : module) : option nat := match m with Lin n _ _ _ _ _ => Some n | Norm _ _ _ _ => None end.
Definition is_n (o : option nat) (n : nat) : bool := match o with Some k => (k =? n)%nat | None => false end.
Definition supported (M : modules) (st : wstate) (n : nat) : bool :=
  forallb (fun m => is_n (n_out_of (M m)) n) (srcs st) && forallb (fun m => is_n (n_in_of (M m)) n) (sinks st).

(** L218-252 [_clean_regions]: drop every region that shares a source (or a sink) with another
    region, and unsupported ones.  [n] is the number of channels of the first source. *)
Definition disjoint (a b : list nat) : bool := forallb (fun x => negb (mem x b)) a.
Definition channels (M : modules) (st : wstate) : nat :=
  match srcs st with m :: _ => match n_out_of (M m) with Some n => n | None => 0%nat end | [] => 0%nat end.
Definition keep (M : modules) (others : list wstate) (st : wstate) : bool :=
  supported M st (channels M st)
  && forallb (fun st' => disjoint (srcs st) (srcs st') && disjoint (sinks st) (sinks st')) others.
Fixpoint clean_regions (M : modules) (before regions : list wstate) : list wstate :=
  match regions with
  | [] => []
  | st :: rest =>
      if keep M (before ++ rest) st then st :: clean_regions M (before ++ [st]) rest
      else clean_regions M (before ++ [st]) rest
  end.

(** L187-215 [_split]: one region after the other; [choose] stands for [_channels_to_split]
    (L27-57: sorted distinct channel indices of the current weights). *)
Definition split_all (choose : modules -> wstate -> list nat) (split_input : bool) (regions : list wstate) (M : modules) : modules :=
  fold_left (fun M st => split_region st (choose M st) split_input M) regions M.

(** L27-57 [_channels_to_split]: the first [ceil (ratio * n)] channels of each halved module in
    the order [argsort] gives ([order], largest maxabs first), then the sorted union without
    repetitions ([torch.unique]).  [k n] is the number of channels taken per layer. *)
Definition channels_to_split (order : module -> list nat) (k : nat -> nat) (split_input : bool) (M : modules) (st : wstate) : list nat :=
  let n := channels M st in
  let ms := if split_input then sinks st else srcs st in
  filter (fun c => existsb (fun m => mem c (firstn (k n) (order (M m)))) ms) (seq 0 n).
