(** Model of cross-layer equalization through concatenations: src/brevitas/graph/equalize.py
    L93-160 (indexes and walk state), L386-602 (application), L698-905 (region search).

    Real arithmetic, values and layers as in Equalize.v.  Every concatenation is torch.cat along
    the channels.  Reshaping operators, multi-head attention, activations and additions that
    broadcast are not modelled. *)
From Verif Require Import BatchNorm Equalize.
From Coq Require Import Reals List Bool Arith Lra Lia.
Import ListNotations.
Open Scope R_scope.

(** Nodes: [CCat] lists its operands with their numbers of channels; the rest as in Equalize.v. *)
Inductive ckind :=
| CLayer (m : nat) (inp : nat)
| CInv (f : (nat -> R) -> nat -> R) (inp : nat)
| CAdd (ins : list nat)
| CCat (ins : list (nat * nat))
| COther (f : list value -> value) (ins : list nat).
Definition cgraph := list (nat * ckind).

Definition operands (k : ckind) : list nat :=
  match k with CLayer _ i => [i] | CInv _ i => [i] | CAdd ins => ins | CCat ins => map fst ins | COther _ ins => ins end.

(** torch.cat (external). *)
Fixpoint cat_values (e : nat -> value) (ins : list (nat * nat)) : value :=
  match ins with
  | [] => fun _ _ => 0
  | (a, w) :: ins => fun c p => if (c <? w)%nat then e a c p else cat_values e ins (c - w)%nat p
  end.
Definition ceval_kind (M : modules) (e : nat -> value) (k : ckind) : value :=
  match k with
  | CLayer m i => fwd (M m) (e i)
  | CInv f i => fun c => f (e i c)
  | CAdd ins => vsum (map e ins)
  | CCat ins => cat_values e ins
  | COther f ins => f (map e ins)
  end.
Fixpoint ceval (g : cgraph) (M : modules) (e : nat -> value) : nat -> value :=
  match g with
  | [] => e
  | (i, k) :: g' => ceval g' M (fun j => if (j =? i)%nat then ceval_kind M e k else e j)
  end.

Definition ckind_of (g : cgraph) (n : nat) : option ckind :=
  match find (fun x => (fst x =? n)%nat) g with Some x => Some (snd x) | None => None end.
Definition cusers (g : cgraph) (n : nat) : list nat :=
  map fst (filter (fun x => existsb (Nat.eqb n) (operands (snd x))) g).
(** torch.fx all_input_nodes (external): operands without repetition, in order. *)
Fixpoint dedup (l : list nat) : list nat :=
  match l with [] => [] | a :: l => a :: filter (fun b => negb (b =? a)%nat) (dedup l) end.
Definition all_inputs (g : cgraph) (n : nat) : list nat := match ckind_of g n with Some k => dedup (operands k) | None => [] end.

(** L93-104 [EqualizationIndexes]. *)
Record idx := I { i_start : nat; i_end : nat; i_off : nat }.
Definition idx_eqb (x y : idx) : bool :=
  ((i_start x =? i_start y) && (i_end x =? i_end y) && (i_off x =? i_off y))%nat.
Definition entry := (nat * idx)%type.
Definition entry_eqb (x y : entry) : bool := (fst x =? fst y)%nat && idx_eqb (snd x) (snd y).
(** The dictionaries are keyed by name and indexes (L150-153). *)
Definition put (x : entry) (l : list entry) : list entry := if existsb (entry_eqb x) l then l else l ++ [x].

(** L130-175 [WalkRegionState]; [c_bad] is the presence of _UNSUPPORTED_OP, [c_err] a TypeError
    raised on the way. *)
Record cstate := C { c_srcs : list entry; c_sinks : list entry; c_bad : bool; c_hist : list (nat * nat);
                     c_cat : bool; c_off : nat; c_upd : bool; c_err : bool;
                     c_names : list nat (* keys of name_to_module *) }.
Definition c_init (off : nat) : cstate := C [] [] false [] false off false false [].
Definition c_visit (st : cstate) (e : nat * nat) : cstate :=
  C (c_srcs st) (c_sinks st) (c_bad st) (e :: c_hist st) (c_cat st) (c_off st) (c_upd st) (c_err st) (c_names st).
Definition c_seen (st : cstate) (e : nat * nat) : bool :=
  existsb (fun x => (fst x =? fst e) && (snd x =? snd e))%nat (c_hist st).
Definition add_c_src (m : nat) (x : idx) (st : cstate) : cstate :=
  C (put (m, x) (c_srcs st)) (c_sinks st) (c_bad st) (c_hist st) (c_cat st) (c_off st) (c_upd st) (c_err st) (m :: c_names st).
(** dict.update of the sources alone (L865). *)
Definition upd_c_src (e : entry) (st : cstate) : cstate :=
  C (put e (c_srcs st)) (c_sinks st) (c_bad st) (c_hist st) (c_cat st) (c_off st) (c_upd st) (c_err st) (c_names st).
Definition add_c_sink (m : nat) (x : idx) (st : cstate) : cstate :=
  C (c_srcs st) (put (m, x) (c_sinks st)) (c_bad st) (c_hist st) (c_cat st) (c_off st) (c_upd st) (c_err st) (m :: c_names st).
Definition set_c_bad (st : cstate) : cstate :=
  C (c_srcs st) (c_sinks st) true (c_hist st) (c_cat st) (c_off st) (c_upd st) (c_err st) (c_names st).
Definition set_c_err (st : cstate) : cstate :=
  C (c_srcs st) (c_sinks st) (c_bad st) (c_hist st) (c_cat st) (c_off st) (c_upd st) true (c_names st).
Definition set_c_off (o : nat) (st : cstate) : cstate :=
  C (c_srcs st) (c_sinks st) (c_bad st) (c_hist st) (c_cat st) o (c_upd st) (c_err st) (c_names st).
Definition set_c_upd (u : bool) (st : cstate) : cstate :=
  C (c_srcs st) (c_sinks st) (c_bad st) (c_hist st) (c_cat st) (c_off st) u (c_err st) (c_names st).

Definition out_size (m : module) : nat := match m with Lin _ n_out _ _ _ _ => n_out | Norm n _ _ _ => n end.
Definition in_size (m : module) : nat := match m with Lin n_in _ _ _ _ _ => n_in | Norm n _ _ _ => n end.

Section CWalk.
Variables (g : cgraph) (M : modules).

(** L698-723 [find_srcs_channel_dim]: None when it raises (adding _UNSUPPORTED_OP to a number),
    Some None for _UNSUPPORTED_OP. *)
Fixpoint channel_dim (fuel : nat) (n : nat) : option (option nat) :=
  match fuel with
  | O => None
  | S f =>
      match ckind_of g n with
      | Some (CLayer m _) => Some (Some (out_size (M m)))
      | Some (CAdd ins) =>
          match all_inputs g n with
          | [] => None
          | a :: rest =>
              fold_left (fun acc b =>
                match acc, channel_dim f b with
                | None, _ | _, None => None
                | Some (Some x), Some (Some y) => if (x =? y)%nat then Some (Some x) else Some None
                | Some None, Some _ => Some None
                | Some _, Some None => Some None
                end) rest (channel_dim f a)
          end
      | Some (CCat _) =>
          fold_left (fun acc b =>
            match acc, channel_dim f b with
            | Some (Some x), Some (Some y) => Some (Some (x + y)%nat)
            | _, _ => None
            end) (all_inputs g n) (Some (Some 0%nat))
      | Some (CInv _ i) => channel_dim f i
      | _ => Some None
      end
  end.

Fixpoint index_of (a : nat) (l : list nat) : nat :=
  match l with [] => 0%nat | b :: l => if (b =? a)%nat then 0%nat else S (index_of a l) end.
Definition all_dims (l : list (option (option nat))) : option (option (list nat)) :=
  fold_right (fun d acc =>
    match d, acc with
    | None, _ | _, None => None
    | Some (Some x), Some (Some xs) => Some (Some (x :: xs))
    | _, _ => Some None
    end) (Some (Some [])) l.

Inductive op := Up | Down | Restart.

(** L753-800 [find_srcs] (Up), L803-870 [find_sinks] (Down), L726-737 [cat_handler] (Restart). *)
Fixpoint cwalk (fuel : nat) (o : op) (n : nat) (st : cstate) : cstate :=
  match fuel with
  | O => set_c_bad st
  | S f =>
      match o with
      | Restart =>
          let st := C [] [] false [] true 0 true (c_err st) (c_names st) in
          let st := cwalk f Up n st in
          let st := set_c_off 0 (set_c_upd false st) in
          cwalk f Down n st
      | Up =>
          let upd := c_upd st in
          fold_left (fun st i =>
            if c_seen st (i, n) then st else
            let st := c_visit st (i, n) in
            match ckind_of g i with
            | Some (CLayer m _) =>
                let w := out_size (M m) in
                let st := cwalk f Down i (add_c_src m (I 0 w (c_off st)) st) in
                if c_upd st then set_c_off (c_off st + w) st else st
            | Some (CInv _ _) => cwalk f Up i (cwalk f Down i st)
            | Some (CAdd _) => set_c_upd upd (cwalk f Up i (cwalk f Down i (set_c_upd false st)))
            | Some (CCat _) =>
                if negb (c_cat st) then cwalk f Restart i st
                else set_c_upd upd (cwalk f Up i (set_c_upd true (cwalk f Down i (set_c_upd false st))))
            | _ => set_c_bad st
            end) (all_inputs g n) st
      | Down =>
          let upd := c_upd st in
          fold_left (fun st u =>
            if c_seen st (n, u) then st else
            let st := c_visit st (n, u) in
            match ckind_of g u with
            | Some (CLayer m _) =>
                if is_norm (M m) then set_c_bad st else add_c_sink m (I 0 (in_size (M m)) (c_off st)) st
            | Some (CInv _ _) => cwalk f Down u st
            | Some (CAdd _) => set_c_upd upd (cwalk f Up u (cwalk f Down u (set_c_upd false st)))
            | Some (CCat _) =>
                if negb (c_cat st) then cwalk f Restart u st
                else
                  match all_dims (map (channel_dim f) (all_inputs g u)) with
                  | None => set_c_err st
                  | Some None => set_c_bad st
                  | Some (Some dims) =>
                      let index := index_of n (all_inputs g u) in
                      let start := fold_right Nat.add 0%nat (firstn index dims) in
                      let stop := (start + nth index dims 0)%nat in
                      let new := cwalk f Down u (c_init (c_off st)) in
                      let st := fold_left (fun st e => add_c_sink (fst e) (I start stop (c_off new)) st) (c_sinks new) st in
                      let st := fold_left (fun st e => upd_c_src e st) (c_srcs new) st in
                      if c_err new then set_c_err st else st
                  end
            | _ => set_c_bad st
            end) (cusers g n) st
      end
  end.

(** L873-905 [_extract_regions] for the layer node n. *)
Definition cregion (fuel : nat) (n : nat) : option cstate :=
  match ckind_of g n with
  | Some (CLayer m _) =>
      let st := cwalk fuel Down n (add_c_src m (I 0 (out_size (M m)) 0) (c_init 0)) in
      if negb (c_err st) && negb (c_bad st) && negb (length (c_sinks st) =? 0)%nat then Some st else None
  | _ => None
  end.
End CWalk.

(** L407-416, L478-505, L545-601 for one region.  None when it raises: a KeyError for a name
    without module (L408-411) or a sink slice beyond its channels. *)
Definition slice_max (l : list entry) : nat := fold_right (fun e m => Nat.max (i_off (snd e) + (i_end (snd e) - i_start (snd e))) m)%nat 0%nat l.
Definition covers (x : idx) (j : nat) : bool := ((i_off x <=? j) && (j <? i_off x + (i_end x - i_start x)))%nat.
Definition src_factor_range (M : modules) (srcs : list entry) (j : nat) : R :=
  rmax (map (fun e => src_range (M (fst e)) (j - i_off (snd e))) (filter (fun e => covers (snd e) j) srcs)).
Definition sink_factor_range (M : modules) (sinks : list entry) (j : nat) : R :=
  rmax (map (fun e => sink_range (M (fst e)) (j - i_off (snd e) + i_start (snd e))) (filter (fun e => covers (snd e) j) sinks)).
Definition cat_factors (alpha : R) (M : modules) (st : cstate) (j : nat) : R :=
  scaling_factor alpha (src_factor_range M (c_srcs st) j) (sink_factor_range M (c_sinks st) j).

(** A source is scaled by the factors of its channels, a sink by the factors of its slice. *)
Definition src_slice (s : nat -> R) (x : idx) : nat -> R := fun c => s (i_off x + c)%nat.
Definition sink_slice (s : nat -> R) (x : idx) : nat -> R := fun c =>
  if ((i_start x <=? c) && (c <? i_end x))%nat then s (i_off x + (c - i_start x))%nat else 1.
Definition apply_cat (st : cstate) (s : nat -> R) (M : modules) : modules := fun m =>
  let m1 := fold_left (fun l e => if (fst e =? m)%nat then scale_src (src_slice s (snd e)) l else l) (c_srcs st) (M m) in
  fold_left (fun l e => if (fst e =? m)%nat then scale_sink (sink_slice s (snd e)) l else l) (c_sinks st) m1.
Definition cat_equalize (alpha : R) (st : cstate) (M : modules) : option modules :=
  if existsb (fun e => negb (existsb (Nat.eqb (fst e)) (c_names st))) (c_srcs st ++ c_sinks st) then None
  else if negb (slice_max (c_srcs st) =? slice_max (c_sinks st))%nat then Some M
  else if existsb (fun e => in_size (M (fst e)) <? i_end (snd e))%nat (c_sinks st) then None
  else Some (apply_cat st (cat_factors alpha M st) M).
