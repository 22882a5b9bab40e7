(** Model of activation equalization: src/brevitas/graph/equalize.py L945-1188 and the parts of
    [_cross_layer_equalization] (L386-602) it uses, and src/brevitas/nn/equalized_layer.py.

    Real arithmetic.  The input of a layer for one sample is a [value] (feature, flattened other
    positions) with P positions.  Named tensors, offloading, co-optimisation and regions with
    concatenations are not modelled. *)
From Verif Require Import BatchNorm Equalize EqLayout.
From Coq Require Import Reals List Bool Arith Lra Lia.
Import ListNotations.
Open Scope R_scope.

(** ** Statistics *)
(** L972-1000 [forward_stats_hook] with _channel_maxabs (L249-252) over the batch dimension:
    elementwise maximum over the samples of a batch, then running maximum. *)
Definition vmax (x y : value) : value := fun c p => Rmax (x c p) (y c p).
Definition vabs (x : value) : value := fun c p => Rabs (x c p).
(** torch.max over an empty dimension raises, so a batch is its first sample and the others. *)
Definition batch := (value * list value)%type.
Definition batch_maxabs (b : batch) : value := fold_right (fun y m => vmax (vabs y) m) (vabs (fst b)) (snd b).
Definition record_maxabs (m : option value) (b : batch) : option value :=
  Some (match m with None => batch_maxabs b | Some v => vmax v (batch_maxabs b) end).
Definition calibrate (bs : list batch) : option value := fold_left record_maxabs bs None.

(** L234-246 [_channel_range] over the batch dimension and the running maximum. *)
Definition vsum_of (xs : list value) : value := fun c p => Rsum (map (fun x => x c p) xs).
Definition batch_range (b : batch) : value := fun c p =>
  let xs := fst b :: snd b in
  let hi := fold_right (fun y m => Rmax (y c p) m) (fst b c p) (snd b) in
  let lo := fold_right (fun y m => Rmin (y c p) m) (fst b c p) (snd b) in
  let out := hi - lo in
  Rabs (if Req_EM_T out 0 then vsum_of xs c p / INR (length xs) else out).
Definition record_range (m : option value) (b : batch) : option value :=
  Some (match m with None => batch_range b | Some v => vmax v (batch_range b) end).
Definition calibrate_range (bs : list batch) : option value := fold_left record_range bs None.

(** L506-518: transposed to the feature axis, flattened, and reduced over the P positions with
    the same function. *)
Definition act_maxabs (P : nat) (v : value) (c : nat) : R := rmax (map (fun p => Rabs (v c p)) (seq 0 P)).
Definition act_range (P : nat) (v : value) (c : nat) : R :=
  match P with
  | O => 0
  | S P' =>
      let hi := fold_right Rmax (v c 0%nat) (map (v c) (seq 1 P')) in
      let lo := fold_right Rmin (v c 0%nat) (map (v c) (seq 1 P')) in
      let out := hi - lo in
      Rabs (if Req_EM_T out 0 then Rsum (map (v c) (seq 0 P)) / INR P else out)
  end.

(** ** Layer-wise activation equalization *)
(** What stands in the place of the layer afterwards. *)
Inductive equalized := Kept (l : layer) | Wrapped (inv : nat -> R) (l : layer).

(** equalized_layer.py L17-43 (one input): the ScaleBias multiplier (broadcast over batch and
    positions, L959-967), then the layer. *)
Definition eq_fwd (q : equalized) (x : value) : value :=
  match q with
  | Kept l => fwd (to_mod l) x
  | Wrapped inv l => fwd (to_mod l) (fun c p => x c p * inv c)
  end.

(** L1061-1080 [apply] for one region and L386-602: None when it raises (a layer never run).
    [n_feat] is the size of the feature axis of the recorded activations. *)
Definition layer_factors (alpha : R) (act : nat -> R) (l : layer) (c : nat) : R :=
  scaling_factor alpha (act c) (axis_range l (some_axis l) c).
Definition layerwise (alpha : R) (P n_feat : nat) (rec : option value) (l : layer) : option equalized :=
  match rec with
  | None => None
  | Some v =>
      match input_axis l with
      | None => Some (Kept l)
      | Some ax =>
          if negb (n_feat =? sink_size l)%nat then Some (Kept l)
          else let s := layer_factors alpha (act_maxabs P v) l in
               Some (Wrapped (fun c => / s c) (update_sink ax s l))
      end
  end.

(** ** Unbatched input of a convolution: dimension 0 is the channel dimension, so the maximum is
    taken over the channels (L993), the remaining first dimension (here the P positions) is
    taken for the features, and the multiplier of shape (1, P) is broadcast over the channels. *)
Definition unbatched_record (n_in : nat) (x : value) (p : nat) : R := rmax (map (fun c => Rabs (x c p)) (seq 0 n_in)).
Definition unbatched_layerwise (alpha : R) (P : nat) (x : value) (l : layer) : equalized :=
  match input_axis l with
  | None => Kept l
  | Some ax =>
      if negb (P =? sink_size l)%nat then Kept l
      else let act p := match l with LLin _ n_in _ _ _ _ _ => unbatched_record n_in x p | LNorm _ _ _ _ => 0 end in
           let s := layer_factors alpha act l in
           Wrapped (fun p => / s p) (update_sink ax s l)
  end.
Definition unbatched_fwd (q : equalized) (x : value) : value :=
  match q with
  | Kept l => fwd (to_mod l) x
  | Wrapped inv l => fwd (to_mod l) (fun c p => x c p * inv p)
  end.

(** ** Multi-head attention *)
(** torch (external): the packed in_proj weight holds the three projections; [core] is the rest.
    A tensor argument is an address and its contents. *)
Record mha := MHA { wq : module; wk : module; wv : module; core : value -> value -> value -> value }.
Definition tensor := (nat * value)%type.
Definition mha_fwd (m : mha) (q k v : value) : value := core m (fwd (wq m) q) (fwd (wk m) k) (fwd (wv m) v).
(** L581-601: in_proj_weight is scaled along its input axis. *)
Definition mha_scale (s : nat -> R) (m : mha) : mha := MHA (scale_sink s (wq m)) (scale_sink s (wk m)) (scale_sink s (wv m)) (core m).

(** L976-979: the chained comparison q != k != v. *)
Definition skipped (q k v : tensor) : bool := negb (fst q =? fst k)%nat && negb (fst k =? fst v)%nat.
(** equalized_layer.py L17-43: only the key is checked; key and value are replaced. *)
Definition mha_eq_fwd (inv : nat -> R) (m : mha) (q k v : tensor) : option value :=
  if negb (fst k =? fst q)%nat then None
  else let out := fun c p => snd q c p * inv c in Some (mha_fwd m out out out).
(** The whole flow: calibration with one call on (q, k, v), then a call with the same
    arguments. *)
Definition mha_flow (s : nat -> R) (m : mha) (q k v : tensor) : option value :=
  if skipped q k v then Some (mha_fwd m (snd q) (snd k) (snd v))
  else mha_eq_fwd (fun c => / s c) (mha_scale s m) q k v.

(** ** Graph activation equalization *)
Section ActWalk.
Variables (g : graph) (M : modules) (is_act : nat -> bool).

(** A scale-varying activation (L73-74) is a [Norm] module with weight 1 and bias 0 whose name
    is marked by [is_act]: the multiplier inserted after it (L1182-1188) is its weight.
    L753-870: met from below it is an unrecognised node like any other. *)
Fixpoint walk_act (fuel : nat) (down : bool) (n : nat) (st : wstate) : wstate :=
  match fuel with
  | O => set_bad st
  | S f =>
      if down then
        fold_left (fun st u =>
          if seen st (n, u) then st else
          let st := visit st (n, u) in
          match kind_of g u with
          | Some (KLayer m _) => if is_norm (M m) then set_bad st else add_sink m st
          | Some (KInv _ _) | Some (KMul _ _) => walk_act f true u st
          | Some (KAdd _ _) => walk_act f false u (walk_act f true u st)
          | _ => set_bad st
          end) (users g n) st
      else
        fold_left (fun st i =>
          if seen st (i, n) then st else
          let st := visit st (i, n) in
          match kind_of g i with
          | Some (KLayer m _) => if is_act m then set_bad st else walk_act f true i (add_src m st)
          | Some (KInv _ _) | Some (KMul _ _) | Some (KAdd _ _) => walk_act f false i (walk_act f true i st)
          | _ => set_bad st
          end) (ins_of g n) st
  end.

(** L873-905 [_extract_regions] with add_mul_node: the activation of the region, if any, and the
    sources and sinks. *)
Definition act_region (add_mul_node : bool) (n : nat) : option (option nat * wstate) :=
  match kind_of g n with
  | Some (KLayer m _) =>
      if is_act m && negb add_mul_node then None else
      let st := walk_act (S (n_edges g)) true n (W (if is_act m then [] else [m]) [] [] false) in
      if negb (bad st) && negb (length (sinks st) =? 0)%nat then Some (if is_act m then Some m else None, st) else None
  | _ => None
  end.
End ActWalk.

(** L556-601 and L1144-1180: multiplier after the activation, inverse factors into the sources,
    factors into the sinks. *)
Definition apply_act_region (a : option nat) (st : wstate) (s : nat -> R) (M : modules) : modules := fun m =>
  let m0 := match a with Some a => if (m =? a)%nat then scale_src s (M m) else M m | None => M m end in
  let m1 := if mem m (srcs st) then scale_src s m0 else m0 in
  if mem m (sinks st) then scale_sink s m1 else m1.
(** Ranges of the activations recorded for each region (any function) and of its sinks. *)
Definition act_region_factors (alpha : R) (act : nat -> R) (M : modules) (st : wstate) (c : nat) : R :=
  scaling_factor alpha (act c) (rmax (map (fun m => sink_range (M m) c) (sinks st))).
Definition act_equalize (alpha : R) (steps : list (option nat * wstate * (nat -> R))) (M : modules) : modules :=
  fold_left (fun M x => let '(a, st, act) := x in apply_act_region a st (act_region_factors alpha act M st) M) steps M.
