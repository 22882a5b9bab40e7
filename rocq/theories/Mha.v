(** Model of src/brevitas/nn/quant_mha.py: QuantMultiheadAttention in evaluation mode
    (L285-687) and its checkpoint loader (L689-733).

    Tensors are index functions with explicit sizes over the reals.  Quantizers are functions of
    one element (per-tensor scales at inference), that of the scores also of minus infinity; the projections hold the weights and biases after
    quantization.  [None] is an exception.  Static keys and values (never passed by [forward]) and
    dropout (off in evaluation mode) are left out. *)
From Coq Require Import List Bool String Arith Reals.
From Verif Require Import StateDict.
Import ListNotations.
Open Scope R_scope.

Fixpoint rsum (n : nat) (f : nat -> R) : R := match n with O => 0 | S k => rsum k f + f k end.
(** A real or minus infinity: entries of additive masks and masked scores. *)
Inductive ext := Fin (r : R) | NegInf.
Definition ext_add (a : ext) (r : R) : ext := match a with Fin x => Fin (x + r) | NegInf => NegInf end.
Definition ext_exp (a : ext) : R := match a with Fin x => exp x | NegInf => 0 end.

(** A tensor with three dimensions; [ptr] is data_ptr(). *)
Record t3 := T3 { ptr : nat; d0 : nat; d1 : nat; d2 : nat; e3 : nat -> nat -> nat -> R }.
(** Row-major position of torch's [contiguous] and [view] (external). *)
Definition flat (b c : nat) (x : nat -> nat -> nat -> R) (n : nat) : R := x (n / (b * c))%nat ((n / c) mod b)%nat (n mod c)%nat.
Definition view (b c b' c' : nat) (x : nat -> nat -> nat -> R) : nat -> nat -> nat -> R :=
  fun i j k => flat b c x (i * (b' * c') + j * c' + k)%nat.
Definition transpose01 (x : nat -> nat -> nat -> R) : nat -> nat -> nat -> R := fun i j k => x j i k.
(** torch.cat along the first dimension. *)
Definition cat0 (n : nat) (x y : nat -> nat -> nat -> R) : nat -> nat -> nat -> R := fun i j k => if (i <? n)%nat then x i j k else y (i - n)%nat j k.
Definition cat1 (n : nat) (x y : nat -> nat -> nat -> R) : nat -> nat -> nat -> R := fun i j k => if (j <? n)%nat then x i j k else y i (j - n)%nat k.

(** Masks; the sizes are those of the tensor.  A 2-D attention mask has first size 1 after
    [unsqueeze(0)] (L455). *)
Inductive mask3 := MBool (n l s : nat) (m : nat -> nat -> nat -> bool) | MFloat (n l s : nat) (m : nat -> nat -> nat -> ext).
Inductive amask := A2 (m : mask3) | A3 (m : mask3).
Inductive kmask := KBool (n s : nat) (m : nat -> nat -> bool) | KFloat (n s : nat) (m : nat -> nat -> ext).
Definition sizes3 (m : mask3) : nat * nat * nat := match m with MBool n l s _ => (n, l, s) | MFloat n l s _ => (n, l, s) end.
Definition ksizes (m : kmask) : nat * nat := match m with KBool n s _ => (n, s) | KFloat n s _ => (n, s) end.
(** F.pad(mask, (0, 1)) *)
Definition pad3 (m : mask3) : mask3 :=
  match m with
  | MBool n l s f => MBool n l (S s) (fun i j k => if (k <? s)%nat then f i j k else false)
  | MFloat n l s f => MFloat n l (S s) (fun i j k => if (k <? s)%nat then f i j k else Fin 0)
  end.
Definition padk (m : kmask) : kmask :=
  match m with
  | KBool n s f => KBool n (S s) (fun i k => if (k <? s)%nat then f i k else false)
  | KFloat n s f => KFloat n (S s) (fun i k => if (k <? s)%nat then f i k else Fin 0)
  end.
(** Broadcasting of a size-one dimension. *)
Definition bc (n i : nat) : nat := if (n =? 1)%nat then 0%nat else i.
Definition nonzero (a : ext) : bool := match a with Fin r => if Req_EM_T r 0 then false else true | NegInf => true end.

(** A linear layer with [out] rows. *)
Record lin := Lin { rows : nat; cols : nat; wt : nat -> nat -> R; bs : nat -> R }.
Definition apply_lin (w : lin) (x : nat -> nat -> nat -> R) : nat -> nat -> nat -> R :=
  fun i j o => rsum (cols w) (fun k => x i j k * wt w o k) + bs w o.
Inductive proj := Packed (w : lin) | Separate (q k v : lin).
Record mha := Mha {
  embed : nat; heads : nat; in_proj : proj; out_proj : lin;
  bias_kv : option ((nat -> R) * (nat -> R)); zero_attn : bool; batch_first : bool;
  fq : R -> R; fk : R -> R; fv : R -> R; fs : ext -> ext; fw : R -> R }.

Section Forward.
Variable m : mha.
(** L390-395 [head_dim] *)
Definition hdim : nat := (embed m / heads m)%nat.

(** L407-432 and src/brevitas/nn/utils.py L63-73 [check_tensors_same_ptr]: packed projections take one tensor, told by data pointers; [chunk(3, dim=-1)] cuts
    the last dimension. *)
Definition project (q k v : t3) : option (nat -> nat * (nat -> nat -> nat -> R)) :=
  match in_proj m with
  | Packed w =>
      if (ptr k =? ptr q)%nat && (ptr v =? ptr q)%nat then
        let y := apply_lin w (e3 q) in
        let c := (rows w / 3)%nat in
        Some (fun j => (d0 q, fun i b o => y i b (c * j + o)%nat))
      else None
  | Separate wq wk wv =>
      Some (fun j => match j with
                     | 0%nat => (d0 q, apply_lin wq (e3 q))
                     | 1%nat => (d0 k, apply_lin wk (e3 k))
                     | _ => (d0 v, apply_lin wv (e3 v))
                     end)
  end.
(** The shapes torch asks for in the products and views: the features of the linear layers and one batch
    size. *)
Definition fits (q k v : t3) : bool :=
  match in_proj m with
  | Packed w => (d2 q =? cols w)%nat
  | Separate wq wk wv => (d2 q =? cols wq)%nat && (d2 k =? cols wk)%nat && (d2 v =? cols wv)%nat && (d1 k =? d1 q)%nat
  end.
(** L438-463: shape of the attention mask. *)
Definition check_mask (L S N : nat) (a : option amask) : option (option mask3) :=
  match a with
  | None => Some None
  | Some (A2 k) => let '(n, l, s) := sizes3 k in if (n =? 1)%nat && (l =? L)%nat && (s =? S)%nat then Some (Some k) else None
  | Some (A3 k) => let '(n, l, s) := sizes3 k in if (n =? N * heads m)%nat && (l =? L)%nat && (s =? S)%nat then Some (Some k) else None
  end.
(** L515-532: merging the key padding mask [k] with the attention mask [a], and to floats. *)
Definition merge_masks (N S : nat) (a : option mask3) (k : option kmask) : option (option (nat -> nat -> nat -> ext)) :=
  let of_bool (f : nat -> nat -> nat -> bool) := fun i j s => if f i j s then NegInf else Fin 0 in
  match k with
  | None =>
      Some (match a with
            | None => None
            | Some (MBool n l _ f) => Some (of_bool (fun i j s => f (bc n i) (bc l j) s))
            | Some (MFloat n l _ f) => Some (fun i j s => f (bc n i) (bc l j) s)
            end)
  | Some k =>
      let '(n', s') := ksizes k in
      if negb ((n' =? N)%nat && (s' =? S)%nat) then None
      else match a, k with
           | None, KBool _ _ g => Some (Some (of_bool (fun i _ s => g (i / heads m)%nat s)))
           | None, KFloat _ _ g => Some (Some (fun i _ s => g (i / heads m)%nat s))
           | Some (MBool n l _ f), KBool _ _ g => Some (Some (of_bool (fun i j s => f (bc n i) (bc l j) s || g (i / heads m)%nat s)))
           | Some (MBool n l _ f), KFloat _ _ g => Some (Some (of_bool (fun i j s => f (bc n i) (bc l j) s || nonzero (g (i / heads m)%nat s))))
           | Some (MFloat n l _ f), KBool _ _ g => Some (Some (fun i j s => if g (i / heads m)%nat s then NegInf else f (bc n i) (bc l j) s))
           | Some (MFloat _ _ _ _), KFloat _ _ _ => None
           end
  end.

(** L380-578 for batched inputs of sizes (length, batch, features): the attention output and the
    weights of each head, indexed by batch * heads + head. *)
Definition attention (q k v : t3) (kp : option kmask) (am : option amask)
  : option ((nat -> nat -> nat -> R) * (nat * (nat -> nat -> nat -> R))) :=
  let L := d0 q in let N := d1 q in let S0 := d0 k in let H := heads m in let D := hdim in
  if negb ((d2 q =? embed m)%nat && (D * H =? embed m)%nat && (d0 k =? d0 v)%nat && (d1 k =? d1 v)%nat && (d2 k =? d2 v)%nat && fits q k v) then None
  else match project q k v, check_mask L S0 N am with
  | Some p, Some a =>
      let qp := snd (p 0%nat) in
      let '(S1, kp1) := p 1%nat in
      let vp1 := snd (p 2%nat) in
      (* L465-477 *)
      let '(S2, k2, v2, a2, kp2) := match bias_kv m with
        | None => (S1, kp1, vp1, a, kp)
        | Some (bk, bv) => (S S1, cat0 S1 kp1 (fun _ _ o => bk o), cat0 S1 vp1 (fun _ _ o => bv o), option_map pad3 a, option_map padk kp)
        end in
      (* L482-500 *)
      let qh := transpose01 (view N (embed m) (N * H) D qp) in
      let kh := transpose01 (view N (embed m) (N * H) D k2) in
      let vh := transpose01 (view N (embed m) (N * H) D v2) in
      (* L502-510 *)
      let '(S3, k3, v3, a3, kp3) := if zero_attn m
        then (S S2, cat1 S2 kh (fun _ _ _ => 0), cat1 S2 vh (fun _ _ _ => 0), option_map pad3 a2, option_map padk kp2)
        else (S2, kh, vh, a2, kp2) in
      match merge_masks N S3 a3 kp3 with
      | None => None
      | Some msk =>
          (* L542-566 *)
          let qs := fun i l d => fq m (qh i l d / sqrt (INR D)) in
          let ks := fun i s d => fk m (k3 i s d) in
          let dot := fun i l s => rsum D (fun d => qs i l d * ks i s d) in
          let score := fun i l s => fs m (match msk with Some f => ext_add (f i l s) (dot i l s) | None => Fin (dot i l s) end) in
          let soft := fun i l s => ext_exp (score i l s) / rsum S3 (fun s' => ext_exp (score i l s')) in
          let w := fun i l s => fw m (soft i l s) in
          let o := fun i l d => rsum S3 (fun s => w i l s * fv m (v3 i s d)) in
          (* L567-572 *)
          let flatten := view (N * H) D N (embed m) (transpose01 o) in
          Some (apply_lin (out_proj m) flatten, (S3, w))
      end
  | _, _ => None
  end.
(** L580-584: the view to (batch, heads, length, keys), summed over the heads. *)
Definition mean_weights (w : nat -> nat -> nat -> R) : nat -> nat -> nat -> R :=
  fun n l s => rsum (heads m) (fun h => w (n * heads m + h)%nat l s) / INR (heads m).

(** L654-687: [forward] for 3-D inputs: with batch_first the first two dimensions are exchanged on the
    way in and out (a transpose keeps the data pointer). *)
Definition swap (x : t3) : t3 := T3 (ptr x) (d1 x) (d0 x) (d2 x) (transpose01 (e3 x)).
Definition forward (q k v : t3) (kp : option kmask) (am : option amask) : option ((nat -> nat -> nat -> R) * (nat -> nat -> nat -> R)) :=
  if batch_first m then
    match attention (swap q) (swap k) (swap v) kp am with Some (o, (_, w)) => Some (transpose01 o, mean_weights w) | None => None end
  else match attention q k v kp am with Some (o, (_, w)) => Some (o, mean_weights w) | None => None end.
(** L367-378 and L586-590: 2-D inputs, a batch of one. *)
Record t2 := T2 { ptr2 : nat; c0 : nat; c1 : nat; e2 : nat -> nat -> R }.
Definition unsqueeze (x : t2) : t3 := T3 (ptr2 x) (c0 x) 1 (c1 x) (fun i _ k => e2 x i k).
(** A one-dimensional key padding mask, with [unsqueeze(0)] (L378). *)
Inductive kmask1 := K1Bool (s : nat) (m : nat -> bool) | K1Float (s : nat) (m : nat -> ext).
Definition unsqueeze_k (k : kmask1) : kmask := match k with K1Bool s f => KBool 1 s (fun _ => f) | K1Float s f => KFloat 1 s (fun _ => f) end.
Definition forward2 (q k v : t2) (kp : option kmask1) (am : option amask) : option ((nat -> nat -> R) * (nat -> nat -> R)) :=
  match attention (unsqueeze q) (unsqueeze k) (unsqueeze v) (option_map unsqueeze_k kp) am with
  | Some (o, (_, w)) => Some (fun l e => o l 0%nat e, fun l s => mean_weights w 0%nat l s)
  | None => None
  end.
End Forward.

(** ** L689-731 [_load_from_state_dict], before the default loader
    A tensor of the checkpoint is a list of rows (a bias is a list of numbers). *)
Section Load.
Context {Row : Type}.
Definition tensor := list Row.
(** torch.chunk(value, 3, dim=0) for a size divisible by 3 (external; chunks of size ceil(n/3)). *)
Definition chunk3 (v : tensor) (j : nat) : tensor :=
  let c := ((List.length v + 2) / 3)%nat in firstn c (skipn (c * j) v).
Definition set3 (prefix leaf : string) (v : tensor) (d : dict tensor) : dict tensor :=
  let key p := (prefix ++ p ++ "_proj." ++ leaf)%string in
  set (set (set d (key "q"%string) (chunk3 v 0)) (key "k"%string) (chunk3 v 1)) (key "v"%string) (chunk3 v 2).
Fixpoint load_items (packed : bool) (prefix : string) (items : list (string * tensor)) (d : dict tensor) : option (dict tensor) :=
  match items with
  | [] => Some d
  | (name, v) :: items =>
      let has s := contains (prefix ++ s)%string name in
      let done d' := load_items packed prefix items (without d' name) in
      if has "in_proj_weight"%string then
        if packed then done (set d (prefix ++ "in_proj.weight")%string v)
        else if negb (List.length v mod 3 =? 0)%nat then None
        else done (set3 prefix "weight"%string v d)
      else if has "q_proj_weight"%string then done (set d (prefix ++ "q_proj.weight")%string v)
      else if has "k_proj_weight"%string then done (set d (prefix ++ "k_proj.weight")%string v)
      else if has "v_proj_weight"%string then done (set d (prefix ++ "v_proj.weight")%string v)
      else if has "in_proj_bias"%string then
        if packed then done (set d (prefix ++ "in_proj.bias")%string v) else done (set3 prefix "bias"%string v d)
      else load_items packed prefix items d
  end.
Definition mha_load (packed : bool) (prefix : string) (d : dict tensor) : option (dict tensor) := load_items packed prefix d d.
End Load.
