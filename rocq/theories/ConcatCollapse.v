(** Model of [CollapseConsecutiveConcats]: src/brevitas/graph/fixed_point.py L126-171, with
    graph/base.py L58-67 (iteration until no rewrite applies).

    A traced graph is a list of nodes in execution order.  A node is a concatenation or any
    other call.  Tensors are a shape and an element function; torch.cat is modelled with its
    shape check (external behaviour).  Errors are [None]. *)
From Coq Require Import List Bool Arith ZArith Lia.
Import ListNotations.

Section Graph.
Context {A : Type} (dflt : A).

Record tensor := Tens { shape : list nat; at_ : list nat -> A }.

Fixpoint set_nth {B} (k : nat) (v : B) (l : list B) : list B :=
  match l, k with
  | [], _ => []
  | _ :: l', O => v :: l'
  | x :: l', S k' => x :: set_nth k' v l'
  end.

Definition extent (d : nat) (t : tensor) : nat := nth d (shape t) 0.

(** Two operands may be concatenated along [d]: their shapes agree elsewhere. *)
Definition compat (d : nat) (s1 s2 : list nat) : bool :=
  if list_eq_dec Nat.eq_dec (set_nth d 0 s1) (set_nth d 0 s2) then true else false.

Fixpoint cat_at (d : nat) (ts : list tensor) (idx : list nat) : A :=
  match ts with
  | [] => dflt
  | t :: ts' => if nth d idx 0 <? extent d t then at_ t idx
                else cat_at d ts' (set_nth d (nth d idx 0 - extent d t) idx)
  end.

Definition total (d : nat) (ts : list tensor) : nat := fold_right (fun t s => extent d t + s) 0 ts.

(** torch.cat: negative dimensions count from the end; all ranks and the other extents must
    agree; at least one operand. *)
Definition cat (dim : Z) (ts : list tensor) : option tensor :=
  match ts with
  | [] => None
  | t :: _ =>
      let r := Z.of_nat (length (shape t)) in
      let d := if (dim <? 0)%Z then (dim + r)%Z else dim in
      if ((0 <=? d) && (d <? r))%Z && forallb (fun u => compat (Z.to_nat d) (shape t) (shape u)) ts
      then Some (Tens (set_nth (Z.to_nat d) (total (Z.to_nat d) ts) (shape t)) (cat_at (Z.to_nat d) ts))
      else None
  end.

(** A node's operation: [Cat dim operands] is call_function torch.cat; [Other f operands] any
    other node (module calls, functions, the output node). *)
Inductive op := Cat (dim : Z) (ts : list nat) | Other (f : list tensor -> option tensor) (ins : list nat).
Definition node := (nat * op)%type.
Definition inputs (o : op) : list nat := match o with Cat _ ts => ts | Other _ ins => ins end.

(** Execution. *)
Definition env := nat -> option tensor.
Fixpoint gather (e : env) (ins : list nat) : option (list tensor) :=
  match ins with
  | [] => Some []
  | i :: ins' => match e i, gather e ins' with Some t, Some ts => Some (t :: ts) | _, _ => None end
  end.
Definition eval_op (e : env) (o : op) : option tensor :=
  match gather e (inputs o) with
  | None => None
  | Some ts => match o with Cat d _ => cat d ts | Other f _ => f ts end
  end.
Definition upd (e : env) (i : nat) (v : option tensor) : env := fun j => if j =? i then v else e j.
Fixpoint eval (g : list node) (e : env) : env :=
  match g with [] => e | (i, o) :: g' => eval g' (upd e i (eval_op e o)) end.

(** [node.users]: the distinct nodes that read [i]. *)
Definition users (g : list node) (i : nat) : list node :=
  filter (fun n => existsb (Nat.eqb i) (inputs (snd n))) g.

Definition find_node (g : list node) (i : nat) : option op :=
  match find (fun n => fst n =? i) g with Some n => Some (snd n) | None => None end.

(** L150-152: the condition on an operand. *)
Definition mergeable (g : list node) (dim : Z) (inp : nat) : bool :=
  match find_node g inp with
  | Some (Cat dim' _) => (dim =? dim')%Z && (length (users g inp) =? 1)
  | _ => false
  end.

(** L147-153: the first concatenation with a mergeable operand. *)
Fixpoint find_merge (g rest : list node) : option (nat * Z * nat) :=
  match rest with
  | [] => None
  | (i, Cat dim ts) :: rest' =>
      match find (mergeable g dim) ts with
      | Some inp => Some (i, dim, inp)
      | None => find_merge g rest'
      end
  | _ :: rest' => find_merge g rest'
  end.

(** L128-140 [merge_tensor_kwargs]: [inner]'s operands go where [inner] first occurs, and
    every occurrence of [inner] is removed. *)
Fixpoint index_of (i : nat) (l : list nat) : nat :=
  match l with [] => 0 | j :: l' => if i =? j then 0 else S (index_of i l') end.
Definition merge_tensors (inner : nat) (inner_ts ts : list nat) : list nat :=
  let k := index_of inner ts in
  let kept := filter (fun j => negb (j =? inner)) ts in
  firstn k kept ++ inner_ts ++ skipn k kept.

(** L153-157: rewrite the outer node, erase the inner one. *)
Definition collapse_step (g : list node) : option (list node) :=
  match find_merge g g with
  | None => None
  | Some (outer, dim, inner) =>
      match find_node g inner with
      | Some (Cat _ ys) =>
          Some (filter (fun n => negb (fst n =? inner))
                  (map (fun n => if fst n =? outer
                                 then (outer, Cat dim (merge_tensors inner ys (inputs (snd n)))) else n) g))
      | _ => None
      end
  end.

(** graph/base.py L64-67; every step erases a node, so the node count is enough fuel. *)
Fixpoint collapse_loop (fuel : nat) (g : list node) : list node :=
  match fuel with
  | O => g
  | S f => match collapse_step g with Some g' => collapse_loop f g' | None => g end
  end.
Definition collapse (g : list node) : list node := collapse_loop (length g) g.
End Graph.
