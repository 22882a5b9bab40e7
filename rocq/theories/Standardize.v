(** Model of the graph standardization passes: src/brevitas/graph/standardize.py and the part of
    src/brevitas/graph/base.py L245-331 and src/brevitas/graph/utils.py L77-96 they use.

    A traced graph is a list of nodes with a dictionary of the named modules (named_modules of
    the GraphModule, in order; a module registered twice is listed once).  Values are abstract;
    modules are seen in evaluation mode as (partial) functions of their arguments.  Node names,
    module names and string targets are strings.  Keyword arguments of nodes are not modelled
    except for [mean]. *)
From Coq Require Import List Bool String Arith QArith.
From Verif Require Import StateDict.
Import ListNotations.
Open Scope nat_scope.
Open Scope string_scope.

Section Graphs.
Context {V : Type}.

(** [stateful]: the module has parameters or buffers. *)
Record module := Mod { stateful : bool; call : list V -> option V }.
Inductive op := Placeholder | CallModule | CallMethod | CallFunction (f : list V -> option V) | Output.
Record node := Nd { nname : string; nop : op; ntarget : string; nargs : list string }.
Definition graph := list node.
Definition table := dict module.

(** torch.fx interpretation (external): placeholders read the argument of the name of their
    target, methods are looked up by their target.  None is an exception. *)
Section Run.
Variables (meth : string -> option (list V -> option V)) (inp : string -> option V) (tbl : table).
Fixpoint gather (env : dict V) (args : list string) : option (list V) :=
  match args with
  | [] => Some []
  | a :: args => match get env a, gather env args with Some v, Some vs => Some (v :: vs) | _, _ => None end
  end.
Definition eval_node (env : dict V) (n : node) : option V :=
  match gather env (nargs n) with
  | None => None
  | Some vs =>
      match nop n with
      | Placeholder => inp (ntarget n)
      | CallModule => match get tbl (ntarget n) with Some m => call m vs | None => None end
      | CallMethod => match meth (ntarget n) with Some f => f vs | None => None end
      | CallFunction f => f vs
      | Output => match vs with [v] => Some v | _ => None end
      end
  end.
Fixpoint run (ns : graph) (env : dict V) : option V :=
  match ns with
  | [] => None
  | n :: ns =>
      match eval_node env n with
      | None => None
      | Some v => match nop n with Output => Some v | _ => run ns (set env (nname n) v) end
      end
  end.
End Run.

(** isinstance(node.target, str): the target of a function call is the function. *)
Definition str_target (n : node) : bool := match nop n with CallFunction _ => false | _ => true end.
Definition retarget (n : node) (t : string) : node := Nd (nname n) (nop n) t (nargs n).
(** f'{name}_{k}' *)
Definition dup_name (name : string) (k : nat) : string := name ++ "_" ++ str_of k.

(** ** standardize.py L28-48 [DuplicateSharedStatelessModule] *)
(** L33-45 for one module; [k] is dup_mod_dict[name].  The copy of a stateless module behaves as
    the module. *)
Fixpoint dup_nodes (name : string) (mod_ : module) (k : option nat) (ns : graph) (tbl : table) : graph * table :=
  match ns with
  | [] => ([], tbl)
  | n :: ns =>
      if str_target n && String.eqb (ntarget n) name then
        match k with
        | Some j =>
            let d := dup_name name (S j) in
            let (r, t) := dup_nodes name mod_ (Some (S j)) ns (set tbl d mod_) in (retarget n d :: r, t)
        | None => let (r, t) := dup_nodes name mod_ (Some 0) ns tbl in (n :: r, t)
        end
      else let (r, t) := dup_nodes name mod_ k ns tbl in (n :: r, t)
  end.
Definition dup_step (st : graph * table) (x : string * module) : graph * table :=
  if stateful (snd x) then st else dup_nodes (fst x) (snd x) None (fst st) (snd st).
Definition duplicate (ns : graph) (tbl : table) : graph * table := fold_left dup_step tbl (ns, tbl).

(** ** base.py L245-299 [CallableToModule] with L302-314 [FnToModule]
    [new_module n] is the module built from the arguments of a matching call (None: no match).
    L284: the name of the node must not be a module name. *)
Fixpoint fn_to_module (new_module : node -> option module) (ns : graph) (tbl : table) : option (graph * table) :=
  match ns with
  | [] => Some ([], tbl)
  | n :: ns =>
      match nop n, new_module n with
      | CallFunction _, Some m =>
          if existsb (String.eqb (nname n)) (keys tbl) then None
          else match fn_to_module new_module ns (set tbl (nname n) m) with
               | Some (r, t) => Some (Nd (nname n) CallModule (nname n) (nargs n) :: r, t)
               | None => None
               end
      | _, _ => match fn_to_module new_module ns tbl with Some (r, t) => Some (n :: r, t) | None => None end
      end
  end.

(** ** standardize.py L82-97 [RemoveStochasticModules] *)
Definition uses (name : string) (n : node) : bool := existsb (String.eqb name) (nargs n).
(** list.index, filter, slice assignment (L87-89). *)
Fixpoint splice (name : string) (new : list string) (args : list string) : list string :=
  match args with
  | [] => []
  | a :: args => if String.eqb a name then (new ++ filter (fun b => negb (String.eqb b name)) args)%list else a :: splice name new args
  end.
Definition set_args (n : node) (args : list string) : node := Nd (nname n) (nop n) (ntarget n) args.
Fixpoint first_user (name : string) (new : list string) (ns : graph) : option graph :=
  match ns with
  | [] => None
  | n :: ns =>
      if uses name n then Some (set_args n (splice name new (nargs n)) :: ns)
      else match first_user name new ns with Some r => Some (n :: r) | None => None end
  end.
Fixpoint dedup (l : list string) : list string :=
  match l with [] => [] | a :: l => a :: filter (fun b => negb (String.eqb b a)) (dedup l) end.
(** L85-94 for one node; erasing a node that still has users raises (external). *)
Definition remove_one (n : node) (rest : graph) : option graph :=
  match first_user (nname n) (dedup (nargs n)) rest with
  | None => None
  | Some r => if existsb (uses (nname n)) r then None else Some r
  end.
Fixpoint remove_stochastic (fuel : nat) (ns : graph) : option graph :=
  match fuel with
  | O => Some ns
  | S fuel =>
      match ns with
      | [] => Some []
      | n :: rest =>
          if contains "stochastic_depth" (nname n)
          then match remove_one n rest with Some r => remove_stochastic fuel r | None => None end
          else match remove_stochastic fuel rest with Some r => Some (n :: r) | None => None end
      end
  end.
End Graphs.
Arguments module V : clear implicits.
Arguments op V : clear implicits.
Arguments node V : clear implicits.
Arguments graph V : clear implicits.
Arguments table V : clear implicits.

(** ** standardize.py L124-134 [DisableLastReturnQuantTensor]
    Kinds of values and modules: a module that [needs] a QuantTensor (its bias quantizer takes the
    input scale) raises without one; [returns] is its return_quant_tensor attribute, None when it
    has none (its output is then what [pass] says of its input). *)
Inductive vkind := QT | Plain.
Record qmod := QM { needs : bool; returns : option bool; pass : bool }.
Inductive qop := QIn (k : vkind) | QCall (m : nat) | QFun | QOut.
Record qnode := QN { qname : nat; qop_of : qop; qargs : list nat }.

Definition result_kind (m : qmod) (k : vkind) : option vkind :=
  match k with Plain => if needs m then None else Some (match returns m with Some true => QT | _ => Plain end)
  | QT => Some (match returns m with Some true => QT | Some false => Plain | None => if pass m then QT else Plain end) end.
(** Kinds of all values: None is an exception.  A function keeps a QuantTensor only if all its
    operands are. *)
Definition all_qt (ks : list vkind) : vkind := if forallb (fun k => match k with QT => true | Plain => false end) ks then QT else Plain.
Definition qeval_node (M : nat -> qmod) (e : nat -> vkind) (n : qnode) : option vkind :=
  match qop_of n with
  | QIn k => Some k
  | QCall m => result_kind (M m) (all_qt (map e (qargs n)))
  | QFun | QOut => Some (all_qt (map e (qargs n)))
  end.
Fixpoint qeval (M : nat -> qmod) (ns : list qnode) (e : nat -> vkind) : option (nat -> vkind) :=
  match ns with
  | [] => Some e
  | n :: ns =>
      match qeval_node M e n with
      | None => None
      | Some k => qeval M ns (fun j => if (j =? qname n)%nat then k else e j)
      end
  end.
Definition n_users (ns : list qnode) (v : nat) : nat := List.length (filter (fun n => existsb (Nat.eqb v) (qargs n)) ns).
(** L127-133: over the reversed nodes, stop at the first match. *)
Fixpoint find_last (ns : list qnode) (M : nat -> qmod) (rev_nodes : list qnode) : option nat :=
  match rev_nodes with
  | [] => None
  | n :: r =>
      match qop_of n with
      | QCall m => if (n_users ns (qname n) =? 1)%nat && (match returns (M m) with Some true => true | _ => false end) then Some m else find_last ns M r
      | _ => find_last ns M r
      end
  end.
Definition disable (M : nat -> qmod) (m : nat) : nat -> qmod :=
  fun j => if (j =? m)%nat then QM (needs (M j)) (Some false) (pass (M j)) else M j.
Definition disable_last (ns : list qnode) (M : nat -> qmod) : nat -> qmod :=
  match find_last ns M (rev ns) with Some m => disable M m | None => M end.

(** ** standardize.py L51-79 [MeanMethodToAdaptiveAvgPool2d] *)
Inductive arg := ATensor | ADims (l : list nat) | ABool (b : bool).
Definition arg_eqb (a b : arg) : bool :=
  match a, b with
  | ATensor, ATensor => true
  | ADims l, ADims m => if list_eq_dec Nat.eq_dec l m then true else false
  | ABool x, ABool y => Bool.eqb x y
  | _, _ => false
  end.
(** The arguments of x.mean(...), the first positional one being x. *)
Record mcall := MC { margs : list arg; mkw : dict arg }.
Definition hw := ADims [2; 3]%nat.
(** L57-63 *)
Definition mean_match (c : mcall) : bool :=
  (existsb (arg_eqb hw) (margs c) || match get (mkw c) "dim" with Some d => arg_eqb hw d | None => false end)
  && negb (match get (mkw c) "keepdim" with Some (ABool b) => b | _ => false end).
(** L65-69: a 'dim' keyword is passed to the constructor of a dictionary, which raises. *)
Definition mean_move (c : mcall) : option mcall :=
  match get (mkw c) "dim" with
  | Some _ => None
  | None => Some (MC (filter (fun a => negb (arg_eqb hw a)) (margs c)) (mkw c))
  end.
Inductive mresult := NotRewritten | RewriteRaises | CallRaises | Pooled.
(** L71-79: the pooling module is called with the remaining arguments; anything but the tensor
    raises. *)
Definition mean_rewrite (c : mcall) : mresult :=
  if negb (mean_match c) then NotRewritten
  else match mean_move c with
       | None => RewriteRaises
       | Some c' => match margs c', mkw c' with [ATensor], [] => Pooled | _, _ => CallRaises end
       end.

(** An (N, C, H, W) tensor; torch's mean over (2, 3) and AdaptiveAvgPool2d((1, 1)) followed by
    reshape((N, -1)) (external). *)
Record t4 := T4 { dn : nat; dc : nat; dh : nat; dw : nat; e4 : nat -> nat -> nat -> nat -> Q }.
Definition qsum (l : list Q) : Q := fold_right Qplus 0%Q l.
Definition mean_hw (x : t4) (n c : nat) : Q :=
  (qsum (flat_map (fun h => map (fun w => e4 x n c h w) (seq 0 (dw x))) (seq 0 (dh x))) / inject_Z (Z.of_nat (dh x * dw x)))%Q.
(** Output (oh, ow) of adaptive pooling to (OH, OW): the mean of rows floor(oh*H/OH) to
    ceil((oh+1)*H/OH) and of the columns likewise. *)
Definition win_lo (o n m : nat) : nat := (o * n / m)%nat.
Definition win_hi (o n m : nat) : nat := (((o + 1) * n + m - 1) / m)%nat.
Definition adaptive_avg (OH OW : nat) (x : t4) : t4 :=
  T4 (dn x) (dc x) OH OW (fun n c oh ow =>
    let hs := seq (win_lo oh (dh x) OH) (win_hi oh (dh x) OH - win_lo oh (dh x) OH) in
    let ws := seq (win_lo ow (dw x) OW) (win_hi ow (dw x) OW - win_lo ow (dw x) OW) in
    (qsum (flat_map (fun h => map (fun w => e4 x n c h w) ws) hs) / inject_Z (Z.of_nat (List.length hs * List.length ws)))%Q).
Definition reshape_flat (x : t4) (n j : nat) : Q :=
  e4 x n (j / (dh x * dw x))%nat ((j / dw x) mod dh x)%nat (j mod dw x)%nat.
