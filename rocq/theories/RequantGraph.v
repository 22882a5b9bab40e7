(** Model of the insertion and alignment of activation quantizers on a traced graph:
    src/brevitas/graph/quantize_impl.py L54-L426 and graph/quantize.py L175-L280, with the
    rewriters of graph/base.py L160-221 and graph/utils.py (replace_module).

    A traced graph is the list of its nodes in execution order.  Modules are instances that may
    be registered under several names; a quantizer is a [tensor_quant] object, identified by a
    number, with its scaling modules, its sign and its bit width.

    Simplifications.  Activation quantizers are enabled integer quantizers (a disabled one makes
    [_tensor_quant_in_list] raise AttributeError).  The activation-equalization special case of
    act_handler (L410-422) is not modelled.  Exceptions are [None]. *)
From Coq Require Import List Bool Arith ZArith QArith Lia.
Import ListNotations.
Local Open Scope nat_scope.

(** Names under which modules are registered in the GraphModule: names of the original model and
    the names built at L63, L206, L319 from a node's name. *)
Inductive mname := MOrig (k : nat) | MIn (n : nat) | MOut (n : nat) | MQuant (n : nat).
Definition mname_eqb (a b : mname) : bool :=
  match a, b with
  | MOrig i, MOrig j | MIn i, MIn j | MOut i, MOut j | MQuant i, MQuant j => i =? j
  | _, _ => false
  end.

(** Call_function targets: torch.reshape, torch.flatten, torch.transpose, torch.cat, ADD_FNS
    (L17: torch.add, operator.add, operator.iadd) with the [alpha] of torch.add and the operands
    that are Python numbers (summed in [c]: they are not graph nodes), anything else. *)
Inductive fn := FReshape | FFlatten | FTranspose | FCat | FAdd (alpha c : Q) | FOther (f : nat).
(** Call_method targets. *)
Inductive meth :=
  MView | MReshape | MFlatten | MT | MPermute | MTranspose | MAdd (alpha c : Q) | MOther (f : nat).

Inductive op :=
| OPlaceholder
| OGetAttr
| OModule (m : mname) (ins : list nat)
| OFn (f : fn) (ins : list nat)
| OMeth (m : meth) (ins : list nat)
| OOutput (ins : list nat).

Definition node := (nat * op)%type.

(** A tensor_quant object: the identity of its scaling_impl and int_scaling_impl modules, sign
    and bit width. *)
Record tqrec := TQ { t_sc : nat; t_isc : nat; t_signed : bool; t_bw : Z }.

(** Quantized activation layers (nn/quant_activation.py).  [q_insigned] is
    [input_quant.is_signed] (proxy/quant_proxy.py L83): [None] unless an input quantizer or a
    [signed] attribute is configured, because NoneActQuant defines none; QuantIdentity always
    passes input_quant=None (L113-115). *)
Record qact := QA { q_identity : bool; q_insigned : option bool; q_tq : nat; q_fun : nat }.

(** Modules.
    [FpAct keys unsigned f]: float activation, instance of a key of quant_act_map / member of
    unsigned_act_tuple; [Pass prec f]: SIGN_PRESERVING_MODULES, [prec] when also in
    PRECISION_PRESERVING_MODULES (L21-48); [QAct]; [BNorm]: BATCH_NORM (L52);
    [Other inq outq f]: any other module, with the is_signed of its input_quant attribute if it
    has one and whether it has an output_quant attribute. *)
Inductive module :=
| FpAct (keys unsigned : bool) (f : nat)
| Pass (prec : bool) (f : nat)
| QAct (q : qact)
| BNorm (f : nat)
| Other (inq : option (option bool)) (outq : bool) (f : nat).

Record st := ST {
  nodes : list node;
  reg : list (mname * nat);          (* registered modules, in registration order *)
  inst : nat -> module;              (* instances *)
  tqs : nat -> tqrec;                (* tensor_quant objects *)
  next : nat }.                      (* all identifiers below [next] may be in use *)

Definition ins_of (o : op) : list nat :=
  match o with
  | OPlaceholder | OGetAttr => []
  | OModule _ i | OFn _ i | OMeth _ i | OOutput i => i
  end.
Definition set_ins (o : op) (i : list nat) : op :=
  match o with
  | OPlaceholder => OPlaceholder | OGetAttr => OGetAttr
  | OModule m _ => OModule m i | OFn f _ => OFn f i | OMeth m _ => OMeth m i
  | OOutput _ => OOutput i
  end.

(** [node.all_input_nodes]: the distinct operand nodes in order of first use. *)
Fixpoint dedup (l : list nat) : list nat :=
  match l with
  | [] => []
  | x :: l' => x :: filter (fun y => negb (y =? x)) (dedup l')
  end.
Definition all_input_nodes (o : op) : list nat := dedup (ins_of o).

Definition find_node (ns : list node) (i : nat) : option op :=
  match find (fun n => fst n =? i) ns with Some n => Some (snd n) | None => None end.
Definition lookup_reg (r : list (mname * nat)) (m : mname) : option nat :=
  match find (fun p => mname_eqb (fst p) m) r with Some p => Some (snd p) | None => None end.

(** graph/utils.py get_module: the instance registered under a name. *)
Definition get_module (s : st) (m : mname) : option module :=
  match lookup_reg (reg s) m with Some i => Some (inst s i) | None => None end.

(** ** are_inputs_unsigned, L73-100.  The list is accumulated; nodes that are neither modules,
    functions nor methods (placeholders, get_attr) append nothing.  [fuel] bounds the recursion
    depth (the number of nodes suffices on an acyclic graph). *)
Definition fn_sign_preserving (f : fn) : bool :=
  match f with FReshape | FFlatten | FTranspose | FCat | FAdd _ _ => true | FOther _ => false end.
Definition meth_sign_preserving (m : meth) : bool :=
  match m with MView | MReshape | MFlatten | MT | MPermute | MAdd _ _ => true | _ => false end.

Fixpoint unsigned_list (fuel : nat) (s : st) (ins : list nat) : list bool :=
  match fuel with
  | O => []
  | S k =>
      flat_map (fun i =>
        match find_node (nodes s) i with
        | Some (OModule m _ as o) =>
            match get_module s m with
            | Some (FpAct keys u _) => if keys && u then [true] else [false]
            | Some (Pass _ _) => unsigned_list k s (all_input_nodes o)
            | Some (QAct q) => [match q_insigned q with Some true => false | _ => true end]
            | Some (BNorm _) => [false]
            | Some (Other (Some sg) _ _) => [match sg with Some true => false | _ => true end]
            | Some (Other None _ _) => [false]
            | None => [false]
            end
        | Some (OFn f _ as o) =>
            if fn_sign_preserving f then unsigned_list k s (all_input_nodes o) else [false]
        | Some (OMeth m _ as o) =>
            if meth_sign_preserving m then unsigned_list k s (all_input_nodes o) else [false]
        | _ => []
        end) ins
  end.
Definition are_inputs_unsigned (s : st) (o : op) : bool :=
  forallb (fun b => b) (unsigned_list (length (nodes s)) s (all_input_nodes o)).

(** ** _tensor_quant_in_list, L103-113. *)
Definition tq_matches (tq : nat -> tqrec) (same_sign : bool) (a b : nat) : bool :=
  if same_sign then a =? b
  else (t_sc (tq a) =? t_sc (tq b)) && (t_isc (tq a) =? t_isc (tq b)).
Definition tq_in_list (tq : nat -> tqrec) (same_sign : bool) (a : nat) (l : list (option nat)) : bool :=
  existsb (fun m => match m with Some b => tq_matches tq same_sign a b | None => false end) l.

(** ** are_inputs_quantized_and_aligned, L116-165: the accumulated list of quantizers. *)
Inductive traverse := Follow (same : bool) | Stop.
Definition fn_align (f : fn) (same : bool) : traverse :=
  match f with
  | FReshape | FFlatten | FTranspose => Follow same
  | FCat => Follow true
  | FAdd _ _ => Follow false
  | FOther _ => Stop
  end.
Definition meth_align (m : meth) (same : bool) : traverse :=
  match m with
  | MView | MReshape | MFlatten | MT | MPermute => Follow same
  | MAdd _ _ => Follow false
  | MTranspose | MOther _ => Stop
  end.

Fixpoint quant_list (fuel : nat) (s : st) (same : bool) (ins : list nat) (acc : list (option nat))
  : list (option nat) :=
  match fuel with
  | O => acc
  | S k =>
      fold_left (fun acc i =>
        match find_node (nodes s) i with
        | Some (OModule m _ as o) =>
            match get_module s m with
            | Some (Pass true _) => quant_list k s same (all_input_nodes o) acc
            | Some (QAct q) =>
                if tq_in_list (tqs s) same (q_tq q) acc then acc else acc ++ [Some (q_tq q)]
            | _ => acc ++ [None]
            end
        | Some (OFn f _ as o) =>
            match fn_align f same with
            | Follow same' => quant_list k s same' (all_input_nodes o) acc
            | Stop => acc ++ [None]
            end
        | Some (OMeth m _ as o) =>
            match meth_align m same with
            | Follow same' => quant_list k s same' (all_input_nodes o) acc
            | Stop => acc ++ [None]
            end
        | _ => acc
        end) ins acc
  end.

(** L160-165. *)
Definition aligned_list (l : list (option nat)) : bool :=
  if existsb (fun x => match x with None => true | Some _ => false end) l then false
  else negb (1 <? length l).
Definition are_inputs_quantized_and_aligned (s : st) (o : op) (same : bool) : bool :=
  aligned_list (quant_list (length (nodes s)) s same (all_input_nodes o) []).

(** ** Updates of the graph module. *)
Definition set_nodes (s : st) (ns : list node) : st := ST ns (reg s) (inst s) (tqs s) (next s).
Definition upd {A} (f : nat -> A) (i : nat) (v : A) : nat -> A := fun j => if j =? i then v else f j.

(** model.add_module: overwrite in place or append. *)
Fixpoint reg_set (r : list (mname * nat)) (m : mname) (i : nat) : list (mname * nat) :=
  match r with
  | [] => [(m, i)]
  | (n, j) :: r' => if mname_eqb n m then (n, i) :: r' else (n, j) :: reg_set r' m i
  end.

(** A new instance. *)
Definition new_inst (s : st) (m : module) : nat * st :=
  (next s, ST (nodes s) (reg s) (upd (inst s) (next s) m) (tqs s) (S (next s))).
(** A new tensor_quant object. *)
Definition new_tq (s : st) (t : tqrec) : nat * st :=
  (next s, ST (nodes s) (reg s) (inst s) (upd (tqs s) (next s) t) (S (next s))).
Definition add_module (s : st) (m : mname) (i : nat) : st :=
  ST (nodes s) (reg_set (reg s) m i) (inst s) (tqs s) (next s).

(** The entries of quant_identity_map: is_signed of the input proxy (None for the library's
    map) and the bit width; the sign is the key ('signed'/'unsigned'). *)
Record ident := Ident { id_insigned : option bool; id_bw : Z }.
Record idmap := IdMap { id_signed : ident; id_unsigned : ident }.

(** quant_module_class( **kwargs): a fresh QuantIdentity with its own scaling modules. *)
Definition new_identity (im : idmap) (signed : bool) (s : st) : nat * st :=
  let e := if signed then id_signed im else id_unsigned im in
  let '(t, s) := new_tq s (TQ (next s) (next s) signed (id_bw e)) in
  new_inst s (QAct (QA true (id_insigned e) t 0)).

(** replace_all_uses_except, graph/utils.py L45-73. *)
Definition replace_uses (ns : list node) (old new : nat) (except : list nat) : list node :=
  map (fun n =>
    if existsb (Nat.eqb (fst n)) except then n
    else (fst n, set_ins (snd n) (map (fun i => if i =? old then new else i) (ins_of (snd n))))) ns.

Fixpoint insert_after (ns : list node) (i : nat) (n : node) : list node :=
  match ns with
  | [] => []
  | m :: ns' => if fst m =? i then m :: n :: ns' else m :: insert_after ns' i n
  end.

(** Rewriters, graph/base.py L160-221.  [RInsert]: InsertModuleCallAfter; [RInstance]:
    ModuleInstanceToModuleInstance; [RNewAct]: the same with a module built by align_input_quant;
    [RNewId]: ModuleToModuleByInstance with a QuantIdentity. *)
Inductive rewriter :=
| RInsert (m : mname) (node : nat) (except : list nat)
| RInstance (old new : nat)
| RNewAct (old : nat) (q : qact) (t : option tqrec)   (* [t = Some r]: with a new tensor_quant *)
| RError.

(** replace_module (graph/utils.py): the first name of the old instance, if it is still
    registered, is bound to the new instance. *)
Fixpoint replace_first (r : list (mname * nat)) (old new : nat) : list (mname * nat) :=
  match r with
  | [] => []
  | (n, j) :: r' => if j =? old then (n, new) :: r' else (n, j) :: replace_first r' old new
  end.
Definition replace_instance (s : st) (old new : nat) : st :=
  ST (nodes s) (replace_first (reg s) old new) (inst s) (tqs s) (next s).

Definition apply_rw (s : st) (r : rewriter) : option st :=
  match r with
  | RInsert m n except =>
      let id := next s in
      Some (ST (replace_uses (insert_after (nodes s) n (id, OModule m [n])) n id (id :: except))
               (reg s) (inst s) (tqs s) (S id))
  | RInstance old new => Some (replace_instance s old new)
  | RNewAct old q None =>
      let '(i, s) := new_inst s (QAct q) in Some (replace_instance s old i)
  | RNewAct old q (Some t) =>
      let '(k, s) := new_tq s t in
      let '(i, s) := new_inst s (QAct (QA (q_identity q) (q_insigned q) k (q_fun q))) in
      Some (replace_instance s old i)
  | RError => None
  end.
Fixpoint apply_rws (s : st) (rs : list rewriter) : option st :=
  match rs with
  | [] => Some s
  | r :: rs' => match apply_rw s r with Some s' => apply_rws s' rs' | None => None end
  end.

(** ** align_input_quant, graph/quantize.py L230-280.  [inst_id] is the module reached;
    [const_sc] tells which scaling modules are ParameterScaling or ConstScaling; [name] the name
    of the shared quantizer, [shared] its instance. The [output_quant] case passes a QuantIdentity
    where a quantization proxy is required, which nn/mixin/base.py L54-56 rejects. *)
Definition opt_bool_eqb (a b : option bool) : bool :=
  match a, b with
  | None, None => true | Some x, Some y => Bool.eqb x y | _, _ => false
  end.
Definition truthy (a : option bool) : bool := match a with Some true => true | _ => false end.

Inductive align_out := AReplace (r : rewriter) | AInsert.
Definition align_input_quant (im : idmap) (const_sc : nat -> bool) (s : st) (inst_id shared : nat)
  (align_sign : bool) : align_out :=
  match inst s shared with
  | QAct sh =>
      match inst s inst_id with
      | QAct q =>
          if q_identity q then
            if align_sign || opt_bool_eqb (q_insigned q) (q_insigned sh) then
              AReplace (RInstance inst_id shared)
            else if negb (truthy (q_insigned q)) && truthy (q_insigned sh) then
              AReplace (RNewAct inst_id
                (QA true (id_insigned (id_unsigned im)) 0 0)
                (Some (TQ (t_sc (tqs s (q_tq sh))) (t_isc (tqs s (q_tq sh))) false
                          (id_bw (id_unsigned im)))))
            else AReplace RError                                   (* the assert of L241 *)
          else if const_sc (t_sc (tqs s (q_tq q))) then AInsert
          else if align_sign then
            AReplace (RNewAct inst_id (QA false None (q_tq sh) (q_fun q)) None)
          else
            AReplace (RNewAct inst_id (QA false None 0 (q_fun q))
              (Some (TQ (t_sc (tqs s (q_tq sh))) (t_isc (tqs s (q_tq sh)))
                        (t_signed (tqs s (q_tq q))) (t_bw (tqs s (q_tq q))))))
      | Other _ true _ => AReplace RError
      | _ => AInsert
      end
  | _ => AInsert
  end.

(** ** recursive_input_handler, L217-305: the list of rewriters for one ADD or CAT node. *)
Definition fn_handler (f : fn) (a : bool) : traverse :=
  match f with
  | FReshape | FFlatten | FTranspose => Follow a
  | FCat => Follow true
  | FAdd _ _ | FOther _ => Stop
  end.
Definition meth_handler (m : meth) (a : bool) : traverse :=
  match m with
  | MView | MReshape | MFlatten | MTranspose => Follow a
  | _ => Stop
  end.

Fixpoint input_handler (fuel : nat) (im : idmap) (const_sc : nat -> bool) (s : st)
  (name : mname) (shared : nat) (align_sign : bool) (ins : list nat) : list rewriter :=
  match fuel with
  | O => []
  | S k =>
      flat_map (fun i =>
        match find_node (nodes s) i with
        | Some (OModule m _ as o) =>
            match lookup_reg (reg s) m with
            | None => [RError]
            | Some j =>
                match inst s j with
                | Pass true _ =>
                    input_handler k im const_sc s name shared align_sign (all_input_nodes o)
                | _ =>
                    match align_input_quant im const_sc s j shared align_sign with
                    | AReplace r => [r]
                    | AInsert => [RInsert name i []]
                    end
                end
            end
        | Some (OFn f _ as o) =>
            match fn_handler f align_sign with
            | Follow a => input_handler k im const_sc s name shared a (all_input_nodes o)
            | Stop => [RInsert name i []]
            end
        | Some (OMeth m _ as o) =>
            match meth_handler m align_sign with
            | Follow a => input_handler k im const_sc s name shared a (all_input_nodes o)
            | Stop => [RInsert name i []]
            end
        | _ => [RInsert name i []]
        end) ins
  end.

(** ADD and CAT nodes, L331-332, and the flag [same_sign = node.target is torch.cat], L336. *)
Definition add_or_cat (o : op) : option bool :=
  match o with
  | OFn (FAdd _ _) _ | OMeth (MAdd _ _) _ => Some false
  | OFn FCat _ => Some true
  | _ => None
  end.

(** is_converged, L328-366: [inl tt] when every ADD and CAT is aligned, otherwise the first one
    that is not is rewritten. *)
Definition needs_work (s : st) (n : node) : option bool :=
  match add_or_cat (snd n) with
  | Some same => if are_inputs_quantized_and_aligned s (snd n) same then None else Some same
  | None => None
  end.
Fixpoint first_misaligned (s : st) (ns : list node) : option (node * bool) :=
  match ns with
  | [] => None
  | n :: ns' => match needs_work s n with
                | Some same => Some (n, same)
                | None => first_misaligned s ns'
                end
  end.
(** One rewrite: _get_quant_module (L308-321), recursive_input_handler, the rewriters. *)
Definition align_node (im : idmap) (const_sc : nat -> bool) (s : st) (n : node) (same : bool)
  : option st :=
  let signed := negb (are_inputs_unsigned s (snd n)) in
  let '(shared, s1) := new_identity im signed s in
  let s2 := add_module s1 (MQuant (fst n)) shared in
  apply_rws s2 (input_handler (length (nodes s2)) im const_sc s2 (MQuant (fst n)) shared same
                  (all_input_nodes (snd n))).
Inductive outcome := Converged | Rewritten (s : st) | Raised.
Definition is_converged (im : idmap) (const_sc : nat -> bool) (s : st) : outcome :=
  match first_misaligned s (nodes s) with
  | None => Converged
  | Some (n, same) =>
      match align_node im const_sc s n same with Some s' => Rewritten s' | None => Raised end
  end.
(** residual_handler, L324-375, with [iters] = MAX_RESIDUAL_ITERS (9999): the iteration that
    reaches it raises RuntimeError. *)
Fixpoint residual_handler (im : idmap) (const_sc : nat -> bool) (iters : nat) (s : st) : option st :=
  match is_converged im const_sc s with
  | Converged => Some s
  | Raised => None
  | Rewritten s' =>
      match iters with
      | O | S O => None
      | S k => residual_handler im const_sc k s'
      end
  end.

(** ** inp_placeholder_handler, L54-70. *)
Definition inp_placeholder_handler (im : idmap) (s : st) : st :=
  let ph := map fst (filter (fun n => match snd n with OPlaceholder => true | _ => false end) (nodes s)) in
  let '(rs, s) :=
    fold_left (fun '(rs, s) n =>
      let '(i, s) := new_identity im true s in
      (rs ++ [RInsert (MIn n) n []], add_module s (MIn n) i)) ph ([], s) in
  match apply_rws s rs with Some s' => s' | None => s end.

(** ** act_handler, L400-426, with quant_act_map given as the quantizer of each float activation
    (None: the class is not mapped). The new module replaces the first name of the instance. *)
Definition act_handler (map_act : nat -> option (bool * Z)) (s : st) : st :=
  fold_left (fun s n =>
    match snd n with
    | OModule m _ =>
        match lookup_reg (reg s) m with
        | Some j =>
            match inst s j with
            | FpAct true _ f =>
                match map_act f with
                | Some (signed, bw) =>
                    let '(t, s) := new_tq s (TQ (next s) (next s) signed bw) in
                    let '(i, s) := new_inst s (QAct (QA false None t f)) in
                    replace_instance s j i
                | None => s
                end
            | _ => s
            end
        | None => s
        end
    | _ => s
    end) (nodes s) s.

(** ** output_quant_handler, L168-214. [users]: the nodes that read a node. *)
Definition users (ns : list node) (i : nat) : list node :=
  filter (fun n => existsb (Nat.eqb i) (ins_of (snd n))) ns.
Fixpoint output_quant_handler (fuel : nat) (im : idmap) (sign_preserving : bool) (n : node)
  (s : st) (rs : list rewriter) : st * list rewriter :=
  match fuel with
  | O => (s, rs)
  | S k =>
      let '(s, rs, _) :=
        fold_left (fun '(s, rs, done) u =>
          let insert (_ : unit) :=
            if (done : bool) then (s, rs, done) else
              let signed := negb (sign_preserving && are_inputs_unsigned s (snd n)) in
              let '(i, s) := new_identity im signed s in
              (add_module s (MOut (fst n)) i, rs ++ [RInsert (MOut (fst n)) (fst n) []], true) in
          match snd u with
          | OModule m _ =>
              match get_module s m with
              | Some (QAct _) => (s, rs, done)
              | Some (BNorm _) =>
                  let '(s, rs) := output_quant_handler k im sign_preserving u s rs in (s, rs, done)
              | _ => insert tt
              end
          | _ => insert tt
          end) (users (nodes s) (fst n)) (s, rs, false) in
      (s, rs)
  end.

(** ** add_output_quant_handler, L378-397. *)
Definition is_add (o : op) : bool :=
  match o with OFn (FAdd _ _) _ | OMeth (MAdd _ _) _ => true | _ => false end.
Definition add_output_quant_handler (im : idmap) (s : st) : option st :=
  let '(s, rs) :=
    fold_left (fun '(s, rs) n =>
      if is_add (snd n) then output_quant_handler (length (nodes s)) im true n s rs else (s, rs))
      (nodes s) (s, []) in
  apply_rws s rs.

(** The first four passes of quantize, graph/quantize.py L336-345. *)
Definition quantize_front (im : idmap) (map_act : nat -> option (bool * Z)) (const_sc : nat -> bool)
  (iters : nat) (s : st) : option st :=
  match add_output_quant_handler im (act_handler map_act (inp_placeholder_handler im s)) with
  | Some s' => residual_handler im const_sc iters s'
  | None => None
  end.
