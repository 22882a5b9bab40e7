(** Model of module replacement: src/brevitas/graph/quantize_impl.py L429-541 ([layer_handler]
    without its requantization, [find_module], [layerwise_layer_handler]),
    src/brevitas/graph/base.py L107-157 ([ModuleToModule]) and L208-221
    ([ModuleToModuleByInstance]), src/brevitas/graph/utils.py L85-125 and
    src/brevitas/graph/quantize.py L325-370 (saved and restored state).

    A module is a tree of objects.  Objects carry an identity: a module registered under several
    names is the same subtree with the same identities, and writing into an object is seen at each
    of its occurrences.  Names are paths, the lists of the atoms between the dots (torch refuses
    dots and empty strings in names of children).  The inside of a new quantized module is not
    represented: its tensors are those loaded from the old module, under the same names. *)
From Coq Require Import List Bool String Arith.
From Verif Require Import StateDict.
Import ListNotations.
Open Scope string_scope.

Definition path := list string.
Definition path_eqb (p q : path) : bool := if list_eq_dec string_dec p q then true else false.
(** _module_class_name and the keys of the normalized layer map: absent, None, or the quantized
    class. *)
Definition layer_map := dict (option string).

Section Modules.
Context {X : Type}.

Inductive mtree := N (mid : nat) (mcls : string) (own : list (path * X)) (kids : list (string * mtree)).
Definition id_of (t : mtree) : nat := match t with N i _ _ _ => i end.
Definition cls_of (t : mtree) : string := match t with N _ c _ _ => c end.
Definition own_of (t : mtree) : list (path * X) := match t with N _ _ o _ => o end.
Definition kids_of (t : mtree) : list (string * mtree) := match t with N _ _ _ k => k end.
Definition mem (i : nat) (l : list nat) : bool := existsb (Nat.eqb i) l.

(** torch (external): state_dict, named_modules and named_children; the latter two skip objects
    already met. *)
Fixpoint state_dict (t : mtree) : list (path * X) :=
  match t with
  | N _ _ o ks => (o ++ flat_map (fun x => map (fun y => (fst x :: fst y, snd y)) (state_dict (snd x))) ks)%list
  end.
Fixpoint named_modules (seen : list nat) (p : path) (t : mtree) : list (path * mtree) * list nat :=
  match t with
  | N i _ _ ks =>
      if mem i seen then ([], seen)
      else let rs := (fix go seen ks :=
                        match ks with
                        | [] => ([], seen)
                        | x :: ks =>
                            let r1 := named_modules seen (p ++ [fst x])%list (snd x) in
                            let r2 := go (snd r1) ks in
                            ((fst r1 ++ fst r2)%list, snd r2)
                        end) (i :: seen) ks in
           ((p, t) :: fst rs, snd rs)
  end.
Fixpoint fresh_kids (seen : list nat) (ks : list (string * mtree)) : list (string * mtree) :=
  match ks with
  | [] => []
  | x :: ks => if mem (id_of (snd x)) seen then fresh_kids seen ks else x :: fresh_kids (id_of (snd x) :: seen) ks
  end.
Definition named_children (t : mtree) : list (string * mtree) := fresh_kids [] (kids_of t).

(** quantize_impl.py L502-521.  [fuel] bounds the depth. *)
Fixpoint find_module (lm : layer_map) (black : list path) (fuel : nat) (p : path) (t : mtree) : list mtree :=
  match fuel with
  | O => []
  | S fuel =>
      if existsb (String.eqb (cls_of t)) (keys lm) then [t]
      else flat_map (fun x => let full := (p ++ [fst x])%list in
                       if existsb (path_eqb full) black then [] else find_module lm black fuel full (snd x))
             (named_children t)
  end.

(** utils.py L85-93: the parent of a name; the parent of the empty name is the module itself. *)
Fixpoint walk (t : mtree) (p : path) : option mtree :=
  match p with
  | [] => Some t
  | a :: p => match get (kids_of t) a with Some k => walk k p | None => None end
  end.
(** [supermodule._modules[name] = new], at each occurrence of the object. *)
Fixpoint write (pid : nat) (name : string) (new t : mtree) : mtree :=
  match t with
  | N i c o ks =>
      let ks' := map (fun x => (fst x, write pid name new (snd x))) ks in
      N i c o (if Nat.eqb i pid then set ks' name new else ks')
  end.
(** utils.py L96-98; ''.split('.') is ['']. *)
Definition set_module (t new : mtree) (p : path) : option mtree :=
  match rev p with
  | [] => Some (write (id_of t) "" new t)
  | name :: q => match walk t (rev q) with Some u => Some (write (id_of u) name new t) | None => None end
  end.
(** base.py L140-157 and L214-221: the first name of the instance; [next] is the identity of the
    new object. *)
Definition replace (next : nat) (old : nat) (q : string) (t : mtree) : option mtree :=
  match find (fun x => Nat.eqb (id_of (snd x)) old) (fst (named_modules [] [] t)) with
  | None => Some t
  | Some (p, m) => set_module t (N next q (state_dict m) []) p
  end.
(** quantize_impl.py L529-541 *)
Fixpoint rewriters (lm : layer_map) (ms : list mtree) : list (nat * string) :=
  match ms with
  | [] => []
  | m :: ms => match get lm (cls_of m) with Some (Some q) => (id_of m, q) :: rewriters lm ms | _ => rewriters lm ms end
  end.
Fixpoint apply_all (next : nat) (rs : list (nat * string)) (t : mtree) : option mtree :=
  match rs with
  | [] => Some t
  | (i, q) :: rs => match replace next i q t with Some t' => apply_all (S next) rs t' | None => None end
  end.
Fixpoint ids (t : mtree) : list nat := match t with N i _ _ ks => i :: flat_map (fun x => ids (snd x)) ks end.
Definition next_id (t : mtree) : nat := S (list_max (ids t)).
Fixpoint depth (t : mtree) : nat := match t with N _ _ _ ks => S (list_max (map (fun x => depth (snd x)) ks)) end.
Definition layerwise (lm : layer_map) (black : list path) (t : mtree) : option mtree :=
  apply_all (next_id t) (rewriters lm (find_module lm black (depth t) [] t)) t.
End Modules.
Arguments mtree X : clear implicits.

(** ** base.py L114-152: the arguments of the new constructor *)
Inductive value := VNone | VBool (b : bool) | VNat (n : nat) | VOther (s : string).
(** A keyword of the rewriter: a value, or a lambda of one or two arguments (applied to the old
    module and its name) or of another number of arguments. *)
Inductive keyword := Val (v : value) | Lam1 (f : dict value -> value) | Lam2 (f : dict value -> string -> value) | LamN (s : string).
(** L114-122; [attrs] is vars(module), [bias] the attribute where there is one (a parameter, None,
    or a boolean for recurrent layers). *)
Definition module_attributes (attrs : dict value) (bias : option value) : dict value :=
  match bias with Some b => set attrs "bias" b | None => attrs end.
Definition is_none (v : value) : bool := match v with VNone => true | _ => false end.
Definition map_origin_vars (attrs : dict value) : dict value :=
  map (fun x => if String.eqb (fst x) "bias" then (fst x, VBool (negb (is_none (snd x)))) else x) attrs.
(** L124-138; None is an exception (a lambda called with the wrong number of arguments). *)
Definition eval_keyword (attrs : dict value) (name : option string) (k : keyword) : option value :=
  match k, name with
  | Val v, _ => Some v
  | Lam1 f, _ => Some (f attrs)
  | Lam2 f, Some n => Some (f attrs n)
  | Lam2 f, None => None
  | LamN s, Some _ => Some (VOther s)
  | LamN s, None => None
  end.
Fixpoint update_keywords (attrs : dict value) (name : option string) (kw : dict keyword) (d : dict value) : option (dict value) :=
  match kw with
  | [] => Some d
  | (k, v) :: kw => match eval_keyword attrs name v with Some x => update_keywords attrs name kw (set d k x) | None => None end
  end.
(** L140-152; [sig] is the signature of the new class. *)
Definition new_kwargs (sig : list string) (kw : dict keyword) (attrs : dict value) (bias : option value) (name : option string) : option (dict value) :=
  let d := map_origin_vars (module_attributes attrs bias) in
  update_keywords (module_attributes attrs bias) name kw (filter (fun x => existsb (String.eqb (fst x)) sig) d).

(** ** quantize_impl.py L429-493 [layer_handler], without the requantization of L444-466 and the
    input quantizer of L471-487.
    [subclass a b]: issubclass(a, b); a named module is an object of a class; [ns] are the targets of the
    call_module nodes.  None is an exception: an unknown target or a KeyError of
    [layer_map[type(module)]]. *)
Section LayerHandler.
Variables (subclass : string -> string -> bool) (lm : layer_map).
Definition mods := dict (nat * string).
Fixpoint first_name (i : nat) (ms : mods) : option string :=
  match ms with [] => None | (n, (j, _)) :: ms => if Nat.eqb i j then Some n else first_name i ms end.
Fixpoint layer_handler (next : nat) (ns : list string) (ms : mods) : option mods :=
  match ns with
  | [] => Some ms
  | n :: ns =>
      match get ms n with
      | None => None
      | Some (i, c) =>
          if existsb (subclass c) (keys lm) then
            match get lm c with
            | None => None
            | Some None => layer_handler next ns ms
            | Some (Some q) =>
                match first_name i ms with
                | Some x => layer_handler (S next) ns (set ms x (next, q))
                | None => layer_handler next ns ms
                end
            end
          else layer_handler next ns ms
      end
  end.
End LayerHandler.

(** ** quantize.py L332-355 and L362-369: the training flag of each module and the configuration
    flag.  [body] is the work between; it returns None on an exception, with the flags left. *)
Inductive ftree := F (flag : bool) (sub : list ftree).
Fixpoint train (b : bool) (t : ftree) : ftree := match t with F _ ks => F b (map (train b) ks) end.
Definition root_flag (t : ftree) : bool := match t with F b _ => b end.
(** The configuration flag and the model after the call; the boolean says whether it raised. *)
Definition guarded (body : ftree -> option ftree) (cfg : bool) (t : ftree) : bool * bool * ftree :=
  let t1 := train false t in
  match body t1 with
  | None => (true, true, t1)
  | Some t2 => (false, cfg, train (root_flag t) t2)
  end.
