(** Model of src/brevitas/graph/gpxq.py [gpxq_mode] L69-186 and of the forward functions it installs,
    gptq.py L79-93 and gpfq.py L92-125: the order in which GPTQ and GPFQ visit the layers of a model,
    what they collect for each, and what they leave behind.  The per-layer algorithms are in Gpxq.v.

    Layers are named by their qualified names.  One forward pass of the network calls the supported
    layers in the order of [calls]; the input of the [j]-th call is a function of the batch and of the
    weights ([input true]: quantizers on, [input false]: off).  A pass that raises StopFwdException is
    cut at that call.  The set [current_layer.layer_names] is a list in order of insertion; [update]
    visits it in that order (its members do not influence each other). *)
From Coq Require Import List Bool Arith String Reals.
From Verif Require Import Calibrate.
Import ListNotations.
Open Scope string_scope.
Open Scope list_scope.
Open Scope nat_scope.

(** ** The layers to visit *)
(** ['_'.join(parallel_layers)], L131 *)
Fixpoint join (l : list string) : string :=
  match l with
  | [] => ""
  | [a] => a
  | a :: r => (a ++ "_" ++ join r)%string
  end.
(** A dictionary from keys to lists of layer names, in order of insertion. *)
Definition dict := list (string * list string).
Definition has_key (k : string) (d : dict) : bool := existsb (fun e => String.eqb (fst e) k) d.
Definition del_key (k : string) (d : dict) : dict := filter (fun e => negb (String.eqb (fst e) k)) d.
Definition set_key (k : string) (v : list string) (d : dict) : dict :=
  if has_key k d then map (fun e => if String.eqb (fst e) k then (k, v) else e) d else d ++ [(k, v)].
(** L124-130: every name of a group leaves the dictionary; [None] is the ValueError. *)
Fixpoint del_all (names : list string) (d : dict) : option dict :=
  match names with
  | [] => Some d
  | n :: r => if has_key n d then del_all r (del_key n d) else None
  end.
(** L123-133; [modules]: all names [attrgetter] finds. *)
Fixpoint group (modules : list string) (groups : list (list string)) (d : dict) : option dict :=
  match groups with
  | [] => Some d
  | g :: r =>
      match del_all g d with
      | None => None
      | Some d => if forallb (fun n => existsb (String.eqb n) modules) g then group modules r (set_key (join g) g d) else None
      end
  end.
(** L118-121 *)
Definition layers_dict (modules : list string) (supported : string -> bool) (groups : list (list string)) : option dict :=
  group modules groups (map (fun n => (n, [n])) (filter supported modules)).
(** L137-158: the layers that get a hook, each with the size of its group. *)
Definition registrations (supported : string -> bool) (d : dict) : list (string * nat) :=
  flat_map (fun e => map (fun n => (n, List.length (snd e))) (filter supported (snd e))) d.

(** ** Passes, updates *)
Section Mode.
Context {W I B O : Type}.
Variable calls : list string.
Variable input : bool -> B -> nat -> (string -> W) -> I.
Variable output : bool -> B -> (string -> W) -> O.
(** [single_layer_update] of a layer: its new weight, from what has been collected and the old weight. *)
Variable solve : string -> list (bool * I) -> W -> W.

Record state := St {
  weight : string -> W;
  weight_orig : string -> option W;
  hooks : list (string * nat);
  names : list string;        (** current_layer.layer_names *)
  count : nat;                (** current_layer.forward_count *)
  collected : string -> list (bool * I);
}.
Definition hook_of (n : string) (h : list (string * nat)) : option nat :=
  match find (fun e => String.eqb (fst e) n) h with Some e => Some (snd e) | None => None end.
Definition upd {A} (n : string) (a : A) (f : string -> A) : string -> A := fun m => if String.eqb m n then a else f m.
Definition add_name (n : string) (l : list string) : list string := if existsb (String.eqb n) l then l else l ++ [n].
(** nn/mixin/parameter.py L45-47: with the weight quantizer off, the stored original weight is used. *)
Definition seen (quant : bool) (st : state) : string -> W :=
  fun n => if quant then weight st n else match weight_orig st n with Some w => w | None => weight st n end.
(** gptq.py L142-201, gpfq.py L151-213 [update_batch]; the flag tells whether StopFwdException is raised. *)
Definition update_batch (quant : bool) (b : B) (j : nat) (n : string) (len : nat) (st : state) : state * bool :=
  let st' := St (weight st) (weight_orig st) (hooks st) (add_name n (names st)) (S (count st))
                (upd n (collected st n ++ [(quant, input quant b j (seen quant st))]) (collected st)) in
  if S (count st) =? len then (St (weight st') (weight_orig st') (hooks st') (names st') 0 (collected st'), true) else (st', false).
(** One pass from the [j]-th call on; [disabled]: disable_pre_forward_hook. *)
Fixpoint pass (disabled quant : bool) (b : B) (j : nat) (cs : list string) (st : state) : state * bool :=
  match cs with
  | [] => (st, false)
  | n :: cs =>
      match (if disabled then None else hook_of n (hooks st)) with
      | None => pass disabled quant b (S j) cs st
      | Some len => let (st, stop) := update_batch quant b j n len st in if stop then (st, true) else pass disabled quant b (S j) cs st
      end
  end.
(** [orig_forward]: the state after it and its result, or [None] if StopFwdException is raised. *)
Definition orig_forward (disabled quant : bool) (b : B) (st : state) : state * option O :=
  let (st', stop) := pass disabled quant b 0 calls st in (st', if stop then None else Some (output quant b (seen quant st'))).
(** gptq.py L79-93 ([passes] is [true]) and gpfq.py L92-125 ([true; false]: with quantizers, then without). *)
Definition catch_stopfwd (passes : list bool) (return_forward_output : bool) (b : B) (st : state) : state * option O :=
  let st := fold_left (fun st quant => fst (orig_forward false quant b st)) passes st in
  if return_forward_output then orig_forward true true b st else (st, None).
(** gpxq.py L175-180 *)
Definition update_one (st : state) (n : string) : state :=
  St (upd n (solve n (collected st n) (weight st n)) (weight st)) (weight_orig st) (filter (fun e => negb (String.eqb (fst e) n)) (hooks st)) (names st) (count st) (collected st).
Definition update (st : state) : state :=
  let st := fold_left update_one (names st) st in St (weight st) (weight_orig st) (hooks st) [] (count st) (collected st).
(** The loop of the documentation, L59-66: the batches of each iteration, then an update. *)
Definition iteration (passes : list bool) (ret : bool) (bs : list B) (st : state) : state :=
  update (fold_left (fun st b => fst (catch_stopfwd passes ret b st)) bs st).
Definition loop (passes : list bool) (ret : bool) (bss : list (list B)) (st : state) : state :=
  fold_left (fun st bs => iteration passes ret bs st) bss st.
(** Entering on a model with weights [w] and stored weights [o], L193-206. *)
Definition enter (create_weight_orig : bool) (regs : list (string * nat)) (w : string -> W) (o : string -> option W) : state :=
  St w (fun n => match o n with
                 | Some x => Some x
                 | None => if create_weight_orig && existsb (fun e => String.eqb (fst e) n) regs then Some (w n) else None
                 end) regs [] 0 (fun _ => []).
End Mode.

(** ** The Hessian of GPTQ, one entry (gptq.py L186-192): batches give their size and their entry of X X^T. *)
Definition hessian_step (st : R * R) (x : R * R) : R * R :=
  let (H, n) := st in
  let (size, g) := x in
  let H := (H * (n / (n + size)))%R in
  let n := (n + size)%R in
  ((H + sqrt (2 / n) * sqrt (2 / n) * g)%R, n).
Definition hessian (l : list (R * R)) : R * R := fold_left hessian_step l (0%R, 0%R).

(** ** The forward function and the flags of the model *)
(** What [model.forward] is: the model's own, or [catch_stopfwd]. *)
Inductive fwd := Orig | Catch.
(** [with gptq_mode(...)]: the constructor replaces the forward function (L99-104), L118-133 may raise,
    [__exit__] restores it whether or not the block raises. *)
Definition forward_after (modules : list string) (supported : string -> bool) (groups : list (list string)) (body_raises : bool) : fwd :=
  match layers_dict modules supported groups with
  | None => Catch
  | Some _ => Orig
  end.

Section Flags.
  Variable kind_of : nat -> kind.
  Variable mods : list nat.
  Variable subs : nat -> list nat.
  Variable root : nat.
  (** calibrate.py L218-222, L242-246 *)
  Definition disable_bias (is_training : bool) (st : Calibrate.state) : Calibrate.state :=
    for_each mods (fun m s => match kind_of m with KBias => Calibrate.upd (train subs m is_training s) m (set_disable true) | _ => s end) st.
  Definition enable_bias (is_training : bool) (st : Calibrate.state) : Calibrate.state :=
    for_each mods (fun m s => match kind_of m with KBias => train subs m is_training (Calibrate.upd s m (set_disable false)) | _ => s end) st.
  (** L160-165; the first component is [return_quant_tensor_state]. *)
  Definition mode_enter (use_quant : bool) (st : Calibrate.state) : saved * Calibrate.state :=
    if use_quant then ([], st)
    else
      let (sv, st) := disable_rqt mods st in
      let st := disable_act kind_of subs false mods (training (st root)) st in
      (sv, disable_bias (training (st root)) st).
  (** L170-173 *)
  Definition mode_exit (use_quant : bool) (x : saved * Calibrate.state) : Calibrate.state :=
    let (sv, st) := x in
    if use_quant then st
    else
      let st := enable_act kind_of subs mods (training (st root)) st in
      let st := enable_bias (training (st root)) st in
      restore_rqt mods sv st.
  (** gpfq.py L99-116: the float pass, [body] being what the pass itself does to the attributes. *)
  Definition gpfq_forward (use_quant : bool) (body : Calibrate.state -> Calibrate.state) (x : saved * Calibrate.state) : saved * Calibrate.state :=
    let (sv, st) := disable_rqt mods (snd x) in
    let st := disable_param kind_of subs mods false st in
    let st := body (disable_act kind_of subs false mods false st) in
    let st := enable_param kind_of subs mods false st in
    let st := if use_quant then enable_act kind_of subs mods false st else disable_bias false st in
    (sv, restore_rqt mods sv st).
  (** A [with gptq_mode] block (its passes do not touch the attributes) and a [with gpfq_mode] block. *)
  Definition with_gptq (use_quant : bool) (body : Calibrate.state -> Calibrate.state) (st : Calibrate.state) : Calibrate.state :=
    let (sv, st) := mode_enter use_quant st in mode_exit use_quant (sv, body st).
  Definition with_gpfq (use_quant : bool) (bodies : list (Calibrate.state -> Calibrate.state)) (st : Calibrate.state) : Calibrate.state :=
    mode_exit use_quant (fold_left (fun x body => gpfq_forward use_quant body x) bodies (mode_enter use_quant st)).
End Flags.
