(** C88: the standardization passes run before quantization keep what the graph computes - as long
    as the names they generate are free and the graphs have the expected shape; otherwise they
    raise, or compute another function. *)
From Coq Require Import List Permutation Bool String Ascii Arith QArith Lia.
From Verif Require Import StateDict StateDictProps Standardize StandardizeProofs.
Import ListNotations.
Open Scope nat_scope.
Open Scope string_scope.

(** ** Duplication of shared stateless modules *)
(** What torch.fx guarantees of a traced graph, with methods named unlike any module: *)
Definition wf_traced {V} (ns : graph V) (t : table V) : Prop :=
  NoDup (map fst t)
  /\ (forall n, In n ns -> nop n = CallModule -> In (ntarget n) (map fst t))
  /\ (forall n, In n ns -> nop n = CallMethod \/ nop n = Placeholder \/ nop n = Output -> ~ In (ntarget n) (map fst t)).
(** No stateless module "m" lives beside a module "m_1", "m_2", ... *)
Definition numbered_names_free {V} (t : table V) : Prop :=
  forall name m k, In (name, m) t -> stateful m = false -> 1 <= k -> ~ In (name ++ "_" ++ str_of k) (map fst t).

Lemma wf_traced_traced {V} (ns : graph V) t : wf_traced ns t -> traced ns t.
Proof.
  intros (A & B & C). split; [exact A|]. split; [exact B|]. intros n Hn Hs Hc. apply C; [exact Hn|].
  unfold str_target in Hs. destruct (nop n); try discriminate; auto. congruence.
Qed.
Lemma free_no_clash {V} (t : table V) : numbered_names_free t -> no_clash t.
Proof. intros H name m k Hi Hs. apply (H name m (S k)); [exact Hi|exact Hs|lia]. Qed.

Theorem C88_duplicate_preserves {V} (ns : graph V) t : wf_traced ns t -> numbered_names_free t ->
  forall meth inp env, run meth inp (snd (duplicate ns t)) (fst (duplicate ns t)) env = run meth inp t ns env.
Proof.
  intros W F meth inp env. pose proof (duplicate_inv ns t (free_no_clash t F) (wf_traced_traced _ _ W)) as Iv.
  destruct (duplicate ns t) as [ns' t']. apply alike_run, Iv.
Qed.

Lemma get_some_in {A} (d : dict A) k v : get d k = Some v -> In (k, v) d.
Proof.
  induction d as [|[a u] d IH]; [discriminate|]. cbn [get]. destruct (String.eqb_spec a k) as [->|_]; [intros H; injection H as ->; left; reflexivity|].
  intros H. right. apply IH. exact H.
Qed.
(** Afterwards two calls of one module happen only if it has parameters or buffers. *)
Lemma shared_sound {V} (ok : string -> Prop) (ns : list (node V)) : shared_in ok ns ->
  forall i j a b, i < j -> nth_error ns i = Some a -> nth_error ns j = Some b -> nop a = CallModule -> nop b = CallModule ->
  ntarget a = ntarget b -> ok (ntarget a).
Proof.
  induction ns as [|n ns IH]; intros Sh i j a b L Ha Hb Oa Ob E; [destruct i; discriminate|]. destruct Sh as (S1 & S2).
  destruct j as [|j]; [lia|]. cbn [nth_error] in Hb. destruct i as [|i].
  - injection Ha as ->. apply (S1 b); [apply nth_error_In in Hb; exact Hb|assumption..].
  - apply (IH S2 i j a b); try assumption. lia.
Qed.
Theorem C88_duplicate_unshares {V} (ns : graph V) t : wf_traced ns t -> numbered_names_free t ->
  forall i j a b m, i < j -> nth_error (fst (duplicate ns t)) i = Some a -> nth_error (fst (duplicate ns t)) j = Some b ->
  nop a = CallModule -> nop b = CallModule -> ntarget a = ntarget b -> get (snd (duplicate ns t)) (ntarget a) = Some m ->
  stateful m = true.
Proof.
  intros W F i j a b m L Ha Hb Oa Ob E G. pose proof (duplicate_inv ns t (free_no_clash t F) (wf_traced_traced _ _ W)) as Iv.
  destruct (duplicate ns t) as [ns' t']. cbn [fst snd] in *. destruct Iv as (_ & _ & Gt & _ & _ & _ & Sh).
  destruct (shared_sound _ _ Sh i j a b L Ha Hb Oa Ob E) as (K & H). apply H.
  rewrite (proj1 (Gt _ K)) in G. apply get_some_in; exact G.
Qed.
(** Parameters are never copied: stateful modules stay the ones called. *)
Theorem C88_duplicate_keeps_stateful {V} (ns : graph V) t : wf_traced ns t -> numbered_names_free t ->
  forall i a b m, nth_error ns i = Some a -> nth_error (fst (duplicate ns t)) i = Some b ->
  nop a = CallModule -> get t (ntarget a) = Some m -> stateful m = true -> ntarget b = ntarget a.
Proof.
  intros W F.
  assert (Gen : forall todo (st : graph V * table V), (forall x, In x todo -> In x t) ->
            forall i a b m, nth_error (fst st) i = Some a -> nth_error (fst (fold_left dup_step todo st)) i = Some b ->
            nop a = CallModule -> get t (ntarget a) = Some m -> stateful m = true -> ntarget b = ntarget a).
  { induction todo as [|[name m'] todo IH]; intros st Sub i a b m Ha Hb Oa G Hs; cbn [fold_left] in Hb; [congruence|].
    unfold dup_step in Hb at 2. cbn [fst snd] in Hb.
    destruct (stateful m') eqn:Sm.
    - apply (IH st) with (i := i) (m := m); auto. intros x Hx. apply Sub. right. exact Hx.
    - apply (IH (dup_nodes name m' None (fst st) (snd st))) with (i := i) (m := m); auto; [intros x Hx; apply Sub; right; exact Hx|].
      assert (Nh : hit name a = false).
      { apply not_true_iff_false. intros Hh. apply hit_iff in Hh; [|exact Oa]. rewrite Hh in G.
        rewrite (in_get t name m' (proj1 W) (Sub _ (or_introl eq_refl))) in G. congruence. }
      pose proof (dup_nodes_rel name m' (fst st) None (snd st)) as R. clear - R Ha Nh. revert i Ha.
      induction R as [k|k n x y Hh R IHR|n x y Hh R IHR|j n x y Hh R IHR]; intros i Ha; [exact Ha|..]; (destruct i as [|i]; [|apply IHR; exact Ha]);
        cbn [nth_error] in *; try exact Ha.
      injection Ha as ->. congruence. }
  intros i a b m Ha Hb. apply (Gen t (ns, t)) with (i := i); auto.
Qed.

(** The numeric example: one ReLU module called twice, a linear layer called twice. *)
Definition relu_m : module nat := Mod false (fun vs => match vs with [v] => Some (v - 3) | _ => None end).
Definition lin_m : module nat := Mod true (fun vs => match vs with [v] => Some (2 * v) | _ => None end).
Definition tbl0 : table nat := [("act", relu_m); ("fc", lin_m)].
Definition g0 : graph nat :=
  [Nd "x" Placeholder "x" []; Nd "fc" CallModule "fc" ["x"]; Nd "act" CallModule "act" ["fc"];
   Nd "fc_1" CallModule "fc" ["act"]; Nd "act_1" CallModule "act" ["fc_1"]; Nd "act_2" CallModule "act" ["act_1"];
   Nd "output" Output "output" ["act_2"]].
Definition no_meth : string -> option (list nat -> option nat) := fun _ => None.
Definition in7 : string -> option nat := fun s => if String.eqb s "x" then Some 7 else None.
Example C88_duplicate_example : wf_traced g0 tbl0 /\ numbered_names_free tbl0
  /\ map ntarget (fst (duplicate g0 tbl0)) = ["x"; "fc"; "act"; "fc"; "act_1"; "act_2"; "output"]
  /\ run no_meth in7 (snd (duplicate g0 tbl0)) (fst (duplicate g0 tbl0)) [] = Some 16.
Proof.
  split; [|split; [|split; reflexivity]].
  - split; [repeat constructor; cbn; intuition discriminate|]. split; intros n Hn; cbn in Hn;
      repeat (destruct Hn as [<-|Hn]; [cbn; intuition (discriminate || auto)|]); destruct Hn.
  - intros name m k Hi Hs Hk. cbn in Hi. destruct Hi as [E|[E|[]]]; injection E as <- <-; [|discriminate].
    cbn. intros [H|[H|[]]]; discriminate.
Qed.

(** Without free names: modules "act" (x-3) and "act_1" (2x, stateless), called act, act_1, act.
    The copy of "act" overwrites "act_1" (and the third call then runs a copy of the former
    "act_1"): the graph computes something else. *)
Definition dbl_m : module nat := Mod false (fun vs => match vs with [v] => Some (2 * v) | _ => None end).
Theorem C88_duplicate_clash_refuted : exists (ns : graph nat) (t : table nat), wf_traced ns t
  /\ run no_meth in7 t ns [] = Some 5
  /\ run no_meth in7 (snd (duplicate ns t)) (fst (duplicate ns t)) [] = Some 2.
Proof.
  exists [Nd "x" Placeholder "x" []; Nd "a" CallModule "act" ["x"]; Nd "b" CallModule "act_1" ["a"]; Nd "c" CallModule "act" ["b"]; Nd "output" Output "output" ["c"]],
         [("act", relu_m); ("act_1", dbl_m)].
  split; [|split; reflexivity].
  split; [repeat constructor; cbn; intuition discriminate|]. split; intros n Hn; cbn in Hn;
      repeat (destruct Hn as [<-|Hn]; [cbn; intuition (discriminate || auto)|]); destruct Hn.
Qed.
(** With a method named like a module - self.relu and x.relu() - the method call is renamed to
    "relu_1" and raises. *)
Definition relu_meth : string -> option (list nat -> option nat) := fun s => if String.eqb s "relu" then Some (call relu_m) else None.
Theorem C88_duplicate_method_refuted : exists (ns : graph nat) (t : table nat), numbered_names_free t
  /\ run relu_meth in7 t ns [] = Some 1
  /\ run relu_meth in7 (snd (duplicate ns t)) (fst (duplicate ns t)) [] = None.
Proof.
  exists [Nd "x" Placeholder "x" []; Nd "a" CallModule "relu" ["x"]; Nd "b" CallMethod "relu" ["a"]; Nd "output" Output "output" ["b"]], [("relu", relu_m)].
  split; [|split; reflexivity]. intros name m k Hi Hs Hk. cbn in Hi. destruct Hi as [E|[]]; injection E as <- <-. cbn. intros [H|[]]. discriminate.
Qed.

(** ** Functionals to modules *)
(** The new module behaves as the function called. *)
Definition faithful {V} (new_module : node V -> option (module V)) (ns : graph V) : Prop :=
  forall n f m, In n ns -> nop n = CallFunction f -> new_module n = Some m -> forall vs, call m vs = f vs.
Lemma run_ext_tbl {V} meth inp (t t' : table V) ns : (forall n, In n ns -> nop n = CallModule -> get t' (ntarget n) = get t (ntarget n)) ->
  forall env, run meth inp t' ns env = run meth inp t ns env.
Proof.
  induction ns as [|n ns IH]; intros H env; [reflexivity|]. cbn [run]. unfold eval_node.
  destruct (gather env (nargs n)); [|reflexivity]. destruct (nop n) eqn:O.
  - destruct (inp (ntarget n)); [|reflexivity]. apply IH. intros n' Hn'. apply H. right. exact Hn'.
  - rewrite H by (auto; left; reflexivity). destruct (get t (ntarget n)) as [m|]; [|reflexivity]. destruct (call m l); [|reflexivity]. apply IH. intros n' Hn'. apply H. right. exact Hn'.
  - destruct (meth (ntarget n)) as [f|]; [|reflexivity]. destruct (f l); [|reflexivity]. apply IH. intros n' Hn'. apply H. right. exact Hn'.
  - destruct (f l); [|reflexivity]. apply IH. intros n' Hn'. apply H. right. exact Hn'.
  - reflexivity.
Qed.
Lemma fn_spec {V} (nm : node V -> option (module V)) : forall ns t, NoDup (map nname ns) ->
  (forall n f, In n ns -> nop n = CallFunction f -> ~ In (nname n) (keys t)) ->
  (forall n, In n ns -> nop n = CallModule -> In (ntarget n) (keys t)) -> faithful nm ns ->
  exists ns' t', fn_to_module nm ns t = Some (ns', t')
  /\ (forall x, In x (keys t) -> get t' x = get t x)
  /\ Forall2 (fun n0 n => nname n = nname n0 /\ nargs n = nargs n0 /\
       (n = n0 /\ (forall f, nop n0 = CallFunction f -> nm n0 = None)
        \/ exists f m, nop n0 = CallFunction f /\ nop n = CallModule /\ nm n0 = Some m /\ get t' (ntarget n) = Some m /\ (forall vs, call m vs = f vs))) ns ns'.
Proof.
  induction ns as [|n ns IH]; intros t ND Fr Tg Fa; cbn [fn_to_module]; [exists [], t; split; [reflexivity|]; split; [reflexivity|constructor]|].
  inversion_clear ND as [|? ? Nn ND'].
  assert (Fa' : faithful nm ns) by (intros n' f' m' Hn'; apply Fa; right; exact Hn').
  assert (Skip : (forall f, nop n = CallFunction f -> nm n = None) -> exists ns' t',
            match fn_to_module nm ns t with Some (r, t1) => Some (n :: r, t1) | None => None end = Some (ns', t')
            /\ (forall x, In x (keys t) -> get t' x = get t x)
            /\ Forall2 (fun n0 n => nname n = nname n0 /\ nargs n = nargs n0 /\
                 (n = n0 /\ (forall f, nop n0 = CallFunction f -> nm n0 = None)
                  \/ exists f m, nop n0 = CallFunction f /\ nop n = CallModule /\ nm n0 = Some m /\ get t' (ntarget n) = Some m /\ (forall vs, call m vs = f vs))) (n :: ns) ns').
  { intros Nm. destruct (IH t ND') as (ns' & t' & E & G & F); [intros; eapply Fr; eauto; right; assumption|intros; apply Tg; auto; right; assumption|exact Fa'|].
    exists (n :: ns'), t'. rewrite E. split; [reflexivity|]. split; [exact G|]. constructor; [|exact F]. split; [reflexivity|]. split; [reflexivity|]. left. split; [reflexivity|exact Nm]. }
  destruct (nop n) as [| | |f|] eqn:O; try (apply Skip; intros f' Ef'; discriminate).
  destruct (nm n) as [m|] eqn:Em; [|apply Skip; reflexivity]. clear Skip.
  assert (Nin : ~ In (nname n) (keys t)) by (apply (Fr n f); [left; reflexivity|exact O]).
  destruct (existsb (String.eqb (nname n)) (keys t)) eqn:Ex.
  { apply existsb_exists in Ex. destruct Ex as (y & Hy & E). apply String.eqb_eq in E. subst y. contradiction. }
  destruct (IH (set t (nname n) m) ND') as (ns' & t' & E & G & F); [..|exact Fa'|].
  { intros n' f' Hn' Of' Hin. apply keys_set in Hin. destruct Hin as [Hin|Hin]; [|exact (Fr n' f' (or_intror Hn') Of' Hin)].
    apply Nn. rewrite <- Hin. apply in_map. exact Hn'. }
  { intros n' Hn' Oc. apply keys_set. right. apply Tg; [right; exact Hn'|exact Oc]. }
  exists (Nd (nname n) CallModule (nname n) (nargs n) :: ns'), t'. rewrite E. split; [reflexivity|]. split.
  { intros x Hx. rewrite G by (apply keys_set; right; exact Hx). apply get_set_other. intros Ee. subst x. contradiction. }
  constructor; [|exact F]. split; [reflexivity|]. split; [reflexivity|]. right. exists f, m. split; [exact O|]. split; [reflexivity|]. split; [exact Em|].
  split; [|apply (Fa n f m); [left; reflexivity|exact O|exact Em]]. cbn [ntarget]. rewrite G by (apply keys_set; left; reflexivity). apply get_set_same.
Qed.
Theorem C88_functional_to_module {V} (new_module : node V -> option (module V)) ns t :
  NoDup (map nname ns) -> (forall n f, In n ns -> nop n = CallFunction f -> ~ In (nname n) (map fst t)) ->
  (forall n, In n ns -> nop n = CallModule -> In (ntarget n) (map fst t)) -> faithful new_module ns ->
  exists ns' t', fn_to_module new_module ns t = Some (ns', t')
  /\ (forall meth inp env, run meth inp t' ns' env = run meth inp t ns env)
  /\ (forall n f, In n ns' -> nop n = CallFunction f -> new_module n = None)
  /\ (forall x m, get t x = Some m -> get t' x = Some m).
Proof.
  intros ND Fr Tg Fa. destruct (fn_spec new_module ns t ND Fr Tg Fa) as (ns' & t' & E & G & F). exists ns', t'. split; [exact E|]. split; [|split].
  - intros meth inp. clear E Fr ND Fa. induction F as [|n0 n l l' (En & Ea & R) F IH]; intros env; [reflexivity|]. cbn [run].
    assert (Ev : eval_node meth inp t' env n = eval_node meth inp t env n0 /\ (nop n0 = Output <-> nop n = Output)).
    { unfold eval_node. rewrite Ea. destruct R as [(-> & _)|(f & m & O0 & O & _ & Gm & Cm)].
      - split; [|tauto]. destruct (gather env (nargs n0)); [|reflexivity]. destruct (nop n0) eqn:O; try reflexivity. rewrite G by (apply Tg; [left; reflexivity|exact O]). reflexivity.
      - rewrite O0, O, Gm. split; [|split; discriminate]. destruct (gather env (nargs n0)); [|reflexivity]. apply Cm. }
    destruct Ev as (-> & Ov). rewrite En. destruct (eval_node meth inp t env n0) as [v|]; [|reflexivity].
    assert (IH' : forall env, run meth inp t' l' env = run meth inp t l env) by (apply IH; intros; apply Tg; auto; right; assumption).
    destruct (nop n0) eqn:O0; destruct (nop n) eqn:O1; try apply IH'; try reflexivity; exfalso;
      first [discriminate (proj1 Ov eq_refl)|discriminate (proj2 Ov eq_refl)].
  - intros n f Hn O. clear - F Hn O. induction F as [|n0 n1 l l' (_ & _ & R) F IH]; [destruct Hn|]. destruct Hn as [->|Hn]; [|apply IH; exact Hn].
    destruct R as [(-> & H)|(f' & m & _ & O' & _)]; [apply (H f); exact O|congruence].
  - intros x m Gx. rewrite G; [exact Gx|]. apply get_in. congruence.
Qed.

(** An F.relu call traced as node "relu" while self.relu is registered: AssertionError. *)
Definition relu_fn : op nat := CallFunction (call relu_m).
Definition to_relu (n : node nat) : option (module nat) := match nop n with CallFunction _ => Some relu_m | _ => None end.
Theorem C88_functional_clash_refuted : exists (ns : graph nat) (t : table nat), wf_traced ns t /\ NoDup (map nname ns) /\ faithful to_relu ns
  /\ run no_meth in7 t ns [] = Some 1 /\ fn_to_module to_relu ns t = None.
Proof.
  exists [Nd "x" Placeholder "x" []; Nd "relu" relu_fn "" ["x"]; Nd "relu_1" CallModule "relu" ["relu"]; Nd "output" Output "output" ["relu_1"]], [("relu", relu_m)].
  split; [|split; [repeat constructor; cbn; intuition discriminate|split; [|split; reflexivity]]].
  - split; [repeat constructor; cbn; intuition discriminate|]. split; intros n Hn; cbn in Hn;
      repeat (destruct Hn as [<-|Hn]; [cbn; intuition (discriminate || auto)|]); destruct Hn.
  - intros n f m Hn O Em vs. cbn in Hn. repeat (destruct Hn as [<-|Hn]; [try discriminate|]); [|destruct Hn].
    cbn in O, Em. injection O as <-. injection Em as <-. reflexivity.
Qed.
Example C88_functional_example : exists ns' t',
  fn_to_module to_relu [Nd "x" Placeholder "x" []; Nd "relu" relu_fn "" ["x"]; Nd "fc" CallModule "fc" ["relu"]; Nd "relu_1" relu_fn "" ["fc"]; Nd "output" Output "output" ["relu_1"]] [("fc", lin_m)]
  = Some (ns', t') /\ map ntarget ns' = ["x"; "relu"; "fc"; "relu_1"; "output"] /\ run no_meth in7 t' ns' [] = Some 5.
Proof. eexists _, _. split; [vm_compute; reflexivity|]. split; reflexivity. Qed.

(** ** Stochastic depth *)
(** Evaluation-mode StochasticDepth returns its argument. *)
Definition identity_node {V} meth inp (t : table V) (n : node V) : Prop :=
  exists a, nargs n = [a] /\ forall env, eval_node meth inp t env n = get env a.
Definition occurrences (x : string) (l : list string) : nat := List.length (filter (String.eqb x) l).

Lemma filter_absent x l : existsb (String.eqb x) l = false -> filter (fun b => negb (String.eqb b x)) l = l.
Proof.
  induction l as [|a l IH]; [reflexivity|]. cbn [existsb filter]. intros H. apply orb_false_elim in H. destruct H as (H1 & H2).
  rewrite String.eqb_sym, H1. cbn [negb]. rewrite IH by exact H2. reflexivity.
Qed.
Lemma occ0 x l : occurrences x l = 0 -> existsb (String.eqb x) l = false.
Proof.
  unfold occurrences. induction l as [|a l IH]; [reflexivity|]. cbn [filter existsb]. destruct (String.eqb x a); [discriminate|]. exact IH.
Qed.
Lemma splice_once x a l : occurrences x l = 1 -> splice x [a] l = map (fun b => if String.eqb b x then a else b) l.
Proof.
  induction l as [|b l IH]; [discriminate|]. cbn [splice map]. unfold occurrences. cbn [filter]. rewrite (String.eqb_sym x b).
  destruct (String.eqb_spec b x) as [->|N]; intros H.
  - cbn [List.length] in H. assert (H0 : existsb (String.eqb x) l = false) by (apply occ0; unfold occurrences; lia).
    rewrite filter_absent by exact H0. cbn [app]. f_equal. clear - H0. induction l as [|c l IH]; [reflexivity|]. cbn [existsb map] in *.
    apply orb_false_elim in H0. destruct H0 as (H1 & H2). rewrite (String.eqb_sym c x), H1. f_equal. apply IH. exact H2.
  - f_equal. apply IH. exact H.
Qed.

Section Remove.
Context {V : Type} (meth : string -> option (list V -> option V)) (inp : string -> option V) (t : table V).
(** Environments equal except at [x], which is not read. *)
Definition agree (x : string) (e1 e2 : dict V) : Prop := forall y, y <> x -> get e1 y = get e2 y.
Lemma agree_set x e1 e2 y v : agree x e1 e2 -> agree x (set e1 y v) (set e2 y v).
Proof.
  intros A z Hz. destruct (string_dec z y) as [->|N]; [rewrite !get_set_same; reflexivity|]. rewrite !get_set_other by congruence. apply A. exact Hz.
Qed.
Lemma gather_agree x e1 e2 args : agree x e1 e2 -> existsb (String.eqb x) args = false -> gather e1 args = gather e2 args.
Proof.
  intros A. induction args as [|a args IH]; [reflexivity|]. cbn [existsb gather]. intros H. apply orb_false_elim in H. destruct H as (H1 & H2).
  rewrite (IH H2), A; [reflexivity|]. intros ->. rewrite String.eqb_refl in H1. discriminate.
Qed.
Lemma run_agree x ns : forall e1 e2, agree x e1 e2 -> existsb (uses x) ns = false -> run meth inp t ns e1 = run meth inp t ns e2.
Proof.
  induction ns as [|n ns IH]; intros e1 e2 A H; [reflexivity|]. cbn [existsb] in H. apply orb_false_elim in H. destruct H as (H1 & H2).
  cbn [run]. unfold eval_node. rewrite (gather_agree x e1 e2 (nargs n) A H1). destruct (gather e2 (nargs n)); [|reflexivity].
  match goal with |- match ?e with _ => _ end = _ => destruct e as [v|] end; [|reflexivity].
  destruct (nop n); try reflexivity; apply IH; auto using agree_set.
Qed.
(** [e1] holds at [x] what both hold at [a]. *)
Lemma gather_subst x a e1 e2 args : agree x e1 e2 -> a <> x -> get e1 x = get e1 a ->
  gather e1 args = gather e2 (map (fun b => if String.eqb b x then a else b) args).
Proof.
  intros A N E. induction args as [|b args IH]; [reflexivity|]. cbn [gather map]. rewrite <- IH.
  destruct (String.eqb_spec b x) as [->|Nb]; [rewrite E, (A a N); reflexivity|rewrite (A b Nb); reflexivity].
Qed.
Lemma first_user_run x a : forall ns r, first_user x [a] ns = Some r -> (forall n, In n ns -> uses x n = true -> occurrences x (nargs n) = 1) ->
  (forall n, In n ns -> nname n <> x /\ nname n <> a) -> existsb (uses x) r = false -> a <> x ->
  forall e1 e2, agree x e1 e2 -> get e1 x = get e1 a -> run meth inp t ns e1 = run meth inp t r e2.
Proof.
  induction ns as [|n ns IH]; intros r H Oc Nm Ur N e1 e2 A E; [discriminate|]. cbn [first_user] in H.
  destruct (Nm n (or_introl eq_refl)) as (Nx & Na).
  destruct (uses x n) eqn:U.
  - injection H as <-. cbn [existsb] in Ur. apply orb_false_elim in Ur. destruct Ur as (_ & Ur).
    cbn [run set_args nop nname]. unfold eval_node. cbn [set_args nargs nop ntarget].
    rewrite (splice_once x a (nargs n)) by (apply Oc; [left; reflexivity|exact U]). rewrite <- (gather_subst x a e1 e2 _ A N E).
    destruct (gather e1 (nargs n)); [|reflexivity]. match goal with |- match ?e with _ => _ end = _ => destruct e as [v|] end; [|reflexivity].
    destruct (nop n); try reflexivity; apply (run_agree x); auto using agree_set.
  - destruct (first_user x [a] ns) as [r'|] eqn:F; [|discriminate]. injection H as <-. cbn [existsb] in Ur. apply orb_false_elim in Ur. destruct Ur as (_ & Ur).
    cbn [run]. unfold eval_node. rewrite (gather_agree x e1 e2 (nargs n) A U). destruct (gather e2 (nargs n)); [|reflexivity].
    match goal with |- match ?e with _ => _ end = _ => destruct e as [v|] end; [|reflexivity].
    assert (Step : run meth inp t ns (set e1 (nname n) v) = run meth inp t r' (set e2 (nname n) v)).
    { apply (IH r'); auto using agree_set; [intros; apply Oc; auto; right; assumption|intros; apply Nm; right; assumption|].
      rewrite !get_set_other by congruence. exact E. }
    destruct (nop n); try reflexivity; exact Step.
Qed.
End Remove.
Lemma first_user_some {V} x new (ns : graph V) : existsb (uses x) ns = true -> exists r, first_user x new ns = Some r.
Proof.
  induction ns as [|n ns IH]; [discriminate|]. cbn [existsb first_user]. destruct (uses x n); [intros _; eexists; reflexivity|].
  cbn [orb]. intros H. destruct (IH H) as (r & ->). eexists. reflexivity.
Qed.
Lemma splice_gone x a l : a <> x -> existsb (String.eqb x) (splice x [a] l) = false.
Proof.
  intros N. induction l as [|b l IH]; [reflexivity|]. cbn [splice]. destruct (String.eqb_spec b x) as [->|Nb].
  - cbn [app existsb]. destruct (String.eqb_spec x a) as [E|_]; [congruence|]. cbn [orb]. clear. induction l as [|c l IH]; [reflexivity|].
    cbn [filter]. destruct (String.eqb_spec c x) as [->|Nc]; [exact IH|]. cbn [negb existsb]. rewrite IH. destruct (String.eqb_spec x c); [congruence|reflexivity].
  - cbn [existsb]. rewrite IH. destruct (String.eqb_spec x b); [congruence|reflexivity].
Qed.
Lemma one_user {V} x a (ns : graph V) : a <> x -> List.length (filter (uses x) ns) = 1 ->
  exists r, first_user x [a] ns = Some r /\ existsb (uses x) r = false.
Proof.
  intros N. induction ns as [|n ns IH]; [discriminate|]. cbn [filter first_user]. destruct (uses x n) eqn:U; intros L.
  - eexists. split; [reflexivity|]. cbn [existsb]. unfold uses at 1. cbn [set_args nargs]. rewrite splice_gone by exact N. cbn [orb List.length] in *.
    destruct (existsb (uses x) ns) eqn:Ex; [|reflexivity]. apply existsb_exists in Ex. destruct Ex as (m & Hm & Um).
    assert (Hf : In m (filter (uses x) ns)) by (apply filter_In; auto). destruct (filter (uses x) ns); [destruct Hf|cbn in L; lia].
  - destruct (IH L) as (r & -> & Hr). eexists. split; [reflexivity|]. cbn [existsb]. rewrite U, Hr. reflexivity.
Qed.
(** A stochastic depth call with one user, naming it once among its arguments, is removed and the
    rest of the graph computes what it did.  (No later node may reuse the names: node names are
    unique.) *)
Theorem C88_remove_stochastic {V} meth inp (t : table V) n rest :
  identity_node meth inp t n -> nop n <> Output -> NoDup (nargs n ++ nname n :: map nname rest) ->
  List.length (filter (uses (nname n)) rest) = 1 ->
  (forall m, In m rest -> uses (nname n) m = true -> occurrences (nname n) (nargs m) = 1) ->
  exists r, remove_one n rest = Some r /\ map nname r = map nname rest
  /\ (forall m, In m r -> uses (nname n) m = false)
  /\ forall env a, nargs n = [a] -> get env a <> None -> run meth inp t r env = run meth inp t (n :: rest) env.
Proof.
  intros (a & Ea & Ev) NO ND One Occ. rewrite Ea in ND. cbn [app] in ND. inversion_clear ND as [|? ? Na ND']. inversion_clear ND' as [|? ? Nx _].
  assert (N : a <> nname n) by (intros ->; apply Na; left; reflexivity).
  assert (Fst : exists r, first_user (nname n) [a] rest = Some r /\ existsb (uses (nname n)) r = false) by (apply one_user; assumption).
  destruct Fst as (r & F & Hr). exists r. unfold remove_one. rewrite Ea. change (dedup [a]) with [a]. rewrite F, Hr. split; [reflexivity|]. split; [|split].
  - clear - F. revert r F. induction rest as [|m rest IH]; intros r F; [discriminate|]. cbn [first_user] in F. destruct (uses (nname n) m).
    + injection F as <-. reflexivity.
    + destruct (first_user (nname n) [a] rest) as [r'|]; [|discriminate]. injection F as <-. cbn [map]. f_equal. apply IH. reflexivity.
  - intros m Hm. destruct (uses (nname n) m) eqn:U; [|reflexivity]. rewrite <- Hr. symmetry. apply existsb_exists. exists m. auto.
  - intros env a' Ea' Ga. injection Ea' as <-. cbn [run]. rewrite Ev. destruct (get env a) as [v|] eqn:G; [|congruence]. symmetry.
    assert (Go : run meth inp t rest (set env (nname n) v) = run meth inp t r env).
    { apply (first_user_run meth inp t (nname n) a rest r F Occ); auto.
      - intros m Hm. split; intros Eq; [apply Nx|apply Na; right]; rewrite <- Eq; apply in_map; exact Hm.
      - intros y Hy. apply get_set_other. congruence.
      - rewrite get_set_same, get_set_other by congruence. symmetry. exact G. }
    destruct (nop n); try exact Go. congruence.
Qed.
(** The whole pass.  [scoped bound ns]: arguments are defined before they are used. *)
Fixpoint scoped {V} (bound : list string) (ns : graph V) : Prop :=
  match ns with [] => True | n :: ns => (forall a, In a (nargs n) -> In a bound) /\ scoped (nname n :: bound) ns end.
Definition passes {V} (t : table V) (n : node V) : Prop :=
  match nop n with
  | CallModule => exists m, get t (ntarget n) = Some m /\ forall v, call m [v] = Some v
  | CallFunction f => forall v, f [v] = Some v
  | _ => False
  end.
(** Every stochastic depth call is an identity of one argument with one user, naming it once. *)
Fixpoint stochastic_ok {V} (t : table V) (ns : graph V) : Prop :=
  match ns with
  | [] => True
  | n :: rest =>
      (contains "stochastic_depth" (nname n) = true ->
         passes t n /\ List.length (nargs n) = 1 /\ List.length (filter (uses (nname n)) rest) = 1
         /\ forall m, In m rest -> uses (nname n) m = true -> occurrences (nname n) (nargs m) = 1)
      /\ stochastic_ok t rest
  end.
Definition sub1 (x a b : string) : string := if String.eqb b x then a else b.
Definition subn {V} (x a : string) (n : node V) : node V := set_args n (map (sub1 x a) (nargs n)).
Lemma sub1_id x a l : existsb (String.eqb x) l = false -> map (sub1 x a) l = l.
Proof.
  induction l as [|c l IH]; [reflexivity|]. cbn [existsb map]. intros H. apply orb_false_elim in H. destruct H as (H1 & H2).
  unfold sub1 at 1. rewrite (String.eqb_sym c x), H1. f_equal. apply IH. exact H2.
Qed.
Lemma subn_id {V} x a (n : node V) : uses x n = false -> subn x a n = n.
Proof. intros H. unfold subn. rewrite sub1_id by exact H. destruct n. reflexivity. Qed.
Lemma first_user_subn {V} x a (ns : graph V) : List.length (filter (uses x) ns) = 1 ->
  (forall m, In m ns -> uses x m = true -> occurrences x (nargs m) = 1) -> first_user x [a] ns = Some (map (subn x a) ns).
Proof.
  induction ns as [|n ns IH]; [discriminate|]. cbn [filter first_user map]. intros L Oc. destruct (uses x n) eqn:U.
  - f_equal. f_equal.
    + unfold subn. f_equal. apply splice_once. apply Oc; [left; reflexivity|exact U].
    + cbn [List.length] in L. assert (Z : forall m, In m ns -> uses x m = false).
      { intros m Hm. destruct (uses x m) eqn:Um; [|reflexivity]. assert (Hf : In m (filter (uses x) ns)) by (apply filter_In; auto).
        destruct (filter (uses x) ns); [destruct Hf|cbn in L; lia]. }
      clear - Z. induction ns as [|m ns IH]; [reflexivity|]. cbn [map]. rewrite subn_id by (apply Z; left; reflexivity). f_equal. apply IH. intros m' Hm'. apply Z. right. exact Hm'.
  - rewrite IH; [|exact L|intros; apply Oc; auto; right; assumption]. rewrite subn_id by exact U. reflexivity.
Qed.
Lemma occ_sub1 x a y l : y <> x -> y <> a -> occurrences y (map (sub1 x a) l) = occurrences y l.
Proof.
  intros Hx Ha. unfold occurrences. induction l as [|b l IH]; [reflexivity|]. cbn [map filter]. unfold sub1 at 1.
  destruct (String.eqb_spec b x) as [->|Nb].
  - destruct (String.eqb_spec y a); [contradiction|]. destruct (String.eqb_spec y x); [contradiction|]. exact IH.
  - destruct (String.eqb y b); cbn [List.length]; rewrite IH; reflexivity.
Qed.
Lemma uses_occ {V} y (n : node V) : uses y n = negb (Nat.eqb (occurrences y (nargs n)) 0).
Proof.
  unfold uses, occurrences. induction (nargs n) as [|b l IH]; [reflexivity|]. cbn [existsb filter]. destruct (String.eqb y b); [reflexivity|exact IH].
Qed.
Lemma uses_subn {V} x a y (n : node V) : y <> x -> y <> a -> uses y (subn x a n) = uses y n.
Proof. intros Hx Ha. rewrite !uses_occ. unfold subn. cbn [set_args nargs]. rewrite occ_sub1 by assumption. reflexivity. Qed.
Lemma filter_subn {V} x a y (ns : graph V) : y <> x -> y <> a -> List.length (filter (uses y) (map (subn x a) ns)) = List.length (filter (uses y) ns).
Proof.
  intros Hx Ha. induction ns as [|n ns IH]; [reflexivity|]. cbn [map filter]. rewrite uses_subn by assumption. destruct (uses y n); cbn [List.length]; rewrite IH; reflexivity.
Qed.
Lemma ok_subn {V} (t : table V) x a ns : (forall n, In n ns -> nname n <> x /\ nname n <> a) -> stochastic_ok t ns -> stochastic_ok t (map (subn x a) ns).
Proof.
  induction ns as [|n ns IH]; intros N Ok; [exact I|]. destruct Ok as (O1 & O2). destruct (N n (or_introl eq_refl)) as (Nx & Na). cbn [map stochastic_ok].
  split; [|apply IH; [intros; apply N; right; assumption|exact O2]]. change (nname (subn x a n)) with (nname n). intros C. destruct (O1 C) as (P & L1 & L2 & Oc).
  split; [exact P|]. split; [unfold subn; cbn [set_args nargs]; rewrite map_length; exact L1|]. split; [rewrite filter_subn by assumption; exact L2|].
  intros m Hm Um. apply in_map_iff in Hm. destruct Hm as (m0 & <- & Hm0). rewrite uses_subn in Um by assumption.
  unfold subn. cbn [set_args nargs]. rewrite occ_sub1 by assumption. apply Oc; assumption.
Qed.
Lemma scoped_subn {V} x a (ns : graph V) : forall b1 b2, (forall y, In y b1 -> y = x \/ In y b2) -> In a b2 -> scoped b1 ns -> scoped b2 (map (subn x a) ns).
Proof.
  induction ns as [|n ns IH]; intros b1 b2 B A Sc; [exact I|]. destruct Sc as (S1 & S2). cbn [map scoped]. split.
  - unfold subn. cbn [set_args nargs]. intros y Hy. apply in_map_iff in Hy. destruct Hy as (z & <- & Hz). unfold sub1.
    destruct (String.eqb_spec z x) as [->|Nz]; [exact A|]. destruct (B z (S1 z Hz)) as [->|H]; [congruence|exact H].
  - change (nname (subn x a n)) with (nname n). apply (IH (nname n :: b1)); [|right; exact A|exact S2].
    intros y [<-|Hy]; [right; left; reflexivity|]. destruct (B y Hy) as [->|H]; [left; reflexivity|right; right; exact H].
Qed.
Lemma passes_identity {V} meth inp (t : table V) n a : passes t n -> nargs n = [a] -> identity_node meth inp t n /\ nop n <> Output.
Proof.
  intros P Ea. split.
  - exists a. split; [exact Ea|]. intros env. unfold eval_node. rewrite Ea. cbn [gather]. unfold passes in P. destruct (get env a) as [v|]; [|reflexivity].
    destruct (nop n); try contradiction; [destruct P as (m & -> & H); apply H|apply P].
  - intros O. unfold passes in P. rewrite O in P. exact P.
Qed.
Lemma remove_pass {V} (t : table V) : forall fuel ns bound, (List.length ns <= fuel)%nat -> NoDup (bound ++ map nname ns) -> scoped bound ns -> stochastic_ok t ns ->
  exists r, remove_stochastic fuel ns = Some r
  /\ map nname r = filter (fun x => negb (contains "stochastic_depth" x)) (map nname ns)
  /\ forall meth inp env, (forall b, In b bound -> get env b <> None) -> run meth inp t r env = run meth inp t ns env.
Proof.
  induction fuel as [|fuel IH]; intros ns bound L ND Sc Ok; [destruct ns; [exists []; split; [reflexivity|]; split; [reflexivity|reflexivity]|cbn in L; lia]|].
  destruct ns as [|n rest]; [exists []; split; [reflexivity|]; split; [reflexivity|reflexivity]|].
  cbn [remove_stochastic]. destruct Sc as (Sc1 & Sc2). destruct Ok as (Ok1 & Ok2). cbn [List.length] in L.
  cbn [map] in ND |- *. cbn [filter].
  assert (ND' : NoDup ((nname n :: bound) ++ map nname rest)).
  { apply (Permutation_NoDup (l := (bound ++ nname n :: map nname rest)%list)); [|exact ND]. symmetry. apply Permutation_middle. }
  destruct (contains "stochastic_depth" (nname n)) eqn:C; cbn [negb].
  - destruct (Ok1 eq_refl) as (P & L1 & L2 & Oc). destruct (nargs n) as [|a [|]] eqn:Ea; try (cbn in L1; lia). clear L1.
    assert (Ab : In a bound) by (apply Sc1; left; reflexivity).
    assert (Nm : forall m, In m rest -> nname m <> nname n /\ nname m <> a).
    { intros m Hm. cbn [app] in ND'. inversion_clear ND' as [|? ? Nx Nd]. split; intros E.
      - apply Nx. rewrite <- E. apply in_or_app. right. apply in_map. exact Hm.
      - clear - Nd Ab Hm E. subst a. revert Nd. induction bound as [|c b IHb]; [destruct Ab|]. cbn [app]. intros Nd. inversion_clear Nd as [|? ? Nc Nd'].
        destruct Ab as [->|Ab]; [apply Nc, in_or_app; right; apply in_map; exact Hm|apply IHb; assumption]. }
    assert (Nan : a <> nname n) by (cbn [app] in ND'; inversion_clear ND' as [|? ? Nx Nd]; intros ->; apply Nx, in_or_app; left; exact Ab).
    assert (One : remove_one n rest = Some (map (subn (nname n) a) rest)).
    { unfold remove_one. rewrite Ea. change (dedup [a]) with [a]. destruct (one_user (nname n) a rest Nan L2) as (r & F & Hr).
      rewrite F, Hr. rewrite <- F. apply first_user_subn; assumption. }
    rewrite One.
    assert (Mn : map nname (map (subn (nname n) a) rest) = map nname rest) by (rewrite map_map; apply map_ext; reflexivity).
    destruct (IH (map (subn (nname n) a) rest) bound) as (r & E & En & Er).
    + rewrite map_length. lia.
    + rewrite Mn. apply NoDup_remove_1 in ND. exact ND.
    + apply (scoped_subn (nname n) a rest (nname n :: bound)); [intros y [<-|Hy]; auto|exact Ab|exact Sc2].
    + apply ok_subn; assumption.
    + exists r. split; [exact E|]. rewrite Mn in En. split; [exact En|]. intros meth inp env B. rewrite Er by exact B.
      destruct (passes_identity meth inp t n a P Ea) as (Id & NO).
      destruct (C88_remove_stochastic meth inp t n rest Id NO) as (r' & E' & _ & _ & R); [|exact L2|exact Oc|].
      * rewrite Ea. cbn [app]. constructor; [intros [H|H]; [congruence|apply in_map_iff in H; destruct H as (m & H & Hm); exact (proj2 (Nm m Hm) H)]|].
        constructor; [intros H; apply in_map_iff in H; destruct H as (m & H & Hm); exact (proj1 (Nm m Hm) H)|].
        cbn [app] in ND'. inversion_clear ND' as [|? ? _ Nd]. clear - Nd. induction bound as [|c b IHb]; [exact Nd|]. inversion_clear Nd. auto.
      * rewrite One in E'. injection E' as <-. apply (R env a Ea). apply B. exact Ab.
  - destruct (IH rest (nname n :: bound)) as (r & E & En & Er); [lia|exact ND'|exact Sc2|exact Ok2|]. rewrite E. exists (n :: r). split; [reflexivity|]. split; [cbn [map]; rewrite En; reflexivity|].
    intros meth inp env B. cbn [run]. destruct (eval_node meth inp t env n) as [v|]; [|reflexivity].
    assert (Go : run meth inp t r (set env (nname n) v) = run meth inp t rest (set env (nname n) v)).
    { apply Er. intros b Hb. destruct (string_dec (nname n) b) as [<-|N]; [rewrite get_set_same; discriminate|]. rewrite get_set_other by exact N.
      destruct Hb as [Hb|Hb]; [contradiction|apply B; exact Hb]. }
    destruct (nop n); try exact Go; reflexivity.
Qed.
Theorem C88_remove_stochastic_pass {V} (t : table V) ns : NoDup (map nname ns) -> scoped [] ns -> stochastic_ok t ns ->
  exists r, remove_stochastic (List.length ns) ns = Some r
  /\ map nname r = filter (fun x => negb (contains "stochastic_depth" x)) (map nname ns)
  /\ forall meth inp, run meth inp t r [] = run meth inp t ns [].
Proof.
  intros ND Sc Ok. destruct (remove_pass t (List.length ns) ns [] (le_n _) ND Sc Ok) as (r & E & En & Er).
  exists r. split; [exact E|]. split; [exact En|]. intros meth inp. apply Er. intros b [].
Qed.
Definition id_m : module nat := Mod false (fun vs => match vs with [v] => Some v | _ => None end).
Definition add_fn : op nat := CallFunction (fun vs => match vs with [a; b] => Some (a + b) | _ => None end).
Definition sd_graph : graph nat :=
  [Nd "x" Placeholder "x" []; Nd "fc" CallModule "fc" ["x"]; Nd "stochastic_depth" CallModule "sd" ["fc"]; Nd "add" add_fn "" ["stochastic_depth"; "x"]; Nd "output" Output "output" ["add"]].
Example C88_stochastic_example : exists r, remove_stochastic 5 sd_graph = Some r /\ map nname r = ["x"; "fc"; "add"; "output"]
  /\ run no_meth in7 [("fc", lin_m); ("sd", id_m)] r [] = Some 21 /\ run no_meth in7 [("fc", lin_m); ("sd", id_m)] sd_graph [] = Some 21.
Proof. eexists. split; [vm_compute; reflexivity|]. repeat split. Qed.
Example C88_stochastic_ok_example : NoDup (map nname sd_graph) /\ scoped [] sd_graph /\ stochastic_ok [("fc", lin_m); ("sd", id_m)] sd_graph.
Proof.
  split; [repeat constructor; cbn; intuition discriminate|]. split; [cbn; intuition|].
  cbn. intuition try discriminate; subst; try discriminate; try reflexivity. exists id_m. split; [reflexivity|intros v; reflexivity].
Qed.
(** Used twice by one node, an operand is lost; used by two nodes, erasing raises. *)
Theorem C88_remove_stochastic_refuted :
  (exists r, remove_stochastic 5 [Nd "x" Placeholder "x" []; Nd "stochastic_depth" CallModule "sd" ["x"]; Nd "add" add_fn "" ["stochastic_depth"; "stochastic_depth"]; Nd "output" Output "output" ["add"]] = Some r
     /\ run no_meth in7 [("sd", id_m)] r [] = None)
  /\ run no_meth in7 [("sd", id_m)] [Nd "x" Placeholder "x" []; Nd "stochastic_depth" CallModule "sd" ["x"]; Nd "add" add_fn "" ["stochastic_depth"; "stochastic_depth"]; Nd "output" Output "output" ["add"]] [] = Some 14
  /\ remove_stochastic 5 [Nd "x" Placeholder "x" []; Nd "stochastic_depth" CallModule "sd" ["x"]; Nd "fc" CallModule "fc" ["stochastic_depth"]; Nd "add" add_fn "" ["stochastic_depth"; "fc"]; Nd "output" Output "output" ["add"]] = None.
Proof. split; [eexists; split; [vm_compute; reflexivity|reflexivity]|split; reflexivity]. Qed.

(** ** Disabling the last return_quant_tensor *)
(** When the last module call with the flag set has the output as its only user, only the kind of
    the output changes: every other value keeps its kind and nothing raises that did not. *)
Lemma qeval_agree (M M' : nat -> qmod) ns : forall e1 e2, (forall n m, In n ns -> qop_of n = QCall m -> M' m = M m) ->
  (forall j, e1 j = e2 j) -> forall f, qeval M ns e1 = Some f -> exists f', qeval M' ns e2 = Some f' /\ forall j, f j = f' j.
Proof.
  induction ns as [|n ns IH]; intros e1 e2 HM E f; cbn [qeval]; [intros H; injection H as <-; exists e2; auto|].
  assert (En : qeval_node M' e2 n = qeval_node M e1 n).
  { unfold qeval_node. replace (map e2 (qargs n)) with (map e1 (qargs n)) by (apply map_ext; exact E). destruct (qop_of n) eqn:O; try reflexivity. rewrite (HM n m); [reflexivity|left; reflexivity|exact O]. }
  rewrite En. destruct (qeval_node M e1 n) as [k|]; [|discriminate]. apply IH; [intros; eapply HM; eauto; right; assumption|]. intros j. destruct (Nat.eqb j (qname n)); [reflexivity|apply E].
Qed.
Lemma qeval_app M a : forall e b, qeval M (a ++ b) e = match qeval M a e with Some e' => qeval M b e' | None => None end.
Proof. induction a as [|n a IH]; intros e b; [reflexivity|]. cbn [app qeval]. destruct (qeval_node M e n); [apply IH|reflexivity]. Qed.
Lemma find_last_other ns M n m l : qop_of n = QCall m -> find_last ns M (n :: l) = if Nat.eqb (n_users ns (qname n)) 1 && (match returns (M m) with Some true => true | _ => false end) then Some m else find_last ns M l.
Proof. intros O. cbn [find_last]. rewrite O. reflexivity. Qed.
Theorem C88_disable_last (M : nat -> qmod) pre last m out v : let ns := (pre ++ [last; out])%list in
  qop_of last = QCall m -> qop_of out = QOut -> qargs out = [qname last] -> returns (M m) = Some true ->
  (forall n, In n pre -> qop_of n <> QCall m /\ existsb (Nat.eqb (qname last)) (qargs n) = false) -> ~ In (qname last) (qargs last) -> qname out <> qname last ->
  forall e f, qeval M ns e = Some f -> f (qname out) = v ->
  v = QT /\ exists f', qeval (disable_last ns M) ns e = Some f' /\ f' (qname out) = Plain
    /\ forall j, j <> qname last -> j <> qname out -> f' j = f j.
Proof.
  intros ns Ol Oo Ao Rt Pre Self Ne e f H Ho.
  assert (U : n_users ns (qname last) = 1).
  { unfold n_users, ns. rewrite filter_app. assert (Z : filter (fun n => existsb (Nat.eqb (qname last)) (qargs n)) pre = []).
    { clear - Pre. induction pre as [|n pre IH]; [reflexivity|]. cbn [filter]. rewrite (proj2 (Pre n (or_introl eq_refl))). apply IH. intros n' Hn'. apply Pre. right. exact Hn'. }
    rewrite Z. cbn [app filter]. rewrite Ao. cbn [existsb]. rewrite Nat.eqb_refl. cbn [orb].
    destruct (existsb (Nat.eqb (qname last)) (qargs last)) eqn:Ex; [|reflexivity]. apply existsb_exists in Ex. destruct Ex as (y & Hy & Ey). apply Nat.eqb_eq in Ey. subst y. contradiction. }
  assert (D : disable_last ns M = disable M m).
  { unfold disable_last. replace (rev ns) with (out :: last :: rev pre) by (unfold ns; rewrite rev_app_distr; reflexivity).
    cbn [find_last]. rewrite Oo, Ol, U, Rt. reflexivity. }
  rewrite D. unfold ns in H |- *. rewrite qeval_app in H. rewrite qeval_app.
  destruct (qeval M pre e) as [e1|] eqn:E1; [|discriminate].
  destruct (qeval_agree M (disable M m) pre e e) with (f := e1) as (e2 & E2 & Eq); [|reflexivity|exact E1|].
  { intros n m' Hn O. unfold disable. destruct (Nat.eqb_spec m' m) as [->|_]; [|reflexivity]. destruct (proj1 (Pre n Hn) O). }
  rewrite E2. cbn [qeval] in H |- *. unfold qeval_node in H |- *. rewrite Ol, Oo in H |- *. rewrite Ao in H |- *.
  replace (map e2 (qargs last)) with (map e1 (qargs last)) by (apply map_ext; exact Eq).
  unfold disable. rewrite Nat.eqb_refl. unfold result_kind in H |- *. cbn [needs returns pass]. rewrite Rt in H.
  destruct (all_qt (map e1 (qargs last))).
  - cbn [map] in H |- *. rewrite Nat.eqb_refl in H |- *. cbn in H. injection H as <-. rewrite Nat.eqb_refl in Ho.
    split; [symmetry; exact Ho|]. eexists. split; [reflexivity|]. split; [cbn; rewrite Nat.eqb_refl; reflexivity|].
    intros j J1 J2. apply Nat.eqb_neq in J1, J2. cbn. rewrite J1, J2. symmetry. apply Eq.
  - destruct (needs (M m)); [discriminate|]. cbn [map] in H |- *. rewrite Nat.eqb_refl in H |- *. cbn in H. injection H as <-. rewrite Nat.eqb_refl in Ho.
    split; [symmetry; exact Ho|]. eexists. split; [reflexivity|]. split; [cbn; rewrite Nat.eqb_refl; reflexivity|].
    intros j J1 J2. apply Nat.eqb_neq in J1, J2. cbn. rewrite J1, J2. symmetry. apply Eq.
Qed.
(** When the last such module has two users (its value is returned and also passed to a function)
    the flag of an earlier one is cleared: the output is still a QuantTensor, and a layer whose
    bias needs the input scale now raises. *)
Definition qM (m : nat) : qmod := match m with 0 => QM false (Some true) false | _ => QM true (Some true) false end.
Definition q_ns : list qnode := [QN 0 (QIn Plain) []; QN 1 (QCall 0) [0]; QN 2 (QCall 1) [1]; QN 3 QFun [2]; QN 4 QOut [2; 3]].
(** Nothing is switched when no module returns QuantTensors. *)
Theorem C88_disable_last_nothing ns (M : nat -> qmod) : (forall n m, In n ns -> qop_of n = QCall m -> returns (M m) <> Some true) ->
  forall j, disable_last ns M j = M j.
Proof.
  intros H j. unfold disable_last.
  assert (E : forall l, (forall n, In n l -> In n ns) -> find_last ns M l = None).
  { induction l as [|n l IH]; intros Hl; [reflexivity|]. cbn [find_last]. specialize (IH (fun x Hx => Hl x (or_intror Hx))).
    destruct (qop_of n) as [|m| |] eqn:O; try exact IH. pose proof (H n m (Hl n (or_introl eq_refl)) O) as R.
    destruct (returns (M m)) as [[]|]; [congruence| |]; rewrite andb_false_r; exact IH. }
  rewrite E; [reflexivity|]. intros n Hn. apply in_rev. exact Hn.
Qed.
Example C88_disable_last_nothing_example : forall j, disable_last [QN 0 (QIn Plain) []; QN 1 (QCall 0) [0]; QN 2 QOut [1]] (fun _ => QM false (Some false) true) j = QM false (Some false) true.
Proof. apply C88_disable_last_nothing. intros n m _ _. discriminate. Qed.

Theorem C88_disable_last_refuted : exists ns M e, qeval M ns e <> None /\ qeval (disable_last ns M) ns e = None.
Proof. exists q_ns, qM, (fun _ => Plain). split; [vm_compute; discriminate|vm_compute; reflexivity]. Qed.
Example C88_disable_last_example : let ns := [QN 0 (QIn Plain) []; QN 1 (QCall 0) [0]; QN 2 (QCall 1) [1]; QN 3 QOut [2]] in
  (exists f, qeval qM ns (fun _ => Plain) = Some f /\ f 1 = QT /\ f 3 = QT)
  /\ exists f, qeval (disable_last ns qM) ns (fun _ => Plain) = Some f /\ f 1 = QT /\ f 3 = Plain.
Proof. split; eexists; repeat split. Qed.

(** ** mean over the spatial dimensions *)
Theorem C88_mean_pooled c : mean_rewrite c = Pooled -> mkw c = [] /\ Permutation (margs c) (ATensor :: repeat hw (List.length (margs c) - 1)).
Proof.
  unfold mean_rewrite. destruct (mean_match c); cbn [negb]; [|discriminate]. unfold mean_move. destruct (get (mkw c) "dim"); [discriminate|].
  cbn [margs mkw]. destruct (filter (fun a => negb (arg_eqb hw a)) (margs c)) as [|[| |] [|]] eqn:F; try discriminate. destruct (mkw c); [|discriminate]. intros _. split; [reflexivity|].
  clear - F. induction (margs c) as [|a l IH]; [discriminate|]. cbn [filter] in F. destruct (arg_eqb hw a) eqn:E; cbn [negb] in F.
  - assert (Ea : a = hw). { destruct a as [|d|b]; cbn [arg_eqb hw] in E; try discriminate. destruct (list_eq_dec Nat.eq_dec [2; 3] d) as [<-|]; [reflexivity|discriminate]. }
    subst a. specialize (IH F). cbn [List.length]. replace (S (List.length l) - 1) with (S (List.length l - 1)) by (destruct l; [discriminate|cbn; lia]).
    cbn [repeat]. rewrite IH at 1. apply perm_swap.
  - pose proof (f_equal (hd ATensor) F) as Ea. cbn [hd] in Ea. subst a. apply (f_equal (@tl arg)) in F. cbn [tl] in F. cbn [List.length]. replace (S (List.length l) - 1) with (List.length l) by lia. constructor.
    assert (Al : l = repeat hw (List.length l)).
    { clear - F. induction l as [|b l IH]; [reflexivity|]. cbn [filter] in F. destruct (arg_eqb hw b) eqn:E; [|cbn [negb] in F; discriminate]. cbn [List.length repeat]. rewrite <- IH by exact F. f_equal.
      destruct b as [|d|b]; cbn [arg_eqb hw] in E; try discriminate. destruct (list_eq_dec Nat.eq_dec [2; 3] d) as [<-|]; [reflexivity|discriminate]. }
    rewrite <- Al. reflexivity.
Qed.
(** Pooling to one element and flattening is the mean over the two dimensions. *)
Lemma reshape_index (c h w : nat) : h = 1 -> w = 1 -> c / (h * w) = c /\ (c / w) mod h = 0 /\ c mod w = 0.
Proof. intros -> ->. change (1 * 1) with 1. rewrite Nat.div_1_r, Nat.mod_1_r. auto. Qed.
Theorem C88_mean_equals_pool x n c : (0 < dh x)%nat -> (0 < dw x)%nat -> reshape_flat (adaptive_avg 1 1 x) n c = mean_hw x n c.
Proof.
  intros Hh Hw. unfold reshape_flat. destruct (reshape_index c 1 1 eq_refl eq_refl) as (E1 & E2 & E3).
  unfold adaptive_avg. cbn [dh dw e4]. rewrite E1, E2, E3. unfold win_lo, win_hi, mean_hw. rewrite !Nat.div_1_r.
  replace (0 * dh x)%nat with 0%nat by lia. replace (0 * dw x)%nat with 0%nat by lia.
  replace ((0 + 1) * dh x + 1 - 1 - 0)%nat with (dh x) by lia. replace ((0 + 1) * dw x + 1 - 1 - 0)%nat with (dw x) by lia.
  rewrite !seq_length. reflexivity.
Qed.
(** x.mean((2, 3)) is rewritten; x.mean(dim=(2, 3)) raises while rewriting; an explicit keepdim,
    positional or keyword, makes the rewritten graph raise when called - also x.mean((2, 3), True),
    which is not squeezed by torch either. *)
Theorem C88_mean_keywords_refuted :
  mean_rewrite (MC [ATensor; hw] []) = Pooled
  /\ mean_rewrite (MC [ATensor] [("dim", hw)]) = RewriteRaises
  /\ (forall b, mean_rewrite (MC [ATensor; hw; ABool b] []) = CallRaises)
  /\ mean_rewrite (MC [ATensor; hw] [("keepdim", ABool false)]) = CallRaises
  /\ mean_rewrite (MC [ATensor; hw] [("keepdim", ABool true)]) = NotRewritten
  /\ mean_rewrite (MC [ATensor; ADims [3; 2]] []) = NotRewritten.
Proof. repeat split. Qed.
Example C88_mean_example : let x := T4 2 3 2 2 (fun n c h w => inject_Z (Z.of_nat (n * 100 + c * 10 + h * 2 + w))) in
  (mean_hw x 1 2 == 243 # 2)%Q /\ (reshape_flat (adaptive_avg 1 1 x) 1 2 == 243 # 2)%Q.
Proof. split; reflexivity. Qed.

Print Assumptions C88_duplicate_preserves.
Print Assumptions C88_duplicate_unshares.
Print Assumptions C88_duplicate_keeps_stateful.
Print Assumptions C88_functional_to_module.
Print Assumptions C88_remove_stochastic.
Print Assumptions C88_remove_stochastic_pass.
Print Assumptions C88_disable_last.
Print Assumptions C88_mean_pooled.
Print Assumptions C88_mean_equals_pool.
