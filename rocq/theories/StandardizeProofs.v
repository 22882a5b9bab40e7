(** Lemmas about the standardization passes (Standardize.v). *)
From Coq Require Import List Permutation Bool String Ascii Arith Lia.
From Verif Require Import StateDict StateDictProps Standardize.
Import ListNotations.
Open Scope nat_scope.
Open Scope string_scope.

(** ** Decimal numerals *)
Fixpoint parse (acc : nat) (s : string) : nat :=
  match s with EmptyString => acc | String c s => parse (10 * acc + (nat_of_ascii c - 48)) s end.
Lemma parse_app a b acc : parse acc (a ++ b) = parse (parse acc a) b.
Proof. revert acc. induction a as [|c a IH]; intros acc; [reflexivity|]. cbn [append parse]. apply IH. Qed.
Lemma digit_code m : m < 10 -> nat_of_ascii (ascii_of_nat (48 + m)) = 48 + m.
Proof. intros H. apply nat_ascii_embedding. lia. Qed.
Lemma parse_str f : forall m, m < f -> parse 0 (str_of_fuel f m) = m.
Proof.
  induction f as [|f IH]; intros m H; [lia|]. cbn [str_of_fuel]. destruct (Nat.ltb_spec m 10) as [L|L].
  - unfold digit. cbn [parse]. rewrite digit_code by exact L. lia.
  - rewrite parse_app, IH; [|assert (m / 10 < m) by (apply Nat.div_lt; lia); lia].
    unfold digit. cbn [parse]. rewrite digit_code by (apply Nat.mod_upper_bound; lia).
    replace (48 + m mod 10 - 48) with (m mod 10) by lia. symmetry. apply Nat.div_mod. lia.
Qed.
Lemma str_of_inj a b : str_of a = str_of b -> a = b.
Proof. intros H. rewrite <- (parse_str (S a) a), <- (parse_str (S b) b) by lia. unfold str_of in H. rewrite H. reflexivity. Qed.

Fixpoint has_us (s : string) : bool := match s with EmptyString => false | String c s => Ascii.eqb c "_" || has_us s end.
Lemma has_us_app a b : has_us (a ++ b) = has_us a || has_us b.
Proof. induction a as [|c a IH]; [reflexivity|]. cbn [append has_us]. rewrite IH. apply orb_assoc. Qed.
Lemma digit_no_us m : m < 10 -> has_us (digit m) = false.
Proof.
  intros H. unfold digit. cbn [has_us]. rewrite orb_false_r. destruct (Ascii.eqb_spec (ascii_of_nat (48 + m)) "_") as [E|_]; [|reflexivity].
  apply (f_equal nat_of_ascii) in E. rewrite digit_code in E by exact H. change (nat_of_ascii "_") with 95 in E. lia.
Qed.
Lemma str_no_us f : forall m, has_us (str_of_fuel f m) = false.
Proof.
  induction f as [|f IH]; intros m; [reflexivity|]. cbn [str_of_fuel]. destruct (Nat.ltb_spec m 10) as [L|L]; [apply digit_no_us; exact L|].
  rewrite has_us_app, IH, digit_no_us; [reflexivity|]. apply Nat.mod_upper_bound. lia.
Qed.
Lemma split_us a b x y : has_us x = false -> has_us y = false -> a ++ "_" ++ x = b ++ "_" ++ y -> a = b /\ x = y.
Proof.
  revert b. induction a as [|c a IH]; intros [|d b] Hx Hy E; cbn [append] in E.
  - injection E as ->. auto.
  - injection E as <- E. rewrite E, has_us_app in Hx. cbn in Hx. rewrite orb_true_r in Hx. discriminate.
  - injection E as -> E. rewrite <- E, has_us_app in Hy. cbn in Hy. rewrite orb_true_r in Hy. discriminate.
  - injection E as -> E. destruct (IH b Hx Hy E) as (-> & ->). auto.
Qed.
Lemma dup_name_inj a b j k : dup_name a j = dup_name b k -> a = b /\ j = k.
Proof. intros H. destruct (split_us a b (str_of j) (str_of k)) as (-> & E); [apply str_no_us|apply str_no_us|exact H|]. split; [reflexivity|apply str_of_inj; exact E]. Qed.
Lemma dup_name_ne a k : dup_name a k <> a.
Proof.
  intros H. apply (f_equal String.length) in H. unfold dup_name in H. rewrite !app_length in H. cbn [String.length] in H. lia.
Qed.

Lemma nodup_snoc {A} (l : list A) x : NoDup l -> ~ In x l -> NoDup (l ++ [x]).
Proof.
  intros H N. apply (Permutation.Permutation_NoDup (l := (x :: l)%list)); [apply Permutation.Permutation_cons_append|constructor; assumption].
Qed.
Lemma forall2_impl {A B} (p q : A -> B -> Prop) l r : (forall a b, p a b -> q a b) -> Forall2 p l r -> Forall2 q l r.
Proof. intros H. induction 1; constructor; auto. Qed.
Lemma nodup_prefix {A} (l r : list A) : NoDup (l ++ r) -> NoDup l.
Proof.
  induction l as [|a l IH]; intros H; [constructor|]. inversion_clear H as [|? ? N R]. constructor; [|apply IH; exact R].
  intros I. apply N, in_or_app. left. exact I.
Qed.

Section G.
Context {V : Type}.
Notation node := (node V). Notation graph := (graph V). Notation table := (table V). Notation module := (module V).

Lemma keys_set {A} (d : dict A) k v x : In x (keys (set d k v)) <-> x = k \/ In x (keys d).
Proof.
  induction d as [|[a u] d IH]; cbn [set keys map fst In]; [intuition congruence|].
  destruct (String.eqb_spec a k) as [->|N]; cbn [map fst In]; [intuition congruence|].
  change (map fst (set d k v)) with (keys (set d k v)). change (map fst d) with (keys d). rewrite IH. intuition congruence.
Qed.
Lemma keys_set_fresh {A} (d : dict A) k v : ~ In k (keys d) -> keys (set d k v) = (keys d ++ [k])%list.
Proof.
  induction d as [|[a u] d IH]; intros H; [reflexivity|]. cbn [set]. cbn [keys map fst In] in H.
  destruct (String.eqb_spec a k) as [->|N]; [exfalso; apply H; left; reflexivity|]. cbn [keys map fst app]. f_equal. apply IH. intros I. apply H. right. exact I.
Qed.

(** Nodes that behave alike with two tables. *)
Definition alike (t0 t : table) (n0 n : node) : Prop :=
  nname n = nname n0 /\ nop n = nop n0 /\ nargs n = nargs n0
  /\ (nop n0 = CallModule -> get t (ntarget n) = get t0 (ntarget n0))
  /\ (nop n0 <> CallModule -> ntarget n = ntarget n0).
Lemma alike_eval meth inp t0 t env n0 n : alike t0 t n0 n -> eval_node meth inp t env n = eval_node meth inp t0 env n0.
Proof.
  intros (E1 & E2 & E3 & E4 & E5). unfold eval_node. rewrite E3, E2. destruct (gather env (nargs n0)) as [vs|]; [|reflexivity].
  destruct (nop n0) eqn:O; [rewrite E5 by discriminate; reflexivity|rewrite E4 by reflexivity; reflexivity|rewrite E5 by discriminate; reflexivity|reflexivity|reflexivity].
Qed.
Lemma alike_run meth inp t0 t ns0 ns : Forall2 (alike t0 t) ns0 ns -> forall env, run meth inp t ns env = run meth inp t0 ns0 env.
Proof.
  induction 1 as [|n0 n ns0 ns A F IH]; intros env; [reflexivity|]. cbn [run]. rewrite (alike_eval meth inp t0 t env n0 n A).
  destruct A as (E1 & E2 & _). rewrite E1, E2. destruct (eval_node meth inp t0 env n0); [|reflexivity]. destruct (nop n0); try apply IH; reflexivity.
Qed.

(** ** Duplication *)
(** Result of [dup_nodes] on each node, and on the table. *)
Definition hit (name : string) (n : node) : bool := str_target n && String.eqb (ntarget n) name.
Definition from (k : option nat) : nat := match k with None => 0 | Some j => S j end.
Lemma dup_nodes_table name (m : module) (ns : list node) : forall k t, NoDup (keys t) -> (forall j, from k <= j -> 0 < j -> ~ In (dup_name name j) (keys t)) ->
  let r := dup_nodes name m k ns t in
  NoDup (keys (snd r))
  /\ (forall x, In x (keys t) -> get (snd r) x = get t x /\ In x (keys (snd r)))
  /\ (forall x, In x (keys (snd r)) -> In x (keys t) \/ exists j, from k <= j /\ 0 < j /\ x = dup_name name j /\ get (snd r) x = Some m).
Proof.
  induction ns as [|n ns IH]; intros k t ND Fr; cbn zeta; cbn [dup_nodes].
  - cbn [snd]. auto.
  - destruct (str_target n && String.eqb (ntarget n) name).
    + destruct k as [j|].
      * specialize (IH (Some (S j)) (set t (dup_name name (S j)) m)). cbn zeta in IH.
        destruct (dup_nodes name m (Some (S j)) ns (set t (dup_name name (S j)) m)) as [r t'] eqn:E. cbn [snd] in IH |- *.
        assert (F0 : ~ In (dup_name name (S j)) (keys t)) by (apply Fr; cbn [from]; lia).
        destruct IH as (I1 & I2 & I3).
        { rewrite keys_set_fresh by exact F0. apply nodup_snoc; assumption. }
        { intros i Hi Hp Hin. apply keys_set in Hin. destruct Hin as [Hin|Hin]; [apply dup_name_inj in Hin; cbn [from] in Hi; lia|].
          apply (Fr i); [cbn [from] in *; lia|exact Hp|exact Hin]. }
        split; [exact I1|]. split.
        { intros x Hx. destruct (I2 x) as (G & K); [apply keys_set; right; exact Hx|]. split; [|exact K]. rewrite G. apply get_set_other. intros Ex. subst x. contradiction. }
        { intros x Hx. destruct (I3 x Hx) as [Hk|(i & H1 & H2 & H3 & H4)].
          - apply keys_set in Hk. destruct Hk as [->|Hk]; [|left; exact Hk]. right. exists (S j). cbn [from].
            split; [lia|]. split; [lia|]. split; [reflexivity|]. rewrite (proj1 (I2 _ (proj2 (keys_set _ _ _ _) (or_introl eq_refl)))). apply get_set_same.
          - right. exists i. cbn [from] in *. split; [lia|auto]. }
      * specialize (IH (Some 0) t ND). cbn zeta in IH. destruct (dup_nodes name m (Some 0) ns t) as [r t']. cbn [snd] in IH |- *.
        destruct IH as (I1 & I2 & I3); [intros i Hi Hp; apply Fr; cbn [from] in *; lia|].
        split; [exact I1|]. split; [exact I2|]. intros x Hx. destruct (I3 x Hx) as [Hk|(i & H1 & H2)]; [left; exact Hk|].
        right. exists i. cbn [from] in *. split; [lia|exact H2].
    + specialize (IH k t ND Fr). cbn zeta in IH. destruct (dup_nodes name m k ns t) as [r t']. exact IH.
Qed.

Inductive dup_rel (name : string) : option nat -> list node -> list node -> Prop :=
| DNil k : dup_rel name k [] []
| DSkip k n a b : hit name n = false -> dup_rel name k a b -> dup_rel name k (n :: a) (n :: b)
| DFirst n a b : hit name n = true -> dup_rel name (Some 0) a b -> dup_rel name None (n :: a) (n :: b)
| DHit j n a b : hit name n = true -> dup_rel name (Some (S j)) a b ->
    dup_rel name (Some j) (n :: a) (retarget n (dup_name name (S j)) :: b).
Lemma dup_nodes_rel name (m : module) (ns : list node) : forall k t, dup_rel name k ns (fst (dup_nodes name m k ns t)).
Proof.
  induction ns as [|n ns IH]; intros k t; [constructor|]. cbn [dup_nodes]. fold (hit name n). destruct (hit name n) eqn:H.
  - destruct k as [j|].
    + specialize (IH (Some (S j)) (set t (dup_name name (S j)) m)). destruct (dup_nodes _ _ _ _ _). constructor; assumption.
    + specialize (IH (Some 0) t). destruct (dup_nodes _ _ _ _ _). constructor; assumption.
  - specialize (IH k t). destruct (dup_nodes _ _ _ _ _). constructor; assumption.
Qed.
(** Every duplicated target is in the table. *)
Lemma dup_nodes_targets name (m : module) (ns : list node) : forall k t, NoDup (keys t) -> (forall j, from k <= j -> 0 < j -> ~ In (dup_name name j) (keys t)) ->
  Forall2 (fun n0 n => n = n0 \/ (hit name n0 = true /\ exists j, from k <= j /\ 0 < j /\ n = retarget n0 (dup_name name j)
                                  /\ get (snd (dup_nodes name m k ns t)) (dup_name name j) = Some m)) ns (fst (dup_nodes name m k ns t)).
Proof.
  induction ns as [|n ns IH]; intros k t ND Fr; [constructor|].
  assert (Weak : forall k' t' (b : list node), from k <= from k' ->
            Forall2 (fun n0 n => n = n0 \/ (hit name n0 = true /\ exists j, from k' <= j /\ 0 < j /\ n = retarget n0 (dup_name name j) /\ get t' (dup_name name j) = Some m)) ns b ->
            Forall2 (fun n0 n => n = n0 \/ (hit name n0 = true /\ exists j, from k <= j /\ 0 < j /\ n = retarget n0 (dup_name name j) /\ get t' (dup_name name j) = Some m)) ns b).
  { intros k' t' b L F. eapply forall2_impl; [|exact F]. cbn beta. intros n0 n1 [E|(Hh & j & H1 & H2)]; [left; exact E|right; split; [exact Hh|]; exists j; split; [lia|exact H2]]. }
  cbn [dup_nodes]. fold (hit name n). destruct (hit name n) eqn:H.
  - destruct k as [j|].
    + assert (F0 : ~ In (dup_name name (S j)) (keys t)) by (apply Fr; cbn [from]; lia).
      assert (ND' : NoDup (keys (set t (dup_name name (S j)) m))).
      { rewrite keys_set_fresh by exact F0. apply nodup_snoc; assumption. }
      assert (Fr' : forall i, from (Some (S j)) <= i -> 0 < i -> ~ In (dup_name name i) (keys (set t (dup_name name (S j)) m))).
      { intros i Hi Hp Hin. apply keys_set in Hin. destruct Hin as [Hin|Hin]; [apply dup_name_inj in Hin; cbn [from] in Hi; lia|].
        apply (Fr i); [cbn [from] in *; lia|exact Hp|exact Hin]. }
      specialize (IH (Some (S j)) _ ND' Fr').
      destruct (dup_nodes_table name m ns (Some (S j)) _ ND' Fr') as (_ & I2 & _).
      destruct (dup_nodes name m (Some (S j)) ns (set t (dup_name name (S j)) m)) as [r t'] eqn:E. cbn [fst snd] in *.
      constructor.
      * right. split; [exact H|]. exists (S j). cbn [from]. split; [lia|]. split; [lia|]. split; [reflexivity|].
        rewrite (proj1 (I2 _ (proj2 (keys_set _ _ _ _) (or_introl eq_refl)))). apply get_set_same.
      * apply (Weak (Some (S j))); [cbn [from]; lia|exact IH].
    + specialize (IH (Some 0) t ND). destruct (dup_nodes name m (Some 0) ns t) as [r t'] eqn:E. cbn [fst snd] in *.
      constructor; [left; reflexivity|]. apply (Weak (Some 0)); [cbn [from]; lia|]. apply IH. intros i Hi Hp. apply Fr; cbn [from] in *; lia.
  - specialize (IH k t ND Fr). destruct (dup_nodes name m k ns t) as [r t']. cbn [fst snd] in *. constructor; [left; reflexivity|exact IH].
Qed.

(** Well-formed traced graphs. *)
Definition traced (ns : graph) (t : table) : Prop :=
  NoDup (keys t) /\ (forall n, In n ns -> nop n = CallModule -> In (ntarget n) (keys t))
  /\ (forall n, In n ns -> str_target n = true -> nop n <> CallModule -> ~ In (ntarget n) (keys t)).
Definition no_clash (t : table) : Prop :=
  forall name m k, In (name, m) t -> stateful m = false -> ~ In (dup_name name (S k)) (keys t).

(** Two calls with the same target only of names in [ok]. *)
Fixpoint shared_in (ok : string -> Prop) (ns : list node) : Prop :=
  match ns with
  | [] => True
  | n :: ns => (forall n', In n' ns -> nop n = CallModule -> nop n' = CallModule -> ntarget n = ntarget n' -> ok (ntarget n)) /\ shared_in ok ns
  end.

Definition inv (ns0 : graph) (t0 : table) (done : list (string * module)) (st : graph * table) : Prop :=
  let '(ns, t) := st in
  Forall2 (alike t0 t) ns0 ns
  /\ NoDup (keys t) /\ (forall x, In x (keys t0) -> get t x = get t0 x /\ In x (keys t))
  /\ (forall x, In x (keys t) -> In x (keys t0) \/ exists name m j, In (name, m) done /\ stateful m = false /\ x = dup_name name (S j))
  /\ (forall n, In n ns -> nop n = CallModule -> In (ntarget n) (keys t))
  /\ (forall n, In n ns -> str_target n = true -> nop n <> CallModule -> ~ In (ntarget n) (keys t0))
  /\ shared_in (fun x => In x (keys t0) /\ forall m, In (x, m) done -> stateful m = true) ns.

Lemma rel_in name k a b : dup_rel name k a b -> forall x, In x b -> exists y, In y a /\ nop x = nop y /\
  (x = y \/ hit name y = true /\ exists j, from k <= j /\ 0 < j /\ x = retarget y (dup_name name j)).
Proof.
  induction 1 as [k|k n a b Hh R IH|n a b Hh R IH|j n a b Hh R IH]; intros x Hx; [destruct Hx|..]; destruct Hx as [<-|Hx].
  - exists n. split; [left; reflexivity|split; [reflexivity|left; reflexivity]].
  - destruct (IH x Hx) as (y & Hy & R'). exists y. split; [right; exact Hy|exact R'].
  - exists n. split; [left; reflexivity|split; [reflexivity|left; reflexivity]].
  - destruct (IH x Hx) as (y & Hy & O & R'). exists y. split; [right; exact Hy|]. split; [exact O|].
    destruct R' as [E|(Hh' & j & H1 & H2)]; [left; exact E|right; split; [exact Hh'|]; exists j; cbn [from] in *; split; [lia|exact H2]].
  - exists n. split; [left; reflexivity|]. split; [reflexivity|]. right. split; [exact Hh|]. exists (S j). cbn [from]. split; [lia|]. split; [lia|reflexivity].
  - destruct (IH x Hx) as (y & Hy & O & R'). exists y. split; [right; exact Hy|]. split; [exact O|].
    destruct R' as [E|(Hh' & i & H1 & H2)]; [left; exact E|right; split; [exact Hh'|]; exists i; cbn [from] in *; split; [lia|exact H2]].
Qed.
(** After the first hit no node keeps the name. *)
Lemma rel_some name j a b : dup_rel name (Some j) a b -> forall x, In x b -> hit name x = false.
Proof.
  intros R. remember (Some j) as k eqn:E. revert j E. induction R as [k|k n a b Hh R IH|n a b Hh R IH|i n a b Hh R IH]; intros j E x Hx; [destruct Hx|..]; destruct Hx as [<-|Hx];
    try discriminate; try (eapply IH; [|exact Hx]; first [exact E|reflexivity]).
  - exact Hh.
  - unfold hit. cbn [retarget ntarget]. destruct (String.eqb_spec (dup_name name (S i)) name) as [E'|_]; [destruct (dup_name_ne _ _ E')|apply andb_false_r].
Qed.
Lemma hit_iff name n : nop n = CallModule -> (hit name n = true <-> ntarget n = name).
Proof. intros O. unfold hit, str_target. rewrite O. cbn [andb]. apply String.eqb_eq. Qed.

Lemma rel_shared name ok k a b : dup_rel name k a b -> shared_in ok a ->
  (forall n j, In n a -> 0 < j -> nop n = CallModule -> ntarget n <> dup_name name j) ->
  shared_in (fun x => ok x /\ x <> name) b.
Proof.
  induction 1 as [k|k n a b Hh R IH|n a b Hh R IH|j n a b Hh R IH]; cbn [shared_in]; intros Sh Fr; [exact I|..]; destruct Sh as (S1 & S2).
  - split; [|apply IH; [exact S2|intros; apply Fr; auto; right; assumption]].
    intros n' Hn' O O' E. destruct (rel_in _ _ _ _ R n' Hn') as (y & Hy & Oy & [->|(Hy' & j & H1 & H2 & ->)]).
    + split; [eapply S1; eauto|]. intros En. rewrite <- not_true_iff_false in Hh. apply Hh. apply hit_iff; assumption.
    + exfalso. cbn [retarget ntarget] in E. apply (Fr n j (or_introl eq_refl) H2 O). exact E.
  - split; [|apply IH; [exact S2|intros; apply Fr; auto; right; assumption]].
    intros n' Hn' O O' E. pose proof (rel_some _ _ _ _ R n' Hn') as Hf. rewrite <- not_true_iff_false in Hf. exfalso. apply Hf.
    apply hit_iff; [exact O'|]. rewrite <- E. apply hit_iff; assumption.
  - split; [|apply IH; [exact S2|intros; apply Fr; auto; right; assumption]].
    intros n' Hn' O O' E. cbn [retarget nop ntarget] in O, E |- *. exfalso.
    destruct (rel_in _ _ _ _ R n' Hn') as (y & Hy & Oy & [->|(Hy' & i & H1 & H2 & ->)]).
    + apply (Fr y (S j) (or_intror Hy)); [lia|exact O'|symmetry; exact E].
    + cbn [retarget ntarget] in E. apply dup_name_inj in E. cbn [from] in H1. lia.
Qed.
Lemma shared_in_impl (p q : string -> Prop) ns : (forall x, p x -> q x) -> shared_in p ns -> shared_in q ns.
Proof. intros H. induction ns as [|n ns IH]; [auto|]. cbn [shared_in]. intros (A & B). split; [|auto]. intros n' Hn' O O' E. apply H. eapply A; eauto. Qed.

Lemma inv_step ns0 t0 done x st : no_clash t0 -> traced ns0 t0 -> (forall y, In y (done ++ [x]) -> In y t0)%list -> NoDup (map fst (done ++ [x])) ->
  inv ns0 t0 done st -> inv ns0 t0 (done ++ [x]) (dup_step st x).
Proof.
  intros NC TR Sub NDd. destruct st as [ns t]. destruct x as [name m]. intros (A & ND & G & K & T & O & Sh). unfold dup_step. cbn [snd fst].
  assert (Hx : In (name, m) t0) by (apply Sub, in_or_app; right; left; reflexivity).
  assert (Hk : In name (keys t0)) by (apply (in_map fst) in Hx; exact Hx).
  assert (Fresh : ~ In name (map fst done)).
  { rewrite map_app in NDd. cbn [map fst] in NDd. apply NoDup_remove_2 in NDd. rewrite app_nil_r in NDd. exact NDd. }
  destruct (stateful m) eqn:St.
  - split; [exact A|]. split; [exact ND|]. split; [exact G|]. split.
    { intros y Hy. destruct (K y Hy) as [H|(n' & m' & j & H1 & H2)]; [left; exact H|right; exists n', m', j; split; [apply in_or_app; left; exact H1|exact H2]]. }
    split; [exact T|]. split; [exact O|]. eapply shared_in_impl; [|exact Sh]. cbn beta. intros y (H1 & H2). split; [exact H1|].
    intros m' Hm'. apply in_app_or in Hm'. destruct Hm' as [Hm'|[E|[]]]; [apply H2; exact Hm'|]. injection E as <- <-. exact St.
  - assert (Fr : forall j, from None <= j -> 0 < j -> ~ In (dup_name name j) (keys t)).
    { intros j _ Hj Hin. destruct j as [|j]; [lia|]. destruct (K _ Hin) as [H|(n' & m' & i & H1 & H2 & H3)]; [exact (NC name m j Hx St H)|].
      apply dup_name_inj in H3. destruct H3 as (<- & _). apply Fresh. apply (in_map fst) in H1. exact H1. }
    pose proof (dup_nodes_table name m ns None t ND Fr) as Tb. cbn zeta in Tb. destruct Tb as (B1 & B2 & B3).
    pose proof (dup_nodes_targets name m ns None t ND Fr) as Tg.
    pose proof (dup_nodes_rel name m ns None t) as Rl.
    destruct (dup_nodes name m None ns t) as [ns' t'] eqn:E. cbn [fst snd] in *.
    assert (Gm : get t0 name = Some m) by (apply in_get; [apply TR|exact Hx]).
    assert (T' : forall n, In n ns' -> nop n = CallModule -> In (ntarget n) (keys t')).
    { intros n Hn On. clear - Tg Hn On T B2. induction Tg as [|n0 n1 l l' R F IH]; [destruct Hn|]. destruct Hn as [<-|Hn].
      - destruct R as [->|(_ & j & _ & _ & -> & Gj)]; [apply B2, T; [left; reflexivity|exact On]|]. cbn [retarget ntarget]. apply get_in. rewrite Gj. discriminate.
      - apply IH; [|exact Hn]. intros n2 Hn' Hc. apply T; [right; exact Hn'|exact Hc]. }
    split.
    { clear - A Tg T B2 G Gm O Hk. revert ns' Tg. induction A as [|n0 n l l' R F IH]; intros ns' Tg; inversion_clear Tg as [|? n1 ? l1 P Q]; constructor.
      - destruct R as (E1 & E2 & E3 & E4 & E5). destruct P as [->|(Hh & j & _ & _ & -> & Gj)].
        + split; [exact E1|]. split; [exact E2|]. split; [exact E3|]. split; [|exact E5]. intros Oc. rewrite <- (E4 Oc).
          apply B2, T; [left; reflexivity|]. rewrite E2. exact Oc.
        + assert (Oc : nop n = CallModule).
          { unfold hit in Hh. apply andb_prop in Hh. destruct Hh as (Hs & Ht). apply String.eqb_eq in Ht.
            destruct (nop n) eqn:On; [..|]; try reflexivity; exfalso; (eapply (O n); [left; reflexivity|exact Hs|congruence|rewrite Ht; exact Hk]). }
          unfold alike. cbn [retarget nname nop nargs ntarget]. split; [exact E1|]. split; [exact E2|]. split; [exact E3|].
          split; [|intros Nc; rewrite <- E2 in Nc; contradiction]. intros Oc0. rewrite Gj. rewrite <- (E4 Oc0).
          assert (Tn : ntarget n = name) by (apply hit_iff; assumption). rewrite Tn. rewrite (proj1 (G name Hk)). symmetry. exact Gm.
      - apply IH; [intros; apply T; auto; right; assumption|intros n' Hn'; apply O; right; exact Hn'|exact Q]. }
    split; [exact B1|]. split.
    { intros y Hy. destruct (G y Hy) as (G1 & G2). destruct (B2 y G2) as (G3 & G4). split; [congruence|exact G4]. }
    split.
    { intros y Hy. destruct (B3 y Hy) as [H|(j & _ & Hj & -> & _)].
      - destruct (K y H) as [H'|(n' & m' & i & H1 & H2)]; [left; exact H'|right; exists n', m', i; split; [apply in_or_app; left; exact H1|exact H2]].
      - right. destruct j as [|j]; [lia|]. exists name, m, j. split; [apply in_or_app; right; left; reflexivity|auto]. }
    split; [exact T'|]. split.
    { intros n Hn Hs Nc. destruct (rel_in _ _ _ _ Rl n Hn) as (y & Hy & Oy & [->|(Hh & j & _ & _ & ->)]); [apply O; assumption|].
      exfalso. unfold hit in Hh. apply andb_prop in Hh. destruct Hh as (Hs' & Ht). apply String.eqb_eq in Ht.
      apply (O y Hy Hs'); [rewrite <- Oy; exact Nc|]. rewrite Ht. exact Hk. }
    eapply shared_in_impl; [|apply (rel_shared _ _ _ _ _ Rl Sh)].
    + cbn beta. intros y ((H1 & H2) & Hne). split; [exact H1|]. intros m' Hm'. apply in_app_or in Hm'. destruct Hm' as [Hm'|[E'|[]]]; [apply H2; exact Hm'|].
      injection E' as E1 E2. symmetry in E1. contradiction.
    + intros n j Hn Hj On E'. apply (Fr j); [cbn [from]; lia|exact Hj|]. rewrite <- E'. apply T; assumption.
Qed.
Lemma shared_in_any ns (t0 : table) : (forall n, In n ns -> nop n = CallModule -> In (ntarget n) (keys t0)) ->
  shared_in (fun x => In x (keys t0) /\ forall m : module, In (x, m) [] -> stateful m = true) ns.
Proof.
  induction ns as [|n ns IH]; intros H; [exact I|]. split; [|apply IH; intros; apply H; auto; right; assumption].
  intros n' Hn' O _ _. split; [apply H; [left; reflexivity|exact O]|intros m []].
Qed.
Lemma duplicate_inv ns t : no_clash t -> traced ns t -> inv ns t t (duplicate ns t).
Proof.
  intros NC TR. unfold duplicate.
  assert (Gen : forall todo done st, (done ++ todo)%list = t -> inv ns t done st -> inv ns t t (fold_left dup_step todo st)).
  { induction todo as [|x todo IH]; intros done st E I0; cbn [fold_left]; [rewrite app_nil_r in E; subst done; exact I0|].
    apply (IH (done ++ [x])%list); [rewrite <- app_assoc; exact E|]. apply inv_step; try assumption.
    - intros y Hy. rewrite <- E. apply in_app_or in Hy. apply in_or_app. destruct Hy as [Hy|[<-|[]]]; [left; exact Hy|right; left; reflexivity].
    - destruct TR as (ND & _). unfold keys in ND. rewrite <- E in ND. change (x :: todo)%list with ([x] ++ todo)%list in ND.
      rewrite app_assoc, map_app in ND. apply nodup_prefix in ND. exact ND. }
  apply (Gen t []); [reflexivity|]. destruct TR as (ND & T & O). split.
  { clear. induction ns as [|n ns IH]; constructor; [|exact IH]. split; [reflexivity|]. split; [reflexivity|]. split; [reflexivity|]. split; reflexivity. }
  split; [exact ND|]. split; [auto|]. split; [auto|]. split; [exact T|]. split; [exact O|]. apply shared_in_any. exact T.
Qed.
End G.
