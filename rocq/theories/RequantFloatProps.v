(** The quantizer insertion and alignment passes do not change the function computed by the graph
    apart from the quantizers themselves (C79). *)
From Coq Require Import List Bool Arith ZArith QArith Lia.
Import ListNotations.
From Verif Require Import RequantGraph RequantGraphProps RequantProofs.
Local Open Scope nat_scope.

(** * Specification: execution with ideal quantizers *)

Section Float.
Context {V : Type}.
(** What activation functions, layers, functions, methods and the output node compute, the
    arguments of the model and its attributes; errors are [None]. *)
Variable fsem : nat -> list V -> option V.
Variable fnsem : fn -> list V -> option V.
Variable methsem : meth -> list V -> option V.
Variable outsem : list V -> option V.
Variable arg attr : nat -> option V.

(** The float function of a module: a quantized activation applies its activation function (none
    for QuantIdentity) and an ideal quantizer (the identity). *)
Definition mod_key (md : module) : option nat :=
  match md with
  | QAct q => if q_identity q then None else Some (q_fun q)
  | FpAct _ _ f | Pass _ f | BNorm f | Other _ _ f => Some f
  end.
Definition key_fun (k : option nat) (vs : list V) : option V :=
  match k with None => match vs with [v] => Some v | _ => None end | Some f => fsem f vs end.

Definition env := nat -> option V.
Fixpoint gather (e : env) (ins : list nat) : option (list V) :=
  match ins with
  | [] => Some []
  | i :: ins' => match e i, gather e ins' with Some v, Some vs => Some (v :: vs) | _, _ => None end
  end.
Definition eval_op (s : st) (e : env) (i : nat) (o : op) : option V :=
  match gather e (ins_of o) with
  | None => None
  | Some vs =>
      match o with
      | OPlaceholder => arg i
      | OGetAttr => attr i
      | OModule m _ => match get_module s m with Some md => key_fun (mod_key md) vs | None => None end
      | OFn f _ => fnsem f vs
      | OMeth m _ => methsem m vs
      | OOutput _ => outsem vs
      end
  end.
Definition updo (e : env) (i : nat) (v : option V) : env := fun j => if j =? i then v else e j.
Fixpoint eval (s : st) (ns : list node) (e : env) : env :=
  match ns with [] => e | n :: ns' => eval s ns' (updo e (fst n) (eval_op s e (fst n) (snd n))) end.
(** The value of node [i]. *)
Definition value_of (s : st) (i : nat) : option V := eval s (nodes s) (fun _ => None) i.

(** A traced model: operands precede uses, identifiers are distinct and below [next], called
    modules are registered, and none of the names built by the passes is already taken. *)
Definition traced (s : st) : Prop :=
  topo_from [] (nodes s) /\ (forall x, In x (map fst (nodes s)) -> x < next s) /\
  (forall m i, lookup_reg (reg s) m = Some i -> i < next s) /\
  (forall i m ins, In (i, OModule m ins) (nodes s) -> lookup_reg (reg s) m <> None) /\
  (forall m i, lookup_reg (reg s) m = Some i -> exists k, m = MOrig k).

(** * Proofs *)
Lemma gather_ext e1 e2 ins : (forall j, In j ins -> e1 j = e2 j) -> gather e1 ins = gather e2 ins.
Proof.
  induction ins as [|i ins IH]; intros H; [reflexivity|]. cbn [gather].
  rewrite (H i (or_introl eq_refl)), IH; [reflexivity|]. intros j Hj. apply H. right; exact Hj.
Qed.

Definition key_of (s : st) (m : mname) : option (option nat) :=
  match get_module s m with Some md => Some (mod_key md) | None => None end.
Lemma eval_op_key s e i o : eval_op s e i o =
  match gather e (ins_of o) with
  | None => None
  | Some vs =>
      match o with
      | OPlaceholder => arg i
      | OGetAttr => attr i
      | OModule m _ => match key_of s m with Some k => key_fun k vs | None => None end
      | OFn f _ => fnsem f vs
      | OMeth m _ => methsem m vs
      | OOutput _ => outsem vs
      end
  end.
Proof.
  unfold eval_op, key_of. destruct (gather e (ins_of o)); [|reflexivity]. destruct o; try reflexivity.
  destruct (get_module s m); reflexivity.
Qed.

(** Same nodes, same module functions. *)
Lemma eval_keys s1 s2 ns : forall e1 e2,
  (forall i m ins, In (i, OModule m ins) ns -> key_of s1 m = key_of s2 m) ->
  (forall j, e1 j = e2 j) -> forall j, eval s1 ns e1 j = eval s2 ns e2 j.
Proof.
  induction ns as [|[i o] ns IH]; intros e1 e2 Hk He j; [apply He|]. cbn [eval fst snd].
  apply IH; [intros i' m ins H; eapply Hk; right; exact H|].
  intros j'. unfold updo. destruct (j' =? i); [|apply He]. rewrite !eval_op_key.
  rewrite (gather_ext e1 e2) by (intros; apply He). destruct (gather e2 (ins_of o)); [|reflexivity].
  destruct o; try reflexivity. rewrite (Hk i m ins) by (left; reflexivity). reflexivity.
Qed.

Lemma eval_notin s ns : forall e j, ~ In j (map fst ns) -> eval s ns e j = e j.
Proof.
  induction ns as [|[i o] ns IH]; intros e j H; [reflexivity|]. cbn [eval fst snd map In] in *.
  rewrite IH by tauto. unfold updo. destruct (j =? i) eqn:E; [|reflexivity].
  apply Nat.eqb_eq in E. subst. tauto.
Qed.

(** After the insertion point: uses of [n] may read [id] instead, which holds the same value. *)
Lemma eval_rename s ns n id ex : forall e1 e2,
  (forall j, j <> id -> e1 j = e2 j) -> e2 id = e1 n -> e2 n = e1 n -> n <> id ->
  ~ In n (map fst ns) -> ~ In id (map fst ns) ->
  (forall p, In p ns -> ~ In id (ins_of (snd p))) ->
  forall j, j <> id -> eval s ns e1 j = eval s (map (rename n id ex) ns) e2 j.
Proof.
  induction ns as [|[i o] ns IH]; intros e1 e2 He Hid Hn Hne Hn' Hid' Hins j Hj; [apply He, Hj|].
  cbn [eval map]. rewrite rename_fst. cbn [fst snd map In] in *.
  assert (Hg : eval_op s e1 i o = eval_op s e2 i (snd (rename n id ex (i, o)))).
  { assert (H0 : ~ In id (ins_of o)) by (apply (Hins (i, o)); left; reflexivity).
    unfold rename. cbn [fst snd]. destruct (existsb (Nat.eqb i) ex); cbn [snd].
    - unfold eval_op. rewrite (gather_ext e1 e2); [reflexivity|].
      intros k Hk. apply He. intros ->. contradiction.
    - unfold eval_op.
      assert (E : gather e1 (ins_of o) =
                  gather e2 (map (fun i0 => if i0 =? n then id else i0) (ins_of o))).
      { clear - He Hid H0. revert H0. induction (ins_of o) as [|k l IHl]; intros H0; [reflexivity|].
        cbn [map gather]. rewrite IHl by (intros Hc; apply H0; right; exact Hc).
        destruct (k =? n) eqn:E.
        - apply Nat.eqb_eq in E. subst k. rewrite Hid. reflexivity.
        - rewrite He; [reflexivity|]. intros ->. apply H0. left; reflexivity. }
      destruct o; cbn [ins_of set_ins] in *; try reflexivity; rewrite E; reflexivity. }
  apply IH; try tauto.
  - intros k Hk. unfold updo. destruct (k =? i); [exact Hg|apply He, Hk].
  - unfold updo. assert (E1 : id =? i = false) by (apply Nat.eqb_neq; intros ->; tauto).
    assert (E2 : n =? i = false) by (apply Nat.eqb_neq; intros ->; tauto). rewrite E1, E2. exact Hid.
  - unfold updo. assert (E2 : n =? i = false) by (apply Nat.eqb_neq; intros ->; tauto).
    rewrite E2. exact Hn.
  - intros p Hp. apply Hins. right; exact Hp.
Qed.

Lemma eval_insert s ns n id m ex : key_of s m = Some None ->
  forall sn e, topo_from sn ns -> ~ In n sn -> In n (map fst ns) -> n <> id ->
  ~ In id sn -> ~ In id (map fst ns) ->
  forall j, j <> id -> eval s ns e j = eval s (insert_rw ns n id m ex) e j.
Proof.
  intros Hm. induction ns as [|[i o] ns IH]; intros sn e Ht Hn Hin Hne Hid1 Hid2 j Hj; [destruct Hin|].
  destruct Ht as (H1 & H2 & H3). cbn [fst snd] in *.
  assert (Hnp : ~ In n (ins_of o)) by (intros Hc; apply Hn, H1, Hc).
  destruct (Nat.eq_dec i n) as [E|E].
  - subst i. rewrite insert_rw_cons_eq; [|reflexivity|exact Hne|exact Hnp]. cbn [eval fst snd].
    set (v := eval_op s e n o).
    assert (Ev : eval_op s (updo e n v) id (OModule m [n]) = v).
    { rewrite eval_op_key. cbn [ins_of gather]. unfold updo. rewrite Nat.eqb_refl.
      destruct v; [|reflexivity]. rewrite Hm. reflexivity. }
    rewrite Ev. apply eval_rename; try assumption.
    + intros k Hk. unfold updo. apply Nat.eqb_neq in Hk. rewrite Hk. reflexivity.
    + unfold updo. rewrite !Nat.eqb_refl. reflexivity.
    + unfold updo. rewrite Nat.eqb_refl. apply Nat.eqb_neq in Hne. rewrite Hne. reflexivity.
    + intros Hc. eapply topo_from_notin; [exact H3|exact Hc|left; reflexivity].
    + intros Hc. apply Hid2. right; exact Hc.
    + intros p Hp Hc.
      assert (G : forall ns' sn', topo_from sn' ns' -> In p ns' -> In id (ins_of (snd p)) ->
                  In id sn' \/ In id (map fst ns')).
      { clear. induction ns' as [|q ns' IH]; intros sn' H Hp Hc; [destruct Hp|].
        destruct H as (H1 & H2 & H3). destruct Hp as [->|Hp].
        - left. apply H1, Hc.
        - destruct (IH _ H3 Hp Hc) as [[<-|H]|H]; [right; left; reflexivity|left; exact H|right; right; exact H]. }
      destruct (G _ _ H3 Hp Hc) as [[H|H]|H].
      * exact (Hne H).
      * exact (Hid1 H).
      * apply Hid2. right; exact H.
  - rewrite insert_rw_cons_neq; [|exact E|exact Hnp]. cbn [eval fst snd].
    eapply IH; try eassumption.
    + intros [Hc|Hc]; [exact (E Hc)|exact (Hn Hc)].
    + destruct Hin as [Hc|Hin]; [contradiction|exact Hin].
    + intros [Hc|Hc]; [apply Hid2; left; exact Hc|exact (Hid1 Hc)].
    + intros Hc. apply Hid2. right; exact Hc.
Qed.

(** ** The invariant and the preservation relation *)
Definition generated (m : mname) : Prop := forall k, m <> MOrig k.
Definition valid (s : st) : Prop :=
  topo_from [] (nodes s) /\ (forall x, In x (map fst (nodes s)) -> x < next s) /\
  (forall m i, lookup_reg (reg s) m = Some i -> i < next s) /\
  (forall i m ins, In (i, OModule m ins) (nodes s) -> lookup_reg (reg s) m <> None) /\
  (forall m i, generated m -> lookup_reg (reg s) m = Some i -> mod_key (inst s i) = None).

Definition pres (s s' : st) : Prop :=
  valid s' /\ next s <= next s' /\ (forall i, i < next s -> inst s' i = inst s i) /\
  (forall x, In x (map fst (nodes s)) -> In x (map fst (nodes s'))) /\
  (forall m i, lookup_reg (reg s) m = Some i ->
     exists i', lookup_reg (reg s') m = Some i' /\ mod_key (inst s' i') = mod_key (inst s i)) /\
  (forall i, In i (map fst (nodes s)) -> value_of s' i = value_of s i).

Lemma pres_refl s : valid s -> pres s s.
Proof. intros H. repeat split; auto; try apply H. intros m i Hm. exists i. auto. Qed.
Lemma pres_trans s1 s2 s3 : pres s1 s2 -> pres s2 s3 -> pres s1 s3.
Proof.
  intros (V2 & N2 & I2 & X2 & R2 & E2) (V3 & N3 & I3 & X3 & R3 & E3).
  split; [exact V3|]. split; [lia|]. split; [intros i Hi; rewrite I3 by lia; apply I2, Hi|].
  split; [auto|]. split; [|intros i Hi; rewrite E3 by auto; apply E2, Hi].
  intros m i Hm. destruct (R2 _ _ Hm) as (i2 & H2 & K2). destruct (R3 _ _ H2) as (i3 & H3 & K3).
  exists i3. split; [exact H3|]. congruence.
Qed.

(** Changes of the module tables only. *)
Lemma key_of_lookup s m i : lookup_reg (reg s) m = Some i -> key_of s m = Some (mod_key (inst s i)).
Proof. intros H. unfold key_of, get_module. rewrite H. reflexivity. Qed.

Lemma pres_tables s s' : valid s -> nodes s' = nodes s -> next s <= next s' ->
  (forall i, i < next s -> inst s' i = inst s i) ->
  (forall m i, lookup_reg (reg s) m = Some i ->
     exists i', lookup_reg (reg s') m = Some i' /\ mod_key (inst s' i') = mod_key (inst s i)) ->
  (forall m i, lookup_reg (reg s') m = Some i -> i < next s') ->
  (forall m i, generated m -> lookup_reg (reg s') m = Some i -> mod_key (inst s' i) = None) ->
  pres s s'.
Proof.
  intros (T & X & L & Rg & G) Hn Hnx Hi Hr Hl Hg.
  split; [|split; [exact Hnx|split; [exact Hi|split; [rewrite Hn; auto|split; [exact Hr|]]]]].
  - split; [rewrite Hn; exact T|]. split; [intros x Hx; rewrite Hn in Hx; specialize (X x Hx); lia|].
    split; [exact Hl|]. split; [|exact Hg].
    intros i m ins H. rewrite Hn in H. specialize (Rg _ _ _ H).
    destruct (lookup_reg (reg s) m) as [j|] eqn:E; [|contradiction].
    destruct (Hr _ _ E) as (i' & -> & _). discriminate.
  - intros i _. unfold value_of. rewrite Hn. apply eval_keys; [|reflexivity].
    intros i' m ins H. specialize (Rg _ _ _ H).
    destruct (lookup_reg (reg s) m) as [j|] eqn:E; [|contradiction].
    destruct (Hr _ _ E) as (i2 & H2 & K2). rewrite (key_of_lookup _ _ _ E), (key_of_lookup _ _ _ H2), K2.
    reflexivity.
Qed.

Lemma pres_new_tq s t k s' : valid s -> new_tq s t = (k, s') -> pres s s'.
Proof.
  intros Hv H. injection H as _ <-. apply pres_tables; cbn; auto.
  - intros m i Hm. exists i. auto.
  - intros m i Hm. destruct Hv as (_ & _ & L & _). specialize (L _ _ Hm). lia.
  - apply Hv.
Qed.
Lemma pres_new_inst s md k s' : valid s -> new_inst s md = (k, s') ->
  pres s s' /\ k < next s' /\ inst s' k = md.
Proof.
  intros Hv H. injection H as <- <-. cbn. unfold upd.
  assert (U : forall m i, lookup_reg (reg s) m = Some i -> (i =? next s) = false).
  { intros m i Hm. destruct Hv as (_ & _ & L & _). specialize (L _ _ Hm). apply Nat.eqb_neq. lia. }
  split; [|split; [lia|rewrite Nat.eqb_refl; reflexivity]].
  apply pres_tables; cbn; unfold upd; auto.
  - intros i Hi. assert (E : i =? next s = false) by (apply Nat.eqb_neq; lia). rewrite E. reflexivity.
  - intros m i Hm. exists i. rewrite (U _ _ Hm). auto.
  - intros m i Hm. destruct Hv as (_ & _ & L & _). specialize (L _ _ Hm). lia.
  - intros m i Hg Hm. rewrite (U _ _ Hm). destruct Hv as (_ & _ & _ & _ & G). eapply G; eauto.
Qed.
Lemma pres_new_identity im sg s k s' : valid s -> new_identity im sg s = (k, s') ->
  pres s s' /\ k < next s' /\ mod_key (inst s' k) = None.
Proof.
  intros Hv H. unfold new_identity in H.
  destruct (new_tq s _) as [t s1] eqn:E1. destruct (new_inst s1 _) as [k' s2] eqn:E2.
  injection H as <- <-. pose proof (pres_new_tq _ _ _ _ Hv E1) as P1.
  destruct (pres_new_inst _ _ _ _ (proj1 P1) E2) as (P2 & Hk & Hi).
  split; [eapply pres_trans; eassumption|]. split; [exact Hk|]. rewrite Hi. reflexivity.
Qed.
Lemma pres_add_module s m i : valid s -> generated m -> i < next s -> mod_key (inst s i) = None ->
  pres s (add_module s m i).
Proof.
  intros Hv Hg Hi Hk. apply pres_tables; cbn [add_module nodes next inst reg]; auto.
  - intros m' j Hm. rewrite lookup_reg_set. destruct (mname_eqb m m') eqn:E.
    + apply mname_eqb_eq in E. subst m'. exists i. split; [reflexivity|].
      destruct Hv as (_ & _ & _ & _ & G). rewrite Hk. symmetry. eapply G; eauto.
    + exists j. auto.
  - intros m' j. rewrite lookup_reg_set. destruct (mname_eqb m m').
    + intros H. injection H as <-. exact Hi.
    + apply Hv.
  - intros m' j Hg'. rewrite lookup_reg_set. destruct (mname_eqb m m').
    + intros H. injection H as <-. exact Hk.
    + intros H. destruct Hv as (_ & _ & _ & _ & G). eapply G; eauto.
Qed.
Lemma pres_replace_instance s old new : valid s -> new < next s ->
  mod_key (inst s new) = mod_key (inst s old) -> pres s (replace_instance s old new).
Proof.
  intros Hv Hn Hk. apply pres_tables; cbn [replace_instance nodes next inst reg]; auto.
  - intros m i Hm. destruct (lookup_replace_first (reg s) old new m) as [E|[E1 E2]].
    + exists i. rewrite E. auto.
    + exists new. split; [exact E2|]. congruence.
  - intros m i Hm. destruct (lookup_replace_first (reg s) old new m) as [E|[E1 E2]].
    + rewrite E in Hm. destruct Hv as (_ & _ & L & _). eapply L; exact Hm.
    + rewrite E2 in Hm. injection Hm as <-. exact Hn.
  - intros m i Hg Hm. destruct Hv as (_ & _ & _ & _ & G).
    destruct (lookup_replace_first (reg s) old new m) as [E|[E1 E2]].
    + rewrite E in Hm. eapply G; eauto.
    + rewrite E2 in Hm. injection Hm as <-. rewrite Hk. eapply G; eauto.
Qed.

(** ** Rewriters *)
Definition rw_ok (s : st) (r : rewriter) : Prop :=
  match r with
  | RInsert m n _ => (exists i, lookup_reg (reg s) m = Some i /\ mod_key (inst s i) = None) /\
                     In n (map fst (nodes s))
  | RInstance old new => old < next s /\ new < next s /\ mod_key (inst s old) = mod_key (inst s new)
  | RNewAct old q _ => old < next s /\ mod_key (inst s old) = mod_key (QAct q)
  | RError => True
  end.
Lemma rw_ok_pres s s' r : pres s s' -> rw_ok s r -> rw_ok s' r.
Proof.
  intros (Vd & N & I & X & R & _) H. destruct r as [m n ex|old new|old q t|]; cbn [rw_ok] in *.
  - destruct H as ((i & H1 & H2) & H3). split; [|apply X, H3]. destruct (R _ _ H1) as (i' & H1' & H2').
    exists i'. split; [exact H1'|congruence].
  - destruct H as (H1 & H2 & H3). split; [lia|]. split; [lia|]. rewrite !I by assumption. exact H3.
  - destruct H as (H1 & H2). split; [lia|]. rewrite I by assumption. exact H2.
  - exact H.
Qed.

Lemma apply_rw_pres s r s' : valid s -> rw_ok s r -> apply_rw s r = Some s' -> pres s s'.
Proof.
  intros Hv Hr H. destruct r as [m n ex|old new|old q t|]; cbn [apply_rw rw_ok] in *.
  - injection H as <-. destruct Hr as ((i & Hl & Hk) & Hn). destruct Hv as (T & X & L & Rg & G).
    assert (Hfresh : ~ In (next s) (map fst (nodes s))) by (intros Hc; specialize (X _ Hc); lia).
    assert (Hne : n <> next s) by (specialize (X _ Hn); lia).
    change (replace_uses (insert_after (nodes s) n (next s, OModule m [n])) n (next s) (next s :: ex))
      with (insert_rw (nodes s) n (next s) m ex).
    split; [|cbn; split; [lia|split; [auto|split; [|split]]]].
    + split; [cbn; apply topo_insert; auto|]. split; [|split; [|split]]; cbn.
      * intros x Hx. apply insert_rw_ids in Hx. destruct Hx as [->|Hx]; [lia|]. specialize (X _ Hx). lia.
      * intros m' j Hj. specialize (L _ _ Hj). lia.
      * intros j m' ins Hin. 
        assert (Hin' : (j = next s /\ m' = m) \/ exists ins', In (j, OModule m' ins') (nodes s)).
        { unfold insert_rw in Hin. rewrite replace_uses_map in Hin. apply in_map_iff in Hin.
          destruct Hin as ([j0 o0] & Ej & Hin).
          assert (Hk' : same_kind o0 (OModule m' ins) /\ j0 = j).
          { pose proof (rename_kind n (next s) (next s :: ex) (j0, o0)) as K.
            pose proof (rename_fst n (next s) (next s :: ex) (j0, o0)) as F.
            rewrite Ej in K, F. cbn in K, F. auto. }
          destruct Hk' as [K ->].
          assert (Hin2 : (j, o0) = (next s, OModule m [n]) \/ In (j, o0) (nodes s)).
          { clear - Hin. induction (nodes s) as [|p ns IH]; cbn [insert_after] in Hin; [destruct Hin|].
            destruct (fst p =? n); cbn [In] in Hin |- *; intuition. }
          destruct Hin2 as [Hin2|Hin2].
          - injection Hin2 as -> ->. inversion K; subst. left; auto.
          - inversion K; subst. right. eauto. }
        destruct Hin' as [[-> ->]|(ins' & Hin')]; [rewrite Hl; discriminate|eapply Rg; exact Hin'].
      * exact G.
    + intros x Hx. apply insert_rw_ids_keep, Hx.
    + intros m' j Hj. exists j. auto.
    + intros j Hj. unfold value_of. cbn [nodes].
      rewrite <- (eval_keys s _ (insert_rw (nodes s) n (next s) m ex) (fun _ => None) (fun _ => None));
        [|reflexivity|reflexivity].
      symmetry. eapply eval_insert with (sn := []); auto.
      * rewrite (key_of_lookup _ _ _ Hl), Hk. reflexivity.
      * intros ->. contradiction.
  - injection H as <-. destruct Hr as (H1 & H2 & H3). apply pres_replace_instance; auto.
  - destruct Hr as (H1 & H2). destruct t as [t|].
    + destruct (new_tq s t) as [k s1] eqn:E1. destruct (new_inst s1 _) as [i s2] eqn:E2.
      injection H as <-. pose proof (pres_new_tq _ _ _ _ Hv E1) as P1.
      destruct (pres_new_inst _ _ _ _ (proj1 P1) E2) as (P2 & Hi & Hk).
      pose proof (pres_trans _ _ _ P1 P2) as P12.
      eapply pres_trans; [exact P12|]. apply pres_replace_instance; [apply P2|exact Hi|].
      destruct P12 as (_ & _ & I & _). rewrite Hk, I by assumption. rewrite H2. reflexivity.
    + destruct (new_inst s (QAct q)) as [i s2] eqn:E2. injection H as <-.
      destruct (pres_new_inst _ _ _ _ Hv E2) as (P2 & Hi & Hk).
      eapply pres_trans; [exact P2|]. apply pres_replace_instance; [apply P2|exact Hi|].
      destruct P2 as (_ & _ & I & _). rewrite Hk, I by assumption. symmetry; exact H2.
  - discriminate H.
Qed.

Lemma apply_rws_pres rs : forall s s', valid s -> Forall (rw_ok s) rs -> apply_rws s rs = Some s' -> pres s s'.
Proof.
  induction rs as [|r rs IH]; intros s s' Hv Hr H; cbn [apply_rws] in H.
  - injection H as <-. apply pres_refl, Hv.
  - destruct (apply_rw s r) as [s1|] eqn:E; [|discriminate H]. inversion Hr as [|? ? Hr1 Hr2]; subst.
    pose proof (apply_rw_pres _ _ _ Hv Hr1 E) as P. eapply pres_trans; [exact P|].
    apply IH; [apply P| |exact H]. eapply Forall_impl; [|exact Hr2]. intros a. apply rw_ok_pres, P.
Qed.

(** ** inp_placeholder_handler *)
Lemma generated_MIn n : generated (MIn n). Proof. intros k H; discriminate H. Qed.
Lemma generated_MOut n : generated (MOut n). Proof. intros k H; discriminate H. Qed.
Lemma generated_MQuant n : generated (MQuant n). Proof. intros k H; discriminate H. Qed.

Lemma add_identity_pres im sg s i s1 m : valid s -> generated m -> new_identity im sg s = (i, s1) ->
  pres s (add_module s1 m i) /\
  (exists j, lookup_reg (reg (add_module s1 m i)) m = Some j /\ mod_key (inst (add_module s1 m i) j) = None).
Proof.
  intros Hv Hg E. destruct (pres_new_identity _ _ _ _ _ Hv E) as (P & Hi & Hk).
  split; [eapply pres_trans; [exact P|]; apply pres_add_module; auto; apply P|].
  exists i. cbn. rewrite lookup_reg_set, mname_eqb_refl. auto.
Qed.

Lemma inp_handler_pres im s : valid s -> pres s (inp_placeholder_handler im s).
Proof.
  intros Hv. unfold inp_placeholder_handler.
  match goal with |- context [map fst (filter ?f (nodes s))] => set (ph := map fst (filter f (nodes s))) end.
  cbv zeta.
  assert (Hph : forall n, In n ph -> In n (map fst (nodes s))).
  { intros n Hn. unfold ph in Hn. apply in_map_iff in Hn. destruct Hn as (p & <- & Hp).
    apply filter_In in Hp. apply in_map, Hp. }
  clearbody ph.
  assert (G : forall ph rs s0 rs' s', (forall n, In n ph -> In n (map fst (nodes s))) ->
     pres s s0 -> Forall (rw_ok s0) rs ->
     fold_left (fun '(rs, s) n => let '(i, s) := new_identity im true s in
        (rs ++ [RInsert (MIn n) n []], add_module s (MIn n) i)) ph (rs, s0) = (rs', s') ->
     pres s s' /\ Forall (rw_ok s') rs').
  { clear ph Hph. induction ph as [|n ph IH]; intros rs s0 rs' s' Hin P F H; cbn [fold_left] in H.
    - injection H as <- <-. auto.
    - destruct (new_identity im true s0) as [i s1] eqn:E.
      destruct (add_identity_pres _ _ _ _ _ (MIn n) (proj1 P) (generated_MIn n) E) as (P1 & Hj).
      eapply IH; [| | |exact H].
      + intros n' Hn'. apply Hin. right; exact Hn'.
      + eapply pres_trans; eassumption.
      + apply Forall_app. split.
        * eapply Forall_impl; [|exact F]. intros a. apply rw_ok_pres, P1.
        * constructor; [|constructor]. split; [exact Hj|].
          apply (pres_trans _ _ _ P P1). apply Hin. left; reflexivity. }
  match goal with |- context [fold_left ?f ph ([], s)] => destruct (fold_left f ph ([], s)) as [rs s1] eqn:E end.
  destruct (G _ _ _ _ _ Hph (pres_refl _ Hv) (Forall_nil _) E) as (P & F).
  destruct (apply_rws s1 rs) as [s'|] eqn:E'; [|exact P].
  eapply pres_trans; [exact P|]. eapply apply_rws_pres; [apply P|exact F|exact E'].
Qed.

(** ** act_handler *)
Lemma act_handler_pres map_act s : valid s -> pres s (act_handler map_act s).
Proof.
  intros Hv. unfold act_handler.
  match goal with |- pres _ (fold_left ?f _ _) =>
    assert (G : forall ns s0, pres s s0 -> pres s (fold_left f ns s0)) end; [|apply G, pres_refl, Hv].
  induction ns as [|n ns IH]; intros s0 P; [exact P|]. cbn [fold_left]. apply IH. clear IH.
  destruct (snd n) as [| |m ins| | |]; try exact P.
  destruct (lookup_reg (reg s0) m) as [j|] eqn:El; [|exact P].
  destruct (inst s0 j) as [[] u f| | | |] eqn:Ei; try exact P.
  destruct (map_act f) as [[sg bw]|]; [|exact P].
  destruct (new_tq s0 _) as [t s1] eqn:E1. destruct (new_inst s1 _) as [i s2] eqn:E2.
  pose proof (pres_new_tq _ _ _ _ (proj1 P) E1) as P1.
  destruct (pres_new_inst _ _ _ _ (proj1 P1) E2) as (P2 & Hi & Hk).
  pose proof (pres_trans _ _ _ P1 P2) as P12.
  eapply pres_trans; [exact P|]. eapply pres_trans; [exact P12|].
  apply pres_replace_instance; [apply P2|exact Hi|].
  destruct P12 as (_ & _ & I & _). rewrite Hk, I, Ei; [reflexivity|].
  destruct P as ((_ & _ & L & _) & _). eapply L; exact El.
Qed.

(** ** output_quant_handler *)
Lemma output_handler_pres s0 im : forall fuel sp n s rs s' rs',
  pres s0 s -> Forall (rw_ok s) rs -> In (fst n) (map fst (nodes s)) ->
  output_quant_handler fuel im sp n s rs = (s', rs') ->
  pres s s' /\ Forall (rw_ok s') rs'.
Proof.
  induction fuel as [|k IH]; intros sp n s rs s' rs' P F Hn H; cbn [output_quant_handler] in H.
  { injection H as <- <-. split; [apply pres_refl, P|exact F]. }
  match type of H with (let '(_, _) := fold_left ?f ?us ?a in _) = _ =>
    set (step := f) in H; set (us0 := us) in H end.
  assert (Hus : forall u, In u us0 -> In (fst u) (map fst (nodes s))).
  { intros u Hu. unfold us0, users in Hu. apply filter_In in Hu. apply in_map, Hu. }
  clearbody us0.
  assert (G : forall us s1 rs1 d s2 rs2 d2, (forall u, In u us -> In (fst u) (map fst (nodes s))) ->
     pres s s1 -> Forall (rw_ok s1) rs1 ->
     fold_left step us (s1, rs1, d) = (s2, rs2, d2) -> pres s s2 /\ Forall (rw_ok s2) rs2).
  { induction us as [|u us IHu]; intros s1 rs1 d s2 rs2 d2 Hu P1 F1 H1; cbn [fold_left] in H1.
    - injection H1 as <- <- <-. auto.
    - destruct (step (s1, rs1, d) u) as [[s3 rs3] d3] eqn:Es.
      assert (G3 : pres s s3 /\ Forall (rw_ok s3) rs3).
      { assert (Gi : forall s3 rs3 d3,
          (if d then (s1, rs1, d) else
              let signed := negb (sp && are_inputs_unsigned s1 (snd n)) in
              let '(i, s) := new_identity im signed s1 in
              (add_module s (MOut (fst n)) i, rs1 ++ [RInsert (MOut (fst n)) (fst n) []], true))
          = (s3, rs3, d3) -> pres s s3 /\ Forall (rw_ok s3) rs3).
        { clear Es. intros s4 rs4 d4 E. destruct d; [injection E as <- <- <-; auto|].
          cbv zeta in E. destruct (new_identity im _ s1) as [i s5] eqn:E5. injection E as <- <- <-.
          destruct (add_identity_pres _ _ _ _ _ (MOut (fst n)) (proj1 P1) (generated_MOut _) E5) as (P5 & Hj).
          split; [eapply pres_trans; eassumption|]. apply Forall_app. split.
          - eapply Forall_impl; [|exact F1]. intros a. apply rw_ok_pres, P5.
          - constructor; [|constructor]. split; [exact Hj|]. apply (pres_trans _ _ _ P1 P5). exact Hn. }
        unfold step in Es. cbv beta iota zeta in Es.
        destruct (snd u) as [| |m ins| | |]; try (eapply Gi; exact Es).
        destruct (get_module s1 m) as [[| |q|f|]|]; try (eapply Gi; exact Es).
        - injection Es as <- <- <-. auto.
        - destruct (output_quant_handler k im sp u s1 rs1) as [s4 rs4] eqn:E4. injection Es as <- <- <-.
          assert (Hui : In (fst u) (map fst (nodes s1))) by (apply P1, Hu; left; reflexivity).
          destruct (IH _ _ _ _ _ _ (pres_trans _ _ _ P P1) F1 Hui E4) as (P4 & F4).
          split; [eapply pres_trans; eassumption|exact F4]. }
      eapply IHu; [|apply G3|apply G3|exact H1]. intros u' Hu'. apply Hu. right; exact Hu'. }
  destruct (fold_left step us0 (s, rs, false)) as [[s2 rs2] d2] eqn:E. injection H as <- <-.
  eapply G; [exact Hus|apply pres_refl, P|exact F|exact E].
Qed.

Lemma add_output_pres im s s' : valid s -> add_output_quant_handler im s = Some s' -> pres s s'.
Proof.
  intros Hv H. unfold add_output_quant_handler in H.
  match type of H with (let '(_, _) := fold_left ?f ?us ?a in _) = _ => set (step := f) in H end.
  assert (G : forall ns s1 rs1 s2 rs2, (forall u, In u ns -> In (fst u) (map fst (nodes s))) ->
     pres s s1 -> Forall (rw_ok s1) rs1 ->
     fold_left step ns (s1, rs1) = (s2, rs2) -> pres s s2 /\ Forall (rw_ok s2) rs2).
  { induction ns as [|u ns IH]; intros s1 rs1 s2 rs2 Hu P1 F1 H1; cbn [fold_left] in H1.
    - injection H1 as <- <-. auto.
    - destruct (step (s1, rs1) u) as [s3 rs3] eqn:Es. unfold step in Es. 
      assert (G3 : pres s s3 /\ Forall (rw_ok s3) rs3).
      { destruct (is_add (snd u)); [|injection Es as <- <-; auto].
        assert (Hui : In (fst u) (map fst (nodes s1))) by (apply P1, Hu; left; reflexivity).
        destruct (output_handler_pres s im _ _ _ _ _ _ _ P1 F1 Hui Es) as (P4 & F4).
        split; [eapply pres_trans; eassumption|exact F4]. }
      eapply IH; [|apply G3|apply G3|exact H1]. intros u' Hu'. apply Hu. right; exact Hu'. }
  destruct (fold_left step (nodes s) (s, [])) as [s1 rs] eqn:E.
  destruct (G _ _ _ _ _ (fun u Hu => in_map fst _ _ Hu) (pres_refl _ Hv) (Forall_nil _) E) as (P & F).
  eapply pres_trans; [exact P|]. eapply apply_rws_pres; [apply P|exact F|exact H].
Qed.

(** ** residual_handler *)
Lemma input_handler_ok im cs s name shared : valid s ->
  (exists i, lookup_reg (reg s) name = Some i /\ mod_key (inst s i) = None) ->
  shared < next s -> (exists sh, inst s shared = QAct sh /\ q_identity sh = true) ->
  forall fuel a ins, (forall i, In i ins -> In i (map fst (nodes s))) ->
  Forall (rw_ok s) (input_handler fuel im cs s name shared a ins).
Proof.
  intros Hv Hname Hsh (sh & Esh & Ish). induction fuel as [|k IH]; intros a ins Hin; [constructor|].
  cbn [input_handler]. apply Forall_flat_map, Forall_forall. intros i Hi.
  assert (Hins : Forall (rw_ok s) [RInsert name i []]).
  { constructor; [|constructor]. split; [exact Hname|]. apply Hin, Hi. }
  assert (Hrec : forall o a', find_node (nodes s) i = Some o ->
            Forall (rw_ok s) (input_handler k im cs s name shared a' (all_input_nodes o))).
  { intros o a' Ho. apply IH. intros j Hj. unfold all_input_nodes in Hj. rewrite dedup_in in Hj.
    destruct Hv as (T & _). pose proof (topo_from_topo _ T _ _ Ho _ Hj) as Hp.
    destruct (find_node (nodes s) j) as [oj|] eqn:Ej.
    - eapply in_map_fst, find_node_some, Ej.
    - exfalso. pose proof (pos_found _ _ _ Ho).
      assert (pos (nodes s) j = length (nodes s)).
      { clear - Ej. induction (nodes s) as [|p ns IHn]; [reflexivity|]. rewrite find_node_cons in Ej.
        cbn [pos length]. destruct (fst p =? j); [discriminate Ej|]. rewrite IHn; auto. }
      lia. }
  destruct (find_node (nodes s) i) as [[| |m ins'|f ins'|m ins'|ins']|] eqn:Ei; try exact Hins.
  - destruct (lookup_reg (reg s) m) as [j|] eqn:El; [|constructor; [exact I|constructor]].
    assert (Hj : j < next s) by (destruct Hv as (_ & _ & L & _); eapply L; exact El).
    assert (Halign : Forall (rw_ok s) match align_input_quant im cs s j shared a with
                     | AReplace r => [r] | AInsert => [RInsert name i []] end).
    { unfold align_input_quant. rewrite Esh.
      destruct (inst s j) as [| |q| |iq [] g] eqn:Ej; try exact Hins;
        [|constructor; [exact I|constructor]].
      destruct (q_identity q) eqn:Eq.
      - destruct (a || opt_bool_eqb (q_insigned q) (q_insigned sh)).
        + constructor; [|constructor]. cbn [rw_ok]. rewrite Ej, Esh. cbn [mod_key]. rewrite Eq, Ish. auto.
        + destruct (negb (truthy (q_insigned q)) && truthy (q_insigned sh)).
          * constructor; [|constructor]. cbn [rw_ok]. rewrite Ej. cbn [mod_key q_identity]. rewrite Eq. auto.
          * constructor; [exact I|constructor].
      - destruct (cs (t_sc (tqs s (q_tq q)))); [exact Hins|].
        destruct a; (constructor; [|constructor]); cbn [rw_ok]; rewrite Ej; cbn [mod_key q_identity q_fun];
          rewrite Eq; auto. }
    destruct (inst s j) as [| [] ? | | |] eqn:Ej; try exact Halign. apply Hrec. reflexivity.
  - destruct (fn_handler f a); [apply Hrec; reflexivity|exact Hins].
  - destruct (meth_handler m a); [apply Hrec; reflexivity|exact Hins].
Qed.

Lemma align_node_pres im cs s n same s' : valid s -> In n (nodes s) ->
  align_node im cs s n same = Some s' -> pres s s'.
Proof.
  intros Hv Hn H. unfold align_node in H.
  destruct (new_identity im (negb (are_inputs_unsigned s (snd n))) s) as [shared s1] eqn:E.
  destruct (add_identity_pres _ _ _ _ _ (MQuant (fst n)) Hv (generated_MQuant _) E) as (P & Hj).
  eapply pres_trans; [exact P|]. eapply apply_rws_pres; [apply P| |exact H].
  apply input_handler_ok; [apply P|exact Hj| | |].
  - destruct (pres_new_identity _ _ _ _ _ Hv E) as (_ & Hi & _). exact Hi.
  - unfold new_identity in E. destruct (new_tq s _) as [t s2] eqn:E1. injection E as <- <-.
    cbn. unfold upd. rewrite Nat.eqb_refl. eexists; split; reflexivity.
  - intros i Hi. unfold all_input_nodes in Hi. rewrite dedup_in in Hi.
    assert (Hs : forall x, In x (map fst (nodes s)) -> In x (map fst (nodes (add_module s1 (MQuant (fst n)) shared))))
      by apply P.
    apply Hs. destruct Hv as (T & _). destruct n as [k o].
    assert (G : forall ns sn, topo_from sn ns -> In (k, o) ns -> In i (ins_of o) -> In i sn \/ In i (map fst ns)).
    { clear. induction ns as [|q ns IH]; intros sn H Hp Hc; [destruct Hp|].
      destruct H as (H1 & H2 & H3). destruct Hp as [->|Hp].
      - left. apply H1, Hc.
      - destruct (IH _ H3 Hp Hc) as [[<-|H]|H]; [right; left; reflexivity|left; exact H|right; right; exact H]. }
    destruct (G _ _ T Hn Hi) as [[]|Hx]. exact Hx.
Qed.

Lemma first_misaligned_in s ns n same : first_misaligned s ns = Some (n, same) -> In n ns.
Proof.
  induction ns as [|m ns IH]; [discriminate|]. cbn [first_misaligned].
  destruct (needs_work s m); [intros H; injection H as <- <-; left; reflexivity|right; auto].
Qed.

Lemma residual_pres im cs : forall iters s s', valid s ->
  residual_handler im cs iters s = Some s' -> pres s s'.
Proof.
  induction iters as [|k IH]; intros s s' Hv H; cbn [residual_handler] in H; unfold is_converged in H;
    destruct (first_misaligned s (nodes s)) as [[n same]|] eqn:E.
  - destruct (align_node im cs s n same); discriminate H.
  - injection H as <-. apply pres_refl, Hv.
  - destruct (align_node im cs s n same) as [s1|] eqn:E1; [|discriminate H].
    pose proof (align_node_pres _ _ _ _ _ _ Hv (first_misaligned_in _ _ _ _ E) E1) as P.
    destruct k; [discriminate H|]. eapply pres_trans; [exact P|]. apply IH; [apply P|exact H].
  - injection H as <-. apply pres_refl, Hv.
Qed.

Lemma traced_valid s : traced s -> valid s.
Proof.
  intros (T & X & L & Rg & G). repeat split; auto. intros m i Hg Hm.
  destruct (G _ _ Hm) as [k ->]. exfalso. eapply Hg; reflexivity.
Qed.

(** * C79 *)

(** Every node of the traced model, in particular its output, computes the same float value after
    the four passes, whatever the model, the activation map and the scaling modules. *)
Theorem C79_quantize_keeps_float_function im map_act cs iters s s' :
  traced s -> quantize_front im map_act cs iters s = Some s' ->
  forall i, In i (map fst (nodes s)) -> value_of s' i = value_of s i.
Proof.
  intros Ht H. pose proof (traced_valid _ Ht) as Hv. unfold quantize_front in H.
  pose proof (inp_handler_pres im s Hv) as P1.
  pose proof (act_handler_pres map_act _ (proj1 P1)) as P2.
  pose proof (pres_trans _ _ _ P1 P2) as P12.
  destruct (add_output_quant_handler im (act_handler map_act (inp_placeholder_handler im s))) as [s3|] eqn:E;
    [|discriminate H].
  pose proof (add_output_pres _ _ _ (proj1 P12) E) as P3.
  pose proof (pres_trans _ _ _ P12 P3) as P123.
  pose proof (residual_pres _ _ _ _ _ (proj1 P123) H) as P4.
  apply (pres_trans _ _ _ P123 P4).
Qed.

(** The resulting graph is again a well-formed execution order with distinct nodes, it contains all
    the original nodes, and every module it calls exists. *)
Theorem C79_quantize_result_well_formed im map_act cs iters s s' :
  traced s -> quantize_front im map_act cs iters s = Some s' ->
  topo (nodes s') /\ NoDup (map fst (nodes s')) /\
  (forall x, In x (map fst (nodes s)) -> In x (map fst (nodes s'))) /\
  (forall i m ins, In (i, OModule m ins) (nodes s') -> get_module s' m <> None).
Proof.
  intros Ht H. pose proof (traced_valid _ Ht) as Hv. unfold quantize_front in H.
  pose proof (inp_handler_pres im s Hv) as P1.
  pose proof (act_handler_pres map_act _ (proj1 P1)) as P2.
  pose proof (pres_trans _ _ _ P1 P2) as P12.
  destruct (add_output_quant_handler im (act_handler map_act (inp_placeholder_handler im s))) as [s3|] eqn:E;
    [|discriminate H].
  pose proof (add_output_pres _ _ _ (proj1 P12) E) as P3.
  pose proof (pres_trans _ _ _ P12 P3) as P123.
  pose proof (residual_pres _ _ _ _ _ (proj1 P123) H) as P4.
  pose proof (pres_trans _ _ _ P123 P4) as ((T & _ & _ & Rg & _) & _ & _ & X & _).
  split; [apply topo_from_topo, T|]. split; [|split; [exact X|]].
  - clear - T. revert T. generalize (@nil nat). induction (nodes s') as [|p ns IH]; intros sn H; [constructor|].
    destruct H as (_ & _ & H3). cbn [map]. constructor; [|eapply IH; exact H3].
    intros Hc. eapply topo_from_notin; [exact H3|exact Hc|left; reflexivity].
  - intros i m ins Hin. specialize (Rg _ _ _ Hin). unfold get_module.
    destruct (lookup_reg (reg s') m); [discriminate|contradiction].
Qed.
End Float.

(** x + relu(conv(x)) is traced, is quantized, and on numbers evaluates to the same output. *)
Example C79_example :
  traced skip_graph /\
  exists s', quantize_front std_map std_acts (fun _ => false) 9 skip_graph = Some s' /\
  length (nodes s') = 7 /\
  let fs := fun f (vs : list Z) => match vs with
              [v] => Some (if f =? 200 then Z.max 0 v else (2 * v - 9)%Z) | _ => None end in
  let fn := fun (f : fn) (vs : list Z) => match vs with [a; b] => Some (a + b)%Z | _ => None end in
  value_of fs fn (fun _ _ => None) (fun vs => match vs with v :: _ => Some v | _ => None end)
           (fun _ => Some 7%Z) (fun _ => None) skip_graph 4 = Some 12%Z /\
  value_of fs fn (fun _ _ => None) (fun vs => match vs with v :: _ => Some v | _ => None end)
           (fun _ => Some 7%Z) (fun _ => None) s' 4 = Some 12%Z.
Proof.
  split.
  - split; [|split; [|split; [|split]]].
    + cbn. repeat split; intros x; cbn; try tauto; intuition (subst; auto; discriminate).
    + cbn. intros x H. intuition lia.
    + intros m i. cbn [skip_graph reg]. rewrite !lookup_cons.
      destruct (mname_eqb (MOrig 0) m); [intros H; injection H as <-; cbn; lia|].
      destruct (mname_eqb (MOrig 1) m); [intros H; injection H as <-; cbn; lia|discriminate].
    + intros i m ins. cbn. intros [H|[H|[H|[H|[H|[]]]]]]; try discriminate H; injection H as <- <- <-; discriminate.
    + intros m i. cbn [skip_graph reg]. rewrite !lookup_cons.
      destruct (mname_eqb (MOrig 0) m) eqn:E0; [apply mname_eqb_eq in E0; subst; eauto|].
      destruct (mname_eqb (MOrig 1) m) eqn:E1; [apply mname_eqb_eq in E1; subst; eauto|discriminate].
  - destruct (quantize_front std_map std_acts (fun _ => false) 9 skip_graph) as [s'|] eqn:E;
      [|vm_compute in E; discriminate E].
    exists s'. split; [reflexivity|]. vm_compute in E. injection E as <-. vm_compute. auto.
Qed.

Print Assumptions C79_quantize_keeps_float_function.
Print Assumptions C79_quantize_result_well_formed.
