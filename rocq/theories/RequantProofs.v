(** Invariants of the graph rewriters of RequantGraph. *)
From Coq Require Import List Bool Arith ZArith QArith Lia.
Import ListNotations.
From Verif Require Import RequantGraph RequantGraphProps.
Local Open Scope nat_scope.

(** Structural form of "operands precede their uses, identifiers are distinct". *)
Fixpoint topo_from (seen : list nat) (ns : list node) : Prop :=
  match ns with
  | [] => True
  | n :: ns' => incl (ins_of (snd n)) seen /\ ~ In (fst n) seen /\ topo_from (fst n :: seen) ns'
  end.

Lemma topo_from_incl ns : forall s1 s2, topo_from s1 ns -> incl s1 s2 ->
  (forall x, In x (map fst ns) -> ~ In x s2) -> topo_from s2 ns.
Proof.
  induction ns as [|n ns IH]; intros s1 s2 H Hi Hd; [exact I|].
  destruct H as (H1 & H2 & H3). split; [intros x Hx; apply Hi, H1, Hx|].
  split; [apply Hd; left; reflexivity|].
  assert (Hns : forall sn ns', topo_from sn ns' -> forall x, In x (map fst ns') -> ~ In x sn).
  { clear. intros sn ns'. revert sn. induction ns' as [|m ns' IH]; intros sn H x Hx; [destruct Hx|].
    destruct H as (_ & H2 & H3). destruct Hx as [<-|Hx]; [exact H2|].
    intros Hc. eapply IH; [exact H3|exact Hx|]. right; exact Hc. }
  eapply IH; [exact H3| |].
  - intros x [<-|Hx]; [left; reflexivity|right; apply Hi, Hx].
  - intros x Hx [<-|Hc]; [|eapply Hd; [right; exact Hx|exact Hc]].
    eapply Hns; [exact H3|exact Hx|left; reflexivity].
Qed.

Lemma topo_from_notin ns : forall sn, topo_from sn ns -> forall x, In x (map fst ns) -> ~ In x sn.
Proof.
  induction ns as [|m ns' IH]; intros sn H x Hx; [destruct Hx|].
  destruct H as (_ & H2 & H3). destruct Hx as [<-|Hx]; [exact H2|].
  intros Hc. eapply IH; [exact H3|exact Hx|]. right; exact Hc.
Qed.

Lemma find_node_cons n ns i :
  find_node (n :: ns) i = if fst n =? i then Some (snd n) else find_node ns i.
Proof. unfold find_node. cbn [find]. destruct (fst n =? i); reflexivity. Qed.

Lemma find_node_some ns i o : find_node ns i = Some o -> In (i, o) ns.
Proof.
  induction ns as [|[j p] ns IH]; [discriminate|]. rewrite find_node_cons. cbn [fst snd].
  destruct (j =? i) eqn:E.
  - intros H. injection H as <-. apply Nat.eqb_eq in E. subst. left; reflexivity.
  - intros H. right. auto.
Qed.
Lemma find_node_none ns i : find_node ns i = None -> ~ In i (map fst ns).
Proof.
  induction ns as [|[j p] ns IH]; [intros _ []|]. rewrite find_node_cons. cbn [fst snd map].
  destruct (j =? i) eqn:E; [discriminate|]. apply Nat.eqb_neq in E. intros H [H'|H']; [auto|].
  exact (IH H H').
Qed.
Lemma in_map_fst ns i o : In (i, o) ns -> In i (map (@fst nat op) ns).
Proof. intros H. apply in_map_iff. exists (i, o). auto. Qed.
Lemma find_node_unique ns : forall sn i o, topo_from sn ns -> In (i, o) ns -> find_node ns i = Some o.
Proof.
  induction ns as [|[j p] ns IH]; intros sn i o H Hin; [destruct Hin|].
  rewrite find_node_cons. cbn [fst snd]. destruct H as (_ & H2 & H3). destruct Hin as [Hin|Hin].
  - injection Hin as <- <-. rewrite Nat.eqb_refl. reflexivity.
  - destruct (j =? i) eqn:E; [|eapply IH; eauto]. apply Nat.eqb_eq in E. subst j.
    exfalso. apply (topo_from_notin _ _ H3 i); [eapply in_map_fst; exact Hin|left; reflexivity].
Qed.

Lemma topo_from_topo_gen ns : forall sn, topo_from sn ns ->
  forall i o, find_node ns i = Some o -> forall j, In j (ins_of o) -> In j sn \/ pos ns j < pos ns i.
Proof.
  induction ns as [|[k p] ns IH]; intros sn H i o Hf j Hj; [discriminate Hf|].
  rewrite find_node_cons in Hf. cbn [fst snd] in Hf. destruct H as (H1 & H2 & H3). cbn [fst snd] in *.
  cbn [pos fst]. destruct (k =? i) eqn:E.
  - injection Hf as <-. left. apply H1, Hj.
  - destruct (IH _ H3 _ _ Hf _ Hj) as [[<-|H]|H]; [right; rewrite Nat.eqb_refl; lia|left; exact H|].
    right. destruct (k =? j); lia.
Qed.
Lemma topo_from_topo ns : topo_from [] ns -> topo ns.
Proof. intros H i o Hf j Hj. destruct (topo_from_topo_gen _ _ H _ _ Hf _ Hj) as [[]|H']; exact H'. Qed.

(** * The rewriting of one node: uses of [old] renamed to [new] except in [ex]. *)
Definition rename (old new : nat) (ex : list nat) (n : node) : node :=
  if existsb (Nat.eqb (fst n)) ex then n
  else (fst n, set_ins (snd n) (map (fun i => if i =? old then new else i) (ins_of (snd n)))).
Lemma replace_uses_map ns old new ex : replace_uses ns old new ex = map (rename old new ex) ns.
Proof. reflexivity. Qed.
Lemma rename_fst old new ex n : fst (rename old new ex n) = fst n.
Proof. unfold rename. destruct (existsb _ ex); reflexivity. Qed.
Lemma map_fst_rename old new ex ns : map fst (map (rename old new ex) ns) = map fst ns.
Proof. rewrite map_map. apply map_ext. intros n. apply rename_fst. Qed.
Lemma ins_set_ins o l : (forall x, In x (ins_of (set_ins o l)) -> In x l).
Proof. destruct o; cbn; auto; intros x []. Qed.
Lemma set_ins_id o l : l = ins_of o -> set_ins o l = o.
Proof. intros ->. destruct o; reflexivity. Qed.
Lemma rename_ins old new ex n x : In x (ins_of (snd (rename old new ex n))) ->
  In x (ins_of (snd n)) \/ (x = new /\ In old (ins_of (snd n))).
Proof.
  unfold rename. destruct (existsb _ ex); [auto|]. cbn [snd]. intros H. apply ins_set_ins in H.
  apply in_map_iff in H. destruct H as (y & Hy & Hin). destruct (y =? old) eqn:E.
  - apply Nat.eqb_eq in E. subst. right; auto.
  - subst. left; exact Hin.
Qed.
Lemma rename_noop old new ex n : ~ In old (ins_of (snd n)) -> rename old new ex n = n.
Proof.
  intros H. unfold rename. destruct (existsb _ ex); [reflexivity|]. destruct n as [i o]. cbn [fst snd] in *.
  f_equal. apply set_ins_id. rewrite <- (map_id (ins_of o)) at 2. apply map_ext_in. intros y Hy.
  destruct (y =? old) eqn:E; [apply Nat.eqb_eq in E; subst; contradiction|reflexivity].
Qed.

Definition insert_rw (ns : list node) (n id : nat) (m : mname) (ex : list nat) : list node :=
  replace_uses (insert_after ns n (id, OModule m [n])) n id (id :: ex).

Lemma topo_rename ns old new ex : forall s1 s2, topo_from s1 ns -> incl s1 s2 -> In new s2 ->
  (forall x, In x (map fst ns) -> ~ In x s2) -> topo_from s2 (map (rename old new ex) ns).
Proof.
  induction ns as [|n ns IH]; intros s1 s2 H Hi Hnew Hd; [exact I|].
  destruct H as (H1 & H2 & H3). cbn [map topo_from]. rewrite rename_fst. split; [|split].
  - intros x Hx. apply rename_ins in Hx. destruct Hx as [Hx|[-> _]]; [apply Hi, H1, Hx|exact Hnew].
  - apply Hd. left; reflexivity.
  - eapply IH; [exact H3| | |].
    + intros x [<-|Hx]; [left; reflexivity|right; apply Hi, Hx].
    + right; exact Hnew.
    + intros x Hx [<-|Hc]; [|eapply Hd; [right; exact Hx|exact Hc]].
      eapply topo_from_notin; [exact H3|exact Hx|left; reflexivity].
Qed.

Lemma insert_rw_cons_eq p ns n id m ex : fst p = n -> fst p <> id ->
  ~ In n (ins_of (snd p)) ->
  insert_rw (p :: ns) n id m ex = p :: (id, OModule m [n]) :: map (rename n id (id :: ex)) ns.
Proof.
  intros E Hid Hn. unfold insert_rw. cbn [insert_after]. rewrite E, Nat.eqb_refl.
  rewrite replace_uses_map. cbn [map]. rewrite rename_noop by exact Hn. f_equal. f_equal.
  unfold rename. cbn [fst existsb]. rewrite Nat.eqb_refl. reflexivity.
Qed.
Lemma insert_rw_cons_neq p ns n id m ex : fst p <> n -> ~ In n (ins_of (snd p)) ->
  insert_rw (p :: ns) n id m ex = p :: insert_rw ns n id m ex.
Proof.
  intros E Hn. unfold insert_rw. cbn [insert_after]. apply Nat.eqb_neq in E. rewrite E.
  rewrite !replace_uses_map. cbn [map]. rewrite rename_noop by exact Hn. reflexivity.
Qed.

Lemma topo_insert ns n id m ex : forall sn, topo_from sn ns -> ~ In n sn -> In n (map fst ns) ->
  ~ In id sn -> ~ In id (map fst ns) -> topo_from sn (insert_rw ns n id m ex).
Proof.
  induction ns as [|p ns IH]; intros sn H Hn Hin Hid1 Hid2; [destruct Hin|].
  destruct H as (H1 & H2 & H3).
  assert (Hnp : ~ In n (ins_of (snd p))) by (intros Hc; apply Hn, H1, Hc).
  destruct (Nat.eq_dec (fst p) n) as [E|E].
  - rewrite insert_rw_cons_eq; [|exact E|intros Hc; apply Hid2; left; auto|exact Hnp].
    split; [exact H1|]. split; [exact H2|]. split; [intros x [<-|[]]; left; exact E|].
    split; [intros [Hc|Hc]; [apply Hid2; left; exact Hc|exact (Hid1 Hc)]|].
    eapply topo_rename; [exact H3| | |].
    + intros x Hx. right; exact Hx.
    + left; reflexivity.
    + intros x Hx [<-|Hc]; [apply Hid2; right; exact Hx|].
      eapply topo_from_notin; [exact H3|exact Hx|exact Hc].
  - rewrite insert_rw_cons_neq; [|exact E|exact Hnp]. split; [exact H1|]. split; [exact H2|].
    apply IH.
    + exact H3.
    + intros [Hc|Hc]; [exact (E Hc)|exact (Hn Hc)].
    + destruct Hin as [Hc|Hin]; [contradiction|exact Hin].
    + intros [Hc|Hc]; [apply Hid2; left; exact Hc|exact (Hid1 Hc)].
    + intros Hc. apply Hid2. right; exact Hc.
Qed.

Lemma insert_rw_ids ns n id m ex x : In x (map fst (insert_rw ns n id m ex)) ->
  x = id \/ In x (map fst ns).
Proof.
  unfold insert_rw. rewrite replace_uses_map, map_fst_rename.
  induction ns as [|p ns IH]; cbn [insert_after map]; [auto|].
  destruct (fst p =? n); cbn [map In fst]; intuition.
Qed.
Lemma insert_rw_ids_keep ns n id m ex x : In x (map fst ns) -> In x (map fst (insert_rw ns n id m ex)).
Proof.
  unfold insert_rw. rewrite replace_uses_map, map_fst_rename.
  induction ns as [|p ns IH]; cbn [insert_after map]; [auto|].
  destruct (fst p =? n); cbn [map In fst]; intuition.
Qed.

(** Constructor of a node's operation. *)
Inductive same_kind : op -> op -> Prop :=
| SK_ph : same_kind OPlaceholder OPlaceholder
| SK_ga : same_kind OGetAttr OGetAttr
| SK_mod m a b : same_kind (OModule m a) (OModule m b)
| SK_fn f a b : same_kind (OFn f a) (OFn f b)
| SK_meth f a b : same_kind (OMeth f a) (OMeth f b)
| SK_out a b : same_kind (OOutput a) (OOutput b).
Lemma same_kind_refl o : same_kind o o. Proof. destruct o; constructor. Qed.
Lemma same_kind_trans a b c : same_kind a b -> same_kind b c -> same_kind a c.
Proof. intros [] H; inversion H; subst; constructor. Qed.
Lemma rename_kind old new ex n : same_kind (snd n) (snd (rename old new ex n)).
Proof.
  unfold rename. destruct (existsb _ ex); [apply same_kind_refl|]. destruct (snd n); cbn; constructor.
Qed.

Lemma find_node_rename ns old new ex i o : find_node ns i = Some o ->
  find_node (map (rename old new ex) ns) i = Some (snd (rename old new ex (i, o))).
Proof.
  induction ns as [|[k p] ns IH]; [discriminate|]. cbn [map]. rewrite !find_node_cons, rename_fst.
  cbn [fst snd]. destruct (k =? i) eqn:E; [|exact IH]. intros H. injection H as <-.
  apply Nat.eqb_eq in E. subst k. reflexivity.
Qed.
Lemma find_node_insert_after ns n p i : i <> fst p ->
  find_node (insert_after ns n p) i = find_node ns i.
Proof.
  intros H. induction ns as [|q ns IH]; [reflexivity|]. cbn [insert_after].
  destruct (fst q =? n); rewrite !find_node_cons.
  - destruct (fst q =? i); [reflexivity|]. apply not_eq_sym, Nat.eqb_neq in H. rewrite H. reflexivity.
  - rewrite IH. reflexivity.
Qed.
Lemma find_node_insert_rw ns n id m ex i o : i <> id -> find_node ns i = Some o ->
  find_node (insert_rw ns n id m ex) i = Some (snd (rename n id (id :: ex) (i, o))).
Proof.
  intros Hi Hf. unfold insert_rw. rewrite replace_uses_map. apply find_node_rename.
  rewrite find_node_insert_after; [exact Hf|cbn; exact Hi].
Qed.

(** * Registries *)
Lemma mname_eqb_refl m : mname_eqb m m = true.
Proof. destruct m; cbn; apply Nat.eqb_refl. Qed.
Lemma mname_eqb_eq a b : mname_eqb a b = true -> a = b.
Proof. destruct a, b; cbn; try discriminate; intros H; apply Nat.eqb_eq in H; subst; reflexivity. Qed.
Lemma mname_eqb_neq a b : a <> b -> mname_eqb a b = false.
Proof. intros H. destruct (mname_eqb a b) eqn:E; [apply mname_eqb_eq in E; contradiction|reflexivity]. Qed.

Lemma lookup_cons n j r m : lookup_reg ((n, j) :: r) m = if mname_eqb n m then Some j else lookup_reg r m.
Proof. unfold lookup_reg. cbn [find fst]. destruct (mname_eqb n m); reflexivity. Qed.
Lemma lookup_reg_set r m i m' :
  lookup_reg (reg_set r m i) m' = if mname_eqb m m' then Some i else lookup_reg r m'.
Proof.
  induction r as [|[n j] r IH]; cbn [reg_set].
  - rewrite lookup_cons. destruct (mname_eqb m m'); reflexivity.
  - destruct (mname_eqb n m) eqn:E.
    + apply mname_eqb_eq in E. subst n. rewrite !lookup_cons. destruct (mname_eqb m m'); reflexivity.
    + rewrite !lookup_cons, IH. destruct (mname_eqb n m') eqn:E'; [|reflexivity].
      apply mname_eqb_eq in E'. subst n. rewrite (mname_eqb_neq m m'); [reflexivity|].
      intros ->. rewrite mname_eqb_refl in E. discriminate.
Qed.
Lemma lookup_replace_first r old new m :
  lookup_reg (replace_first r old new) m = lookup_reg r m \/
  (lookup_reg r m = Some old /\ lookup_reg (replace_first r old new) m = Some new).
Proof.
  induction r as [|[n j] r IH]; cbn [replace_first]; [left; reflexivity|].
  destruct (j =? old) eqn:E.
  - apply Nat.eqb_eq in E. subst j. rewrite !lookup_cons. destruct (mname_eqb n m); auto.
  - rewrite !lookup_cons. destruct (mname_eqb n m); auto.
Qed.
