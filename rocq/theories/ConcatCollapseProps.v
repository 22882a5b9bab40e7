(** C41 (collapsing nested concatenations). *)
From Verif Require Import ConcatCollapse.
From Coq Require Import List Bool Arith ZArith Lia Permutation.
Import ListNotations.

Section Props.
Context {A : Type} (dflt : A).
Notation tensor := (@tensor A).
Notation node := (@node A).
Notation op := (@op A).
Notation env := (@env A).

(** ** Specification *)

(** Same shape and same elements. *)
Definition T_eq (t u : tensor) : Prop := shape t = shape u /\ forall idx, at_ t idx = at_ u idx.

(** An execution order: every node reads earlier nodes or graph inputs [D], names are unique. *)
Fixpoint wf (D : list nat) (g : list node) : Prop :=
  match g with
  | [] => True
  | (i, o) :: g' => ~ In i D /\ incl (inputs o) D /\ wf (i :: D) g'
  end.

(** The other nodes compute functions of the values they read. *)
Definition op_ok (o : op) : Prop :=
  match o with
  | Cat _ _ => True
  | Other f _ => forall ts ts', Forall2 T_eq ts ts' -> forall v, f ts = Some v -> exists v', f ts' = Some v' /\ T_eq v v'
  end.
Definition ops_ok (g : list node) : Prop := Forall (fun n => op_ok (snd n)) g.

(** The operands of all concatenations of the graph, with repetitions. *)
Definition cat_refs (g : list node) : list nat :=
  flat_map (fun n => match snd n with Cat _ ts => ts | Other _ _ => [] end) g.

(** No concatenation is an operand of concatenations more than once. *)
Definition cats_used_once (g : list node) : Prop :=
  forall i d ts, In (i, Cat d ts) g -> count_occ Nat.eq_dec (cat_refs g) i <= 1.

(** ** Tensors *)
Lemma T_eq_refl t : T_eq t t. Proof. split; reflexivity. Qed.
Lemma T_eq_trans t u v : T_eq t u -> T_eq u v -> T_eq t v.
Proof. intros [a b] [c d]. split; [congruence|]. intros i. rewrite b. apply d. Qed.

Lemma set_nth_len {B} k (v : B) l : length (set_nth k v l) = length l.
Proof. revert k. induction l; intros [|k]; cbn; auto. Qed.
Lemma nth_set_nth_eq {B} k (v d : B) l : k < length l -> nth k (set_nth k v l) d = v.
Proof. revert k. induction l; intros [|k] H; cbn in *; try lia; auto. apply IHl. lia. Qed.
Lemma set_nth_set {B} k (v w : B) l : set_nth k v (set_nth k w l) = set_nth k v l.
Proof. revert k. induction l; intros [|k]; cbn; auto. f_equal. apply IHl. Qed.
Lemma set_nth_self {B} k (d : B) l : set_nth k (nth k l d) l = l.
Proof. revert k. induction l; intros [|k]; cbn; auto. f_equal. apply IHl. Qed.

Lemma compat_iff d a b : compat d a b = true <-> set_nth d 0 a = set_nth d 0 b.
Proof. unfold compat. destruct (list_eq_dec _ _ _); split; auto; discriminate. Qed.
Lemma compat_len d a b : compat d a b = true -> length a = length b.
Proof. rewrite compat_iff. intros E. apply (f_equal (@length nat)) in E. rewrite !set_nth_len in E. exact E. Qed.

Lemma total_app d a b : total d (a ++ b) = total d a + total (A := A) d b.
Proof. induction a as [|t a IH]; cbn [app total fold_right]; [reflexivity|]. unfold total in *. rewrite IH. lia. Qed.

Lemma step_idx d e idx : e <= nth d idx 0 -> nth d (set_nth d (nth d idx 0 - e) idx) 0 = nth d idx 0 - e.
Proof.
  intros H. destruct (lt_dec d (length idx)) as [L|L]; [apply nth_set_nth_eq; exact L|].
  rewrite (nth_overflow idx) by lia. rewrite nth_overflow; [reflexivity|]. rewrite set_nth_len. lia.
Qed.

Lemma cat_at_app d xs : forall ys idx, cat_at dflt d (xs ++ ys) idx
  = if nth d idx 0 <? total d xs then cat_at dflt d xs idx
    else cat_at dflt d ys (set_nth d (nth d idx 0 - total d xs) idx).
Proof.
  induction xs as [|t xs IH]; intros ys idx; cbn [app cat_at].
  - cbn [total fold_right]. change (nth d idx 0 <? 0) with false. cbn beta iota.
    rewrite Nat.sub_0_r, set_nth_self. reflexivity.
  - change (total d (t :: xs)) with (extent d t + total d xs).
    destruct (Nat.ltb_spec (nth d idx 0) (extent d t)) as [L|L].
    + destruct (Nat.ltb_spec (nth d idx 0) (extent d t + total d xs)); [reflexivity|lia].
    + rewrite IH. rewrite step_idx by exact L. rewrite set_nth_set.
      destruct (Nat.ltb_spec (nth d idx 0 - extent d t) (total d xs));
        destruct (Nat.ltb_spec (nth d idx 0) (extent d t + total d xs)); try lia; [reflexivity|].
      do 2 f_equal. lia.
Qed.

(** Unfolding of a successful concatenation. *)
Lemma cat_inv dim ts v : cat dflt dim ts = Some v -> exists t ts' d, ts = t :: ts'
  /\ d < length (shape t)
  /\ Z.of_nat d = (if (dim <? 0)%Z then (dim + Z.of_nat (length (shape t)))%Z else dim)
  /\ Forall (fun u => set_nth d 0 (shape t) = set_nth d 0 (shape u)) ts
  /\ v = Tens (set_nth d (total d ts) (shape t)) (cat_at dflt d ts).
Proof.
  destruct ts as [|t ts]; [discriminate|]. cbn [cat].
  set (r := Z.of_nat (length (shape t))). set (d := if (dim <? 0)%Z then (dim + r)%Z else dim).
  destruct (((0 <=? d) && (d <? r))%Z && _) eqn:E; [|discriminate]. intros [= <-].
  apply andb_prop in E. destruct E as [E F]. apply andb_prop in E. destruct E as [E1 E2].
  apply Z.leb_le in E1. apply Z.ltb_lt in E2.
  exists t, ts, (Z.to_nat d). split; [reflexivity|]. split; [unfold r in E2; lia|]. split; [rewrite Z2Nat.id by lia; reflexivity|].
  split; [|reflexivity]. rewrite forallb_forall in F. apply Forall_forall. intros u Hu. apply compat_iff, F, Hu.
Qed.

Lemma cat_intro dim ts t ts' d : ts = t :: ts' -> d < length (shape t)
  -> Z.of_nat d = (if (dim <? 0)%Z then (dim + Z.of_nat (length (shape t)))%Z else dim)
  -> Forall (fun u => set_nth d 0 (shape t) = set_nth d 0 (shape u)) ts
  -> cat dflt dim ts = Some (Tens (set_nth d (total d ts) (shape t)) (cat_at dflt d ts)).
Proof.
  intros -> Hd Hz F. cbn [cat]. rewrite <- Hz. rewrite Nat2Z.id.
  rewrite (proj2 (Z.leb_le 0 (Z.of_nat d))) by lia.
  rewrite (proj2 (Z.ltb_lt (Z.of_nat d) _)) by lia. cbn [andb].
  rewrite (proj2 (forallb_forall _ _)); [reflexivity|].
  intros u Hu. apply compat_iff. exact (proj1 (Forall_forall _ _) F u Hu).
Qed.

Lemma set0_len d a b : set_nth d 0 a = set_nth d 0 b -> length a = length b.
Proof. intros E. apply (f_equal (@length nat)) in E. rewrite !set_nth_len in E. exact E. Qed.

(** Flattening one nested concatenation. *)
Lemma cat_flatten dim xs ys zs u v : cat dflt dim ys = Some u -> cat dflt dim (xs ++ u :: zs) = Some v ->
  exists v', cat dflt dim (xs ++ ys ++ zs) = Some v' /\ T_eq v v'.
Proof.
  intros Hu Hv. apply cat_inv in Hu. apply cat_inv in Hv.
  destruct Hu as (y & ys' & d & Ey & Hd & Hz & Fy & Eu).
  destruct Hv as (t & ts' & d2 & Et & Hd2 & Hz2 & Ft & Ev).
  assert (Su : set_nth d 0 (shape u) = set_nth d 0 (shape y)) by (rewrite Eu; cbn [shape]; apply set_nth_set).
  assert (Ftu : set_nth d2 0 (shape t) = set_nth d2 0 (shape u)).
  { rewrite Forall_forall in Ft. apply Ft. apply in_or_app. right. left. reflexivity. }
  assert (Lt : length (shape t) = length (shape y)) by (apply set0_len in Ftu; apply set0_len in Su; congruence).
  assert (d2 = d) as -> by (rewrite <- Lt in Hz; rewrite <- Hz in Hz2; lia).
  assert (Ext : extent d u = total d ys) by (rewrite Eu; unfold extent; cbn [shape]; apply nth_set_nth_eq; exact Hd).
  assert (Tot : total d (xs ++ u :: zs) = total d (xs ++ ys ++ zs)).
  { rewrite !total_app. change (total d (u :: zs)) with (extent d u + total d zs). rewrite Ext. lia. }
  assert (At : forall idx, cat_at dflt d (xs ++ u :: zs) idx = cat_at dflt d (xs ++ ys ++ zs) idx).
  { intros idx. rewrite !(cat_at_app d xs). destruct (_ <? _); [reflexivity|].
    set (idx' := set_nth d _ idx). rewrite (cat_at_app d ys). cbn [cat_at]. rewrite Ext.
    destruct (_ <? _); [|reflexivity]. rewrite Eu. reflexivity. }
  assert (All : forall w : tensor, set_nth d 0 (shape w) = set_nth d 0 (shape t) ->
             Forall (fun u => set_nth d 0 (shape w) = set_nth d 0 (shape u)) (xs ++ ys ++ zs)).
  { intros w Hw. rewrite Forall_app in Ft. destruct Ft as [F1 F2]. inversion_clear F2 as [|? ? F3 F4].
    rewrite !Forall_app. split; [|split]; eapply Forall_impl; try exact F1; try exact F4; try exact Fy; cbn beta; intros a Ha; congruence. }
  destruct xs as [|x xs].
  - cbn [app] in *. injection Et as <- _.
    exists (Tens (set_nth d (total d (ys ++ zs)) (shape y)) (cat_at dflt d (ys ++ zs))).
    split.
    + apply cat_intro with (ts' := ys' ++ zs); [rewrite Ey; reflexivity|exact Hd|exact Hz|]. apply All. congruence.
    + rewrite Ev. split; cbn [shape at_]; [|exact At]. rewrite Tot. rewrite Eu. cbn [shape]. apply set_nth_set.
  - cbn [app] in Et. injection Et as -> _.
    exists (Tens (set_nth d (total d ((t :: xs) ++ ys ++ zs)) (shape t)) (cat_at dflt d ((t :: xs) ++ ys ++ zs))).
    split.
    + apply cat_intro with (ts' := xs ++ ys ++ zs); [reflexivity|exact Hd2|exact Hz2|]. apply All. reflexivity.
    + rewrite Ev. split; cbn [shape at_]; [|exact At]. rewrite Tot. reflexivity.
Qed.

(** Concatenation respects [T_eq]. *)
Lemma F2_total d ts ts' : Forall2 T_eq ts ts' -> total d ts = total d ts'.
Proof.
  induction 1 as [|t u ts ts' [Hs _] _ IH]; [reflexivity|]. change (total d (t :: ts)) with (extent d t + total d ts).
  change (total d (u :: ts')) with (extent d u + total d ts'). rewrite IH. unfold extent. rewrite Hs. reflexivity.
Qed.
Lemma F2_cat_at d ts ts' : Forall2 T_eq ts ts' -> forall idx, cat_at dflt d ts idx = cat_at dflt d ts' idx.
Proof.
  induction 1 as [|t u ts ts' [Hs Ha] _ IH]; intros idx; [reflexivity|]. cbn [cat_at].
  unfold extent. rewrite Hs, Ha, IH. reflexivity.
Qed.
Lemma cat_proper dim ts ts' : Forall2 T_eq ts ts' -> forall v, cat dflt dim ts = Some v ->
  exists v', cat dflt dim ts' = Some v' /\ T_eq v v'.
Proof.
  intros F v Hv. apply cat_inv in Hv. destruct Hv as (t & r & d & E & Hd & Hz & Fs & ->).
  pose proof (F2_total d _ _ F) as HT. pose proof (F2_cat_at d _ _ F) as HA.
  assert (FS : Forall2 (fun a b => shape a = shape b) ts ts') by (clear -F; induction F as [|? ? ? ? [? _]]; constructor; auto).
  subst ts. inversion F as [|? t' ? r' [Ht _] _]; subst.
  exists (Tens (set_nth d (total d (t' :: r')) (shape t')) (cat_at dflt d (t' :: r'))). split.
  - apply cat_intro with (ts' := r'); [reflexivity| | |]; rewrite <- Ht; auto.
    clear -Fs FS. revert FS Fs. generalize (t :: r) (t' :: r') (shape t). intros l l' s F. induction F as [|? ? ? ? Hab]; intros Fs; constructor; inversion Fs; subst; auto. congruence.
  - split; cbn [shape at_]; [rewrite HT, Ht; reflexivity|exact HA].
Qed.

(** ** Execution *)
Definition rel (x : nat) (e1 e2 : env) : Prop :=
  forall i, i <> x -> forall v, e1 i = Some v -> exists v', e2 i = Some v' /\ T_eq v v'.

Lemma gather_app (e : env) a b : gather e (a ++ b) = match gather e a, gather e b with Some x, Some y => Some (x ++ y) | _, _ => None end.
Proof.
  induction a as [|i a IH]; cbn [app gather]; [destruct (gather e b); reflexivity|].
  destruct (e i); [|reflexivity]. rewrite IH. destruct (gather e a), (gather e b); reflexivity.
Qed.

Lemma gather_rel x (e1 e2 : env) ins ts : rel x e1 e2 -> ~ In x ins -> gather e1 ins = Some ts ->
  exists ts', gather e2 ins = Some ts' /\ Forall2 T_eq ts ts'.
Proof.
  intros R. revert ts. induction ins as [|i ins IH]; intros ts Hx; cbn [gather].
  - intros [= <-]. exists []. split; [reflexivity|constructor].
  - destruct (e1 i) as [t|] eqn:Ei; [|discriminate]. destruct (gather e1 ins) as [us|]; [|discriminate]. intros [= <-].
    destruct (R i) with (v := t) as (t' & Ht' & Et'); [intros ->; apply Hx; left; reflexivity|exact Ei|].
    destruct (IH us) as (us' & Hu' & Fu'); [intros H; apply Hx; right; exact H|reflexivity|].
    rewrite Ht', Hu'. exists (t' :: us'). split; [reflexivity|]. constructor; assumption.
Qed.

Lemma eval_op_rel x e1 e2 o v : op_ok o -> rel x e1 e2 -> ~ In x (inputs o) -> eval_op dflt e1 o = Some v ->
  exists v', eval_op dflt e2 o = Some v' /\ T_eq v v'.
Proof.
  intros Ho R Hx. unfold eval_op. destruct (gather e1 (inputs o)) as [ts|] eqn:G; [|discriminate].
  destruct (gather_rel x e1 e2 _ _ R Hx G) as (ts' & -> & F). destruct o as [d l|f l]; intros H.
  - apply (cat_proper d ts ts' F). exact H.
  - apply (Ho ts ts' F). exact H.
Qed.

Lemma upd_eq (e : env) i v : upd e i v i = v.
Proof. unfold upd. rewrite Nat.eqb_refl. reflexivity. Qed.
Lemma upd_neq (e : env) i j v : j <> i -> upd e i v j = e j.
Proof. intros H. unfold upd. apply Nat.eqb_neq in H. rewrite H. reflexivity. Qed.

Lemma rel_upd x e1 e2 i v1 v2 : rel x e1 e2 -> (forall v, v1 = Some v -> exists v', v2 = Some v' /\ T_eq v v')
  -> rel x (upd e1 i v1) (upd e2 i v2).
Proof.
  intros R H j Hj v. destruct (Nat.eq_dec j i) as [->|N]; [rewrite !upd_eq; apply H|].
  rewrite !upd_neq by exact N. apply R. exact Hj.
Qed.

Lemma eval_app g h (e : env) : eval dflt (g ++ h) e = eval dflt h (eval dflt g e).
Proof. revert e. induction g as [|[i o] g IH]; intros e; cbn [app eval]; [reflexivity|]. apply IH. Qed.

Lemma eval_rel x g : ops_ok g -> Forall (fun n => ~ In x (inputs (snd n))) g -> forall e1 e2, rel x e1 e2 ->
  rel x (eval dflt g e1) (eval dflt g e2).
Proof.
  intros Ho Hx. induction g as [|[i o] g IH]; intros e1 e2 R; cbn [eval]; [exact R|].
  inversion_clear Ho as [|? ? Hoo Hog]. inversion_clear Hx as [|? ? Hxo Hxg]. apply IH; auto.
  apply rel_upd; [exact R|]. intros v. apply (eval_op_rel x e1 e2 o v Hoo R Hxo).
Qed.

Lemma eval_other g (e : env) j : ~ In j (map fst g) -> eval dflt g e j = e j.
Proof.
  revert e. induction g as [|[i o] g IH]; intros e H; cbn [eval]; [reflexivity|].
  rewrite IH by (intros C; apply H; right; exact C). apply upd_neq. intros ->. apply H. left. reflexivity.
Qed.
Lemma gather_ext (e1 e2 : env) ins : (forall i, In i ins -> e1 i = e2 i) -> gather e1 ins = gather e2 ins.
Proof.
  induction ins as [|i ins IH]; intros H; cbn [gather]; [reflexivity|].
  rewrite (H i (or_introl eq_refl)), IH; [reflexivity|]. intros j Hj. apply H. right. exact Hj.
Qed.

(** ** One rewrite, in decomposed form *)
Lemma step_eval (pre mid post : list node) inner outer dim ys l1 l2 :
  ops_ok (pre ++ (inner, Cat dim ys) :: mid ++ (outer, Cat dim (l1 ++ inner :: l2)) :: post) ->
  Forall (fun n => ~ In inner (inputs (snd n))) mid -> Forall (fun n => ~ In inner (inputs (snd n))) post ->
  ~ In inner l1 -> ~ In inner l2 -> ~ In inner ys ->
  ~ In inner (map fst mid) -> (forall y, In y ys -> ~ In y (map fst mid)) ->
  forall e, rel inner (eval dflt (pre ++ (inner, Cat dim ys) :: mid ++ (outer, Cat dim (l1 ++ inner :: l2)) :: post) e)
                      (eval dflt (pre ++ mid ++ (outer, Cat dim (l1 ++ ys ++ l2)) :: post) e).
Proof.
  intros Ho Hm Hp H1 H2 Hy Im Iy e.
  unfold ops_ok in Ho. rewrite Forall_app in Ho. destruct Ho as [_ Ho]. inversion_clear Ho as [|? ? _ Ho'].
  rewrite Forall_app in Ho'. destruct Ho' as [Om Oo]. inversion_clear Oo as [|? ? _ Op].
  rewrite !eval_app. cbn [eval]. rewrite !eval_app. cbn [eval]. set (e0 := eval dflt pre e).
  set (u := eval_op dflt e0 (Cat dim ys)).
  set (ea := eval dflt mid (upd e0 inner u)). set (eb := eval dflt mid e0).
  assert (R0 : rel inner (upd e0 inner u) e0).
  { intros i Hi v. rewrite upd_neq by exact Hi. intros Hv. exists v. split; [exact Hv|apply T_eq_refl]. }
  assert (R : rel inner ea eb) by (apply eval_rel; assumption).
  apply eval_rel; [exact Op|exact Hp|]. apply rel_upd; [exact R|].
  intros v. unfold eval_op at 1. cbn [inputs]. rewrite gather_app. cbn [gather].
  destruct (gather ea l1) as [xs|] eqn:G1; [|discriminate].
  destruct (ea inner) as [tu|] eqn:Eu; [|discriminate].
  destruct (gather ea l2) as [zs|] eqn:G2; [|discriminate]. intros Hv.
  unfold ea in Eu. rewrite eval_other, upd_eq in Eu by exact Im. unfold u, eval_op in Eu. cbn [inputs] in Eu.
  destruct (gather e0 ys) as [vs|] eqn:Gy; [|discriminate].
  assert (Gy' : gather eb ys = Some vs).
  { rewrite <- Gy. apply gather_ext. intros y Yin. apply eval_other. apply Iy. exact Yin. }
  destruct (gather_rel inner ea eb l1 xs R H1 G1) as (xs' & G1' & F1).
  destruct (gather_rel inner ea eb l2 zs R H2 G2) as (zs' & G2' & F2).
  unfold eval_op. cbn [inputs]. rewrite !gather_app, G1', Gy', G2'.
  destruct (cat_flatten dim xs vs zs tu v Eu Hv) as (w & Hw & Ew).
  destruct (cat_proper dim (xs ++ vs ++ zs) (xs' ++ vs ++ zs')) with (v := w) as (w' & Hw' & Ew'); [|exact Hw|].
  { apply Forall2_app; [exact F1|]. apply Forall2_app; [|exact F2]. clear. induction vs; constructor; auto using T_eq_refl. }
  exists w'. split; [exact Hw'|]. eapply T_eq_trans; eassumption.
Qed.

(** ** The function [collapse_step] performs such a rewrite *)
Lemma find_merge_spec (g rest : list node) outer dim inner : find_merge g rest = Some (outer, dim, inner) ->
  exists ts, In (outer, Cat dim ts) rest /\ In inner ts /\ mergeable g dim inner = true.
Proof.
  induction rest as [|[i o] rest IH]; cbn [find_merge]; [discriminate|].
  destruct o as [d ts|f ins].
  - destruct (find (mergeable g d) ts) as [inp|] eqn:F.
    + intros [= <- <- <-]. apply find_some in F. destruct F as [F1 F2]. exists ts. split; [left; reflexivity|]. split; assumption.
    + intros H. destruct (IH H) as (ts' & H1 & H2). exists ts'. split; [right; exact H1|exact H2].
  - intros H. destruct (IH H) as (ts' & H1 & H2). exists ts'. split; [right; exact H1|exact H2].
Qed.

Lemma find_node_in (g : list node) i o : find_node g i = Some o -> In (i, o) g.
Proof.
  unfold find_node. destruct (find (fun n => fst n =? i) g) as [[j o']|] eqn:F; [|discriminate]. intros [= <-].
  apply find_some in F. cbn [fst snd] in *. destruct F as [F1 F2]. apply Nat.eqb_eq in F2. subst. exact F1.
Qed.

Lemma wf_app D (g h : list node) : wf D (g ++ h) <-> wf D g /\ wf (rev (map fst g) ++ D) h.
Proof.
  revert D. induction g as [|[i o] g IH]; intros D; cbn [app wf map rev].
  - tauto.
  - rewrite IH. rewrite <- app_assoc. cbn [app fst]. tauto.
Qed.

Lemma wf_ids D (g : list node) : wf D g -> forall i, In i (map fst g) -> ~ In i D.
Proof.
  revert D. induction g as [|[j o] g IH]; intros D; cbn [wf map]; [intros _ i []|].
  intros (H1 & H2 & H3) i [E|Hi]; [cbn [fst] in E; subst j; exact H1|].
  intros C. apply (IH _ H3 i Hi). right. exact C.
Qed.

Lemma wf_inputs D g : wf D g -> forall n j, In n g -> In j (inputs (snd n)) -> In j (D ++ map fst g).
Proof.
  revert D. induction g as [|[i o] g IH]; intros D; cbn [wf]; [intros _ n j []|].
  intros (H1 & H2 & H3) n j [<-|Hn] Hj; cbn [snd map fst] in *.
  - apply in_or_app. left. apply H2. exact Hj.
  - specialize (IH _ H3 n j Hn Hj). apply in_app_or in IH. apply in_or_app. cbn [In] in *. tauto.
Qed.

(** Shape of a mergeable pair in a well-formed graph. *)
Lemma split_graph D g inner dim ys outer ts : wf D g -> In (inner, Cat dim ys) g -> In (outer, Cat dim ts) g -> In inner ts ->
  exists pre mid post, g = pre ++ (inner, Cat dim ys) :: mid ++ (outer, Cat dim ts) :: post.
Proof.
  intros W Hi Ho Hin. apply in_split in Hi. destruct Hi as (pre & rest & ->).
  apply wf_app in W. destruct W as [Wp Wr]. cbn [wf] in Wr. destruct Wr as (Ni & Inc & Wr).
  apply in_app_or in Ho. destruct Ho as [Ho|[Ho|Ho]].
  - exfalso. apply Ni. pose proof (wf_inputs _ _ Wp _ inner Ho Hin) as C. apply in_app_or in C. apply in_or_app.
    destruct C as [C|C]; [right; exact C|left]. rewrite <- in_rev. exact C.
  - exfalso. injection Ho as -> ->. apply Ni. apply Inc. exact Hin.
  - apply in_split in Ho. destruct Ho as (mid & post & ->). exists pre, mid, post. reflexivity.
Qed.

Lemma filter_none {B} (f : B -> bool) l : filter f l = [] -> Forall (fun x => f x = false) l.
Proof.
  induction l as [|x l IH]; cbn [filter]; [constructor|]. destruct (f x) eqn:E; [discriminate|]. intros H. constructor; auto.
Qed.

Lemma reads_false i (n : node) : existsb (Nat.eqb i) (inputs (snd n)) = false -> ~ In i (inputs (snd n)).
Proof.
  intros E C. assert (existsb (Nat.eqb i) (inputs (snd n)) = true); [|congruence].
  apply existsb_exists. exists i. split; [exact C|apply Nat.eqb_refl].
Qed.

Lemma only_user (pre mid post : list node) inner dim ys outer ts :
  length (users (pre ++ (inner, Cat dim ys) :: mid ++ (outer, Cat dim ts) :: post) inner) = 1 -> In inner ts ->
  Forall (fun n => ~ In inner (inputs (snd n))) (pre ++ (inner, Cat dim ys) :: mid)
  /\ Forall (fun n => ~ In inner (inputs (snd n))) post.
Proof.
  intros L Hin. unfold users in L.
  change (pre ++ (inner, Cat dim ys) :: mid ++ (outer, Cat dim ts) :: post)
    with (pre ++ ((inner, Cat dim ys) :: mid) ++ (outer, Cat dim ts) :: post) in L.
  rewrite app_assoc, filter_app, app_length in L. cbn [filter snd inputs] in L.
  assert (E : existsb (Nat.eqb inner) ts = true) by (apply existsb_exists; exists inner; split; [exact Hin|apply Nat.eqb_refl]).
  rewrite E in L. cbn [length] in L.
  assert (K : forall l : list node, length (filter (fun n => existsb (Nat.eqb inner) (inputs (snd n))) l) = 0 ->
              Forall (fun n => ~ In inner (inputs (snd n))) l).
  { intros l Hl. apply length_zero_iff_nil, filter_none in Hl. eapply Forall_impl; [|exact Hl].
    intros a Ha. apply reads_false. exact Ha. }
  unfold ConcatCollapse.node in *. split; apply K; lia.
Qed.

Lemma merge_tensors_split inner ys l1 l2 : ~ In inner l1 -> ~ In inner l2 ->
  merge_tensors inner ys (l1 ++ inner :: l2) = l1 ++ ys ++ l2.
Proof.
  intros H1 H2. unfold merge_tensors.
  assert (K : index_of inner (l1 ++ inner :: l2) = length l1).
  { clear H2. induction l1 as [|a l1 IH]; cbn [app index_of length]; [rewrite Nat.eqb_refl; reflexivity|].
    destruct (Nat.eqb_spec inner a) as [->|N]; [exfalso; apply H1; left; reflexivity|].
    rewrite IH; [reflexivity|]. intros C. apply H1. right. exact C. }
  assert (F : forall l, ~ In inner l -> filter (fun j => negb (j =? inner)) l = l).
  { clear. induction l as [|a l IH]; intros H; cbn [filter]; [reflexivity|].
    destruct (Nat.eqb_spec a inner) as [->|N]; [exfalso; apply H; left; reflexivity|]. cbn [negb].
    rewrite IH; [reflexivity|]. intros C. apply H. right. exact C. }
  rewrite K, filter_app. cbn [filter]. rewrite Nat.eqb_refl. cbn [negb]. rewrite !F by assumption.
  rewrite firstn_app, firstn_all, Nat.sub_diag. cbn [firstn]. rewrite app_nil_r.
  rewrite skipn_app, skipn_all, Nat.sub_diag. reflexivity.
Qed.

Lemma map_rewrite (g : list node) outer (h : node -> node) : ~ In outer (map fst g) ->
  map (fun n => if fst n =? outer then h n else n) g = g.
Proof.
  induction g as [|n g IH]; intros H; cbn [map]; [reflexivity|]. cbn [map In] in H.
  destruct (Nat.eqb_spec (fst n) outer) as [E|E]; [exfalso; apply H; left; exact E|]. rewrite IH; [reflexivity|]. tauto.
Qed.
Lemma filter_ids (g : list node) inner : ~ In inner (map fst g) -> filter (fun n => negb (fst n =? inner)) g = g.
Proof.
  induction g as [|n g IH]; intros H; cbn [filter]; [reflexivity|]. cbn [map In] in H.
  destruct (Nat.eqb_spec (fst n) inner) as [E|E]; [exfalso; apply H; left; exact E|]. cbn [negb]. rewrite IH; [reflexivity|]. tauto.
Qed.

(** All facts about one step: decomposition of the graph before and after. *)
Lemma step_shape D g g' : wf D g -> collapse_step g = Some g' ->
  exists pre mid post inner outer dim ys ts,
    g = pre ++ (inner, Cat dim ys) :: mid ++ (outer, Cat dim ts) :: post
    /\ g' = pre ++ mid ++ (outer, Cat dim (merge_tensors inner ys ts)) :: post
    /\ In inner ts
    /\ Forall (fun n => ~ In inner (inputs (snd n))) (pre ++ (inner, Cat dim ys) :: mid)
    /\ Forall (fun n => ~ In inner (inputs (snd n))) post
    /\ ~ In inner (map fst pre) /\ ~ In inner (map fst mid) /\ ~ In inner (map fst post) /\ inner <> outer
    /\ ~ In outer (map fst pre) /\ ~ In outer (map fst mid) /\ ~ In outer (map fst post)
    /\ (forall y, In y ys -> ~ In y (map fst mid)) /\ ~ In inner D.
Proof.
  intros W. unfold collapse_step. destruct (find_merge g g) as [[[outer dim] inner]|] eqn:F; [|discriminate].
  apply find_merge_spec in F. destruct F as (ts & Ho & Hin & M). unfold mergeable in M.
  destruct (find_node g inner) as [[dim' ys|f ins]|] eqn:FN; try discriminate. intros [= <-].
  apply andb_prop in M. destruct M as [M1 M2]. apply Z.eqb_eq in M1. subst dim'. apply Nat.eqb_eq in M2.
  apply find_node_in in FN.
  destruct (split_graph D g inner dim ys outer ts W FN Ho Hin) as (pre & mid & post & ->).
  destruct (only_user _ _ _ _ _ _ _ _ M2 Hin) as [U1 U2].
  pose proof W as W'. apply wf_app in W'. destruct W' as [Wp Wr]. cbn [wf] in Wr. destruct Wr as (Ni & Iy & Wm).
  apply wf_app in Wm. destruct Wm as [Wm Wo]. cbn [wf] in Wo. destruct Wo as (No & Io & Wpo).
  assert (I1 : ~ In inner (map fst pre)) by (intros C; apply Ni; apply in_or_app; left; rewrite <- in_rev; exact C).
  assert (ID : ~ In inner D) by (intros C; apply Ni; apply in_or_app; right; exact C).
  assert (I2 : ~ In inner (map fst mid)) by (intros C; apply (wf_ids _ _ Wm _ C); left; reflexivity).
  assert (I3 : ~ In inner (map fst post)).
  { intros C. apply (wf_ids _ _ Wpo _ C). right. apply in_or_app. right. left. reflexivity. }
  assert (I4 : inner <> outer). { intros ->. apply No. apply in_or_app. right. left. reflexivity. }
  assert (O1 : ~ In outer (map fst pre)).
  { intros C. apply No. apply in_or_app. right. right. apply in_or_app. left. rewrite <- in_rev. exact C. }
  assert (O2 : ~ In outer (map fst mid)).
  { intros C. apply No. apply in_or_app. left. rewrite <- in_rev. exact C. }
  assert (O3 : ~ In outer (map fst post)). { intros C. apply (wf_ids _ _ Wpo _ C). left. reflexivity. }
  assert (Y : forall y, In y ys -> ~ In y (map fst mid)).
  { intros y Hy C. apply (wf_ids _ _ Wm _ C). right. apply Iy. exact Hy. }
  exists pre, mid, post, inner, outer, dim, ys, ts. split; [reflexivity|]. split.
  - rewrite map_app. cbn [map]. rewrite map_app. cbn [map fst snd].
    rewrite (proj2 (Nat.eqb_neq inner outer) I4), Nat.eqb_refl.
    rewrite !(map_rewrite _ outer) by assumption.
    rewrite filter_app. cbn [filter fst]. rewrite Nat.eqb_refl. cbn [negb]. rewrite filter_app. cbn [filter fst].
    rewrite (proj2 (Nat.eqb_neq outer inner)) by congruence. cbn [negb]. rewrite !filter_ids by assumption. reflexivity.
  - repeat (split; [assumption|]). assumption.
Qed.

Lemma wf_weaken x g : forall D D', wf D g -> incl D' D -> (forall j, In j D -> j = x \/ In j D') ->
  Forall (fun n => ~ In x (inputs (snd n))) g -> wf D' g.
Proof.
  induction g as [|[i o] g IH]; intros D D'; cbn [wf]; [trivial|]. intros (H1 & H2 & H3) I1 I2 F.
  inversion_clear F as [|? ? Fo Fg]. cbn [snd] in Fo. split; [intros C; apply H1, I1, C|]. split.
  - intros j Hj. destruct (I2 j (H2 j Hj)) as [->|]; [contradiction|assumption].
  - apply (IH (i :: D)); auto.
    + intros j [->|Hj]; [left; reflexivity|right; apply I1; exact Hj].
    + intros j [->|Hj]; [right; left; reflexivity|]. destruct (I2 j Hj); [left; assumption|right; right; assumption].
Qed.

Lemma in_merge_tensors inner ys ts j : In j (merge_tensors inner ys ts) -> In j ys \/ (In j ts /\ j <> inner).
Proof.
  unfold merge_tensors. intros H. apply in_app_or in H.
  assert (K : In j (filter (fun j => negb (j =? inner)) ts) -> In j ts /\ j <> inner).
  { intros C. apply filter_In in C. destruct C as [C1 C2]. split; [exact C1|]. apply negb_true_iff, Nat.eqb_neq in C2. exact C2. }
  destruct H as [H|H].
  - right. apply K. set (k := index_of inner ts) in *. clearbody k. revert H. apply (fun x => x).
    intros H. rewrite <- (firstn_skipn k). apply in_or_app. left. exact H.
  - apply in_app_or in H. destruct H as [H|H]; [left; exact H|]. right. apply K.
    rewrite <- (firstn_skipn (index_of inner ts)). apply in_or_app. right. exact H.
Qed.

Lemma step_wf D g g' : wf D g -> collapse_step g = Some g' -> wf D g'.
Proof.
  intros W S. destruct (step_shape D g g' W S) as (pre & mid & post & inner & outer & dim & ys & ts & -> & -> & Hin & U1 & U2 & I1 & I2 & I3 & I4 & O1 & O2 & O3 & Y & ID).
  apply wf_app in W. destruct W as [Wp Wr]. cbn [wf] in Wr. destruct Wr as (Ni & Iy & Wm).
  apply wf_app in Wm. destruct Wm as [Wm Wo]. cbn [wf] in Wo. destruct Wo as (No & Io & Wpo).
  rewrite Forall_app in U1. destruct U1 as [_ U1]. inversion_clear U1 as [|? ? Uy Um]. cbn [snd inputs] in *.
  apply wf_app. split; [exact Wp|]. apply wf_app. split.
  - apply (wf_weaken inner _ (inner :: rev (map fst pre) ++ D)); auto; [intros j Hj; right; exact Hj|].
    intros j [<-|Hj]; auto.
  - cbn [wf]. split; [|split].
    + intros C. apply No. apply in_app_or in C. apply in_or_app. destruct C as [C|C]; [left; exact C|right; right; exact C].
    + cbn [inputs]. intros j Hj. apply in_merge_tensors in Hj. apply in_or_app. destruct Hj as [Hj|[Hj N]].
      * right. apply Iy. exact Hj.
      * specialize (Io j Hj). apply in_app_or in Io. destruct Io as [C|[C|C]]; [left; exact C|congruence|right; exact C].
    + apply (wf_weaken inner _ (outer :: rev (map fst mid) ++ inner :: rev (map fst pre) ++ D)); auto.
      * intros j [->|Hj]; [left; reflexivity|right]. apply in_app_or in Hj. apply in_or_app. cbn [In]. tauto.
      * intros j [->|Hj]; [right; left; reflexivity|]. apply in_app_or in Hj. cbn [In] in *.
        destruct Hj as [Hj|[Hj|Hj]]; [|left; congruence|]; right; right; apply in_or_app; [left|right]; exact Hj.
Qed.

Lemma step_ops D g g' : wf D g -> collapse_step g = Some g' -> ops_ok g -> ops_ok g'.
Proof.
  intros W S O. destruct (step_shape D g g' W S) as (pre & mid & post & inner & outer & dim & ys & ts & -> & -> & _).
  unfold ops_ok in *. rewrite Forall_app in *. destruct O as [Op Or]. inversion_clear Or as [|? ? _ Om].
  rewrite Forall_app in *. destruct Om as [Om Oo]. inversion_clear Oo as [|? ? _ Opo].
  split; [exact Op|]. split; [exact Om|]. constructor; [exact I|exact Opo].
Qed.

Lemma step_length D g g' : wf D g -> collapse_step g = Some g' -> length g = S (length g').
Proof.
  intros W S. destruct (step_shape D g g' W S) as (pre & mid & post & inner & outer & dim & ys & ts & -> & -> & _).
  rewrite !app_length. cbn [length]. rewrite !app_length. cbn [length]. lia.
Qed.

(** The operand of the outer node is listed once. *)
Lemma once_split ts inner : In inner ts -> count_occ Nat.eq_dec ts inner <= 1 ->
  exists l1 l2, ts = l1 ++ inner :: l2 /\ ~ In inner l1 /\ ~ In inner l2.
Proof.
  intros Hin C. apply in_split in Hin. destruct Hin as (l1 & l2 & ->). exists l1, l2. split; [reflexivity|].
  rewrite count_occ_app in C. cbn [count_occ] in C. destruct (Nat.eq_dec inner inner); [|congruence].
  split; apply (count_occ_not_In Nat.eq_dec); lia.
Qed.

Lemma cat_refs_app g h : cat_refs (g ++ h) = cat_refs g ++ cat_refs h.
Proof. unfold cat_refs. apply flat_map_app. Qed.

Lemma step_once D g g' : wf D g -> collapse_step g = Some g' -> cats_used_once g -> cats_used_once g'.
Proof.
  intros W S C. destruct (step_shape D g g' W S) as (pre & mid & post & inner & outer & dim & ys & ts & -> & -> & Hin & U1 & U2 & I1 & I2 & I3 & I4 & O1 & O2 & O3 & Y & ID).
  pose proof (C inner dim ys) as Ci. rewrite !cat_refs_app in Ci. cbn [cat_refs flat_map snd] in Ci. fold (cat_refs (mid ++ (outer, Cat dim ts) :: post)) in Ci.
  rewrite cat_refs_app in Ci. cbn [cat_refs flat_map snd] in Ci. fold (cat_refs post) in Ci.
  rewrite !count_occ_app in Ci.
  destruct (once_split ts inner Hin) as (l1 & l2 & -> & N1 & N2).
  { match type of Ci with ?P -> _ => assert (Hi' : P) by (apply in_or_app; right; left; reflexivity) end.
    specialize (Ci Hi'). lia. }
  rewrite merge_tensors_split by assumption.
  intros i d us Hi.
  assert (Cnt : count_occ Nat.eq_dec (cat_refs (pre ++ (inner, Cat dim ys) :: mid ++ (outer, Cat dim (l1 ++ inner :: l2)) :: post)) i <= 1).
  { apply in_app_or in Hi. destruct Hi as [Hi|Hi].
    - apply (C i d us). apply in_or_app. left. exact Hi.
    - apply in_app_or in Hi. destruct Hi as [Hi|[Hi|Hi]].
      + apply (C i d us). apply in_or_app. right. right. apply in_or_app. left. exact Hi.
      + injection Hi as <- <- <-. apply (C outer dim (l1 ++ inner :: l2)). apply in_or_app. right. right. apply in_or_app. right. left. reflexivity.
      + apply (C i d us). apply in_or_app. right. right. apply in_or_app. right. right. exact Hi. }
  revert Cnt. rewrite !cat_refs_app. cbn [cat_refs flat_map snd]. fold (cat_refs (mid ++ (outer, Cat dim (l1 ++ inner :: l2)) :: post)).
  rewrite !cat_refs_app. cbn [cat_refs flat_map snd]. fold (cat_refs post).
  rewrite !count_occ_app. cbn [count_occ]. destruct (Nat.eq_dec inner i); lia.
Qed.

(** ** Theorems *)

(** One rewrite preserves the value of every remaining node, when the inner concatenation is
    listed once. *)
Theorem step_preserves D g g' : wf D g -> ops_ok g -> cats_used_once g -> collapse_step g = Some g' ->
  forall e i v, In i (D ++ map fst g') -> eval dflt g e i = Some v ->
  exists v', eval dflt g' e i = Some v' /\ T_eq v v'.
Proof.
  intros W O C S e i v Hi Hv.
  destruct (step_shape D g g' W S) as (pre & mid & post & inner & outer & dim & ys & ts & -> & -> & Hin & U1 & U2 & I1 & I2 & I3 & I4 & O1 & O2 & O3 & Y & ID).
  pose proof (C inner dim ys) as Ci. rewrite !cat_refs_app in Ci. cbn [cat_refs flat_map snd] in Ci. fold (cat_refs (mid ++ (outer, Cat dim ts) :: post)) in Ci.
  rewrite cat_refs_app in Ci. cbn [cat_refs flat_map snd] in Ci. fold (cat_refs post) in Ci. rewrite !count_occ_app in Ci.
  destruct (once_split ts inner Hin) as (l1 & l2 & -> & N1 & N2).
  { match type of Ci with ?P -> _ => assert (Hi' : P) by (apply in_or_app; right; left; reflexivity) end.
    specialize (Ci Hi'). lia. }
  rewrite merge_tensors_split in * by assumption.
  rewrite Forall_app in U1. destruct U1 as [_ U1]. inversion_clear U1 as [|? ? Uy Um]. cbn [snd inputs] in *.
  apply (step_eval pre mid post inner outer dim ys l1 l2 O Um U2 N1 N2 Uy I2 Y e); [|exact Hv].
  intros ->. apply in_app_or in Hi. destruct Hi as [Hi|Hi]; [contradiction|].
  rewrite !map_app in Hi. cbn [map fst] in Hi. apply in_app_or in Hi. destruct Hi as [Hi|Hi]; [contradiction|].
  apply in_app_or in Hi. destruct Hi as [Hi|[Hi|Hi]]; try contradiction. congruence.
Qed.

Lemma step_ids D g g' : wf D g -> collapse_step g = Some g' -> incl (map fst g') (map fst g).
Proof.
  intros W S. destruct (step_shape D g g' W S) as (pre & mid & post & inner & outer & dim & ys & ts & -> & -> & _).
  intros i. rewrite !map_app. cbn [map fst]. rewrite !map_app. cbn [map fst]. rewrite !in_app_iff. cbn [In]. rewrite !in_app_iff. cbn [In]. tauto.
Qed.

Lemma step_others D g g' : wf D g -> collapse_step g = Some g' -> forall i f ins, In (i, Other f ins) g -> In (i, Other f ins) g'.
Proof.
  intros W S i f ins. destruct (step_shape D g g' W S) as (pre & mid & post & inner & outer & dim & ys & ts & -> & -> & _).
  rewrite !in_app_iff. cbn [In]. rewrite !in_app_iff. cbn [In]. intros [?|[?|[?|[?|?]]]]; try discriminate; tauto.
Qed.

Lemma loop_ids D fuel : forall g, wf D g -> incl (map fst (collapse_loop fuel g)) (map fst g).
Proof.
  induction fuel as [|n IH]; intros g W; cbn [collapse_loop]; [apply incl_refl|].
  destruct (collapse_step g) as [g'|] eqn:S; [|apply incl_refl].
  eapply incl_tran; [apply IH; eapply step_wf; eassumption|]. eapply step_ids; eassumption.
Qed.

(** The whole pass. *)
Theorem collapse_preserves : forall D g, wf D g -> ops_ok g -> cats_used_once g ->
  forall e i v, In i (D ++ map fst (collapse g)) -> eval dflt g e i = Some v ->
  exists v', eval dflt (collapse g) e i = Some v' /\ T_eq v v'.
Proof.
  intros D g. unfold collapse. generalize (length g) as fuel. intros fuel. revert g.
  induction fuel as [|n IH]; intros g W O C e i v Hi Hv; cbn [collapse_loop] in *; [exists v; split; [exact Hv|apply T_eq_refl]|].
  destruct (collapse_step g) as [g'|] eqn:S; [|exists v; split; [exact Hv|apply T_eq_refl]].
  pose proof (step_wf D g g' W S) as W'.
  destruct (step_preserves D g g' W O C S e i v) as (v1 & H1 & E1); [|exact Hv|].
  { apply in_app_or in Hi. apply in_or_app. destruct Hi as [Hi|Hi]; [left; exact Hi|right].
    exact (loop_ids D n g' W' i Hi). }
  destruct (IH g' W' (step_ops D g g' W S O) (step_once D g g' W S C) e i v1 Hi H1) as (v2 & H2 & E2).
  exists v2. split; [exact H2|]. eapply T_eq_trans; eassumption.
Qed.

(** Every node that is not a concatenation survives the pass unchanged, so the graph's outputs
    are among the preserved values. *)
Theorem collapse_keeps_others : forall D g, wf D g ->
  forall i f ins, In (i, Other f ins) g -> In (i, Other f ins) (collapse g).
Proof.
  intros D g. unfold collapse. generalize (length g) as fuel. intros fuel. revert g.
  induction fuel as [|n IH]; intros g W i f ins Hi; cbn [collapse_loop]; [exact Hi|].
  destruct (collapse_step g) as [g'|] eqn:S; [|exact Hi].
  apply IH; [eapply step_wf; eassumption|]. eapply step_others; eassumption.
Qed.

(** The loop ends, with nothing left to collapse. *)
Theorem collapse_converges : forall D g, wf D g -> collapse_step (collapse g) = None.
Proof.
  intros D g W. unfold collapse.
  assert (K : forall fuel g, wf D g -> length g <= fuel -> collapse_step (collapse_loop fuel g) = None).
  { clear g W. induction fuel as [|n IH]; intros g W L; cbn [collapse_loop].
    - destruct g; [reflexivity|cbn [length] in L; lia].
    - destruct (collapse_step g) as [g'|] eqn:S; [|exact S].
      apply IH; [eapply step_wf; eassumption|]. pose proof (step_length D g g' W S). lia. }
  apply K; [exact W|lia].
Qed.
End Props.

Theorem C41_values : forall (A : Type) (dflt : A) D g, wf D g -> ops_ok g -> cats_used_once g ->
  forall e i v, In i (D ++ map fst (collapse g)) -> eval dflt g e i = Some v ->
  exists v', eval dflt (collapse g) e i = Some v' /\ shape v = shape v' /\ forall idx, at_ v idx = at_ v' idx.
Proof. intros A dflt. apply collapse_preserves. Qed.

Theorem C41_outputs_kept : forall (A : Type) D (g : list (@node A)), wf D g ->
  forall i f ins, In (i, Other f ins) g -> In (i, Other f ins) (collapse g).
Proof. intros A. apply collapse_keeps_others. Qed.

Theorem C41_converges : forall (A : Type) D (g : list (@node A)), wf D g -> collapse_step (collapse g) = None.
Proof. intros A. apply collapse_converges. Qed.

(** Values of a one-dimensional tensor. *)
Definition vec1 (l : list nat) : tensor := Tens [length l] (fun idx => nth (nth 0 idx 0) l 0).
Definition values (t : tensor) : list nat := map (fun i => at_ t [i]) (seq 0 (nth 0 (shape t) 0)).
Definition ident (ts : list (@tensor nat)) : option tensor := match ts with [t] => Some t | _ => None end.

Lemma ident_ok : forall ts ts' : list (@tensor nat), Forall2 T_eq ts ts' -> forall v, ident ts = Some v -> exists v', ident ts' = Some v' /\ T_eq v v'.
Proof.
  intros ts ts' F v. destruct F as [|t t' r r' Ht F]; [discriminate|]. destruct F; [|discriminate].
  cbn [ident]. intros [= <-]. exists t'. split; [reflexivity|exact Ht].
Qed.

(** Nested three levels: inputs 0,1,2,3; 4 = cat(0,1); 5 = cat(2,4); 6 = cat(5,3); 7 output. *)
Definition ex_graph : list (@node nat) :=
  [(4, Cat 0 [0; 1]); (5, Cat 0 [2; 4]); (6, Cat (0)%Z [5; 3]); (7, Other ident [6])].
Definition ex_env : @env nat := fun i => nth_error [vec1 [10]; vec1 [20; 21]; vec1 [30]; vec1 [40]] i.

Example C41_example : wf [0; 1; 2; 3] ex_graph /\ ops_ok ex_graph /\ cats_used_once ex_graph
  /\ length (collapse ex_graph) = 2
  /\ option_map values (eval 0 ex_graph ex_env 7) = Some [30; 10; 20; 21; 40]
  /\ option_map values (eval 0 (collapse ex_graph) ex_env 7) = Some [30; 10; 20; 21; 40].
Proof.
  split; [|split; [|split; [|repeat split; reflexivity]]].
  - cbn. unfold incl. cbn [In]. repeat split; lia.
  - unfold ops_ok, ex_graph. repeat apply Forall_cons; try exact I; [exact ident_ok|constructor].
  - intros i d ts H. cbn in H. destruct H as [E|[E|[E|[E|[]]]]]; try discriminate; injection E as <- _ _; vm_compute; lia.
Qed.

(** If the inner concatenation is listed twice, one copy of its data disappears. *)
Theorem C41_listed_twice_refuted : exists D (g : list (@node nat)) e i, wf D g /\ ops_ok g
  /\ In (i, Other ident [2]) g
  /\ option_map values (eval 0 g e i) = Some [5; 6; 5; 6]
  /\ option_map values (eval 0 (collapse g) e i) = Some [5; 6].
Proof.
  exists [0], [(1, Cat 0 [0]); (2, Cat (0)%Z [1; 1]); (3, Other ident [2])], (fun i => nth_error [vec1 [5; 6]] i), 3.
  split; [cbn; unfold incl; cbn [In]; repeat split; lia|].
  split; [unfold ops_ok; repeat apply Forall_cons; try exact I; [exact ident_ok|constructor]|].
  split; [right; right; left; reflexivity|]. split; reflexivity.
Qed.

(** Even when no operand list repeats an entry: a = cat(0,1), b = cat(a,2), c = cat(a,b).
    Collapsing b into c makes a appear twice. *)
Theorem C41_shared_inner_refuted : exists D (g : list (@node nat)) e i, wf D g /\ ops_ok g
  /\ (forall j d ts, In (j, Cat d ts) g -> NoDup ts)
  /\ In (i, Other ident [5]) g
  /\ option_map values (eval 0 g e i) = Some [1; 2; 1; 2; 3]
  /\ option_map values (eval 0 (collapse g) e i) = Some [1; 2; 3].
Proof.
  exists [0; 1; 2], [(3, Cat 0 [0; 1]); (4, Cat (0)%Z [3; 2]); (5, Cat (0)%Z [3; 4]); (6, Other ident [5])],
    (fun i => nth_error [vec1 [1]; vec1 [2]; vec1 [3]] i), 6.
  split; [cbn; unfold incl; cbn [In]; repeat split; lia|].
  split; [unfold ops_ok; repeat apply Forall_cons; try exact I; [exact ident_ok|constructor]|].
  split.
  - intros j d ts H. cbn in H. destruct H as [E|[E|[E|[E|[]]]]]; try discriminate; injection E as _ _ <-;
      repeat constructor; cbn [In]; lia.
  - split; [right; right; right; left; reflexivity|]. split; reflexivity.
Qed.

Print Assumptions C41_values.
Print Assumptions C41_outputs_kept.
Print Assumptions C41_converges.
Print Assumptions C41_listed_twice_refuted.
Print Assumptions C41_shared_inner_refuted.
