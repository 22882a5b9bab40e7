(** Proofs about module replacement on trees without shared objects. *)
From Coq Require Import List Bool String Arith Lia.
From Verif Require Import StateDict StateDictProps LayerReplace.
Import ListNotations.
Open Scope string_scope.

Section P.
Context {X : Type}.
Notation tree := (mtree X).

Lemma tree_ind2 (P : tree -> Prop) : (forall i c o ks, (forall x, In x ks -> P (snd x)) -> P (N i c o ks)) -> forall t, P t.
Proof.
  intros H. fix IH 1. intros [i c o ks]. apply H. induction ks as [|x ks IHk]; intros y [].
  - subst y. apply IH.
  - apply IHk, H0.
Qed.

Lemma mem_in i l : mem i l = true <-> In i l.
Proof. unfold mem. rewrite existsb_exists. split; [intros (x & Hx & E); apply Nat.eqb_eq in E; subst; exact Hx|intros H; exists i; split; [exact H|apply Nat.eqb_refl]]. Qed.
Lemma mem_notin i l : mem i l = false <-> ~ In i l.
Proof. rewrite <- mem_in. destruct (mem i l); split; intros; try congruence; exfalso; auto. Qed.

(** Distinct names of children, throughout. *)
Fixpoint names_ok (t : tree) : Prop :=
  match t with N _ _ _ ks => NoDup (map fst ks) /\ (fix all ks := match ks with [] => True | x :: ks => names_ok (snd x) /\ all ks end) ks end.
Lemma names_ok_iff i c o ks : names_ok (N i c o ks) <-> NoDup (map fst ks) /\ forall x, In x ks -> names_ok (snd x).
Proof.
  cbn [names_ok]. split; intros [A B]; (split; [exact A|]).
  - clear A. induction ks as [|y ks IH]; intros x []; destruct B as [B1 B2]; [subst; exact B1|apply IH; assumption].
  - clear A. induction ks as [|y ks IH]; [exact I|]. split; [apply B; left; reflexivity|apply IH; intros x Hx; apply B; right; exact Hx].
Qed.

(** The plain preorder listing. *)
Fixpoint preorder (p : path) (t : tree) : list (path * tree) :=
  match t with N _ _ _ ks => (p, t) :: flat_map (fun x => preorder (p ++ [fst x])%list (snd x)) ks end.

Lemma nodup_app_l {A} (a b : list A) : NoDup (a ++ b) -> NoDup a.
Proof. induction a; [constructor|]. cbn. intros H. inversion H; subst. constructor; [intros Hi; apply H2; apply in_or_app; auto|auto]. Qed.
Lemma nodup_app_r {A} (a b : list A) : NoDup (a ++ b) -> NoDup b.
Proof. induction a; [auto|]. cbn. intros H. inversion H; auto. Qed.
Lemma nodup_app_disj {A} (a b : list A) x : NoDup (a ++ b) -> In x a -> In x b -> False.
Proof. induction a; [intros _ []|]. cbn. intros H [<-|Ha] Hb; inversion H; subst; [apply H2; apply in_or_app; auto|eauto]. Qed.

Lemma named_modules_preorder : forall t seen p, NoDup (ids t) -> (forall i, In i (ids t) -> ~ In i seen) ->
  fst (named_modules seen p t) = preorder p t /\ (forall j, In j (snd (named_modules seen p t)) <-> In j (ids t) \/ In j seen).
Proof.
  refine (tree_ind2 _ _). intros i c o ks IH seen p ND Sep. cbn [named_modules preorder ids] in *.
  assert (E : mem i seen = false) by (apply mem_notin, Sep; left; reflexivity). rewrite E. cbn [fst snd].
  inversion ND as [|? ? Hi ND']; subst.
  match goal with |- context [fst (?g (i :: seen) ks)] => set (go := g) end.
  assert (G : forall l s, (forall x, In x l -> In x ks) -> NoDup (flat_map (fun x => ids (snd x)) l) -> (forall j, In j (flat_map (fun x => ids (snd x)) l) -> ~ In j s) ->
            fst (go s l) = flat_map (fun x => preorder (p ++ [fst x])%list (snd x)) l /\ (forall j, In j (snd (go s l)) <-> In j (flat_map (fun x => ids (snd x)) l) \/ In j s)).
  { induction l as [|x l IHl]; intros s Hl NDl Sl; [cbn; split; [reflexivity|tauto]|].
    cbn [go flat_map fst snd]. fold go. cbn [flat_map] in NDl, Sl.
    destruct (IH x (Hl x (or_introl eq_refl)) s (p ++ [fst x])%list (nodup_app_l _ _ NDl)) as [E1 E2].
    { intros j Hj. apply Sl, in_or_app. left; exact Hj. }
    destruct (IHl (snd (named_modules s (p ++ [fst x])%list (snd x)))) as [F1 F2].
    { intros y Hy. apply Hl. right; exact Hy. }
    { exact (nodup_app_r _ _ NDl). }
    { intros j Hj Hs. apply E2 in Hs. destruct Hs as [Hs|Hs]; [exact (nodup_app_disj _ _ _ NDl Hs Hj)|]. apply (Sl j); [apply in_or_app; right; exact Hj|exact Hs]. }
    rewrite E1, F1. split; [reflexivity|]. intros j. rewrite F2, E2, in_app_iff. tauto. }
  destruct (G ks (i :: seen) (fun _ h => h) ND') as [G1 G2].
  { intros j Hj [<-|Hs]; [exact (Hi Hj)|]. apply (Sep j); [right; exact Hj|exact Hs]. }
  rewrite G1. split; [reflexivity|]. intros j. rewrite G2. cbn [In]. tauto.
Qed.

Lemma fresh_kids_all : forall (ks : list (string * tree)) seen, NoDup (flat_map (fun x => ids (snd x)) ks) -> (forall x, In x ks -> ~ In (id_of (snd x)) seen) ->
  fresh_kids seen ks = ks.
Proof.
  induction ks as [|x ks IH]; intros seen ND Sep; [reflexivity|]. cbn [fresh_kids flat_map] in *.
  assert (E : mem (id_of (snd x)) seen = false) by (apply mem_notin, Sep; left; reflexivity). rewrite E. f_equal.
  assert (Hid : forall t : tree, In (id_of t) (ids t)) by (intros [? ? ? ?]; left; reflexivity).
  apply IH; [exact (nodup_app_r _ _ ND)|]. intros y Hy [F|F].
  - apply (nodup_app_disj _ _ (id_of (snd x)) ND); [apply Hid|]. rewrite F. apply in_flat_map. exists y. split; [exact Hy|apply Hid].
  - apply (Sep y); [right; exact Hy|exact F].
Qed.

(** Replacing the object [i] wherever it is. *)
Fixpoint put (i : nat) (f : tree -> tree) (t : tree) : tree :=
  match t with N j c o ks => if Nat.eqb j i then f (N j c o ks) else N j c o (map (fun x => (fst x, put i f (snd x))) ks) end.

Lemma map_id_in {A} (f : A -> A) l : (forall x, In x l -> f x = x) -> map f l = l.
Proof. induction l; cbn; intros H; [reflexivity|]. rewrite H by (left; reflexivity). f_equal. apply IHl. intros x Hx. apply H. right; exact Hx. Qed.
Lemma in_kid_ids (ks : list (string * tree)) x j : In x ks -> In j (ids (snd x)) -> In j (flat_map (fun x => ids (snd x)) ks).
Proof. intros. apply in_flat_map. eauto. Qed.
Lemma put_absent i f : forall t, ~ In i (ids t) -> put i f t = t.
Proof.
  refine (tree_ind2 _ _). intros j c o ks IH H. cbn [put ids] in *. destruct (Nat.eqb_spec j i) as [->|]; [exfalso; apply H; left; reflexivity|].
  f_equal. apply map_id_in. intros [m k] Hx. cbn [fst snd]. f_equal. apply (IH _ Hx). intros Hi. apply H. right. exact (in_kid_ids ks (m, k) i Hx Hi).
Qed.
Lemma write_absent pid n new : forall t : tree, ~ In pid (ids t) -> write pid n new t = t.
Proof.
  refine (tree_ind2 _ _). intros j c o ks IH H. cbn [write ids] in *. destruct (Nat.eqb_spec j pid) as [->|]; [exfalso; apply H; left; reflexivity|].
  f_equal. apply map_id_in. intros [m k] Hx. cbn [fst snd]. f_equal. apply (IH _ Hx). intros Hi. apply H. right. exact (in_kid_ids ks (m, k) pid Hx Hi).
Qed.

(** Members of the listing. *)
Lemma kids_walk (i : nat) c o (ks : list (string * tree)) n k r : NoDup (map fst ks) -> In (n, k) ks -> walk (N i c o ks) (n :: r) = walk k r.
Proof. intros ND H. cbn [walk kids_of]. rewrite (in_get ks n k ND H). reflexivity. Qed.
Lemma preorder_in : forall (t : tree) p q s, names_ok t -> In (q, s) (preorder p t) -> exists r, q = (p ++ r)%list /\ walk t r = Some s /\ In (id_of s) (ids t)
  /\ (r = [] \/ exists r' n u, r = (r' ++ [n])%list /\ walk t r' = Some u /\ In (n, s) (kids_of u)).
Proof.
  refine (tree_ind2 _ _). intros i c o ks IH p q s OK H.
  apply names_ok_iff in OK. destruct OK as [ND OK]. cbn [preorder] in H. destruct H as [H|H].
  - injection H as <- <-. exists []. split; [symmetry; apply app_nil_r|]. split; [reflexivity|]. split; [left; reflexivity|]. left; reflexivity.
  - apply in_flat_map in H. destruct H as (x & Hx & H). destruct (IH x Hx _ _ _ (OK x Hx) H) as (r & -> & Ew & Hi & Hr).
    exists (fst x :: r). rewrite <- app_assoc. split; [reflexivity|].
    assert (Hx' : In (fst x, snd x) ks) by (destruct x; exact Hx).
    split; [rewrite (kids_walk i c o ks _ _ r ND Hx'); exact Ew|]. split; [right; exact (in_kid_ids ks x _ Hx Hi)|].
    right. destruct Hr as [->|(r' & n & u & -> & Eu & Hn)].
    + exists [], (fst x), (N i c o ks). split; [reflexivity|]. split; [reflexivity|]. cbn [walk] in Ew. injection Ew as <-. exact Hx'.
    + exists (fst x :: r'), n, u. split; [reflexivity|]. split; [rewrite (kids_walk i c o ks _ _ r' ND Hx'); exact Eu|exact Hn].
Qed.
Lemma walk_id : forall r (t u : tree), walk t r = Some u -> In (id_of u) (ids t) /\ (forall x, In x (kids_of u) -> In (id_of (snd x)) (ids t)).
Proof.
  induction r as [|a r IH]; intros [i c o ks] u H.
  - cbn [walk] in H. injection H as <-. split; [left; reflexivity|]. intros x Hx. right. apply (in_kid_ids ks x _ Hx). destruct (snd x); left; reflexivity.
  - cbn [walk kids_of] in H. destruct (get ks a) as [k|] eqn:G; [|discriminate]. destruct (IH k u H) as [A B].
    assert (Hk : In (a, k) ks). { clear - G. induction ks as [|[b v] ks IHk]; [discriminate|]. cbn [get] in G. destruct (String.eqb_spec b a) as [->|]; [injection G as ->; left; reflexivity|right; apply IHk, G]. }
    split; [right; exact (in_kid_ids ks (a, k) _ Hk A)|]. intros x Hx. right. exact (in_kid_ids ks (a, k) _ Hk (B x Hx)).
Qed.

Lemma set_put (new : tree) s n : forall ks, NoDup (map fst ks) -> NoDup (flat_map (fun x => ids (snd x)) ks) -> In (n, s) ks ->
  set ks n new = map (fun x => (fst x, put (id_of s) (fun _ => new) (snd x))) ks.
Proof.
  assert (Hid : forall t : tree, In (id_of t) (ids t)) by (intros [? ? ? ?]; left; reflexivity).
  induction ks as [|[m k] ks IH]; intros ND NI H; [destruct H|]. cbn [set map fst snd flat_map] in *. inversion ND as [|? ? Hm ND']; subst.
  destruct (String.eqb_spec m n) as [->|Ne].
  - assert (k = s). { destruct H as [H|H]; [injection H as ->; reflexivity|]. exfalso. apply Hm. apply (in_map fst) in H. exact H. }
    subst k. f_equal; [f_equal; destruct s; cbn [put id_of]; rewrite Nat.eqb_refl; reflexivity|].
    symmetry. apply map_id_in. intros [m k] Hx. cbn [fst snd]. f_equal. apply put_absent. intros Hi.
    apply (nodup_app_disj _ _ (id_of s) NI); [apply Hid|]. exact (in_kid_ids ks (m, k) _ Hx Hi).
  - destruct H as [H|H]; [injection H as -> ->; congruence|]. f_equal.
    + f_equal. symmetry. apply put_absent. intros Hi. apply (nodup_app_disj _ _ (id_of s) NI Hi). exact (in_kid_ids ks (n, s) _ H (Hid s)).
    + apply IH; [exact ND'|exact (nodup_app_r _ _ NI)|exact H].
Qed.
Lemma kid_nodup (ks : list (string * tree)) x : NoDup (flat_map (fun x => ids (snd x)) ks) -> In x ks -> NoDup (ids (snd x)).
Proof. induction ks as [|y ks IH]; intros ND []; cbn [flat_map] in ND; [subst; exact (nodup_app_l _ _ ND)|apply IH; [exact (nodup_app_r _ _ ND)|assumption]]. Qed.
Lemma kid_unique (ks : list (string * tree)) x y j : NoDup (flat_map (fun x => ids (snd x)) ks) -> In x ks -> In y ks -> In j (ids (snd x)) -> In j (ids (snd y)) -> x = y.
Proof.
  induction ks as [|z ks IH]; intros ND Hx Hy Jx Jy; [destruct Hx|]. cbn [flat_map] in ND. destruct Hx as [<-|Hx], Hy as [<-|Hy]; [reflexivity| | |].
  - exfalso. exact (nodup_app_disj _ _ j ND Jx (in_kid_ids ks y j Hy Jy)).
  - exfalso. exact (nodup_app_disj _ _ j ND Jy (in_kid_ids ks x j Hx Jx)).
  - exact (IH (nodup_app_r _ _ ND) Hx Hy Jx Jy).
Qed.
Lemma write_put (new s : tree) n : forall r t u, names_ok t -> NoDup (ids t) -> walk t r = Some u -> In (n, s) (kids_of u) ->
  write (id_of u) n new t = put (id_of s) (fun _ => new) t.
Proof.
  assert (Hid : forall t : tree, In (id_of t) (ids t)) by (intros [? ? ? ?]; left; reflexivity).
  induction r as [|a r IH]; intros [i c o ks] u OK ND W Hs; apply names_ok_iff in OK; destruct OK as [NK OK]; cbn [ids] in ND; inversion ND as [|? ? Hi NI]; subst.
  - cbn [walk] in W. injection W as <-. cbn [id_of kids_of write put] in *. rewrite Nat.eqb_refl.
    assert (Es : (i =? id_of s)%nat = false). { apply Nat.eqb_neq. intros ->. apply Hi. exact (in_kid_ids ks (n, s) _ Hs (Hid s)). }
    rewrite Es. f_equal. rewrite <- (set_put new s n ks NK NI Hs). f_equal. apply map_id_in. intros [m k] Hx. cbn [fst snd]. f_equal.
    apply write_absent. intros Hj. apply Hi. exact (in_kid_ids ks (m, k) _ Hx Hj).
  - cbn [walk kids_of] in W. destruct (get ks a) as [k|] eqn:G; [|discriminate].
    assert (Hk : In (a, k) ks). { clear - G. induction ks as [|[b v] ks IHk]; [discriminate|]. cbn [get] in G. destruct (String.eqb_spec b a) as [->|]; [injection G as ->; left; reflexivity|right; apply IHk, G]. }
    destruct (walk_id r k u W) as [Au Bu]. specialize (Bu _ Hs). cbn [snd] in Bu. cbn [write put].
    assert (E1 : (i =? id_of u)%nat = false) by (apply Nat.eqb_neq; intros ->; apply Hi; exact (in_kid_ids ks (a, k) _ Hk Au)).
    assert (E2 : (i =? id_of s)%nat = false) by (apply Nat.eqb_neq; intros ->; apply Hi; exact (in_kid_ids ks (a, k) _ Hk Bu)).
    rewrite E1, E2. f_equal. apply map_ext_in. intros [m v] Hx. cbn [fst snd]. f_equal.
    destruct (in_dec Nat.eq_dec (id_of u) (ids v)) as [Hu|Hu].
    + assert ((m, v) = (a, k)) by (exact (kid_unique ks (m, v) (a, k) _ NI Hx Hk Hu Au)). injection H as -> ->.
      apply (IH k u); [exact (OK _ Hk)|exact (kid_nodup ks (a, k) NI Hk)|exact W|exact Hs].
    + rewrite (write_absent _ _ _ v Hu), put_absent; [reflexivity|]. intros Hj.
      assert ((m, v) = (a, k)) by (exact (kid_unique ks (m, v) (a, k) _ NI Hx Hk Hj Bu)). injection H as -> ->. exact (Hu Au).
Qed.

Definition subst1 (next : nat) (q : string) (m : tree) : tree := N next q (state_dict m) [].

(** One rewriter: the object is replaced in place. *)
Lemma preorder_ids : forall (t : tree) p i, In i (ids t) -> exists q s, In (q, s) (preorder p t) /\ id_of s = i.
Proof.
  refine (tree_ind2 _ _). intros j c o ks IH p i H. cbn [ids] in H. destruct H as [<-|H].
  - exists p, (N j c o ks). split; [left; reflexivity|reflexivity].
  - apply in_flat_map in H. destruct H as (x & Hx & H). destruct (IH x Hx (p ++ [fst x])%list i H) as (q & s & A & B). exists q, s. split; [|exact B].
    cbn [preorder]. right. apply in_flat_map. exists x. split; [exact Hx|exact A].
Qed.
Lemma put_ext_at (t s : tree) f g r : names_ok t -> NoDup (ids t) -> walk t r = Some s -> f s = g s -> put (id_of s) f t = put (id_of s) g t.
Proof.
  revert t s. induction r as [|a r IH]; intros [i c o ks] s OK ND W E.
  - cbn [walk] in W. injection W as <-. cbn [put id_of]. rewrite Nat.eqb_refl. exact E.
  - apply names_ok_iff in OK; destruct OK as [NK OK]; cbn [ids] in ND; inversion ND as [|? ? Hi NI]; subst.
    cbn [walk kids_of] in W. destruct (get ks a) as [k|] eqn:G; [|discriminate].
    assert (Hk : In (a, k) ks). { clear - G. induction ks as [|[b v] ks IHk]; [discriminate|]. cbn [get] in G. destruct (String.eqb_spec b a) as [->|]; [injection G as ->; left; reflexivity|right; apply IHk, G]. }
    destruct (walk_id r k s W) as [Au _]. cbn [put].
    assert (E1 : (i =? id_of s)%nat = false) by (apply Nat.eqb_neq; intros ->; apply Hi; exact (in_kid_ids ks (a, k) _ Hk Au)).
    rewrite E1. f_equal. apply map_ext_in. intros [m v] Hx. cbn [fst snd]. f_equal.
    destruct (in_dec Nat.eq_dec (id_of s) (ids v)) as [Hu|Hu].
    + assert ((m, v) = (a, k)) by (exact (kid_unique ks (m, v) (a, k) _ NI Hx Hk Hu Au)). injection H as -> ->.
      apply (IH k s); [exact (OK _ Hk)|exact (kid_nodup ks (a, k) NI Hk)|exact W|exact E].
    + rewrite !put_absent by exact Hu. reflexivity.
Qed.
Lemma replace_put next i q (t : tree) : names_ok t -> NoDup (ids t) -> i <> id_of t ->
  replace next i q t = Some (put i (subst1 next q) t).
Proof.
  intros OK ND Hr. unfold replace.
  destruct (named_modules_preorder t [] [] ND (fun _ _ h => h)) as [-> _].
  destruct (find (fun x => (id_of (snd x) =? i)%nat) (preorder [] t)) as [[p m]|] eqn:F.
  - destruct (find_some _ _ F) as [Hm Em]. cbn [snd] in Em. apply Nat.eqb_eq in Em. subst i.
    destruct (preorder_in t [] p m OK Hm) as (r & -> & W & _ & Hr'). cbn [app].
    destruct Hr' as [->|(r' & n & u & -> & Wu & Hn)].
    + cbn [walk] in W. injection W as <-. congruence.
    + unfold set_module. rewrite rev_app_distr. cbn [rev app]. rewrite rev_involutive, Wu. f_equal.
      rewrite (write_put _ m n r' t u OK ND Wu Hn). apply (put_ext_at t m _ _ (r' ++ [n])%list OK ND W). reflexivity.
  - f_equal. symmetry. apply put_absent. intros Hi. destruct (preorder_ids t [] i Hi) as (p & s & Hs & E). pose proof (find_none _ _ F _ Hs) as G. cbn [snd] in G. apply Nat.eqb_neq in G. congruence.
Qed.

(** ** Several rewriters *)
Definition is_target (rs : list (nat * string)) (i : nat) : option string := match find (fun x => Nat.eqb (fst x) i) rs with Some x => Some (snd x) | None => None end.
Inductive ptree := P (pcls : string) (pown : list (path * X)) (pkids : list (string * ptree)).
Fixpoint erase (t : tree) : ptree := match t with N _ c o ks => P c o (map (fun x => (fst x, erase (snd x))) ks) end.
(** The erased tree with all targets replaced (targets are never inside one another). *)
Fixpoint put_all (rs : list (nat * string)) (t : tree) : ptree :=
  match t with
  | N i c o ks => match is_target rs i with Some q => P q (state_dict t) [] | None => P c o (map (fun x => (fst x, put_all rs (snd x))) ks) end
  end.

Lemma put_ids i next q : forall (t : tree) j, In j (ids (put i (subst1 next q) t)) -> j = next \/ In j (ids t).
Proof.
  refine (tree_ind2 _ _). intros k c o ks IH j. cbn [put]. destruct (Nat.eqb_spec k i) as [->|Ne].
  - cbn. intros [->|[]]; left; reflexivity.
  - cbn [ids]. intros [->|H]; [right; left; reflexivity|]. apply in_flat_map in H. destruct H as (x & Hx & H). apply in_map_iff in Hx. destruct Hx as (y & <- & Hy). cbn [snd] in H.
    destruct (IH y Hy j H) as [->|Hj]; [left; reflexivity|right; right; exact (in_kid_ids ks y j Hy Hj)].
Qed.
Lemma put_nodup i next q : forall (t : tree), NoDup (ids t) -> ~ In next (ids t) -> NoDup (ids (put i (subst1 next q) t)).
Proof.
  refine (tree_ind2 _ _). intros k c o ks IH ND Hn. cbn [put]. destruct (Nat.eqb_spec k i) as [->|Ne]; [repeat constructor; intros []|].
  cbn [ids] in *. inversion ND as [|? ? Hk NI]; subst. constructor.
  - intros H. apply in_flat_map in H. destruct H as (x & Hx & H). apply in_map_iff in Hx. destruct Hx as (y & <- & Hy). cbn [snd] in H.
    destruct (put_ids _ _ _ _ _ H) as [->|Hj]; [apply Hn; left; reflexivity|]. apply Hk. exact (in_kid_ids ks y _ Hy Hj).
  - assert (Hn' : ~ In next (flat_map (fun x => ids (snd x)) ks)) by (intros H; apply Hn; right; exact H).
    clear ND Hn Hk. induction ks as [|x ks IHk]; [constructor|]. cbn [map flat_map snd fst] in *.
    assert (Ax : ~ In next (ids (snd x))) by (intros H; apply Hn', in_or_app; left; exact H).
    assert (NDx : NoDup (ids (put i (subst1 next q) (snd x)))) by (apply (IH x (or_introl eq_refl) (nodup_app_l _ _ NI) Ax)).
    assert (NDr := IHk (fun y Hy => IH y (or_intror Hy)) (nodup_app_r _ _ NI) (fun H => Hn' (in_or_app _ _ _ (or_intror H)))).
    destruct (in_dec Nat.eq_dec i (ids (snd x))) as [Hi|Hi].
    + (* the replaced object is in this child: the rest is unchanged *)
      assert (Er : map (fun x0 => (fst x0, put i (subst1 next q) (snd x0))) ks = ks).
      { apply map_id_in. intros [m v] Hv. cbn [fst snd]. f_equal. apply put_absent. intros Hj. apply (nodup_app_disj _ _ i NI Hi). exact (in_kid_ids ks (m, v) _ Hv Hj). }
      rewrite Er in *. clear - NDx NI Hn'. revert NDx NI Hn'. generalize (flat_map (fun x => ids (snd x)) ks) as B. intros B NDx NI Hn'.
      assert (D : forall j, In j (ids (put i (subst1 next q) (snd x))) -> ~ In j B).
      { intros j Hj HB. destruct (put_ids _ _ _ _ _ Hj) as [->|Hj']; [apply Hn', in_or_app; right; exact HB|exact (nodup_app_disj _ _ j NI Hj' HB)]. }
      pose proof (nodup_app_r _ _ NI) as NB. revert NDx D. generalize (ids (put i (subst1 next q) (snd x))). clear - NB. intros A. induction A as [|a A IHA]; intros NA D; [exact NB|].
      inversion NA; subst. cbn. constructor; [intros H; apply in_app_or in H; destruct H as [H|H]; [auto|exact (D a (or_introl eq_refl) H)]|apply IHA; [assumption|intros j Hj; apply D; right; exact Hj]].
    + rewrite (put_absent _ _ _ Hi) in *. revert NDr. set (B := flat_map _ (map _ ks)). intros NB.
      assert (D : forall j, In j (ids (snd x)) -> ~ In j B).
      { intros j Hj HB. unfold B in HB. apply in_flat_map in HB. destruct HB as (y & Hy & HB). apply in_map_iff in Hy. destruct Hy as (z & <- & Hz). cbn [snd] in HB.
        destruct (put_ids _ _ _ _ _ HB) as [->|Hj']; [exact (Ax Hj)|]. exact (nodup_app_disj _ _ j NI Hj (in_kid_ids ks z j Hz Hj')). }
      clearbody B. clear - NB D NDx. revert NDx D. generalize (ids (snd x)). intros A. induction A as [|a A IHA]; intros NA D; [exact NB|].
      inversion NA; subst. cbn. constructor; [intros H; apply in_app_or in H; destruct H as [H|H]; [auto|exact (D a (or_introl eq_refl) H)]|apply IHA; [assumption|intros j Hj; apply D; right; exact Hj]].
Qed.
Lemma put_names i next q : forall (t : tree), names_ok t -> names_ok (put i (subst1 next q) t).
Proof.
  refine (tree_ind2 _ _). intros k c o ks IH OK. apply names_ok_iff in OK. destruct OK as [ND OK]. cbn [put]. destruct (Nat.eqb_spec k i).
  - cbn. split; [constructor|exact I].
  - apply names_ok_iff. rewrite map_map. cbn [fst]. split; [exact ND|]. intros x Hx. apply in_map_iff in Hx. destruct Hx as (y & <- & Hy). cbn [snd]. apply (IH y Hy), OK, Hy.
Qed.

(** Separation of targets: no target strictly below another. *)
Fixpoint separate (rs : list (nat * string)) (t : tree) : Prop :=
  match t with
  | N i c o ks => match is_target rs i with
                  | Some _ => forall x j, In x ks -> In j (ids (snd x)) -> is_target rs j = None
                  | None => (fix all ks := match ks with [] => True | x :: ks => separate rs (snd x) /\ all ks end) ks
                  end
  end.

Lemma separate_iff rs i c o ks : separate rs (N i c o ks) <-> match is_target rs i with
  | Some _ => forall x j, In x ks -> In j (ids (snd x)) -> is_target rs j = None
  | None => forall x, In x ks -> separate rs (snd x) end.
Proof.
  cbn [separate]. destruct (is_target rs i); [reflexivity|]. split.
  - induction ks as [|y ks IH]; intros B x []; destruct B as [B1 B2]; [subst; exact B1|apply IH; assumption].
  - induction ks as [|y ks IH]; intros B; [exact I|]. split; [apply B; left; reflexivity|apply IH; intros x Hx; apply B; right; exact Hx].
Qed.
Lemma target_in rs i q : is_target rs i = Some q -> In (i, q) rs.
Proof. unfold is_target. destruct (find _ rs) as [[j r]|] eqn:F; [|discriminate]. intros E. injection E as <-. apply find_some in F. destruct F as [F E]. cbn [fst] in E. apply Nat.eqb_eq in E. subst. exact F. Qed.
Lemma target_none rs i : ~ In i (map fst rs) -> is_target rs i = None.
Proof. intros H. destruct (is_target rs i) as [q|] eqn:E; [|reflexivity]. apply target_in in E. exfalso. apply H. apply (in_map fst) in E. exact E. Qed.
Lemma target_cons i q rs j : is_target ((i, q) :: rs) j = if Nat.eqb i j then Some q else is_target rs j.
Proof. unfold is_target. cbn [find fst snd]. destruct (Nat.eqb i j); reflexivity. Qed.

Lemma put_all_local rs rs' : forall t : tree, (forall j, In j (ids t) -> is_target rs j = is_target rs' j) -> put_all rs t = put_all rs' t.
Proof.
  refine (tree_ind2 _ _). intros i c o ks IH H. cbn [put_all]. rewrite (H i (or_introl eq_refl)). destruct (is_target rs' i); [reflexivity|].
  f_equal. apply map_ext_in. intros x Hx. f_equal. apply (IH x Hx). intros j Hj. apply H. right. exact (in_kid_ids ks x j Hx Hj).
Qed.
Lemma separate_local rs rs' : forall t : tree, (forall j, In j (ids t) -> is_target rs j = is_target rs' j) -> separate rs t -> separate rs' t.
Proof.
  refine (tree_ind2 _ _). intros i c o ks IH H S0. apply separate_iff. apply separate_iff in S0. rewrite <- (H i (or_introl eq_refl)). destruct (is_target rs i).
  - intros x j Hx Hj. rewrite <- (H j (or_intror (in_kid_ids ks x j Hx Hj))). exact (S0 x j Hx Hj).
  - intros x Hx. apply (IH x Hx); [|exact (S0 x Hx)]. intros j Hj. apply H. right. exact (in_kid_ids ks x j Hx Hj).
Qed.
Lemma put_all_none rs : forall t : tree, (forall j, In j (ids t) -> is_target rs j = None) -> put_all rs t = erase t.
Proof.
  refine (tree_ind2 _ _). intros i c o ks IH H. cbn [put_all erase]. rewrite (H i (or_introl eq_refl)).
  f_equal. apply map_ext_in. intros x Hx. f_equal. apply (IH x Hx). intros j Hj. apply H. right. exact (in_kid_ids ks x j Hx Hj).
Qed.

Lemma put_step i q rs next : is_target rs next = None -> ~ In i (map fst rs) -> forall t : tree, separate ((i, q) :: rs) t ->
  put_all rs (put i (subst1 next q) t) = put_all ((i, q) :: rs) t /\ separate rs (put i (subst1 next q) t).
Proof.
  intros Hn Hi. refine (tree_ind2 _ _). intros j c o ks IH S0. apply separate_iff in S0. rewrite target_cons in S0. cbn [put put_all]. rewrite target_cons, (Nat.eqb_sym i j) in *.
  destruct (Nat.eqb_spec j i) as [->|Ne].
  - unfold subst1. split; [cbn [put_all map]; rewrite Hn; reflexivity|]. apply separate_iff. rewrite Hn. intros x [].
  - destruct (is_target rs j) as [q'|] eqn:T.
    + assert (E : map (fun x => (fst x, put i (subst1 next q) (snd x))) ks = ks).
      { apply map_id_in. intros [m v] Hx. cbn [fst snd]. f_equal. apply put_absent. intros Hj. pose proof (S0 (m, v) i Hx Hj) as F. rewrite target_cons, Nat.eqb_refl in F. discriminate. }
      rewrite E. cbn [put_all]. rewrite T. split; [reflexivity|]. apply separate_iff. rewrite T. intros x k Hx Hk. pose proof (S0 x k Hx Hk) as F. rewrite target_cons in F. destruct (i =? k)%nat; [discriminate|exact F].
    + cbn [put_all]. rewrite T. split.
      * f_equal. rewrite map_map. apply map_ext_in. intros x Hx. cbn [fst snd]. f_equal. apply (IH x Hx (S0 x Hx)).
      * apply separate_iff. rewrite T. intros x Hx. apply in_map_iff in Hx. destruct Hx as (y & <- & Hy). cbn [snd]. apply (IH y Hy (S0 y Hy)).
Qed.

Lemma apply_all_put : forall rs next (t : tree), names_ok t -> NoDup (ids t) -> (forall j, In j (ids t) -> j < next) -> (forall j, In j (map fst rs) -> j < next /\ j <> id_of t) ->
  NoDup (map fst rs) -> separate rs t -> exists t', apply_all next rs t = Some t' /\ erase t' = put_all rs t /\ names_ok t' /\ NoDup (ids t') /\ id_of t' = id_of t.
Proof.
  induction rs as [|[i q] rs IH]; intros next t OK ND Hb Hr NR S0.
  - exists t. split; [reflexivity|]. split; [symmetry; apply put_all_none; reflexivity|]. split; [exact OK|split; [exact ND|reflexivity]].
  - cbn [apply_all]. cbn [map fst] in Hr, NR. inversion NR as [|? ? Hi NR']; subst. destruct (Hr i (or_introl eq_refl)) as [Hin Hit].
    rewrite (replace_put next i q t OK ND Hit).
    assert (Hn : ~ In next (ids t)) by (intros H; apply Hb in H; lia).
    assert (Hnr : is_target rs next = None) by (apply target_none; intros H; destruct (Hr next (or_intror H)); lia).
    destruct (put_step i q rs next Hnr Hi t S0) as [E S1].
    destruct (IH (S next) (put i (subst1 next q) t)) as (t' & A & B & O1 & N1 & I1).
    + apply put_names, OK.
    + apply put_nodup; assumption.
    + intros j Hj. destruct (put_ids _ _ _ _ _ Hj) as [->|Hj']; [lia|]. apply Hb in Hj'. lia.
    + intros j Hj. destruct (Hr j (or_intror Hj)) as [A B]. split; [lia|].
      destruct t as [k c o ks]. cbn [put id_of] in *. destruct (Nat.eqb_spec k i) as [->|]; [congruence|]. exact B.
    + exact NR'.
    + exact S1.
    + exists t'. split; [exact A|]. split; [rewrite B; exact E|]. split; [exact O1|]. split; [exact N1|]. rewrite I1. destruct t as [k c o ks]. cbn [put id_of] in *. destruct (Nat.eqb_spec k i) as [->|]; [congruence|reflexivity].
Qed.

(** ** The structural description *)
Lemma rewriters_app lm (a b : list tree) : rewriters lm (a ++ b) = (rewriters lm a ++ rewriters lm b)%list.
Proof. induction a as [|m a IH]; [reflexivity|]. cbn [app rewriters]. rewrite IH. destruct (get lm (cls_of m)) as [[q|]|]; reflexivity. Qed.
Lemma target_app a b j : is_target (a ++ b)%list j = match is_target a j with Some q => Some q | None => is_target b j end.
Proof. unfold is_target. induction a as [|x a IH]; [reflexivity|]. cbn [app find]. destruct (Nat.eqb (fst x) j); [reflexivity|exact IH]. Qed.

Section Spec.
Variables (lm : layer_map) (black : list path).
Definition targets (fuel : nat) (p : path) (t : tree) : list (nat * string) := rewriters lm (find_module lm black fuel p t).
Definition kid_targets (fuel : nat) (p : path) (x : string * tree) : list (nat * string) :=
  if existsb (path_eqb (p ++ [fst x])%list) black then [] else targets fuel (p ++ [fst x])%list (snd x).
Lemma targets_kids fuel p i c o ks : NoDup (ids (N i c o ks)) -> existsb (String.eqb c) (keys lm) = false ->
  targets (S fuel) p (N i c o ks) = flat_map (kid_targets fuel p) ks.
Proof.
  intros ND E. unfold targets. cbn [find_module cls_of]. rewrite E. unfold named_children. cbn [kids_of].
  cbn [ids] in ND. inversion ND as [|? ? _ NI]; subst. rewrite (fresh_kids_all ks [] NI (fun _ _ h => h)). clear ND NI E.
  induction ks as [|x ks IH]; [reflexivity|]. cbn [flat_map]. rewrite rewriters_app, IH. f_equal. unfold kid_targets, targets. destruct (existsb _ black); reflexivity.
Qed.
Lemma targets_in : forall fuel p (t : tree) j, In j (map fst (targets fuel p t)) -> NoDup (ids t) -> In j (ids t).
Proof.
  induction fuel as [|fuel IH]; intros p t j H ND; [destruct H|]. destruct t as [i c o ks].
  destruct (existsb (String.eqb c) (keys lm)) eqn:E.
  - unfold targets in H. cbn [find_module cls_of] in H. rewrite E in H. cbn [rewriters cls_of id_of] in H. destruct (get lm c) as [[q|]|]; cbn in H; try contradiction. destruct H as [<-|[]]. left; reflexivity.
  - rewrite (targets_kids fuel p i c o ks ND E) in H. cbn [ids] in ND. inversion ND as [|? ? _ NI]; subst. right.
    apply in_map_iff in H. destruct H as (y & <- & H). apply in_flat_map in H. destruct H as (x & Hx & H). unfold kid_targets in H. destruct (existsb (path_eqb _) black); [destruct H|].
    apply (in_kid_ids ks x _ Hx). apply (IH (p ++ [fst x])%list); [apply in_map; exact H|exact (kid_nodup ks x NI Hx)].
Qed.
Lemma kid_targets_in fuel p x j : In j (map fst (kid_targets fuel p x)) -> NoDup (ids (snd x)) -> In j (ids (snd x)).
Proof. unfold kid_targets. destruct (existsb _ black); [intros []|]. apply targets_in. Qed.

Lemma kid_target_local fuel p : forall (ks : list (string * tree)) x j, NoDup (flat_map (fun x => ids (snd x)) ks) -> In x ks -> In j (ids (snd x)) ->
  is_target (flat_map (kid_targets fuel p) ks) j = is_target (kid_targets fuel p x) j.
Proof.
  induction ks as [|y ks IH]; intros x j ND Hx Hj; [destruct Hx|]. cbn [flat_map] in *. rewrite target_app.
  destruct Hx as [->|Hx].
  - destruct (is_target (kid_targets fuel p x) j); [reflexivity|]. apply target_none. intros H. apply in_map_iff in H. destruct H as (z & <- & H). apply in_flat_map in H. destruct H as (w & Hw & H).
    apply (nodup_app_disj _ _ (fst z) ND Hj). apply (in_kid_ids ks w _ Hw). apply (kid_targets_in fuel p); [apply in_map; exact H|exact (kid_nodup ks w (nodup_app_r _ _ ND) Hw)].
  - rewrite (target_none (kid_targets fuel p y)).
    + apply IH; [exact (nodup_app_r _ _ ND)|exact Hx|exact Hj].
    + intros H. apply (kid_targets_in fuel p) in H; [|exact (nodup_app_l _ _ ND)]. exact (nodup_app_disj _ _ j ND H (in_kid_ids ks x j Hx Hj)).
Qed.
Lemma nodup_app_intro {A} (a b : list A) : NoDup a -> NoDup b -> (forall x, In x a -> ~ In x b) -> NoDup (a ++ b).
Proof. induction a as [|x a IH]; intros Na Nb D; [exact Nb|]. inversion Na; subst. cbn. constructor; [intros H; apply in_app_or in H; destruct H as [H|H]; [auto|exact (D x (or_introl eq_refl) H)]|apply IH; auto; intros y Hy; apply D; right; exact Hy]. Qed.
Lemma targets_nodup : forall fuel p (t : tree), NoDup (ids t) -> NoDup (map fst (targets fuel p t)).
Proof.
  induction fuel as [|fuel IH]; intros p t ND; [constructor|]. destruct t as [i c o ks].
  destruct (existsb (String.eqb c) (keys lm)) eqn:E.
  - unfold targets. cbn [find_module cls_of]. rewrite E. cbn [rewriters cls_of id_of]. destruct (get lm c) as [[q|]|]; repeat constructor. intros [].
  - rewrite (targets_kids fuel p i c o ks ND E). cbn [ids] in ND. inversion ND as [|? ? _ NI]; subst. clear ND E.
    induction ks as [|x ks IHk]; [constructor|]. cbn [flat_map] in *. rewrite map_app. apply nodup_app_intro.
    + unfold kid_targets. destruct (existsb _ black); [constructor|]. apply IH. exact (nodup_app_l _ _ NI).
    + apply IHk. exact (nodup_app_r _ _ NI).
    + intros j Hj Hk. apply kid_targets_in in Hj; [|exact (nodup_app_l _ _ NI)]. apply (nodup_app_disj _ _ j NI Hj).
      apply in_map_iff in Hk. destruct Hk as (z & <- & H). apply in_flat_map in H. destruct H as (w & Hw & H).
      apply (in_kid_ids ks w _ Hw). apply (kid_targets_in fuel p); [apply in_map; exact H|exact (kid_nodup ks w (nodup_app_r _ _ NI) Hw)].
Qed.
Lemma targets_root fuel p i c o ks : NoDup (ids (N i c o ks)) -> existsb (String.eqb c) (keys lm) = false -> ~ In i (map fst (targets fuel p (N i c o ks))).
Proof.
  destruct fuel; [intros _ _ []|]. intros ND E. rewrite (targets_kids fuel p i c o ks ND E). cbn [ids] in ND. inversion ND as [|? ? Hi NI]; subst. intros H. apply Hi.
  apply in_map_iff in H. destruct H as (z & <- & H). apply in_flat_map in H. destruct H as (w & Hw & H).
  apply (in_kid_ids ks w _ Hw). apply (kid_targets_in fuel p); [apply in_map; exact H|exact (kid_nodup ks w NI Hw)].
Qed.

(** What the user asked for: supported layers outside of the blacklist become their quantized
    counterparts with the tensors of the layer; nothing is looked for inside a supported layer or
    a blacklisted module. *)
Fixpoint quantized (p : path) (t : tree) : ptree :=
  match t with
  | N _ c o ks =>
      match get lm c with
      | Some (Some q) => P q (state_dict t) []
      | Some None => erase t
      | None => P c o (map (fun x => (fst x, if existsb (path_eqb (p ++ [fst x])%list) black then erase (snd x) else quantized (p ++ [fst x])%list (snd x))) ks)
      end
  end.
Lemma in_keys_get c : existsb (String.eqb c) (keys lm) = true <-> get lm c <> None.
Proof.
  rewrite existsb_exists, get_in. split; [intros (x & Hx & E); apply String.eqb_eq in E; subst; exact Hx|intros H; exists c; split; [exact H|apply String.eqb_refl]].
Qed.
Lemma put_all_quantized : forall (t : tree) fuel p, NoDup (ids t) -> depth t <= fuel ->
  put_all (targets fuel p t) t = quantized p t /\ separate (targets fuel p t) t.
Proof.
  refine (tree_ind2 _ _). intros i c o ks IH fuel p ND Hf. destruct fuel as [|fuel]; [cbn [depth] in Hf; lia|].
  destruct (existsb (String.eqb c) (keys lm)) eqn:E.
  - pose proof (proj1 (in_keys_get c) E) as G. unfold targets. cbn [find_module cls_of]. rewrite E. cbn [rewriters cls_of id_of quantized].
    destruct (get lm c) as [[q|]|]; [| |congruence].
    + cbn [put_all]. rewrite target_cons, Nat.eqb_refl. split; [reflexivity|]. apply separate_iff. rewrite target_cons, Nat.eqb_refl.
      intros x j Hx Hj. rewrite target_cons. destruct (Nat.eqb_spec i j) as [->|]; [|reflexivity]. exfalso. cbn [ids] in ND. inversion ND as [|? ? Hi _]; subst. apply Hi. exact (in_kid_ids ks x j Hx Hj).
    + split; [apply put_all_none; reflexivity|]. clear. generalize (N i c o ks) as t. refine (tree_ind2 _ _). intros j c' o' ks' IH. apply separate_iff. exact IH.
  - assert (G : get lm c = None). { destruct (get lm c) eqn:G; [|reflexivity]. rewrite (proj2 (in_keys_get c)) in E; [discriminate|congruence]. }
    pose proof (target_none _ _ (targets_root (S fuel) p i c o ks ND E)) as T. rewrite (targets_kids fuel p i c o ks ND E) in *. cbn [quantized put_all]. rewrite G, T.
    cbn [ids] in ND. inversion ND as [|? ? _ NI]; subst.
    assert (D : forall x, In x ks -> depth (snd x) <= fuel).
    { intros x Hx. cbn [depth] in Hf. assert (M : depth (snd x) <= list_max (map (fun x => depth (snd x)) ks)); [|lia].
      pose proof (proj1 (list_max_le (map (fun x => depth (snd x)) ks) _) (le_n _)) as F. rewrite Forall_forall in F. apply F, in_map_iff. exists x. split; [reflexivity|exact Hx]. }
    split.
    + f_equal. apply map_ext_in. intros x Hx. f_equal.
      rewrite (put_all_local _ (kid_targets fuel p x)); [|intros j Hj; apply kid_target_local; assumption].
      unfold kid_targets. destruct (existsb _ black); [apply put_all_none; reflexivity|]. apply (IH x Hx fuel _ (kid_nodup ks x NI Hx) (D x Hx)).
    + apply separate_iff. rewrite T. intros x Hx. apply (separate_local (kid_targets fuel p x)).
      * intros j Hj. symmetry. apply kid_target_local; assumption.
      * unfold kid_targets. destruct (existsb _ black).
        -- clear. generalize (snd x) as t. refine (tree_ind2 _ _). intros j c' o' ks' IH. apply separate_iff. exact IH.
        -- apply (IH x Hx fuel _ (kid_nodup ks x NI Hx) (D x Hx)).
Qed.
Lemma layerwise_quantized (t : tree) : names_ok t -> NoDup (ids t) -> get lm (cls_of t) = None ->
  exists t', layerwise lm black t = Some t' /\ erase t' = quantized [] t /\ names_ok t' /\ NoDup (ids t').
Proof.
  intros OK ND R. unfold layerwise. fold (targets (depth t) [] t).
  assert (E : existsb (String.eqb (cls_of t)) (keys lm) = false). { destruct (existsb _ (keys lm)) eqn:E; [|reflexivity]. apply in_keys_get in E. congruence. }
  destruct (put_all_quantized t (depth t) [] ND (le_n _)) as [A B].
  assert (Hb : forall j, In j (ids t) -> j < next_id t).
  { intros j Hj. unfold next_id. pose proof (proj1 (list_max_le (ids t) _) (le_n _)) as F. rewrite Forall_forall in F. specialize (F j Hj). lia. }
  destruct (apply_all_put (targets (depth t) [] t) (next_id t) t OK ND Hb) as (t' & C1 & C2 & C3 & C4 & _).
  - intros j Hj. split; [apply Hb; exact (targets_in _ _ _ _ Hj ND)|]. intros ->. destruct t as [i c o ks]. exact (targets_root _ _ i c o ks ND E Hj).
  - apply targets_nodup, ND.
  - exact B.
  - exists t'. split; [exact C1|]. split; [rewrite C2; exact A|]. split; assumption.
Qed.
End Spec.
End P.
Arguments ptree X : clear implicits.
