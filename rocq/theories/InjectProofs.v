(** Proofs about Inject.v: the loop of [__getattr__] against a recursive evaluation. *)
From Coq Require Import List Bool String Arith Lia.
From Verif Require Import StateDict StateDictProps Inject.
Import ListNotations.
Open Scope string_scope.

(** ** Dictionaries *)
Lemma get_set_if {A} (d : dict A) a v b : get (set d a v) b = if String.eqb a b then Some v else get d b.
Proof. destruct (String.eqb_spec a b) as [->|N]; [apply get_set_same|apply get_set_other; exact N]. Qed.
Lemma keys_set_present {A} (d : dict A) k v : get d k <> None -> keys (set d k v) = keys d.
Proof.
  induction d as [|[a u] d IH]; cbn [get set keys map fst]; [congruence|]. destruct (String.eqb a k); [reflexivity|].
  intros H. cbn [map fst]. f_equal. exact (IH H).
Qed.
Lemma dict_ext {A} (d e : dict A) : NoDup (keys d) -> keys d = keys e -> (forall k, get d k = get e k) -> d = e.
Proof.
  revert e. induction d as [|[a u] d IH]; intros [|[b w] e] ND K G; try discriminate; [reflexivity|].
  cbn [keys map fst] in *. injection K as -> K. inversion ND as [|? ? NI ND']; subst.
  pose proof (G b) as Gb. cbn [get] in Gb. rewrite String.eqb_refl in Gb. injection Gb as ->. f_equal. apply IH; [exact ND'|exact K|].
  intros k. destruct (String.eqb_spec b k) as [->|N].
  - rewrite (proj2 (get_notin d k) NI). fold (keys d) in NI. symmetry. apply get_notin. unfold keys. rewrite <- K. exact NI.
  - pose proof (G k) as Gk. cbn [get] in Gk. rewrite (proj2 (String.eqb_neq b k) N) in Gk. exact Gk.
Qed.
Lemma set_nodup {A} (d : dict A) k v : NoDup (keys d) -> NoDup (keys (set d k v)).
Proof.
  intros ND. destruct (get d k) eqn:G; [rewrite keys_set_present by congruence; exact ND|].
  assert (E : keys (set d k v) = (keys d ++ [k])%list).
  { clear ND. induction d as [|[a u] d IH]; [reflexivity|]. cbn [get set keys map fst app] in *. destruct (String.eqb a k) eqn:X; [discriminate|]. cbn [map fst]. f_equal. exact (IH G). }
  rewrite E. apply get_notin in G. revert ND G. generalize (keys d). clear. intros l. induction l as [|x l IH]; intros ND G; cbn [app]; [repeat constructor; tauto|].
  inversion ND as [|? ? NI ND']; subst. constructor.
  - rewrite in_app_iff. intros [H|[H|[]]]; [exact (NI H)|]. apply G. left. symmetry. exact H.
  - apply IH; [exact ND'|]. intros H. apply G. right. exact H.
Qed.
Lemma mem_in x l : mem x l = true <-> In x l.
Proof. unfold mem. rewrite existsb_exists. split; [intros (y & H & E); apply String.eqb_eq in E; subst; exact H|intros H; exists x; split; [exact H|apply String.eqb_refl]]. Qed.
Lemma mem_cons x y l : mem x (y :: l) = String.eqb x y || mem x l.
Proof. reflexivity. Qed.

Section Spec.
Context {V : Type}.
Variable self : V.
Implicit Types (d : dict (spec V)) (sp new old : spec V).

(** ** What the value of an attribute is
    [has d a v]: attribute [a] of the injector [d] is [v].  [builds d a s v]: the definition [s] of [a]
    gives [v]; a class is instantiated unless the name asks for the class, and [this] is followed.
    [gives d n h l kw]: the arguments [l], numbered from [n], resolve to [kw]; an argument the injector
    does not have is left out when it has a default. *)
Inductive has d : string -> V -> Prop :=
  | has_self : has d "__self__" self
  | has_attr a s v : a <> "__self__" -> get d a = Some s -> builds d a s v -> has d a v
with builds d : string -> spec V -> V -> Prop :=
  | builds_val a s kw v : gives d 1 (have_defaults s) (args s) kw -> run s kw = Val v -> builds d a s v
  | builds_class a s kw v i : gives d 1 (have_defaults s) (args s) kw -> run s kw = Class v i -> nested s = true \/ endswith a "_class" = true -> builds d a s v
  | builds_instance a s kw v i w : gives d 1 (have_defaults s) (args s) kw -> run s kw = Class v i -> nested s = false -> endswith a "_class" = false -> builds d a i w -> builds d a s w
  | builds_this a s kw t w : gives d 1 (have_defaults s) (args s) kw -> run s kw = This t -> builds d a t w -> builds d a s w
with gives d : nat -> nat -> list string -> list (string * V) -> Prop :=
  | gives_nil n h : gives d n h [] []
  | gives_arg n h x v l kw : has d x v -> gives d (S n) h l kw -> gives d n h (x :: l) ((x, v) :: kw)
  | gives_default n h x l kw : x <> "__self__" -> get d x = None -> h <= n -> gives d (S n) h l kw -> gives d n h (x :: l) kw.
Scheme has_mut := Induction for has Sort Prop
with builds_mut := Induction for builds Sort Prop
with gives_mut := Induction for gives Sort Prop.
Combined Scheme spec_mut from has_mut, builds_mut, gives_mut.

(** ** The same by recursion on a bound *)
Section Eval.
Variable d : dict (spec V).
Fixpoint gvs (f : string -> option V) (n h : nat) (l : list string) : option (list (string * V)) :=
  match l with
  | [] => Some []
  | x :: l =>
      match f x with
      | Some v => option_map (cons (x, v)) (gvs f (S n) h l)
      | None => match get d x with
                | Some _ => None
                | None => if (h <=? n)%nat && negb (String.eqb x "__self__") then gvs f (S n) h l else None
                end
      end
  end.
Fixpoint bld (n : nat) (a : string) (s : spec V) : option V :=
  match n with
  | O => None
  | S n =>
      match gvs (fun x => if String.eqb x "__self__" then Some self else match get d x with Some s => bld n x s | None => None end) 1 (have_defaults s) (args s) with
      | None => None
      | Some kw =>
          match run s kw with
          | Raise => None
          | Val v => Some v
          | Class v i => if nested s || endswith a "_class" then Some v else bld n a i
          | This t => bld n a t
          end
      end
  end.
Definition hv (n : nat) (x : string) : option V := if String.eqb x "__self__" then Some self else match get d x with Some s => bld n x s | None => None end.
Lemma bld_S n a s : bld (S n) a s = match gvs (hv n) 1 (have_defaults s) (args s) with
      | None => None
      | Some kw => match run s kw with Raise => None | Val v => Some v | Class v i => if nested s || endswith a "_class" then Some v else bld n a i | This t => bld n a t end
      end.
Proof. reflexivity. Qed.

Lemma gvs_mono f g : (forall x v, f x = Some v -> g x = Some v) -> (forall x, get d x = None -> x <> "__self__" -> g x = None) ->
  forall l n h kw, gvs f n h l = Some kw -> gvs g n h l = Some kw.
Proof.
  intros M Z. induction l as [|x l IH]; intros n h kw H; cbn [gvs] in *; [exact H|].
  destruct (f x) as [v|] eqn:E.
  - rewrite (M _ _ E). destruct (gvs f (S n) h l) as [k|] eqn:K; [|discriminate]. rewrite (IH _ _ _ K). exact H.
  - destruct (get d x) eqn:G; [discriminate|]. destruct (h <=? n)%nat eqn:Hn; [|discriminate]. destruct (String.eqb x "__self__") eqn:Es; [discriminate|].
    apply String.eqb_neq in Es. rewrite (Z x G Es). cbn [andb negb] in *. exact (IH _ _ _ H).
Qed.
Lemma hv_missing n x : get d x = None -> x <> "__self__" -> hv n x = None.
Proof. intros G N. unfold hv. rewrite (proj2 (String.eqb_neq _ _) N), G. reflexivity. Qed.
Lemma hv_lift m n : (forall a s v, bld m a s = Some v -> bld n a s = Some v) -> forall x v, hv m x = Some v -> hv n x = Some v.
Proof. intros H x v. unfold hv. destruct (String.eqb x "__self__"); [tauto|]. destruct (get d x); [apply H|discriminate]. Qed.
Lemma bld_mono n : forall m a s v, (n <= m)%nat -> bld n a s = Some v -> bld m a s = Some v.
Proof.
  induction n as [|n IH]; intros m a s v Hm H; [discriminate|]. destruct m as [|m]; [lia|]. rewrite bld_S in *.
  destruct (gvs (hv n) 1 (have_defaults s) (args s)) as [kw|] eqn:K; [|discriminate].
  rewrite (gvs_mono (hv n) (hv m) (hv_lift n m (fun a s v => IH m a s v ltac:(lia))) (fun x G N => hv_missing m x G N) _ _ _ _ K).
  destruct (run s kw) as [w|w i|t|]; [exact H| |apply IH; [lia|exact H]|exact H]. destruct (nested s || endswith a "_class"); [exact H|apply IH; [lia|exact H]].
Qed.
Lemma hv_mono n m x v : (n <= m)%nat -> hv n x = Some v -> hv m x = Some v.
Proof. intros L. apply hv_lift. intros a s w. apply bld_mono. exact L. Qed.

Lemma gvs_sound f : (forall x v, f x = Some v -> has d x v) -> forall l n h kw, gvs f n h l = Some kw -> gives d n h l kw.
Proof.
  intros M. induction l as [|x l IH]; intros n h kw H; cbn [gvs] in H; [injection H as <-; constructor|].
  destruct (f x) as [v|] eqn:E.
  - destruct (gvs f (S n) h l) as [k|] eqn:K; [|discriminate]. injection H as <-. constructor; [apply M; exact E|apply IH; exact K].
  - destruct (get d x) eqn:G; [discriminate|]. destruct (h <=? n)%nat eqn:Hn; [|discriminate]. destruct (String.eqb x "__self__") eqn:Es; [discriminate|].
    apply String.eqb_neq in Es. apply Nat.leb_le in Hn. cbn [andb negb] in H. apply gives_default; [exact Es|exact G|exact Hn|apply IH; exact H].
Qed.
Lemma bld_sound n : (forall a s v, bld n a s = Some v -> builds d a s v) /\ (forall x v, hv n x = Some v -> has d x v).
Proof.
  assert (L : forall n, (forall a s v, bld n a s = Some v -> builds d a s v) -> forall x v, hv n x = Some v -> has d x v).
  { intros m B x v H. unfold hv in H. destruct (String.eqb_spec x "__self__") as [->|Ns]; [injection H as <-; constructor|].
    destruct (get d x) as [s|] eqn:G; [|discriminate]. exact (has_attr d x s v Ns G (B x s v H)). }
  assert (B : forall a s v, bld n a s = Some v -> builds d a s v); [|split; [exact B|exact (L n B)]].
  induction n as [|n IH]; intros a s v H; [discriminate|]. rewrite bld_S in H. destruct (gvs (hv n) 1 (have_defaults s) (args s)) as [kw|] eqn:K; [|discriminate].
  apply (gvs_sound (hv n) (L n IH)) in K. destruct (run s kw) as [w|w i|t|] eqn:R; [| | |discriminate].
  - injection H as <-. exact (builds_val d a s kw w K R).
  - destruct (nested s) eqn:N1; cbn [orb] in H; [injection H as <-; exact (builds_class d a s kw w i K R (or_introl N1))|].
    destruct (endswith a "_class") eqn:N2; [injection H as <-; exact (builds_class d a s kw w i K R (or_intror N2))|].
    exact (builds_instance d a s kw w i v K R N1 N2 (IH a i v H)).
  - exact (builds_this d a s kw t v K R (IH a t v H)).
Qed.
Lemma bld_complete :
  (forall x v, has d x v -> exists n, hv n x = Some v) /\ (forall a s v, builds d a s v -> exists n, bld n a s = Some v)
  /\ (forall n h l kw, gives d n h l kw -> exists m, gvs (hv m) n h l = Some kw).
Proof.
  assert (MG : forall m m' n h l kw, (m <= m')%nat -> gvs (hv m) n h l = Some kw -> gvs (hv m') n h l = Some kw).
  { intros m m' n h l kw L. apply gvs_mono; [intros x v; apply hv_mono; exact L|intros x G N; apply hv_missing; assumption]. }
  apply (spec_mut d (fun x v _ => exists n, hv n x = Some v) (fun a s v _ => exists n, bld n a s = Some v) (fun n h l kw _ => exists m, gvs (hv m) n h l = Some kw)).
  - exists 0. reflexivity.
  - intros a s v Ns G _ [n IH]. exists n. unfold hv. rewrite (proj2 (String.eqb_neq _ _) Ns), G. exact IH.
  - intros a s kw v _ [m K] R. exists (S m). rewrite bld_S, K, R. reflexivity.
  - intros a s kw v i _ [m K] R N. exists (S m). rewrite bld_S, K, R. destruct N as [->| ->]; [reflexivity|rewrite orb_true_r; reflexivity].
  - intros a s kw v i w _ [m K] R N1 N2 _ [m' B]. exists (S (Nat.max m m')). rewrite bld_S, (MG m _ _ _ _ _ (Nat.le_max_l _ _) K), R, N1, N2. cbn [orb]. exact (bld_mono _ _ _ _ _ (Nat.le_max_r _ _) B).
  - intros a s kw t w _ [m K] R _ [m' B]. exists (S (Nat.max m m')). rewrite bld_S, (MG m _ _ _ _ _ (Nat.le_max_l _ _) K), R. exact (bld_mono _ _ _ _ _ (Nat.le_max_r _ _) B).
  - intros n h. exists 0. reflexivity.
  - intros n h x v l kw _ [m E] _ [m' K]. exists (Nat.max m m'). cbn [gvs]. rewrite (hv_mono _ _ _ _ (Nat.le_max_l _ _) E), (MG m' _ _ _ _ _ (Nat.le_max_r _ _) K). reflexivity.
  - intros n h x l kw Ns G L _ [m K]. exists m. cbn [gvs]. rewrite (hv_missing m x G Ns), G, (proj2 (Nat.leb_le _ _) L), (proj2 (String.eqb_neq _ _) Ns). exact K.
Qed.
Lemma has_det x v w : has d x v -> has d x w -> v = w.
Proof.
  intros A B. destruct (proj1 bld_complete _ _ A) as [n N]. destruct (proj1 bld_complete _ _ B) as [m M].
  apply (hv_mono n (Nat.max n m)) in N; [|lia]. apply (hv_mono m (Nat.max n m)) in M; [|lia]. congruence.
Qed.
End Eval.

(** ** Invariant of the loop *)
Variable check : dict (spec V) -> bool.
Notation step := (step check).
Notation loop := (loop check).
Record inv d (s : st (V:=V)) : Prop := {
  inv_cache : forall x v, get (cache s) x = Some v -> has d x v /\ mem x (cached s) = true;
  inv_cached : forall x, mem x (cached s) = true -> get (cache s) x <> None \/ (get d x = None /\ x <> "__self__");
  inv_deps : forall b s', get (deps s) b = Some s' -> exists s0, get d b = Some s0 /\ forall v, builds d b s' v -> builds d b s0 v;
  inv_none : forall b, get (deps s) b = None -> get d b = None;
  inv_self : get (cache s) "__self__" = Some self }.

Definition kw_of (c : dict V) (l : list string) : list (string * V) := flat_map (fun x => match get c x with Some v => [(x, v)] | None => [] end) l.
Lemma keys_kw c l x : In x (keys (kw_of c l)) <-> In x l /\ get c x <> None.
Proof.
  induction l as [|y l IH]; cbn [kw_of flat_map]; [cbn; tauto|]. unfold keys in *. rewrite map_app, in_app_iff. fold (kw_of c l). rewrite IH.
  destruct (get c y) as [v|] eqn:G; cbn [map fst In]; split.
  - intros [[->|[]]|[H K]]; [split; [left; reflexivity|congruence]|split; [right; exact H|exact K]].
  - intros [[->|H] K]; [left; left; reflexivity|right; split; assumption].
  - intros [[]|[H K]]. split; [right; exact H|exact K].
  - intros [[->|H] K]; [congruence|right; split; assumption].
Qed.
Lemma required_in (s : spec V) : forall l n x, In x (required_from n s l) -> In x l.
Proof. induction l as [|y l IH]; intros n x; cbn [required_from]; [tauto|]. destruct (n <? have_defaults s)%nat; intros H; [destruct H as [->|H]; [left; reflexivity|]|]; right; eapply IH; exact H. Qed.
Lemma gives_kw d (st : st (V:=V)) (s : spec V) : inv d st -> forall l n, forallb (fun x => mem x (cached st)) l = true ->
  (forall x, In x (required_from n s l) -> get (cache st) x <> None) -> gives d n (have_defaults s) l (kw_of (cache st) l).
Proof.
  intros I. induction l as [|x l IH]; intros n H R; [constructor|]. cbn [forallb] in H. apply andb_prop in H. destruct H as [Hx H].
  assert (R' : forall y, In y (required_from (S n) s l) -> get (cache st) y <> None).
  { intros y Hy. apply R. cbn [required_from]. destruct (n <? have_defaults s)%nat; [right|]; exact Hy. }
  specialize (IH (S n) H R'). cbn [kw_of flat_map]. fold (kw_of (cache st) l).
  destruct (get (cache st) x) as [v|] eqn:G; [exact (gives_arg d n (have_defaults s) x v l _ (proj1 (inv_cache d st I x v G)) IH)|].
  destruct (inv_cached d st I x Hx) as [K|[K K']]; [congruence|]. apply gives_default; [exact K'|exact K| |exact IH].
  destruct (n <? have_defaults s)%nat eqn:L; [|apply Nat.ltb_ge in L; exact L]. exfalso. apply (R x); [|exact G]. cbn [required_from]. rewrite L. left. reflexivity.
Qed.
Lemma required_gives d : forall l n (s : spec V) kw, gives d n (have_defaults s) l kw -> forall x, In x (required_from n s l) -> In x (keys kw).
Proof.
  intros l n s kw H. remember (have_defaults s) as h eqn:Eh. induction H as [|n h x v l kw Hx _ IH|n h x l kw Ns G L _ IH]; intros y Hy; cbn [required_from] in Hy.
  - destruct Hy.
  - destruct (n <? have_defaults s)%nat; [destruct Hy as [->|Hy]; [left; reflexivity|]|]; right; apply IH; assumption.
  - subst h. rewrite (proj2 (Nat.ltb_ge _ _) L) in Hy. apply IH; [reflexivity|exact Hy].
Qed.
Lemma call_run d (s : spec V) kw : gives d 1 (have_defaults s) (args s) kw -> call s kw = run s kw.
Proof.
  intros G. unfold call. replace (forallb _ _) with true; [reflexivity|]. symmetry. apply forallb_forall. intros x Hx. apply mem_in. eapply required_gives; eassumption.
Qed.
Lemma call_gives d (st : st (V:=V)) (s : spec V) : inv d st -> forallb (fun x => mem x (cached st)) (args s) = true -> call s (kw_of (cache st) (args s)) <> Raise ->
  gives d 1 (have_defaults s) (args s) (kw_of (cache st) (args s)).
Proof.
  intros I H C. apply (gives_kw d st s I); [exact H|]. intros x Hx. unfold call in C.
  destruct (forallb (fun y => mem y (keys (kw_of (cache st) (args s)))) (required_from 1 s (args s))) eqn:F; [|congruence].
  rewrite forallb_forall in F. specialize (F x Hx). apply mem_in, keys_kw in F. tauto.
Qed.

Lemma inv_move d s a k b : inv d s -> inv d (St (deps s) (cache s) (cached s) a k b (replaced s) (log s)).
Proof. intros [A B C D E]. constructor; assumption. Qed.
Lemma popped_inv d s s' : inv d s -> popped s = Next s' -> inv d s'.
Proof. intros I. unfold popped. destruct (stack s); [discriminate|]. intros E. injection E as <-. apply inv_move. exact I. Qed.
Lemma cached_inv d s v l : get d "__self__" = None -> inv d s -> has d (cur s) v -> get d (cur s) <> None -> inv d (St (deps s) (set (cache s) (cur s) v) (cur s :: cached s) (cur s) (stack s) (dflt s) (replaced s) l).
Proof.
  intros S0 [A B C D E] H N. constructor; cbn [deps cache cached]; try assumption.
  - intros x w. rewrite get_set_if, mem_cons. destruct (String.eqb_spec (cur s) x) as [<-|Ne].
    + intros E'. injection E' as <-. rewrite String.eqb_refl. split; [exact H|reflexivity].
    + intros G. destruct (A x w G) as [A1 A2]. rewrite A2, orb_true_r. split; [exact A1|reflexivity].
  - intros x. rewrite get_set_if, mem_cons. destruct (String.eqb_spec (cur s) x) as [<-|Ne]; [left; discriminate|].
    rewrite (proj2 (String.eqb_neq x (cur s))) by congruence. cbn [orb]. apply B.
  - rewrite get_set_if. destruct (String.eqb_spec (cur s) "__self__") as [Es|Ne]; [rewrite Es in N; congruence|exact E].
Qed.
Lemma replace_inv d s new old s' : inv d s -> get (deps s) (cur s) = Some old -> (forall v, builds d (cur s) new v -> builds d (cur s) old v) ->
  replace check s new old = Next s' -> inv d s'.
Proof.
  intros [A B C D E] G H. unfold replace. destruct (check _); [|discriminate]. intros Es. injection Es as <-. constructor; cbn [deps cache cached]; try assumption.
  - intros b s1. rewrite get_set_if. destruct (String.eqb_spec (cur s) b) as [<-|Ne]; [|apply C].
    intros Ei. injection Ei as <-. destruct (C _ _ G) as (s0 & G0 & H0). exists s0. split; [exact G0|]. intros v Hv. apply H0, H, Hv.
  - intros b. rewrite get_set_if. destruct (String.eqb (cur s) b); [discriminate|apply D].
Qed.
Lemma step_inv d s s' : get d "__self__" = None -> inv d s -> step s = Next s' -> inv d s'.
Proof.
  intros S0 I H. unfold Inject.step in H. destruct (get (deps s) (cur s)) as [sp|] eqn:G.
  - destruct (forallb (fun x => mem x (cached s)) (args sp)) eqn:F.
    + fold (kw_of (cache s) (args sp)) in H. pose proof (call_gives d s sp I F) as Gv. destruct (inv_deps d s I _ _ G) as (s0 & G0 & H0).
      assert (Hn : get d (cur s) <> None) by congruence.
      assert (Ns : cur s <> "__self__") by (intros Es; rewrite Es in Hn; congruence).
      destruct (call sp (kw_of (cache s) (args sp))) as [v|v i|t|] eqn:C; [| | |discriminate].
      * specialize (Gv ltac:(discriminate)). rewrite (call_run d sp _ Gv) in C. eapply popped_inv; [|exact H]. apply (cached_inv d s v); [exact S0|exact I| |exact Hn].
        exact (has_attr d _ s0 v Ns G0 (H0 v (builds_val d _ sp _ v Gv C))).
      * specialize (Gv ltac:(discriminate)). rewrite (call_run d sp _ Gv) in C. destruct (nested sp || endswith (cur s) "_class") eqn:N.
        -- eapply popped_inv; [|exact H]. apply (cached_inv d s v); [exact S0|exact I| |exact Hn].
           refine (has_attr d _ s0 v Ns G0 (H0 v (builds_class d _ sp _ v i Gv C _))). apply orb_prop. exact N.
        -- apply orb_false_elim in N. destruct N as [N1 N2]. refine (replace_inv d s i sp s' I G _ H). intros w Hw. exact (builds_instance d _ sp _ v i w Gv C N1 N2 Hw).
      * specialize (Gv ltac:(discriminate)). rewrite (call_run d sp _ Gv) in C. refine (replace_inv d s t sp s' I G _ H). intros w Hw. exact (builds_this d _ sp _ t w Gv C Hw).
    + destruct (first_arg 1 (have_defaults sp) (args sp) (cached s)) as [[x b]|]; [|discriminate]. injection H as <-. apply inv_move. exact I.
  - destruct (dflt s); [|discriminate]. eapply popped_inv; [|exact H]. destruct I as [A B C D E]. constructor; cbn [deps cache cached]; try assumption.
    + intros x v Gx. destruct (A x v Gx) as [A1 A2]. rewrite mem_cons, A2, orb_true_r. split; [exact A1|reflexivity].
    + intros x. rewrite mem_cons. destruct (String.eqb_spec x (cur s)) as [->|Ne]; [|apply B]. intros _.
      destruct (get (cache s) (cur s)) eqn:Gc; [left; congruence|]. right. split; [apply D; exact G|]. intros Es. rewrite Es in Gc. congruence.
Qed.
Definition start d (attr : string) : st (V:=V) := St d [("__self__", self)] ["__self__"] attr [attr] false [] [].
Lemma start_inv d a : inv d (start d a).
Proof.
  constructor; cbn [start deps cache cached].
  - intros x v. cbn [get]. destruct (String.eqb_spec "__self__" x) as [<-|N]; [|discriminate]. intros E. injection E as <-. split; [constructor|reflexivity].
  - intros x. rewrite mem_cons. cbn [mem existsb]. rewrite orb_false_r. intros E. apply String.eqb_eq in E. subst. left. cbn. discriminate.
  - intros b s' G. exists s'. split; [exact G|tauto].
  - tauto.
  - reflexivity.
Qed.
Lemma loop_sound d attr : get d "__self__" = None -> forall fuel s v d' l, inv d s -> loop fuel attr s = Done v d' l -> has d attr v.
Proof.
  intros S0. induction fuel as [|fuel IH]; intros s v d' l I H; cbn [Inject.loop] in H; destruct (get (cache s) attr) as [w|] eqn:G.
  - injection H as <- _ _. exact (proj1 (inv_cache d s I _ _ G)).
  - discriminate.
  - injection H as <- _ _. exact (proj1 (inv_cache d s I _ _ G)).
  - destruct (step s) as [s'|] eqn:E; [|discriminate]. eapply IH; [|exact H]. eapply step_inv; eassumption.
Qed.

(** ** Every value is found *)
Inductive steps : st (V:=V) -> st (V:=V) -> Prop :=
  | steps_refl s : steps s s
  | steps_step s s' t : step s = Next s' -> steps s' t -> steps s t.
Lemma steps_trans s t u : steps s t -> steps t u -> steps s u.
Proof. intros A B. induction A as [|s s' t E _ IH]; [exact B|]. econstructor; [exact E|apply IH; exact B]. Qed.
Lemma steps_inv d s t : get d "__self__" = None -> steps s t -> inv d s -> inv d t.
Proof. intros S0 A. induction A as [|s s' t E _ IH]; intros I; [exact I|]. apply IH. eapply step_inv; eassumption. Qed.
Lemma loop_more fuel : forall fuel' attr s v d' l, (fuel <= fuel')%nat -> loop fuel attr s = Done v d' l -> loop fuel' attr s = Done v d' l.
Proof.
  induction fuel as [|fuel IH]; intros fuel' attr s v d' l L H.
  - cbn [Inject.loop] in H. destruct fuel'; cbn [Inject.loop]; destruct (get (cache s) attr); try exact H; discriminate.
  - destruct fuel' as [|fuel']; [lia|]. cbn [Inject.loop] in *. destruct (get (cache s) attr); [exact H|]. destruct (step s); [|exact H]. apply IH; [lia|exact H].
Qed.
Lemma steps_loop attr s t : steps s t -> get (cache t) attr <> None -> exists fuel v d' l, loop fuel attr s = Done v d' l.
Proof.
  intros A. induction A as [s|s s' t E _ IH]; intros H.
  - exists 0. cbn [Inject.loop]. destruct (get (cache s) attr); [|congruence]. do 3 eexists. reflexivity.
  - destruct (IH H) as (f & v & d' & l & K). destruct (get (cache s) attr) as [w|] eqn:G.
    + exists 0. cbn [Inject.loop]. rewrite G. do 3 eexists. reflexivity.
    + exists (S f), v, d', l. cbn [Inject.loop]. rewrite G, E. exact K.
Qed.
Lemma first_arg_none c : forall l n h, first_arg n h l c = None -> forallb (fun x => mem x c) l = true.
Proof. induction l as [|x l IH]; intros n h H; cbn [first_arg forallb] in *; [reflexivity|]. destruct (mem x c); [exact (IH _ _ H)|discriminate]. Qed.
Lemma first_arg_gvs d f c : forall l n h kw x b, gvs d f n h l = Some kw -> first_arg n h l c = Some (x, b) ->
  mem x c = false /\ In x l /\ (f x <> None \/ (get d x = None /\ b = true)).
Proof.
  induction l as [|y l IH]; intros n h kw x b K H; cbn [first_arg gvs] in *; [discriminate|].
  destruct (mem y c) eqn:M.
  - assert (K' : exists k, gvs d f (S n) h l = Some k).
    { destruct (f y); [destruct (gvs d f (S n) h l); [eexists; reflexivity|discriminate]|]. destruct (get d y); [discriminate|]. destruct ((h <=? n)%nat && negb (String.eqb y "__self__")); [eexists; exact K|discriminate]. }
    destruct K' as [k K']. destruct (IH _ _ _ _ _ K' H) as (A & B & C). split; [exact A|]. split; [right; exact B|exact C].
  - injection H as <- <-. split; [exact M|]. split; [left; reflexivity|]. destruct (f y) as [v|]; [left; discriminate|]. right.
    destruct (get d y); [discriminate|]. split; [reflexivity|]. destruct (h <=? n)%nat eqn:L; [|discriminate]. apply Nat.leb_le in L.
    rewrite (proj2 (Nat.ltb_ge _ _) L). reflexivity.
Qed.
Lemma kw_gvs d (st : st (V:=V)) m : inv d st -> forall l n h kw, forallb (fun x => mem x (cached st)) l = true -> gvs d (hv d m) n h l = Some kw -> kw_of (cache st) l = kw.
Proof.
  intros I. induction l as [|x l IH]; intros n h kw F K; cbn [gvs forallb kw_of flat_map] in *; [injection K as <-; reflexivity|].
  apply andb_prop in F. destruct F as [Fx F]. fold (kw_of (cache st) l). destruct (hv d m x) as [v|] eqn:E.
  - destruct (gvs d (hv d m) (S n) h l) as [k|] eqn:K'; [|discriminate]. injection K as <-. rewrite (IH _ _ _ F K'). apply (proj2 (bld_sound d m)) in E.
    destruct (get (cache st) x) as [w|] eqn:G; [rewrite (has_det d x v w E (proj1 (inv_cache d st I x w G))); reflexivity|].
    exfalso. destruct (inv_cached d st I x Fx) as [Z|[Z Ns]]; [congruence|]. inversion E as [Q1 Q2|? ? ? ? Q]; subst; [congruence|congruence].
  - destruct (get d x) eqn:G; [discriminate|]. destruct ((h <=? n)%nat && negb (String.eqb x "__self__")) eqn:C; [|discriminate]. rewrite (IH _ _ _ F K).
    apply andb_prop in C. destruct C as [_ Ns]. destruct (String.eqb_spec x "__self__") as [|Ns']; [discriminate|].
    destruct (get (cache st) x) as [w|] eqn:Gc; [|reflexivity]. exfalso. pose proof (proj1 (inv_cache d st I x w Gc)) as H. inversion H; subst; congruence.
Qed.

Hypothesis checks : forall d, check d = true.
(** What [d] still says of attributes not cached whose value has a bound below [n]. *)
Definition agr d (n : nat) (s : st (V:=V)) : Prop :=
  forall x, mem x (cached s) = false -> (get d x = None \/ hv d n x <> None) -> get (deps s) x = get d x.
Definition after d (n : nat) (s t : st (V:=V)) : Prop :=
  (forall x, mem x (cached s) = true -> mem x (cached t) = true)
  /\ (forall x, mem x (cached t) = false -> get (deps t) x = get (deps s) x)
  /\ (forall x, mem x (cached t) = true -> mem x (cached s) = true \/ get d x = None \/ hv d n x <> None).
Lemma after_trans d n s t u : after d n s t -> after d n t u -> after d n s u.
Proof.
  intros (A & B & C) (A' & B' & C'). split; [|split].
  - intros x H. apply A', A, H.
  - intros x H. rewrite (B' x H). apply B. destruct (mem x (cached t)) eqn:M; [rewrite (A' x M) in H; discriminate|reflexivity].
  - intros x H. destruct (C' x H) as [K|K]; [apply C; exact K|right; exact K].
Qed.
Lemma after_mono d n m s t : (n <= m)%nat -> after d n s t -> after d m s t.
Proof.
  intros L (A & B & C). split; [exact A|]. split; [exact B|]. intros x H. destruct (C x H) as [K|[K|K]]; [left; exact K|right; left; exact K|]. right. right.
  destruct (hv d n x) as [v|] eqn:E; [|congruence]. rewrite (hv_mono d n m x v L E). discriminate.
Qed.
Lemma agr_after d n s t : after d n s t -> agr d n s -> agr d n t.
Proof.
  intros (A & B & C) H x M K. rewrite (B x M). apply H; [|exact K]. destruct (mem x (cached s)) eqn:E; [rewrite (A x E) in M; discriminate|reflexivity].
Qed.
Lemma agr_mono d n m s : (n <= m)%nat -> agr d m s -> agr d n s.
Proof.
  intros L H x M K. apply H; [exact M|]. destruct K as [K|K]; [left; exact K|right]. destruct (hv d n x) as [v|] eqn:E; [|congruence]. rewrite (hv_mono d n m x v L E). discriminate.
Qed.
(** The attribute under evaluation is finished: it is cached and the loop is back at [b]. *)
Definition finishes d (n : nat) (s : st (V:=V)) (a b : string) (k : list string) : Prop :=
  exists t, steps s t /\ cur t = b /\ stack t = k /\ dflt t = false /\ mem a (cached t) = true /\ get (cache t) a <> None /\ after d n s t.
Definition P d (n : nat) : Prop := forall s a b k, get d "__self__" = None -> inv d s -> cur s = a -> stack s = b :: k -> mem a (cached s) = false ->
  hv d n a <> None -> (forall m, (m < n)%nat -> hv d m a = None) -> agr d n s -> finishes d n s a b k.

Definition missing (c : list string) (l : list string) : nat := List.length (filter (fun x => negb (mem x c)) l).
Lemma missing_lt c c' x l : (forall y, mem y c = true -> mem y c' = true) -> In x l -> mem x c = false -> mem x c' = true -> (missing c' l < missing c l)%nat.
Proof.
  intros M Hx A B. assert (L : forall l, (missing c' l <= missing c l)%nat).
  { clear Hx l. intros l. unfold missing. induction l as [|y l IH]; [reflexivity|]. cbn [filter]. destruct (mem y c) eqn:E; [rewrite (M y E); exact IH|].
    destruct (mem y c'); cbn [negb List.length]; lia. }
  induction l as [|y l IH]; [destruct Hx|]. unfold missing in *. cbn [filter]. destruct Hx as [->|Hx].
  - rewrite A, B. cbn [negb List.length]. specialize (L l). lia.
  - specialize (IH Hx). destruct (mem y c) eqn:E; [rewrite (M y E); exact IH|]. specialize (L l). destruct (mem y c'); cbn [negb List.length]; lia.
Qed.

(** The arguments of a definition get cached. *)
Lemma args_cached d n : get d "__self__" = None -> (forall m, (m < n)%nat -> P d m) -> forall j a sp kw, (j < n)%nat -> (forall m, (m < n)%nat -> hv d m a = None) -> get d a <> None ->
  gvs d (hv d j) 1 (have_defaults sp) (args sp) = Some kw ->
  forall c s, missing (cached s) (args sp) = c -> inv d s -> cur s = a -> get (deps s) a = Some sp -> mem a (cached s) = false -> agr d (pred n) s ->
  exists t, steps s t /\ cur t = a /\ stack t = stack s /\ after d (pred n) s t /\ mem a (cached t) = false /\ get (deps t) a = Some sp
            /\ forallb (fun x => mem x (cached t)) (args sp) = true.
Proof.
  intros S0 IHn j a sp kw Hj Hmin Hda K c. induction c as [c IHc] using lt_wf_ind. intros s Hc I Ec G Ma Ag.
  destruct (forallb (fun x => mem x (cached s)) (args sp)) eqn:F.
  { exists s. split; [constructor|]. split; [exact Ec|]. split; [reflexivity|]. split; [|split; [exact Ma|split; [exact G|exact F]]]. split; [tauto|]. split; [reflexivity|tauto]. }
  destruct (first_arg 1 (have_defaults sp) (args sp) (cached s)) as [[x b]|] eqn:FA; [|apply first_arg_none in FA; congruence].
  assert (E1 : step s = Next (St (deps s) (cache s) (cached s) x (cur s :: stack s) b (replaced s) (log s))).
  { unfold Inject.step. rewrite Ec, G, F, FA. reflexivity. }
  destruct (first_arg_gvs d _ _ _ _ _ _ _ _ K FA) as (Mx & Hx & Cx).
  assert (Q : exists t, steps s t /\ cur t = a /\ stack t = stack s /\ mem x (cached t) = true /\ after d (pred n) s t).
  { destruct Cx as [Hv|[Gx ->]].
    - assert (X : exists m, (m <= j)%nat /\ hv d m x <> None /\ forall m', (m' < m)%nat -> hv d m' x = None).
      { clear - Hv. induction j as [j IH] using lt_wf_ind. destruct (forallb (fun m => match hv d m x with None => true | Some _ => false end) (seq 0 j)) eqn:Fb.
        - exists j. split; [lia|]. split; [exact Hv|]. intros m' Lm. rewrite forallb_forall in Fb. specialize (Fb m' ltac:(apply in_seq; lia)). destruct (hv d m' x); [discriminate|reflexivity].
        - assert (Y : exists m, In m (seq 0 j) /\ hv d m x <> None).
          { clear - Fb. induction (seq 0 j) as [|y l IHl]; [discriminate|]. cbn [forallb] in Fb. destruct (hv d y x) eqn:E; [exists y; split; [left; reflexivity|congruence]|].
            destruct (IHl Fb) as (m & A & B). exists m. split; [right; exact A|exact B]. }
          destruct Y as (m & A & B). apply in_seq in A. destruct (IH m ltac:(lia) B) as (m0 & L0 & R0). exists m0. split; [lia|exact R0]. }
      destruct X as (m & Lm & Hm & Hmin').
      assert (Ag' : agr d m (St (deps s) (cache s) (cached s) x (cur s :: stack s) b (replaced s) (log s))) by (apply (agr_mono d m (pred n)); [lia|exact Ag]).
      destruct (IHn m ltac:(lia) _ x (cur s) (stack s) S0 (inv_move d s _ _ _ I) eq_refl eq_refl Mx Hm Hmin' Ag') as (t & T1 & T2 & T3 & T4 & T5 & T6 & T7).
      exists t. split; [econstructor; [exact E1|exact T1]|]. split; [congruence|]. split; [exact T3|]. split; [exact T5|]. apply (after_mono d m); [lia|]. exact T7.
    - exists (St (deps s) (cache s) (x :: cached s) (cur s) (stack s) false (replaced s) (log s)).
      split; [|split; [exact Ec|split; [reflexivity|split]]].
      + econstructor; [exact E1|]. econstructor; [|constructor]. unfold Inject.step. cbn [deps cur dflt]. rewrite (Ag x Mx (or_introl Gx)), Gx. reflexivity.
      + cbn [cached]. rewrite mem_cons, String.eqb_refl. reflexivity.
      + split; [|split; cbn [cached deps]].
        * intros y Hy. cbn [cached]. rewrite mem_cons, Hy, orb_true_r. reflexivity.
        * reflexivity.
        * intros y. rewrite mem_cons. destruct (String.eqb_spec y x) as [->|]; [intros _; right; left; exact Gx|intros Hy; left; exact Hy]. }
  destruct Q as (t & T1 & T2 & T3 & T4 & T5). pose proof T5 as (M1 & M2 & M3).
  assert (Mat : mem a (cached t) = false).
  { destruct (mem a (cached t)) eqn:Q; [|reflexivity]. destruct (M3 a Q) as [Q'|[Q'|Q']]; [congruence|congruence|]. exfalso. apply Q'. apply Hmin. lia. }
  destruct (IHc (missing (cached t) (args sp))) with (s := t) as (u & U1 & U2 & U3 & U4 & U5 & U6 & U7).
  - rewrite <- Hc. apply (missing_lt _ _ x); assumption.
  - reflexivity.
  - eapply steps_inv; eassumption.
  - exact T2.
  - rewrite (M2 a Mat). exact G.
  - exact Mat.
  - exact (agr_after d _ s t T5 Ag).
  - exists u. split; [eapply steps_trans; eassumption|]. split; [exact U2|]. split; [congruence|]. split; [eapply after_trans; eassumption|]. tauto.
Qed.
(** A definition of the attribute gets evaluated. *)
Lemma spec_done d n : get d "__self__" = None -> (forall m, (m < n)%nat -> P d m) -> forall a, (forall m, (m < n)%nat -> hv d m a = None) -> hv d n a <> None -> get d a <> None ->
  forall j, (j <= n)%nat -> forall sp v s b k, bld d j a sp = Some v -> inv d s -> cur s = a -> stack s = b :: k -> get (deps s) a = Some sp -> mem a (cached s) = false -> agr d (pred n) s ->
  exists t, steps s t /\ cur t = b /\ stack t = k /\ dflt t = false /\ mem a (cached t) = true /\ get (cache t) a <> None /\ after d n s t.
Proof.
  intros S0 IHn a Hmin Hn Hda. induction j as [|j IHj]; intros Hj sp v s b k B I Ec Es G Ma Ag; [discriminate|]. rewrite bld_S in B.
  destruct (gvs d (hv d j) 1 (have_defaults sp) (args sp)) as [kw|] eqn:K; [|discriminate].
  destruct (args_cached d n S0 IHn j a sp kw ltac:(lia) Hmin Hda K _ s eq_refl I Ec G Ma Ag) as (t & T1 & T2 & T3 & T4 & T5 & T6 & T7).
  pose proof (steps_inv d s t S0 T1 I) as It. pose proof (kw_gvs d t j It _ _ _ _ T7 K) as Kw.
  assert (Gv : gives d 1 (have_defaults sp) (args sp) kw) by (apply (gvs_sound d (hv d j) (proj2 (bld_sound d j))); exact K).
  pose proof (call_run d sp kw Gv) as Cr.
  assert (Ag' : agr d (pred n) t) by exact (agr_after d _ s t T4 Ag).
  assert (St' : stack t = b :: k) by congruence.
  assert (Fin : forall w, step t = popped (St (deps t) (set (cache t) (cur t) w) (cur t :: cached t) (cur t) (stack t) (dflt t) (replaced t) (log t ++ [cur t])%list) ->
    exists u, steps s u /\ cur u = b /\ stack u = k /\ dflt u = false /\ mem a (cached u) = true /\ get (cache u) a <> None /\ after d n s u).
  { intros w E. unfold popped in E. cbn [stack deps cache cached replaced log] in E. rewrite St' in E. eexists. split; [eapply steps_trans; [exact T1|econstructor; [exact E|constructor]]|].
    cbn [cur stack dflt cached cache]. split; [reflexivity|]. split; [reflexivity|]. split; [reflexivity|]. split; [rewrite T2, mem_cons, String.eqb_refl; reflexivity|].
    split; [rewrite T2, get_set_same; discriminate|]. apply (after_trans d n s t); [apply (after_mono d (pred n)); [lia|exact T4]|]. split; [|split; cbn [cached deps]].
    - intros x Hx. cbn [cached]. rewrite mem_cons, Hx, orb_true_r. reflexivity.
    - reflexivity.
    - intros x. rewrite mem_cons. destruct (String.eqb_spec x (cur t)) as [->|]; [intros _; right; right; rewrite T2; exact Hn|intros Hx; left; exact Hx]. }
  assert (Rep : forall new, step t = replace check t new sp -> bld d j a new = Some v ->
    exists u, steps s u /\ cur u = b /\ stack u = k /\ dflt u = false /\ mem a (cached u) = true /\ get (cache u) a <> None /\ after d n s u).
  { intros new E Bn. unfold replace in E. rewrite checks in E. set (u := St (set (deps t) (cur t) new) _ _ _ _ _ _ _) in E.
    assert (Iu : inv d u) by exact (step_inv d t u S0 It E).
    assert (Agu : agr d (pred n) u).
    { intros x Mx Hx. unfold u. cbn [deps]. rewrite get_set_if, T2. destruct (String.eqb_spec a x) as [<-|Ne]; [|apply Ag'; assumption].
      exfalso. destruct Hx as [Hx|Hx]; [congruence|]. apply Hx, Hmin. lia. }
    destruct (IHj ltac:(lia) new v u b k Bn Iu T2 St') as (w & W1 & W2 & W3 & W4 & W5 & W6 & W7 & W8 & W9).
    - unfold u. cbn [deps]. rewrite T2. apply get_set_same.
    - exact T5.
    - exact Agu.
    - exists w. split; [eapply steps_trans; [exact T1|econstructor; [exact E|exact W1]]|]. split; [exact W2|]. split; [exact W3|]. split; [exact W4|]. split; [exact W5|]. split; [exact W6|].
      apply (after_trans d n s t); [apply (after_mono d (pred n)); [lia|exact T4]|]. split; [exact W7|]. split; [|exact W9].
      intros x Mx. rewrite (W8 x Mx). unfold u. cbn [deps]. rewrite get_set_if, T2. destruct (String.eqb_spec a x) as [<-|Ne]; [congruence|reflexivity]. }
  assert (E : step t = match run sp kw with
        | Raise => Failed (deps t)
        | Class v init => if nested sp || endswith (cur t) "_class" then popped (St (deps t) (set (cache t) (cur t) v) (cur t :: cached t) (cur t) (stack t) (dflt t) (replaced t) (log t ++ [cur t])%list) else replace check t init sp
        | This sp' => replace check t sp' sp
        | Val v => popped (St (deps t) (set (cache t) (cur t) v) (cur t :: cached t) (cur t) (stack t) (dflt t) (replaced t) (log t ++ [cur t])%list)
        end).
  { unfold Inject.step. rewrite T2, T6, T7. fold (kw_of (cache t) (args sp)). rewrite Kw, Cr. reflexivity. }
  destruct (run sp kw) as [w|w i|t'|]; [exact (Fin w E)| |exact (Rep t' E B)|discriminate].
  rewrite T2 in E at 1. destruct (nested sp || endswith a "_class"); [exact (Fin w E)|exact (Rep i E B)].
Qed.
Lemma P_all d : forall n, P d n.
Proof.
  induction n as [n IH] using lt_wf_ind. intros s a b k S0 I Ec Es Ma Hv Hmin Ag. unfold hv in Hv.
  destruct (String.eqb_spec a "__self__") as [->|Ns]; [exfalso; rewrite (proj2 (inv_cache d s I _ _ (inv_self d s I))) in Ma; discriminate|].
  destruct (get d a) as [sp|] eqn:G; [|congruence]. destruct (bld d n a sp) as [v|] eqn:B; [|congruence].
  assert (Hv' : hv d n a <> None) by (unfold hv; rewrite (proj2 (String.eqb_neq _ _) Ns), G, B; discriminate).
  refine (spec_done d n S0 IH a Hmin Hv' _ n (le_n n) sp v s b k B I Ec Es _ Ma _); [congruence|rewrite (Ag a Ma (or_intror Hv')); exact G|]. apply (agr_mono d (pred n) n); [lia|exact Ag].
Qed.
Lemma least d n a : hv d n a <> None -> exists m, hv d m a <> None /\ forall m', (m' < m)%nat -> hv d m' a = None.
Proof.
  induction n as [n IH] using lt_wf_ind. intros H. destruct (forallb (fun m => match hv d m a with None => true | Some _ => false end) (seq 0 n)) eqn:F.
  - exists n. split; [exact H|]. intros m L. rewrite forallb_forall in F. specialize (F m ltac:(apply in_seq; lia)). destruct (hv d m a); [discriminate|reflexivity].
  - assert (Y : exists m, In m (seq 0 n) /\ hv d m a <> None).
    { clear - F. induction (seq 0 n) as [|y l IHl]; [discriminate|]. cbn [forallb] in F. destruct (hv d y a) eqn:E; [exists y; split; [left; reflexivity|congruence]|].
      destruct (IHl F) as (m & A & B). exists m. split; [right; exact A|exact B]. }
    destruct Y as (m & A & B). apply in_seq in A. exact (IH m ltac:(lia) B).
Qed.
Lemma getattr_complete d a v : get d "__self__" = None -> has d a v -> exists fuel d' l, forall fuel', (fuel <= fuel')%nat -> getattr check self fuel' d a = Done v d' l.
Proof.
  intros S0 H. destruct (String.eqb_spec a "__self__") as [->|Ns].
  { exists 0, d, []. intros f _. unfold getattr. assert (v = self) as -> by (inversion H; subst; congruence). destruct f; reflexivity. }
  destruct (proj1 (bld_complete d) _ _ H) as [n E]. destruct (least d n a ltac:(congruence)) as (m & Hm & Hmin).
  assert (Ma : mem a (cached (start d a)) = false). { cbn [start cached]. rewrite mem_cons. cbn [mem existsb]. rewrite orb_false_r. apply String.eqb_neq. exact Ns. }
  destruct (P_all d m (start d a) a a [] S0 (start_inv d a) eq_refl eq_refl Ma Hm Hmin) as (t & T1 & _ & _ & _ & _ & T6 & _).
  { intros x _ _. reflexivity. }
  destruct (steps_loop a _ t T1 T6) as (f & w & d' & l & L). exists f, d', l. intros f' Lf.
  assert (w = v) as -> by (eapply has_det; [eapply loop_sound; [exact S0|apply start_inv|exact L]|exact H]).
  unfold getattr. fold (start d a). exact (loop_more f f' a _ _ _ _ Lf L).
Qed.
End Spec.

(** ** What is left of the injector, and what was built *)
Section Restore.
Context {V : Type}.
Variables (self : V) (check : dict (spec V) -> bool).
(** A definition that gives neither a class to instantiate nor a [this]. *)
Definition settled (a : string) (s : spec V) : Prop :=
  forall kw, match call s kw with This _ => False | Class _ _ => nested s || endswith a "_class" = true | _ => True end.
(** What a class or a [this] turns a definition into is settled. *)
Definition simple (d : dict (spec V)) : Prop :=
  forall a s, get d a = Some s -> forall kw, match call s kw with This t => settled a t | Class _ i => nested s || endswith a "_class" = true \/ settled a i | _ => True end.
Record rinv (d : dict (spec V)) (s : st (V:=V)) : Prop := {
  r_deps : forall b s', get (deps s) b = Some s' -> (get d b = Some s' /\ get (replaced s) b = None) \/ (get (replaced s) b = get d b /\ settled b s');
  r_none : forall b, get (deps s) b = None -> get (replaced s) b = None;
  r_keys : keys (deps s) = keys d;
  r_nodup : NoDup (keys (replaced s)) }.
Lemma rinv_move d s c cd a k b l : rinv d s -> rinv d (St (deps s) c cd a k b (replaced s) l).
Proof. intros [A B C D]. constructor; assumption. Qed.
Lemma rinv_popped d s s' : rinv d s -> popped s = Next s' -> rinv d s'.
Proof. intros I. unfold popped. destruct (stack s); [discriminate|]. intros E. injection E as <-. apply rinv_move. exact I. Qed.
Lemma rinv_replace d s new old s' : rinv d s -> get (deps s) (cur s) = Some old -> get d (cur s) = Some old -> settled (cur s) new -> replace check s new old = Next s' -> rinv d s'.
Proof.
  intros [A B C D] G Gd St E. unfold replace in E. destruct (check _); [|discriminate]. injection E as <-. constructor; cbn [deps replaced].
  - intros b s'. rewrite !get_set_if. destruct (String.eqb_spec (cur s) b) as [<-|Ne]; [|apply A]. intros E. injection E as <-. right. split; [congruence|exact St].
  - intros b. rewrite !get_set_if. destruct (String.eqb (cur s) b); [discriminate|apply B].
  - rewrite keys_set_present by congruence. exact C.
  - apply set_nodup. exact D.
Qed.
Lemma rinv_step d s s' : simple d -> rinv d s -> step check s = Next s' -> rinv d s'.
Proof.
  intros Si I H. unfold step in H. destruct (get (deps s) (cur s)) as [sp|] eqn:G.
  - destruct (forallb (fun x => mem x (cached s)) (args sp)).
    + destruct (r_deps d s I _ _ G) as [[Gd Gr]|[Gr St]].
      * pose proof (Si _ _ Gd) as Sp. set (kw := flat_map _ _) in H. specialize (Sp kw). destruct (call sp kw) as [v|v i|t|] eqn:C; [| | |discriminate].
        -- eapply rinv_popped; [|exact H]. apply rinv_move. exact I.
        -- destruct (nested sp || endswith (cur s) "_class") eqn:N; [eapply rinv_popped; [|exact H]; apply rinv_move; exact I|]. destruct Sp as [Sp|Sp]; [discriminate|].
           exact (rinv_replace d s i sp s' I G Gd Sp H).
        -- exact (rinv_replace d s t sp s' I G Gd Sp H).
      * set (kw := flat_map _ _) in H. specialize (St kw). destruct (call sp kw) as [v|v i|t|] eqn:C; [| |destruct St|discriminate].
        -- eapply rinv_popped; [|exact H]. apply rinv_move. exact I.
        -- rewrite St in H. eapply rinv_popped; [|exact H]. apply rinv_move. exact I.
    + destruct (first_arg 1 (have_defaults sp) (args sp) (cached s)) as [[x b]|]; [|discriminate]. injection H as <-. apply rinv_move. exact I.
  - destruct (dflt s); [|discriminate]. eapply rinv_popped; [|exact H]. apply rinv_move. exact I.
Qed.
Lemma restore_get (r : dict (spec V)) : forall d b, NoDup (keys r) -> get (restore r d) b = match get r b with Some s => Some s | None => get d b end.
Proof.
  induction r as [|[a s] r IH]; intros d b ND; [reflexivity|]. cbn [restore fold_left fst snd]. fold (restore r (set d a s)). inversion ND as [|? ? NI ND']; subst.
  rewrite (IH _ _ ND'). cbn [get]. rewrite get_set_if. destruct (String.eqb_spec a b) as [->|Ne]; [|reflexivity]. rewrite (proj2 (get_notin r b) NI). reflexivity.
Qed.
Lemma restore_keys (r : dict (spec V)) : forall d, (forall b, get r b <> None -> get d b <> None) -> keys (restore r d) = keys d.
Proof.
  induction r as [|[a s] r IH]; intros d H; [reflexivity|]. cbn [restore fold_left fst snd]. fold (restore r (set d a s)). rewrite IH.
  - apply keys_set_present. apply H. cbn [get]. rewrite String.eqb_refl. discriminate.
  - intros b Hb. rewrite get_set_if. destruct (String.eqb_spec a b) as [->|Ne]; [discriminate|]. apply H. cbn [get]. rewrite (proj2 (String.eqb_neq _ _) Ne). exact Hb.
Qed.
Lemma rinv_restore d s : NoDup (keys d) -> rinv d s -> restore (replaced s) (deps s) = d.
Proof.
  intros ND [A B C D].
  assert (K : keys (restore (replaced s) (deps s)) = keys d).
  { rewrite restore_keys; [exact C|]. intros b Hb G. apply Hb, B, G. }
  apply dict_ext; [rewrite K; exact ND|exact K|]. intros b. rewrite restore_get by exact D. destruct (get (deps s) b) as [s'|] eqn:G.
  - destruct (A b s' G) as [[Gd ->]|[Gr _]]; [symmetry; exact Gd|]. assert (In b (keys d)) as Hin by (rewrite <- C; apply get_in; congruence).
    apply get_in in Hin. rewrite Gr. destruct (get d b); [reflexivity|congruence].
  - rewrite (B b G). symmetry. apply get_notin. rewrite <- C. apply get_notin. exact G.
Qed.
Lemma loop_restored d attr : NoDup (keys d) -> simple d -> forall fuel s v d' l, rinv d s -> loop check fuel attr s = Done v d' l -> d' = d.
Proof.
  intros ND Si. induction fuel as [|fuel IH]; intros s v d' l I H; cbn [loop] in H; destruct (get (cache s) attr); try discriminate; try (injection H as _ <- _; apply rinv_restore; assumption).
  destruct (step check s) as [s'|] eqn:E; [|discriminate]. eapply IH; [|exact H]. eapply rinv_step; eassumption.
Qed.

(** *** Nothing is built twice *)
Section Once.
Variable attr : string.
(** Each attribute on the stack waits for the one above it; [y] is above the list. *)
Fixpoint waits (d : dict (spec V)) (y : string) (l : list string) : Prop :=
  match l with [] => True | x :: l => (exists sp, get d x = Some sp /\ In y (args sp)) /\ waits d x l end.
Fixpoint bottom (y : string) (l : list string) : string := match l with [] => y | x :: l => bottom x l end.
Definition active (s : st (V:=V)) (l : list string) : Prop :=
  stack s = (l ++ [attr])%list /\ (forall x, In x (cur s :: l) -> mem x (cached s) = false) /\ waits (deps s) (cur s) l /\ (l = [] -> dflt s = false) /\ bottom (cur s) l = attr.
Definition oinv (s : st (V:=V)) : Prop :=
  NoDup (log s) /\ (forall x, In x (log s) -> mem x (cached s) = true) /\ (get (cache s) attr <> None \/ exists l, active s l).
Lemma waits_above d y : forall l y0, waits d y0 l -> In y l -> exists z sp, In z (y0 :: l) /\ get d y = Some sp /\ In z (args sp).
Proof.
  induction l as [|x l IH]; intros y0 W H; [destruct H|]. destruct W as [(sp & G & A) W]. destruct H as [->|H].
  - exists y0, sp. split; [left; reflexivity|]. split; assumption.
  - destruct (IH x W H) as (z & sp' & Hz & R). exists z, sp'. split; [right; exact Hz|exact R].
Qed.
Lemma waits_set d y s : forall l y0, ~ In y l -> waits d y0 l -> waits (set d y s) y0 l.
Proof.
  induction l as [|x l IH]; intros y0 N W; [exact I|]. destruct W as [(sp & G & A) W]. split.
  - exists sp. rewrite get_set_other; [split; assumption|]. intros ->. apply N. left. reflexivity.
  - apply IH; [intros H; apply N; right; exact H|exact W].
Qed.
Lemma nodup_snoc' (l : list string) x : NoDup l -> ~ In x l -> NoDup (l ++ [x])%list.
Proof.
  induction l as [|y l IH]; intros ND N; cbn [app]; [repeat constructor; tauto|]. inversion ND as [|? ? NI ND']; subst. constructor.
  - rewrite in_app_iff. intros [H|[H|[]]]; [exact (NI H)|]. apply N. left. symmetry. exact H.
  - apply IH; [exact ND'|]. intros H. apply N. right. exact H.
Qed.
(** Popping after the current attribute was settled, nothing else changed. *)
Lemma pop_active s l c s' lg : active s l -> ~ In (cur s) l -> (l = [] -> get c attr <> None) ->
  popped (St (deps s) c (cur s :: cached s) (cur s) (stack s) (dflt s) (replaced s) lg) = Next s' -> (get (cache s') attr <> None \/ exists l', active s' l') /\ cached s' = cur s :: cached s /\ log s' = lg.
Proof.
  intros (A1 & A2 & A3 & A4 & A5) N E0 H. unfold popped in H. cbn [stack] in H. rewrite A1 in H. destruct l as [|x l]; cbn [app] in H; injection H as <-; cbn [cache cached log]; (split; [|split; reflexivity]).
  - left. apply E0. reflexivity.
  - right. exists l. split; [reflexivity|]. cbn [cur cached deps dflt]. split; [|split; [exact (proj2 A3)|split; [reflexivity|exact A5]]].
    intros z Hz. rewrite mem_cons. destruct (String.eqb_spec z (cur s)) as [->|]; [contradiction|]. apply A2. right. exact Hz.
Qed.
Lemma first_arg_in c : forall l n h x b, first_arg n h l c = Some (x, b) -> In x l /\ mem x c = false.
Proof.
  induction l as [|y l IH]; intros n h x b H; cbn [first_arg] in H; [discriminate|]. destruct (mem y c) eqn:M.
  - destruct (IH _ _ _ _ H) as [A B]. split; [right; exact A|exact B].
  - injection H as <- _. split; [left; reflexivity|exact M].
Qed.
Lemma oinv_step s s' : get (cache s) attr = None -> oinv s -> step check s = Next s' -> oinv s'.
Proof.
  intros Nc (O1 & O2 & [O3|(l & Ac)]) H; [congruence|]. pose proof Ac as (A1 & A2 & A3 & A4 & A5). unfold step in H.
  assert (Nl : ~ In (cur s) (log s)). { intros Hin. apply O2 in Hin. rewrite (A2 (cur s) (or_introl eq_refl)) in Hin. discriminate. }
  destruct (get (deps s) (cur s)) as [sp|] eqn:G.
  - destruct (forallb (fun x => mem x (cached s)) (args sp)) eqn:F.
    + assert (NIn : ~ In (cur s) l).
      { intros Hin. destruct (waits_above _ _ _ _ A3 Hin) as (z & sp' & Hz & G' & Hz'). rewrite G in G'. injection G' as <-. rewrite forallb_forall in F.  specialize (F z Hz'). rewrite (A2 z Hz) in F. discriminate. }
      set (kw := flat_map _ _) in H.
      assert (Dn : forall v, popped (St (deps s) (set (cache s) (cur s) v) (cur s :: cached s) (cur s) (stack s) (dflt s) (replaced s) (log s ++ [cur s])%list) = Next s' -> oinv s').
      { intros v E. destruct (pop_active s l (set (cache s) (cur s) v) s' (log s ++ [cur s])%list Ac NIn) as (X & Xc & Xl); [|exact E|].
        - intros ->. cbn [bottom] in A5. rewrite A5, get_set_same. discriminate.
        - split; [|split; [|exact X]].
          + rewrite Xl. apply nodup_snoc'; assumption.
          + rewrite Xl, Xc. intros x Hx. rewrite mem_cons. apply in_app_iff in Hx. destruct Hx as [Hx|[<-|[]]]; [rewrite (O2 x Hx), orb_true_r|rewrite String.eqb_refl]; reflexivity. }
      assert (Rp : forall new old, replace check s new old = Next s' -> oinv s').
      { intros new old E. unfold replace in E. destruct (check _); [|discriminate]. injection E as <-. split; [exact O1|]. split; [exact O2|]. right. exists l.
        split; [exact A1|]. split; [exact A2|]. split; [|split; assumption]. cbn [deps cur]. apply waits_set; assumption. }
      destruct (call sp kw) as [v|v i|t|]; [exact (Dn v H)| |exact (Rp _ _ H)|discriminate]. destruct (nested sp || endswith (cur s) "_class"); [exact (Dn v H)|exact (Rp _ _ H)].
    + destruct (first_arg 1 (have_defaults sp) (args sp) (cached s)) as [[x b]|] eqn:FA; [|discriminate]. injection H as <-. apply first_arg_in in FA. destruct FA as [Fi Fm].
      split; [exact O1|]. split; [exact O2|]. right. exists (cur s :: l). cbn [active stack cur deps cached dflt]. unfold active. cbn [stack cur deps cached dflt app waits bottom]. split; [rewrite A1; reflexivity|].
      split; [|split; [|split; [discriminate|exact A5]]].
      * intros z [<-|Hz]; [exact Fm|]. apply A2. exact Hz.
      * split; [exists sp; split; assumption|exact A3].
  - destruct (dflt s) eqn:D; [|discriminate].
    assert (NIn : ~ In (cur s) l). { intros Hin. destruct (waits_above _ _ _ _ A3 Hin) as (z & sp' & Hz & G' & Hz'). congruence. }
    destruct (pop_active s l (cache s) s' (log s) Ac NIn) as (X & Xc & Xl); [intros ->; specialize (A4 eq_refl); congruence|rewrite D; exact H|].
    split; [rewrite Xl; exact O1|]. split; [|exact X]. rewrite Xl, Xc. intros x Hx. rewrite mem_cons, (O2 x Hx), orb_true_r. reflexivity.
Qed.
Lemma loop_once : forall fuel s v d' l, oinv s -> loop check fuel attr s = Done v d' l -> NoDup l.
Proof.
  induction fuel as [|fuel IH]; intros s v d' l I H; cbn [loop] in H; destruct (get (cache s) attr) eqn:G; try discriminate; try (injection H as _ _ <-; exact (proj1 I)).
  destruct (step check s) as [s'|] eqn:E; [|discriminate]. eapply IH; [|exact H]. eapply oinv_step; eassumption.
Qed.
End Once.
(** *** What an attribute can depend on *)
Inductive becomes : spec V -> spec V -> Prop :=
  | becomes_refl s : becomes s s
  | becomes_class s s' kw v i : becomes s s' -> run s' kw = Class v i -> becomes s i
  | becomes_this s s' kw t : becomes s s' -> run s' kw = This t -> becomes s t.
Inductive uses (d : dict (spec V)) (a : string) : string -> Prop :=
  | uses_self : uses d a a
  | uses_arg x s s' y : uses d a x -> get d x = Some s -> becomes s s' -> In y (args s') -> uses d a y.
Definition uinv (d : dict (spec V)) (attr : string) (s : st (V:=V)) : Prop :=
  (forall x sp, get (deps s) x = Some sp -> exists s0, get d x = Some s0 /\ becomes s0 sp)
  /\ (forall x, In x (cur s :: stack s) -> uses d attr x) /\ (forall x, In x (log s) -> uses d attr x).
Lemma call_becomes s s' kw o : becomes s s' -> call s' kw = o -> match o with Class _ i => becomes s i | This t => becomes s t | _ => True end.
Proof.
  intros B H. unfold call in H. destruct (forallb _ _); [|subst o; exact I]. destruct o; try exact I; [eapply becomes_class|eapply becomes_this]; eassumption.
Qed.
Lemma uinv_step d attr s s' : uinv d attr s -> step check s = Next s' -> uinv d attr s'.
Proof.
  intros (U1 & U2 & U3) H. unfold step in H. destruct (get (deps s) (cur s)) as [sp|] eqn:G.
  - destruct (forallb (fun x => mem x (cached s)) (args sp)).
    + set (kw := flat_map _ _) in H. destruct (U1 _ _ G) as (s0 & G0 & B).
      assert (Dn : forall v, popped (St (deps s) (set (cache s) (cur s) v) (cur s :: cached s) (cur s) (stack s) (dflt s) (replaced s) (log s ++ [cur s])%list) = Next s' -> uinv d attr s').
      { intros v E. unfold popped in E. cbn [stack] in E. destruct (stack s) as [|a k] eqn:St; [discriminate|]. injection E as <-. split; [exact U1|]. cbn [cur stack log]. split.
        - intros x Hx. apply U2. right. exact Hx.
        - intros x Hx. apply in_app_iff in Hx. destruct Hx as [Hx|[<-|[]]]; [apply U3; exact Hx|apply U2; left; reflexivity]. }
      assert (Rp : forall new old, becomes s0 new -> replace check s new old = Next s' -> uinv d attr s').
      { intros new old Bn E. unfold replace in E. destruct (check _); [|discriminate]. injection E as <-. split; [|split; [exact U2|exact U3]]. cbn [deps].
        intros x sp'. rewrite get_set_if. destruct (String.eqb_spec (cur s) x) as [<-|Ne]; [|apply U1]. intros E. injection E as <-. exists s0. split; assumption. }
      pose proof (call_becomes s0 sp kw _ B eq_refl) as Cb.
      destruct (call sp kw) as [v|v i|t|]; [exact (Dn v H)| |exact (Rp _ _ Cb H)|discriminate]. destruct (nested sp || endswith (cur s) "_class"); [exact (Dn v H)|exact (Rp _ _ Cb H)].
    + destruct (first_arg 1 (have_defaults sp) (args sp) (cached s)) as [[x b]|] eqn:FA; [|discriminate]. injection H as <-. apply first_arg_in in FA. destruct FA as [Fi _].
      split; [exact U1|]. split; [|exact U3]. cbn [cur stack]. intros z [<-|Hz]; [|apply U2; exact Hz]. destruct (U1 _ _ G) as (s0 & G0 & B).
      exact (uses_arg d attr (cur s) s0 sp x (U2 _ (or_introl eq_refl)) G0 B Fi).
  - destruct (dflt s); [|discriminate]. unfold popped in H. cbn [stack] in H. destruct (stack s) as [|a k] eqn:St; [discriminate|]. injection H as <-. split; [exact U1|]. split; [|exact U3].
    cbn [cur stack]. intros x Hx. apply U2. right. exact Hx.
Qed.
Lemma loop_uses d attr : forall fuel s v d' l, uinv d attr s -> loop check fuel attr s = Done v d' l -> forall x, In x l -> uses d attr x.
Proof.
  induction fuel as [|fuel IH]; intros s v d' l I H; cbn [loop] in H; destruct (get (cache s) attr) eqn:G; try discriminate; try (injection H as _ _ <-; exact (proj2 (proj2 I))).
  destruct (step check s) as [s'|] eqn:E; [|discriminate]. eapply IH; [|exact H]. eapply uinv_step; eassumption.
Qed.
(** Two injectors that agree on what [a] uses give it the same value. *)
Lemma uses_trans d a x y : uses d a x -> uses d x y -> uses d a y.
Proof. intros A B. induction B as [|z s s' w _ IH G Bc Hin]; [exact A|]. exact (uses_arg d a z s s' w IH G Bc Hin). Qed.
Lemma has_agree d e :
  (forall a v, has self d a v -> (forall x, uses d a x -> get d x = get e x) -> has self e a v)
  /\ (forall a s v, builds self d a s v -> (forall s' x y, becomes s s' -> In x (args s') -> uses d x y -> get d y = get e y) -> builds self e a s v)
  /\ (forall n h l kw, gives self d n h l kw -> (forall x y, In x l -> uses d x y -> get d y = get e y) -> gives self e n h l kw).
Proof.
  assert (Bt : forall s s' s'', becomes s s' -> becomes s' s'' -> becomes s s'').
  { intros s s' s'' A B. induction B as [|u u' kw v i _ IH R|u u' kw t _ IH R]; [exact A|exact (becomes_class s u' kw v i (IH A) R)|exact (becomes_this s u' kw t (IH A) R)]. }
  apply (spec_mut self d (fun a v _ => (forall x, uses d a x -> get d x = get e x) -> has self e a v)
    (fun a s v _ => (forall s' x y, becomes s s' -> In x (args s') -> uses d x y -> get d y = get e y) -> builds self e a s v)
    (fun n h l kw _ => (forall x y, In x l -> uses d x y -> get d y = get e y) -> gives self e n h l kw)).
  - intros _. constructor.
  - intros a s v Ns G _ IH H. apply (has_attr self e a s v Ns); [rewrite <- (H a (uses_self d a)); exact G|]. apply IH. intros s' x y B Hx U. apply H.
    exact (uses_trans d a x y (uses_arg d a a s s' x (uses_self d a) G B Hx) U).
  - intros a s kw v _ IH R H. apply (builds_val self e a s kw v); [|exact R]. apply IH. intros x y. apply H. constructor.
  - intros a s kw v i _ IH R N H. apply (builds_class self e a s kw v i); [|exact R|exact N]. apply IH. intros x y. apply H. constructor.
  - intros a s kw v i w _ IH R N1 N2 _ IH2 H. apply (builds_instance self e a s kw v i w); try assumption.
    + apply IH. intros x y. apply H. constructor.
    + apply IH2. intros s' x y B. apply H. apply (Bt s i s'); [|exact B]. exact (becomes_class s s kw v i (becomes_refl s) R).
  - intros a s kw t w _ IH R _ IH2 H. apply (builds_this self e a s kw t w); [|exact R|].
    + apply IH. intros x y. apply H. constructor.
    + apply IH2. intros s' x y B. apply H. apply (Bt s t s'); [|exact B]. exact (becomes_this s s kw t (becomes_refl s) R).
  - intros n h _. constructor.
  - intros n h x v l kw _ IH _ IH2 H. constructor; [apply IH; intros y; apply H; left; reflexivity|apply IH2; intros z y Hz; apply H; right; exact Hz].
  - intros n h x l kw Ns G L _ IH H. apply gives_default; [exact Ns| |exact L|apply IH; intros z y Hz; apply H; right; exact Hz].
    rewrite <- (H x x (or_introl eq_refl) (uses_self d x)). exact G.
Qed.
End Restore.
