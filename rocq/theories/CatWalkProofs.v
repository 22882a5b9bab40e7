(** Lemmas for C86 (continued): what the equalization walk collects around a concatenation. *)
From Verif Require Import BatchNorm BatchNormProps Equalize EqualizeProofs EqualizeProps EqLayoutProps CatEq CatEqProps.
From Coq Require Import Reals List Bool Arith Lra Lia Classical_Prop.
Import ListNotations.
Open Scope nat_scope.

(** ** Specification: blocks around a concatenation *)
Section Block.
Variables (g : cgraph) (M : modules).

(** [desc x y]: [y] is [x] or computed from it by scale-invariant operators only. *)
Inductive desc (x : nat) : nat -> Prop :=
| desc_refl : desc x x
| desc_inv y z f : desc x y -> ckind_of g z = Some (CInv f y) -> desc x z.
Definition is_inv (u : nat) : Prop := exists f y, ckind_of g u = Some (CInv f y).
(** [width b w]: the value [b] has [w] channels. *)
Inductive width : nat -> nat -> Prop :=
| width_layer b m i : ckind_of g b = Some (CLayer m i) -> width b (out_size (M m))
| width_inv b f y w : ckind_of g b = Some (CInv f y) -> width y w -> width b w
| width_add b ins w : ckind_of g b = Some (CAdd ins) -> ins <> [] -> (forall a, In a ins -> width a w) -> width b w
| width_cat b ins : ckind_of g b = Some (CCat ins) -> NoDup (map fst ins) -> (forall a w, In (a, w) ins -> width a w) ->
    width b (list_sum (map snd ins)).
(** First channel of operand [b] in a concatenation. *)
Fixpoint slice_start (ins : list (nat * nat)) (b : nat) : nat :=
  match ins with [] => 0 | (a, w) :: r => if a =? b then 0 else w + slice_start r b end.

(** Consumers: layers that are not norms, scale-invariant operators, and (when [cat]) another
    concatenation than [v] whose result reaches only such layers. *)
Definition plain (y z : nat) : Prop :=
  (exists m, ckind_of g z = Some (CLayer m y) /\ is_norm (M m) = false) \/ (exists f, ckind_of g z = Some (CInv f y)).
Definition second (v z : nat) : Prop :=
  z <> v /\ exists ins, ckind_of g z = Some (CCat ins) /\ NoDup (map fst ins) /\ (forall b w, In (b, w) ins -> width b w)
    /\ forall y z', desc z y -> In z' (cusers g y) -> plain y z'.
Definition userok (v : nat) (cat : bool) (y z : nat) : Prop := plain y z \/ (cat = true /\ second v z).
Definition tree (v : nat) (cat : bool) (n : nat) : Prop := forall y z, desc n y -> In z (cusers g y) -> userok v cat y z.
Definition treeU (v : nat) (cat : bool) (n u : nat) : Prop := userok v cat n u /\ (is_inv u -> tree v cat u).

(** Entries that the edge from [y] to its user [z] contributes when the channels of [y] have
    factors from [off] on. *)
Definition snk (v off y z : nat) (e : entry) : Prop :=
  (exists m i, ckind_of g z = Some (CLayer m i) /\ e = (m, I 0 (in_size (M m)) off))
  \/ (z <> v /\ exists ins w y' z' m i, ckind_of g z = Some (CCat ins) /\ In (y, w) ins /\ desc z y' /\ In z' (cusers g y')
        /\ ckind_of g z' = Some (CLayer m i) /\ e = (m, I (slice_start ins y) (slice_start ins y + w) off)).

(** ** Graph facts *)
Variable D : list nat.
Hypothesis W : cwf D g.

Lemma cwf_nodup : forall h d, cwf d h -> NoDup (map fst h) /\ forall x, In x d -> ~ In x (map fst h).
Proof.
  clear. induction h as [|[i k] h IH]; intros d H; [split; [constructor|intros ? ? []]|]. destruct H as (Hi & _ & H).
  destruct (IH _ H) as (N & O). split.
  - cbn [map fst]. constructor; [apply O; left; reflexivity|exact N].
  - intros x Hx [E|Hg]; [cbn [fst] in E; subst; contradiction|]. apply (O x); [right; exact Hx|exact Hg].
Qed.
Lemma kind_in x k : ckind_of g x = Some k <-> In (x, k) g.
Proof.
  unfold ckind_of. destruct (cwf_nodup g D W) as (N & _). split.
  - destruct (find _ g) as [[a b]|] eqn:F; [|discriminate]. intros E. injection E as <-. apply find_some in F.
    cbn [fst snd] in *. destruct F as (F & E). apply Nat.eqb_eq in E. subst. exact F.
  - intros H. clear W. revert N H. induction g as [|[a b] g' IH]; [intros _ []|]. cbn [map fst find]. intros N [E|H].
    + injection E as -> ->. rewrite Nat.eqb_refl. reflexivity.
    + inversion N as [|? ? Na N']; subst. destruct (Nat.eqb_spec a x) as [->|Ne]; [exfalso; apply Na; apply (in_map fst) in H; exact H|].
      apply IH; assumption.
Qed.
Lemma users_in n u : In u (cusers g n) <-> exists k, ckind_of g u = Some k /\ In n (operands k).
Proof.
  unfold cusers. rewrite in_map_iff. split.
  - intros ([a k] & E & H). cbn [fst] in E. subst. apply filter_In in H. destruct H as (H & E). exists k. split; [apply kind_in; exact H|].
    apply existsb_exists in E. destruct E as (b & Hb & E). apply Nat.eqb_eq in E. subst. exact Hb.
  - intros (k & H & Hn). apply kind_in in H. exists (u, k). split; [reflexivity|]. apply filter_In. split; [exact H|].
    apply existsb_exists. exists n. split; [exact Hn|apply Nat.eqb_refl].
Qed.
Lemma users_nodup n : NoDup (cusers g n).
Proof.
  unfold cusers. destruct (cwf_nodup g D W) as (N & _). clear W. induction g as [|[a k] g' IH]; [constructor|].
  cbn [map fst filter] in *. inversion N as [|? ? Na N']; subst. destruct (existsb _ _); [|apply IH; exact N'].
  cbn [map fst]. constructor; [|apply IH; exact N']. intros H. apply Na. apply in_map_iff in H. destruct H as (z & E & H).
  apply filter_In in H. rewrite <- E. apply in_map. apply H.
Qed.
(** Topological position. *)
Definition pos (x : nat) : nat := if existsb (Nat.eqb x) (map fst g) then S (index_of x (map fst g)) else 0.
Lemma index_lt x l : In x l -> index_of x l < length l.
Proof. induction l as [|a l IH]; [intros []|]. intros H. cbn [index_of length]. destruct (Nat.eqb_spec a x); [lia|]. destruct H as [->|H]; [congruence|]. specialize (IH H). lia. Qed.
Lemma pos_bound x : pos x <= length g.
Proof.
  unfold pos. destruct (existsb _ _) eqn:E; [|lia]. apply existsb_exists in E. destruct E as (y & H & E). apply Nat.eqb_eq in E. subst.
  apply index_lt in H. rewrite map_length in H. lia.
Qed.
Lemma operand_before : forall pre suf dn x k n, g = pre ++ suf -> cwf dn suf -> (forall d, In d dn -> In d D \/ In d (map fst pre)) ->
  In (x, k) suf -> In n (operands k) -> In n D \/ exists p s kn, g = p ++ (n, kn) :: s /\ In (x, k) s.
Proof.
  intros pre suf. revert pre. induction suf as [|[i ki] suf IH]; intros pre dn x k n E Hw Hd Hx Hn; [destruct Hx|].
  destruct Hw as (Hi & Hin & Hw). destruct Hx as [Ex|Hx].
  - injection Ex as -> ->. destruct (Hd n (Hin n Hn)) as [H|H]; [left; exact H|right]. apply in_map_iff in H. destruct H as ([a ka] & Ea & H).
    cbn [fst] in Ea. subst a. apply in_split in H. destruct H as (p & s & ->). exists p, (s ++ (x, k) :: suf), ka. split; [rewrite E, <- app_assoc; reflexivity|].
    apply in_or_app. right. left. reflexivity.
  - apply (IH (pre ++ [(i, ki)]) (i :: dn)) with (x := x) (k := k) (n := n); [rewrite E, <- app_assoc; reflexivity|exact Hw| |exact Hx|exact Hn].
    intros d [->|H]; [right; rewrite map_app; apply in_or_app; right; left; reflexivity|]. destruct (Hd d H) as [|H']; [left; assumption|].
    right. rewrite map_app. apply in_or_app. left. exact H'.
Qed.
Lemma index_app x l l' : index_of x (l ++ l') = if existsb (Nat.eqb x) l then index_of x l else length l + index_of x l'.
Proof.
  induction l as [|a l IH]; [reflexivity|]. cbn [app index_of existsb]. rewrite (Nat.eqb_sym x a). destruct (a =? x) eqn:E; [reflexivity|].
  cbn [orb]. rewrite IH. destruct (existsb _ l); reflexivity.
Qed.
Lemma pos_user n u : In u (cusers g n) -> pos n < pos u.
Proof.
  intros H. apply users_in in H. destruct H as (k & Hk & Hn). apply kind_in in Hk.
  destruct (operand_before [] g D u k n eq_refl W (fun d H => or_introl H) Hk Hn) as [H|(p & s & kn & E & H)].
  - destruct (cwf_nodup g D W) as (_ & O). unfold pos at 1. destruct (existsb _ _) eqn:Ex.
    { exfalso. apply (O n H). apply existsb_exists in Ex. destruct Ex as (y & Hy & Ey). apply Nat.eqb_eq in Ey. subst. exact Hy. }
    unfold pos. replace (existsb (Nat.eqb u) (map fst g)) with true; [lia|]. symmetry. apply existsb_exists. exists u. split; [apply (in_map fst) in Hk; exact Hk|apply Nat.eqb_refl].
  - assert (Nd : NoDup (map fst g)) by apply (cwf_nodup g D W). rewrite E in Nd. rewrite map_app in Nd. cbn [map fst] in Nd.
    unfold pos. replace (existsb (Nat.eqb n) (map fst g)) with true by (symmetry; apply existsb_exists; exists n; split; [rewrite E, map_app; apply in_or_app; right; left; reflexivity|apply Nat.eqb_refl]).
    replace (existsb (Nat.eqb u) (map fst g)) with true by (symmetry; apply existsb_exists; exists u; split; [apply (in_map fst) in Hk; exact Hk|apply Nat.eqb_refl]).
    rewrite E, map_app. cbn [map fst]. rewrite !index_app.
    assert (Hu : In u (map fst s)) by (apply (in_map fst) in H; exact H).
    destruct (existsb (Nat.eqb n) (map fst p)) eqn:E1.
    { exfalso. apply existsb_exists in E1. destruct E1 as (y & Hy & Ey). apply Nat.eqb_eq in Ey. subst y. apply NoDup_remove_2 in Nd. apply Nd. apply in_or_app. left. exact Hy. }
    destruct (existsb (Nat.eqb u) (map fst p)) eqn:E2.
    { exfalso. apply existsb_exists in E2. destruct E2 as (y & Hy & Ey). apply Nat.eqb_eq in Ey. subst y. clear - Nd Hy Hu.
      apply NoDup_remove_1 in Nd. induction (map fst p) as [|a l IH]; [destruct Hy|]. cbn [app] in Nd. inversion Nd; subst.
      destruct Hy as [->|Hy]; [apply H1; apply in_or_app; right; exact Hu|apply IH; assumption]. }
    cbn [index_of]. rewrite Nat.eqb_refl. destruct (Nat.eqb_spec n u) as [->|]; [|lia].
    exfalso. apply NoDup_remove_2 in Nd. apply Nd. apply in_or_app. right. exact Hu.
Qed.
Lemma inv_user z f y : ckind_of g z = Some (CInv f y) -> In z (cusers g y).
Proof. intros H. apply users_in. exists (CInv f y). split; [exact H|left; reflexivity]. Qed.
Lemma desc_pos x y : desc x y -> pos x <= pos y.
Proof. induction 1 as [|y z f _ IH K]; [lia|]. pose proof (pos_user y z (inv_user _ _ _ K)). lia. Qed.
Lemma desc_trans x y z : desc x y -> desc y z -> desc x z.
Proof. intros H. induction 1 as [|a b f _ IH K]; [exact H|]. eapply desc_inv; eauto. Qed.
(** The first step of a chain. *)
Lemma desc_head x y : desc x y <-> x = y \/ exists u f, ckind_of g u = Some (CInv f x) /\ desc u y.
Proof.
  split.
  - induction 1 as [|y z f H IH K]; [left; reflexivity|right]. destruct IH as [<-|(u & h & Ku & Hu)].
    + exists z, f. split; [exact K|constructor].
    + exists u, h. split; [exact Ku|]. eapply desc_inv; eauto.
  - intros [<-|(u & f & K & H)]; [constructor|]. apply desc_trans with u; [|exact H]. eapply desc_inv; [constructor|exact K].
Qed.
Lemma desc_linear x y z : desc x z -> desc y z -> desc x y \/ desc y x.
Proof.
  intros H. revert y. induction H as [|a b f H IH K]; intros y Hy; [right; exact Hy|].
  inversion Hy as [|a' b' f' Hy' K']; subst; [left; eapply desc_inv; eauto|].
  assert (a' = a) by congruence. subst. apply IH. exact Hy'.
Qed.
(** Two different starts that are no invariant operators share no descendant. *)
Lemma desc_root x y : desc x y -> ~ is_inv y -> x = y.
Proof. intros H N. inversion H; subst; [reflexivity|]. exfalso. apply N. eexists. eexists. eassumption. Qed.
Lemma roots_disjoint x y z : ~ is_inv x -> ~ is_inv y -> desc x z -> desc y z -> x = y.
Proof. intros Nx Ny Hx Hy. destruct (desc_linear x y z Hx Hy) as [H|H]; [apply desc_root; assumption|symmetry; apply desc_root; assumption]. Qed.
Lemma siblings_disjoint n u u' f f' z : ckind_of g u = Some (CInv f n) -> ckind_of g u' = Some (CInv f' n) -> desc u z -> desc u' z -> u = u'.
Proof.
  intros K K' H H'.
  assert (G : forall a b fa, ckind_of g a = Some (CInv fa n) -> forall fb, ckind_of g b = Some (CInv fb n) -> desc a b -> a = b).
  { intros a b fa Ka fb Kb Hab. inversion Hab as [|c d h Hc Kc]; subst; [reflexivity|exfalso]. assert (c = n) by congruence. subst c.
    apply desc_pos in Hc. pose proof (pos_user n a (inv_user _ _ _ Ka)). lia. }
  destruct (desc_linear u u' z H H') as [X|X]; [eapply G; eauto|symmetry; eapply G; eauto].
Qed.
Lemma dedup_nodup l : NoDup l -> dedup l = l.
Proof.
  induction 1 as [|a l Na N IH]; [reflexivity|]. cbn [dedup]. rewrite IH. f_equal. clear - Na. induction l as [|b l IH]; [reflexivity|].
  cbn [filter]. destruct (Nat.eqb_spec b a) as [->|Ne]; [exfalso; apply Na; left; reflexivity|]. cbn [negb]. f_equal. apply IH. intros H. apply Na. right. exact H.
Qed.

(** ** Channel dimensions *)
Lemma dedup_in a l : In a (dedup l) <-> In a l.
Proof.
  induction l as [|b l IH]; [reflexivity|]. cbn [dedup In]. rewrite filter_In, IH. split.
  - intros [|(H & _)]; auto.
  - intros [|H]; [auto|]. destruct (Nat.eqb_spec a b) as [->|Ne]; [auto|]. right. split; [exact H|]. reflexivity.
Qed.
Lemma channel_dim_width b w : width b w -> forall f, pos b < f -> channel_dim g M f b = Some (Some w).
Proof.
  induction 1 as [b m i K|b fn y w K _ IH|b ins w K Ne H IH|b ins K Nd H IH]; intros f Hf; (destruct f as [|f]; [lia|]); cbn [channel_dim]; rewrite K.
  - reflexivity.
  - apply IH. pose proof (pos_user y b (inv_user _ _ _ K)). lia.
  - unfold all_inputs. rewrite K. cbn [operands].
    assert (A : forall a, In a (dedup ins) -> channel_dim g M f a = Some (Some w)).
    { intros a Ha. apply (proj1 (dedup_in _ _)) in Ha. apply IH; [exact Ha|]. assert (X : In b (cusers g a)) by (apply users_in; exists (CAdd ins); split; [exact K|exact Ha]). apply pos_user in X. lia. }
    destruct ins as [|a0 ins]; [congruence|]. cbn [dedup] in *. set (rest := filter _ _) in *. clearbody rest.
    rewrite (A a0 (or_introl eq_refl)). assert (R : forall r, In r rest -> channel_dim g M f r = Some (Some w)) by (intros; apply A; right; assumption).
    clear - R. induction rest as [|r rest IH]; [reflexivity|]. cbn [fold_left]. rewrite (R r (or_introl eq_refl)), Nat.eqb_refl. apply IH. intros; apply R; right; assumption.
  - unfold all_inputs. rewrite K. cbn [operands]. rewrite dedup_nodup by exact Nd.
    assert (A : forall a w, In (a, w) ins -> channel_dim g M f a = Some (Some w)).
    { intros a w Ha. apply IH; [exact Ha|]. assert (X : In b (cusers g a)) by (apply users_in; exists (CCat ins); split; [exact K|cbn [operands]; apply (in_map fst) in Ha; exact Ha]). apply pos_user in X. lia. }
    clear - A. enough (G : forall x, fold_left (fun acc b0 => match acc with Some (Some x) => match channel_dim g M f b0 with Some (Some y) => Some (Some (x + y)) | _ => None end | _ => None end) (map fst ins) (Some (Some x)) = Some (Some (x + list_sum (map snd ins)))) by apply G.
    induction ins as [|[a w] ins IH]; intros x; [cbn; rewrite Nat.add_0_r; reflexivity|]. cbn [map fst snd fold_left list_sum fold_right]. rewrite (A a w (or_introl eq_refl)).
    rewrite IH by (intros; apply A; right; assumption). do 2 f_equal. unfold list_sum. lia.
Qed.
Lemma all_dims_widths f ins : (forall a w, In (a, w) ins -> channel_dim g M f a = Some (Some w)) ->
  all_dims (map (channel_dim g M f) (map fst ins)) = Some (Some (map snd ins)).
Proof.
  induction ins as [|[a w] ins IH]; intros A; [reflexivity|]. cbn [map fst snd all_dims fold_right]. fold (all_dims (map (channel_dim g M f) (map fst ins))).
  rewrite (A a w (or_introl eq_refl)), IH by (intros; apply A; right; assumption). reflexivity.
Qed.
Lemma slice_index ins n w : NoDup (map fst ins) -> In (n, w) ins ->
  fold_right Nat.add 0 (firstn (index_of n (map fst ins)) (map snd ins)) = slice_start ins n /\ nth (index_of n (map fst ins)) (map snd ins) 0 = w.
Proof.
  induction ins as [|[a x] ins IH]; [intros _ []|]. cbn [map fst snd index_of slice_start]. intros Nd H. inversion Nd as [|? ? Na Nd']; subst.
  destruct (Nat.eqb_spec a n) as [->|Ne].
  - destruct H as [E|H]; [injection E as ->; auto|]. exfalso. apply Na. apply (in_map fst) in H. exact H.
  - destruct H as [E|H]; [congruence|]. destruct (IH Nd' H) as (A & B). cbn [firstn fold_right nth]. split; [f_equal; exact A|exact B].
Qed.

(** ** The downward walk *)
Lemma entry_eqb_eq x y : entry_eqb x y = true <-> x = y.
Proof.
  destruct x as [m [a b c]], y as [m' [a' b' c']]. unfold entry_eqb, idx_eqb. cbn [fst snd i_start i_end i_off].
  rewrite !andb_true_iff, !Nat.eqb_eq. split; [intros (-> & (-> & ->) & ->); reflexivity|intros E; injection E; auto].
Qed.
Lemma put_in x l e : In e (put x l) <-> In e l \/ e = x.
Proof.
  unfold put. destruct (existsb _ l) eqn:E.
  - apply existsb_exists in E. destruct E as (y & Hy & E). apply entry_eqb_eq in E. subst. split; [auto|]. intros [H| ->]; assumption.
  - rewrite in_app_iff. cbn [In]. split; intros [H|H]; auto. destruct H as [<-|[]]. auto.
Qed.
Lemma put_nodup x l : NoDup l -> NoDup (put x l).
Proof.
  intros N. unfold put. destruct (existsb _ l) eqn:E; [exact N|].
  assert (H : ~ In x l). { intros H. enough (existsb (entry_eqb x) l = true) by congruence. apply existsb_exists. exists x. split; [exact H|apply entry_eqb_eq; reflexivity]. }
  clear E. induction N as [|a l Na N IH]; [repeat constructor; intros []|]. cbn [app]. constructor.
  - rewrite in_app_iff. cbn [In] in *. intros [|[<-|[]]]; tauto.
  - apply IH. intros K. apply H. right. exact K.
Qed.
Lemma seen_in st e : c_seen st e = true <-> In e (c_hist st).
Proof.
  unfold c_seen. rewrite existsb_exists. destruct e as [a b]. cbn [fst snd]. split.
  - intros ([x y] & H & E). cbn [fst snd] in E. apply andb_true_iff in E. rewrite !Nat.eqb_eq in E. destruct E as (-> & ->). exact H.
  - intros H. exists (a, b). split; [exact H|]. cbn [fst snd]. rewrite !Nat.eqb_refl. reflexivity.
Qed.

(** [st'] extends [st] by the edges [E] and the sinks [K] and is otherwise the same. *)
Definition ext (st st' : cstate) (E : nat * nat -> Prop) (K : entry -> Prop) : Prop :=
  (c_srcs st' = c_srcs st /\ c_bad st' = c_bad st /\ c_cat st' = c_cat st /\ c_off st' = c_off st /\ c_upd st' = c_upd st /\ c_err st' = c_err st)
  /\ (forall e, In e (c_hist st') <-> In e (c_hist st) \/ E e)
  /\ (forall e, In e (c_sinks st') <-> In e (c_sinks st) \/ K e)
  /\ (forall x, In x (c_names st) -> In x (c_names st')) /\ (forall e, K e -> In (fst e) (c_names st'))
  /\ (NoDup (c_sinks st) -> NoDup (c_sinks st')).
Lemma ext_trans a b c E K E' K' : ext a b E K -> ext b c E' K' -> ext a c (fun e => E e \/ E' e) (fun e => K e \/ K' e).
Proof.
  intros ((A1 & A2 & A3 & A4 & A5 & A6) & AH & AS & AN & AK & AD) ((B1 & B2 & B3 & B4 & B5 & B6) & BH & BS & BN & BK & BD).
  split; [repeat split; congruence|]. split; [intros e; rewrite BH, AH; tauto|]. split; [intros e; rewrite BS, AS; tauto|].
  split; [auto|]. split; [intros e [H|H]; auto|auto].
Qed.
Lemma ext_iff a b E K E' K' : (forall e, E e <-> E' e) -> (forall e, K e <-> K' e) -> ext a b E K -> ext a b E' K'.
Proof.
  intros HE HK (A & AH & AS & AN & AK & AD). split; [exact A|]. split; [intros e; rewrite AH, HE; tauto|]. split; [intros e; rewrite AS, HK; tauto|].
  split; [exact AN|]. split; [intros e H; apply AK, HK, H|exact AD].
Qed.
Lemma ext_refl a : ext a a (fun _ => False) (fun _ => False).
Proof. split; [repeat split|]. split; [tauto|]. split; [tauto|]. split; [auto|]. split; [tauto|auto]. Qed.
Lemma ext_visit st e : ext st (c_visit st e) (fun x => x = e) (fun _ => False).
Proof.
  split; [repeat split|]. split; [intros x; cbn [c_visit c_hist In]; split; intros [H|H]; auto|]. split; [cbn; tauto|]. split; [auto|]. split; [tauto|auto].
Qed.
Lemma ext_sink st m x : ext st (add_c_sink m x st) (fun _ => False) (fun e => e = (m, x)).
Proof.
  split; [repeat split|]. split; [cbn; tauto|]. split; [intros e; cbn [add_c_sink c_sinks]; apply put_in|].
  split; [intros y H; right; exact H|]. split; [intros e ->; left; reflexivity|]. cbn. apply put_nodup.
Qed.
Lemma ext_sinks x : forall (l : list entry) st, ext st (fold_left (fun st e => add_c_sink (fst e) x st) l st) (fun _ => False) (fun e => exists d, In d l /\ e = (fst d, x)).
Proof.
  induction l as [|d l IH]; intros st; cbn [fold_left].
  - eapply ext_iff; [| |apply ext_refl]; [tauto|]. intros e. split; [tauto|intros (? & [] & _)].
  - eapply ext_iff; [| |eapply ext_trans; [apply ext_sink|apply IH]]; [tauto|]. intros e. cbn beta. split.
    + intros [->|(d' & H & ->)]; [exists d; split; [left; reflexivity|reflexivity]|exists d'; split; [right; exact H|reflexivity]].
    + intros (d' & [->|H] & ->); [left; reflexivity|right; exists d'; auto].
Qed.

Definition dstep (f n : nat) (upd : bool) (st : cstate) (u : nat) : cstate :=
  if c_seen st (n, u) then st else
  let st := c_visit st (n, u) in
  match ckind_of g u with
  | Some (CLayer m _) => if is_norm (M m) then set_c_bad st else add_c_sink m (I 0 (in_size (M m)) (c_off st)) st
  | Some (CInv _ _) => cwalk g M f Down u st
  | Some (CAdd _) => set_c_upd upd (cwalk g M f Up u (cwalk g M f Down u (set_c_upd false st)))
  | Some (CCat _) =>
      if negb (c_cat st) then cwalk g M f Restart u st
      else
        match all_dims (map (channel_dim g M f) (all_inputs g u)) with
        | None => set_c_err st
        | Some None => set_c_bad st
        | Some (Some dims) =>
            let index := index_of n (all_inputs g u) in
            let start := fold_right Nat.add 0%nat (firstn index dims) in
            let stop := (start + nth index dims 0)%nat in
            let new := cwalk g M f Down u (c_init (c_off st)) in
            let st := fold_left (fun st e => add_c_sink (fst e) (I start stop (c_off new)) st) (c_sinks new) st in
            let st := fold_left (fun st e => upd_c_src e st) (c_srcs new) st in
            if c_err new then set_c_err st else st
        end
  | _ => set_c_bad st
  end.
Lemma walk_down f n st : cwalk g M (S f) Down n st = fold_left (dstep f n (c_upd st)) (cusers g n) st.
Proof. reflexivity. Qed.

Variable v : nat.
Definition edgeU (n u : nat) (e : nat * nat) : Prop :=
  e = (n, u) \/ (is_inv u /\ exists y z, desc u y /\ In z (cusers g y) /\ e = (y, z)).
Definition sinkU (off n u : nat) (e : entry) : Prop :=
  snk v off n u e \/ (is_inv u /\ exists y z, desc u y /\ In z (cusers g y) /\ snk v off y z e).
Definition fresh (st : cstate) (n u : nat) : Prop :=
  ~ In (n, u) (c_hist st) /\ (is_inv u -> forall y z, desc u y -> ~ In (y, z) (c_hist st)).
Lemma inv_of_user n u : In u (cusers g n) -> is_inv u -> exists f, ckind_of g u = Some (CInv f n).
Proof. intros H (f & y & K). apply users_in in H. destruct H as (k & K' & Hn). assert (k = CInv f y) by congruence. subst k. cbn in Hn. destruct Hn as [->|[]]. exists f. exact K. Qed.
Lemma edges_below u e : (exists y z, desc u y /\ In z (cusers g y) /\ e = (y, z)) <-> exists z, In z (cusers g u) /\ edgeU u z e.
Proof.
  split.
  - intros (y & z & H & Hz & ->). apply desc_head in H. destruct H as [<-|(w & f & K & H)]; [exists z; split; [exact Hz|left; reflexivity]|].
    exists w. split; [eapply inv_user; exact K|]. right. split; [exists f, u; exact K|]. exists y, z. auto.
  - intros (w & Hw & [->|(I' & y & z & H & Hz & ->)]); [exists u, w; split; [constructor|auto]|].
    destruct (inv_of_user u w Hw I') as (f & K). exists y, z. split; [|auto]. apply desc_head. right. exists w, f. auto.
Qed.
Lemma sinks_below off u e : (exists y z, desc u y /\ In z (cusers g y) /\ snk v off y z e) <-> exists z, In z (cusers g u) /\ sinkU off u z e.
Proof.
  split.
  - intros (y & z & H & Hz & S'). apply desc_head in H. destruct H as [<-|(w & f & K & H)]; [exists z; split; [exact Hz|left; exact S']|].
    exists w. split; [eapply inv_user; exact K|]. right. split; [exists f, u; exact K|]. exists y, z. auto.
  - intros (w & Hw & [S'|(I' & y & z & H & Hz & S')]); [exists u, w; split; [constructor|auto]|].
    destruct (inv_of_user u w Hw I') as (f & K). exists y, z. split; [|auto]. apply desc_head. right. exists w, f. auto.
Qed.
Lemma snk_inv off y z e f i : ckind_of g z = Some (CInv f i) -> ~ snk v off y z e.
Proof. intros K [(m & j & K' & _)|(_ & ins & w & y' & z' & m & j & K' & _)]; congruence. Qed.
Lemma inv_irrefl n u : In u (cusers g n) -> n <> u.
Proof. intros H E. subst. apply pos_user in H. lia. Qed.

Lemma down_users : forall k n, length g - pos n < k -> forall f, k + S (length g) <= f -> forall upd us st, incl us (cusers g n) -> NoDup us ->
  (forall u, In u us -> In (n, u) (c_hist st) \/ (fresh st n u /\ treeU v (c_cat st) n u)) ->
  ext st (fold_left (dstep f n upd) us st) (fun e => exists u, In u us /\ ~ In (n, u) (c_hist st) /\ edgeU n u e)
      (fun e => exists u, In u us /\ ~ In (n, u) (c_hist st) /\ sinkU (c_off st) n u e).
Proof.
  induction k as [|k IHk]; intros n Hk f Hf upd; [lia|]. induction us as [|u us IHu]; intros st Hin Nd Hu.
  { eapply ext_iff; [| |apply ext_refl]; intros e; split; try tauto; intros (? & [] & _). }
  cbn [fold_left]. inversion Nd as [|? ? Nu Nd']; subst.
  assert (Un : In u (cusers g n)) by (apply Hin; left; reflexivity).
  destruct (Hu u (or_introl eq_refl)) as [Seen|(Fr & Tr)].
  - unfold dstep at 2. rewrite (proj2 (seen_in st (n, u)) Seen).
    eapply ext_iff; [| |apply (IHu st)]; [| |intros x Hx; apply Hin; right; exact Hx|exact Nd'|intros x Hx; apply Hu; right; exact Hx].
    + intros e. split; intros (x & Hx & Nx & Ex); [exists x; split; [right; exact Hx|auto]|]. destruct Hx as [<-|Hx]; [contradiction|exists x; auto].
    + intros e. split; intros (x & Hx & Nx & Ex); [exists x; split; [right; exact Hx|auto]|]. destruct Hx as [<-|Hx]; [contradiction|exists x; auto].
  - assert (Step : ext st (dstep f n upd st u) (edgeU n u) (sinkU (c_off st) n u)).
    { pose proof (pos_user n u Un) as Pu. pose proof (pos_bound u) as Bu.
      unfold dstep. destruct (c_seen st (n, u)) eqn:Es; [apply seen_in in Es; destruct Fr; contradiction|]. cbv zeta.
      destruct Tr as ([[(m & K & Nm)|(h & K)]|(Ct & Nv & ins & K & Ndi & Wd & Tu)] & Ti); rewrite K.
      - (* layer *)
        rewrite Nm. eapply ext_iff; [| |eapply ext_trans; [apply ext_visit|apply ext_sink]].
        + intros e. cbn beta. unfold edgeU. split; [tauto|]. intros [H|((h & y & K') & _)]; [tauto|congruence].
        + intros e. cbn beta. unfold sinkU. change (c_off (c_visit st (n, u))) with (c_off st). split.
          * intros [[]|E]. left. left. exists m, n. auto.
          * intros [[(m' & j & K' & E)|(_ & ins & w & y' & z' & m' & j & K' & _)]|((h & y & K') & _)]; [|congruence..].
            right. assert (m' = m) by congruence. subst m'. exact E.
      - (* invariant operator *)
        assert (Iu : is_inv u) by (exists h, n; exact K). specialize (Ti Iu). destruct Fr as (F1 & F2). specialize (F2 Iu).
        destruct f as [|f]; [lia|]. rewrite walk_down.
        assert (X : ext (c_visit st (n, u)) (fold_left (dstep f u (c_upd (c_visit st (n, u)))) (cusers g u) (c_visit st (n, u)))
                 (fun e => exists z, In z (cusers g u) /\ ~ In (u, z) (c_hist (c_visit st (n, u))) /\ edgeU u z e)
                 (fun e => exists z, In z (cusers g u) /\ ~ In (u, z) (c_hist (c_visit st (n, u))) /\ sinkU (c_off (c_visit st (n, u))) u z e)).
        { apply IHk; [lia|lia|intros x Hx; exact Hx|apply users_nodup|]. intros z Hz. right. split; [split|split].
          - cbn [c_visit c_hist In]. intros [E|H]; [apply (inv_irrefl n u Un); congruence|exact (F2 u z (desc_refl u) H)].
          - intros Iz y z' Hy. destruct (inv_of_user u z Hz Iz) as (hz & Kz). assert (Dy : desc u y) by (apply desc_head; right; exists z, hz; auto).
            cbn [c_visit c_hist In]. intros [E|H]; [|exact (F2 y z' Dy H)]. assert (y = n) by congruence. apply desc_pos in Dy. subst y. lia.
          - apply Ti; [constructor|exact Hz].
          - intros Iz y z' Hy Hz'. destruct (inv_of_user u z Hz Iz) as (hz & Kz). apply Ti; [apply desc_head; right; exists z, hz; auto|exact Hz']. }
        assert (Nn : forall z, In z (cusers g u) -> ~ In (u, z) (c_hist (c_visit st (n, u)))).
        { intros z Hz. cbn [c_visit c_hist In]. intros [E|H]; [apply (inv_irrefl n u Un); congruence|exact (F2 u z (desc_refl u) H)]. }
        eapply ext_iff; [| |eapply ext_trans; [apply ext_visit|exact X]].
        + intros e. cbn beta. unfold edgeU at 2. rewrite edges_below. split.
          * intros [->|(z & Hz & _ & Ez)]; [left; reflexivity|right; split; [exact Iu|exists z; auto]].
          * intros [->|(_ & z & Hz & Ez)]; [left; reflexivity|right; exists z; split; [exact Hz|split; [apply Nn; exact Hz|exact Ez]]].
        + intros e. cbn beta. unfold sinkU at 2. rewrite sinks_below. change (c_off (c_visit st (n, u))) with (c_off st). split.
          * intros [[]|(z & Hz & _ & Ez)]. right. split; [exact Iu|exists z; auto].
          * intros [E|(_ & z & Hz & Ez)]; [exfalso; exact (snk_inv _ _ _ _ _ _ K E)|right; exists z; split; [exact Hz|split; [apply Nn; exact Hz|exact Ez]]].
      - (* second concatenation *)
        change (c_cat (c_visit st (n, u))) with (c_cat st). change (c_off (c_visit st (n, u))) with (c_off st). rewrite Ct. cbn [negb].
        assert (Ai : all_inputs g u = map fst ins) by (unfold all_inputs; rewrite K; cbn [operands]; apply dedup_nodup; exact Ndi). rewrite Ai.
        assert (Ni : exists w, In (n, w) ins).
        { apply users_in in Un. destruct Un as (k' & K' & Hn). assert (k' = CCat ins) by congruence. subst k'. cbn [operands] in Hn. apply in_map_iff in Hn. destruct Hn as ([a w] & E & H). cbn [fst] in E. subst a. exists w. exact H. }
        destruct Ni as (w & Ni).
        rewrite all_dims_widths by (intros a w' Ha; apply channel_dim_width; [apply Wd; exact Ha|pose proof (pos_bound a); lia]).
        destruct (slice_index ins n w Ndi Ni) as (E1 & E2). rewrite E1, E2.
        assert (X : exists E, ext (c_init (c_off st)) (cwalk g M f Down u (c_init (c_off st))) E (fun e => exists z, In z (cusers g u) /\ sinkU (c_off st) u z e)).
        { destruct f as [|f]; [lia|]. rewrite walk_down. eexists. eapply ext_iff; [intros e; apply iff_refl| |apply IHk].
          - intros e. cbn beta. split; [intros (z & Hz & _ & H); exists z; auto|intros (z & Hz & H); exists z; split; [exact Hz|split; [intros []|exact H]]].
          - lia.
          - lia.
          - intros x Hx. exact Hx.
          - apply users_nodup.
          - intros z Hz. right. split; [split; [intros []|intros _ ? ? _ []]|]. split; [left; apply Tu; [constructor|exact Hz]|].
            intros Iz y z' Hy Hz'. left. destruct (inv_of_user u z Hz Iz) as (hz & Kz). apply Tu; [apply desc_head; right; exists z, hz; auto|exact Hz']. }
        set (new := cwalk g M f Down u (c_init (c_off st))) in *. clearbody new.
        destruct X as (Ed & (X1 & X2 & X3 & X4 & X5 & X6) & XH & XS & _). cbn [c_init c_srcs c_err c_off c_sinks] in *.
        rewrite X1, X6, X4. cbn [fold_left].
        eapply ext_iff; [| |eapply ext_trans; [apply ext_visit|apply ext_sinks]].
        + intros e. cbn beta. unfold edgeU. split; [tauto|]. intros [H|((h & y & K') & _)]; [tauto|congruence].
        + intros e. cbn beta. unfold sinkU at 1. split.
          * intros [[]|(d & Hd & ->)]. apply XS in Hd. destruct Hd as [[]|Hd]. apply sinks_below in Hd. destruct Hd as (y & z & Hy & Hz & Sz).
            left. right. split; [exact Nv|]. destruct Sz as [(m & i & Kz & ->)|(_ & ins' & w' & y' & z' & m & i & Kz & _)].
            -- exists ins, w, y, z, m, i. repeat (split; [assumption|]). reflexivity.
            -- exfalso. destruct (Tu y z Hy Hz) as [(m' & K' & _)|(h & K')]; congruence.
          * intros [[(m & i & K' & _)|(_ & ins' & w' & y & z & m & i & K' & Hi & Hy & Hz & Kz & ->)]|((h & y & K') & _)]; [congruence| |congruence].
            assert (ins' = ins) by congruence. subst ins'. assert (w' = w) by (destruct (slice_index ins n w' Ndi Hi); congruence). subst w'.
            right. exists (m, I 0 (in_size (M m)) (c_off st)). split; [|reflexivity]. apply XS. right. apply sinks_below. exists y, z. split; [exact Hy|]. split; [exact Hz|]. left. exists m, i. auto. }
    assert (Hne : forall x, In x us -> ~ edgeU n u (n, x)).
    { intros x Hx [E|(Iu & y & z & Hy & Hz & E)].
      - assert (x = u) by congruence. subst x. contradiction.
      - assert (y = n) by congruence. subst y. apply desc_pos in Hy. pose proof (pos_user n u Un). lia. }
    assert (Hst : forall x, In x us -> In (n, x) (c_hist (dstep f n upd st u)) <-> In (n, x) (c_hist st)).
    { intros x Hx. destruct Step as (_ & SH & _). rewrite SH. specialize (Hne x Hx). tauto. }
    assert (So : c_off (dstep f n upd st u) = c_off st) by apply Step.
    assert (Sc : c_cat (dstep f n upd st u) = c_cat st) by apply Step.
    eapply ext_iff; [| |eapply ext_trans; [exact Step|apply IHu]]; [| |intros x Hx; apply Hin; right; exact Hx|exact Nd'|].
    + intros e. cbn beta. split.
      * intros [H|(x & Hx & Nx & H)]; [exists u; split; [left; reflexivity|split; [exact (proj1 Fr)|exact H]]|].
        exists x. split; [right; exact Hx|]. split; [rewrite <- Hst by exact Hx; exact Nx|exact H].
      * intros (x & [<-|Hx] & Nx & H); [left; exact H|]. right. exists x. split; [exact Hx|]. split; [rewrite Hst by exact Hx; exact Nx|exact H].
    + intros e. cbn beta. rewrite So. split.
      * intros [H|(x & Hx & Nx & H)]; [exists u; split; [left; reflexivity|split; [exact (proj1 Fr)|exact H]]|].
        exists x. split; [right; exact Hx|]. split; [rewrite <- Hst by exact Hx; exact Nx|exact H].
      * intros (x & [<-|Hx] & Nx & H); [left; exact H|]. right. exists x. split; [exact Hx|]. split; [rewrite Hst by exact Hx; exact Nx|exact H].
    + intros x Hx. rewrite Sc. assert (Ux : In x (cusers g n)) by (apply Hin; right; exact Hx).
      destruct (Hu x (or_intror Hx)) as [Sx|(Fx & Tx)]; [left; apply Hst; assumption|right]. split; [|exact Tx].
      split; [rewrite Hst by exact Hx; exact (proj1 Fx)|]. intros Ix y z Hy Hh. destruct Step as (_ & SH & _). apply SH in Hh. destruct Hh as [Hh|Hh].
      { exact (proj2 Fx Ix y z Hy Hh). }
      destruct Hh as [E|(Iu & y' & z' & Hy' & Hz' & E)].
      * assert (y = n) by congruence. subst y. apply desc_pos in Hy. pose proof (pos_user n x Ux). lia.
      * assert (y' = y) by congruence. subst y'. destruct (inv_of_user n u Un Iu) as (h1 & K1). destruct (inv_of_user n x Ux Ix) as (h2 & K2).
        assert (u = x) by (eapply siblings_disjoint; eauto). subst x. contradiction.
Qed.

(** ** One branch of the concatenation *)
Lemma ext_src m x st st' E K : ext st st' E K -> ext (add_c_src m x st) (add_c_src m x st') E K.
Proof.
  intros ((A1 & A2 & A3 & A4 & A5 & A6) & AH & AS & AN & AK & AD). split; [cbn; rewrite A1; repeat split; assumption|].
  split; [exact AH|]. split; [exact AS|]. cbn [add_c_src c_names In]. split; [intros y [->|H]; auto|]. split; [auto|exact AD].
Qed.
Definition ustep (f n : nat) (upd : bool) (st : cstate) (i : nat) : cstate :=
  if c_seen st (i, n) then st else
  let st := c_visit st (i, n) in
  match ckind_of g i with
  | Some (CLayer m _) =>
      let w := out_size (M m) in
      let st := cwalk g M f Down i (add_c_src m (I 0 w (c_off st)) st) in
      if c_upd st then set_c_off (c_off st + w) st else st
  | Some (CInv _ _) => cwalk g M f Up i (cwalk g M f Down i st)
  | Some (CAdd _) => set_c_upd upd (cwalk g M f Up i (cwalk g M f Down i (set_c_upd false st)))
  | Some (CCat _) =>
      if negb (c_cat st) then cwalk g M f Restart i st
      else set_c_upd upd (cwalk g M f Up i (set_c_upd true (cwalk g M f Down i (set_c_upd false st))))
  | _ => set_c_bad st
  end.
Lemma walk_up f n st : cwalk g M (S f) Up n st = fold_left (ustep f n (c_upd st)) (all_inputs g n) st.
Proof. reflexivity. Qed.

Definition doneQ (n x : nat) : Prop := is_inv n /\ desc n x.
Section Branch.
Variables (ins : list (nat * nat)) (l a : nat).
Hypothesis Kv : ckind_of g v = Some (CCat ins).
Hypothesis Br : forall y z, desc l y -> In z (cusers g y) -> z = v \/ userok v true y z.
Hypothesis Ov : forall x, desc l x -> In v (cusers g x) -> x = a.

Lemma not_inv_v : ~ is_inv v.
Proof. intros (f & y & K). congruence. Qed.
Lemma doneQ_user i n : In n (cusers g i) -> ~ doneQ n i.
Proof. intros H (_ & X). apply desc_pos in X. apply pos_user in H. lia. Qed.

Lemma chain_down i n f st : desc l i -> In n (cusers g i) -> (n = v /\ i = a) \/ (is_inv n /\ desc n a) ->
  2 * S (length g) < f -> c_cat st = true -> (forall x z, desc l x -> In (x, z) (c_hist st) -> doneQ n x) ->
  ext st (cwalk g M f Down i (c_visit st (i, n)))
    (fun e => exists y z, desc i y /\ ~ doneQ n y /\ In z (cusers g y) /\ e = (y, z))
    (fun e => exists y z, desc i y /\ ~ doneQ n y /\ In z (cusers g y) /\ snk v (c_off st) y z e).
Proof.
  intros Hi Hn Hp Hf Ct Hh. destruct f as [|f]; [lia|]. rewrite walk_down.
  assert (Ni : forall u, In u (cusers g i) -> u <> n -> ~ In (i, u) (c_hist (c_visit st (i, n)))).
  { intros u Hu Ne. cbn [c_visit c_hist In]. intros [E|H]; [congruence|]. exact (doneQ_user i n Hn (Hh i u Hi H)). }
  assert (X : ext (c_visit st (i, n)) (fold_left (dstep f i (c_upd (c_visit st (i, n)))) (cusers g i) (c_visit st (i, n)))
            (fun e => exists u, In u (cusers g i) /\ ~ In (i, u) (c_hist (c_visit st (i, n))) /\ edgeU i u e)
            (fun e => exists u, In u (cusers g i) /\ ~ In (i, u) (c_hist (c_visit st (i, n))) /\ sinkU (c_off (c_visit st (i, n))) i u e)).
  { apply (down_users (S (length g))); [pose proof (pos_bound i); lia|lia|intros x Hx; exact Hx|apply users_nodup|].
    intros u Hu. destruct (Nat.eq_dec u n) as [->|Ne]; [left; left; reflexivity|right].
    assert (Hdis : is_inv u -> forall y, desc u y -> desc i y /\ ~ doneQ n y).
    { intros Iu y Hy. destruct (inv_of_user i u Hu Iu) as (h & K). split; [apply desc_head; right; exists u, h; auto|].
      intros (In' & Hny). destruct (inv_of_user i n Hn In') as (h' & K'). apply Ne. eapply siblings_disjoint; eauto. }
    assert (Nuv : forall y, (y = i /\ u = v) \/ (is_inv u /\ desc u y /\ In v (cusers g y)) -> False).
    { intros y [(-> & ->)|(Iu & Hy & Hvy)].
      - assert (i = a) by (apply Ov; assumption). subst i. destruct Hp as [(-> & _)|(In' & Ha)]; [congruence|].
        apply desc_pos in Ha. apply pos_user in Hn. lia.
      - destruct (Hdis Iu y Hy) as (Hiy & Nq). assert (y = a) by (apply Ov; [eapply desc_trans; eauto|exact Hvy]). subst y.
        destruct Hp as [(-> & ->)|Hp]; [apply desc_pos in Hy; apply pos_user in Hu; lia|]. exact (Nq Hp). }
    split; [split|split].
    - apply Ni; assumption.
    - intros Iu y z Hy. destruct (Hdis Iu y Hy) as (Hiy & Nq). cbn [c_visit c_hist In]. intros [E|H].
      + assert (y = i) by congruence. subst y. apply desc_pos in Hy. apply pos_user in Hu. lia.
      + apply Nq. apply (Hh y z); [eapply desc_trans; eauto|exact H].
    - cbn [c_visit c_cat]. rewrite Ct. destruct (Br i u Hi Hu) as [->|H]; [exfalso; apply (Nuv i); auto|exact H].
    - intros Iu y z Hy Hz. cbn [c_visit c_cat]. rewrite Ct. destruct (Hdis Iu y Hy) as (Hiy & Nq).
      destruct (Br y z (desc_trans _ _ _ Hi Hiy) Hz) as [->|H]; [exfalso; apply (Nuv y); auto|exact H]. }
  eapply ext_iff; [| |eapply ext_trans; [apply ext_visit|exact X]].
  - intros e. cbn beta. split.
    + intros [->|(u & Hu & Nh & Hu')].
      * exists i, n. split; [constructor|]. split; [apply doneQ_user; exact Hn|auto].
      * assert (Ne : u <> n) by (intros ->; apply Nh; left; reflexivity). destruct Hu' as [->|(Iu & y & z & Hy & Hz & ->)].
        -- exists i, u. split; [constructor|]. split; [apply doneQ_user; exact Hn|auto].
        -- destruct (inv_of_user i u Hu Iu) as (h & K). exists y, z. split; [apply desc_head; right; exists u, h; auto|]. split; [|auto].
           intros (In' & Hny). destruct (inv_of_user i n Hn In') as (h' & K'). apply Ne. eapply siblings_disjoint; eauto.
    + intros (y & z & Hy & Nq & Hz & ->). apply desc_head in Hy. destruct Hy as [<-|(u & h & K & Hy)].
      * destruct (Nat.eq_dec z n) as [->|Ne]; [left; reflexivity|right]. exists z. split; [exact Hz|]. split; [apply Ni; assumption|left; reflexivity].
      * right. pose proof (inv_user _ _ _ K) as Hu. assert (Iu : is_inv u) by (exists h, i; exact K). exists u. split; [exact Hu|].
        assert (Ne : u <> n) by (intros ->; apply Nq; split; assumption). split; [apply Ni; assumption|]. right. split; [exact Iu|]. exists y, z. auto.
  - intros e. cbn beta. change (c_off (c_visit st (i, n))) with (c_off st). split.
    + intros [[]|(u & Hu & Nh & Hu')]. assert (Ne : u <> n) by (intros ->; apply Nh; left; reflexivity). destruct Hu' as [Hs|(Iu & y & z & Hy & Hz & Hs)].
      * exists i, u. split; [constructor|]. split; [apply doneQ_user; exact Hn|auto].
      * destruct (inv_of_user i u Hu Iu) as (h & K). exists y, z. split; [apply desc_head; right; exists u, h; auto|]. split; [|auto].
        intros (In' & Hny). destruct (inv_of_user i n Hn In') as (h' & K'). apply Ne. eapply siblings_disjoint; eauto.
    + intros (y & z & Hy & Nq & Hz & Hs). right. apply desc_head in Hy. destruct Hy as [<-|(u & h & K & Hy)].
      * destruct (Nat.eq_dec z n) as [->|Ne].
        -- exfalso. destruct Hp as [(-> & _)|((h & y & K) & _)]; [|exact (snk_inv _ _ _ _ _ _ K Hs)].
           destruct Hs as [(m & j & K & _)|(Nv & _)]; [congruence|apply Nv; reflexivity].
        -- exists z. split; [exact Hz|]. split; [apply Ni; assumption|left; exact Hs].
      * pose proof (inv_user _ _ _ K) as Hu. assert (Iu : is_inv u) by (exists h, i; exact K). exists u. split; [exact Hu|].
        assert (Ne : u <> n) by (intros ->; apply Nq; split; assumption). split; [apply Ni; assumption|]. right. split; [exact Iu|]. exists y, z. auto.
Qed.

Lemma up_chain m i0 : ckind_of g l = Some (CLayer m i0) -> forall i, desc l i -> forall n, In n (cusers g i) ->
  (n = v /\ i = a) \/ (is_inv n /\ desc n a) -> forall f upd st, 2 * S (length g) + pos i < f -> c_cat st = true -> c_upd st = true ->
  (forall x z, desc l x -> In (x, z) (c_hist st) -> doneQ n x) ->
  exists s1, ustep f n upd st i = set_c_off (c_off st + out_size (M m)) s1
   /\ ext (add_c_src m (I 0 (out_size (M m)) (c_off st)) st) s1
    (fun e => exists y z, desc l y /\ ~ doneQ n y /\ In z (cusers g y) /\ e = (y, z))
    (fun e => exists y z, desc l y /\ ~ doneQ n y /\ In z (cusers g y) /\ snk v (c_off st) y z e).
Proof.
  intros Kl i Hi. induction Hi as [|y z h Hy IH K]; intros n Hn Hp f upd st Hf Ct Cu Hh.
  - unfold ustep. destruct (c_seen st (l, n)) eqn:Es.
    { exfalso. apply seen_in in Es. exact (doneQ_user l n Hn (Hh l n (desc_refl l) Es)). }
    cbv zeta. rewrite Kl. change (c_off (c_visit st (l, n))) with (c_off st).
    change (add_c_src m (I 0 (out_size (M m)) (c_off st)) (c_visit st (l, n))) with (c_visit (add_c_src m (I 0 (out_size (M m)) (c_off st)) st) (l, n)).
    pose proof (chain_down l n f (add_c_src m (I 0 (out_size (M m)) (c_off st)) st) (desc_refl l) Hn Hp ltac:(lia) Ct Hh) as X.
    set (s1 := cwalk g M f Down l _) in *. clearbody s1. assert (c_upd s1 = true) as -> by (destruct X as ((_ & _ & _ & _ & -> & _) & _); exact Cu).
    assert (c_off s1 = c_off st) as -> by (destruct X as ((_ & _ & _ & -> & _) & _); reflexivity).
    exists s1. split; [reflexivity|]. exact X.
  - pose proof (inv_user _ _ _ K) as Hz. assert (Iz : is_inv z) by (exists h, y; exact K).
    unfold ustep. destruct (c_seen st (z, n)) eqn:Es.
    { exfalso. apply seen_in in Es. refine (doneQ_user z n Hn (Hh z n _ Es)). eapply desc_inv; eauto. }
    cbv zeta. rewrite K. assert (Dz : desc l z) by (eapply desc_inv; eauto).
    pose proof (chain_down z n f st Dz Hn Hp ltac:(lia) Ct Hh) as X.
    set (sA := cwalk g M f Down z _) in *. clearbody sA. destruct f as [|f]; [lia|]. rewrite walk_up.
    unfold all_inputs. rewrite K. cbn [operands dedup filter fold_left].
    assert (Qd : forall x, doneQ n x -> desc z x).
    { intros x (In' & Hx). destruct (inv_of_user z n Hn In') as (h' & K'). apply desc_head. right. exists n, h'. auto. }
    assert (Oa : c_off sA = c_off st) by apply X. assert (Ca : c_cat sA = true) by (rewrite <- Ct; apply X). assert (Ua : c_upd sA = true) by (rewrite <- Cu; apply X).
    destruct (IH z Hz) with (f := f) (upd := c_upd sA) (st := sA) as (s1 & -> & X1); [right; split; [exact Iz|]| |exact Ca|exact Ua| |].
    + destruct Hp as [(_ & ->)|Hp]; [constructor|]. apply Qd. exact Hp.
    + pose proof (pos_user y z Hz). lia.
    + intros x t Hx Ht. split; [exact Iz|]. apply X in Ht. destruct Ht as [Ht|(y' & z' & Hy' & _ & _ & E)].
      * apply Qd. apply (Hh x t); assumption.
      * assert (y' = x) by congruence. subst y'. exact Hy'.
    + rewrite Oa in *. exists s1. split; [reflexivity|].
      assert (Sub : forall x, (desc z x /\ ~ doneQ n x) \/ (desc l x /\ ~ doneQ z x) <-> desc l x /\ ~ doneQ n x).
      { intros x. split.
        - intros [(H & N)|(H & N)]; [split; [eapply desc_trans; eauto|exact N]|]. split; [exact H|]. intros Q. apply N. split; [exact Iz|apply Qd; exact Q].
        - intros (H & N). destruct (classic (desc z x)) as [C|C]; [left; auto|right]. split; [exact H|]. intros (_ & C'). contradiction. }
      eapply ext_iff; [| |eapply ext_trans; [apply ext_src; exact X|exact X1]].
      * intros e. cbn beta. split.
        -- intros [(y1 & z1 & A & B & Cc & F)|(y1 & z1 & A & B & Cc & F)]; exists y1, z1; (destruct (proj1 (Sub y1)) as (P & Q); [auto|]); auto.
        -- intros (y1 & z1 & A & B & Cc & F). destruct (proj2 (Sub y1) (conj A B)) as [(P & Q)|(P & Q)]; [left|right]; exists y1, z1; auto.
      * intros e. cbn beta. split.
        -- intros [(y1 & z1 & A & B & Cc & F)|(y1 & z1 & A & B & Cc & F)]; exists y1, z1; (destruct (proj1 (Sub y1)) as (P & Q); [auto|]); auto.
        -- intros (y1 & z1 & A & B & Cc & F). destruct (proj2 (Sub y1) (conj A B)) as [(P & Q)|(P & Q)]; [left|right]; exists y1, z1; auto.
Qed.
End Branch.

(** ** The whole block *)
(** A branch: a layer node, its module, and the operand of the concatenation computed from it. *)
Record branch := B { b_layer : nat; b_mod : nat; b_end : nat }.
Definition b_width (b : branch) : nat := out_size (M (b_mod b)).
(** Branches with the first channel they occupy. *)
Fixpoint placed (off : nat) (bs : list branch) : list (branch * nat) :=
  match bs with [] => [] | b :: bs => (b, off) :: placed (off + b_width b) bs end.
Record block (bs : list branch) : Prop := {
  bl_cat : ckind_of g v = Some (CCat (map (fun b => (b_end b, b_width b)) bs));
  bl_distinct : NoDup (map b_layer bs);
  bl_branch : forall b, In b bs -> (exists i, ckind_of g (b_layer b) = Some (CLayer (b_mod b) i)) /\ desc (b_layer b) (b_end b);
  bl_users : forall b y z, In b bs -> desc (b_layer b) y -> In z (cusers g y) -> z = v \/ userok v true y z;
  bl_below : forall y z, desc v y -> In z (cusers g y) -> userok v true y z }.
(** What the region of the block consists of. *)
Definition block_source (bs : list branch) (e : entry) : Prop :=
  exists b o, In (b, o) (placed 0 bs) /\ e = (b_mod b, I 0 (b_width b) o).
Definition block_root (bs : list branch) (r o : nat) : Prop :=
  (r = v /\ o = 0) \/ exists b, In (b, o) (placed 0 bs) /\ r = b_layer b.
Definition block_sink (bs : list branch) (e : entry) : Prop :=
  exists r o y z, block_root bs r o /\ desc r y /\ In z (cusers g y) /\ snk v o y z e.
Definition block_edge (bs : list branch) (e : nat * nat) : Prop :=
  exists r o y z, block_root bs r o /\ desc r y /\ In z (cusers g y) /\ e = (y, z).

Lemma placed_in : forall bs off b o, In (b, o) (placed off bs) -> In b bs.
Proof. induction bs as [|c bs IH]; intros off b o; [intros []|]. intros [E|H]; [injection E as -> _; left; reflexivity|right; eapply IH; exact H]. Qed.
Lemma placed_ex : forall bs off b, In b bs -> exists o, In (b, o) (placed off bs).
Proof. induction bs as [|c bs IH]; intros off b; [intros []|]. intros [->|H]; [exists off; left; reflexivity|]. destruct (IH (off + b_width c) b H) as (o & Ho). exists o. right. exact Ho. Qed.

Variable bs : list branch.
Hypothesis BL : block bs.
Lemma layer_not_inv b : In b bs -> ~ is_inv (b_layer b).
Proof. intros H (f & y & K). destruct (bl_branch bs BL b H) as ((i & K') & _). congruence. Qed.
Lemma v_not_inv : ~ is_inv v.
Proof. intros (f & y & K). pose proof (bl_cat bs BL). congruence. Qed.
Lemma layer_not_v b : In b bs -> b_layer b <> v.
Proof. intros H E. destruct (bl_branch bs BL b H) as ((i & K') & _). pose proof (bl_cat bs BL). congruence. Qed.
Lemma layer_inj b b' : In b bs -> In b' bs -> b_layer b = b_layer b' -> b = b'.
Proof.
  pose proof (bl_distinct bs BL) as Nd. revert Nd. clear BL. induction bs as [|c l IH]; [intros _ []|]. cbn [map]. intros Nd H H' E. inversion Nd as [|? ? Nc Nd']; subst.
  destruct H as [->|H], H' as [->|H']; [reflexivity| | |apply IH; assumption]; exfalso; apply Nc; [rewrite E|rewrite <- E]; apply in_map; assumption.
Qed.
Lemma branch_disjoint b b' x : In b bs -> In b' bs -> desc (b_layer b) x -> desc (b_layer b') x -> b = b'.
Proof. intros H H' Hx Hx'. apply layer_inj; [assumption..|]. eapply roots_disjoint; [apply layer_not_inv; exact H|apply layer_not_inv; exact H'|exact Hx|exact Hx']. Qed.
Lemma branch_not_below b x : In b bs -> desc (b_layer b) x -> ~ desc v x.
Proof. intros H Hx Hv. apply (layer_not_v b H). eapply roots_disjoint; [apply layer_not_inv; exact H|apply v_not_inv|exact Hx|exact Hv]. Qed.
Lemma branch_end b x : In b bs -> desc (b_layer b) x -> In v (cusers g x) -> x = b_end b.
Proof.
  intros H Hx Hv. apply users_in in Hv. destruct Hv as (k & K & Hk). rewrite (bl_cat bs BL) in K. injection K as <-. cbn [operands] in Hk.
  rewrite map_map in Hk. cbn [fst] in Hk. apply in_map_iff in Hk. destruct Hk as (b' & <- & H'). destruct (bl_branch bs BL b' H') as (_ & D').
  rewrite (branch_disjoint b b' (b_end b') H H' Hx D'). reflexivity.
Qed.
Lemma nodup_map_inj {A} (f : A -> nat) l : NoDup l -> (forall x y, In x l -> In y l -> f x = f y -> x = y) -> NoDup (map f l).
Proof.
  induction 1 as [|a l Na N IH]; intros I; [constructor|]. cbn [map]. constructor.
  - intros H. apply in_map_iff in H. destruct H as (b & E & H). apply Na. rewrite (I a b); [exact H|left; reflexivity|right; exact H|symmetry; exact E].
  - apply IH. intros; apply I; try (right; assumption); assumption.
Qed.
Lemma ends_nodup : NoDup (map b_end bs).
Proof.
  apply nodup_map_inj.
  - eapply NoDup_map_inv. exact (bl_distinct bs BL).
  - intros b b' H H' E. apply (branch_disjoint b b' (b_end b)); [exact H|exact H'|apply (bl_branch bs BL b H)|]. rewrite E. apply (bl_branch bs BL b' H').
Qed.
Lemma v_inputs : all_inputs g v = map b_end bs.
Proof. unfold all_inputs. rewrite (bl_cat bs BL). cbn [operands]. rewrite map_map. cbn [fst]. apply dedup_nodup, ends_nodup. Qed.

(** [st'] extends [st] by sources, edges and sinks, and the offset becomes [off']. *)
Definition ext2 (st st' : cstate) (off' : nat) (R0 : entry -> Prop) (E : nat * nat -> Prop) (K : entry -> Prop) : Prop :=
  (c_bad st' = c_bad st /\ c_cat st' = c_cat st /\ c_off st' = off' /\ c_upd st' = c_upd st /\ c_err st' = c_err st)
  /\ (forall e, In e (c_srcs st') <-> In e (c_srcs st) \/ R0 e)
  /\ (forall e, In e (c_hist st') <-> In e (c_hist st) \/ E e)
  /\ (forall e, In e (c_sinks st') <-> In e (c_sinks st) \/ K e)
  /\ (forall x, In x (c_names st) -> In x (c_names st')) /\ (forall e, K e \/ R0 e -> In (fst e) (c_names st'))
  /\ (NoDup (c_sinks st) -> NoDup (c_sinks st')) /\ (NoDup (c_srcs st) -> NoDup (c_srcs st')).

Lemma up_all f upd : 3 * S (length g) < f -> forall bs' st, incl bs' bs -> NoDup bs' -> c_cat st = true -> c_upd st = true ->
  (forall b x z, In b bs' -> desc (b_layer b) x -> ~ In (x, z) (c_hist st)) ->
  ext2 st (fold_left (ustep f v upd) (map b_end bs') st) (c_off st + list_sum (map b_width bs'))
    (fun e => exists b o, In (b, o) (placed (c_off st) bs') /\ e = (b_mod b, I 0 (b_width b) o))
    (fun e => exists b o y z, In (b, o) (placed (c_off st) bs') /\ desc (b_layer b) y /\ In z (cusers g y) /\ e = (y, z))
    (fun e => exists b o y z, In (b, o) (placed (c_off st) bs') /\ desc (b_layer b) y /\ In z (cusers g y) /\ snk v o y z e).
Proof.
  intros Hf. induction bs' as [|b bs' IH]; intros st Hi Nd Ct Cu Hh.
  - cbn [map fold_left placed list_sum fold_right]. rewrite Nat.add_0_r. repeat split; auto; try tauto; try (intros [H|(? & ? & [] & _)]; exact H);
    try (intros [H|(? & ? & ? & ? & [] & _)]; exact H); intros e [(? & ? & ? & ? & [] & _)|(? & ? & [] & _)].
  - cbn [map fold_left]. inversion Nd as [|? ? Nb Nd']; subst. assert (Hb : In b bs) by (apply Hi; left; reflexivity).
    destruct (bl_branch bs BL b Hb) as ((i0 & Kl) & De).
    assert (Hv : In v (cusers g (b_end b))). { apply users_in. eexists. split; [apply (bl_cat bs BL)|]. cbn [operands]. rewrite map_map. cbn [fst]. apply in_map. exact Hb. }
    destruct (up_chain (map (fun b => (b_end b, b_width b)) bs) (b_layer b) (b_end b)) with (m := b_mod b) (i0 := i0) (i := b_end b) (n := v) (f := f) (upd := upd) (st := st) as (s1 & Es & X).
    + apply (bl_cat bs BL).
    + intros y z Hy Hz. apply (bl_users bs BL b); assumption.
    + intros x Hx Hvx. apply branch_end; assumption.
    + exact Kl.
    + exact De.
    + exact Hv.
    + left. auto.
    + pose proof (pos_bound (b_end b)). lia.
    + exact Ct.
    + exact Cu.
    + intros x z Hx Hz. exfalso. apply (Hh b x z); [left; reflexivity|exact Hx|exact Hz].
    + rewrite Es. fold (b_width b) in *. set (s2 := set_c_off (c_off st + b_width b) s1).
      assert (NQ : forall y, ~ doneQ v y) by (intros y (I' & _); exact (v_not_inv I')).
      destruct X as ((X1 & X2 & X3 & X4 & X5 & X6) & XH & XS & XN & XK & XD).
      specialize (IH s2). destruct IH as ((Y1 & Y2 & Y3 & Y4 & Y5) & YR & YH & YS & YN & YK & YD & YE).
      * intros x Hx. apply Hi. right. exact Hx.
      * exact Nd'.
      * unfold s2. cbn [set_c_off c_cat]. rewrite X3. exact Ct.
      * unfold s2. cbn [set_c_off c_upd]. rewrite X5. exact Cu.
      * intros b' x z Hb' Hx. unfold s2. cbn [set_c_off c_hist]. rewrite XH. cbn [add_c_src c_hist]. intros [H|(y1 & z1 & H1 & _ & _ & E)].
        -- exact (Hh b' x z (or_intror Hb') Hx H).
        -- assert (y1 = x) by congruence. subst y1. apply Nb. rewrite (branch_disjoint b b' x); [exact Hb'|exact Hb|apply Hi; right; exact Hb'|exact H1|exact Hx].
      * set (s3 := fold_left _ _ s2) in *. clearbody s3. unfold s2 in *. cbn [set_c_off c_bad c_cat c_off c_upd c_err c_srcs c_hist c_sinks c_names] in *. clear s2.
        cbn [add_c_src c_bad c_cat c_off c_upd c_err c_srcs c_hist c_sinks c_names] in *. cbn [map list_sum fold_right placed]. fold (list_sum (map b_width bs')).
        split; [repeat split; try congruence; lia|]. split; [|split; [|split; [|split; [|split; [|split]]]]].
        -- intros e. rewrite YR, X1, put_in. split.
           ++ intros [[H|H]|(b' & o & H & E)]; [left; exact H|right; exists b, (c_off st); split; [left; reflexivity|exact H]|right; exists b', o; split; [right; exact H|exact E]].
           ++ intros [H|(b' & o & [E|H] & E')]; [left; left; exact H| |right; exists b', o; auto]. injection E as -> ->. left. right. exact E'.
        -- intros e. rewrite YH, XH. split.
           ++ intros [[H|(y & z & Hy & _ & Hz & E)]|(b' & o & y & z & H & E)]; [left; exact H| |right; exists b', o, y, z; split; [right; exact H|exact E]].
              right. exists b, (c_off st), y, z. split; [left; reflexivity|auto].
           ++ intros [H|(b' & o & y & z & [E|H] & Hy & Hz & E')]; [auto| |right; exists b', o, y, z; auto]. injection E as -> ->.
              left. right. exists y, z. auto.
        -- intros e. rewrite YS, XS. split.
           ++ intros [[H|(y & z & Hy & _ & Hz & E)]|(b' & o & y & z & H & E)]; [left; exact H| |right; exists b', o, y, z; split; [right; exact H|exact E]].
              right. exists b, (c_off st), y, z. split; [left; reflexivity|auto].
           ++ intros [H|(b' & o & y & z & [E|H] & Hy & Hz & E')]; [auto| |right; exists b', o, y, z; auto]. injection E as -> ->.
              left. right. exists y, z. auto.
        -- intros x H. apply YN, XN. right. exact H.
        -- intros e [(b' & o & y & z & [E|H] & Hy & Hz & E')|(b' & o & [E|H] & E')].
           ++ injection E as <- <-. apply YN, XK. exists y, z. auto.
           ++ apply YK. left. exists b', o, y, z. auto.
           ++ injection E as <- <-. subst e. cbn [fst]. apply YN, XN. left. reflexivity.
           ++ apply YK. right. exists b', o. auto.
        -- intros H. apply YD, XD, H.
        -- intros H. apply YE. rewrite X1. apply put_nodup. exact H.
Qed.

(** The state after restarting at the concatenation. *)
Definition final (st : cstate) : Prop :=
  c_bad st = false /\ c_err st = false
  /\ (forall e, In e (c_srcs st) <-> block_source bs e) /\ NoDup (c_srcs st)
  /\ (forall e, In e (c_sinks st) <-> block_sink bs e) /\ NoDup (c_sinks st)
  /\ (forall e, In e (c_hist st) <-> block_edge bs e)
  /\ (forall e, In e (c_srcs st) \/ In e (c_sinks st) -> In (fst e) (c_names st)).

Lemma restart_final f st : 3 * S (length g) + 2 < f -> c_err st = false -> final (cwalk g M f Restart v st).
Proof.
  intros Hf Er. destruct f as [|f]; [lia|]. cbn [cwalk]. rewrite Er. set (s0 := CatEq.C [] [] false [] true 0 true false (c_names st)).
  assert (U : ext2 s0 (cwalk g M f Up v s0) (0 + list_sum (map b_width bs))
    (fun e => exists b o, In (b, o) (placed 0 bs) /\ e = (b_mod b, I 0 (b_width b) o))
    (fun e => exists b o y z, In (b, o) (placed 0 bs) /\ desc (b_layer b) y /\ In z (cusers g y) /\ e = (y, z))
    (fun e => exists b o y z, In (b, o) (placed 0 bs) /\ desc (b_layer b) y /\ In z (cusers g y) /\ snk v o y z e)).
  { destruct f as [|f]; [lia|]. rewrite walk_up, v_inputs. apply (up_all f (c_upd s0)); [lia|intros x H; exact H| |reflexivity|reflexivity|intros ? ? ? _ _ []].
    eapply NoDup_map_inv. exact (bl_distinct bs BL). }
  set (s1 := cwalk g M f Up v s0) in *. clearbody s1. destruct U as ((U1 & U2 & U3 & U4 & U5) & UR & UH & US & UN & UK & UD & UE).
  cbn [s0 c_bad c_cat c_off c_upd c_err c_srcs c_hist c_sinks c_names] in *.
  set (s2 := set_c_off 0 (set_c_upd false s1)). destruct f as [|f]; [lia|]. rewrite walk_down.
  assert (Hh : forall y z, desc v y -> ~ In (y, z) (c_hist s2)).
  { intros y z Hy H. apply UH in H. destruct H as [[]|(b & o & y' & z' & Hb & Hy' & _ & E)]. assert (y' = y) by congruence. subst y'.
    apply (branch_not_below b y (placed_in _ _ _ _ Hb) Hy' Hy). }
  pose proof (down_users (S (length g)) v ltac:(pose proof (pos_bound v); lia) f ltac:(lia) (c_upd s2) (cusers g v) s2 (fun x H => H) (users_nodup v)) as X.
  assert (Hc : forall u, In u (cusers g v) -> In (v, u) (c_hist s2) \/ (fresh s2 v u /\ treeU v (c_cat s2) v u)).
  { intros u Hu. right. change (c_cat s2) with (c_cat s1). rewrite U2. split; [split|split].
    - apply Hh. constructor.
    - intros Iu y z Hy. apply Hh. destruct (inv_of_user v u Hu Iu) as (h & K). apply desc_head. right. exists u, h. auto.
    - apply (bl_below bs BL); [constructor|exact Hu].
    - intros Iu y z Hy Hz. apply (bl_below bs BL); [|exact Hz]. destruct (inv_of_user v u Hu Iu) as (h & K). apply desc_head. right. exists u, h. auto. }
  specialize (X Hc). set (s3 := fold_left _ _ s2) in *. clearbody s3.
  destruct X as ((X1 & X2 & X3 & X4 & X5 & X6) & XH & XS & XN & XK & XD). cbn [s2 set_c_off set_c_upd c_bad c_cat c_off c_upd c_err c_srcs c_hist c_sinks c_names] in *.
  assert (Eb : forall e, (exists u, In u (cusers g v) /\ ~ In (v, u) (c_hist s2) /\ edgeU v u e) <-> exists y z, desc v y /\ In z (cusers g y) /\ e = (y, z)).
  { intros e. rewrite edges_below. split; [intros (u & Hu & _ & H); exists u; auto|intros (u & Hu & H); exists u; split; [exact Hu|split; [apply Hh; constructor|exact H]]]. }
  assert (Kb : forall e, (exists u, In u (cusers g v) /\ ~ In (v, u) (c_hist s2) /\ sinkU 0 v u e) <-> exists y z, desc v y /\ In z (cusers g y) /\ snk v 0 y z e).
  { intros e. rewrite sinks_below. split; [intros (u & Hu & _ & H); exists u; auto|intros (u & Hu & H); exists u; split; [exact Hu|split; [apply Hh; constructor|exact H]]]. }
  cbn [s2 set_c_off set_c_upd c_hist] in Eb, Kb.
  assert (Sk : forall e, In e (c_sinks s3) <-> block_sink bs e).
  { intros e. rewrite XS, US, Kb. unfold block_sink, block_root. split.
    - intros [[[]|(b & o & y & z & Hb & H)]|(y & z & H)]; [exists (b_layer b), o, y, z; split; [right; exists b; auto|exact H]|exists v, 0, y, z; split; [left; auto|exact H]].
    - intros (r & o & y & z & [(-> & ->)|(b & Hb & ->)] & H); [right; exists y, z; exact H|left; right; exists b, o, y, z; auto]. }
  assert (Sr : forall e, In e (c_srcs s3) <-> block_source bs e).
  { intros e. rewrite X1, UR. split; [intros [[]|H]; exact H|intros H; right; exact H]. }
  split; [congruence|]. split; [congruence|]. split; [exact Sr|]. split; [rewrite X1; apply UE; constructor|]. split; [exact Sk|].
  split; [apply XD, UD; constructor|]. split.
  - intros e. rewrite XH, UH, Eb. unfold block_edge, block_root. split.
    + intros [[[]|(b & o & y & z & Hb & H)]|(y & z & H)]; [exists (b_layer b), o, y, z; split; [right; exists b; auto|exact H]|exists v, 0, y, z; split; [left; auto|exact H]].
    + intros (r & o & y & z & [(-> & ->)|(b & Hb & ->)] & H); [right; exists y, z; exact H|left; right; exists b, o, y, z; auto].
  - intros e [H|H].
    + rewrite X1 in H. apply UR in H. destruct H as [[]|H]. apply XN, UK. right. exact H.
    + apply XS in H. destruct H as [H|H]; [|apply XK; exact H]. apply US in H. destruct H as [[]|H]. apply XN, UK. left. exact H.
Qed.

(** Walking down from [x] meets the concatenation [v] before any other. *)
Inductive meets : nat -> Prop :=
| meets_here x us1 us2 : cusers g x = us1 ++ v :: us2 -> (forall u, In u us1 -> treeU v false x u) -> meets x
| meets_inv x us1 u h us2 : cusers g x = us1 ++ u :: us2 -> (forall u', In u' us1 -> treeU v false x u') ->
    ckind_of g u = Some (CInv h x) -> meets u -> meets x.
Lemma fold_seen f n upd : forall us st, (forall u, In u us -> In (n, u) (c_hist st)) -> fold_left (dstep f n upd) us st = st.
Proof.
  induction us as [|u us IH]; intros st H; [reflexivity|]. cbn [fold_left]. unfold dstep at 2. rewrite (proj2 (seen_in st (n, u)) (H u (or_introl eq_refl))).
  apply IH. intros; apply H; right; assumption.
Qed.
Lemma before_walk f x upd us1 u us2 st : cusers g x = us1 ++ u :: us2 -> (forall u', In u' us1 -> treeU v false x u') -> 2 * S (length g) < f ->
  c_cat st = false -> (forall y z, desc x y -> ~ In (y, z) (c_hist st)) ->
  exists s1, fold_left (dstep f x upd) us1 st = s1 /\ c_cat s1 = false /\ c_err s1 = c_err st /\ ~ In (x, u) (c_hist s1)
    /\ (is_inv u -> forall y z, desc u y -> ~ In (y, z) (c_hist s1)).
Proof.
  intros Eu T Hf Ct Hh. assert (Nd : NoDup (us1 ++ u :: us2)) by (rewrite <- Eu; apply users_nodup).
  assert (Hus : forall w, In w us1 -> In w (cusers g x)) by (intros w Hw; rewrite Eu; apply in_or_app; left; exact Hw).
  assert (Hu : In u (cusers g x)) by (rewrite Eu; apply in_or_app; right; left; reflexivity).
  assert (Nu : ~ In u us1) by (intros H; apply NoDup_remove_2 in Nd; apply Nd; apply in_or_app; left; exact H).
  assert (X : ext st (fold_left (dstep f x upd) us1 st) (fun e => exists w, In w us1 /\ ~ In (x, w) (c_hist st) /\ edgeU x w e)
            (fun e => exists w, In w us1 /\ ~ In (x, w) (c_hist st) /\ sinkU (c_off st) x w e)).
  { apply (down_users (S (length g))); [pose proof (pos_bound x); lia|lia|exact Hus| |].
    - clear - Nd. induction us1 as [|a l IH]; [constructor|]. cbn [app] in Nd. inversion Nd; subst. constructor; [|apply IH; assumption]. intros H. apply H1. apply in_or_app. left. exact H.
    - intros w Hw. right. rewrite Ct. split; [|apply T; exact Hw]. split; [apply Hh; constructor|]. intros Iw y z Hy. apply Hh.
      destruct (inv_of_user x w (Hus w Hw) Iw) as (h & K). apply desc_head. right. exists w, h. auto. }
  set (s1 := fold_left _ us1 st) in *. exists s1. split; [reflexivity|]. destruct X as ((X1 & X2 & X3 & X4 & X5 & X6) & XH & _).
  split; [congruence|]. split; [exact X6|]. split.
  - intros H. apply XH in H. destruct H as [H|(w & Hw & _ & [E|(Iw & y & z & Hy & _ & E)])].
    + exact (Hh x u (desc_refl x) H).
    + assert (w = u) by congruence. subst w. contradiction.
    + assert (y = x) by congruence. subst y. apply desc_pos in Hy. pose proof (pos_user x w (Hus w Hw)). lia.
  - intros Iu y z Hy H. destruct (inv_of_user x u Hu Iu) as (h & K). apply XH in H. destruct H as [H|(w & Hw & _ & [E|(Iw & y' & z' & Hy' & _ & E)])].
    + apply (Hh y z); [apply desc_head; right; exists u, h; auto|exact H].
    + assert (y = x) by congruence. subst y. apply desc_pos in Hy. pose proof (pos_user x u Hu). lia.
    + assert (y' = y) by congruence. subst y'. destruct (inv_of_user x w (Hus w Hw) Iw) as (h' & K'). assert (w = u) by (eapply siblings_disjoint; eauto). subst w. contradiction.
Qed.
Lemma meets_walk x : meets x -> forall b f st, In b bs -> desc (b_layer b) x -> 4 * S (length g) + (length g - pos x) + 2 < f ->
  c_cat st = false -> c_err st = false -> (forall y z, desc x y -> ~ In (y, z) (c_hist st)) -> final (cwalk g M f Down x st).
Proof.
  induction 1 as [x us1 us2 Eu T|x us1 u h us2 Eu T K _ IH]; intros b f st Hb Hx Hf Ct Er Hh; (destruct f as [|f]; [lia|]); rewrite walk_down, Eu, fold_left_app; cbn [fold_left].
  - destruct (before_walk f x (c_upd st) us1 v us2 st Eu T ltac:(lia) Ct Hh) as (s1 & -> & C1 & E1 & N1 & _).
    assert (Fi : final (dstep f x (c_upd st) s1 v)).
    { unfold dstep. destruct (c_seen s1 (x, v)) eqn:Es; [apply seen_in in Es; contradiction|]. cbv zeta. rewrite (bl_cat bs BL).
      change (c_cat (c_visit s1 (x, v))) with (c_cat s1). rewrite C1. cbn [negb]. apply restart_final; [lia|]. cbn. congruence. }
    rewrite fold_seen; [exact Fi|]. intros w Hw. apply Fi. destruct (placed_ex bs 0 b Hb) as (o & Ho). exists (b_layer b), o, x, w.
    split; [right; exists b; auto|]. split; [exact Hx|]. split; [|reflexivity]. rewrite Eu. apply in_or_app. right. right. exact Hw.
  - assert (Hu : In u (cusers g x)) by (rewrite Eu; apply in_or_app; right; left; reflexivity). pose proof (pos_user x u Hu) as Pu. pose proof (pos_bound u) as Bu.
    assert (Iu : is_inv u) by (exists h, x; exact K).
    destruct (before_walk f x (c_upd st) us1 u us2 st Eu T ltac:(lia) Ct Hh) as (s1 & -> & C1 & E1 & N1 & H1).
    assert (Fi : final (dstep f x (c_upd st) s1 u)).
    { unfold dstep. destruct (c_seen s1 (x, u)) eqn:Es; [apply seen_in in Es; contradiction|]. cbv zeta. rewrite K. apply (IH b); [exact Hb|eapply desc_inv; eauto|lia|exact C1|cbn; congruence|].
      intros y z Hy. cbn [c_visit c_hist In]. intros [E|H]; [|exact (H1 Iu y z Hy H)]. assert (y = x) by congruence. subst y. apply desc_pos in Hy. lia. }
    rewrite fold_seen; [exact Fi|]. intros w Hw. apply Fi. destruct (placed_ex bs 0 b Hb) as (o & Ho). exists (b_layer b), o, x, w.
    split; [right; exists b; auto|]. split; [exact Hx|]. split; [|reflexivity]. rewrite Eu. apply in_or_app. right. right. exact Hw.
Qed.
Lemma region_final b fuel : In b bs -> meets (b_layer b) -> 5 * S (length g) + 2 < fuel -> (exists e, block_sink bs e) ->
  exists st, cregion g M fuel (b_layer b) = Some st /\ final st.
Proof.
  intros Hb Hm Hf (e & He). destruct (bl_branch bs BL b Hb) as ((i & K) & _). unfold cregion. rewrite K.
  set (st := cwalk g M fuel Down _ _). assert (F : final st).
  { apply (meets_walk _ Hm b); [exact Hb|constructor|lia|reflexivity|reflexivity|intros ? ? _ []]. }
  exists st. split; [|exact F]. destruct F as (F1 & F2 & _ & _ & F3 & _). rewrite F1, F2. cbn [negb andb]. apply F3 in He. destruct (c_sinks st); [destruct He|reflexivity].
Qed.
End Block.
