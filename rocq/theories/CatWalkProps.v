(** C86 (continued): around a concatenation of branches, the walk collects the right region, and
    equalizing it preserves the function.  The shape of the block is specified by [block] and
    [meets], the expected region by [block_source] and [block_sink] (CatWalkProofs.v). *)
From Coq Require Import Reals List Bool Arith Lra Lia Classical_Prop.
From Verif Require Import BatchNorm BatchNormProps Equalize EqualizeProofs EqualizeProps EqLayoutProps EqRangeProps CatEq CatEqProps CatWalkProofs.
Import ListNotations.
Open Scope nat_scope.

(** The walk from any branch of a block that meets the concatenation first finds exactly the
    layers of the branches, at consecutive offsets, as sources, and exactly the consumers of the
    branches and of the concatenation as sinks, with the slice of a second concatenation. *)
Theorem C86_block_region : forall D g M v bs b fuel, cwf D g -> block g M v bs -> In b bs -> meets g M v (b_layer b) ->
  5 * S (length g) + 2 < fuel -> (exists e, block_sink g M v bs e) ->
  exists st, cregion g M fuel (b_layer b) = Some st
    /\ (forall e, In e (c_srcs st) <-> block_source M bs e) /\ NoDup (c_srcs st)
    /\ (forall e, In e (c_sinks st) <-> block_sink g M v bs e) /\ NoDup (c_sinks st).
Proof.
  intros D g M v bs b fuel W BL Hb Hm Hf He. destruct (region_final g M D W v bs BL b fuel Hb Hm Hf He) as (st & E & F).
  exists st. split; [exact E|]. destruct F as (_ & _ & F1 & F2 & F3 & F4 & _). auto.
Qed.

(** ** Labels computed from the sources *)
Definition label_of (srcs : list entry) (lab : labels) (k : ckind) (c : nat) : option nat :=
  match k with
  | CLayer m _ => match entries_of m srcs with [x] => Some (i_off x + c) | _ => None end
  | CInv _ u => lab u c
  | CCat ins => cat_labels lab ins c
  | _ => None
  end.
Fixpoint leval (srcs : list entry) (g : cgraph) (lab : labels) : labels :=
  match g with [] => lab | (i, k) :: g' => leval srcs g' (fun x => if x =? i then label_of srcs lab k else lab x) end.
Lemma label_of_ext srcs lab lab' k c : (forall a c, In a (operands k) -> lab a c = lab' a c) -> label_of srcs lab k c = label_of srcs lab' k c.
Proof.
  intros H. destruct k as [m u|f u|ins|ins|f ins]; cbn [label_of operands] in *; try reflexivity; [apply H; left; reflexivity|].
  revert c. induction ins as [|[a w] ins IH]; intros c; [reflexivity|]. cbn [cat_labels]. destruct (c <? w); [apply H; left; reflexivity|].
  apply IH. intros; apply H; right; assumption.
Qed.
Lemma leval_spec srcs : forall suf dn lab, cwf dn suf ->
  (forall x, ~ In x (map fst suf) -> leval srcs suf lab x = lab x)
  /\ forall x k c, In (x, k) suf -> leval srcs suf lab x c = label_of srcs (leval srcs suf lab) k c.
Proof.
  induction suf as [|[i k] suf IH]; intros dn lab Hw; [split; [reflexivity|intros ? ? ? []]|]. destruct (cwf_nodup _ _ Hw) as (Nd & Od). destruct Hw as (Hi & Hin & Hw).
  cbn [leval]. set (lab1 := fun x => if x =? i then label_of srcs lab k else lab x). destruct (IH _ lab1 Hw) as (A & Bx). cbn [map fst] in Nd, Od. inversion Nd as [|? ? Ni Nd']; subst. split.
  - intros x Hx. cbn [map fst In] in Hx. rewrite A by tauto. unfold lab1. destruct (Nat.eqb_spec x i) as [->|]; [tauto|reflexivity].
  - intros x k' c [E|H]; [|apply Bx; exact H]. injection E as <- <-. rewrite A by exact Ni. unfold lab1 at 1. rewrite Nat.eqb_refl. apply label_of_ext.
    intros a c' Ha. assert (Hd : In a dn) by (apply Hin; exact Ha). specialize (Od a Hd). cbn [In] in Od.
    rewrite A by tauto. unfold lab1. destruct (Nat.eqb_spec a i) as [->|]; [tauto|reflexivity].
Qed.
Lemma singleton {A} (l : list A) x : NoDup l -> In x l -> (forall y, In y l -> y = x) -> l = [x].
Proof.
  intros N H U. destruct l as [|a [|b l]]; [destruct H|f_equal; apply U; left; reflexivity|exfalso].
  inversion N as [|? ? Na _]; subst. apply Na. left. rewrite (U a), (U b); [reflexivity|right; left; reflexivity|left; reflexivity].
Qed.
Lemma no_member {A} (l : list A) : (forall y, ~ In y l) -> l = [].
Proof. destruct l as [|a l]; [reflexivity|]. intros H. exfalso. apply (H a). left. reflexivity. Qed.
Lemma entries_in m l x : In x (entries_of m l) <-> In (m, x) l.
Proof.
  unfold entries_of. rewrite in_map_iff. split.
  - intros ([m' x'] & E & H). cbn [snd] in E. subst. apply filter_In in H. destruct H as (H & E). cbn [fst] in E. apply Nat.eqb_eq in E. subst. exact H.
  - intros H. exists (m, x). split; [reflexivity|]. apply filter_In. split; [exact H|apply Nat.eqb_refl].
Qed.
Lemma entries_nodup m l : NoDup l -> NoDup (entries_of m l).
Proof.
  unfold entries_of. induction 1 as [|[a y] l Na N IH]; [constructor|]. cbn [filter fst]. destruct (Nat.eqb_spec a m) as [->|]; [|exact IH].
  cbn [map snd]. constructor; [|exact IH]. intros H. apply Na. apply (proj1 (entries_in m l y)). exact H.
Qed.
Lemma slice_find lab : forall ins c, c < list_sum (map snd ins) -> NoDup (map fst ins) -> exists b w, In (b, w) ins /\ slice_start ins b <= c < slice_start ins b + w
  /\ cat_labels lab ins c = lab b (c - slice_start ins b).
Proof.
  induction ins as [|[a w] ins IH]; intros c Hc Nd; [cbn in Hc; lia|]. cbn [map snd fst list_sum fold_right cat_labels slice_start] in *. inversion Nd as [|? ? Na Nd']; subst. destruct (Nat.ltb_spec c w).
  - exists a, w. rewrite Nat.eqb_refl, Nat.sub_0_r. split; [left; reflexivity|]. split; [lia|reflexivity].
  - destruct (IH (c - w)) as (b & wb & Hb & Hs & E); [unfold list_sum; lia|exact Nd'|]. exists b, wb.
    destruct (Nat.eqb_spec a b) as [->|]; [exfalso; apply Na; apply (in_map fst) in Hb; exact Hb|]. split; [right; exact Hb|]. split; [lia|].
    rewrite E. f_equal. lia.
Qed.
Lemma slice_unique : forall ins b w b' w' c, NoDup (map fst ins) -> In (b, w) ins -> In (b', w') ins ->
  slice_start ins b <= c < slice_start ins b + w -> slice_start ins b' <= c < slice_start ins b' + w' -> b = b' /\ w = w'.
Proof.
  induction ins as [|[a x] ins IH]; intros b w b' w' c Nd H H'; [destruct H|]. cbn [map fst slice_start] in *. inversion Nd as [|? ? Na Nd']; subst.
  assert (Out : forall q wq, In (q, wq) ins -> a <> q) by (intros q wq Hq ->; apply Na; apply (in_map fst) in Hq; exact Hq).
  destruct H as [E|H], H' as [E'|H'].
  - injection E as <- <-. injection E' as <- <-. auto.
  - injection E as <- <-. rewrite Nat.eqb_refl. destruct (Nat.eqb_spec a b') as [E1|]; [exfalso; exact (Out _ _ H' E1)|]. lia.
  - injection E' as <- <-. rewrite Nat.eqb_refl. destruct (Nat.eqb_spec a b) as [E1|]; [exfalso; exact (Out _ _ H E1)|]. lia.
  - destruct (Nat.eqb_spec a b) as [E1|]; [exfalso; exact (Out _ _ H E1)|]. destruct (Nat.eqb_spec a b') as [E1|]; [exfalso; exact (Out _ _ H' E1)|].
    intros. apply (IH b w b' w' (c - x)); try assumption; lia.
Qed.
Lemma slice_le : forall ins b w, NoDup (map fst ins) -> In (b, w) ins -> slice_start ins b + w <= list_sum (map snd ins).
Proof.
  induction ins as [|[a x] ins IH]; intros b w Nd H; [destruct H|]. cbn [map fst snd slice_start list_sum fold_right] in *. inversion Nd as [|? ? Na Nd']; subst.
  destruct H as [E|H]; [injection E as <- <-; rewrite Nat.eqb_refl; lia|]. destruct (Nat.eqb_spec a b) as [->|]; [exfalso; apply Na; apply (in_map fst) in H; exact H|].
  specialize (IH b w Nd' H). unfold list_sum in IH. lia.
Qed.

Section Labels.
Variables (D : list nat) (g : cgraph) (M : modules) (v : nat) (bs : list branch) (st : cstate).
Hypothesis W : cwf D g.
Hypothesis BL : block g M v bs.
Hypothesis F : final g M v bs st.
Hypothesis Hom : forall x f i, ckind_of g x = Some (CInv f i) -> hom f.
Hypothesis Unsh : forall x y m i j, ckind_of g x = Some (CLayer m i) -> ckind_of g y = Some (CLayer m j) -> x = y.
Hypothesis Fits : forall x m i w, ckind_of g x = Some (CLayer m i) -> width g M i w -> in_size (M m) = w.
Notation total := (list_sum (map (b_width M) bs)).
Notation root := (block_root M v bs).

Definition lab : labels := leval (c_srcs st) g (fun _ _ => None).
Lemma lab_eq x k c : ckind_of g x = Some k -> lab x c = label_of (c_srcs st) lab k c.
Proof. intros K. apply (proj2 (leval_spec (c_srcs st) g D (fun _ _ => None) W)). apply (kind_in g D W). exact K. Qed.
Lemma lab_out x c : ~ In x (map fst g) -> lab x c = None.
Proof. intros H. unfold lab. rewrite (proj1 (leval_spec (c_srcs st) g D (fun _ _ => None) W)) by exact H. reflexivity. Qed.

Lemma root_not_inv r o : root r o -> ~ is_inv g r.
Proof. intros [(-> & _)|(b & H & ->)]; [apply (v_not_inv g M v bs BL)|]. apply (layer_not_inv g M v bs BL). eapply placed_in; exact H. Qed.
Lemma placed_fun : forall l off b o o', NoDup (map b_layer l) -> In (b, o) (placed M off l) -> In (b, o') (placed M off l) -> o = o'.
Proof.
  induction l as [|a l IH]; intros off b o o' Nd; [intros []|]. cbn [map placed] in *. inversion Nd as [|? ? Na Nd']; subst.
  intros [E|H] [E'|H']; [congruence| | |eapply IH; eauto]; exfalso; apply Na; apply in_map; [injection E as -> _|injection E' as -> _]; eapply placed_in; eauto.
Qed.
Lemma root_unique r o r' o' x : root r o -> root r' o' -> desc g r x -> desc g r' x -> r = r' /\ o = o'.
Proof.
  intros H H' Hx Hx'. assert (r = r') by (eapply (roots_disjoint g); [eapply root_not_inv; exact H|eapply root_not_inv; exact H'|exact Hx|exact Hx']). subst r'. split; [reflexivity|].
  destruct H as [(-> & ->)|(b & H & ->)], H' as [(E & ->)|(b' & H' & E)].
  - reflexivity.
  - exfalso. apply (layer_not_v g M v bs BL b'); [eapply placed_in; exact H'|auto].
  - exfalso. apply (layer_not_v g M v bs BL b); [eapply placed_in; exact H|auto].
  - assert (b = b') by (apply (layer_inj g M v bs BL); [eapply placed_in; exact H|eapply placed_in; exact H'|exact E]). subst b'.
    eapply placed_fun; [exact (bl_distinct _ _ _ _ BL)|exact H|exact H'].
Qed.
Lemma root_users r o y z : root r o -> desc g r y -> In z (cusers g y) -> z = v \/ plain g M y z \/ second g M v z.
Proof.
  intros [(-> & _)|(b & H & ->)] Hy Hz.
  - destruct (bl_below _ _ _ _ BL y z Hy Hz) as [|(_ & H)]; auto.
  - destruct (bl_users _ _ _ _ BL b y z (placed_in _ _ _ _ _ H) Hy Hz) as [|[|(_ & S')]]; auto.
Qed.

(** Widths. *)
Lemma width_fun x w w' : width g M x w -> width g M x w' -> w = w'.
Proof.
  intros H H'. pose proof (channel_dim_width g M D W x w H (S (pos g x)) ltac:(lia)) as E.
  rewrite (channel_dim_width g M D W x w' H' (S (pos g x)) ltac:(lia)) in E. congruence.
Qed.
Lemma desc_width x y w : desc g x y -> width g M x w -> width g M y w.
Proof. induction 1 as [|y z f _ IH K]; intros H; [exact H|]. eapply width_inv; [exact K|auto]. Qed.
Lemma branch_width b : In b bs -> width g M (b_layer b) (b_width M b).
Proof. intros H. destruct (bl_branch _ _ _ _ BL b H) as ((i & K) & _). eapply width_layer. exact K. Qed.
Lemma snd_ins : map snd (map (fun b => (b_end b, b_width M b)) bs) = map (b_width M) bs.
Proof. rewrite map_map. reflexivity. Qed.
Lemma v_width : width g M v total.
Proof.
  rewrite <- snd_ins. apply width_cat; [apply (bl_cat _ _ _ _ BL)| |].
  - rewrite map_map. cbn [fst]. apply (ends_nodup g M v bs BL).
  - intros a w H. apply in_map_iff in H. destruct H as (b & E & H). injection E as <- <-. eapply desc_width; [apply (bl_branch _ _ _ _ BL b H)|apply branch_width; exact H].
Qed.
Lemma placed_le : forall l off b o, In (b, o) (placed M off l) -> off <= o /\ o + b_width M b <= off + list_sum (map (b_width M) l).
Proof.
  induction l as [|a l IH]; intros off b o; [intros []|]. cbn [placed map list_sum fold_right]. fold (list_sum (map (b_width M) l)). intros [E|H]; [injection E as <- <-; lia|].
  specialize (IH _ _ _ H). lia.
Qed.
(** A descendant of a root has a width that fits into the factors from its offset on. *)
Lemma root_width r o x : root r o -> desc g r x -> exists w, width g M x w /\ o + w <= total.
Proof.
  intros [(-> & ->)|(b & H & ->)] Hx.
  - exists total. split; [eapply desc_width; [exact Hx|exact v_width]|lia].
  - exists (b_width M b). split; [eapply desc_width; [exact Hx|apply branch_width; eapply placed_in; exact H]|]. apply placed_le in H. lia.
Qed.

(** Labels of the nodes of the block. *)
Lemma src_entries m x i : ckind_of g x = Some (CLayer m i) ->
  (exists b o, In (b, o) (placed M 0 bs) /\ x = b_layer b /\ m = b_mod b /\ entries_of m (c_srcs st) = [I 0 (b_width M b) o])
  \/ ((forall b, In b bs -> x <> b_layer b) /\ entries_of m (c_srcs st) = []).
Proof.
  intros K. destruct F as (_ & _ & F1 & F2 & _).
  assert (Mem : forall e, In e (entries_of m (c_srcs st)) -> exists b o, In (b, o) (placed M 0 bs) /\ x = b_layer b /\ m = b_mod b /\ e = I 0 (b_width M b) o).
  { intros e He. apply (proj1 (entries_in _ _ _)), F1 in He. destruct He as (b & o & Hb & E). injection E as -> ->.
    destruct (bl_branch _ _ _ _ BL b (placed_in _ _ _ _ _ Hb)) as ((i' & K') & _). exists b, o. split; [exact Hb|]. split; [eapply Unsh; eauto|auto]. }
  destruct (classic (exists b, In b bs /\ x = b_layer b)) as [(b & Hb & ->)|N].
  - left. destruct (placed_ex M bs 0 b Hb) as (o & Ho). destruct (bl_branch _ _ _ _ BL b Hb) as ((i' & K') & _). assert (m = b_mod b) by congruence. subst m.
    exists b, o. split; [exact Ho|]. split; [reflexivity|]. split; [reflexivity|]. apply singleton; [apply entries_nodup; exact F2| |].
    + apply (proj2 (entries_in _ _ _)), F1. exists b, o. auto.
    + intros e He. destruct (Mem e He) as (b' & o' & Hb' & E & _ & ->). assert (b' = b) by (apply (layer_inj g M v bs BL); [eapply placed_in; exact Hb'|exact Hb|auto]). subst b'.
      rewrite (placed_fun bs 0 b o' o (bl_distinct _ _ _ _ BL) Hb' Ho). reflexivity.
  - right. split; [intros b Hb E; apply N; exists b; auto|]. apply no_member. intros e He. destruct (Mem e He) as (b & o & Hb & E & _). apply N. exists b. split; [eapply placed_in; exact Hb|exact E].
Qed.
Lemma desc_lab x y c : desc g x y -> lab y c = lab x c.
Proof. induction 1 as [|y z f _ IH K]; [reflexivity|]. rewrite (lab_eq z _ c K). exact IH. Qed.
Lemma branch_lab b o x c : In (b, o) (placed M 0 bs) -> desc g (b_layer b) x -> lab x c = Some (o + c).
Proof.
  intros H Hx. rewrite (desc_lab _ _ c Hx). assert (Hb : In b bs) by (eapply placed_in; exact H). destruct (bl_branch _ _ _ _ BL b Hb) as ((i & K) & _). rewrite (lab_eq _ _ c K). cbn [label_of].
  destruct (src_entries _ _ _ K) as [(b' & o' & H' & E & _ & ->)|(N & _)]; [|exfalso; apply (N b Hb); reflexivity].
  assert (b = b') by (apply (layer_inj g M v bs BL); [exact Hb|eapply placed_in; exact H'|exact E]). subst b'. rewrite (placed_fun bs 0 b o' o (bl_distinct _ _ _ _ BL) H' H). reflexivity.
Qed.
Lemma cat_lab c : forall l off, (forall b o c, In (b, o) (placed M off l) -> lab (b_end b) c = Some (o + c)) -> c < list_sum (map (b_width M) l) ->
  cat_labels lab (map (fun b => (b_end b, b_width M b)) l) c = Some (off + c).
Proof.
  intros l. revert c. induction l as [|b l IH]; intros c off H Hc; [cbn in Hc; lia|]. cbn [map cat_labels placed list_sum fold_right] in *. destruct (Nat.ltb_spec c (b_width M b)).
  - apply H. left. reflexivity.
  - rewrite (IH (c - b_width M b) (off + b_width M b)); [f_equal; lia|intros; apply H; right; assumption|]. unfold list_sum. lia.
Qed.
Lemma root_lab r o x w c : root r o -> desc g r x -> width g M x w -> c < w -> lab x c = Some (o + c).
Proof.
  intros [(-> & ->)|(b & H & ->)] Hx Hw Hc; [|apply (branch_lab b); assumption].
  rewrite (desc_lab _ _ c Hx), (lab_eq _ _ c (bl_cat _ _ _ _ BL)). cbn [label_of]. apply cat_lab.
  - intros b o c' Hb. apply (branch_lab b); [exact Hb|]. apply (bl_branch _ _ _ _ BL b). eapply placed_in. exact Hb.
  - rewrite <- (width_fun x w total Hw (desc_width _ _ _ Hx v_width)). exact Hc.
Qed.

(** Nodes outside the block are not labelled. *)
Definition used_cat (u : nat) : Prop := exists r o y, root r o /\ desc g r y /\ In u (cusers g y) /\ second g M v u.
Definition inside (x : nat) : Prop := (exists r o, root r o /\ desc g r x) \/ exists u, used_cat u /\ desc g u x.
Lemma inside_inv x z f : inside x -> ckind_of g z = Some (CInv f x) -> inside z.
Proof. intros [(r & o & H & Hx)|(u & H & Hx)] K; [left; exists r, o|right; exists u]; (split; [exact H|eapply desc_inv; eauto]). Qed.
Lemma inside_users x z : inside x -> In z (cusers g x) -> plain g M x z \/ z = v \/ ((exists ins, ckind_of g z = Some (CCat ins)) /\ inside z).
Proof.
  intros [(r & o & H & Hx)|(u & (r & o & y & H & Hy & Hu & S') & Hx)] Hz.
  - destruct (root_users r o x z H Hx Hz) as [->|[P|S']]; [auto|auto|]. right. right. split; [destruct S' as (_ & ins & K & _); exists ins; exact K|].
    right. exists z. split; [exists r, o, x; auto|constructor].
  - left. destruct S' as (_ & ins & _ & _ & _ & T). apply T; assumption.
Qed.
Lemma v_inside : inside v.
Proof. left. exists v, 0. split; [left; auto|constructor]. Qed.
Lemma outside_lab : forall n x c, pos g x < n -> ~ inside x -> lab x c = None.
Proof.
  induction n as [|n IH]; intros x c Hn Hx; [lia|]. destruct (ckind_of g x) as [k|] eqn:K.
  - rewrite (lab_eq x k c K). assert (Op : forall a, In a (operands k) -> In x (cusers g a)) by (intros a Ha; apply (users_in g D W); exists k; auto).
    destruct k as [m u|f u|ins|ins|f ins]; cbn [label_of operands] in *; try reflexivity.
    + destruct (src_entries _ _ _ K) as [(b & o & H & -> & _)|(_ & ->)]; [|reflexivity]. exfalso. apply Hx. left. exists (b_layer b), o. split; [right; exists b; auto|constructor].
    + assert (Hu : In x (cusers g u)) by (apply Op; left; reflexivity). apply IH; [apply (pos_user g D W) in Hu; lia|]. intros Hi. apply Hx. eapply inside_inv; eauto.
    + assert (A : forall a c, In a (map fst ins) -> lab a c = None).
      { intros a c' Ha. assert (Hu : In x (cusers g a)) by (apply Op; exact Ha). apply IH; [apply (pos_user g D W) in Hu; lia|]. intros Hi. apply Hx.
        destruct (inside_users a x Hi Hu) as [[(m & K' & _)|(f & K')]|[->|(_ & H)]]; [congruence|congruence|apply v_inside|exact H]. }
      clear - A. revert c. induction ins as [|[a w] ins IH]; intros c; [reflexivity|]. cbn [cat_labels]. destruct (c <? w); [apply A; left; reflexivity|]. apply IH. intros; apply A; right; assumption.
  - apply lab_out. intros H. apply in_map_iff in H. destruct H as ([a k] & E & H). cbn [fst] in E. subst a. apply (kind_in g D W) in H. congruence.
Qed.

(** Sink entries of a layer. *)
Lemma sink_members m y u x : ckind_of g y = Some (CLayer m u) -> In (m, x) (c_sinks st) <->
  (exists r o, root r o /\ desc g r u /\ x = I 0 (in_size (M m)) o)
  \/ exists k ins b w r o, k <> v /\ ckind_of g k = Some (CCat ins) /\ desc g k u /\ In (b, w) ins /\ root r o /\ desc g r b /\ x = I (slice_start ins b) (slice_start ins b + w) o.
Proof.
  intros K. destruct F as (_ & _ & _ & _ & F3 & _). rewrite F3. unfold block_sink, snk.
  assert (Op : forall z i y', ckind_of g z = Some (CLayer m i) -> In z (cusers g y') -> y' = u).
  { intros z i y' Kz Hz. assert (z = y) by (eapply Unsh; eauto). subst z. apply (users_in g D W) in Hz. destruct Hz as (k & K' & Hk). assert (k = CLayer m u) by congruence. subst k. destruct Hk as [<-|[]]. reflexivity. }
  assert (Hy : In y (cusers g u)) by (apply (users_in g D W); exists (CLayer m u); split; [exact K|left; reflexivity]).
  split.
  - intros (r & o & y' & z & Hr & Hd & Hz & [(m' & i & Kz & E)|(Nv & ins & w & y'' & z' & m' & i & Kz & Hi & Hd' & Hz' & Kz' & E)]).
    + injection E as <- ->. left. exists r, o. rewrite (Op z i y' Kz Hz) in Hd. auto.
    + injection E as <- ->. right. rewrite (Op z' i y'' Kz' Hz') in Hd'. exists z, ins, y', w, r, o. auto 8.
  - intros [(r & o & Hr & Hd & ->)|(k & ins & b & w & r & o & Nv & Kk & Hd & Hb & Hr & Hdb & ->)].
    + exists r, o, u, y. repeat (split; [assumption|]). left. exists m, u. auto.
    + exists r, o, b, k. split; [exact Hr|]. split; [exact Hdb|]. split; [apply (users_in g D W); exists (CCat ins); split; [exact Kk|cbn [operands]; apply (in_map fst) in Hb; exact Hb]|].
      right. split; [exact Nv|]. exists ins, w, u, y, m, u. auto 8.
Qed.
Lemma cat_not_root k ins r o u : k <> v -> ckind_of g k = Some (CCat ins) -> root r o -> desc g k u -> desc g r u -> False.
Proof.
  intros Nv K Hr Hk Hd. assert (Nk : ~ is_inv g k) by (intros (f & y & K'); congruence).
  assert (k = r) by (eapply (roots_disjoint g); [exact Nk|eapply root_not_inv; exact Hr|exact Hk|exact Hd]). subst r.
  destruct Hr as [(-> & _)|(b & H & ->)]; [congruence|]. destruct (bl_branch _ _ _ _ BL b (placed_in _ _ _ _ _ H)) as ((i & K') & _). congruence.
Qed.

Lemma block_consistent : consistent D g M st lab.
Proof.
  split.
  { intros x c Hx. apply lab_out. apply (cwf_nodup g D W). exact Hx. }
  intros y k Hk. apply (kind_in g D W) in Hk. destruct k as [m u|f u|ins|ins|f ins]; cbn [node_ok].
  - (* layers *)
    assert (Hy : In y (cusers g u)) by (apply (users_in g D W); exists (CLayer m u); split; [exact Hk|left; reflexivity]).
    assert (Nds : forall p, NoDup (filter p (entries_of m (c_sinks st)))) by (intros p; apply NoDup_filter, entries_nodup; destruct F as (_ & _ & _ & _ & _ & F4 & _); exact F4).
    assert (Nrm : inside u -> is_norm (M m) = false).
    { intros Hi. destruct (inside_users u y Hi Hy) as [[(m' & K' & N)|(f & K')]|[->|((ins & K') & _)]]; [|congruence|pose proof (bl_cat _ _ _ _ BL); congruence|congruence]. assert (m' = m) by congruence. subst m'. exact N. }
    assert (Mem : forall x, In (m, x) (c_sinks st) -> inside u).
    { intros x H. apply (sink_members m y u x Hk) in H. destruct H as [(r & o & Hr & Hd & _)|(k & ins & b & w & r & o & Nv & Kk & Hd & Hb & Hr & Hdb & _)]; [left; exists r, o; auto|].
      right. exists k. split; [|exact Hd]. assert (Hkb : In k (cusers g b)) by (apply (users_in g D W); exists (CCat ins); split; [exact Kk|cbn [operands]; apply (in_map fst) in Hb; exact Hb]).
      exists r, o, b. split; [exact Hr|]. split; [exact Hdb|]. split; [exact Hkb|]. destruct (root_users r o b k Hr Hdb Hkb) as [E|[[(m' & K' & _)|(f & K')]|S']]; [contradiction|congruence|congruence|exact S']. }
    split; [|split].
    + destruct (src_entries _ _ _ Hk) as [(b & o & H & E & _ & Es)|(N & Es)]; rewrite Es; intros c; rewrite (lab_eq y _ c Hk); cbn [label_of]; rewrite Es; reflexivity.
    + intros Nm. assert (Ni : ~ inside u) by (intros Hi; specialize (Nrm Hi); congruence). split; [|intros c; apply (outside_lab (S (pos g u))); [lia|exact Ni]].
      apply no_member. intros x H. apply (proj1 (entries_in _ _ _)) in H. apply Ni, (Mem x H).
    + intros c Hc. set (p := fun x : idx => (i_start x <=? c) && (c <? i_end x)).
      assert (Pi : forall x, In x (filter p (entries_of m (c_sinks st))) <-> In (m, x) (c_sinks st) /\ i_start x <= c < i_end x).
      { intros x. rewrite filter_In, entries_in. unfold p. rewrite andb_true_iff, Nat.leb_le, Nat.ltb_lt. tauto. }
      destruct (classic (inside u)) as [Hi|Ni].
      2: { rewrite (no_member (filter p _)); [apply (outside_lab (S (pos g u))); [lia|exact Ni]|]. intros x H. apply Pi in H. apply Ni, (Mem x). apply H. }
      destruct Hi as [(r & o & Hr & Hd)|(k & (r0 & o0 & y0 & Hr0 & Hd0 & Hu0 & S') & Hd)].
      * (* below a root *)
        destruct (root_width r o u Hr Hd) as (w & Hw & _). pose proof (Fits y m u w Hk Hw) as Ew.
        rewrite (singleton (filter p (entries_of m (c_sinks st))) (I 0 (in_size (M m)) o) (Nds p)).
        -- cbn [i_off i_start]. rewrite Nat.sub_0_r. apply (root_lab r o u w); [exact Hr|exact Hd|exact Hw|lia].
        -- apply Pi. cbn [i_start i_end]. split; [|lia]. apply (sink_members m y u _ Hk). left. exists r, o. auto.
        -- intros x H. apply Pi in H. destruct H as (H & _). apply (sink_members m y u x Hk) in H.
           destruct H as [(r' & o' & Hr' & Hd' & ->)|(k & ins & b & wb & r' & o' & Nv & Kk & Hd' & _)].
           ++ destruct (root_unique r o r' o' u Hr Hr' Hd Hd') as (_ & ->). reflexivity.
           ++ exfalso. eapply (cat_not_root k ins r o u); eauto.
      * (* below a second concatenation *)
        destruct S' as (Nv & ins & Kk & Ndi & Wd & T).
        pose proof (Fits y m u _ Hk (desc_width _ _ _ Hd (width_cat g M k ins Kk Ndi Wd))) as Ew.
        destruct (slice_find lab ins c) as (b & w & Hb & Hs & El); [lia|exact Ndi|]. rewrite (desc_lab _ _ c Hd), (lab_eq _ _ c Kk). cbn [label_of]. rewrite El.
        assert (Only : forall x, In x (filter p (entries_of m (c_sinks st))) -> exists r o, root r o /\ desc g r b /\ x = I (slice_start ins b) (slice_start ins b + w) o).
        { intros x H. apply Pi in H. destruct H as (H & Hcx). apply (sink_members m y u x Hk) in H.
          destruct H as [(r' & o' & Hr' & Hd' & ->)|(k' & ins' & b' & wb & r' & o' & Nv' & Kk' & Hd' & Hb' & Hr' & Hdb & ->)].
          - exfalso. eapply (cat_not_root k ins r' o' u); eauto.
          - assert (k' = k) by (apply (roots_disjoint g k' k u); [intros (f & q & K'); congruence|intros (f & q & K'); congruence|exact Hd'|exact Hd]). subst k'.
            assert (ins' = ins) by congruence. subst ins'. cbn [i_start i_end] in Hcx. destruct (slice_unique ins b w b' wb c Ndi Hb Hb' Hs Hcx) as (<- & <-). exists r', o'. auto. }
        destruct (classic (exists r o, root r o /\ desc g r b)) as [(r & o & Hr & Hdb)|Nb].
        -- rewrite (singleton (filter p (entries_of m (c_sinks st))) (I (slice_start ins b) (slice_start ins b + w) o) (Nds p)).
           ++ cbn [i_off i_start]. apply (root_lab r o b w); [exact Hr|exact Hdb|apply Wd; exact Hb|lia].
           ++ apply Pi. cbn [i_start i_end]. split; [|exact Hs]. apply (sink_members m y u _ Hk). right. exists k, ins, b, w, r, o. auto 8.
           ++ intros x H. destruct (Only x H) as (r' & o' & Hr' & Hdb' & ->). destruct (root_unique r o r' o' b Hr Hr' Hdb Hdb') as (_ & ->). reflexivity.
        -- rewrite (no_member (filter p _)).
           ++ apply (outside_lab (S (pos g b))); [lia|]. intros [Hi|(k2 & (r2 & o2 & y2 & _ & _ & _ & S2) & Hd2)]; [exact (Nb Hi)|].
              destruct S2 as (_ & ins2 & _ & _ & _ & T2). assert (Hkb : In k (cusers g b)) by (apply (users_in g D W); exists (CCat ins); split; [exact Kk|cbn [operands]; apply (in_map fst) in Hb; exact Hb]).
              destruct (T2 b k Hd2 Hkb) as [(m' & K' & _)|(f & K')]; congruence.
           ++ intros x H. destruct (Only x H) as (r' & o' & Hr' & Hdb' & _). apply Nb. exists r', o'. auto.
  - split; [eapply Hom; exact Hk|]. intros c. apply (lab_eq y _ c Hk).
  - intros u c Hu. rewrite (lab_eq y _ c Hk). cbn [label_of]. apply (outside_lab (S (pos g u))); [lia|]. intros Hi.
    assert (Hy : In y (cusers g u)) by (apply (users_in g D W); exists (CAdd ins); auto).
    destruct (inside_users u y Hi Hy) as [[(m' & K' & N)|(f & K')]|[->|((ins' & K') & _)]]; [congruence|congruence|pose proof (bl_cat _ _ _ _ BL); congruence|congruence].
  - intros c. apply (lab_eq y _ c Hk).
  - split; [intros c; apply (lab_eq y _ c Hk)|]. intros u c Hu. apply (outside_lab (S (pos g u))); [lia|]. intros Hi.
    assert (Hy : In y (cusers g u)) by (apply (users_in g D W); exists (COther f ins); auto).
    destruct (inside_users u y Hi Hy) as [[(m' & K' & N)|(f' & K')]|[->|((ins' & K') & _)]]; [congruence|congruence|pose proof (bl_cat _ _ _ _ BL); congruence|congruence].
Qed.

(** ** Which channels carry a factor, stated on the graph alone *)
(** [carries x c j]: channel [c] of [x] is channel [j] of the concatenation of the branches, up
    to scale-invariant operators and further concatenations. *)
Inductive carries : nat -> nat -> nat -> Prop :=
| carries_branch b o c : In (b, o) (placed M 0 bs) -> c < b_width M b -> carries (b_layer b) c (o + c)
| carries_inv z f y c j : ckind_of g z = Some (CInv f y) -> carries y c j -> carries z c j
| carries_cat z pre a w post c j : ckind_of g z = Some (CCat (pre ++ (a, w) :: post)) -> c < w -> carries a c j ->
    carries z (list_sum (map snd pre) + c) j.
Lemma cat_labels_at pre a w post c : c < w -> cat_labels lab (pre ++ (a, w) :: post) (list_sum (map snd pre) + c) = lab a c.
Proof.
  intros Hc. induction pre as [|[a' w'] pre IH]; cbn [app map snd list_sum fold_right cat_labels].
  - cbn [Nat.add]. destruct (Nat.ltb_spec c w); [|lia]. reflexivity.
  - fold (list_sum (map snd pre)). destruct (Nat.ltb_spec (w' + list_sum (map snd pre) + c) w'); [lia|]. rewrite <- IH. f_equal. lia.
Qed.
Lemma cat_labels_some : forall ins c j, cat_labels lab ins c = Some j ->
  exists pre a w post c', ins = pre ++ (a, w) :: post /\ c = list_sum (map snd pre) + c' /\ c' < w /\ lab a c' = Some j.
Proof.
  induction ins as [|[a w] ins IH]; intros c j; cbn [cat_labels]; [discriminate|]. destruct (Nat.ltb_spec c w).
  - intros E. exists [], a, w, ins, c. auto.
  - intros E. destruct (IH _ _ E) as (pre & a' & w' & post & c' & -> & Ec & Hc & E'). exists ((a, w) :: pre), a', w', post, c'.
    split; [reflexivity|]. split; [|auto]. cbn [map snd list_sum fold_right]. fold (list_sum (map snd pre)). lia.
Qed.
Lemma carries_lab x c j : carries x c j -> lab x c = Some j.
Proof.
  induction 1 as [b o c Hb Hc|z f y c j K _ IH|z pre a w post c j K Hc _ IH].
  - apply (branch_lab b); [exact Hb|constructor].
  - rewrite (lab_eq _ _ c K). exact IH.
  - rewrite (lab_eq _ _ _ K). cbn [label_of]. rewrite cat_labels_at by exact Hc. exact IH.
Qed.
Lemma lab_carries : forall n x w c j, pos g x < n -> width g M x w -> c < w -> lab x c = Some j -> carries x c j.
Proof.
  induction n as [|n IH]; intros x w c j Hn Hw Hc E; [lia|]. pose proof Hw as Hw'.
  destruct Hw' as [x m i K|x f y w K Hy|x ins w K Ne H|x ins K Nd H]; rewrite (lab_eq _ _ _ K) in E; cbn [label_of] in E.
  - destruct (src_entries _ _ _ K) as [(b & o & Hb & -> & -> & Es)|(_ & Es)]; rewrite Es in E; [|discriminate]. cbn [i_off] in E. injection E as <-. apply carries_branch; [exact Hb|exact Hc].
  - eapply carries_inv; [exact K|]. apply (IH y w); [pose proof (pos_user g D W y x (inv_user g D W _ _ _ K)); lia|exact Hy|exact Hc|exact E].
  - discriminate.
  - destruct (cat_labels_some _ _ _ E) as (pre & a & wa & post & c' & -> & -> & Hc' & E'). eapply carries_cat; [exact K|exact Hc'|].
    assert (Ia : In (a, wa) (pre ++ (a, wa) :: post)) by (apply in_or_app; right; left; reflexivity).
    apply (IH a wa); [|apply H; exact Ia|exact Hc'|exact E'].
    assert (X : In x (cusers g a)) by (apply (users_in g D W); eexists; split; [exact K|]; cbn [operands]; apply (in_map fst) in Ia; exact Ia).
    apply (pos_user g D W) in X. lia.
Qed.

(** ** Applying the region *)
Lemma slice_max_le l n : (forall e, In e l -> i_off (snd e) + (i_end (snd e) - i_start (snd e)) <= n) -> slice_max l <= n.
Proof. induction l as [|e l IH]; intros H; [cbn; lia|]. cbn [slice_max fold_right]. fold (slice_max l). apply Nat.max_lub; [apply H; left; reflexivity|apply IH; intros; apply H; right; assumption]. Qed.
Lemma slice_max_ge l e : In e l -> i_off (snd e) + (i_end (snd e) - i_start (snd e)) <= slice_max l.
Proof. induction l as [|x l IH]; [intros []|]. cbn [slice_max fold_right]. fold (slice_max l). intros [->|H]; [apply Nat.le_max_l|]. specialize (IH H). lia. Qed.
Lemma placed_last : forall l off, l <> [] -> exists b o, In (b, o) (placed M off l) /\ o + b_width M b = off + list_sum (map (b_width M) l).
Proof.
  induction l as [|a l IH]; intros off N; [congruence|]. cbn [placed map list_sum fold_right]. fold (list_sum (map (b_width M) l)). destruct l as [|a' l].
  - exists a, off. split; [left; reflexivity|]. cbn. lia.
  - destruct (IH (off + b_width M a)) as (b & o & Hb & E); [discriminate|]. exists b, o. split; [right; exact Hb|lia].
Qed.
Lemma sink_fits e : In e (c_sinks st) -> i_start (snd e) <= i_end (snd e) <= in_size (M (fst e)) /\ i_off (snd e) + (i_end (snd e) - i_start (snd e)) <= total.
Proof.
  destruct F as (_ & _ & _ & _ & F3 & _). intros H. apply F3 in H. destruct H as (r & o & y & z & Hr & Hd & Hz & [(m & i & K & ->)|(Nv & ins & w & y' & z' & m & i & K & Hi & Hd' & Hz' & K' & ->)]); cbn [fst snd i_start i_end i_off].
  - assert (i = y). { apply (users_in g D W) in Hz. destruct Hz as (k & Kk & Hk). assert (k = CLayer m i) by congruence. subst k. destruct Hk as [->|[]]. reflexivity. } subst i.
    destruct (root_width r o y Hr Hd) as (w & Hw & Hle). pose proof (Fits z m y w K Hw). lia.
  - assert (i = y'). { apply (users_in g D W) in Hz'. destruct Hz' as (k & Kk & Hk). assert (k = CLayer m i) by congruence. subst k. destruct Hk as [->|[]]. reflexivity. } subst i.
    destruct (root_users r o y z Hr Hd Hz) as [E|[[(m' & K2 & _)|(f & K2)]|(_ & ins' & K2 & Ndi & Wd & _)]]; [contradiction|congruence|congruence|].
    assert (ins' = ins) by congruence. subst ins'. pose proof (Fits z' m y' _ K' (desc_width _ _ _ Hd' (width_cat g M z ins K Ndi Wd))) as Ew. pose proof (slice_le ins y w Ndi Hi).
    destruct (root_width r o y Hr Hd) as (w' & Hw' & Hle). assert (w' = w) by (eapply width_fun; [exact Hw'|apply Wd; exact Hi]). subst w'. lia.
Qed.
Lemma applies alpha : bs <> [] -> exists M', cat_equalize alpha st M = Some M'
  /\ ((exists y z m, desc g v y /\ ckind_of g z = Some (CLayer m y)) -> M' = apply_cat st (cat_factors alpha M st) M).
Proof.
  intros Nb. pose proof F as (_ & _ & F1 & _ & F3 & _ & _ & F5). unfold cat_equalize.
  match goal with |- context [if existsb ?f ?l then None else _] => destruct (existsb f l) eqn:E1 end.
  { exfalso. apply existsb_exists in E1. destruct E1 as (e & He & E). assert (X : In (fst e) (c_names st)) by (apply F5; apply in_app_or; exact He).
    enough (existsb (Nat.eqb (fst e)) (c_names st) = true) by (rewrite H in E; discriminate). apply existsb_exists. exists (fst e). split; [exact X|apply Nat.eqb_refl]. }
  assert (Es : slice_max (c_srcs st) = total).
  { apply Nat.le_antisymm.
    - apply slice_max_le. intros e He. apply F1 in He. destruct He as (b & o & Hb & ->). cbn [snd i_off i_end i_start]. apply placed_le in Hb. lia.
    - destruct (placed_last bs 0 Nb) as (b & o & Hb & E). cbn [Nat.add] in E. rewrite <- E.
      pose proof (slice_max_ge (c_srcs st) (b_mod b, I 0 (b_width M b) o)) as X. cbn [snd i_off i_end i_start] in X. rewrite Nat.sub_0_r in X. apply X. apply F1. exists b, o. auto. }
  assert (E2 : existsb (fun e => in_size (M (fst e)) <? i_end (snd e)) (c_sinks st) = false).
  { match goal with |- ?c = false => destruct c eqn:E; [|reflexivity] end. exfalso. apply existsb_exists in E. destruct E as (e & He & E). apply Nat.ltb_lt in E. destruct (sink_fits e He). lia. }
  rewrite E2. destruct (Nat.eqb_spec (slice_max (c_srcs st)) (slice_max (c_sinks st))) as [Eq|Ne]; cbn [negb].
  - eexists. split; [reflexivity|]. auto.
  - eexists. split; [reflexivity|]. intros (y & z & m & Hd & K). exfalso. apply Ne. rewrite Es. apply Nat.le_antisymm; [|apply slice_max_le; intros e He; apply sink_fits; exact He].
    assert (Hz : In z (cusers g y)) by (apply (users_in g D W); exists (CLayer m y); split; [exact K|left; reflexivity]).
    pose proof (slice_max_ge (c_sinks st) (m, I 0 (in_size (M m)) 0)) as X. cbn [snd i_off i_end i_start] in X. rewrite (Fits z m y total K (desc_width _ _ _ Hd v_width)) in X. rewrite Nat.sub_0_r in X. apply X.
    apply F3. exists v, 0, y, z. split; [left; auto|]. split; [exact Hd|]. split; [exact Hz|]. left. exists m, y. split; [exact K|]. rewrite (Fits z m y total K (desc_width _ _ _ Hd v_width)). reflexivity.
Qed.

(** Ranges of the factors. *)
Lemma sink_range_max m c : (exists x, touches_in m c x) -> max_of (touches_in m c) (sink_range m c).
Proof.
  destruct m as [n_in n_out K tap w b|n f w b]; cbn [touches_in sink_range]; [|intros _; split; [reflexivity|intros x ->; apply Rle_refl]].
  intros (x0 & o0 & k0 & H0 & _). apply rmax_max.
  - intros E. assert (X : In (Rabs (w o0 c k0)) []) by (rewrite <- E; apply in_flat_map; exists o0; split; [apply in_seq; lia|]; apply in_map_iff; exists k0; split; [reflexivity|apply in_seq; lia]). destruct X.
  - intros x H. apply in_flat_map in H. destruct H as (o & Ho & H). apply in_map_iff in H. destruct H as (k & <- & Hk). apply in_seq in Ho. apply in_seq in Hk. split; [apply Rabs_pos|]. exists o, k. split; [lia|reflexivity].
  - intros x (o & k & H & ->). right. apply in_flat_map. exists o. split; [apply in_seq; lia|]. apply in_map_iff. exists k. split; [reflexivity|apply in_seq; lia].
Qed.
Lemma src_range_max m c : (exists x, touches_out m c x) -> max_of (touches_out m c) (src_range m c).
Proof.
  destruct m as [n_in n_out K tap w b|n f w b]; cbn [touches_out src_range]; [|intros _; split; [reflexivity|intros x ->; apply Rle_refl]].
  intros (x0 & o0 & k0 & H0 & _). apply rmax_max.
  - intros E. assert (X : In (Rabs (w c o0 k0)) []) by (rewrite <- E; apply in_flat_map; exists o0; split; [apply in_seq; lia|]; apply in_map_iff; exists k0; split; [reflexivity|apply in_seq; lia]). destruct X.
  - intros x H. apply in_flat_map in H. destruct H as (o & Ho & H). apply in_map_iff in H. destruct H as (k & <- & Hk). apply in_seq in Ho. apply in_seq in Hk. split; [apply Rabs_pos|]. exists o, k. split; [lia|reflexivity].
  - intros x (o & k & H & ->). right. apply in_flat_map. exists o. split; [apply in_seq; lia|]. apply in_map_iff. exists k. split; [reflexivity|apply in_seq; lia].
Qed.
(** Magnitudes of the weights that write, and that read, channel [j] of the concatenation. *)
Definition writes (j : nat) (x : R) : Prop := exists b o c, In (b, o) (placed M 0 bs) /\ c < b_width M b /\ j = o + c /\ touches_out (M (b_mod b)) c x.
Definition reads (j : nat) (x : R) : Prop := exists z m y c, ckind_of g z = Some (CLayer m y) /\ c < in_size (M m) /\ carries y c j /\ touches_in (M m) c x.
Lemma entries_max (P : entry -> R -> Prop) (f : entry -> R) (Q : R -> Prop) l :
  (forall e, In e l -> max_of (P e) (f e)) -> (forall x, Q x <-> exists e, In e l /\ P e x) -> (forall e x, P e x -> 0 <= x)%R -> l <> [] ->
  max_of Q (rmax (map f l)).
Proof.
  intros Hm HQ Hp Ne. assert (Hin : In (rmax (map f l)) (map f l)).
  { apply rmax_in; [destruct l; [congruence|discriminate]|]. intros x Hx. apply in_map_iff in Hx. destruct Hx as (e & <- & He). apply (Hp e). apply Hm. exact He. }
  split.
  - apply in_map_iff in Hin. destruct Hin as (e & E & He). rewrite <- E. apply HQ. exists e. split; [exact He|apply Hm; exact He].
  - intros x Hx. apply HQ in Hx. destruct Hx as (e & He & Hx). eapply Rle_trans; [apply (Hm e He); exact Hx|]. apply rmax_ge. apply in_map. exact He.
Qed.
Lemma sink_layer m x : In (m, x) (c_sinks st) -> exists z y, ckind_of g z = Some (CLayer m y) /\ width g M y (in_size (M m)).
Proof.
  destruct F as (_ & _ & _ & _ & F3 & _). intros H. apply F3 in H. destruct H as (r & o & y & z & Hr & Hd & Hz & [(m' & i & K & E)|(Nv & ins & w & y' & z' & m' & i & K & Hi & Hd' & Hz' & K' & E)]); injection E as <- ->.
  - assert (i = y). { apply (users_in g D W) in Hz. destruct Hz as (k & Kk & Hk). assert (k = CLayer m i) by congruence. subst k. destruct Hk as [->|[]]. reflexivity. } subst i.
    destruct (root_width r o y Hr Hd) as (w & Hw & _). exists z, y. split; [exact K|]. rewrite (Fits z m y w K Hw). exact Hw.
  - assert (i = y'). { apply (users_in g D W) in Hz'. destruct Hz' as (k & Kk & Hk). assert (k = CLayer m i) by congruence. subst k. destruct Hk as [->|[]]. reflexivity. } subst i.
    destruct (root_users r o y z Hr Hd Hz) as [E|[[(m' & K2 & _)|(f & K2)]|(_ & ins' & K2 & Ndi & Wd & _)]]; [contradiction|congruence|congruence|].
    assert (ins' = ins) by congruence. subst ins'. pose proof (desc_width _ _ _ Hd' (width_cat g M z ins K Ndi Wd)) as Hw. exists z', y'. split; [exact K'|]. rewrite (Fits z' m y' _ K' Hw). exact Hw.
Qed.
Lemma reads_entries j x : reads j x <-> exists e, In e (filter (fun e => covers (snd e) j) (c_sinks st)) /\ touches_in (M (fst e)) (j - i_off (snd e) + i_start (snd e)) x.
Proof.
  destruct block_consistent as (_ & OK). split.
  - intros (z & m & y & c & K & Hc & Hj & Hx). apply carries_lab in Hj. specialize (OK z _ (proj1 (kind_in g D W _ _) K)). destruct OK as (_ & _ & OK). specialize (OK c Hc).
    set (fl := filter _ (entries_of m (c_sinks st))) in OK. assert (Hf : forall e, In e fl -> In (m, e) (c_sinks st) /\ i_start e <= c < i_end e).
    { intros e He. unfold fl in He. apply filter_In in He. destruct He as (He & E). apply (proj1 (entries_in _ _ _)) in He. apply andb_true_iff in E. rewrite Nat.leb_le, Nat.ltb_lt in E. auto. }
    destruct fl as [|e [|? ?]]; [congruence| |contradiction]. destruct (Hf e (or_introl eq_refl)) as (He & Hs). rewrite OK in Hj. injection Hj as <-.
    exists (m, e). split.
    + apply filter_In. split; [exact He|]. unfold covers. cbn [snd]. apply andb_true_iff. rewrite Nat.leb_le, Nat.ltb_lt. lia.
    + cbn [fst snd]. replace (i_off e + (c - i_start e) - i_off e + i_start e) with c by lia. exact Hx.
  - intros ([m e] & He & Hx). apply filter_In in He. destruct He as (He & Hc). cbn [fst snd] in *. unfold covers in Hc. apply andb_true_iff in Hc. rewrite Nat.leb_le, Nat.ltb_lt in Hc.
    destruct (sink_layer m e He) as (z & y & K & Hw). destruct (sink_fits (m, e) He) as (Hfit & _). cbn [fst snd] in Hfit.
    set (c := j - i_off e + i_start e) in *. assert (Hcs : c < in_size (M m)) by lia. exists z, m, y, c. split; [exact K|]. split; [exact Hcs|]. split; [|exact Hx].
    apply (lab_carries (S (pos g y)) y (in_size (M m))); [lia|exact Hw|exact Hcs|]. specialize (OK z _ (proj1 (kind_in g D W _ _) K)). destruct OK as (_ & _ & OK). specialize (OK c Hcs).
    set (fl := filter _ (entries_of m (c_sinks st))) in OK. assert (Hf : In e fl). { apply filter_In. split; [apply (proj2 (entries_in _ _ _)); exact He|]. apply andb_true_iff. rewrite Nat.leb_le, Nat.ltb_lt. lia. }
    destruct fl as [|e' [|? ?]]; [destruct Hf| |contradiction]. destruct Hf as [->|[]]. rewrite OK. f_equal. lia.
Qed.
Lemma writes_entries j x : writes j x <-> exists e, In e (filter (fun e => covers (snd e) j) (c_srcs st)) /\ touches_out (M (fst e)) (j - i_off (snd e)) x.
Proof.
  destruct F as (_ & _ & F1 & _). split.
  - intros (b & o & c & Hb & Hc & -> & Hx). exists (b_mod b, I 0 (b_width M b) o). split.
    + apply filter_In. split; [apply F1; exists b, o; auto|]. unfold covers. cbn [snd i_off i_end i_start]. apply andb_true_iff. rewrite Nat.leb_le, Nat.ltb_lt. lia.
    + cbn [fst snd i_off]. replace (o + c - o) with c by lia. exact Hx.
  - intros (e & He & Hx). apply filter_In in He. destruct He as (He & Hc). apply F1 in He. destruct He as (b & o & Hb & ->). cbn [fst snd i_off i_start i_end covers] in *.
    unfold covers in Hc. cbn [i_off i_end i_start] in Hc. apply andb_true_iff in Hc. rewrite Nat.leb_le, Nat.ltb_lt in Hc. exists b, o, (j - o). split; [exact Hb|]. split; [lia|]. split; [lia|exact Hx].
Qed.
End Labels.

(** Equalizing the region of a block raises nothing and leaves every output unchanged.  When a
    layer consumes the concatenation, it is really applied: every channel carrying channel [j] of
    the concatenation is divided by one factor [s j], and all other channels keep their values. *)
Theorem C86_block_preserved : forall D g M v bs b fuel st alpha, cwf D g -> block g M v bs -> In b bs -> meets g M v (b_layer b) ->
  5 * S (length g) + 2 < fuel -> (exists e, block_sink g M v bs e) ->
  (forall x f i, ckind_of g x = Some (CInv f i) -> hom f) ->
  (forall x y m i j, ckind_of g x = Some (CLayer m i) -> ckind_of g y = Some (CLayer m j) -> x = y) ->
  (forall x m i w, ckind_of g x = Some (CLayer m i) -> width g M i w -> in_size (M m) = w) ->
  cregion g M fuel (b_layer b) = Some st ->
  exists M', cat_equalize alpha st M = Some M'
    /\ (forall e x f ins, In (x, COther f ins) g -> ceval g M' e x = ceval g M e x)
    /\ ((exists y z m, desc g v y /\ ckind_of g z = Some (CLayer m y)) ->
        exists s : nat -> R, (forall j, 0 < s j)%R /\ (forall j, s j = scaling_factor alpha (src_factor_range M (c_srcs st) j) (sink_factor_range M (c_sinks st) j))
        /\ forall e x w c p, width g M x w -> c < w ->
           (forall j, carries g M bs x c j -> ceval g M' e x c p = (ceval g M e x c p / s j)%R)
           /\ ((forall j, ~ carries g M bs x c j) -> ceval g M' e x c p = ceval g M e x c p)).
Proof.
  intros D g M v bs b fuel st alpha W BL Hb Hm Hf Hs Hom Unsh Fits E.
  destruct (region_final g M D W v bs BL b fuel Hb Hm Hf Hs) as (st' & E' & F). rewrite E' in E. injection E as ->.
  pose proof (block_consistent D g M v bs st W BL F Hom Unsh Fits) as OK.
  destruct (applies D g M v bs st W BL F Fits alpha) as (M' & EM & Ap); [destruct bs; [destruct Hb|discriminate]|].
  exists M'. split; [exact EM|]. split.
  - intros e x f ins Hx. exact (C86_equalize_consistent D g M st _ alpha M' e W OK EM x f ins Hx).
  - intros Hl. specialize (Ap Hl). subst M'. exists (cat_factors alpha M st). split; [intros j; apply C37_factor_positive|]. split; [reflexivity|].
    intros e x w c p Hw Hc.
    assert (Hx : In x (map fst g)). { destruct (ckind_of g x) as [k|] eqn:K; [apply (kind_in g D W) in K; apply (in_map fst) in K; exact K|]. exfalso. inversion Hw; congruence. }
    pose proof (C86_consistent_region D g M st _ (cat_factors alpha M st) e W OK (fun j => C37_factor_positive _ _ _) x c p Hx) as Ev. split.
    + intros j Hj. rewrite Ev, (carries_lab D g M v bs st W BL F Unsh x c j Hj). reflexivity.
    + intros N. rewrite Ev. destruct (lab g st x c) as [j|] eqn:El; [|apply Rmult_1_r].
      exfalso. apply (N j). apply (lab_carries D g M v bs st W BL F Unsh (S (pos g x)) x w); [lia|exact Hw|exact Hc|exact El].
Qed.

(** The two ranges a factor is computed from are the largest magnitude of the weights writing
    that channel and the largest magnitude of the weights reading it, wherever they read it. *)
Theorem C86_block_ranges : forall D g M v bs b fuel st j, cwf D g -> block g M v bs -> In b bs -> meets g M v (b_layer b) ->
  5 * S (length g) + 2 < fuel -> (exists e, block_sink g M v bs e) ->
  (forall x f i, ckind_of g x = Some (CInv f i) -> hom f) ->
  (forall x y m i j, ckind_of g x = Some (CLayer m i) -> ckind_of g y = Some (CLayer m j) -> x = y) ->
  (forall x m i w, ckind_of g x = Some (CLayer m i) -> width g M i w -> in_size (M m) = w) ->
  cregion g M fuel (b_layer b) = Some st ->
  (forall m c, (exists x, touches_in (M m) c x) /\ exists x, touches_out (M m) c x) ->
  ((exists x, writes M bs j x) -> max_of (writes M bs j) (src_factor_range M (c_srcs st) j))
  /\ ((exists x, reads g M bs j x) -> max_of (reads g M bs j) (sink_factor_range M (c_sinks st) j)).
Proof.
  intros D g M v bs b fuel st j W BL Hb Hm Hf Hs Hom Unsh Fits E Nz.
  destruct (region_final g M D W v bs BL b fuel Hb Hm Hf Hs) as (st' & E' & F). rewrite E' in E. injection E as ->. split.
  - intros (x0 & H0). unfold src_factor_range. apply (entries_max (fun e x => touches_out (M (fst e)) (j - i_off (snd e)) x)).
    + intros e _. apply src_range_max. apply Nz.
    + intros x. apply (writes_entries g M v bs st F).
    + intros e x. apply touches_out_nonneg.
    + apply (writes_entries g M v bs st F) in H0. destruct H0 as (e & He & _). intros En. rewrite En in He. destruct He.
  - intros (x0 & H0). unfold sink_factor_range. apply (entries_max (fun e x => touches_in (M (fst e)) (j - i_off (snd e) + i_start (snd e)) x)).
    + intros e _. apply sink_range_max. apply Nz.
    + intros x. apply (reads_entries D g M v bs st W BL F Hom Unsh Fits).
    + intros e x. apply touches_in_nonneg.
    + apply (reads_entries D g M v bs st W BL F Hom Unsh Fits) in H0. destruct H0 as (e & He & _). intros En. rewrite En in He. destruct He.
Qed.

(** ** Example: the graph of [C86_example] — branch 1-2 (2 channels) and branch 3 (1 channel) meet
    in the concatenation 4; node 2 also enters a second concatenation 7 behind one channel of a
    layer outside the block. *)
Definition dense_branches : list branch := [B 1 10 2; B 3 11 3].
Lemma dense_cwf : cwf [0] dense_graph.
Proof. cbn. unfold incl. cbn [In]. repeat split; lia. Qed.
Ltac dense_cases K := apply (kind_in dense_graph [0] dense_cwf) in K; cbn [dense_graph In] in K;
  repeat match type of K with _ \/ _ => destruct K as [K|K] end; try contradiction; try discriminate.
Lemma dense_desc x y : desc dense_graph x y -> y = x \/ (x = 1 /\ y = 2).
Proof.
  induction 1 as [|y z f _ IH K]; [auto|]. dense_cases K. injection K as <- <- <-. destruct IH as [<-|(_ & E)]; [auto|discriminate].
Qed.
Lemma dense_width : (forall b w, In (b, w) [(6, 1); (2, 2)] -> width dense_graph dense_mods b w).
Proof.
  intros b w [E|[E|[]]]; injection E as <- <-.
  - apply (width_layer dense_graph dense_mods 6 13 0). reflexivity.
  - apply (width_inv dense_graph dense_mods 2 relu 1 2); [reflexivity|]. apply (width_layer dense_graph dense_mods 1 10 0). reflexivity.
Qed.
Lemma dense_second : second dense_graph dense_mods 4 7.
Proof.
  split; [discriminate|]. exists [(6, 1); (2, 2)]. split; [reflexivity|]. split; [repeat constructor; cbn; intuition lia|]. split; [exact dense_width|].
  intros y z Hy Hz. apply dense_desc in Hy. destruct Hy as [->|(E & _)]; [|discriminate]. cbn in Hz. destruct Hz as [<-|[]]. left. exists 14. split; reflexivity.
Qed.
Lemma dense_block : block dense_graph dense_mods 4 dense_branches.
Proof.
  constructor.
  - reflexivity.
  - repeat constructor; cbn; intuition lia.
  - intros b [<-|[<-|[]]]; cbn [b_layer b_mod b_end]; (split; [exists 0; reflexivity|]); [|constructor]. eapply desc_inv; [constructor|reflexivity].
  - intros b y z [<-|[<-|[]]] Hy Hz; cbn [b_layer] in Hy; apply dense_desc in Hy; (destruct Hy as [->|(_ & ->)]; cbn in Hz; [|]).
    + destruct Hz as [<-|[]]. right. left. right. exists relu. reflexivity.
    + destruct Hz as [<-|[<-|[]]]; [left; reflexivity|]. right. right. split; [reflexivity|exact dense_second].
    + destruct Hz as [<-|[]]. left. reflexivity.
    + destruct Hz as [<-|[<-|[]]]; [left; reflexivity|]. right. right. split; [reflexivity|exact dense_second].
  - intros y z Hy Hz. apply dense_desc in Hy. destruct Hy as [->|(E & _)]; [|discriminate]. cbn in Hz. destruct Hz as [<-|[]]. left. left. exists 12. split; reflexivity.
Qed.
Example C86_block_example :
  cwf [0] dense_graph /\ block dense_graph dense_mods 4 dense_branches
  /\ (forall b, In b dense_branches -> meets dense_graph dense_mods 4 (b_layer b))
  /\ block_sink dense_graph dense_mods 4 dense_branches (14, I 1 3 0) /\ block_sink dense_graph dense_mods 4 dense_branches (12, I 0 3 0)
  /\ block_source dense_mods dense_branches (11, I 0 1 2)
  /\ carries dense_graph dense_mods dense_branches 7 2 1
  /\ (forall x f i, ckind_of dense_graph x = Some (CInv f i) -> hom f)
  /\ (forall x y m i j, ckind_of dense_graph x = Some (CLayer m i) -> ckind_of dense_graph y = Some (CLayer m j) -> x = y)
  /\ (forall x m i w, ckind_of dense_graph x = Some (CLayer m i) -> width dense_graph dense_mods i w -> in_size (dense_mods m) = w)
  /\ (forall m c, (exists x, touches_in (dense_mods m) c x) /\ exists x, touches_out (dense_mods m) c x).
Proof.
  split; [exact dense_cwf|]. split; [exact dense_block|]. split.
  { intros b [<-|[<-|[]]]; cbn [b_layer].
    - apply (meets_inv dense_graph dense_mods 4 1 [] 2 relu []); [reflexivity|intros ? []|reflexivity|].
      apply (meets_here dense_graph dense_mods 4 2 [] [7]); [reflexivity|intros ? []].
    - apply (meets_here dense_graph dense_mods 4 3 [] []); [reflexivity|intros ? []]. }
  split.
  { exists 1, 0, 2, 7. split; [right; exists (B 1 10 2); split; [left; reflexivity|reflexivity]|]. split; [eapply desc_inv; [constructor|reflexivity]|]. split; [right; left; reflexivity|].
    right. split; [discriminate|]. exists [(6, 1); (2, 2)], 2, 7, 8, 14, 7. split; [reflexivity|]. split; [right; left; reflexivity|]. split; [constructor|]. split; [left; reflexivity|]. split; reflexivity. }
  split.
  { exists 4, 0, 4, 5. split; [left; auto|]. split; [constructor|]. split; [left; reflexivity|]. left. exists 12, 4. split; reflexivity. }
  split; [exists (B 3 11 3), 2; split; [right; left; reflexivity|reflexivity]|]. split.
  { apply (carries_cat dense_graph dense_mods dense_branches 7 [(6, 1)] 2 2 [] 1 1); [reflexivity|lia|]. apply (carries_inv dense_graph dense_mods dense_branches 2 relu 1); [reflexivity|].
    apply (carries_branch dense_graph dense_mods dense_branches (B 1 10 2) 0 1); [left; reflexivity|cbn; lia]. }
  split; [intros x f i K; dense_cases K; injection K as _ <- _; exact C37_relu_hom|]. split.
  { intros x y m i j K K'. dense_cases K; injection K as <- <- <-; dense_cases K'; injection K' as <- _; reflexivity. }
  split.
  { assert (N0 : forall w, ~ width dense_graph dense_mods 0 w) by (intros w H; inversion H as [? ? ? K|? ? ? ? K|? ? ? K|? ? K]; discriminate).
    intros x m i w K Hw. dense_cases K; injection K as <- <- <-; try (exfalso; exact (N0 w Hw)).
    - inversion Hw as [? ? ? K|? ? ? ? K|? ? ? K|? ? K]; subst; try discriminate. injection K as <-. reflexivity.
    - inversion Hw as [? ? ? K|? ? ? ? K|? ? ? K|? ? K]; subst; try discriminate. injection K as <-. reflexivity. }
  intros m c. unfold dense_mods, clin. repeat match goal with |- context [if ?b then _ else _] => destruct b end; cbn [touches_in touches_out];
    (split; (eexists; exists 0, 0; split; [lia|reflexivity])).
Qed.

(** ** Every graph: norms are never sinks of a region *)
Lemma walk_sinks g M (P : nat -> Prop) : (forall m, is_norm (M m) = false -> P m) ->
  forall f o n st, (forall e, In e (c_sinks st) -> P (fst e)) -> forall e, In e (c_sinks (cwalk g M f o n st)) -> P (fst e).
Proof.
  intros HP. induction f as [|f IH]; intros o n st H; [exact H|].
  assert (Fold : forall (F : cstate -> nat -> cstate) l, (forall s i, (forall e, In e (c_sinks s) -> P (fst e)) -> forall e, In e (c_sinks (F s i)) -> P (fst e)) ->
    forall s, (forall e, In e (c_sinks s) -> P (fst e)) -> forall e, In e (c_sinks (fold_left F l s)) -> P (fst e)).
  { intros F l HF. induction l as [|i l IHl]; intros s Hs; [exact Hs|]. cbn [fold_left]. apply IHl. apply HF. exact Hs. }
  destruct o.
  - rewrite walk_up. apply Fold; [|exact H]. generalize (c_upd st). clear st H. intros upd st i H. unfold ustep. destruct (c_seen st (i, n)); [exact H|]. cbv zeta.
    destruct (ckind_of g i) as [[m u|h u|ins|ins|h ins]|]; try exact H.
    + destruct (c_upd _); cbn [set_c_off c_sinks]; apply IH; exact H.
    + apply IH, IH. exact H.
    + cbn [set_c_upd c_sinks]. apply IH, IH. exact H.
    + destruct (negb _); [apply IH; exact H|]. cbn [set_c_upd c_sinks]. apply IH. cbn [set_c_upd c_sinks]. apply IH. exact H.
  - rewrite walk_down. apply Fold; [|exact H]. generalize (c_upd st). clear st H. intros upd st u H. unfold dstep. destruct (c_seen st (n, u)); [exact H|]. cbv zeta.
    destruct (ckind_of g u) as [[m i|h i|ins|ins|h ins]|]; try exact H.
    + destruct (is_norm (M m)) eqn:N; [exact H|]. intros e He. cbn [add_c_sink c_sinks] in He. apply put_in in He. destruct He as [He| ->]; [apply H; exact He|apply HP; exact N].
    + apply IH. exact H.
    + cbn [set_c_upd c_sinks]. apply IH, IH. exact H.
    + destruct (negb _); [apply IH; exact H|]. destruct (all_dims _) as [[dims|]|]; [|exact H|exact H].
      assert (New : forall e, In e (c_sinks (cwalk g M f Down u (c_init (c_off (c_visit st (n, u)))))) -> P (fst e)) by (apply IH; intros ? []).
      set (new := cwalk g M f Down u _) in *. clearbody new.
      set (x := I _ _ _). clearbody x.
      assert (A : forall (l : list entry) s, (forall d, In d l -> P (fst d)) -> (forall e, In e (c_sinks s) -> P (fst e)) -> forall e, In e (c_sinks (fold_left (fun s e => add_c_sink (fst e) x s) l s)) -> P (fst e)).
      { induction l as [|d l IHl]; intros s Hl Hs; [exact Hs|]. cbn [fold_left]. apply IHl; [intros; apply Hl; right; assumption|]. intros e He. cbn [add_c_sink c_sinks] in He. apply put_in in He.
        destruct He as [He| ->]; [apply Hs; exact He|cbn [fst]; apply (Hl d); left; reflexivity]. }
      assert (U : forall (l : list entry) s, c_sinks (fold_left (fun s e => upd_c_src e s) l s) = c_sinks s) by (induction l as [|d l IHl]; intros s; [reflexivity|cbn [fold_left]; rewrite IHl; reflexivity]).
      destruct (c_err new); cbn [set_c_err c_sinks]; rewrite U; apply A; assumption.
  - cbn [cwalk]. apply IH. cbn [set_c_off set_c_upd c_sinks]. apply IH. intros ? [].
Qed.
Theorem C86_norms_not_sinks : forall g M fuel n st m x, cregion g M fuel n = Some st -> In (m, x) (c_sinks st) -> is_norm (M m) = false.
Proof.
  intros g M fuel n st m x E H. unfold cregion in E. destruct (ckind_of g n) as [[m0 u| | | | ]|]; try discriminate.
  match type of E with (if ?c then _ else _) = _ => destruct c; [|discriminate] end. injection E as <-.
  refine (walk_sinks g M (fun m => is_norm (M m) = false) (fun m H => H) _ _ _ _ _ (m, x) H). intros ? [].
Qed.

(** Branches that end in an addition: cat(c, a + b) is equalized, cat(a + b, c) is not, because
    the offset does not advance past an addition. *)
Definition add_last : cgraph :=
  [(1, CLayer 10 0); (2, CLayer 11 0); (3, CAdd [1; 2]); (4, CLayer 13 0); (5, CCat [(4, 1); (3, 1)]); (6, CLayer 12 5); (7, COther out1 [6])]%nat.
Definition add_first : cgraph :=
  [(1, CLayer 10 0); (2, CLayer 11 0); (3, CAdd [1; 2]); (4, CLayer 13 0); (5, CCat [(3, 1); (4, 1)]); (6, CLayer 12 5); (7, COther out1 [6])]%nat.
Definition add_mods : modules := fun m => if (m =? 12)%nat then clin 2 1 1 else clin 1 1 4.
Theorem C86_added_branch_order_refuted : exists D g g' M fuel n st st',
  cwf D g /\ cwf D g' /\ (forall a b, In (5, CCat [(a, 1); (b, 1)]) g <-> In (5, CCat [(b, 1); (a, 1)]) g') /\ (forall x k, x <> 5 -> In (x, k) g <-> In (x, k) g')
  /\ cregion g M fuel n = Some st /\ cregion g' M fuel n = Some st'
  /\ cat_equalize (/ 2) st M = Some (apply_cat st (cat_factors (/ 2) M st) M)
  /\ c_srcs st = [(13, I 0 1 0); (10, I 0 1 1); (11, I 0 1 1)] /\ c_sinks st = [(12, I 0 2 0)]
  /\ cat_equalize (/ 2) st' M = Some M /\ c_sinks st' = [(12, I 0 2 0)].
Proof.
  exists [0], add_last, add_first, add_mods, 20, 1. eexists. eexists.
  split; [cbn; unfold incl; cbn [In]; repeat split; lia|]. split; [cbn; unfold incl; cbn [In]; repeat split; lia|].
  split; [intros a b; cbn [add_last add_first In]; split; intros H; repeat (destruct H as [H|H]; [try discriminate H; injection H as <- <-; tauto|]); contradiction|].
  split; [intros x k N; cbn [add_last add_first In]; split; intros H; repeat (destruct H as [H|H]; [try (injection H as <- <-; congruence); rewrite <- H; tauto|]); contradiction|].
  split; [vm_compute; reflexivity|]. split; [vm_compute; reflexivity|]. split; [reflexivity|]. split; [reflexivity|]. split; [reflexivity|]. split; reflexivity.
Qed.

Print Assumptions C86_block_region.
Print Assumptions C86_block_preserved.
Print Assumptions C86_block_ranges.
Print Assumptions C86_norms_not_sinks.
Print Assumptions C86_added_branch_order_refuted.
