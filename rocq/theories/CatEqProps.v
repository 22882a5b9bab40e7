(** C86 (equalization through concatenations). *)
From Verif Require Import BatchNorm BatchNormProps Equalize EqualizeProofs EqualizeProps EqLayoutProps CatEq.
From Coq Require Import Reals List Bool Arith Lra Lia FunctionalExtensionality.
Import ListNotations.
Open Scope R_scope.

(** ** Specification: which channel of which node is divided by which factor *)
Definition labels := nat -> nat -> option nat.
Definition divby (s : nat -> R) (o : option nat) : R := match o with Some j => / s j | None => 1 end.
Definition entries_of (m : nat) (l : list entry) : list idx := map snd (filter (fun e => (fst e =? m)%nat) l).
Fixpoint cat_labels (lab : labels) (ins : list (nat * nat)) (c : nat) : option nat :=
  match ins with
  | [] => None
  | (a, w) :: ins => if (c <? w)%nat then lab a c else cat_labels lab ins (c - w)%nat
  end.
(** A layer divides its output channels by the factors of its source entry, and multiplies its
    input channels by exactly the factors they were divided by. *)
Definition layer_ok (M : modules) (st : cstate) (lab : labels) (m v u : nat) : Prop :=
  match entries_of m (c_srcs st) with
  | [] => forall c, lab v c = None
  | [x] => forall c, lab v c = Some (i_off x + c)%nat
  | _ => False
  end
  /\ (is_norm (M m) = true -> entries_of m (c_sinks st) = [] /\ forall c, lab u c = None)
  /\ forall c, (c < in_size (M m))%nat ->
     match filter (fun x => (i_start x <=? c) && (c <? i_end x))%nat (entries_of m (c_sinks st)) with
     | [] => lab u c = None
     | [x] => lab u c = Some (i_off x + (c - i_start x))%nat
     | _ => False
     end.
Definition node_ok (M : modules) (st : cstate) (lab : labels) (v : nat) (k : ckind) : Prop :=
  match k with
  | CLayer m u => layer_ok M st lab m v u
  | CInv f u => hom f /\ forall c, lab v c = lab u c
  | CAdd ins => forall u c, In u ins -> lab u c = lab v c
  | CCat ins => forall c, lab v c = cat_labels lab ins c
  | COther _ ins => (forall c, lab v c = None) /\ forall u c, In u ins -> lab u c = None
  end.
Fixpoint cwf (D : list nat) (g : cgraph) : Prop :=
  match g with [] => True | (i, k) :: g' => ~ In i D /\ incl (operands k) D /\ cwf (i :: D) g' end.
Definition consistent (D : list nat) (g : cgraph) (M : modules) (st : cstate) (lab : labels) : Prop :=
  (forall v c, In v D -> lab v c = None) /\ forall v k, In (v, k) g -> node_ok M st lab v k.

(** ** A consistently labelled region preserves the function *)
Lemma scale_srcs_fold m s : forall l base,
  fold_left (fun l e => if (fst e =? m)%nat then scale_src (src_slice s (snd e)) l else l) l base
  = fold_left (fun l x => scale_src (src_slice s x) l) (entries_of m l) base.
Proof.
  unfold entries_of. induction l as [|e l IH]; intros base; [reflexivity|]. cbn [fold_left filter].
  destruct (fst e =? m)%nat; cbn [map fold_left]; apply IH.
Qed.
Lemma scale_sinks_fold m s : forall l base,
  fold_left (fun l e => if (fst e =? m)%nat then scale_sink (sink_slice s (snd e)) l else l) l base
  = fold_left (fun l x => scale_sink (sink_slice s x) l) (entries_of m l) base.
Proof.
  unfold entries_of. induction l as [|e l IH]; intros base; [reflexivity|]. cbn [fold_left filter].
  destruct (fst e =? m)%nat; cbn [map fold_left]; apply IH.
Qed.

(** The product of the factors applied to an input channel. *)
Definition prod_slice (s : nat -> R) (xs : list idx) (c : nat) : R := fold_right (fun x r => sink_slice s x c * r) 1 xs.
Lemma sinks_fold_lin s n_in n_out K tap b : forall xs w,
  exists w', fold_left (fun l x => scale_sink (sink_slice s x) l) xs (Lin n_in n_out K tap w b) = Lin n_in n_out K tap w' b
    /\ forall o i k, w' o i k = w o i k * prod_slice s xs i.
Proof.
  induction xs as [|x xs IH]; intros w.
  - exists w. split; [reflexivity|]. intros. cbn. ring.
  - cbn [fold_left scale_sink]. destruct (IH (fun o i k => w o i k * sink_slice s x i)) as (w' & E & H). exists w'. split; [exact E|].
    intros o i k. rewrite H. cbn [prod_slice fold_right]. unfold prod_slice. ring.
Qed.
Lemma prod_slice_filter s c : forall xs, prod_slice s xs c =
  prod_slice s (filter (fun x => (i_start x <=? c) && (c <? i_end x))%nat xs) c.
Proof.
  induction xs as [|x xs IH]; [reflexivity|]. cbn [prod_slice fold_right filter]. fold (prod_slice s xs c). rewrite IH.
  unfold sink_slice. destruct ((i_start x <=? c) && (c <? i_end x))%nat eqn:E; [cbn [prod_slice fold_right]; unfold sink_slice; rewrite E; reflexivity|].
  apply Rmult_1_l.
Qed.

Lemma cat_values_ext e e' lab s : forall ins, (forall a c p, In a (map fst ins) -> e' a c p = e a c p * divby s (lab a c)) ->
  forall c p, cat_values e' ins c p = cat_values e ins c p * divby s (cat_labels lab ins c).
Proof.
  induction ins as [|[a w] ins IH]; intros H c p; [cbn; ring|]. cbn [cat_values cat_labels].
  destruct (c <? w)%nat; [apply H; left; reflexivity|]. apply IH. intros. apply H. right. assumption.
Qed.

Section Consistent.
Variables (D : list nat) (g : cgraph) (M : modules) (st : cstate) (lab : labels) (s : nat -> R).
Hypothesis OK : consistent D g M st lab.
Hypothesis Hs : forall j, 0 < s j.

Lemma divby_pos o : 0 < divby s o.
Proof. destruct o; cbn [divby]; [apply Rinv_0_lt_compat, Hs|lra]. Qed.

Lemma layer_fwd m v u x x' : layer_ok M st lab m v u -> (forall c p, x' c p = x c p * divby s (lab u c)) ->
  forall c p, fwd (apply_cat st s M m) x' c p = fwd (M m) x c p * divby s (lab v c).
Proof.
  intros (Hsrc & Hn & Hsink) Hx c p. unfold apply_cat. rewrite scale_srcs_fold, scale_sinks_fold.
  set (srcd := fold_left _ (entries_of m (c_srcs st)) (M m)).
  assert (S1 : forall y, fwd srcd y c p = fwd (M m) y c p * divby s (lab v c)).
  { intros y. unfold srcd. destruct (entries_of m (c_srcs st)) as [|i [|]]; [| |contradiction].
    - cbn [fold_left]. rewrite Hsrc. cbn [divby]. ring.
    - cbn [fold_left]. rewrite fwd_src by (intros; apply Hs). unfold scaled, src_slice. rewrite Hsrc. reflexivity. }
  rewrite <- S1.
  assert (S2 : is_norm srcd = is_norm (M m) /\ in_size srcd = in_size (M m)).
  { unfold srcd. clear. generalize (M m). induction (entries_of m (c_srcs st)) as [|i l IH]; intros b; [auto|].
    cbn [fold_left]. destruct (IH (scale_src (src_slice s i) b)) as (-> & ->). destruct b; auto. }
  destruct S2 as (S2 & S3). clearbody srcd. clear S1.
  destruct (is_norm (M m)) eqn:N.
  - destruct (Hn eq_refl) as (-> & Hl). cbn [fold_left]. replace x' with x; [reflexivity|].
    apply functional_extensionality. intros c'. apply functional_extensionality. intros p'. rewrite Hx, Hl. cbn [divby]. ring.
  - destruct srcd as [n_in n_out K tap w b|]; [|discriminate].
    destruct (sinks_fold_lin s n_in n_out K tap b (entries_of m (c_sinks st)) w) as (w' & -> & Hw).
    cbn [fwd in_size] in *. destruct (c <? n_out)%nat; [|reflexivity]. f_equal. f_equal.
    apply map_ext_in. intros i Hi. apply in_seq in Hi. f_equal. apply map_ext. intros k.
    rewrite Hw, prod_slice_filter.
    assert (Hi' : (i < in_size (M m))%nat) by lia. specialize (Hsink i Hi').
    assert (E : prod_slice s (filter (fun x0 => (i_start x0 <=? i) && (i <? i_end x0))%nat (entries_of m (c_sinks st))) i * divby s (lab u i) = 1).
    { pose proof (filter_In (fun x0 => (i_start x0 <=? i) && (i <? i_end x0))%nat) as FI.
      destruct (filter _ (entries_of m (c_sinks st))) as [|z [|]] eqn:Ef; [| |contradiction].
      - rewrite Hsink. cbn. ring.
      - rewrite Hsink. cbn [prod_slice fold_right divby]. unfold sink_slice.
        assert (Hz : In z (filter (fun x0 => (i_start x0 <=? i) && (i <? i_end x0))%nat (entries_of m (c_sinks st)))) by (rewrite Ef; left; reflexivity).
        apply FI in Hz. rewrite (proj2 Hz). specialize (Hs (i_off z + (i - i_start z))%nat). field. lra. }
    assert (R : read (x' i) (tap p k) = read (x i) (tap p k) * divby s (lab u i)).
    { destruct (tap p k); cbn [read]; [apply Hx|ring]. }
    rewrite R. transitivity (w c i k * read (x i) (tap p k) * (prod_slice s (filter (fun x0 => (i_start x0 <=? i) && (i <? i_end x0))%nat (entries_of m (c_sinks st))) i * divby s (lab u i))); [ring|]. rewrite E. ring.
Qed.

Lemma kind_rel (e e' : nat -> value) v k : node_ok M st lab v k -> (forall a c p, In a (operands k) -> e' a c p = e a c p * divby s (lab a c)) ->
  forall c p, ceval_kind (apply_cat st s M) e' k c p = ceval_kind M e k c p * divby s (lab v c).
Proof.
  intros Hk He c p. destruct k as [m u|f u|ins|ins|f ins]; cbn [ceval_kind operands node_ok] in *.
  - apply (layer_fwd m v u (e u) (e' u) Hk). intros. apply He. left. reflexivity.
  - destruct Hk as (Hf & Hl). rewrite Hl.
    replace (e' u c) with (fun q => e u c q * divby s (lab u c)); [apply Hf; apply divby_pos|].
    apply functional_extensionality. intros q. symmetry. apply He. left. reflexivity.
  - unfold vsum. rewrite !map_map. rewrite <- (Rsum_scale (fun a => e a c p) _ (divby s (lab v c)) ins (fun a => eq_refl)).
    f_equal. apply map_ext_in. intros a Ha. rewrite He by exact Ha. rewrite (Hk a c Ha). reflexivity.
  - rewrite (cat_values_ext e e' lab s ins He). rewrite <- Hk. reflexivity.
  - destruct Hk as (Hv & Hu). rewrite Hv. cbn [divby]. replace (map e' ins) with (map e ins); [symmetry; apply Rmult_1_r|].
    apply map_ext_in. intros a Ha. apply functional_extensionality. intros c'. apply functional_extensionality. intros p'.
    rewrite He by exact Ha. rewrite (Hu a c' Ha). cbn [divby]. ring.
Qed.

Lemma ceval_rel : forall suf dn e e', (forall v k, In (v, k) suf -> In (v, k) g) -> cwf dn suf ->
  (forall a c p, In a dn -> e' a c p = e a c p * divby s (lab a c)) ->
  forall v c p, In v dn \/ In v (map fst suf) -> ceval suf (apply_cat st s M) e' v c p = ceval suf M e v c p * divby s (lab v c).
Proof.
  induction suf as [|[i k] suf IH]; intros dn e e' Hg Hw He v c p Hv.
  - cbn [ceval]. apply He. destruct Hv as [|[]]. assumption.
  - cbn [ceval]. destruct Hw as (Hi & Hin & Hw). apply (IH (i :: dn)); [intros; apply Hg; right; assumption|exact Hw| |].
    + intros a c' p' Ha. destruct (Nat.eqb_spec a i) as [->|Ne].
      * apply kind_rel; [apply OK; apply Hg; left; reflexivity|]. intros b c'' p'' Hb. apply He. apply Hin. exact Hb.
      * apply He. destruct Ha as [->|Ha]; [contradiction|exact Ha].
    + cbn [map fst In] in *. tauto.
Qed.
End Consistent.

(** For every graph, region and factors: if the region scales consistently, every output is
    unchanged and every other node is divided channel by channel. *)
Theorem C86_consistent_region : forall D g M st lab s e, cwf D g -> consistent D g M st lab -> (forall j, 0 < s j) ->
  forall v c p, In v (map fst g) -> ceval g (apply_cat st s M) e v c p = ceval g M e v c p * divby s (lab v c).
Proof.
  intros D g M st lab s e W OK Hs v c p Hv. apply (ceval_rel D g M st lab s OK Hs g D e e); [auto|exact W| |right; exact Hv].
  intros a c' p' Ha. rewrite (proj1 OK a c' Ha). cbn [divby]. ring.
Qed.
Theorem C86_equalize_consistent : forall D g M st lab alpha M' e, cwf D g -> consistent D g M st lab ->
  cat_equalize alpha st M = Some M' -> forall v f ins, In (v, COther f ins) g -> ceval g M' e v = ceval g M e v.
Proof.
  intros D g M st lab alpha M' e W OK E v f ins Hv. unfold cat_equalize in E.
  match type of E with (if ?c then _ else _) = _ => destruct c; [discriminate|] end.
  destruct (negb _); [injection E as <-; reflexivity|].
  match type of E with (if ?c then _ else _) = _ => destruct c; [discriminate|] end. injection E as <-.
  apply functional_extensionality. intros c. apply functional_extensionality. intros p.
  rewrite (C86_consistent_region D g M st lab (cat_factors alpha M st) e W OK); [|intros; apply C37_factor_positive|apply (in_map fst) in Hv; exact Hv].
  rewrite (proj1 (proj2 OK v _ Hv) c). cbn [divby]. ring.
Qed.

(** ** Example: two branches of different widths, one shared with a second concatenation.
    1 = A(0) (2 channels); 2 = relu(1); 3 = B(0) (1 channel); 4 = cat(2, 3); 5 = C(4);
    6 = E(0) (1 channel); 7 = cat(6, 2); 8 = F(7); 9, 10 outputs. *)
Definition clin (n_in n_out : nat) (w : R) : module := Lin n_in n_out 1 idtap (fun _ _ _ => w) (fun _ => 0).
Definition dense_graph : cgraph :=
  [(1, CLayer 10 0); (2, CInv relu 1); (3, CLayer 11 0); (4, CCat [(2, 2); (3, 1)]); (5, CLayer 12 4);
   (6, CLayer 13 0); (7, CCat [(6, 1); (2, 2)]); (8, CLayer 14 7); (9, COther out1 [5]); (10, COther out1 [8])]%nat.
Definition dense_mods : modules := fun m =>
  if (m =? 10)%nat then clin 1 2 4 else if (m =? 11)%nat then clin 1 1 4 else if (m =? 12)%nat then clin 3 1 1
  else if (m =? 13)%nat then clin 1 1 1 else clin 3 1 1.
Definition dense_labels : labels := fun v c =>
  if ((v =? 1) || (v =? 2))%nat then Some c else if (v =? 3)%nat then Some (2 + c)%nat
  else if (v =? 4)%nat then (if (c <? 3)%nat then Some c else None)
  else if (v =? 7)%nat then (if (c <? 1)%nat then None else if (c <? 3)%nat then Some (c - 1)%nat else None) else None.
Example C86_example : cwf [0%nat] dense_graph
  /\ exists st, cregion dense_graph dense_mods 20 1 = Some st
     /\ c_srcs st = [(10, I 0 2 0); (11, I 0 1 2)]%nat /\ c_sinks st = [(14, I 1 3 0); (12, I 0 3 0)]%nat
     /\ consistent [0%nat] dense_graph dense_mods st dense_labels
     /\ exists M', cat_equalize (/ 2) st dense_mods = Some M'.
Proof.
  split; [cbn; unfold incl; cbn [In]; repeat split; lia|].
  eexists. split; [vm_compute; reflexivity|]. split; [reflexivity|]. split; [reflexivity|]. split; [|eexists; reflexivity].
  split; [intros v c [<-|[]]; reflexivity|].
  intros v k Hv. cbn [dense_graph In] in Hv.
  repeat match type of Hv with _ \/ _ => destruct Hv as [Hv|Hv] end; try contradiction; injection Hv as <- <-; cbn [node_ok].
  - split; [intros c; reflexivity|]. split; [discriminate|]. intros c Hc. reflexivity.
  - split; [exact C37_relu_hom|reflexivity].
  - split; [intros c; reflexivity|]. split; [discriminate|]. intros c Hc. reflexivity.
  - intros c. cbn [cat_labels]. destruct c as [|[|[|c]]]; reflexivity.
  - split; [intros c; reflexivity|]. split; [discriminate|]. intros c Hc. cbn [in_size dense_mods Nat.eqb clin] in Hc. destruct c as [|[|[|c]]]; [reflexivity..|lia].
  - split; [intros c; reflexivity|]. split; [discriminate|]. intros c Hc. reflexivity.
  - intros c. cbn [cat_labels]. destruct c as [|[|[|c]]]; reflexivity.
  - split; [intros c; reflexivity|]. split; [discriminate|]. intros c Hc. cbn [in_size dense_mods Nat.eqb clin] in Hc. destruct c as [|[|[|c]]]; [reflexivity..|lia].
  - split; [reflexivity|]. intros u c [<-|[]]. reflexivity.
  - split; [reflexivity|]. intros u c [<-|[]]. reflexivity.
Qed.

(** ** Refutations *)
Definition two_mods : modules := fun m =>
  if (m =? 10)%nat then clin 1 1 4 else if (m =? 11)%nat then clin 1 1 4 else if (m =? 13)%nat then clin 1 2 1 else clin 2 1 1.

(** a = A(x); b = B(x); y = C(cat(a, b)); the model returns cat(a, y): the unsupported consumer
    (here the graph output) after the second concatenation is forgotten, and the returned a is
    divided by the factor. *)
Definition output_graph : cgraph :=
  [(1, CLayer 10 0); (2, CLayer 11 0); (3, CCat [(1, 1); (2, 1)]); (4, CLayer 12 3); (5, CCat [(1, 1); (4, 1)]); (6, COther out1 [5])]%nat.
Definition found (o : option cstate) : cstate := match o with Some st => st | None => c_init 0 end.
Definition output_st : cstate := Eval vm_compute in found (cregion output_graph two_mods 20 1).
Ltac cfac st := unfold cat_factors, src_factor_range, sink_factor_range, st;
  cbn [c_srcs c_sinks filter covers i_off i_end i_start snd fst Nat.leb Nat.ltb andb Nat.add Nat.sub map two_mods Nat.eqb clin src_range sink_range seq flat_map app];
  rewrite (Rabs_pos_eq 4), (Rabs_pos_eq 1) by lra; transitivity (scaling_factor (/ 2) 4 1); [f_equal; rmx; reflexivity|exact factor_4_1].
Ltac cside g := split; [cbn; unfold incl; cbn [In]; repeat split; lia|];
  split; [intros v f i Hv; cbn [g In] in Hv; repeat match type of Hv with _ \/ _ => destruct Hv as [Hv|Hv] end; try discriminate; contradiction|].
Theorem C86_dropped_consumer_refuted : exists D g M fuel n st M' e,
  cwf D g /\ (forall v f i, In (v, CInv f i) g -> hom f) /\ cregion g M fuel n = Some st /\ cat_equalize (/ 2) st M = Some M'
  /\ In (6%nat, COther out1 [5%nat]) g /\ ceval g M' e 6%nat 0%nat 0%nat <> ceval g M e 6%nat 0%nat 0%nat.
Proof.
  exists [0%nat], output_graph, two_mods, 20%nat, 1%nat, output_st, (apply_cat output_st (cat_factors (/ 2) two_mods output_st) two_mods), (fun _ _ _ => 1).
  cside output_graph. split; [vm_compute; reflexivity|]. split; [reflexivity|]. split; [do 5 right; left; reflexivity|].
  assert (F : cat_factors (/ 2) two_mods output_st 0 = 2) by cfac output_st.
  revert F. generalize (cat_factors (/ 2) two_mods output_st). intros s F. unfold output_st.
  cbn [ceval output_graph ceval_kind Nat.eqb out1 map cat_values Nat.ltb Nat.leb].
  unfold apply_cat. cbn [c_srcs c_sinks fold_left fst snd Nat.eqb two_mods clin scale_src scale_sink fwd Nat.ltb Nat.leb map seq Rsum read idtap].
  unfold src_slice. cbn [i_off Nat.add]. rewrite F. apply Rlt_not_eq. lra.
Qed.

(** A value concatenated with itself behind a first concatenation: only its first copy is
    compensated. *)
Definition twice_graph : cgraph :=
  [(1, CLayer 10 0); (2, CLayer 11 0); (3, CCat [(1, 1); (2, 1)]); (4, CLayer 12 3); (5, CCat [(1, 1); (1, 1)]); (6, CLayer 14 5);
   (7, COther out1 [4]); (8, COther out1 [6])]%nat.
Definition twice_st : cstate := Eval vm_compute in found (cregion twice_graph two_mods 20 1).
Theorem C86_repeated_operand_refuted : exists D g M fuel n st M' e,
  cwf D g /\ (forall v f i, In (v, CInv f i) g -> hom f) /\ cregion g M fuel n = Some st /\ cat_equalize (/ 2) st M = Some M'
  /\ In (8%nat, COther out1 [6%nat]) g /\ ceval g M' e 8%nat 0%nat 0%nat <> ceval g M e 8%nat 0%nat 0%nat.
Proof.
  exists [0%nat], twice_graph, two_mods, 20%nat, 1%nat, twice_st, (apply_cat twice_st (cat_factors (/ 2) two_mods twice_st) two_mods), (fun _ _ _ => 1).
  cside twice_graph. split; [vm_compute; reflexivity|]. split; [reflexivity|]. split; [do 7 right; left; reflexivity|].
  assert (F : cat_factors (/ 2) two_mods twice_st 0 = 2) by cfac twice_st.
  revert F. generalize (cat_factors (/ 2) two_mods twice_st). intros s F. unfold twice_st.
  cbn [ceval twice_graph ceval_kind Nat.eqb out1 map].
  unfold apply_cat. cbn [c_srcs c_sinks fold_left fst snd Nat.eqb two_mods clin scale_src scale_sink fwd Nat.ltb Nat.leb map seq Rsum read idtap cat_values Nat.sub].
  unfold src_slice, sink_slice. cbn [i_off i_start i_end Nat.add Nat.sub Nat.leb Nat.ltb andb]. rewrite F. apply Rlt_not_eq. lra.
Qed.

(** A value added to the second concatenation: its layer becomes a source that has no module,
    and the transformation raises. *)
Definition added_graph : cgraph :=
  [(1, CLayer 10 0); (2, CLayer 11 0); (3, CCat [(1, 1); (2, 1)]); (4, CLayer 12 3); (5, CCat [(1, 1); (4, 1)]); (6, CLayer 13 0);
   (7, CAdd [5; 6]); (8, CLayer 14 7); (9, COther out1 [8])]%nat.
Theorem C86_added_operand_refuted : exists D g M fuel n st,
  cwf D g /\ (forall v f i, In (v, CInv f i) g -> hom f) /\ cregion g M fuel n = Some st /\ cat_equalize (/ 2) st M = None.
Proof.
  exists [0%nat], added_graph, two_mods, 20%nat, 1%nat. eexists. cside added_graph. split; [vm_compute; reflexivity|]. reflexivity.
Qed.

Print Assumptions C86_consistent_region.
Print Assumptions C86_equalize_consistent.
Print Assumptions C86_dropped_consumer_refuted.
Print Assumptions C86_repeated_operand_refuted.
Print Assumptions C86_added_operand_refuted.
