(** C104: quantizing a part of a weight gives that part of the quantized weight. *)
From Coq Require Import ZArith QArith List Bool Lia Arith.
From Verif Require Import QUtil Ops Gpxq GpxqProps SliceWeight.
Import ListNotations.
Open Scope nat_scope.

(** * Specification *)
(** Multi-indices of a shape. *)
Definition inb (sh idx : list nat) : Prop := Forall2 lt idx sh.
(** [y] is [x[sl]]: in a sliced dimension the bounds are cut at the size, position i of the
    result is position start + i of [x]. *)
Definition len_of (d : nat) (o : option (nat * nat)) : nat := match o with Some (a, b) => min b d - min a d | None => d end.
Definition pos_of (o : option (nat * nat)) (i : nat) : nat := match o with Some (a, _) => a + i | None => i end.
Definition is_part (sl : list (option (nat * nat))) (y x : tens) : Prop :=
  length (shape y) = length (shape x)
  /\ (forall j, j < length (shape x) -> nth j (shape y) 0 = len_of (nth j (shape x) 0) (nth j sl None))
  /\ forall idx idx', inb (shape y) idx -> length idx' = length idx ->
       (forall j, j < length idx -> nth j idx' 0 = pos_of (nth j sl None) (nth j idx 0)) -> at_ y idx = at_ x idx'.

(** The scale (or zero point) broadcasts against the weight and has size 1 in sliced dimensions
    (dimensions are aligned at the end). *)
Definition transparent (sh s : list nat) (sl : list (option (nat * nat))) : Prop :=
  length s <= length sh /\ forall j, j < length s ->
    let k := j + (length sh - length s) in
    nth j s 0 = 1 \/ (nth j s 0 = nth k sh 0 /\ nth k sl None = None).

(** A layer whose quantizer fits its weight. *)
Definition well_formed (l : layer) (sl : list (option (nat * nat))) : Prop :=
  shape (weight l) <> [] /\ length sl <= length (shape (weight l))
  /\ transparent (shape (weight l)) (shape (q_scale (quant l))) sl
  /\ transparent (shape (weight l)) (shape (q_zp (quant l))) sl
  /\ (forall p, q_f2i (quant l) = FLearned p -> shape p = shape (weight l)).
(** The slicer of the current quantizer holds no slices and is known to the layer, if a cache
    exists. *)
Definition clean (l : layer) : Prop :=
  slicer l = [None] /\ forall ids, cached l = Some ids -> has_slicer (quant l) = true -> In (slicer_id l) ids.
Definition same_layer (l l' : layer) : Prop :=
  weight l' = weight l /\ weight_orig l' = weight_orig l /\ enabled l' = enabled l
  /\ requires_input l' = requires_input l /\ quant l' = quant l /\ slicer_id l' = slicer_id l.

(** * Lists *)
Lemma map2_length {A B C} (f : A -> B -> C) l m : length l = length m -> length (map2 f l m) = length l.
Proof. revert m. induction l as [|a l IH]; intros [|b m] H; cbn in *; try lia. rewrite IH; lia. Qed.
Lemma map2_nth {A B C} (f : A -> B -> C) l m j a b c : length l = length m -> j < length l -> nth j (map2 f l m) c = f (nth j l a) (nth j m b).
Proof. revert m j. induction l as [|x l IH]; intros [|y m] [|j] H L; cbn in *; try lia; [reflexivity|]. apply IH; lia. Qed.
Lemma map2_skipn {A B C} (f : A -> B -> C) k l m : skipn k (map2 f l m) = map2 f (skipn k l) (skipn k m).
Proof.
  revert l m. induction k as [|k IH]; intros [|x l] [|y m]; cbn; try reflexivity.
  - destruct (skipn k l); reflexivity.
  - apply IH.
Qed.
Lemma pad_slices_length n sl : length sl <= n -> length (pad_slices n sl) = n.
Proof. intros H. unfold pad_slices. rewrite app_length, repeat_length. lia. Qed.
Lemma pad_slices_nth n sl j : nth j (pad_slices n sl) None = nth j sl None.
Proof.
  unfold pad_slices. destruct (Nat.lt_ge_cases j (length sl)) as [H|H].
  - apply app_nth1, H.
  - rewrite app_nth2 by exact H. rewrite (nth_overflow sl) by exact H. generalize (j - length sl). generalize (n - length sl).
    induction n0; intros [|k]; cbn; auto.
Qed.
Lemma pad_ones_length n s : length s <= n -> length (pad_ones n s) = n.
Proof. intros H. unfold pad_ones. rewrite app_length, repeat_length. lia. Qed.
Lemma pad_ones_nth n s j : length s <= n -> j < n -> nth j (pad_ones n s) 0 = if j <? n - length s then 1 else nth (j - (n - length s)) s 0.
Proof.
  intros H L. unfold pad_ones. destruct (Nat.ltb_spec j (n - length s)).
  - rewrite app_nth1 by (rewrite repeat_length; lia). generalize dependent j. generalize (n - length s).
    induction n0; intros [|k] ? ?; cbn; try lia; auto. apply IHn0; lia.
  - rewrite app_nth2 by (rewrite repeat_length; lia). rewrite repeat_length. reflexivity.
Qed.
Lemma nth_ext_list {A} (d : A) : forall l m, length l = length m -> (forall j, j < length l -> nth j l d = nth j m d) -> l = m.
Proof.
  induction l as [|a l IH]; intros [|b m] L H; cbn in L; try lia; [reflexivity|].
  f_equal; [apply (H 0); cbn; lia|]. apply IH; [lia|]. intros j Hj. apply (H (S j)). cbn; lia.
Qed.
Lemma inb_length sh idx : inb sh idx -> length idx = length sh.
Proof. induction 1; cbn; auto. Qed.
Lemma inb_nth sh idx j : inb sh idx -> j < length sh -> nth j idx 0 < nth j sh 0.
Proof. intros H. revert j. induction H; intros [|j] L; cbn in *; try lia. apply IHForall2. lia. Qed.
Lemma inb_of_nth sh : forall idx, length idx = length sh -> (forall j, j < length sh -> nth j idx 0 < nth j sh 0) -> inb sh idx.
Proof.
  induction sh as [|d sh IH]; intros [|i idx] L H; cbn in L; try lia; constructor.
  - apply (H 0). cbn; lia.
  - apply IH; [lia|]. intros j Hj. apply (H (S j)). cbn; lia.
Qed.

(** * The slicing relation *)
Definition sub (sl : list slice_t) (y x : tens) : Prop :=
  let ps := pad_slices (length (shape x)) sl in
  shape y = map2 slice_len (shape x) ps /\ forall idx, inb (shape y) idx -> at_ y idx = at_ x (map2 slice_pos ps idx).

Lemma slice_sub sl x : length sl <= length (shape x) -> exists y, slice sl x = Some y /\ sub sl y x.
Proof.
  intros H. unfold slice. destruct (Nat.ltb_spec (length (shape x)) (length sl)); [lia|].
  eexists. split; [reflexivity|]. split; reflexivity.
Qed.
Lemma slice_too_many sl x : length (shape x) < length sl -> slice sl x = None.
Proof. intros H. unfold slice. destruct (Nat.ltb_spec (length (shape x)) (length sl)); [reflexivity|lia]. Qed.

Lemma sub_length sl y x : length sl <= length (shape x) -> sub sl y x -> length (shape y) = length (shape x).
Proof. intros H [E _]. rewrite E. apply map2_length. rewrite pad_slices_length; [reflexivity|exact H]. Qed.

Lemma sub_is_part sl y x : length sl <= length (shape x) -> sub sl y x -> is_part sl y x.
Proof.
  intros H S0. pose proof (sub_length _ _ _ H S0) as L. destruct S0 as [E A]. split; [exact L|]. split.
  - intros j Hj. rewrite E. rewrite (map2_nth _ _ _ _ 0 (None : slice_t)) by (rewrite ?pad_slices_length by exact H; lia).
    rewrite pad_slices_nth. reflexivity.
  - intros idx idx' I Ll N. rewrite A by exact I. f_equal.
    pose proof (inb_length _ _ I) as Li. apply (nth_ext_list 0).
    + rewrite map2_length by (rewrite pad_slices_length by exact H; lia). rewrite pad_slices_length by exact H. lia.
    + intros j Hj. rewrite map2_length in Hj by (rewrite pad_slices_length by exact H; lia). rewrite pad_slices_length in Hj by exact H.
      rewrite (map2_nth _ _ _ _ (None : slice_t) 0) by (rewrite pad_slices_length by exact H; lia).
      rewrite pad_slices_nth. rewrite N by lia. reflexivity.
Qed.

Lemma inb_pos : forall sh ps idx, length ps = length sh -> inb (map2 slice_len sh ps) idx -> inb sh (map2 slice_pos ps idx).
Proof.
  induction sh as [|d sh IH]; intros [|o ps] idx L H; cbn in L; try lia; cbn [map2] in *.
  - inversion H; subst. constructor.
  - inversion H as [|i ? idx' ? Hi Hr]; subst. cbn [map2]. constructor; [|apply IH; [lia|exact Hr]].
    destruct o as [[a b]|]; cbn [slice_len slice_pos] in *; lia.
Qed.

Lemma bindex_id : forall sh idx, inb sh idx -> bindex sh idx = idx.
Proof.
  intros sh idx H. unfold bindex. rewrite (inb_length _ _ H), Nat.sub_diag. cbn [skipn].
  induction H as [|i d idx sh Hi Hr IH]; [reflexivity|]. cbn [map2]. f_equal; [|exact IH]. destruct (Nat.eqb_spec d 1); lia.
Qed.

Fixpoint compat (sh ps : list nat) (sl : list slice_t) : Prop :=
  match sh, ps, sl with
  | d :: sh', e :: ps', o :: sl' => (e = 1 \/ (e = d /\ o = None)) /\ compat sh' ps' sl'
  | [], [], [] => True
  | _, _, _ => False
  end.
Lemma compat_of_nth : forall sh ps sl, length ps = length sh -> length sl = length sh ->
  (forall j, j < length sh -> nth j ps 0 = 1 \/ (nth j ps 0 = nth j sh 0 /\ nth j sl None = None)) -> compat sh ps sl.
Proof.
  induction sh as [|d sh IH]; intros [|e ps] [|o sl] L1 L2 H; cbn in L1, L2; try lia; cbn; [exact I|].
  split; [apply (H 0); cbn; lia|]. apply IH; try lia. intros j Hj. apply (H (S j)). cbn; lia.
Qed.
Lemma transparent_compat sh s sl : length sl <= length sh -> transparent sh s sl ->
  compat sh (pad_ones (length sh) s) (pad_slices (length sh) sl).
Proof.
  intros Ls [L H]. apply compat_of_nth; [apply pad_ones_length, L|apply pad_slices_length, Ls|].
  intros j Hj. rewrite pad_ones_nth by assumption. rewrite pad_slices_nth. destruct (Nat.ltb_spec j (length sh - length s)); [left; reflexivity|].
  specialize (H (j - (length sh - length s)) ltac:(lia)). cbn zeta in H.
  replace (j - (length sh - length s) + (length sh - length s)) with j in H by lia. exact H.
Qed.
Lemma compat_zip sh ps sl : compat sh ps sl -> zip_dims sh ps = Some sh /\ zip_dims (map2 slice_len sh sl) ps = Some (map2 slice_len sh sl).
Proof.
  revert ps sl. induction sh as [|d sh IH]; intros [|e ps] [|o sl] H; cbn in H; try contradiction; [split; reflexivity|].
  destruct H as [H1 H2]. destruct (IH _ _ H2) as [I1 I2]. cbn [zip_dims map2]. rewrite I1, I2.
  destruct H1 as [-> |[-> ->]].
  - split.
    + destruct (Nat.eqb_spec d 1) as [->|]; reflexivity.
    + destruct (Nat.eqb_spec (slice_len d o) 1) as [->|]; reflexivity.
  - cbn [slice_len]. rewrite Nat.eqb_refl. split; reflexivity.
Qed.
Definition zero1 (d i : nat) : nat := if d =? 1 then 0 else i.
Lemma compat_index sh ps sl : compat sh ps sl -> forall idx, length idx = length sh ->
  map2 zero1 ps (map2 slice_pos sl idx) = map2 zero1 ps idx.
Proof.
  revert ps sl. induction sh as [|d sh IH]; intros [|e ps] [|o sl] H idx L; cbn in H; try contradiction; [reflexivity|].
  destruct idx as [|i idx]; [discriminate|]. destruct H as [H1 H2]. cbn [map2]. f_equal; [|apply IH; [exact H2|cbn in L; lia]].
  destruct H1 as [-> |[_ ->]]; reflexivity.
Qed.
Lemma bindex_pad s idx : length s <= length idx -> bindex s idx = skipn (length idx - length s) (map2 zero1 (pad_ones (length idx) s) idx).
Proof.
  intros H. rewrite map2_skipn. unfold bindex. f_equal. unfold pad_ones.
  rewrite skipn_app, repeat_length, Nat.sub_diag. cbn [skipn].
  rewrite (skipn_all2 (repeat _ _)) by (rewrite repeat_length; lia). reflexivity.
Qed.

(** Broadcasting a scale commutes with slicing. *)
Lemma broadcast_sub f sl x y s : length sl <= length (shape x) -> sub sl y x -> transparent (shape x) (shape s) sl ->
  exists r r', broadcast f x s = Some r /\ broadcast f y s = Some r' /\ shape r = shape x /\ sub sl r' r.
Proof.
  intros Ls Su Tr. pose proof (transparent_compat _ _ _ Ls Tr) as C. destruct (compat_zip _ _ _ C) as [Z1 Z2].
  pose proof (sub_length _ _ _ Ls Su) as Ly. destruct Su as [E A]. destruct Tr as [Tl _].
  unfold broadcast, bshape. rewrite Ly, Nat.max_l by exact Tl.
  replace (pad_ones (length (shape x)) (shape x)) with (shape x) by (unfold pad_ones; rewrite Nat.sub_diag; reflexivity).
  replace (pad_ones (length (shape x)) (shape y)) with (shape y) by (unfold pad_ones; rewrite Ly, Nat.sub_diag; reflexivity).
  assert (ZY : zip_dims (shape y) (pad_ones (length (shape x)) (shape s)) = Some (shape y)) by (rewrite E; exact Z2).
  rewrite Z1, ZY. do 2 eexists. split; [reflexivity|]. split; [reflexivity|]. split; [reflexivity|].
  split; cbn [shape at_]; [exact E|]. intros idx I.
  assert (Ix : inb (shape x) (map2 slice_pos (pad_slices (length (shape x)) sl) idx)) by (apply inb_pos; [apply pad_slices_length, Ls|rewrite <- E; exact I]).
  assert (Li : length idx = length (shape x)) by (rewrite (inb_length _ _ I); exact Ly).
  f_equal.
  - rewrite (bindex_id (shape x)) by exact Ix. rewrite bindex_id by exact I. apply A. exact I.
  - f_equal. rewrite !bindex_pad by (rewrite ?(inb_length _ _ Ix); lia). rewrite (inb_length _ _ Ix), Li. f_equal.
    symmetry. apply (compat_index _ _ _ C). exact Li.
Qed.

Lemma zip_same sh : zip_dims sh sh = Some sh.
Proof. induction sh as [|d sh IH]; [reflexivity|]. cbn. rewrite IH, Nat.eqb_refl. reflexivity. Qed.
Lemma bshape_same sh : bshape sh sh = Some sh.
Proof. unfold bshape. rewrite Nat.max_id. unfold pad_ones. rewrite Nat.sub_diag. apply zip_same. Qed.

(** Two tensors of the same shape sliced alike. *)
Lemma broadcast_sub2 f sl x y p p' : length sl <= length (shape x) -> shape p = shape x -> sub sl y x -> sub sl p' p ->
  exists r r', broadcast f x p = Some r /\ broadcast f y p' = Some r' /\ shape r = shape x /\ sub sl r' r.
Proof.
  intros Ls Ep Su Sp. pose proof (sub_length _ _ _ Ls Su) as Ly. destruct Su as [E A], Sp as [E' A']. rewrite Ep in *.
  assert (Esh : shape p' = shape y) by congruence. clear E'.
  unfold broadcast. rewrite Ep, Esh, !bshape_same. do 2 eexists. repeat split; cbn [shape at_]; [exact E|].
  intros idx I. assert (Ix : inb (shape x) (map2 slice_pos (pad_slices (length (shape x)) sl) idx)) by (apply inb_pos; [apply pad_slices_length, Ls|rewrite <- E; exact I]).
  rewrite !bindex_id by assumption. rewrite A, A' by (rewrite ?Esh; exact I). reflexivity.
Qed.

Lemma tmap_sub f sl y x : sub sl y x -> sub sl (tmap f y) (tmap f x).
Proof. intros [E A]. split; cbn [tmap shape at_]; [exact E|]. intros idx I. rewrite A by exact I. reflexivity. Qed.

Lemma map2_len_none : forall sh n, length sh <= n -> map2 slice_len sh (repeat None n) = sh.
Proof. induction sh as [|d sh IH]; intros [|n] H; cbn in *; try lia; auto. f_equal. apply IH. lia. Qed.
Lemma map2_pos_none : forall idx n, length idx <= n -> map2 slice_pos (repeat None n) idx = idx.
Proof. induction idx as [|d sh IH]; intros [|n] H; cbn in *; try lia; auto. f_equal. apply IH. lia. Qed.
(** [x[:]]. *)
Lemma slice_none x : shape x <> [] -> exists y, slice [None] x = Some y /\ shape y = shape x /\ forall idx, inb (shape x) idx -> at_ y idx = at_ x idx.
Proof.
  intros N. destruct (shape x) as [|d sh] eqn:E; [congruence|].
  destruct (slice_sub [None] x) as (y & Hy & S0); [rewrite E; cbn; lia|]. exists y. split; [exact Hy|]. destruct S0 as [Ey A].
  assert (P : pad_slices (length (d :: sh)) [None] = repeat None (length (d :: sh))) by (unfold pad_slices; cbn; rewrite Nat.sub_0_r; reflexivity).
  rewrite E, P in Ey. rewrite map2_len_none in Ey by lia. split; [exact Ey|].
  intros idx I. rewrite A by (rewrite Ey; exact I). rewrite E, P. rewrite map2_pos_none; [reflexivity|]. rewrite (inb_length _ _ I). lia.
Qed.
Lemma sub_ext sl y x x0 : length sl <= length (shape x) -> shape x0 = shape x -> (forall idx, inb (shape x) idx -> at_ x0 idx = at_ x idx) -> sub sl y x -> sub sl y x0.
Proof.
  intros Ls Es H [E A]. unfold sub. rewrite Es. split; [exact E|]. intros idx I. rewrite A by exact I. symmetry. apply H.
  apply inb_pos; [apply pad_slices_length, Ls|rewrite <- E; exact I].
Qed.

Lemma float_to_int_sub f sl x y : length sl <= length (shape x) -> shape x <> [] -> sub sl y x -> (forall p, f = FLearned p -> shape p = shape x) ->
  exists r r', float_to_int_t f [None] x = Some r /\ float_to_int_t f sl y = Some r' /\ shape r = shape x /\ sub sl r' r.
Proof.
  intros Ls Ne Su Hp. destruct f as [m|p]; cbn [float_to_int_t].
  - do 2 eexists. split; [reflexivity|]. split; [reflexivity|]. split; [reflexivity|]. apply tmap_sub, Su.
  - specialize (Hp p eq_refl). destruct (slice_none p) as (p0 & E0 & S0 & A0); [congruence|].
    destruct (slice_sub sl p) as (p' & E' & Sp); [rewrite Hp; exact Ls|]. rewrite E0, E'. cbn [obind].
    apply (broadcast_sub2 Qplus sl (tmap _ x)); cbn [tmap shape]; [exact Ls|congruence|apply tmap_sub, Su|].
    apply (sub_ext sl p' p); [rewrite Hp; exact Ls|exact S0| |exact Sp]. intros idx I. apply A0, I.
Qed.

Lemma int_quant_sub q sl x y : length sl <= length (shape x) -> shape x <> [] -> sub sl y x ->
  transparent (shape x) (shape (q_scale q)) sl -> transparent (shape x) (shape (q_zp q)) sl ->
  (forall p, q_f2i q = FLearned p -> shape p = shape x) ->
  exists r r', int_quant_t q [None] x = Some r /\ int_quant_t q sl y = Some r' /\ shape r = shape x /\ sub sl r' r.
Proof.
  intros Ls Ne Su Ts Tz Hp. unfold int_quant_t.
  destruct (broadcast_sub Qdiv sl x y (q_scale q) Ls Su Ts) as (r1 & r1' & -> & -> & E1 & S1). cbn [obind].
  destruct (broadcast_sub Qplus sl r1 r1' (q_zp q)) as (r2 & r2' & -> & -> & E2 & S2); rewrite ?E1; try assumption. cbn [obind].
  rewrite E1 in E2. destruct (float_to_int_sub (q_f2i q) sl r2 r2') as (r3 & r3' & -> & -> & E3 & S3); rewrite ?E2; try assumption. cbn [obind].
  rewrite E2 in E3. set (c := fun v : Q => tensor_clamp v _ _).
  destruct (broadcast_sub Qminus sl (tmap c r3) (tmap c r3') (q_zp q)) as (r4 & r4' & -> & -> & E4 & S4); cbn [tmap shape]; rewrite ?E3; try assumption; [apply tmap_sub, S3|]. cbn [obind].
  cbn [tmap shape] in E4. rewrite E3 in E4.
  destruct (broadcast_sub Qmult sl r4 r4' (q_scale q)) as (r5 & r5' & -> & -> & E5 & S5); rewrite ?E4; try assumption.
  exists r5, r5'. rewrite E4 in E5. repeat split; try reflexivity; try assumption; apply S5.
Qed.

Lemma slicer_irrelevant q a b x : has_slicer q = false -> int_quant_t q a x = int_quant_t q b x.
Proof. intros H. unfold has_slicer in H. destruct (q_f2i q) eqn:E; [|discriminate]. unfold int_quant_t. rewrite E. reflexivity. Qed.

Lemma quant_weight_full l qi : slicer l = [None] -> quant_weight qi None l =
  (l, if requires_input l && negb qi then None else
      if enabled l then int_quant_t (quant l) [None] (weight l) else Some (match weight_orig l with Some o => o | None => weight l end)).
Proof.
  intros H. unfold quant_weight, weight_quant. destruct (requires_input l && negb qi); [reflexivity|].
  destruct (enabled l); cbn [negb]; [rewrite H; reflexivity|]. reflexivity.
Qed.

Definition ids_of (l : layer) : list nat := match cached l with Some ids => ids | None => if has_slicer (quant l) then [slicer_id l] else [] end.
Lemma ids_in l : clean l -> has_slicer (quant l) = true -> existsb (Nat.eqb (slicer_id l)) (ids_of l) = true.
Proof.
  intros [_ C] H. unfold ids_of. apply existsb_exists. exists (slicer_id l). rewrite Nat.eqb_refl. split; [|reflexivity].
  destruct (cached l) as [ids|]; [apply (C ids eq_refl H)|]. rewrite H. left. reflexivity.
Qed.

(** The call restores the state it found. *)
Lemma quant_weight_state l qi sl out l' : clean l -> quant_weight qi sl l = (l', Some out) -> clean l' /\ same_layer l l'.
Proof.
  intros C H. destruct sl as [sl|].
  2: { unfold quant_weight in H. injection H as <- _. split; [exact C|]. repeat split. }
  unfold quant_weight in H. fold (ids_of l) in H. destruct (obind _ _) as [o|] eqn:E; [|discriminate]. injection H as <- _.
  split; [|repeat split]. split; cbn [assign set_state slicer slicer_id cached quant].
  - destruct (existsb _ _) eqn:X; [reflexivity|]. apply C.
  - intros ids Ei Hs. injection Ei as <-. pose proof (ids_in l C Hs) as X. apply existsb_exists in X. destruct X as (k & X1 & X2).
    apply Nat.eqb_eq in X2. subst k. exact X1.
Qed.

(** * Theorems *)

(** Quantizing a part is the part of the quantized weight: whatever part, provided the scale and
    zero point have size 1 in sliced dimensions; the layer is left as it was. *)
Theorem C104_part l qi sl : clean l -> enabled l = true -> (requires_input l = true -> qi = true) -> well_formed l sl ->
  exists l' out full, quant_weight qi (Some sl) l = (l', Some out) /\ snd (quant_weight qi None l) = Some full
    /\ is_part sl out full /\ shape full = shape (weight l) /\ clean l' /\ same_layer l l'.
Proof.
  intros C En Rq (Ne & Ls & Ts & Tz & Hp).
  assert (Rb : requires_input l && negb qi = false).
  { destruct (requires_input l); [rewrite (Rq eq_refl); reflexivity|reflexivity]. }
  destruct (slice_sub sl (weight l) Ls) as (y & Ey & Sy).
  destruct (int_quant_sub (quant l) sl (weight l) y Ls Ne Sy Ts Tz Hp) as (r & r' & Er & Er' & Esh & Sr).
  assert (Hq : exists l', quant_weight qi (Some sl) l = (l', Some r')).
  { unfold quant_weight. fold (ids_of l). rewrite En. cbn [negb]. rewrite Ey. cbn [obind].
    unfold weight_quant. cbn [assign set_state requires_input enabled quant slicer slicer_id]. rewrite Rb, En.
    assert (E2 : int_quant_t (quant l) (if existsb (Nat.eqb (slicer_id l)) (ids_of l) then sl else slicer l) y = Some r').
    { destruct (has_slicer (quant l)) eqn:Hs; [rewrite ids_in by assumption; exact Er'|]. rewrite <- Er'. apply slicer_irrelevant, Hs. }
    rewrite E2. eexists. reflexivity. }
  destruct Hq as (l' & Hq). exists l', r', r. split; [exact Hq|]. split.
  { rewrite quant_weight_full by apply C. cbn [snd]. rewrite Rb, En. exact Er. }
  split; [apply sub_is_part; [rewrite Esh; exact Ls|exact Sr]|]. split; [exact Esh|].
  apply (quant_weight_state l qi (Some sl) r' l' C Hq).
Qed.

(** The whole quantized weight, element by element: the entry of the scale and zero point is the
    one aligned at the end, dimensions of size 1 being repeated. *)
Definition entry_of (s : tens) (idx : list nat) (v : Q) : Prop :=
  exists si, length si = length (shape s) /\ v = at_ s si
    /\ forall j, j < length si -> nth j si 0 = if nth j (shape s) 0 =? 1 then 0 else nth (j + (length idx - length si)) idx 0.
Definition rounded (f : f2i) (idx : list nat) (u r : Q) : Prop :=
  match f with FMode m => r = float_to_int m u | FLearned p => r = (inject_Z (floorZ u) + at_ p idx)%Q end.

Lemma broadcast_at f x s : transparent (shape x) (shape s) [] -> exists r, broadcast f x s = Some r /\ shape r = shape x
  /\ forall idx, inb (shape x) idx -> at_ r idx = f (at_ x idx) (at_ s (bindex (shape s) idx)).
Proof.
  intros Tr. pose proof (transparent_compat _ _ [] ltac:(cbn; lia) Tr) as C. destruct (compat_zip _ _ _ C) as [Z1 _]. destruct Tr as [Tl _].
  unfold broadcast, bshape. rewrite Nat.max_l by exact Tl.
  replace (pad_ones (length (shape x)) (shape x)) with (shape x) by (unfold pad_ones; rewrite Nat.sub_diag; reflexivity).
  rewrite Z1. eexists. split; [reflexivity|]. split; [reflexivity|]. intros idx I. cbn [at_]. rewrite bindex_id by exact I. reflexivity.
Qed.
Lemma entry_bindex s idx : length (shape s) <= length idx -> entry_of s idx (at_ s (bindex (shape s) idx)).
Proof.
  intros L. exists (bindex (shape s) idx). unfold bindex.
  assert (Lk : length (skipn (length idx - length (shape s)) idx) = length (shape s)) by (rewrite skipn_length; lia).
  assert (Ls : length (map2 (fun d i => if d =? 1 then 0 else i) (shape s) (skipn (length idx - length (shape s)) idx)) = length (shape s))
    by (apply map2_length; lia).
  split; [exact Ls|]. split; [reflexivity|]. intros j Hj. rewrite Ls in Hj |- *.
  rewrite (map2_nth _ _ _ _ 0 0) by lia. destruct (nth j (shape s) 0 =? 1); [reflexivity|].
  generalize (length idx - length (shape s)). intros k. rewrite Nat.add_comm. clear. revert k.
  induction idx as [|i idx IH]; intros [|k]; cbn [skipn Nat.add]; try reflexivity; [destruct j; reflexivity|]. cbn [nth]. apply IH.
Qed.

Theorem C104_value l qi : clean l -> enabled l = true -> (requires_input l = true -> qi = true) -> well_formed l [] ->
  exists full, snd (quant_weight qi None l) = Some full /\ shape full = shape (weight l) /\
  forall idx, inb (shape (weight l)) idx -> exists s z r, entry_of (q_scale (quant l)) idx s /\ entry_of (q_zp (quant l)) idx z
    /\ rounded (q_f2i (quant l)) idx (at_ (weight l) idx / s + z)%Q r
    /\ at_ full idx = ((tensor_clamp r (inject_Z (min_int (q_signed (quant l)) (q_narrow (quant l)) (q_bw (quant l))))
                                       (inject_Z (max_int (q_signed (quant l)) (q_narrow (quant l)) (q_bw (quant l)))) - z) * s)%Q.
Proof.
  intros C En Rq (Ne & _ & Ts & Tz & Hp).
  assert (Rb : requires_input l && negb qi = false).
  { destruct (requires_input l); [rewrite (Rq eq_refl); reflexivity|reflexivity]. }
  rewrite quant_weight_full by apply C. cbn [snd]. rewrite Rb, En. unfold int_quant_t. set (q := quant l) in *.
  destruct (broadcast_at Qdiv (weight l) (q_scale q) Ts) as (r1 & -> & E1 & A1). cbn [obind].
  destruct (broadcast_at Qplus r1 (q_zp q)) as (r2 & -> & E2 & A2); [rewrite E1; exact Tz|]. cbn [obind]. rewrite E1 in *.
  assert (F : exists r3, float_to_int_t (q_f2i q) [None] r2 = Some r3 /\ shape r3 = shape (weight l)
     /\ forall idx, inb (shape (weight l)) idx -> rounded (q_f2i q) idx (at_ r2 idx) (at_ r3 idx)).
  { destruct (q_f2i q) as [m|p] eqn:Ef; cbn [float_to_int_t].
    - eexists. split; [reflexivity|]. split; [exact E2|]. intros idx I. reflexivity.
    - specialize (Hp p eq_refl). destruct (slice_none p) as (p0 & -> & S0 & A0); [congruence|]. cbn [obind]. rewrite Hp in *.
      unfold broadcast. cbn [tmap shape at_]. rewrite S0, E2, bshape_same. eexists. split; [reflexivity|]. split; [reflexivity|].
      intros idx I. cbn [rounded at_]. rewrite !bindex_id by exact I. rewrite A0 by exact I. reflexivity. }
  destruct F as (r3 & -> & E3 & A3). cbn [obind]. set (c := fun v : Q => tensor_clamp v _ _).
  destruct (broadcast_at Qminus (tmap c r3) (q_zp q)) as (r4 & -> & E4 & A4); [cbn [tmap shape]; rewrite E3; exact Tz|]. cbn [obind].
  cbn [tmap shape] in E4, A4. rewrite E3 in *.
  destruct (broadcast_at Qmult r4 (q_scale q)) as (r5 & -> & E5 & A5); [rewrite E4; exact Ts|]. rewrite E4 in *.
  exists r5. split; [reflexivity|]. split; [exact E5|]. intros idx I.
  exists (at_ (q_scale q) (bindex (shape (q_scale q)) idx)), (at_ (q_zp q) (bindex (shape (q_zp q)) idx)), (at_ r3 idx).
  split; [apply entry_bindex; rewrite (inb_length _ _ I); apply Ts|]. split; [apply entry_bindex; rewrite (inb_length _ _ I); apply Tz|].
  split.
  - specialize (A3 idx I). rewrite A2, A1 in A3 by exact I. exact A3.
  - rewrite A5, A4 by exact I. reflexivity.
Qed.

(** With quantization disabled the part of the original (else the current) weight. *)
Theorem C104_disabled l qi sl : clean l -> enabled l = false -> (requires_input l = true -> qi = true) ->
  let w := match weight_orig l with Some o => o | None => weight l end in length sl <= length (shape w) ->
  exists l' out, quant_weight qi (Some sl) l = (l', Some out) /\ is_part sl out w /\ clean l' /\ same_layer l l'.
Proof.
  intros C En Rq w Ls.
  assert (Rb : requires_input l && negb qi = false).
  { destruct (requires_input l); [rewrite (Rq eq_refl); reflexivity|reflexivity]. }
  destruct (slice_sub sl w Ls) as (y & Ey & Sy).
  assert (Hq : exists l', quant_weight qi (Some sl) l = (l', Some y)).
  { unfold quant_weight. fold (ids_of l). rewrite En. cbn [negb]. fold w. rewrite Ey. cbn [obind].
    unfold weight_quant. cbn [assign set_state requires_input enabled]. rewrite Rb, En. eexists. reflexivity. }
  destruct Hq as (l' & Hq). exists l', y. split; [exact Hq|]. split; [apply sub_is_part; assumption|].
  apply (quant_weight_state l qi (Some sl) y l' C Hq).
Qed.

(** ** Histories *)
Inductive op := Call (qi : bool) (sl : option (list (option (nat * nat)))) | SetWeight (w : tens).
(** The layer after the operations, and whether no call raised. *)
Fixpoint run (ops : list op) (l : layer) : layer * bool :=
  match ops with
  | [] => (l, true)
  | Call qi sl :: r => let '(l', o) := quant_weight qi sl l in
                       let '(l'', b) := run r l' in (l'', b && match o with Some _ => true | None => false end)
  | SetWeight w :: r => run r (set_weight w l)
  end.
Lemma run_clean ops : forall l l', clean l -> run ops l = (l', true) -> clean l'.
Proof.
  induction ops as [|o ops IH]; intros l l' C H; cbn [run] in H.
  - injection H as <-. exact C.
  - destruct o as [qi sl|w].
    + destruct (quant_weight qi sl l) as [l1 o] eqn:E. destruct (run ops l1) as [l2 b] eqn:R. injection H as -> Hb.
      destruct o as [out|]; [|rewrite andb_false_r in Hb; discriminate]. rewrite andb_true_r in Hb. subst b.
      apply (IH l1); [|exact R]. apply (quant_weight_state l qi sl out l1 C E).
    + apply (IH (set_weight w l)); [|exact H]. exact C.
Qed.
(** After any sequence of calls that did not raise and weight updates, starting from a layer that
    was just built (or whose quantizer was rebuilt before any sliced call). *)
Theorem C104_history l ops l' qi sl : slicer l = [None] -> cached l = None -> run ops l = (l', true) ->
  enabled l' = true -> (requires_input l' = true -> qi = true) -> well_formed l' sl ->
  exists out full, snd (quant_weight qi (Some sl) l') = Some out /\ snd (quant_weight qi None l') = Some full /\ is_part sl out full.
Proof.
  intros S0 C0 R En Rq W. assert (C : clean l') by (apply (run_clean ops l l'); [|exact R]; split; [exact S0|]; intros ids E; congruence).
  destruct (C104_part l' qi sl C En Rq W) as (l'' & out & full & E1 & E2 & P & _). exists out, full.
  rewrite E1. repeat split; try assumption; apply P.
Qed.

(** ** gpxq *)
Lemma flat_bound sh : forall idx, inb sh idx -> flat sh idx < prod sh.
Proof.
  induction sh as [|d sh IH]; intros idx H; inversion H as [|i ? idx' ? Hi Hr]; subst; cbn [flat prod fold_right]; [lia|].
  specialize (IH _ Hr). fold (prod sh). unfold prod in *. nia.
Qed.
Lemma flat_inj sh : forall a b, inb sh a -> inb sh b -> flat sh a = flat sh b -> a = b.
Proof.
  induction sh as [|d sh IH]; intros a b Ha Hb E; inversion Ha as [|i ? a' ? Hi Hr]; inversion Hb as [|j ? b' ? Hj Hs]; subst; [reflexivity|].
  cbn [flat] in E. pose proof (flat_bound sh a' Hr) as B1. pose proof (flat_bound sh b' Hs) as B2. unfold prod in *.
  set (P := fold_right Nat.mul 1 sh) in *. assert (i = j) by nia. subst j. f_equal. apply IH; try assumption. lia.
Qed.
Lemma inb_pos_dims sh idx : inb sh idx -> Forall (fun d => 1 <= d) sh.
Proof. induction 1; constructor; [lia|assumption]. Qed.
Lemma index_nd_flat sh idx : inb sh idx -> index_nd sh (flat sh idx) = idx.
Proof.
  intros H. destruct (C63_slice sh (flat sh idx) (inb_pos_dims _ _ H) (flat_bound _ _ H)) as [E1 E2].
  apply (flat_inj sh); assumption.
Qed.

(** The scale has one value per output channel, or one in all. *)
Definition per_channel (sh s : list nat) : Prop :=
  length s <= length sh /\ forall j, j < length s -> nth j s 0 = 1 \/ (j = 0 /\ length s = length sh /\ nth 0 s 0 = nth 0 sh 0).
Lemma per_channel_transparent sh s sl : per_channel sh s -> nth 0 sl None = None -> transparent sh s sl.
Proof.
  intros [L H] N. split; [exact L|]. intros j Hj. cbn zeta. destruct (H j Hj) as [E|(-> & E1 & E2)]; [left; exact E|].
  right. rewrite E1, Nat.sub_diag. split; [exact E2|exact N].
Qed.

Definition channel_layer (l : layer) : Prop :=
  per_channel (shape (weight l)) (shape (q_scale (quant l))) /\ per_channel (shape (weight l)) (shape (q_zp (quant l)))
  /\ (forall p, q_f2i (quant l) = FLearned p -> shape p = shape (weight l)).

(** The tensor whose rows are output channels. *)
Definition oriented (k : lkind) (x : tens) : tens := match k with ConvT12 => transpose10 x | _ => x end.

(** The kinds of layers for which the column is meant: the weight of a linear layer has two
    dimensions and one group; transposed convolutions (one and two dimensions) one group. *)
Definition supported (k : lkind) (groups : nat) (sh : list nat) : Prop :=
  match k with
  | Linear => length sh = 2 /\ groups = 1
  | Conv => 2 <= length sh /\ 1 <= groups /\ nth 0 sh 0 mod groups = 0
  | ConvT12 => 2 <= length sh /\ groups = 1
  | ConvT3 => False
  end.

(** [get_quant_weights] returns, in every branch, the column [perm_g[i1 + i]] of the flattened
    quantized weight of every group. *)
Theorem C104_gpxq_column k groups act_order groupwise qi l perms i1 i :
  clean l -> enabled l = true -> (requires_input l = true -> qi = true) ->
  channel_layer l -> supported k groups (shape (weight l)) ->
  (act_order = false -> forall g, g < groups -> nth (i1 + i) (nth g perms []) 0 = i1 + i) ->
  let cols_shape := tl (shape (oriented k (weight l))) in
  (forall g, g < groups -> exists idx, inb cols_shape idx /\ flat cols_shape idx = nth (i1 + i) (nth g perms []) 0) ->
  exists l' res full, get_quant_weights k groups act_order groupwise qi l perms i1 i = (l', Some res)
    /\ snd (quant_weight qi None l) = Some full /\ clean l' /\ same_layer l l'
    /\ g_groups res = groups /\ groups * g_rows res = hd 0 (shape (oriented k (weight l)))
    /\ forall g r idx, g < groups -> r < g_rows res -> inb cols_shape idx ->
         flat cols_shape idx = nth (i1 + i) (nth g perms []) 0 ->
         g_ent res g r = at_ (oriented k full) ((g * g_rows res + r) :: idx).
Proof.
  intros C En Rq (Cs & Cz & Cp) Sp Ao cs Hidx.
  assert (Ne : shape (weight l) <> []) by (intros E; rewrite E in Sp; destruct k; cbn in Sp; lia).
  assert (WF : forall sl, length sl <= length (shape (weight l)) -> nth 0 sl None = None -> well_formed l sl).
  { intros sl Ls N. split; [exact Ne|]. split; [exact Ls|]. split; [apply per_channel_transparent; assumption|]. split; [apply per_channel_transparent; assumption|exact Cp]. }
  destruct (C104_part l qi [] C En Rq (WF [] ltac:(cbn; lia) eq_refl)) as (_ & _ & full & _ & Ef & _ & Shf & _ & _).
  assert (Fl : quant_weight qi None l = (l, Some full)).
  { rewrite quant_weight_full by apply C. f_equal. rewrite quant_weight_full in Ef by apply C. exact Ef. }
  (* sliced column *)
  assert (Col : forall idx0 sl, length (shape (weight l)) = S (length idx0) -> inb (tl (shape (weight l))) idx0 ->
     sl = None :: map (fun j => Some (j, j + 1)) idx0 ->
     exists l' out, quant_weight qi (Some sl) l = (l', Some out) /\ clean l' /\ same_layer l l'
       /\ shape out = hd 0 (shape (weight l)) :: repeat 1 (length idx0)
       /\ forall r, r < hd 0 (shape (weight l)) -> at_ out (r :: repeat 0 (length idx0)) = at_ full (r :: idx0)).
  { intros idx0 sl Lw I Es.
    assert (Ls : length sl <= length (shape (weight l))) by (subst sl; cbn [length]; rewrite map_length; lia).
    destruct (C104_part l qi sl C En Rq (WF sl Ls ltac:(subst sl; reflexivity))) as (l' & out & full' & E1 & E2 & P & _ & C' & SL).
    rewrite Ef in E2. injection E2 as <-. exists l', out. split; [exact E1|]. split; [exact C'|]. split; [exact SL|].
    destruct P as (P1 & P2 & P3). rewrite Shf in P1, P2.
    assert (Nsl : forall j, nth (S j) sl None = if j <? length idx0 then Some (nth j idx0 0, nth j idx0 0 + 1) else None).
    { intros j. subst sl. cbn [nth]. destruct (Nat.ltb_spec j (length idx0)).
      - rewrite (nth_indep _ None (Some (0, 0 + 1))) by (rewrite map_length; lia). exact (map_nth (fun j => Some (j, j + 1)) idx0 0 j).
      - apply nth_overflow. rewrite map_length. lia. }
    assert (So : shape out = hd 0 (shape (weight l)) :: repeat 1 (length idx0)).
    { apply (nth_ext_list 0); [cbn [length]; rewrite repeat_length; lia|]. intros j Hj. rewrite P2 by lia. destruct j as [|j].
      - subst sl. cbn. destruct (shape (weight l)); [congruence|reflexivity].
      - rewrite Nsl. destruct (Nat.ltb_spec j (length idx0)); [|rewrite P1 in Hj; lia].
        cbn [nth len_of]. pose proof (inb_nth _ _ j I ltac:(rewrite <- (inb_length _ _ I); lia)) as B.
        destruct (shape (weight l)) as [|d sh]; [congruence|]. cbn [tl nth] in B |- *.
        replace (nth j (repeat 1 (length idx0)) 0) with 1; [lia|]. symmetry. clear - H. revert j H. induction idx0; intros [|j] H; cbn in *; try lia. apply IHidx0. lia. }
    split; [exact So|]. intros r Hr. apply P3.
    - rewrite So. constructor; [exact Hr|]. clear. induction idx0; cbn; constructor; [lia|assumption].
    - cbn [length]. rewrite repeat_length. reflexivity.
    - intros [|j] Hj; [subst sl; reflexivity|]. cbn [length] in Hj. rewrite repeat_length in Hj. rewrite Nsl.
      destruct (Nat.ltb_spec j (length idx0)); [|lia]. cbn [nth pos_of].
      replace (nth j (repeat 0 (length idx0)) 0) with 0; [lia|]. symmetry. clear. revert j. induction idx0; intros [|j]; cbn; auto. }
  destruct k; cbn [oriented supported] in *; [| | |contradiction].
  - (* linear *)
    destruct Sp as [L2 ->]. destruct (shape (weight l)) as [|oc [|ic [|]]] eqn:Ew; try discriminate. cbn [tl] in cs. subst cs.
    destruct (Hidx 0 ltac:(lia)) as (idx & I & Fi). inversion I as [|c ? ? ? Hc It]; subst. inversion It; subst. cbn [flat fold_right] in Fi.
    assert (E0 : nth (i1 + i) (nth 0 perms []) 0 = c) by lia.
    unfold get_quant_weights. cbn zeta. rewrite E0. destruct groupwise.
    + rewrite Fl. cbn [option_map]. do 3 eexists. split; [reflexivity|]. split; [first [exact Ef|reflexivity]|]. split; [exact C|]. split; [repeat split|].
      cbn [g_groups g_rows g_ent]. rewrite Shf. cbn [hd]. split; [reflexivity|]. split; [lia|].
      intros g r idx Hg Hr Ii Fx. assert (g = 0) by lia. subst g. cbn [Nat.mul Nat.add]. f_equal. f_equal.
      inversion Ii as [|c' ? ? ? Hc' It']; subst. inversion It'; subst. cbn [flat fold_right] in Fx. f_equal. lia.
    + destruct (Col [c] [None; Some (c, c + 1)]) as (l' & out & E1 & C' & SL & So & Hv); [reflexivity|repeat constructor; lia|reflexivity|].
      rewrite E1. cbn [option_map]. do 3 eexists. split; [reflexivity|]. split; [first [exact Ef|reflexivity]|]. split; [exact C'|]. split; [exact SL|].
      cbn [g_groups g_rows g_ent]. rewrite So. cbn [hd]. split; [reflexivity|]. split; [lia|].
      intros g r idx Hg Hr Ii Fx. assert (g = 0) by lia. subst g. cbn [Nat.mul Nat.add]. change [r; 0] with (r :: repeat 0 (length [c])). rewrite Hv by exact Hr.
      f_equal. f_equal. inversion Ii as [|c' ? ? ? Hc' It']; subst. inversion It'; subst. cbn [flat fold_right] in Fx. f_equal. lia.
  - (* convolution *)
    destruct Sp as (L2 & Hg & Hd). unfold get_quant_weights. cbn zeta. rewrite orb_false_r.
    destruct (groupwise || (1 <? groups)) eqn:B.
    + rewrite Fl. cbn [obind flatten1 rows]. rewrite Shf.
      destruct (shape (weight l)) as [|oc sh] eqn:Ew; [congruence|]. cbn [hd tl nth] in *. rewrite Hd. cbn [Nat.eqb].
      do 3 eexists. split; [reflexivity|]. split; [first [exact Ef|reflexivity]|]. split; [exact C|]. split; [repeat split|].
      cbn [g_groups g_rows g_ent]. split; [reflexivity|]. split; [rewrite (Nat.div_mod oc groups) at 2 by lia; lia|].
      intros g r idx Hgg Hr Ii Fx. subst cs. cbn [ent flatten1]. rewrite Shf. cbn [tl].
      destruct act_order; [|rewrite Ao in Fx by auto]; rewrite <- Fx, index_nd_flat by exact Ii; reflexivity.
    + apply orb_false_elim in B. destruct B as [_ B]. apply Nat.ltb_ge in B. assert (groups = 1) by lia. subst groups.
      destruct (Hidx 0 ltac:(lia)) as (idx0 & I & Fi).
      assert (E0 : index_nd (tl (shape (weight l))) (nth (i1 + i) (nth 0 perms []) 0) = idx0) by (rewrite <- Fi; apply index_nd_flat, I).
      rewrite E0. destruct (Col idx0 (None :: map (fun j => Some (j, j + 1)) idx0)) as (l' & out & E1 & C' & SL & So & Hv).
      { rewrite (inb_length _ _ I). unfold cs. destruct (shape (weight l)); [congruence|reflexivity]. }
      { exact I. }
      { reflexivity. }
      rewrite E1. cbn [option_map]. do 3 eexists. split; [reflexivity|]. split; [first [exact Ef|reflexivity]|]. split; [exact C'|]. split; [exact SL|].
      cbn [g_groups g_rows g_ent rows flatten1]. rewrite So. cbn [hd]. split; [reflexivity|]. split; [lia|].
      intros g r idx Hgg Hr Ii Fx. assert (g = 0) by lia. subst g. cbn [Nat.mul Nat.add ent flatten1]. rewrite So. cbn [tl].
      assert (X : index_nd (repeat 1 (length idx0)) 0 = repeat 0 (length idx0)).
      { assert (Z0 : forall n, flat (repeat 1 n) (repeat 0 n) = 0) by (induction n; cbn; auto).
        assert (I0 : forall n, inb (repeat 1 n) (repeat 0 n)) by (induction n; cbn; constructor; [lia|assumption]).
        pose proof (index_nd_flat _ _ (I0 (length idx0))) as X. rewrite Z0 in X. exact X. }
      rewrite X, Hv by exact Hr. f_equal. f_equal. apply (flat_inj cs); try assumption. congruence.
  - (* transposed convolution *)
    destruct Sp as (L2 & ->). unfold get_quant_weights. cbn zeta. change (1 <? 1) with false. cbn [orb Nat.eqb]. rewrite orb_true_r.
    rewrite Fl. cbn [obind flatten1 rows transpose10 shape]. rewrite Shf.
    destruct (shape (weight l)) as [|ic [|oc sh]] eqn:Ew; [congruence|cbn in L2; lia|]. cbn [hd tl nth swap01 transpose10 shape] in *.
    rewrite ?Nat.mod_1_r. cbn [Nat.eqb]. rewrite ?Nat.div_1_r.
    do 3 eexists. split; [reflexivity|]. split; [first [exact Ef|reflexivity]|]. split; [exact C|]. split; [repeat split|].
    cbn [g_groups g_rows g_ent]. split; [reflexivity|]. split; [lia|].
    intros g r idx Hgg Hr Ii Fx. assert (g = 0) by lia. subst g. cbn [ent flatten1 transpose10 shape at_]. rewrite Shf. cbn [swap01 tl].
    cbn [Nat.mul Nat.add].
    assert (Ec : cs = ic :: sh) by (unfold cs; rewrite ?Ew; reflexivity). rewrite Ec in Ii, Fx.
    destruct act_order; [|rewrite Ao in Fx by auto]; rewrite <- Fx, index_nd_flat by exact Ii; reflexivity.
Qed.

(** * Findings *)
Definition const_t (sh : list nat) (v : Q) : tens := T sh (fun _ => v).
Definition q8 (f : f2i) (scale_shape : list nat) : wquant := WQ f true false (T scale_shape (fun idx => match idx with O :: _ => 1%Q | _ => 2%Q end)) (const_t [] 0%Q) 8.
Definition lay (w : tens) (q : wquant) : layer := Layer w None true false q 0 [None] None.

(** A single output channel of a weight with per-channel scales: no error, but a tensor of the
    shape of the whole weight, the channel repeated with every scale. *)
Theorem C104_output_channel_refuted : exists l out full, clean l
  /\ snd (quant_weight false (Some [Some (1, 2); None]) l) = Some out /\ snd (quant_weight false None l) = Some full
  /\ shape full = [2; 3] /\ shape out = [2; 3] /\ ~ is_part [Some (1, 2); None] out full.
Proof.
  exists (lay (const_t [2; 3] 5%Q) (q8 (FMode Round) [2; 1])). do 2 eexists. split; [split; [reflexivity|discriminate]|].
  split; [reflexivity|]. split; [reflexivity|]. split; [reflexivity|]. split; [reflexivity|].
  intros (_ & H & _). specialize (H 0 ltac:(cbn; lia)). cbn in H. discriminate.
Qed.
(** Two of three channels raise. *)
Theorem C104_output_channels_refuted : exists l, clean l /\ quant_weight false (Some [Some (1, 3); None]) l = (fst (quant_weight false (Some [Some (1, 3); None]) l), None)
  /\ snd (quant_weight false None l) <> None.
Proof.
  exists (lay (const_t [3; 3] 5%Q) (q8 (FMode Round) [3; 1])). split; [split; [reflexivity|discriminate]|]. split; [reflexivity|discriminate].
Qed.

Definition ones_t (sh : list nat) : tens := T sh (fun idx => match idx with [_; O] => 0%Q | _ => 1%Q end).
(** A call that raises (here: an input-aware quantizer without input) leaves the slices in the
    learned rounding; the next quantization of the whole weight silently uses the rounding of one
    column for all columns. *)
Theorem C104_exception_refuted : exists l sl full full',
  clean l /\ well_formed l sl /\ snd (quant_weight true None l) = Some full
  /\ snd (quant_weight false (Some sl) l) = None
  /\ snd (quant_weight true None (fst (quant_weight false (Some sl) l))) = Some full'
  /\ shape full' = shape full /\ ~ Qeq (at_ full [0; 1]) (at_ full' [0; 1]).
Proof.
  set (w := const_t [2; 2] (1 # 2)).
  exists (Layer w None true true (q8 (FLearned (ones_t [2; 2])) []) 0 [None] None), [None; Some (0, 1)]. do 2 eexists.
  split; [split; [reflexivity|discriminate]|]. split.
  { split; [discriminate|]. split; [cbn; lia|].
    split; [|split; [|intros p E; injection E as <-; reflexivity]]; (split; [cbn; lia|]; intros j Hj; cbn in Hj; lia). }
  split; [reflexivity|]. split; [reflexivity|]. split; [reflexivity|]. split; [reflexivity|]. vm_compute. discriminate.
Qed.

(** Rebuilding the quantizer (insert_learned_round_quantizer, or loading a state dict) after a
    sliced call: the layer's cache names modules that are gone and the part of the weight is
    rounded with the parameters of the whole weight. *)
Theorem C104_rebuilt_refuted : exists l q, clean l /\
  let l1 := fst (quant_weight false (Some [None; Some (1, 2)]) l) in
  let l2 := init_tensor_quant q l1 in
  well_formed l2 [None; Some (1, 2)] /\
  exists out, snd (quant_weight false (Some [None; Some (1, 2)]) l2) = Some out /\ shape out = [2; 2] /\
  ~ (exists full, snd (quant_weight false None l2) = Some full /\ is_part [None; Some (1, 2)] out full).
Proof.
  exists (lay (const_t [2; 2] (1 # 2)) (q8 (FMode Round) [])), (q8 (FLearned (ones_t [2; 2])) []).
  split; [split; [reflexivity|discriminate]|]. cbn zeta. split.
  { split; [discriminate|]. split; [cbn; lia|].
    split; [|split; [|intros p E; injection E as <-; reflexivity]]; (split; [cbn; lia|]; intros j Hj; cbn in Hj; lia). }
  eexists. split; [reflexivity|]. split; [reflexivity|]. intros (full & E & (_ & H & _)).
  assert (Sf : shape full = [2; 2]) by (cbn in E; injection E as <-; reflexivity).
  specialize (H 1 ltac:(rewrite Sf; cbn; lia)). rewrite Sf in H. cbn in H. discriminate.
Qed.

(** The same when a layer with learned rounding is reloaded: same quantizer, new modules. *)
Theorem C104_reloaded_refuted : exists l, clean l /\ well_formed l [None; Some (1, 2)] /\
  let l1 := fst (quant_weight false (Some [None; Some (1, 2)]) l) in
  let l2 := init_tensor_quant (quant l) l1 in
  exists out, snd (quant_weight false (Some [None; Some (1, 2)]) l2) = Some out /\ shape out = [2; 2] /\
  exists out0, snd (quant_weight false (Some [None; Some (1, 2)]) l1) = Some out0 /\ shape out0 = [2; 1].
Proof.
  exists (lay (const_t [2; 2] (1 # 2)) (q8 (FLearned (ones_t [2; 2])) [])). split; [split; [reflexivity|discriminate]|]. split.
  { split; [discriminate|]. split; [cbn; lia|].
    split; [|split; [|intros p E; injection E as <-; reflexivity]]; (split; [cbn; lia|]; intros j Hj; cbn in Hj; lia). }
  eexists. split; [reflexivity|]. split; [reflexivity|]. eexists. split; reflexivity.
Qed.

(** A depthwise transposed convolution cannot be processed: the rows of its flattened weight are
    the output channels of one group and are divided by the groups again. *)
Theorem C104_transposed_groups_refuted : exists l perms, clean l /\ enabled l = true /\ channel_layer l /\
  shape (weight l) = [2; 1; 3] /\ snd (quant_weight false None l) <> None /\
  snd (get_quant_weights ConvT12 2 false false false l perms 0 0) = None.
Proof.
  exists (lay (const_t [2; 1; 3] 5%Q) (q8 (FMode Round) [])), [[0; 1; 2]; [0; 1; 2]].
  split; [split; [reflexivity|discriminate]|]. split; [reflexivity|]. split.
  { split; [|split; [|discriminate]]; (split; [cbn; lia|]; intros j Hj; cbn in Hj; lia). }
  split; [reflexivity|]. split; [discriminate|reflexivity].
Qed.

(** * Examples *)
Example C104_example : exists l out full,
  clean l /\ well_formed l [None; Some (1, 3)]
  /\ snd (quant_weight false (Some [None; Some (1, 3)]) l) = Some out /\ snd (quant_weight false None l) = Some full
  /\ shape out = [2; 2] /\ shape full = [2; 3] /\ Qeq (at_ out [1; 0]) (at_ full [1; 1]) /\ Qeq (at_ full [1; 1]) 6 /\ Qeq (at_ full [1; 0]) 4.
Proof.
  exists (lay (const_t [2; 3] 5%Q) (q8 (FLearned (ones_t [2; 3])) [2; 1])). do 2 eexists.
  split; [split; [reflexivity|discriminate]|]. split.
  { split; [discriminate|]. split; [cbn; lia|]. split.
    - split; [cbn; lia|]. intros [|[|j]] Hj; cbn in *; [right; split; reflexivity|left; reflexivity|lia].
    - split; [split; [cbn; lia|cbn; intros; lia]|]. intros p E. injection E as <-. reflexivity. }
  repeat split; vm_compute; reflexivity.
Qed.
Example C104_column_example :
  let w := T [2; 2; 2] (fun idx => inject_Z (Z.of_nat (flat [2; 2; 2] idx))) in
  let l := lay w (q8 (FMode Round) []) in
  match snd (get_quant_weights Conv 1 true false false l [[3; 2; 1; 0]] 0 1) with
  | Some res => g_groups res = 1 /\ g_rows res = 2 /\ (g_ent res 0 0 == 2)%Q /\ (g_ent res 0 1 == 6)%Q
  | None => False
  end.
Proof. vm_compute. repeat split. Qed.

Print Assumptions C104_part.
Print Assumptions C104_disabled.
Print Assumptions C104_value.
Print Assumptions C104_reloaded_refuted.
Print Assumptions C104_history.
Print Assumptions C104_gpxq_column.
Print Assumptions C104_output_channel_refuted.
Print Assumptions C104_output_channels_refuted.
Print Assumptions C104_exception_refuted.
Print Assumptions C104_rebuilt_refuted.
Print Assumptions C104_transposed_groups_refuted.
