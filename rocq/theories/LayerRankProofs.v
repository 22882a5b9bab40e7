(** Lemmas about views and broadcasting of tensors with one value per channel. *)
From Coq Require Import ZArith QArith List Bool Lia Arith.
From Verif Require Import QUtil Ops Gpxq GpxqProps QuantTensor Linear SliceWeight SliceWeightProps LayerRank.
Import ListNotations.
Open Scope nat_scope.

Definition chan_shape (rank d m : nat) : list nat := repeat 1 d ++ m :: repeat 1 (rank - 1 - d).
Definition chan_idx (rank d c : nat) : list nat := repeat 0 d ++ c :: repeat 0 (rank - 1 - d).
(** Tensor of rank [rank] with the values [v 0 .. v (n-1)] along dimension [d] (one element when
    they are all the same). *)
Definition chv (rank d n : nat) (v : nat -> Q) (t : tens) : Prop :=
  d < rank /\ exists m, shape t = chan_shape rank d m /\ (m = n \/ m = 1)
  /\ forall c, c < n -> at_ t (chan_idx rank d (if m =? 1 then 0 else c)) = v c.

Lemma inb_app a b i j : inb a i -> inb b j -> inb (a ++ b) (i ++ j).
Proof. intros H K. apply Forall2_app; assumption. Qed.
Lemma inb_ones k : inb (repeat 1 k) (repeat 0 k).
Proof. induction k; cbn; constructor; [lia|assumption]. Qed.
Lemma chan_inb rank d m c : c < m -> inb (chan_shape rank d m) (chan_idx rank d c).
Proof. intros H. apply inb_app; [apply inb_ones|]. constructor; [exact H|apply inb_ones]. Qed.
Lemma chan_shape_length rank d m : d < rank -> length (chan_shape rank d m) = rank.
Proof. intros H. unfold chan_shape. rewrite app_length, repeat_length. cbn [length]. rewrite repeat_length. lia. Qed.
Lemma prod_ones k : prod (repeat 1 k) = 1.
Proof. unfold prod. induction k; cbn; [reflexivity|lia]. Qed.
Lemma prod_app a b : prod (a ++ b) = prod a * prod b.
Proof. unfold prod. induction a; cbn; lia. Qed.
Lemma prod_chan rank d m : prod (chan_shape rank d m) = m.
Proof.
  unfold chan_shape. rewrite prod_app, prod_ones. change (prod (m :: repeat 1 (rank - 1 - d))) with (m * prod (repeat 1 (rank - 1 - d))).
  rewrite prod_ones. lia.
Qed.
Lemma flat_ones k : flat (repeat 1 k) (repeat 0 k) = 0.
Proof. induction k; cbn [repeat flat]; [reflexivity|]. rewrite IHk. lia. Qed.
Lemma flat_chan rank d m c : flat (chan_shape rank d m) (chan_idx rank d c) = c.
Proof.
  unfold chan_shape, chan_idx. rewrite flat_app by (rewrite !repeat_length; reflexivity). rewrite flat_ones. cbn [flat].
  rewrite flat_ones. change (fold_right Nat.mul 1 (repeat 1 (rank - 1 - d))) with (prod (repeat 1 (rank - 1 - d))). rewrite prod_ones. lia.
Qed.
Lemma index_nd_chan rank d m c : c < m -> index_nd (chan_shape rank d m) c = chan_idx rank d c.
Proof. intros H. pose proof (index_nd_flat _ _ (chan_inb rank d m c H)) as E. rewrite flat_chan in E. exact E. Qed.
Lemma index_nd_ones k : index_nd (repeat 1 k) 0 = repeat 0 k.
Proof. pose proof (index_nd_flat _ _ (inb_ones k)) as H. rewrite flat_ones in H. exact H. Qed.

(** Entries through broadcasting. *)
Lemma map2_ones : forall k idx, k <= length idx -> map2 (fun d i => if d =? 1 then 0 else i) (repeat 1 k) (firstn k idx) = repeat 0 k.
Proof. induction k as [|k IH]; intros [|i idx] L; cbn in *; try lia; [reflexivity..|]. rewrite IH by lia. reflexivity. Qed.
Lemma map2_app {A B C} (f : A -> B -> C) : forall a b i j, length a = length i -> map2 f (a ++ b) (i ++ j) = map2 f a i ++ map2 f b j.
Proof. induction a as [|x a IH]; intros b [|y i] j L; cbn in *; try lia; [reflexivity|]. rewrite IH by lia. reflexivity. Qed.
Lemma split_idx rank d idx : d < rank -> length idx = rank -> idx = firstn d idx ++ nth d idx 0 :: skipn (S d) idx.
Proof.
  intros Hd L. subst rank. revert d Hd. induction idx as [|i idx IH]; intros [|d] Hd; cbn [length firstn nth skipn app] in *; try lia; [reflexivity|].
  f_equal. apply IH. lia.
Qed.
Lemma bindex_chan rank d m idx : d < rank -> length idx = rank ->
  bindex (chan_shape rank d m) idx = chan_idx rank d (if m =? 1 then 0 else nth d idx 0).
Proof.
  intros Hd L. unfold bindex. rewrite chan_shape_length, L, Nat.sub_diag by exact Hd. cbn [skipn].
  rewrite (split_idx rank d idx Hd L) at 1. unfold chan_shape, chan_idx.
  rewrite map2_app by (rewrite repeat_length, firstn_length; lia). rewrite map2_ones by lia. cbn [map2]. f_equal. f_equal.
  rewrite <- (firstn_all (skipn (S d) idx)). rewrite skipn_length, L. replace (rank - S d) with (rank - 1 - d) by lia.
  apply map2_ones. rewrite skipn_length. lia.
Qed.
Lemma bindex_ones k idx : k <= length idx -> bindex (repeat 1 k) idx = repeat 0 k.
Proof.
  intros L. unfold bindex. rewrite repeat_length. rewrite <- (firstn_all (skipn (length idx - k) idx)).
  replace (length (skipn (length idx - k) idx)) with k by (rewrite skipn_length; lia). apply map2_ones. rewrite skipn_length. lia.
Qed.
Lemma chv_entry rank d n v t idx : chv rank d n v t -> length idx = rank -> nth d idx 0 < n -> at_ t (bindex (shape t) idx) = v (nth d idx 0).
Proof. intros (Hd & m & E & _ & V) L H. rewrite E, bindex_chan by assumption. apply V, H. Qed.
Lemma chv_length rank d n v t : chv rank d n v t -> length (shape t) = rank.
Proof. intros (Hd & m & E & _). rewrite E. apply chan_shape_length, Hd. Qed.

(** Broadcasting two such tensors. *)
Lemma zip_ones : forall k, zip_dims (repeat 1 k) (repeat 1 k) = Some (repeat 1 k).
Proof. induction k; cbn; [reflexivity|]. rewrite IHk. reflexivity. Qed.
Lemma zip_app a b : forall a1 a2, length a1 = length a2 -> zip_dims a1 a2 = Some a -> forall b1 b2, zip_dims b1 b2 = Some b -> zip_dims (a1 ++ b1) (a2 ++ b2) = Some (a ++ b).
Proof.
  intros a1. revert a. induction a1 as [|x a1 IH]; intros a [|y a2] L E b1 b2 Eb; cbn [length] in L; try lia.
  - injection E as <-. exact Eb.
  - cbn [zip_dims app] in *. destruct (zip_dims a1 a2) as [r|] eqn:Er; [|discriminate].
    rewrite (IH r a2 ltac:(lia) Er b1 b2 Eb).
    destruct (x =? y); [injection E as <-; reflexivity|]. destruct (x =? 1); [injection E as <-; reflexivity|].
    destruct (y =? 1); [injection E as <-; reflexivity|discriminate].
Qed.
Lemma zip_dim m1 m2 n : (m1 = n \/ m1 = 1) -> (m2 = n \/ m2 = 1) ->
  exists m, (forall r s t, zip_dims r s = Some t -> zip_dims (m1 :: r) (m2 :: s) = Some (m :: t)) /\ (m = n \/ m = 1) /\ (m = 1 -> m1 = 1 /\ m2 = 1).
Proof.
  intros H1 H2. exists (if m1 =? m2 then m1 else if m1 =? 1 then m2 else m1). split.
  - intros r s t E. cbn [zip_dims]. rewrite E. destruct (m1 =? m2) eqn:E1; [reflexivity|]. destruct (m1 =? 1) eqn:E2; [reflexivity|].
    apply Nat.eqb_neq in E1, E2. assert (m2 = 1) as -> by lia. reflexivity.
  - destruct (Nat.eqb_spec m1 m2); [split; lia|]. destruct (Nat.eqb_spec m1 1); split; lia.
Qed.
Lemma bshape_chan rank d m1 m2 n : d < rank -> (m1 = n \/ m1 = 1) -> (m2 = n \/ m2 = 1) ->
  exists m, bshape (chan_shape rank d m1) (chan_shape rank d m2) = Some (chan_shape rank d m) /\ (m = n \/ m = 1) /\ (m = 1 -> m1 = 1 /\ m2 = 1).
Proof.
  intros Hd H1 H2. destruct (zip_dim m1 m2 n H1 H2) as (m & Z & M1 & M2). exists m. split; [|split; assumption].
  unfold bshape. rewrite !chan_shape_length by exact Hd. rewrite Nat.max_id. unfold pad_ones. rewrite !chan_shape_length, Nat.sub_diag by exact Hd.
  cbn [repeat app]. unfold chan_shape. apply zip_app; [reflexivity|apply zip_ones|]. apply Z, zip_ones.
Qed.
Lemma chan_idx_length rank d c : d < rank -> length (chan_idx rank d c) = rank.
Proof. intros H. unfold chan_idx. rewrite app_length, repeat_length. cbn [length]. rewrite repeat_length. lia. Qed.
Lemma chan_idx_nth rank d c : nth d (chan_idx rank d c) 0 = c.
Proof. unfold chan_idx. rewrite app_nth2; rewrite repeat_length; [|lia]. rewrite Nat.sub_diag. reflexivity. Qed.
Lemma chv_broadcast f rank d n a b va vb : chv rank d n va a -> chv rank d n vb b ->
  exists r, broadcast f a b = Some r /\ chv rank d n (fun c => f (va c) (vb c)) r.
Proof.
  intros (Hd & m1 & E1 & M1 & V1) (_ & m2 & E2 & M2 & V2). unfold broadcast. rewrite E1, E2.
  destruct (bshape_chan rank d m1 m2 n Hd M1 M2) as (m & -> & M & Mo). eexists. split; [reflexivity|].
  split; [exact Hd|]. exists m. split; [reflexivity|]. split; [exact M|]. intros c Hc. cbn [at_].
  rewrite !bindex_chan by (try exact Hd; apply chan_idx_length, Hd). rewrite chan_idx_nth.
  assert (P : forall m' : nat, (m = 1 -> m' = 1) -> (if m' =? 1 then 0 else if m =? 1 then 0 else c) = if m' =? 1 then 0 else c).
  { intros m' Hm. destruct (Nat.eqb_spec m' 1); [reflexivity|]. destruct (Nat.eqb_spec m 1); [exfalso; auto|reflexivity]. }
  rewrite (P m1), (P m2) by (intros Em; apply Mo in Em; tauto). rewrite V1, V2 by exact Hc. reflexivity.
Qed.
Lemma chv_tmap f rank d n v t : chv rank d n v t -> chv rank d n (fun c => f (v c)) (tmap f t).
Proof. intros (Hd & m & E & M & V). split; [exact Hd|]. exists m. split; [exact E|]. split; [exact M|]. intros c Hc. cbn [tmap at_]. f_equal. apply V, Hc. Qed.
(** Broadcasting against a single value of lower rank. *)
Lemma chv_broadcast_one f rank d n v t k s sx : chv rank d n v t -> shape s = repeat 1 k -> k <= rank -> at_ s (repeat 0 k) = sx ->
  exists r, broadcast f t s = Some r /\ chv rank d n (fun c => f (v c) sx) r.
Proof.
  intros C Es Hk Ea. pose proof (chv_length _ _ _ _ _ C) as L. destruct C as (Hd & m & E & M & V).
  assert (Tr : transparent (shape t) (shape s) []).
  { split; [rewrite L, Es, repeat_length; exact Hk|]. intros j Hj. left. rewrite Es in *. rewrite repeat_length in Hj.
    apply (repeat_spec k). apply nth_In. rewrite repeat_length. exact Hj. }
  destruct (broadcast_at f t s Tr) as (r & -> & Sr & Ar). exists r. split; [reflexivity|]. split; [exact Hd|].
  exists m. rewrite Sr. split; [exact E|]. split; [exact M|]. intros c Hc.
  rewrite Ar by (rewrite E; apply chan_inb; destruct (Nat.eqb_spec m 1); lia). rewrite (V c Hc). f_equal.
  rewrite Es, bindex_ones by (rewrite chan_idx_length; assumption). exact Ea.
Qed.

(** Views. *)
Definition channel_values (t : tens) (wdim n : nat) (v : nat -> Q) : Prop :=
  (exists r, shape t = repeat 1 wdim ++ n :: repeat 1 r /\ forall c, c < n -> at_ t (repeat 0 wdim ++ c :: repeat 0 r) = v c)
  \/ (exists r, shape t = repeat 1 r /\ forall c, v c = at_ t (repeat 0 r)).
Lemma view_chv rank dim d t wdim n v : py_index rank dim = Some d -> d < rank -> channel_values t wdim n v ->
  exists r, channel_view rank dim t = Some r /\ chv rank d n v r.
Proof.
  intros E Hd C. unfold channel_view. rewrite E. eexists. split; [reflexivity|]. split; [exact Hd|]. exists (numel t).
  split; [reflexivity|]. cbn [at_]. unfold numel. destruct C as [(r & Es & V)|(r & Es & V)]; rewrite Es.
  - set (rk := wdim + S r). assert (Ec : repeat 1 wdim ++ n :: repeat 1 r = chan_shape rk wdim n) by (unfold chan_shape, rk; do 3 f_equal; lia).
    rewrite Ec, prod_chan. split; [left; reflexivity|]. intros c Hc. rewrite chan_idx_nth, index_nd_chan by (destruct (Nat.eqb_spec n 1); lia).
    assert (Ei : forall c, chan_idx rk wdim c = repeat 0 wdim ++ c :: repeat 0 r) by (intros; unfold chan_idx, rk; do 3 f_equal; lia).
    rewrite Ei. destruct (Nat.eqb_spec n 1); [assert (c = 0) as -> by lia; apply V; lia|apply V, Hc].
  - rewrite prod_ones. split; [right; reflexivity|]. intros c Hc. rewrite Nat.eqb_refl, chan_idx_nth, index_nd_ones. symmetry. apply V.
Qed.
Lemma py_index_lt rank dim d : py_index rank dim = Some d -> d < rank.
Proof.
  unfold py_index. destruct ((0 <=? dim)%Z && (dim <? Z.of_nat rank)%Z) eqn:E.
  - apply andb_prop in E as [A B]. apply Z.leb_le in A. apply Z.ltb_lt in B. intros H. injection H as <-. lia.
  - destruct ((dim <? 0)%Z && (- Z.of_nat rank <=? dim)%Z) eqn:E2; [|discriminate]. apply andb_prop in E2 as [A B].
    apply Z.ltb_lt in A. apply Z.leb_le in B. intros H. injection H as <-. lia.
Qed.

(** The scale of the output. *)
Definition single (t : tens) (x : Q) (rank : nat) : Prop := exists k, k <= rank /\ shape t = repeat 1 k /\ at_ t (repeat 0 k) = x.
Lemma output_scale_chv k rank d ts tw sx wdim n sw : py_index rank (channel_dim_of k) = Some d ->
  single ts sx rank -> channel_values tw wdim n sw ->
  exists s, output_scale_t k rank ts tw = Some s /\ chv rank d n (fun c => Qmult (sw c) sx) s.
Proof.
  intros E (j & Hj & Es & Ea) C. pose proof (py_index_lt _ _ _ E) as Hd. unfold output_scale_t.
  destruct (view_chv rank _ d tw wdim n sw E Hd C) as (w & -> & Cw). cbn [obind].
  destruct j as [|j]; cbn [repeat] in Es.
  - rewrite Es. destruct (view_chv rank _ d ts 0 n (fun _ => sx) E Hd) as (i & -> & Ci).
    { right. exists 0. split; [exact Es|]. intros _. symmetry. exact Ea. }
    cbn [obind]. destruct (chv_broadcast Qmult rank d n w i sw (fun _ => sx) Cw Ci) as (r & -> & Cr). exists r. split; [reflexivity|exact Cr].
  - rewrite Es. cbn [obind]. destruct (chv_broadcast_one Qmult rank d n sw w (S j) ts sx Cw) as (r & -> & Cr).
    + rewrite Es. reflexivity.
    + exact Hj.
    + exact Ea.
    + exists r. split; [reflexivity|exact Cr].
Qed.
Lemma bias_scale_chv k rank d ts tw sx wdim n sw : py_index rank (channel_dim_of k) = Some d ->
  single ts sx rank -> channel_values tw wdim n sw ->
  exists s m, bias_scale_t k rank ts tw = Some s /\ shape s = [m] /\ (m = n \/ m = 1)
    /\ (exists s' , output_scale_t k rank ts tw = Some s' /\ shape s' = chan_shape rank d m)
    /\ forall c, c < n -> at_ s [if m =? 1 then 0 else c] = Qmult (sw c) sx.
Proof.
  intros E (j & Hj & Es & Ea) C. pose proof (py_index_lt _ _ _ E) as Hd. unfold bias_scale_t, output_scale_t.
  destruct (view_chv rank _ d tw wdim n sw E Hd C) as (w & -> & Cw). cbn [obind].
  assert (Cs : channel_values ts 0 n (fun _ => sx)) by (right; exists j; split; [exact Es|intros _; symmetry; exact Ea]).
  destruct (view_chv rank _ d ts 0 n (fun _ => sx) E Hd Cs) as (i & Ev & Ci).
  assert (Oi : forall r, channel_view rank (channel_dim_of k) ts = Some r -> shape r = chan_shape rank d 1).
  { intros r. unfold channel_view. rewrite E. intros H. injection H as <-. cbn [shape]. unfold numel. rewrite Es, prod_ones. reflexivity. }
  destruct Cw as (_ & m & Ew & Mw & Vw). 
  assert (Cw : chv rank d n sw w) by (split; [exact Hd|]; exists m; auto).
  destruct (chv_broadcast Qmult rank d n w i sw (fun _ => sx) Cw Ci) as (r & Eb & Cr).
  assert (Sr : shape r = chan_shape rank d m).
  { unfold broadcast in Eb. rewrite Ew, (Oi i Ev) in Eb. unfold bshape in Eb. rewrite !chan_shape_length in Eb by exact Hd.
    rewrite Nat.max_id in Eb. unfold pad_ones in Eb. rewrite !chan_shape_length, Nat.sub_diag in Eb by exact Hd. cbn [repeat app] in Eb.
    unfold chan_shape in Eb. rewrite (zip_app (repeat 1 d) (m :: repeat 1 (rank - 1 - d))) in Eb.
    - injection Eb as <-. reflexivity.
    - reflexivity.
    - apply zip_ones.
    - cbn [zip_dims]. rewrite zip_ones. destruct (Nat.eqb_spec m 1); [subst; reflexivity|]. destruct (Nat.eqb_spec m 1); [lia|]. reflexivity. }
  exists (flat_view r), m. rewrite Ev. cbn [obind]. rewrite Eb. cbn [obind]. split; [reflexivity|].
  assert (Nr : numel r = m) by (unfold numel; rewrite Sr; apply prod_chan).
  split; [unfold flat_view; cbn [shape]; rewrite Nr; reflexivity|]. split; [exact Mw|]. split.
  - destruct j as [|j]; cbn [repeat] in Es; rewrite Es.
    + cbn [obind]. exists r. rewrite Eb. split; [reflexivity|exact Sr].
    + cbn [obind]. assert (Tr : transparent (shape w) (shape ts) []).
      { split; [rewrite Ew, Es, chan_shape_length by exact Hd; cbn [length]; rewrite repeat_length; lia|]. intros l Hl. left. rewrite Es in *.
        apply (repeat_spec (S j)). change (1 :: repeat 1 j) with (repeat 1 (S j)). apply nth_In. exact Hl. }
      destruct (broadcast_at Qmult w ts Tr) as (r' & -> & Sr' & _). exists r'. split; [reflexivity|]. rewrite Sr'. exact Ew.
  - intros c Hc. unfold flat_view. cbn [at_ nth]. rewrite Sr. rewrite index_nd_chan by (destruct (Nat.eqb_spec m 1); lia).
    destruct Cr as (_ & m' & E' & _ & V'). assert (m' = m).
    { rewrite Sr in E'. unfold chan_shape in E'. apply app_inv_head in E'. injection E'. auto. } subst m'. apply V', Hc.
Qed.

(** Enumerated indices. *)
Lemma all_idx_inb sh : forall idx, In idx (all_idx sh) <-> inb sh idx.
Proof.
  induction sh as [|d sh IH]; intros idx; cbn [all_idx].
  - split; [intros [<-|[]]; constructor|]. intros H. inversion H. left. reflexivity.
  - rewrite in_flat_map. split.
    + intros (i & Hi & H). apply in_seq in Hi. apply in_map_iff in H as (r & <- & Hr). constructor; [lia|]. apply IH, Hr.
    + intros H. inversion H as [|i ? r ? Hi Hr]; subst. exists i. split; [apply in_seq; lia|]. apply in_map, IH, Hr.
Qed.
Lemma any_nonzero_false t : (forall i, inb (shape t) i -> (at_ t i == 0)%Q) -> any_nonzero t = false.
Proof.
  intros H. unfold any_nonzero. destruct (existsb _ _) eqn:E; [|reflexivity]. apply existsb_exists in E as (i & Hi & N).
  apply all_idx_inb, H, Qeq_bool_iff in Hi. rewrite Hi in N. discriminate.
Qed.
Lemma any_nonzero_true t i : inb (shape t) i -> ~ (at_ t i == 0)%Q -> any_nonzero t = true.
Proof.
  intros Hi N. apply existsb_exists. exists i. split; [apply all_idx_inb, Hi|]. destruct (Qeq_bool (at_ t i) 0) eqn:E; [|reflexivity].
  apply Qeq_bool_iff in E. contradiction.
Qed.
