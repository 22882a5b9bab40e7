(** C105: scale, zero point and integer codes of linear and convolution layers of any rank. *)
From Coq Require Import ZArith QArith Qabs List Bool Lia Lqa Arith.
From Verif Require Import QUtil Ops OpsProofs IntQuant IntQuantProofs IntQuantProps Gpxq QuantTensor Linear SliceWeight SliceWeightProps LayerRank LayerRankProofs.
Import ListNotations.
Open Scope nat_scope.

(** * Specification *)
Definition zero_tensor (t : tens) : Prop := forall i, inb (shape t) i -> (at_ t i == 0)%Q.
(** A quantized input with one scale [sx] and integer codes [kx]; a quantized weight with one
    scale [sw c] per output channel (or one in all, see [channel_values]), [wdim] is the output
    channel dimension of the weight. *)
Definition input_codes (x : qten) (kx : list nat -> Z) (sx : Q) : Prop :=
  (0 < sx)%Q /\ single (t_scale x) sx (length (shape (t_value x))) /\ zero_tensor (t_zp x)
  /\ forall i, inb (shape (t_value x)) i -> (at_ (t_value x) i == inject_Z (kx i) * sx)%Q.
Definition weight_codes (w : qten) (wdim n : nat) (kw : list nat -> Z) (sw : nat -> Q) : Prop :=
  (forall c, c < n -> (0 < sw c)%Q) /\ channel_values (t_scale w) wdim n sw /\ zero_tensor (t_zp w)
  /\ forall j, inb (shape (t_value w)) j -> (at_ (t_value w) j == inject_Z (kw j) * sw (nth wdim j 0%nat))%Q.
(** The operation reads inside input and weight, and for output channel c only channel c of the
    weight. *)
Definition aligned (o : linop) (wdim n : nat) (xsh wsh : list nat) : Prop :=
  length (o_shape o) = length xsh /\ o_chan o < length xsh /\ nth (o_chan o) (o_shape o) 0 = n
  /\ forall idx, inb (o_shape o) idx -> forall p, In p (o_taps o idx) ->
       inb xsh (fst p) /\ inb wsh (snd p) /\ nth wdim (snd p) 0 = nth (o_chan o) idx 0.
(** The integer accumulator. *)
Definition acc (o : linop) (kx kw : list nat -> Z) (idx : list nat) : Z :=
  fold_right Z.add 0%Z (map (fun p => (kx (fst p) * kw (snd p))%Z) (o_taps o idx)).
(** Every element of [q] is (code - zero point) * scale with the scale and zero point found at its
    place, which are those of its output channel. *)
Definition represents (q : qten) (chan : nat) (code : list nat -> Z) (s z : nat -> Q) : Prop :=
  forall idx, inb (shape (t_value q)) idx -> let c := nth chan idx 0 in
  exists sv zv, entry_of (t_scale q) idx sv /\ entry_of (t_zp q) idx zv /\ (sv == s c)%Q /\ (zv == z c)%Q
    /\ (at_ (t_value q) idx == (inject_Z (code idx) - zv) * sv)%Q.
Definition bias_of (v : tens) (n : nat) (b : nat -> Q) : Prop := shape v = [n] /\ forall c, c < n -> at_ v [c] = b c.
(** torch.allclose of two numbers. *)
Definition close (a b : Q) : Prop := (Qabs (a - b) <= (1 # 100000000) + (1 # 100000) * Qabs b)%Q.
(** The nearest code of the bias range. *)
Definition nearest_code (bw : Z) (s b : Q) (k : Z) : Prop :=
  in_range true false bw k /\ forall k', in_range true false bw k' -> (Qabs (inject_Z k * s - b) <= Qabs (inject_Z k' * s - b))%Q.

(** * Proofs *)
Lemma sum_codes o x w kx kw sx s wdim n xsh wsh idx : shape x = xsh -> shape w = wsh -> aligned o wdim n xsh wsh -> inb (o_shape o) idx ->
  (forall i, inb xsh i -> (at_ x i == inject_Z (kx i) * sx)%Q) ->
  (forall j, inb wsh j -> (at_ w j == inject_Z (kw j) * s (nth wdim j 0%nat))%Q) ->
  (Qsum (map (fun p => at_ x (fst p) * at_ w (snd p)) (o_taps o idx)) == inject_Z (acc o kx kw idx) * (s (nth (o_chan o) idx 0%nat) * sx))%Q.
Proof.
  intros <- <- (_ & _ & _ & A) I X W. specialize (A idx I). unfold acc. induction (o_taps o idx) as [|p l IH]; cbn [map Qsum fold_right].
  - change (inject_Z 0) with 0%Q. ring.
  - destruct (A p (or_introl eq_refl)) as (B1 & B2 & B3). rewrite (X _ B1), (W _ B2), B3, IH by (intros; apply A; right; assumption).
    rewrite inject_Z_plus, inject_Z_mult. ring.
Qed.
Lemma chan_bound o wdim n xsh wsh idx : aligned o wdim n xsh wsh -> inb (o_shape o) idx -> nth (o_chan o) idx 0 < n /\ length idx = length xsh.
Proof.
  intros (L & H & <- & _) I. split; [|rewrite (inb_length _ _ I); exact L]. apply inb_nth; [exact I|]. rewrite L. exact H.
Qed.
Lemma chv_entry_of rank d n v t idx : chv rank d n v t -> length idx = rank -> nth d idx 0 < n -> entry_of t idx (v (nth d idx 0)).
Proof. intros C L H. rewrite <- (chv_entry rank d n v t idx C L H). apply entry_bindex. rewrite (chv_length _ _ _ _ _ C). lia. Qed.

Section Layer.
  Variables (o : linop) (x w : qten) (kx kw : list nat -> Z) (sx : Q) (sw : nat -> Q) (wdim n : nat).
  Hypothesis Hx : input_codes x kx sx.
  Hypothesis Hw : weight_codes w wdim n kw sw.
  Hypothesis Al : aligned o wdim n (shape (t_value x)) (shape (t_value w)).
  Let rank := length (shape (t_value x)).
  Hypothesis Hd : py_index rank (channel_dim_of (o_kind o)) = Some (o_chan o).
  Let s c := Qmult (sw c) sx.

  Lemma scale_pos c : c < n -> (0 < s c)%Q.
  Proof. intros H. unfold s. apply Qmult_lt_0_compat; [apply Hw, H|apply Hx]. Qed.
  Lemma zps : any_nonzero (t_zp x) || any_nonzero (t_zp w) = false.
  Proof. rewrite !any_nonzero_false; [reflexivity|apply Hw|apply Hx]. Qed.
  Lemma value_at b idx bv : inb (o_shape o) idx -> bv = match b with Some t => at_ t [nth (o_chan o) idx 0] | None => 0%Q end ->
    (at_ (apply_op o (t_value x) (t_value w) b) idx == inject_Z (acc o kx kw idx) * s (nth (o_chan o) idx 0%nat) + bv)%Q.
  Proof.
    intros I ->. cbn [apply_op at_]. rewrite (sum_codes o _ _ kx kw sx sw wdim n _ _ idx eq_refl eq_refl Al I); [reflexivity|apply Hx|apply Hw].
  Qed.
  Lemma out_scale : exists sc, output_scale_t (o_kind o) rank (t_scale x) (t_scale w) = Some sc /\ chv rank (o_chan o) n s sc.
  Proof. eapply output_scale_chv; [exact Hd|apply Hx|apply Hw]. Qed.

  (** No zero point in the output. *)
  Lemma rep_zero b sc bw sg kb : chv rank (o_chan o) n s sc ->
    (forall c, c < n -> match b with Some t => (at_ t [c] == inject_Z (kb c) * s c)%Q | None => kb c = 0%Z end) ->
    represents (QT (apply_op o (t_value x) (t_value w) b) sc (T [1] (fun _ => 0%Q)) bw sg) (o_chan o)
      (fun idx => (acc o kx kw idx + kb (nth (o_chan o) idx 0%nat))%Z) s (fun _ => 0%Q).
  Proof.
    intros C B idx I. cbn [t_value t_scale t_zp apply_op shape] in *. destruct (chan_bound _ _ _ _ _ idx Al I) as [Hc L]. set (c := nth (o_chan o) idx 0) in *.
    exists (s c), 0%Q. split; [apply (chv_entry_of rank (o_chan o) n s sc idx C L Hc)|]. split.
    { change 0%Q with (at_ (T [1] (fun _ => 0%Q)) (bindex [1] idx)). apply (entry_bindex (T [1] (fun _ => 0%Q))). cbn [shape length].
      rewrite L. destruct Al as (_ & H & _). lia. }
    split; [reflexivity|]. split; [reflexivity|]. rewrite (value_at b idx _ I eq_refl). fold c. specialize (B c Hc).
    rewrite inject_Z_plus. destruct b as [t|]; [rewrite B; ring|rewrite B; change (inject_Z 0) with 0%Q; ring].
  Qed.

  Lemma no_bias : exists q, quant_layer_t o x w TNone = Some (inr q) /\ represents q (o_chan o) (acc o kx kw) s (fun _ => 0%Q).
  Proof.
    destruct out_scale as (sc & E & C). unfold quant_layer_t. fold rank. rewrite E. cbn [obind tbias_value]. rewrite zps.
    eexists. split; [reflexivity|]. pose proof (rep_zero None sc) as R.
    specialize (R (acc_bit_width (o_kind o) (t_bw x) (t_bw w) (shape (t_value w))) (t_signed x || t_signed w) (fun _ => 0%Z) C (fun c _ => eq_refl)).
    intros idx I. destruct (R idx I) as (sv & zv & E1 & E2 & E3 & E4 & E5). exists sv, zv. rewrite Z.add_0_r in E5. auto.
  Qed.

  (** The bias carried by the zero point. *)
  Lemma zp_bias v b : bias_of v n b -> o_chan o = 1 -> forall sc, chv rank (o_chan o) n s sc ->
    exists z, obind (channel_view rank 1 v) (fun v => broadcast Qdiv (tmap Qopp v) sc) = Some z
      /\ chv rank (o_chan o) n (fun c => (- b c / s c)%Q) z.
  Proof.
    intros [Sv Av] O1 sc C. rewrite O1 in C |- *. assert (Hr : 1 < rank) by (destruct Al as (_ & H & _); rewrite O1 in H; exact H).
    destruct (view_chv rank 1 1 v 0 n b) as (r & -> & Cr).
    - unfold py_index. destruct (Z.ltb_spec 1 (Z.of_nat rank)); [reflexivity|lia].
    - exact Hr.
    - left. exists 0. split; [exact Sv|]. exact Av.
    - cbn [obind]. apply (chv_tmap Qopp) in Cr. destruct (chv_broadcast Qdiv rank 1 n _ sc _ s Cr C) as (z & -> & Cz).
      exists z. split; [reflexivity|exact Cz].
  Qed.
  Lemma rep_bias v b sc z bw sg : bias_of v n b -> chv rank (o_chan o) n s sc -> chv rank (o_chan o) n (fun c => (- b c / s c)%Q) z ->
    represents (QT (apply_op o (t_value x) (t_value w) (Some v)) sc z bw sg) (o_chan o) (acc o kx kw) s (fun c => (- b c / s c)%Q).
  Proof.
    intros [Sv Av] C Cz idx I. cbn [t_value t_scale t_zp apply_op shape] in *. destruct (chan_bound _ _ _ _ _ idx Al I) as [Hc L]. set (c := nth (o_chan o) idx 0) in *.
    exists (s c), (- b c / s c)%Q. split; [apply (chv_entry_of rank (o_chan o) n s sc idx C L Hc)|].
    split; [apply (chv_entry_of rank (o_chan o) n (fun c => (- b c / s c)%Q) z idx Cz L Hc)|].
    split; [reflexivity|]. split; [reflexivity|]. rewrite (value_at (Some v) idx (b c) I) by (symmetry; apply Av, Hc). fold c.
    field. pose proof (scale_pos c Hc). lra.
  Qed.
  Lemma float_bias v b : bias_of v n b -> o_chan o = 1 ->
    exists q, quant_layer_t o x w (TPlain v) = Some (inr q) /\ represents q (o_chan o) (acc o kx kw) s (fun c => (- b c / s c)%Q).
  Proof.
    intros B O1. destruct out_scale as (sc & E & C). unfold quant_layer_t. fold rank. rewrite E. cbn [obind tbias_value].
    destruct (zp_bias v b B O1 sc C) as (z & -> & Cz). cbn [obind]. rewrite zps. eexists. split; [reflexivity|].
    apply rep_bias; assumption.
  Qed.

  (** The quantized bias. *)
  Lemma bias_quantized v b bw : bias_of v n b -> (1 <= bw)%Z ->
    exists bv bs m kb, quant_bias_t bw (o_kind o) x w v = Some (TQuant (QT bv bs (T [] (fun _ => 0%Q)) bw true))
      /\ shape bs = [m] /\ (m = n \/ m = 1) /\ (forall c, c < n -> at_ bs [if m =? 1 then 0 else c] = s c)
      /\ (exists sc, output_scale_t (o_kind o) rank (t_scale x) (t_scale w) = Some sc /\ shape sc = chan_shape rank (o_chan o) m)
      /\ shape bv = [n] /\ (forall c, c < n -> (at_ bv [c] == inject_Z (kb c) * s c)%Q) /\ forall c, c < n -> nearest_code bw (s c) (b c) (kb c).
  Proof.
    intros [Sv Av] Hb. unfold quant_bias_t. fold rank.
    destruct (bias_scale_chv (o_kind o) rank (o_chan o) (t_scale x) (t_scale w) sx wdim n sw Hd) as (bs & m & -> & Ss & M & Sc & Vs); [apply Hx|apply Hw|].
    cbn [obind]. unfold int_quant_t. cbn [q_scale q_zp q_f2i q_signed q_narrow q_bw float_to_int_t].
    assert (T1 : transparent [n] [m] []).
    { split; [cbn; lia|]. intros j Hj. cbn [length] in Hj. assert (j = 0) as -> by lia. cbn [nth length Nat.sub Nat.add].
      destruct M as [->| ->]; [right; split; reflexivity|left; reflexivity]. }
    assert (T0 : transparent [n] [] []) by (split; [cbn; lia|]; intros j Hj; cbn in Hj; lia).
    assert (Ib : forall c, c < n -> inb [n] [c]) by (intros; repeat constructor; assumption).
    assert (Bm : forall c, bindex [m] [c] = [if m =? 1 then 0 else c]) by reflexivity.
    destruct (broadcast_at Qdiv v bs) as (r1 & -> & E1 & A1); [rewrite Sv, Ss; exact T1|]. rewrite Sv in E1, A1. rewrite Ss in A1. cbn [obind].
    set (zt := T [] (fun _ => 0%Q)).
    destruct (broadcast_at Qplus r1 zt) as (r2 & -> & E2 & A2); [rewrite E1; exact T0|]. rewrite E1 in E2, A2. cbn [obind].
    set (r3 := tmap (fun v0 : Q => tensor_clamp v0 _ _) (tmap (float_to_int Round) r2)).
    destruct (broadcast_at Qminus r3 zt) as (r4 & -> & E4 & A4); [unfold r3; cbn [tmap shape]; rewrite E2; exact T0|]. unfold r3 in E4, A4. cbn [tmap shape at_] in E4, A4. rewrite E2 in E4, A4. cbn [obind].
    destruct (broadcast_at Qmult r4 bs) as (r5 & -> & E5 & A5); [rewrite E4, Ss; exact T1|]. rewrite E4 in E5, A5. rewrite Ss in A5. cbn [obind].
    assert (V : forall c, c < n -> at_ r5 [c] = int_quant (cfg true false Round) (s c) (inject_Z 0) bw (b c)).
    { intros c Hc. rewrite A5, A4, A2, A1 by (apply Ib, Hc). rewrite Bm, (Vs c Hc), (Av c Hc). reflexivity. }
    exists r5, bs, m, (fun c => code true false (float_to_intZ Round) (s c) 0 bw (b c)). split; [reflexivity|]. split; [exact Ss|]. split; [exact M|].
    split; [exact Vs|]. split; [exact Sc|]. split; [exact E5|].
    assert (V2 : forall c, c < n -> (at_ r5 [c] == inject_Z (code true false (float_to_intZ Round) (s c) 0 bw (b c)) * s c)%Q).
    { intros c Hc. rewrite (V c Hc), cfg_quant. change (inject_Z 0) with 0%Q. ring. }
    split; [exact V2|]. intros c Hc. split; [apply code_in_range; exact Hb|]. intros k' Hk'.
    pose proof (C03_nearest true false Round (s c) 0 bw (b c) (inject_Z k' * s c)%Q (scale_pos c Hc) Hb (or_introl eq_refl)) as N.
    rewrite <- (V2 c Hc), (V c Hc). apply N. exists k'. split; [exact Hk'|]. unfold denote. change (inject_Z 0) with 0%Q. ring.
  Qed.
End Layer.

(** Closeness of the bias scale and the output scale. *)
Lemma allclose_close a b : allclose a b = true <-> close a b.
Proof. unfold allclose, close. apply Qle_bool_iff. Qed.
Lemma close_refl a : close a a.
Proof.
  unfold close. setoid_replace (a - a)%Q with 0%Q by ring. change (Qabs 0) with 0%Q. pose proof (Qabs_nonneg a).
  assert (0 <= (1 # 100000) * Qabs a)%Q by (apply Qmult_le_0_compat; [discriminate|assumption]). lra.
Qed.
Lemma chan_shape_inj rank d m m' : chan_shape rank d m = chan_shape rank d m' -> m = m'.
Proof. intros E. unfold chan_shape in E. apply app_inv_head in E. injection E. auto. Qed.
Lemma allclose_last rank n s bs sc m : 0 < n -> chv rank (rank - 1) n s sc -> shape sc = chan_shape rank (rank - 1) m -> shape bs = [m] ->
  (m = n \/ m = 1) -> (forall c, c < n -> at_ bs [if m =? 1 then 0 else c] = s c) -> allclose_t bs sc = Some true.
Proof.
  intros Hn C Es Eb M V. pose proof C as (Hd & _). unfold allclose_t. rewrite Eb, Es.
  assert (B : bshape [m] (chan_shape rank (rank - 1) m) = Some (chan_shape rank (rank - 1) m)).
  { unfold bshape. rewrite chan_shape_length by exact Hd. cbn [length]. rewrite Nat.max_r by lia. unfold pad_ones. rewrite chan_shape_length, Nat.sub_diag by exact Hd.
    cbn [repeat app length]. unfold chan_shape. replace (rank - 1 - (rank - 1)) with 0 by lia. cbn [repeat]. apply zip_app; [reflexivity|apply zip_ones|].
    cbn [zip_dims]. rewrite Nat.eqb_refl. reflexivity. }
  rewrite B. f_equal. apply forallb_forall. intros idx I. apply all_idx_inb in I. apply allclose_close.
  assert (L : length idx = rank) by (rewrite (inb_length _ _ I), chan_shape_length; auto).
  assert (H : nth (rank - 1) idx 0 < m).
  { pose proof (inb_nth _ _ (rank - 1) I) as H. rewrite chan_shape_length in H by exact Hd. specialize (H Hd).
    unfold chan_shape in H. rewrite (app_nth2 (repeat 1 (rank - 1))) in H by (rewrite repeat_length; lia). rewrite repeat_length, Nat.sub_diag in H. exact H. }
  set (c := nth (rank - 1) idx 0) in *. assert (Hc : c < n) by lia.
  rewrite <- Es, (chv_entry rank (rank - 1) n s sc idx C L Hc). fold c.
  assert (Eb2 : bindex [m] idx = [if m =? 1 then 0 else c]).
  { unfold bindex. cbn [length]. rewrite L. rewrite (split_idx rank (rank - 1) idx Hd L). rewrite skipn_app, firstn_length, L.
    rewrite (skipn_all2 (firstn (rank - 1) idx)) by (rewrite firstn_length; lia). replace (rank - 1 - Nat.min (rank - 1) rank) with 0 by lia. reflexivity. }
  rewrite Eb2, (V c Hc). apply close_refl.
Qed.
Lemma allclose_conv r n s bs sc m : 0 < n -> chv (3 + r) 1 n s sc -> shape sc = chan_shape (3 + r) 1 m -> shape bs = [m] ->
  (m = n \/ m = 1) -> (forall c, c < n -> at_ bs [if m =? 1 then 0 else c] = s c) ->
  exists cl, allclose_t bs sc = Some cl /\ (cl = true <-> forall i j, i < n -> j < n -> close (s i) (s j)).
Proof.
  intros Hn C Es Eb M V. unfold allclose_t. rewrite Eb, Es.
  assert (B : bshape [m] (chan_shape (3 + r) 1 m) = Some (1 :: m :: repeat 1 r ++ [m])).
  { unfold bshape. rewrite chan_shape_length by lia. cbn [length]. rewrite Nat.max_r by lia. unfold pad_ones. rewrite chan_shape_length, Nat.sub_diag by lia.
    unfold chan_shape. cbn [length Nat.add Nat.sub repeat app].
    assert (Er : 1 :: repeat 1 r = repeat 1 r ++ [1]) by (clear; induction r; cbn; [reflexivity|]; rewrite <- IHr; reflexivity).
    rewrite Er. cbn [zip_dims]. rewrite (zip_app (repeat 1 r) [m] (repeat 1 r) (repeat 1 r) eq_refl (zip_ones r) [m] [1]).
    - destruct (Nat.eqb_spec 1 m); [subst; reflexivity|]. cbn. reflexivity.
    - cbn [zip_dims]. destruct (Nat.eqb_spec m 1); [subst; reflexivity|]. reflexivity. }
  rewrite B. eexists. split; [reflexivity|].
  assert (Bb : forall idx i, length idx = 3 + r -> nth (2 + r) idx 0 = i -> bindex [m] idx = [if m =? 1 then 0 else i]).
  { intros idx i L <-. unfold bindex. cbn [length]. rewrite L. rewrite (split_idx (3 + r) (2 + r) idx ltac:(lia) L) at 1. rewrite skipn_app, firstn_length, L.
    rewrite (skipn_all2 (firstn (2 + r) idx)) by (rewrite firstn_length; lia). replace (3 + r - 1 - Nat.min (2 + r) (3 + r)) with 0 by lia. reflexivity. }
  rewrite forallb_forall. split.
  - intros F i j Hi Hj. destruct (Nat.eqb_spec m 1) as [->|Hm].
    { pose proof (V i Hi) as Vi. pose proof (V j Hj) as Vj. cbn in Vi, Vj. rewrite <- Vi, <- Vj. apply close_refl. }
    assert (m = n) by lia. subst m.
    specialize (F (0 :: j :: repeat 0 r ++ [i])). rewrite all_idx_inb in F.
    assert (L : length (0 :: j :: repeat 0 r ++ [i]) = 3 + r) by (cbn [length]; rewrite app_length, repeat_length; cbn [length]; lia).
    assert (Ii : inb (1 :: n :: repeat 1 r ++ [n]) (0 :: j :: repeat 0 r ++ [i])).
    { constructor; [lia|]. constructor; [exact Hj|]. apply inb_app; [apply inb_ones|]. repeat constructor. exact Hi. }
    specialize (F Ii). apply allclose_close in F. rewrite <- Es, (chv_entry (3 + r) 1 n s sc _ C L) in F by (cbn [nth]; exact Hj). cbn [nth] in F.
    rewrite (Bb _ i L) in F.
    2: { cbn [nth Nat.add]. rewrite app_nth2; rewrite repeat_length; [|lia]. rewrite Nat.sub_diag. reflexivity. }
    rewrite (V i Hi) in F. exact F.
  - intros F idx I. apply all_idx_inb in I. apply allclose_close.
    assert (L : length idx = 3 + r) by (rewrite (inb_length _ _ I); cbn [length]; rewrite app_length, repeat_length; cbn [length]; lia).
    assert (H1 : nth 1 idx 0 < m) by (apply (inb_nth _ _ 1 I); cbn; lia).
    assert (H2 : nth (2 + r) idx 0 < m).
    { pose proof (inb_nth _ _ (2 + r) I) as H. cbn [length nth Nat.add] in H. rewrite app_length, repeat_length in H. cbn [length] in H.
      rewrite (app_nth2 (repeat 1 r)) in H by (rewrite repeat_length; lia). rewrite repeat_length, Nat.sub_diag in H. apply H. lia. }
    rewrite <- Es, (chv_entry (3 + r) 1 n s sc idx C L) by lia. rewrite (Bb idx _ L eq_refl), V by lia. apply F; lia.
Qed.

(** The concrete operations. *)
Lemma aligned_linear lead n_in n_out : aligned (linear_op lead n_in n_out) 0 n_out (lead ++ [n_in]) [n_out; n_in].
Proof.
  unfold linear_op. split; [cbn [o_shape]; rewrite !app_length; reflexivity|]. cbn [o_chan o_shape o_taps].
  split; [rewrite app_length; cbn; lia|]. split; [rewrite app_nth2, Nat.sub_diag by lia; reflexivity|].
  intros idx I p Hp. apply in_map_iff in Hp as (k & <- & Hk). apply in_seq in Hk. cbn [fst snd].
  assert (L : length idx = S (length lead)) by (rewrite (inb_length _ _ I), app_length; cbn; lia).
  assert (Hc : nth (length lead) idx 0 < n_out).
  { pose proof (inb_nth _ _ (length lead) I) as H. rewrite app_length, app_nth2, Nat.sub_diag in H by lia. apply H. cbn. lia. }
  split; [|split; [|reflexivity]].
  - apply inb_app; [|repeat constructor; lia]. rewrite (split_idx _ (length lead) idx (Nat.lt_succ_diag_r _) L) in I.
    apply Forall2_app_inv_l in I as (l1 & l2 & I1 & I2 & E). pose proof (inb_length _ _ I1) as L1. rewrite firstn_length, L in L1.
    replace (Nat.min (length lead) (S (length lead))) with (length lead) in L1 by lia.
    assert (lead = l1).
    { apply (f_equal (firstn (length lead))) in E. rewrite firstn_app, Nat.sub_diag, firstn_all, firstn_O, app_nil_r in E.
      rewrite firstn_app, <- L1, Nat.sub_diag, firstn_O, app_nil_r in E. rewrite L1 in E. rewrite firstn_all in E. exact E. }
    subst l1. exact I1.
  - constructor; [exact Hc|]. constructor; [lia|constructor].
Qed.
Lemma conv_pos_inb : forall sp stride pad dil ts ks pos, conv_pos sp stride pad dil ts ks = Some pos -> inb sp pos.
Proof.
  induction sp as [|s sp IH]; intros [|st stride] [|p pad] [|d dil] [|t ts] [|k ks] pos H; cbn [conv_pos] in H; try discriminate.
  - injection H as <-. constructor.
  - destruct ((p <=? t * st + k * d) && (t * st + k * d - p <? s)) eqn:E; [|discriminate]. apply andb_prop in E as [_ E]. apply Nat.ltb_lt in E.
    destruct (conv_pos sp stride pad dil ts ks) as [r|] eqn:Er; [|discriminate]. injection H as <-. constructor; [exact E|]. apply (IH _ _ _ _ _ _ Er).
Qed.
Lemma conv_out_length : forall sp stride pad dil ksize, length stride = length sp -> length pad = length sp -> length dil = length sp -> length ksize = length sp ->
  length (conv_out sp stride pad dil ksize) = length sp.
Proof.
  induction sp as [|s sp IH]; intros [|st stride] [|p pad] [|d dil] [|k ksize] A B C D; cbn [length] in *; try discriminate; [reflexivity|].
  cbn [conv_out length]. rewrite IH by lia. reflexivity.
Qed.
Definition same_rank (sp ksize stride pad dil : list nat) : Prop :=
  length stride = length sp /\ length pad = length sp /\ length dil = length sp /\ length ksize = length sp.
Lemma aligned_conv N g cg og sp ksize stride pad dil : same_rank sp ksize stride pad dil ->
  aligned (conv_op [N] g cg og sp ksize stride pad dil) 0 (g * og) (N :: g * cg :: sp) (g * og :: cg :: ksize).
Proof.
  intros (A & B & C & D). unfold conv_op. split; [cbn [o_shape app length]; rewrite conv_out_length by assumption; reflexivity|].
  cbn [o_chan o_shape o_taps length app]. split; [lia|]. split; [reflexivity|]. intros idx I p Hp.
  inversion I as [|nb ? r1 ? Hnb I1]; subst. inversion I1 as [|oc ? ts ? Hoc I2]; subst. cbn [firstn nth skipn] in Hp |- *.
  apply in_flat_map in Hp as (c & Hc & Hp). apply in_seq in Hc. apply in_flat_map in Hp as (ks & Hks & Hp). apply all_idx_inb in Hks.
  destruct (conv_pos sp stride pad dil ts ks) as [pos|] eqn:E; [|destruct Hp]. destruct Hp as [<-|[]]. cbn [fst snd app nth].
  apply conv_pos_inb in E. assert (oc / og < g) by (apply Nat.div_lt_upper_bound; nia).
  split; [|split; [|reflexivity]].
  - constructor; [exact Hnb|]. constructor; [nia|exact E].
  - constructor; [exact Hoc|]. constructor; [lia|exact Hks].
Qed.
Lemma linear_dim lead (a : nat) : py_index (length (lead ++ [a])) (-1) = Some (length lead).
Proof.
  unfold py_index. rewrite app_length. cbn [length]. change (0 <=? -1)%Z with false. cbn [andb]. change (-1 <? 0)%Z with true. cbn [andb].
  destruct (Z.leb_spec (- Z.of_nat (length lead + 1)) (-1)); [|lia]. f_equal. lia.
Qed.
Lemma conv_dim (N c : nat) sp : py_index (length (N :: c :: sp)) 1 = Some 1.
Proof. unfold py_index. cbn [length]. destruct (Z.ltb_spec 1 (Z.of_nat (S (S (length sp))))); [reflexivity|lia]. Qed.

(** * Linear layers *)

(** Inputs of any rank, no bias. *)
Theorem C105_linear lead n_in n_out x w kx kw sx sw : shape (t_value x) = lead ++ [n_in] -> shape (t_value w) = [n_out; n_in] ->
  input_codes x kx sx -> weight_codes w 0 n_out kw sw -> let o := linear_op lead n_in n_out in
  exists q, layer_forward o true None (inr x) w None = Some (inr q) /\ shape (t_value q) = lead ++ [n_out]
    /\ represents q (length lead) (acc o kx kw) (fun c => (sw c * sx)%Q) (fun _ => 0%Q).
Proof.
  intros Sx Sw Hx Hw o. destruct (no_bias o x w kx kw sx sw 0 n_out Hx Hw) as (q & E & R).
  - rewrite Sx, Sw. apply aligned_linear.
  - rewrite Sx. apply linear_dim.
  - exists q. unfold layer_forward. cbn [obind]. rewrite E. cbn [obind]. split; [reflexivity|]. split; [|exact R].
    unfold quant_layer_t in E. destruct (output_scale_t _ _ _ _); [|discriminate]. cbn [obind] in E. destruct (_ || _); [discriminate|]. injection E as <-. reflexivity.
Qed.

(** Bias quantized at the output scale, inputs of any rank: the codes are the accumulator plus the
    nearest bias code, with zero point 0. *)
Theorem C105_linear_quant_bias lead n_in n_out x w kx kw sx sw v b bw : shape (t_value x) = lead ++ [n_in] -> shape (t_value w) = [n_out; n_in] ->
  input_codes x kx sx -> weight_codes w 0 n_out kw sw -> bias_of v n_out b -> 0 < n_out -> (1 <= bw)%Z -> let o := linear_op lead n_in n_out in
  exists q kb, layer_forward o true (Some bw) (inr x) w (Some v) = Some (inr q)
    /\ represents q (length lead) (fun idx => (acc o kx kw idx + kb (nth (length lead) idx 0%nat))%Z) (fun c => (sw c * sx)%Q) (fun _ => 0%Q)
    /\ (forall c, c < n_out -> nearest_code bw (sw c * sx) (b c) (kb c))
    /\ t_bw q = (Z.max bw (max_acc_bit_width_linear (t_bw x) (t_bw w) [Z.of_nat n_out; Z.of_nat n_in]) + 1)%Z.
Proof.
  intros Sx Sw Hx Hw B Hn Hb o.
  assert (Al : aligned o 0 n_out (shape (t_value x)) (shape (t_value w))) by (rewrite Sx, Sw; apply aligned_linear).
  assert (Hd : py_index (length (shape (t_value x))) (channel_dim_of (o_kind o)) = Some (o_chan o)) by (rewrite Sx; apply linear_dim).
  destruct (bias_quantized o x w kx kw sx sw 0 n_out Hx Hw Hd v b bw B Hb) as (bv & bs & m & kb & Eb & Ss & M & Vs & (sc' & Esc' & Ssc') & Sbv & Vb & Nb).
  destruct (out_scale o x w kx kw sx sw 0 n_out Hx Hw Hd) as (sc & Esc & C). rewrite Esc in Esc'. injection Esc' as <-.
  exists (QT (apply_op o (t_value x) (t_value w) (Some bv)) sc (T [1] (fun _ => 0%Q))
         (Z.max bw (max_acc_bit_width_linear (t_bw x) (t_bw w) [Z.of_nat n_out; Z.of_nat n_in]) + 1)%Z (t_signed x || t_signed w)), kb.
  split; [|split; [|split; [exact Nb|reflexivity]]].
  - unfold layer_forward. rewrite Eb. cbn [obind]. unfold quant_layer_t. rewrite Esc. cbn [obind t_scale tbias_value t_value t_bw].
    rewrite (allclose_last (length (shape (t_value x))) n_out (fun c => (sw c * sx)%Q) bs sc m Hn).
    + cbn [obind]. rewrite (zps x w kx kw sx sw 0 n_out Hx Hw). rewrite Sw. cbn [obind acc_bit_width o_kind o linear_op map].
      match goal with |- context [(if (?a <? bw)%Z then _ else _)] => destruct (Z.ltb_spec a bw); [rewrite Z.max_l by lia|rewrite Z.max_r by lia]; reflexivity end.
    + replace (length (shape (t_value x)) - 1) with (o_chan o) by (rewrite Sx, app_length; cbn; lia). exact C.
    + replace (length (shape (t_value x)) - 1) with (o_chan o) by (rewrite Sx, app_length; cbn; lia). exact Ssc'.
    + exact Ss.
    + exact M.
    + exact Vs.
  - apply (rep_zero o x w kx kw sx sw 0 n_out Hx Hw Al (Some bv) sc _ _ kb C). exact Vb.
Qed.

(** Float bias, two-dimensional inputs: the bias is the zero point, the codes are the accumulator. *)
Theorem C105_linear_float_bias N n_in n_out x w kx kw sx sw v b : shape (t_value x) = [N; n_in] -> shape (t_value w) = [n_out; n_in] ->
  input_codes x kx sx -> weight_codes w 0 n_out kw sw -> bias_of v n_out b -> let o := linear_op [N] n_in n_out in
  exists q, layer_forward o true None (inr x) w (Some v) = Some (inr q)
    /\ represents q 1 (acc o kx kw) (fun c => (sw c * sx)%Q) (fun c => (- b c / (sw c * sx))%Q).
Proof.
  intros Sx Sw Hx Hw B o. destruct (float_bias o x w kx kw sx sw 0 n_out Hx Hw) with (v := v) (b := b) as (q & E & R).
  - rewrite Sx, Sw. apply (aligned_linear [N]).
  - rewrite Sx. apply (linear_dim [N]).
  - exact B.
  - reflexivity.
  - exists q. unfold layer_forward. cbn [obind]. rewrite E. cbn [obind]. split; [reflexivity|]. exact R.
Qed.

(** * Convolutions on batched inputs *)
Section Conv.
  Variables (N g cg og : nat) (sp ksize stride pad dil : list nat) (x w : qten) (kx kw : list nat -> Z) (sx : Q) (sw : nat -> Q).
  Hypothesis Sr : same_rank sp ksize stride pad dil.
  Hypothesis Sx : shape (t_value x) = N :: g * cg :: sp.
  Hypothesis Sw : shape (t_value w) = g * og :: cg :: ksize.
  Hypothesis Hx : input_codes x kx sx.
  Hypothesis Hw : weight_codes w 0 (g * og) kw sw.
  Let o := conv_op [N] g cg og sp ksize stride pad dil.
  Lemma conv_al : aligned o 0 (g * og) (shape (t_value x)) (shape (t_value w)).
  Proof. rewrite Sx, Sw. apply aligned_conv, Sr. Qed.
  Lemma conv_hd : py_index (length (shape (t_value x))) (channel_dim_of (o_kind o)) = Some (o_chan o).
  Proof. rewrite Sx. apply conv_dim. Qed.

  Lemma conv_no_bias : exists q, layer_forward o true None (inr x) w None = Some (inr q)
    /\ represents q 1 (acc o kx kw) (fun c => (sw c * sx)%Q) (fun _ => 0%Q).
  Proof.
    destruct (no_bias o x w kx kw sx sw 0 (g * og) Hx Hw conv_al conv_hd) as (q & E & R). exists q. unfold layer_forward. cbn [obind]. rewrite E.
    cbn [obind]. split; [reflexivity|exact R].
  Qed.
  Lemma conv_float_bias v b : bias_of v (g * og) b -> exists q, layer_forward o true None (inr x) w (Some v) = Some (inr q)
    /\ represents q 1 (acc o kx kw) (fun c => (sw c * sx)%Q) (fun c => (- b c / (sw c * sx))%Q).
  Proof.
    intros B. destruct (float_bias o x w kx kw sx sw 0 (g * og) Hx Hw conv_al conv_hd v b B eq_refl) as (q & E & R). exists q.
    unfold layer_forward. cbn [obind]. rewrite E. cbn [obind]. split; [reflexivity|exact R].
  Qed.
  Lemma conv_quant_bias v b bw : bias_of v (g * og) b -> 0 < g * og -> sp <> [] -> (1 <= bw)%Z ->
    exists q kb, layer_forward o true (Some bw) (inr x) w (Some v) = Some (inr q)
      /\ (forall c, c < g * og -> nearest_code bw (sw c * sx) (b c) (kb c))
      /\ ((forall i j, i < g * og -> j < g * og -> close (sw i * sx) (sw j * sx)) ->
            represents q 1 (fun idx => (acc o kx kw idx + kb (nth 1 idx 0%nat))%Z) (fun c => (sw c * sx)%Q) (fun _ => 0%Q))
      /\ (~ (forall i j, i < g * og -> j < g * og -> close (sw i * sx) (sw j * sx)) ->
            represents q 1 (acc o kx kw) (fun c => (sw c * sx)%Q) (fun c => (- inject_Z (kb c))%Q)).
  Proof.
    intros B Hn Hsp Hb. set (n := g * og) in *.
    destruct (bias_quantized o x w kx kw sx sw 0 n Hx Hw conv_hd v b bw B Hb) as (bv & bs & m & kb & Eb & Ss & M & Vs & (sc' & Esc' & Ssc') & Sbv & Vb & Nb).
    destruct (out_scale o x w kx kw sx sw 0 n Hx Hw conv_hd) as (sc & Esc & C). rewrite Esc in Esc'. injection Esc' as <-.
    assert (Esp : exists s0 sp', sp = s0 :: sp') by (revert Hsp; clear; destruct sp; [contradiction|eauto]). destruct Esp as (s0 & sp' & Esp).
    assert (Rk : length (shape (t_value x)) = 3 + length sp') by (rewrite Sx, Esp; reflexivity).
    assert (C3 : chv (3 + length sp') 1 n (fun c => (sw c * sx)%Q) sc) by (rewrite <- Rk; exact C).
    assert (S3 : shape sc = chan_shape (3 + length sp') 1 m) by (rewrite <- Rk; exact Ssc').
    destruct (allclose_conv (length sp') n _ bs sc m Hn C3 S3 Ss M Vs) as (cl & Ecl & Icl).
    assert (Bv : bias_of bv n (fun c => at_ bv [c])) by (split; [exact Sbv|reflexivity]).
    destruct (zp_bias o x w sx sw 0 n conv_al bv _ Bv eq_refl sc C) as (z & Ez & Cz).
    set (bwo := acc_bit_width (o_kind o) (t_bw x) (t_bw w) (shape (t_value w))).
    exists (QT (apply_op o (t_value x) (t_value w) (Some bv)) sc (if cl then T [1] (fun _ => 0%Q) else z)
               ((if bwo <? bw then bw else bwo) + 1)%Z (t_signed x || t_signed w)), kb.
    split; [|split; [exact Nb|split]].
    - unfold layer_forward. rewrite Eb. cbn [obind]. unfold quant_layer_t. rewrite Esc. cbn [obind t_scale tbias_value t_value t_bw]. rewrite Ecl. cbn [obind].
      destruct cl; cbn [obind].
      + rewrite (zps x w kx kw sx sw 0 n Hx Hw). reflexivity.
      + rewrite Ez. cbn [obind]. rewrite (zps x w kx kw sx sw 0 n Hx Hw). reflexivity.
    - intros F. apply Icl in F. subst cl. apply (rep_zero o x w kx kw sx sw 0 n Hx Hw conv_al (Some bv) sc _ _ kb C Vb).
    - intros F. destruct cl; [destruct F; apply Icl; reflexivity|].
      pose proof (rep_bias o x w kx kw sx sw 0 n Hx Hw conv_al bv _ sc z ((if bwo <? bw then bw else bwo) + 1)%Z (t_signed x || t_signed w) Bv C Cz) as R.
      intros idx I. destruct (R idx I) as (sv & zv & E1 & E2 & E3 & E4 & E5). exists sv, zv. split; [exact E1|]. split; [exact E2|]. split; [exact E3|]. split; [|exact E5].
      rewrite E4. pose proof (chan_bound _ _ _ _ _ idx conv_al I) as [Hc _]. cbn [o_chan o conv_op length] in Hc.
      assert (Ps : (0 < sw (nth 1 idx 0%nat) * sx)%Q) by (apply (scale_pos x w kx kw sx sw 0 n Hx Hw _ Hc)). pose proof (Vb _ Hc) as Eq. change (o_chan o) with 1. rewrite Eq. field.
      split; intros Z0; rewrite Z0 in Ps; rewrite ?Qmult_0_r, ?Qmult_0_l in Ps; revert Ps; apply Qlt_irrefl.
  Qed.
End Conv.

(** Without bias, or with a float bias (which becomes the zero point). *)
Theorem C105_conv N g cg og sp ksize stride pad dil x w kx kw sx sw : same_rank sp ksize stride pad dil ->
  shape (t_value x) = N :: g * cg :: sp -> shape (t_value w) = g * og :: cg :: ksize ->
  input_codes x kx sx -> weight_codes w 0 (g * og) kw sw -> let o := conv_op [N] g cg og sp ksize stride pad dil in
  (exists q, layer_forward o true None (inr x) w None = Some (inr q) /\ represents q 1 (acc o kx kw) (fun c => (sw c * sx)%Q) (fun _ => 0%Q))
  /\ forall v b, bias_of v (g * og) b -> exists q, layer_forward o true None (inr x) w (Some v) = Some (inr q)
       /\ represents q 1 (acc o kx kw) (fun c => (sw c * sx)%Q) (fun c => (- b c / (sw c * sx))%Q).
Proof.
  intros Sr Sx Sw Hx Hw o. split; [apply conv_no_bias; assumption|]. intros v b B. apply conv_float_bias; assumption.
Qed.

(** With a bias quantized at the output scale.  When the scales of all output channels are close
    to each other the codes are the accumulator plus the nearest bias code, zero point 0.
    Otherwise (per-channel scales) the handler does not recognise the scale of the bias: its codes
    are moved to the zero point. *)
Theorem C105_conv_quant_bias N g cg og sp ksize stride pad dil x w kx kw sx sw v b bw : same_rank sp ksize stride pad dil -> sp <> [] ->
  shape (t_value x) = N :: g * cg :: sp -> shape (t_value w) = g * og :: cg :: ksize ->
  input_codes x kx sx -> weight_codes w 0 (g * og) kw sw -> bias_of v (g * og) b -> 0 < g * og -> (1 <= bw)%Z ->
  let o := conv_op [N] g cg og sp ksize stride pad dil in
  exists q kb, layer_forward o true (Some bw) (inr x) w (Some v) = Some (inr q)
    /\ (forall c, c < g * og -> nearest_code bw (sw c * sx) (b c) (kb c))
    /\ ((forall i j, i < g * og -> j < g * og -> close (sw i * sx) (sw j * sx)) ->
          represents q 1 (fun idx => (acc o kx kw idx + kb (nth 1 idx 0%nat))%Z) (fun c => (sw c * sx)%Q) (fun _ => 0%Q))
    /\ (~ (forall i j, i < g * og -> j < g * og -> close (sw i * sx) (sw j * sx)) ->
          represents q 1 (acc o kx kw) (fun c => (sw c * sx)%Q) (fun c => (- inject_Z (kb c))%Q)).
Proof. intros Sr Hsp Sx Sw Hx Hw B Hn Hb o. apply conv_quant_bias; assumption. Qed.

(** Shape, sign and bit width of any quantized output: the bit width of the accumulator (C07),
    and one more than the larger of it and the bias when the bias is quantized. *)
Theorem C105_bit_width o bias_bw x w b q : layer_forward o true bias_bw (inr x) w b = Some (inr q) ->
  let ws := map Z.of_nat (shape (t_value w)) in
  let a := match o_kind o with
           | KLinear => max_acc_bit_width_linear (t_bw x) (t_bw w) ws
           | KConv => max_acc_bit_width_conv (t_bw x) (t_bw w) ws
           | KConvT st => max_acc_bit_width_conv_transpose (t_bw x) (t_bw w) ws st
           end in
  shape (t_value q) = o_shape o /\ t_signed q = t_signed x || t_signed w
  /\ t_bw q = match b, bias_bw with Some _, Some bw => (Z.max bw a + 1)%Z | _, _ => a end.
Proof.
  intros H ws a. unfold layer_forward in H. set (mb := match b with Some _ => _ | None => _ end) in H.
  destruct mb as [tb|] eqn:Eb; [|discriminate]. cbn [obind] in H. destruct (quant_layer_t o x w tb) as [[v|q']|] eqn:Eq; cbn [obind] in H; try discriminate. injection H as ->.
  unfold quant_layer_t in Eq. destruct (output_scale_t _ _ _ _) as [sc|]; [|discriminate]. cbn [obind] in Eq.
  match type of Eq with obind ?m _ = _ => destruct m as [zp|]; [|discriminate] end. cbn [obind] in Eq. destruct (_ || _) in Eq; [discriminate|]. injection Eq as <-.
  cbn [t_value t_signed t_bw shape]. split; [reflexivity|]. split; [reflexivity|]. change (acc_bit_width (o_kind o) (t_bw x) (t_bw w) (shape (t_value w))) with a.
  unfold mb in Eb. destruct b as [b|]; [|injection Eb as <-; reflexivity]. destruct bias_bw as [bw|]; [|injection Eb as <-; reflexivity].
  unfold quant_bias_t in Eb. destruct (bias_scale_t _ _ _ _); [|discriminate]. cbn [obind] in Eb. destruct (int_quant_t _ _ _); [|discriminate]. cbn [obind] in Eb. injection Eb as <-. cbn [t_bw].
  destruct (Z.ltb_spec a bw); lia.
Qed.

(** * Findings *)
Definition lst (sh : list nat) (l : list Q) : tens := T sh (fun idx => nth (GpxqProps.flat sh idx) l 0%Q).
Definition zt : tens := T [] (fun _ => 0%Q).
Definition out_of (r : option (tens + qten)) : qten := match r with Some (inr q) => q | _ => QT zt zt zt 0%Z false end.
Lemma got (r : option (tens + qten)) : match r with Some (inr _) => true | _ => false end = true -> r = Some (inr (out_of r)).
Proof. destruct r as [[v|q]|]; intros H; [discriminate H|reflexivity|discriminate H]. Qed.
Definition zero_points (t : tens) : Prop := exists i, inb (shape t) i /\ ~ (at_ t i == 0)%Q.

(** A layer that gets such an output (any non-zero zero point) cannot return a quantized tensor:
    with return_quant_tensor it raises, otherwise its output is a plain tensor. *)
Theorem C105_zero_point_blocks : forall o bias_bw x w b, zero_points (t_zp x) \/ zero_points (t_zp w) ->
  layer_forward o true bias_bw (inr x) w b = None
  /\ forall r, layer_forward o false bias_bw (inr x) w b = Some r -> exists v, r = inl v.
Proof.
  intros o bias_bw x w b H.
  assert (E : any_nonzero (t_zp x) || any_nonzero (t_zp w) = true).
  { apply orb_true_iff. destruct H as [(i & Hi & N)|(i & Hi & N)]; [left|right]; eapply any_nonzero_true; eassumption. }
  assert (Q1 : forall tb q, quant_layer_t o x w tb <> Some (inr q)).
  { intros tb q. unfold quant_layer_t. destruct (output_scale_t _ _ _ _) as [sc|]; [|discriminate]. cbn [obind].
    match goal with |- obind ?m _ <> _ => destruct m; [|discriminate] end. cbn [obind]. rewrite E. discriminate. }
  unfold layer_forward. set (mb := match b with Some _ => _ | None => _ end).
  split.
  - destruct mb as [tb|]; [|reflexivity]. cbn [obind]. destruct (quant_layer_t o x w tb) as [[v|q]|] eqn:Eq; [reflexivity| |reflexivity].
    destruct (Q1 tb q Eq).
  - intros r. destruct mb as [tb|]; [|discriminate]. cbn [obind]. destruct (quant_layer_t o x w tb) as [[v|q]|] eqn:Eq; cbn [obind]; intros H1; [|destruct (Q1 tb q Eq)|discriminate].
    injection H1 as <-. exists v. reflexivity.
Qed.

(** A convolution with per-channel weight scales 1 and 2 and a quantized bias: the bias is not
    folded into the integers, and the next layer fails. *)
Theorem C105_chained_convolutions_refuted : exists o x w b q,
  (forall i, inb (shape (t_zp x)) i -> at_ (t_zp x) i = 0%Q)
  /\ layer_forward o true (Some 8%Z) (inr x) w (Some b) = Some (inr q)
  /\ forall o2 w2 b2 bias2, layer_forward o2 true bias2 (inr q) w2 b2 = None.
Proof.
  exists (conv_op [1] 1 1 2 [1] [1] [1] [0] [1]), (QT (lst [1; 1; 1] [1%Q]) (lst [] [1%Q]) zt 8%Z true),
    (QT (lst [2; 1; 1] [1; 2]%Q) (lst [2; 1; 1] [1; 2]%Q) zt 8%Z true), (lst [2] [4; 6]%Q).
  eexists. split; [|split; [apply got; vm_compute; reflexivity|]].
  - intros i _. reflexivity.
  - intros o2 w2 b2 bias2. apply C105_zero_point_blocks. left. exists [0; 0; 0].
    split; [vm_compute; repeat constructor|]. vm_compute. discriminate.
Qed.

(** F.linear on three-dimensional inputs with a float bias: the zero point varies along the
    sequence, not along the features.  Here the second row holds 1 = 0 + 1 in feature 0: scale 1,
    code 0, so the zero point has to be -1; it is -5.  With a sequence of another length than the
    number of features the zero point does not even broadcast against the value. *)
Theorem C105_linear_3d_refuted :
  (exists x w b q s z, layer_forward (linear_op [1; 2] 1 2) true None (inr x) w (Some b) = Some (inr q)
     /\ (forall i, inb (shape (t_zp x)) i -> at_ (t_zp x) i = 0%Q) /\ inb (shape (t_value q)) [0; 1; 0]
     /\ at_ (t_value x) [0; 1; 0] = 0%Q /\ at_ b [0] = 1%Q /\ Qeq (at_ (t_value q) [0; 1; 0]) 1
     /\ entry_of (t_scale q) [0; 1; 0] s /\ entry_of (t_zp q) [0; 1; 0] z /\ Qeq s 1 /\ Qeq z (-5))
  /\ (exists x w b q, layer_forward (linear_op [1; 3] 1 2) true None (inr x) w (Some b) = Some (inr q)
     /\ bshape (shape (t_value q)) (shape (t_zp q)) = None).
Proof.
  split.
  - exists (QT (lst [1; 2; 1] [3; 0]%Q) (lst [] [1%Q]) zt 8%Z true), (QT (lst [2; 1] [1; 1]%Q) (lst [] [1%Q]) zt 8%Z true), (lst [2] [1; 5]%Q).
    do 3 eexists. split; [apply got; vm_compute; reflexivity|]. split; [reflexivity|]. split; [vm_compute; repeat constructor|]. split; [reflexivity|]. split; [reflexivity|].
    split; [vm_compute; reflexivity|].
    split; [apply entry_bindex; vm_compute; lia|]. split; [apply entry_bindex; vm_compute; lia|].
    split; vm_compute; reflexivity.
  - exists (QT (lst [1; 3; 1] [3; 0; 1]%Q) (lst [] [1%Q]) zt 8%Z true), (QT (lst [2; 1] [1; 1]%Q) (lst [] [1%Q]) zt 8%Z true), (lst [2] [1; 5]%Q).
    eexists. split; [apply got; vm_compute; reflexivity|]. vm_compute. reflexivity.
Qed.

(** On one-dimensional inputs it raises for every float bias. *)
Theorem C105_linear_1d_refuted : forall n_in n_out x w b, length (shape (t_value x)) = 1 ->
  layer_forward (linear_op [] n_in n_out) true None (inr x) w (Some b) = None
  /\ layer_forward (linear_op [] n_in n_out) false None (inr x) w (Some b) = None.
Proof.
  intros n_in n_out x w b L. unfold layer_forward. cbn [obind]. unfold quant_layer_t. rewrite L.
  destruct (output_scale_t _ _ _ _); [|split; reflexivity]. cbn [obind]. change (channel_view 1 1 b) with (@None tens). split; reflexivity.
Qed.

(** Unbatched convolutions: the scales of the output channels vary along the positions. *)
Theorem C105_unbatched_conv_refuted : exists x w q s, layer_forward (conv_op [] 1 1 2 [2] [1] [1] [0] [1]) true None (inr x) w None = Some (inr q)
  /\ (forall i, inb (shape (t_zp x)) i -> at_ (t_zp x) i = 0%Q)
  /\ at_ (t_scale w) [0; 0; 0] = 1%Q /\ at_ (t_scale w) [1; 0; 0] = 2%Q /\ at_ (t_scale x) [] = 1%Q
  /\ inb (shape (t_value q)) [0; 1] /\ entry_of (t_scale q) [0; 1] s /\ Qeq s 2.
Proof.
  exists (QT (lst [1; 2] [3; 1]%Q) (lst [] [1%Q]) zt 8%Z true), (QT (lst [2; 1; 1] [1; 2]%Q) (lst [2; 1; 1] [1; 2]%Q) zt 8%Z true).
  do 2 eexists. split; [apply got; vm_compute; reflexivity|]. split; [reflexivity|]. do 3 (split; [reflexivity|]). split; [vm_compute; repeat constructor|].
  split; [apply entry_bindex; vm_compute; lia|]. vm_compute. reflexivity.
Qed.

(** * Examples *)
(** Input codes (3, -2) at scale 1/2 in a sequence of two rows, weight codes with scales 1 and 2. *)
Definition ex_x : qten := QT (lst [1; 2; 2] [3#2; -1; 1#2; 2]%Q) (lst [] [1#2]%Q) zt 8%Z true.
Definition ex_kx (idx : list nat) : Z := nth (GpxqProps.flat [1; 2; 2] idx) [3; -2; 1; 4]%Z 0%Z.
Definition ex_w : qten := QT (lst [2; 2] [1; 2; 6; -2]%Q) (lst [2; 1] [1; 2]%Q) zt 8%Z true.
Definition ex_kw (idx : list nat) : Z := nth (GpxqProps.flat [2; 2] idx) [1; 2; 3; -1]%Z 0%Z.
Definition ex_sw (c : nat) : Q := if c =? 0 then 1%Q else 2%Q.
Lemma inb_enum (P : list nat -> Prop) sh : Forall P (all_idx sh) -> forall i, inb sh i -> P i.
Proof. intros F i I. apply all_idx_inb in I. rewrite Forall_forall in F. auto. Qed.
Example C105_example : input_codes ex_x ex_kx (1 # 2) /\ weight_codes ex_w 0 2 ex_kw ex_sw
  /\ exists q, layer_forward (linear_op [1; 2] 2 2) true (Some 8%Z) (inr ex_x) ex_w (Some (lst [2] [1; -3]%Q)) = Some (inr q)
  /\ Qeq (at_ (t_value q) [0; 0; 0]) (1 # 2) /\ Qeq (at_ (t_value q) [0; 1; 1]) (-4)
  /\ acc (linear_op [1; 2] 2 2) ex_kx ex_kw [0; 1; 1] = (-1)%Z /\ acc (linear_op [1; 2] 2 2) ex_kx ex_kw [0; 0; 0] = (-1)%Z.
Proof.
  split; [|split].
  - split; [reflexivity|]. split; [exists 0; split; [cbn; lia|]; split; reflexivity|]. split; [intros i _; reflexivity|].
    apply inb_enum. repeat constructor.
  - split; [intros c _; unfold ex_sw; destruct (c =? 0); reflexivity|]. split.
    { left. exists 1. split; [reflexivity|]. intros [|[|c]] H; try reflexivity. lia. }
    split; [intros i _; reflexivity|]. apply inb_enum. repeat constructor.
  - eexists. split; [apply got; vm_compute; reflexivity|]. repeat split; vm_compute; reflexivity.
Qed.
(** A grouped convolution with padding and stride: 2 groups, kernel 2, stride 2, padding 1. *)
Definition ex_cx : qten := QT (lst [1; 2; 3] [1; 2; 3; 4; 5; 6]%Q) (lst [1; 1; 1] [1]%Q) zt 8%Z true.
Definition ex_ckx (idx : list nat) : Z := nth (GpxqProps.flat [1; 2; 3] idx) [1; 2; 3; 4; 5; 6]%Z 0%Z.
Definition ex_cw : qten := QT (lst [2; 1; 2] [1; 2; 2; -2]%Q) (lst [2; 1; 1] [1; 2]%Q) zt 8%Z true.
Definition ex_ckw (idx : list nat) : Z := nth (GpxqProps.flat [2; 1; 2] idx) [1; 2; 1; -1]%Z 0%Z.
Example C105_conv_example : let o := conv_op [1] 2 1 1 [3] [2] [2] [1] [1] in
  same_rank [3] [2] [2] [1] [1] /\ input_codes ex_cx ex_ckx 1 /\ weight_codes ex_cw 0 2 ex_ckw ex_sw
  /\ o_shape o = [1; 2; 2] /\ map (acc o ex_ckx ex_ckw) (all_idx [1; 2; 2]) = [2; 8; -4; -1]%Z
  /\ exists q, layer_forward o true (Some 8%Z) (inr ex_cx) ex_cw (Some (lst [2] [4; 6]%Q)) = Some (inr q)
  /\ Qeq (at_ (t_value q) [0; 1; 1]) 4 /\ Qeq (at_ (t_zp q) [0; 1; 0]) (-3).
Proof.
  intros o. split; [repeat split|]. split; [|split].
  - split; [reflexivity|]. split; [exists 3; split; [cbn; lia|]; split; reflexivity|]. split; [intros i _; reflexivity|].
    apply inb_enum. repeat constructor.
  - split; [intros c _; unfold ex_sw; destruct (c =? 0); reflexivity|]. split.
    { left. exists 2. split; [reflexivity|]. intros [|[|c]] H; try reflexivity. lia. }
    split; [intros i _; reflexivity|]. apply inb_enum. repeat constructor.
  - split; [reflexivity|]. split; [reflexivity|]. eexists. split; [apply got; vm_compute; reflexivity|]. split; vm_compute; reflexivity.
Qed.

Print Assumptions C105_linear.
Print Assumptions C105_linear_quant_bias.
Print Assumptions C105_linear_float_bias.
Print Assumptions C105_conv.
Print Assumptions C105_conv_quant_bias.
Print Assumptions C105_bit_width.
Print Assumptions C105_zero_point_blocks.
Print Assumptions C105_chained_convolutions_refuted.
Print Assumptions C105_linear_3d_refuted.
Print Assumptions C105_linear_1d_refuted.
Print Assumptions C105_unbatched_conv_refuted.
