(** C43 (strided 'same' padding). *)
From Verif Require Import SamePad.
From Coq Require Import Reals List Bool ZArith Lia.
Import ListNotations.
Open Scope Z_scope.

(** Independent specification: the input extended by zeros on all of Z^n. *)
Definition ext (sizes : list Z) (x : idx -> R) (i : idx) : R := if in_range sizes i then x i else 0%R.
(** Output [o] is the correlation at input position [o * stride - left], [left] is half the
    total padding rounded down. *)
Definition spec_at (dims : list dim) (x w : idx -> R) (o : idx) : R :=
  Rsum (map (fun kk => (w kk * ext (map n dims) x
     (zip (fun a e => (a - pad e / 2)%Z) (zip Z.add (zip (fun a e => (a * s e)%Z) o dims) (zip (fun b e => (b * d e)%Z) kk dims)) dims))%R) (box (map k dims))).

Definition valid (e : dim) : Prop := 1 <= n e /\ 1 <= k e /\ 1 <= s e /\ 1 <= d e.

Lemma ceil_bounds a b : 1 <= b -> 1 <= a -> (ceil_div a b - 1) * b < a <= ceil_div a b * b /\ 1 <= ceil_div a b.
Proof.
  intros Hb Ha. unfold ceil_div. pose proof (Z.div_mod (- a) b ltac:(lia)) as E. pose proof (Z.mod_pos_bound (- a) b ltac:(lia)).
  set (q := (- a) / b) in *. split; [nia|]. nia.
Qed.

(** Size arithmetic of one dimension. *)
Lemma size_padded e : valid e -> (k e - 1) * d e + 1 <= n e + pad e
  /\ (n e + pad e - (k e - 1) * d e - 1) / s e + 1 = ceil_div (n e) (s e).
Proof.
  intros (Hn & Hk & Hs & Hd). destruct (ceil_bounds (n e) (s e) Hs Hn) as [[B1 B2] B3].
  assert (0 <= (k e - 1) * d e) by nia. unfold pad. set (o := ceil_div (n e) (s e)) in *. split; [nia|].
  destruct (Z.max_spec ((o - 1) * s e + (k e - 1) * d e + 1 - n e) 0) as [[L ->]|[L ->]].
  - assert (E : (n e + 0 - (k e - 1) * d e - 1) / s e = o - 1); [|lia].
    symmetry. apply Z.div_unique with (r := (n e + 0 - (k e - 1) * d e - 1) - s e * (o - 1)); [left; nia|ring].
  - replace (n e + ((o - 1) * s e + (k e - 1) * d e + 1 - n e) - (k e - 1) * d e - 1) with ((o - 1) * s e) by ring.
    rewrite Z.div_mul by lia. lia.
Qed.

Lemma zip_map_l {A B C D} (f : A -> B -> C) (g : D -> A) l m : zip f (map g l) m = zip (fun a b => f (g a) b) l m.
Proof. revert m. induction l as [|a l IH]; intros [|b m]; cbn; [reflexivity..|]. rewrite IH. reflexivity. Qed.
Lemma zip_map_r {A B C D} (f : A -> B -> C) (g : D -> B) l m : zip f l (map g m) = zip (fun a b => f a (g b)) l m.
Proof. revert m. induction l as [|a l IH]; intros [|b m]; cbn; [reflexivity..|]. rewrite IH. reflexivity. Qed.
Lemma zip_self {A C} (f : A -> A -> C) l : zip f l l = map (fun a => f a a) l.
Proof. induction l as [|a l IH]; cbn; [reflexivity|]. rewrite IH. reflexivity. Qed.
Lemma zip_ext {A B C} (f g : A -> B -> C) l m : (forall a b, In b m -> f a b = g a b) -> zip f l m = zip g l m.
Proof. revert m. induction l as [|a l IH]; intros [|b m] H; cbn; [reflexivity..|]. rewrite H, IH by (cbn; auto; intros; apply H; cbn; auto). reflexivity. Qed.
Lemma zip_id {A B} (l : list A) (m : list B) : (length l <= length m)%nat -> zip (fun a _ => a) l m = l.
Proof. revert m. induction l as [|a l IH]; intros [|b m] H; cbn in *; try lia; [reflexivity..|]. rewrite IH by lia. reflexivity. Qed.
Lemma zip_length {A B C} (f : A -> B -> C) l m : length (zip f l m) = Nat.min (length l) (length m).
Proof. revert m. induction l as [|a l IH]; intros [|b m]; cbn; auto. Qed.

Lemma box_length sizes : forall i, In i (box sizes) -> length i = length sizes.
Proof.
  induction sizes as [|m sizes IH]; cbn [box]; intros i H; [destruct H as [<-|[]]; reflexivity|].
  apply in_flat_map in H. destruct H as (a & _ & H). apply in_map_iff in H. destruct H as (j & <- & H). cbn. rewrite (IH j H). reflexivity.
Qed.

(** In-range condition: an unpadded read of a valid output position is inside the input. *)
Lemma reads_in_range dims : Forall valid dims -> forall o kk,
  in_range (map (fun e => ceil_div (n e) (s e)) dims) o = true -> In kk (box (map k dims)) ->
  Forall (fun e => pad e = 0) dims ->
  in_range (map n dims) (zip Z.add (zip (fun a e => a * s e) o dims) (zip (fun b e => b * d e) kk dims)) = true.
Proof.
  induction 1 as [|e dims He Hd IH]; intros o kk Ho Hk Hp; cbn [map in_range box] in *.
  - destruct o; [|discriminate]. destruct Hk as [<-|[]]. reflexivity.
  - destruct o as [|a o]; [discriminate|]. apply andb_prop in Ho. destruct Ho as [Ho Ho']. apply andb_prop in Ho. destruct Ho as [O1 O2].
    apply in_flat_map in Hk. destruct Hk as (b & Hb & Hk). apply in_map_iff in Hk. destruct Hk as (kk' & <- & Hk).
    apply in_seq in Hb. inversion_clear Hp as [|? ? P0 Hp']. cbn [zip in_range].
    rewrite (IH o kk' Ho' Hk Hp'), andb_true_r. apply Z.leb_le in O1. apply Z.ltb_lt in O2.
    destruct He as (Hn & Hk0 & Hs & Hdil). destruct (ceil_bounds (n e) (s e) Hs Hn) as [[B1 B2] B3].
    unfold pad in P0. assert (Q : (ceil_div (n e) (s e) - 1) * s e + (k e - 1) * d e + 1 - n e <= 0) by lia.
    assert (0 <= Z.of_nat b <= k e - 1) by lia.
    apply andb_true_intro. split; [apply Z.leb_le; nia|apply Z.ltb_lt; nia].
Qed.

(** General statement: whenever skipping the padding is harmless (every dimension left out of
    the test needs no padding by itself), the result has ceil(n / stride) elements per dimension
    and each is the zero-extended correlation. *)
Lemma same_conv_ok checked dims x w : Forall valid dims -> length checked = length dims ->
  (existsb (fun b => b) (zip (fun c e => c && (0 <? pad e)) checked dims) = false -> Forall (fun e => pad e = 0) dims) ->
  exists y, same_conv checked dims x w = Some (map (fun e => ceil_div (n e) (s e)) dims, y)
  /\ forall o, in_range (map (fun e => ceil_div (n e) (s e)) dims) o = true -> y o = spec_at dims x w o.
Proof.
  intros HV HL HC. unfold same_conv.
  destruct (existsb (fun b => b) (zip (fun c e => c && (0 <? pad e)) checked dims)) eqn:E.
  - unfold F_pad. rewrite zip_map_r, zip_map_l, zip_self. cbn [fst snd]. unfold conv.
    rewrite !zip_map_l, !zip_self.
    assert (G : forallb (fun b => b) (map (fun a => (k a - 1) * d a + 1 <=? n a + pad a / 2 + (pad a - pad a / 2)) dims) = true).
    { apply forallb_forall. intros b Hb. apply in_map_iff in Hb. destruct Hb as (e & <- & He). apply Z.leb_le.
      rewrite Forall_forall in HV. destruct (size_padded e (HV e He)). lia. }
    rewrite G. eexists. split.
    + match goal with |- Some (?a, _) = Some (?b, _) => assert (EQ : a = b) end.
      { apply map_ext_in. intros e He. rewrite Forall_forall in HV. destruct (size_padded e (HV e He)) as [_ S2].
        rewrite <- S2. f_equal. f_equal. lia. }
      rewrite EQ. reflexivity.
    + intros o Ho. unfold spec_at. f_equal. apply map_ext_in. intros kk Hk. f_equal. unfold ext. cbv zeta. rewrite zip_map_r. reflexivity.
  - specialize (HC eq_refl). unfold conv. rewrite !zip_map_l, !zip_self.
    assert (SZ : forall e, In e dims -> (k e - 1) * d e + 1 <= n e /\ (n e - (k e - 1) * d e - 1) / s e + 1 = ceil_div (n e) (s e)).
    { intros e He. rewrite Forall_forall in HV, HC. pose proof (HC e He) as Z0. pose proof (size_padded e (HV e He)) as S2.
      rewrite Z0 in S2. rewrite !Z.add_0_r in S2. exact S2. }
    assert (G : forallb (fun b => b) (map (fun a => (k a - 1) * d a + 1 <=? n a) dims) = true).
    { apply forallb_forall. intros b Hb. apply in_map_iff in Hb. destruct Hb as (e & <- & He). apply Z.leb_le. apply SZ. exact He. }
    rewrite G. eexists. split.
    + match goal with |- Some (?a, _) = Some (?b, _) => assert (EQ : a = b) end.
      { apply map_ext_in. intros e He. apply SZ. exact He. }
      rewrite EQ. reflexivity.
    + intros o Ho. unfold spec_at. f_equal. apply map_ext_in. intros kk Hk. f_equal.
      set (q := zip Z.add _ _).
      assert (Q : zip (fun a e => a - pad e / 2) q dims = q).
      { rewrite (zip_ext (fun a e => a - pad e / 2) (fun a _ => a)).
        - apply zip_id. unfold q. rewrite !zip_length. lia.
        - intros a b Hb. rewrite Forall_forall in HC. rewrite (HC b Hb). cbn. lia. }
      rewrite Q. unfold ext, q. rewrite (reads_in_range dims HV o kk Ho Hk HC). reflexivity.
Qed.

Lemma pad_nonneg e : 0 <= pad e.
Proof. unfold pad. lia. Qed.

Lemma all_checked dims : existsb (fun b => b) (zip (fun c e => c && (0 <? pad e)) (map (fun _ => true) dims) dims) = false -> Forall (fun e => pad e = 0) dims.
Proof.
  induction dims as [|e dims IH]; intros H; [constructor|]. cbn [map zip existsb andb] in H. apply orb_false_elim in H. destruct H as [H1 H2].
  constructor; [|apply IH; exact H2]. apply Z.ltb_ge in H1. pose proof (pad_nonneg e). lia.
Qed.

Theorem C43_conv1d : forall a x w, valid a ->
  exists y, conv1d_same a x w = Some ([ceil_div (n a) (s a)], y)
  /\ forall o, 0 <= o < ceil_div (n a) (s a) -> y [o] = spec_at [a] x w [o].
Proof.
  intros a x w Ha. destruct (same_conv_ok [true] [a] x w) as (y & E & S); [repeat constructor; exact (proj1 Ha) || apply Ha|reflexivity|apply (all_checked [a])|].
  exists y. split; [exact E|]. intros o Ho. apply S. cbn. rewrite andb_true_r. apply andb_true_intro. split; [apply Z.leb_le|apply Z.ltb_lt]; lia.
Qed.

Theorem C43_conv2d : forall a b x w, valid a -> valid b ->
  exists y, conv2d_same a b x w = Some ([ceil_div (n a) (s a); ceil_div (n b) (s b)], y)
  /\ forall o p, 0 <= o < ceil_div (n a) (s a) -> 0 <= p < ceil_div (n b) (s b) -> y [o; p] = spec_at [a; b] x w [o; p].
Proof.
  intros a b x w Ha Hb. destruct (same_conv_ok [true; true] [a; b] x w) as (y & E & S);
    [constructor; [exact Ha|constructor; [exact Hb|constructor]]|reflexivity|apply (all_checked [a; b])|].
  exists y. split; [exact E|]. intros o p Ho Hp. apply S. cbn. rewrite andb_true_r.
  repeat (apply andb_true_intro; split); [apply Z.leb_le|apply Z.ltb_lt|apply Z.leb_le|apply Z.ltb_lt]; lia.
Qed.

(** The 3-D version: correct when height or width needs padding, or depth does not. *)
Theorem C43_conv3d_partial : forall a b c x w, valid a -> valid b -> valid c ->
  pad a = 0 \/ 0 < pad b \/ 0 < pad c ->
  exists y, conv3d_same a b c x w = Some ([ceil_div (n a) (s a); ceil_div (n b) (s b); ceil_div (n c) (s c)], y)
  /\ forall o p q, 0 <= o < ceil_div (n a) (s a) -> 0 <= p < ceil_div (n b) (s b) -> 0 <= q < ceil_div (n c) (s c) ->
     y [o; p; q] = spec_at [a; b; c] x w [o; p; q].
Proof.
  intros a b c x w Ha Hb Hc HP. destruct (same_conv_ok [false; true; true] [a; b; c] x w) as (y & E & S).
  - constructor; [exact Ha|constructor; [exact Hb|constructor; [exact Hc|constructor]]].
  - reflexivity.
  - cbn [zip existsb andb orb]. rewrite orb_false_r. intros E. apply orb_false_elim in E. destruct E as [E1 E2].
    apply Z.ltb_ge in E1, E2. pose proof (pad_nonneg b). pose proof (pad_nonneg c).
    repeat constructor; lia.
  - exists y. split; [exact E|]. intros o p q Ho Hp Hq. apply S. cbn. rewrite andb_true_r.
    repeat (apply andb_true_intro; split); [apply Z.leb_le|apply Z.ltb_lt|apply Z.leb_le|apply Z.ltb_lt|apply Z.leb_le|apply Z.ltb_lt]; lia.
Qed.

(** The padding at the end exceeds that at the start by at most one. *)
Theorem C43_split : forall e, 0 <= (pad e - pad e / 2) - pad e / 2 <= 1.
Proof. intros e. pose proof (Z.div_mod (pad e) 2 ltac:(lia)). pose proof (Z.mod_pos_bound (pad e) 2 ltac:(lia)). lia. Qed.

(** When only the depth needs padding none is applied: too few outputs, or an error. *)
Theorem C43_conv3d_refuted : exists a b c, valid a /\ valid b /\ valid c /\
  (forall x w, exists y, conv3d_same a b c x w = Some ([1; 4; 4], y)) /\ ceil_div (n a) (s a) = 2.
Proof.
  exists (D 4 3 2 1), (D 4 1 1 1), (D 4 1 1 1). split; [unfold valid; cbn; lia|]. split; [unfold valid; cbn; lia|]. split; [unfold valid; cbn; lia|].
  split; [intros x w; eexists; reflexivity|reflexivity].
Qed.
Theorem C43_conv3d_error_refuted : exists a b c, valid a /\ valid b /\ valid c /\ forall x w, conv3d_same a b c x w = None.
Proof.
  exists (D 2 3 2 1), (D 4 1 1 1), (D 4 1 1 1). split; [unfold valid; cbn; lia|]. split; [unfold valid; cbn; lia|]. split; [unfold valid; cbn; lia|].
  reflexivity.
Qed.

Example C43_example : valid (D 5 3 2 1) /\ pad (D 5 3 2 1) = 2 /\ ceil_div 5 2 = 3.
Proof. repeat split; cbn; lia. Qed.
Example C43_example_odd : pad (D 4 3 2 1) = 1 /\ pad (D 4 3 2 1) / 2 = 0.
Proof. split; reflexivity. Qed.

(** The output size is the least number of strides covering the input... *)
Theorem C43_ceil : forall e m, valid e -> (n e <= m * s e <-> ceil_div (n e) (s e) <= m).
Proof. intros e m (Hn & Hk & Hs & Hd). destruct (ceil_bounds (n e) (s e) Hs Hn) as [[B1 B2] B3]. split; intros H; nia. Qed.

(** ...and the total padding is the least one with which that many outputs fit. *)
Theorem C43_minimal : forall e t, valid e -> 0 <= t ->
  (pad e <= t <-> (ceil_div (n e) (s e) - 1) * s e + (k e - 1) * d e < n e + t).
Proof. intros e t V Ht. unfold pad. lia. Qed.

Print Assumptions C43_ceil.
Print Assumptions C43_minimal.
Print Assumptions C43_conv1d.
Print Assumptions C43_conv2d.
Print Assumptions C43_conv3d_partial.
Print Assumptions C43_split.
Print Assumptions C43_conv3d_refuted.
Print Assumptions C43_conv3d_error_refuted.
