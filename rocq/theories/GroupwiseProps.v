(** C30 and C31: group-wise quantization. *)
From Verif Require Import QUtil Ops IntQuant Groupwise.
Open Scope Q_scope.

(** Index tuples inside a shape. *)
Definition in_box (sh idx : list Z) : Prop := Forall2 (fun d i => (0 <= i < d)%Z) sh idx.

Lemma F2_len {A B} (R : A -> B -> Prop) l m : Forall2 R l m -> length l = length m.
Proof. induction 1; cbn [length]; congruence. Qed.

(** ** List lemmas *)
Lemma nth_set_nth {A} (i k : nat) (a d : A) l :
  nth k (set_nth i a l) d = if Nat.eqb k i && Nat.ltb i (length l) then a else nth k l d.
Proof.
  revert i k. induction l as [|b l IH]; intros i k; cbn [set_nth length].
  - destruct i; cbn; rewrite Bool.andb_false_r; reflexivity.
  - destruct i as [|i], k as [|k]; cbn [set_nth length nth]; try reflexivity. rewrite IH. reflexivity.
Qed.

Lemma set_nth_length {A} i (a : A) l : length (set_nth i a l) = length l.
Proof. revert i. induction l as [|b l IH]; intros [|i]; cbn; auto. Qed.

Lemma set_nth_app {A} pre (a b : A) post : set_nth (length pre) a (pre ++ b :: post) = pre ++ a :: post.
Proof. induction pre as [|c pre IH]; cbn; [reflexivity|]. rewrite IH. reflexivity. Qed.

Lemma nth_app_mid {A} pre (a d : A) post : nth (length pre) (pre ++ a :: post) d = a.
Proof. rewrite app_nth2 by lia. rewrite Nat.sub_diag. reflexivity. Qed.

Lemma firstn_app_mid {A} (pre post : list A) : firstn (length pre) (pre ++ post) = pre.
Proof. rewrite firstn_app, Nat.sub_diag, firstn_all. cbn. apply app_nil_r. Qed.

Lemma skipn_app_mid {A} (pre post : list A) : skipn (length pre) (pre ++ post) = post.
Proof. rewrite skipn_app, Nat.sub_diag, skipn_all. reflexivity. Qed.

Lemma list_eq_nth (l m : list Z) : length l = length m -> (forall j, (j < length l)%nat -> nth j l 0%Z = nth j m 0%Z) -> l = m.
Proof. intros H1 H2. apply (nth_ext _ _ 0%Z 0%Z); assumption. Qed.

Lemma map_seq_nth (f : nat -> Z) n j : (j < n)%nat -> nth j (map f (seq 0 n)) 0%Z = f j.
Proof.
  intros H. rewrite (nth_indep _ 0%Z (f 0%nat)) by (rewrite map_length, seq_length; exact H).
  rewrite map_nth, seq_nth by exact H. reflexivity.
Qed.

(** ** Row-major arithmetic *)
Lemma prodZ_app a b : prodZ (a ++ b) = (prodZ a * prodZ b)%Z.
Proof. induction a as [|x a IH]; cbn [app prodZ]; [lia|]. rewrite IH. lia. Qed.

Lemma prodZ_pos sh idx : in_box sh idx -> (1 <= prodZ sh)%Z.
Proof. induction 1; cbn [prodZ]; [lia|nia]. Qed.

Lemma flat_bound sh idx : in_box sh idx -> (0 <= flat sh idx < prodZ sh)%Z.
Proof.
  induction 1 as [|d i sh idx Hi F IH]; cbn [flat prodZ]; [lia|]. nia.
Qed.

Lemma unflat_flat sh idx : in_box sh idx -> unflat sh (flat sh idx) = idx.
Proof.
  induction 1 as [|d i sh idx Hi F IH]; cbn [flat unflat]; [reflexivity|].
  pose proof (flat_bound sh idx F) as B.
  rewrite Z.div_add_l by lia. rewrite Z.div_small by exact B.
  rewrite (Z.add_comm (i * _)), Z_mod_plus_full, Z.mod_small by exact B.
  rewrite IH, Z.add_0_r. reflexivity.
Qed.

Lemma flat_split pre ip n1 g post q r iq : length pre = length ip ->
  flat (pre ++ n1 :: g :: post) (ip ++ q :: r :: iq) = flat (pre ++ (n1 * g)%Z :: post) (ip ++ (q * g + r)%Z :: iq).
Proof.
  revert ip. induction pre as [|d pre IH]; intros [|i ip] L; cbn [length] in L; try discriminate.
  - cbn [app flat prodZ]. lia.
  - cbn [app flat]. rewrite (IH ip) by lia. rewrite !prodZ_app. cbn [prodZ]. f_equal. f_equal. lia.
Qed.

Lemma in_box_app pre ip a p post iq : in_box pre ip -> (0 <= p < a)%Z -> in_box post iq ->
  in_box (pre ++ a :: post) (ip ++ p :: iq).
Proof. intros H1 Hp H2. apply Forall2_app; [exact H1|]. constructor; assumption. Qed.

(** ** Padding *)
Definition pad_amount (N g : Z) : Z := if (N mod g =? 0)%Z then 0%Z else (g - N mod g)%Z.

Lemma pad_spec N g : (1 <= g)%Z -> (0 <= N)%Z ->
  (0 <= pad_amount N g < g)%Z /\ ((N + pad_amount N g) mod g = 0)%Z
  /\ (N + pad_amount N g = (N + g - 1) / g * g)%Z.
Proof.
  intros Hg HN. unfold pad_amount. pose proof (Z.mod_pos_bound N g ltac:(lia)) as M.
  pose proof (Z.div_mod N g ltac:(lia)) as D.
  destruct (Z.eqb_spec (N mod g) 0) as [E|E].
  - repeat split; try lia; [rewrite Z.add_0_r; exact E|].
    assert (Q1 : ((N + g - 1) / g = N / g)%Z).
    { symmetry. apply Z.div_unique with (g - 1)%Z; lia. }
    rewrite Q1. lia.
  - assert (Q1 : ((N + g - 1) / g = N / g + 1)%Z).
    { symmetry. apply Z.div_unique with (N mod g - 1)%Z; lia. }
    rewrite Q1. repeat split; try lia.
    replace (N + (g - N mod g))%Z with ((N / g + 1) * g)%Z by lia. apply Z_mod_mult.
Qed.

Lemma padding_entries sh g gd N pre post j :
  sh = pre ++ N :: post -> (gd = Z.of_nat (length pre) \/ (gd = -1 /\ post = [])%Z) -> (j < length sh)%nat ->
  pad_left (padding sh g gd) (length sh) j = 0%Z
  /\ pad_right (padding sh g gd) (length sh) j = if Nat.eqb j (length pre) then pad_amount N g else 0%Z.
Proof.
  intros Es Hgd Hj. set (n := length sh) in *.
  assert (Ln : n = (length pre + S (length post))%nat).
  { unfold n. rewrite Es, app_length. cbn [length]. lia. }
  assert (Pg : py_pos n gd = length pre).
  { unfold py_pos. destruct Hgd as [->|[-> ->]].
    - rewrite (proj2 (Z.ltb_ge _ _)) by lia. lia.
    - cbn [Z.ltb Z.compare]. cbn [length] in Ln. lia. }
  assert (P2 : py_pos (2 * n) (2 * gd) = (2 * length pre)%nat).
  { unfold py_pos. destruct Hgd as [->|[-> ->]].
    - rewrite (proj2 (Z.ltb_ge _ _)) by lia. lia.
    - replace (2 * -1)%Z with (-2)%Z by lia. cbn [Z.ltb Z.compare]. cbn [length] in Ln. lia. }
  assert (Gn : py_get sh gd = N).
  { unfold py_get. fold n. rewrite Pg, Es. apply nth_app_mid. }
  assert (R0 : forall k, nth k (repeat 0%Z (2 * n)) 0%Z = 0%Z).
  { intros k. destruct (Nat.lt_ge_cases k (2 * n)) as [L|L]; [apply nth_repeat|].
    apply nth_overflow. rewrite repeat_length. exact L. }
  unfold padding. fold n. rewrite Gn.
  set (p := if (N mod g =? 0)%Z then repeat 0%Z (2 * n) else py_set (repeat 0%Z (2 * n)) (2 * gd) (g - N mod g)).
  assert (Lp : length p = (2 * n)%nat).
  { unfold p. destruct (N mod g =? 0)%Z; [apply repeat_length|]. unfold py_set. rewrite set_nth_length. apply repeat_length. }
  assert (Np : forall k, nth k p 0%Z = if Nat.eqb k (2 * length pre) then pad_amount N g else 0%Z).
  { intros k. unfold p, pad_amount. destruct (N mod g =? 0)%Z.
    - rewrite R0. destruct (Nat.eqb k (2 * length pre)); reflexivity.
    - unfold py_set. rewrite nth_set_nth, repeat_length, P2, R0.
      rewrite (proj2 (Nat.ltb_lt (2 * length pre) (2 * n))) by lia. rewrite Bool.andb_true_r. reflexivity. }
  clearbody p. unfold pad_left, pad_right. rewrite !rev_nth by lia. rewrite Lp, !Np. split.
  - replace (Nat.eqb _ _) with false; [reflexivity|]. symmetry. apply Nat.eqb_neq. lia.
  - destruct (Nat.eqb_spec j (length pre)) as [->|Nj].
    + replace (Nat.eqb _ _) with true; [reflexivity|]. symmetry. apply Nat.eqb_eq. lia.
    + replace (Nat.eqb _ _) with false; [reflexivity|]. symmetry. apply Nat.eqb_neq. lia.
Qed.

Lemma f_pad_spec x g gd N pre post :
  shape x = pre ++ N :: post -> (gd = Z.of_nat (length pre) \/ (gd = -1 /\ post = [])%Z) ->
  shape (f_pad x (padding (shape x) g gd)) = pre ++ (N + pad_amount N g)%Z :: post
  /\ forall ip p iq, in_box pre ip -> (0 <= p)%Z -> in_box post iq ->
      at_ (f_pad x (padding (shape x) g gd)) (ip ++ p :: iq)
      = if (p <? N)%Z then at_ x (ip ++ p :: iq) else 0.
Proof.
  intros Es Hgd.
  pose proof (fun j H => padding_entries (shape x) g gd N pre post j Es Hgd H) as E.
  set (pad := padding (shape x) g gd) in *. clearbody pad.
  set (n := length (shape x)) in *.
  assert (Ln : n = (length pre + S (length post))%nat).
  { unfold n. rewrite Es, app_length. cbn [length]. lia. }
  unfold f_pad. cbn [shape at_]. fold n. split.
  - apply list_eq_nth.
    + rewrite map_length, seq_length, app_length. cbn [length]. lia.
    + intros j Hj. rewrite map_length, seq_length in Hj. rewrite map_seq_nth by exact Hj.
      destruct (E j Hj) as [-> ->]. rewrite Es.
      destruct (Nat.eqb_spec j (length pre)) as [->|Nj].
      * rewrite !nth_app_mid. lia.
      * destruct (Nat.lt_ge_cases j (length pre)) as [L|L].
        -- rewrite !app_nth1 by exact L. lia.
        -- rewrite !app_nth2 by exact L. destruct (j - length pre)%nat as [|k] eqn:Ek; [lia|]. cbn [nth]. lia.
  - intros ip p iq Hip Hp Hiq. set (idx := ip ++ p :: iq).
    assert (Lip : length pre = length ip) by (apply (F2_len _ _ _ Hip)).
    assert (Liq : length post = length iq) by (apply (F2_len _ _ _ Hiq)).
    assert (Li : length idx = n) by (unfold idx; rewrite app_length; cbn [length]; lia).
    assert (S : map (fun j => (nth j idx 0 - pad_left pad n j)%Z) (seq 0 n) = idx).
    { apply list_eq_nth; [rewrite map_length, seq_length; lia|].
      intros j Hj. rewrite map_length, seq_length in Hj. rewrite map_seq_nth by exact Hj.
      destruct (E j Hj) as [-> _]. lia. }
    rewrite S. destruct (Z.ltb_spec p N) as [L|L].
    + match goal with |- (if ?c then _ else _) = _ => replace c with true; [reflexivity|] end.
      symmetry. apply forallb_forall. intros j Hj. apply in_seq in Hj.
      assert (B : in_box (shape x) idx) by (rewrite Es; apply in_box_app; [exact Hip|lia|exact Hiq]).
      assert (Bj : (0 <= nth j idx 0 < nth j (shape x) 0)%Z).
      { assert (Hj' : (j < length (shape x))%nat) by (unfold n in Hj; lia). clear -B Hj'.
        revert j Hj'. induction B as [|d i sh ix Hi F IH]; intros j Hj'; cbn [length] in Hj'; [lia|].
        destruct j as [|j]; cbn [nth]; [exact Hi|]. apply IH. lia. }
      rewrite (proj2 (Z.leb_le _ _)) by lia. rewrite (proj2 (Z.ltb_lt _ _)) by lia. reflexivity.
    + match goal with |- (if ?c then _ else _) = _ => replace c with false; [reflexivity|] end.
      symmetry. apply not_true_iff_false. intros C. rewrite forallb_forall in C.
      specialize (C (length pre)). rewrite Es in C. unfold idx in C.
      assert (Np : nth (length pre) (ip ++ p :: iq) 0%Z = p) by (rewrite Lip; apply nth_app_mid).
      rewrite Np, nth_app_mid in C.
      assert (In (length pre) (seq 0 n)) as I by (apply in_seq; lia).
      specialize (C I). apply andb_prop in C. destruct C as [_ C]. apply Z.ltb_lt in C. lia.
Qed.

(** ** Views *)
Lemma view_split x pre n1 b post : shape x = pre ++ (n1 * b)%Z :: post ->
  exists v, view x (pre ++ n1 :: b :: post) = Some v /\ shape v = pre ++ n1 :: b :: post
    /\ forall ip q r iq, in_box pre ip -> (0 <= q < n1)%Z -> (0 <= r < b)%Z -> in_box post iq ->
        at_ v (ip ++ q :: r :: iq) = at_ x (ip ++ (q * b + r)%Z :: iq).
Proof.
  intros Es. unfold view. rewrite Es.
  rewrite (proj2 (Z.eqb_eq _ _)) by (rewrite !prodZ_app; cbn [prodZ]; lia).
  eexists. split; [reflexivity|]. split; [reflexivity|].
  intros ip q r iq H1 Hq Hr H2. cbn [at_].
  rewrite flat_split by (apply (F2_len _ _ _ H1)).
  rewrite unflat_flat; [reflexivity|]. apply in_box_app; [exact H1| |exact H2]. nia.
Qed.

Lemma flatten2_spec v d pre n1 b post : shape v = pre ++ n1 :: b :: post ->
  py_pos (length (shape v)) d = length pre ->
  exists y, flatten2 v d = Some y /\ shape y = pre ++ (n1 * b)%Z :: post
    /\ forall ip p iq, in_box pre ip -> (0 <= p < n1 * b)%Z -> (0 < b)%Z -> in_box post iq ->
        at_ y (ip ++ p :: iq) = at_ v (ip ++ (p / b)%Z :: (p mod b)%Z :: iq).
Proof.
  intros Es Hd. unfold flatten2. rewrite Hd, Es.
  assert (N1 : nth (length pre) (pre ++ n1 :: b :: post) 1%Z = n1) by apply nth_app_mid.
  assert (N2 : nth (S (length pre)) (pre ++ n1 :: b :: post) 1%Z = b).
  { rewrite app_nth2 by lia. replace (S (length pre) - length pre)%nat with 1%nat by lia. reflexivity. }
  assert (N3 : skipn (S (S (length pre))) (pre ++ n1 :: b :: post) = post).
  { rewrite skipn_app. rewrite skipn_all2 by lia.
    replace (S (S (length pre)) - length pre)%nat with 2%nat by lia. reflexivity. }
  rewrite N1, N2, N3, firstn_app_mid. unfold view. rewrite Es.
  rewrite (proj2 (Z.eqb_eq _ _)) by (rewrite !prodZ_app; cbn [prodZ]; lia).
  eexists. split; [reflexivity|]. split; [reflexivity|].
  intros ip p iq H1 Hp Hb H2. cbn [at_].
  pose proof (Z.div_mod p b ltac:(lia)) as D. pose proof (Z.mod_pos_bound p b Hb) as M.
  assert (Q1 : (0 <= p / b < n1)%Z) by (split; [apply Z.div_pos; lia|apply Z.div_lt_upper_bound; lia]).
  replace (flat (pre ++ (n1 * b)%Z :: post) (ip ++ p :: iq))
    with (flat (pre ++ n1 :: b :: post) (ip ++ (p / b)%Z :: (p mod b)%Z :: iq)).
  - rewrite unflat_flat; [reflexivity|].
    apply Forall2_app; [exact H1|]. constructor; [exact Q1|]. constructor; [exact M|exact H2].
  - rewrite flat_split by (apply (F2_len _ _ _ H1)). f_equal. f_equal. f_equal. lia.
Qed.

(** The element at position [q*b + r] of the grouped dimension, zero in the padding. *)
Definition elem (x : tens) (N : Z) (ip iq : list Z) (p : Z) : Q :=
  if (p <? N)%Z then at_ x (ip ++ p :: iq) else 0.
(** Specification: the members of the block of [b] consecutive positions containing [p]. *)
Definition block (x : tens) (N b : Z) (ip iq : list Z) (p : Z) : list Q :=
  map (fun r => elem x N ip iq (p / b * b + Z.of_nat r)%Z) (seq 0 (Z.to_nat b)).

(** Statistics, quantization and expansion of a blocked tensor. *)
Lemma blocked_pipeline stat q x N v pre n1 b post rd gd :
  (1 <= b)%Z -> shape v = pre ++ n1 :: b :: post ->
  (forall ip a r iq, in_box pre ip -> (0 <= a < n1)%Z -> (0 <= r < b)%Z -> in_box post iq ->
     at_ v (ip ++ a :: r :: iq) = elem x N ip iq (a * b + r)) ->
  py_pos (length (shape v)) rd = S (length pre) ->
  py_pos (length (shape v)) (expand_start gd) = length pre ->
  exists value scale,
    obind (gw_expand gd (quantize_view q (reduce_keepdim stat rd v) v)) (fun value =>
    obind (gw_expand gd (T (shape v) (at_ (reduce_keepdim stat rd v)))) (fun sc => Some (value, sc))) = Some (value, scale)
    /\ shape value = pre ++ (n1 * b)%Z :: post /\ shape scale = shape value
    /\ forall ip p iq, in_box pre ip -> (0 <= p < n1 * b)%Z -> in_box post iq ->
        at_ scale (ip ++ p :: iq) = stat (block x N b ip iq p)
        /\ at_ value (ip ++ p :: iq) = q (stat (block x N b ip iq p)) (elem x N ip iq p).
Proof.
  intros Hb Es Hv Hrd Hgd.
  set (sc := reduce_keepdim stat rd v).
  assert (Hsc : forall ip a r iq, in_box pre ip -> (0 <= a < n1)%Z -> (0 <= r < b)%Z -> in_box post iq ->
     at_ sc (ip ++ a :: r :: iq) = stat (map (fun r => elem x N ip iq (a * b + Z.of_nat r)%Z) (seq 0 (Z.to_nat b)))).
  { intros ip a r iq H1 Ha Hr H2. unfold sc, reduce_keepdim. cbn [at_]. rewrite Hrd.
    assert (Nb : nth (S (length pre)) (shape v) 0%Z = b).
    { rewrite Es, app_nth2 by lia. replace (S (length pre) - length pre)%nat with 1%nat by lia. reflexivity. }
    rewrite Nb. f_equal. apply map_ext_in. intros k Hk. apply in_seq in Hk.
    assert (Sx : set_nth (S (length pre)) (Z.of_nat k) (ip ++ a :: r :: iq) = ip ++ a :: Z.of_nat k :: iq).
    { replace (S (length pre)) with (length (ip ++ [a])) by (rewrite app_length, <- (F2_len _ _ _ H1); cbn; lia).
      replace (ip ++ a :: r :: iq) with ((ip ++ [a]) ++ r :: iq) by (rewrite <- app_assoc; reflexivity).
      rewrite set_nth_app, <- app_assoc. reflexivity. }
    rewrite Sx. apply Hv; try assumption. lia. }
  clearbody sc.
  destruct (flatten2_spec (quantize_view q sc v) (expand_start gd) pre n1 b post Es Hgd) as (y & E1 & S1 & V1).
  destruct (flatten2_spec (T (shape v) (at_ sc)) (expand_start gd) pre n1 b post Es Hgd) as (z & E2 & S2 & V2).
  exists y, z. unfold gw_expand. rewrite E1. cbn [obind]. rewrite E2. cbn [obind].
  split; [reflexivity|]. split; [exact S1|]. split; [congruence|].
  intros ip p iq H1 Hp H2. rewrite V1, V2 by (try assumption; lia). cbn [quantize_view at_].
  pose proof (Z.div_mod p b ltac:(lia)) as D. pose proof (Z.mod_pos_bound p b ltac:(lia)) as M.
  assert (Q1 : (0 <= p / b < n1)%Z) by (split; [apply Z.div_pos; lia|apply Z.div_lt_upper_bound; lia]).
  rewrite Hsc, Hv by (try assumption; lia).
  replace (p / b * b + p mod b)%Z with p by lia. split; reflexivity.
Qed.

(** ** C30 *)

(** Group-wise weight quantization: each element is quantized with the statistic of its own
    group of exactly [g] consecutive elements (zero padded), and the padded size is the next
    multiple of the group size. *)
Theorem C30_weight_groups : forall stat q g w pre N post,
  (1 <= g)%Z -> (0 <= N)%Z -> shape w = pre ++ N :: post ->
  exists value scale, groupwise_weight stat q g (Z.of_nat (length pre)) w = Some (value, scale)
    /\ shape value = pre ++ ((N + g - 1) / g * g)%Z :: post /\ shape scale = shape value
    /\ forall ip p iq, in_box pre ip -> (0 <= p < N)%Z -> in_box post iq ->
        at_ scale (ip ++ p :: iq) = stat (block w N g ip iq p)
        /\ at_ value (ip ++ p :: iq) = q (stat (block w N g ip iq p)) (at_ w (ip ++ p :: iq)).
Proof.
  intros stat q g w pre N post Hg HN Es. unfold groupwise_weight.
  destruct (pad_spec N g Hg HN) as (P1 & P2 & P3).
  assert (Pp : forall l : list Z, length l = length (pre ++ N :: post) -> py_pos (length l) (Z.of_nat (length pre)) = length pre).
  { intros l _. unfold py_pos. rewrite (proj2 (Z.ltb_ge _ _)) by lia. lia. }
  assert (Ex : expanded_groupwise_shape (shape w) (Z.of_nat (length pre)) g = pre ++ ((N + g - 1) / g)%Z :: g :: post).
  { unfold expanded_groupwise_shape, py_set, py_get. rewrite Es. rewrite Pp by reflexivity.
    rewrite nth_app_mid, set_nth_app. unfold py_insert.
    assert (Q1 : py_pos (length (pre ++ ((N + g - 1) / g)%Z :: post)) (Z.of_nat (length pre) + 1) = S (length pre)).
    { unfold py_pos. rewrite (proj2 (Z.ltb_ge _ _)) by lia. lia. }
    rewrite Q1. rewrite Nat.min_l by (rewrite app_length; cbn [length]; lia).
    change (pre ++ ((N + g - 1) / g)%Z :: post) with (pre ++ [((N + g - 1) / g)%Z] ++ post). rewrite app_assoc.
    replace (S (length pre)) with (length (pre ++ [((N + g - 1) / g)%Z])) by (rewrite app_length; cbn; lia).
    rewrite firstn_app_mid, skipn_app_mid, <- app_assoc. reflexivity. }
  rewrite Ex. unfold static_view. rewrite Es.
  rewrite (proj2 (Nat.eqb_neq _ _)) by (rewrite !app_length; cbn [length]; lia). rewrite <- Es.
  destruct (f_pad_spec w g (Z.of_nat (length pre)) N pre post Es (or_introl eq_refl)) as [F1 F2].
  set (pw := f_pad w _) in *. clearbody pw.
  rewrite P3 in F1. destruct (view_split pw pre ((N + g - 1) / g) g post F1) as (v & E & S & V).
  rewrite E. cbn [obind]. clear E.
  destruct (blocked_pipeline stat q w N v pre ((N + g - 1) / g) g post (reduce_dim_weight (Z.of_nat (length pre)))
              (Z.of_nat (length pre))) as (value & scale & E & S1 & S2 & H).
  - exact Hg.
  - exact S.
  - intros ip a r iq H1 Ha Hr H2. rewrite V by assumption. rewrite F2 by (try assumption; nia). reflexivity.
  - unfold reduce_dim_weight, py_pos. rewrite (proj2 (Z.ltb_ge _ _)) by lia. lia.
  - unfold expand_start. rewrite (proj2 (Z.eqb_neq _ _)) by lia. unfold py_pos. rewrite (proj2 (Z.ltb_ge _ _)) by lia. lia.
  - exists value, scale. split; [exact E|]. split; [exact S1|]. split; [exact S2|].
    intros ip p iq H1 Hp H2. assert (Hp' : (0 <= p < (N + g - 1) / g * g)%Z) by lia.
    destruct (H ip p iq H1 Hp' H2) as [A B]. split; [exact A|]. rewrite B. unfold elem.
    rewrite (proj2 (Z.ltb_lt p N)) by lia. reflexivity.
Qed.

(** The same for activations grouped along a non-negative dimension. *)
Theorem C30_activation_groups : forall stat q g x pre N post,
  (1 <= g)%Z -> (0 <= N)%Z -> shape x = pre ++ N :: post ->
  exists value scale, groupwise_act stat q g (Z.of_nat (length pre)) x = Some (value, scale)
    /\ shape value = pre ++ ((N + g - 1) / g * g)%Z :: post /\ shape scale = shape value
    /\ forall ip p iq, in_box pre ip -> (0 <= p < N)%Z -> in_box post iq ->
        at_ scale (ip ++ p :: iq) = stat (block x N g ip iq p)
        /\ at_ value (ip ++ p :: iq) = q (stat (block x N g ip iq p)) (at_ x (ip ++ p :: iq)).
Proof.
  intros stat q g x pre N post Hg HN Es. unfold groupwise_act, dynamic_view.
  destruct (pad_spec N g Hg HN) as (P1 & P2 & P3).
  destruct (f_pad_spec x g (Z.of_nat (length pre)) N pre post Es (or_introl eq_refl)) as [F1 F2].
  set (pw := f_pad x _) in *. clearbody pw. cbn zeta.
  rewrite (proj2 (Z.eqb_neq (Z.of_nat (length pre)) (-1))) by lia.
  set (M := (N + pad_amount N g)%Z) in *.
  assert (Q0 : (M / g = (N + g - 1) / g)%Z) by (rewrite P3; apply Z.div_mul; lia).
  assert (Ex : py_insert (py_set (shape pw) (Z.of_nat (length pre)) (py_get (shape pw) (Z.of_nat (length pre)) / g))
                 (Z.of_nat (length pre) + 1) g = pre ++ ((N + g - 1) / g)%Z :: g :: post).
  { unfold py_set, py_get. rewrite F1.
    assert (Pp : py_pos (length (pre ++ M :: post)) (Z.of_nat (length pre)) = length pre).
    { unfold py_pos. rewrite (proj2 (Z.ltb_ge _ _)) by lia. lia. }
    rewrite Pp, nth_app_mid, set_nth_app, Q0. unfold py_insert.
    assert (Q1 : py_pos (length (pre ++ ((N + g - 1) / g)%Z :: post)) (Z.of_nat (length pre) + 1) = S (length pre)).
    { unfold py_pos. rewrite (proj2 (Z.ltb_ge _ _)) by lia. lia. }
    rewrite Q1. rewrite Nat.min_l by (rewrite app_length; cbn [length]; lia).
    change (pre ++ ((N + g - 1) / g)%Z :: post) with (pre ++ [((N + g - 1) / g)%Z] ++ post). rewrite app_assoc.
    replace (S (length pre)) with (length (pre ++ [((N + g - 1) / g)%Z])) by (rewrite app_length; cbn; lia).
    rewrite firstn_app_mid, skipn_app_mid, <- app_assoc. reflexivity. }
  rewrite Ex. rewrite P3 in F1.
  destruct (view_split pw pre ((N + g - 1) / g) g post F1) as (v & E & S & V).
  rewrite E. cbn [obind]. clear E.
  destruct (blocked_pipeline stat q x N v pre ((N + g - 1) / g) g post (reduce_dim_act (Z.of_nat (length pre)))
              (Z.of_nat (length pre))) as (value & scale & E & S1 & S2 & H).
  - exact Hg.
  - exact S.
  - intros ip a r iq H1 Ha Hr H2. rewrite V by assumption. rewrite F2 by (try assumption; nia). reflexivity.
  - unfold reduce_dim_act. rewrite (proj2 (Z.eqb_neq _ _)) by lia. unfold py_pos. rewrite (proj2 (Z.ltb_ge _ _)) by lia. lia.
  - unfold expand_start. rewrite (proj2 (Z.eqb_neq _ _)) by lia. unfold py_pos. rewrite (proj2 (Z.ltb_ge _ _)) by lia. lia.
  - exists value, scale. split; [exact E|]. split; [exact S1|]. split; [exact S2|].
    intros ip p iq H1 Hp H2. assert (Hp' : (0 <= p < (N + g - 1) / g * g)%Z) by (rewrite <- P3; lia).
    destruct (H ip p iq H1 Hp' H2) as [A B]. split; [exact A|]. rewrite B. unfold elem.
    rewrite (proj2 (Z.ltb_lt p N)) by lia. reflexivity.
Qed.

(** The padding is the least that makes the size a multiple of the group size. *)
Theorem C30_padding_is_minimal : forall N g, (1 <= g)%Z -> (0 <= N)%Z ->
  (N <= (N + g - 1) / g * g < N + g)%Z
  /\ forall m, (m mod g = 0)%Z -> (N <= m)%Z -> ((N + g - 1) / g * g <= m)%Z.
Proof.
  intros N g Hg HN. destruct (pad_spec N g Hg HN) as (P1 & P2 & P3). split; [lia|].
  intros m Hm Hl. pose proof (Z.div_mod m g ltac:(lia)) as D. rewrite Hm in D.
  assert ((N + g - 1) / g < m / g + 1)%Z by (apply Z.div_lt_upper_bound; lia). nia.
Qed.

(** The padding is not removed again: the expanded value is larger than the weight unless the
    group size divides it, so a weight-only group-wise layer gets a weight of another shape. *)
Theorem C30_padding_kept_refuted :
  exists stat q g w value scale, groupwise_weight stat q g 1 w = Some (value, scale)
    /\ shape w = [2; 10]%Z /\ shape value <> shape w.
Proof.
  exists (fun _ => 1), (fun _ x => x), 4%Z, (T [2; 10]%Z (fun _ => 1)).
  do 2 eexists. split; [reflexivity|]. split; [reflexivity|]. cbn. discriminate.
Qed.

(** Negative dimensions other than -1 are not expanded correctly: the shape changes. *)
Theorem C30_negative_dim_refuted :
  exists stat q g x value scale, groupwise_act stat q g (-2) x = Some (value, scale)
    /\ shape x = [4; 6]%Z /\ shape value <> shape x.
Proof.
  exists (fun _ => 1), (fun _ x => x), 2%Z, (T [4; 6]%Z (fun _ => 1)).
  do 2 eexists. split; [reflexivity|]. split; [reflexivity|]. cbn. discriminate.
Qed.

Definition max_abs (l : list Q) : Q := fold_left (fun m x => torch_max m (Qabs x)) l 0.

Example C30_example :
  let w := T [2; 5]%Z (fun idx => inject_Z (nth 0 idx 0 * 10 + nth 1 idx 0)%Z) in
  shape w = [2]%Z ++ 5%Z :: []
  /\ match groupwise_weight max_abs (fun s x => int_quant (cfg true true Round) (s / 7) 0 4 x) 2 1 w with
     | Some (v, s) => shape v = [2; 6]%Z
         /\ map (fun p => at_ s [1; p]%Z) [0; 1; 2; 3; 4]%Z = [11; 11; 13; 13; 14]
         /\ forallb (fun p => Qeq_bool (at_ v [1; p]%Z) (inject_Z (10 + p))) [1; 3; 4]%Z = true
     | None => False end.
Proof. cbn zeta. split; [reflexivity|]. vm_compute. repeat split. Qed.

Print Assumptions C30_weight_groups.
Print Assumptions C30_activation_groups.
Print Assumptions C30_padding_is_minimal.
Print Assumptions C30_padding_kept_refuted.
Print Assumptions C30_negative_dim_refuted.

(** ** C31 *)

(** What the last-dimension (group_dim = -1) activation view really does: [g] blocks of
    M/g elements, where M is the padded size. *)
Theorem C31_last_dim_block_size : forall stat q g x pre N,
  (1 <= g)%Z -> (1 <= N)%Z -> shape x = pre ++ [N] ->
  let M := ((N + g - 1) / g * g)%Z in
  exists value scale, groupwise_act stat q g (-1) x = Some (value, scale)
    /\ shape value = pre ++ [M] /\ shape scale = shape value
    /\ forall ip p, in_box pre ip -> (0 <= p < N)%Z ->
        at_ scale (ip ++ [p]) = stat (block x N (M / g) ip [] p)
        /\ at_ value (ip ++ [p]) = q (stat (block x N (M / g) ip [] p)) (at_ x (ip ++ [p])).
Proof.
  intros stat q g x pre N Hg HN Es. cbn zeta. unfold groupwise_act, dynamic_view.
  destruct (pad_spec N g Hg ltac:(lia)) as (P1 & P2 & P3).
  destruct (f_pad_spec x g (-1) N pre [] Es (or_intror (conj eq_refl eq_refl))) as [F1 F2].
  set (pw := f_pad x _) in *. clearbody pw. cbn zeta. change (-1 =? -1)%Z with true. cbv iota.
  rewrite P3 in F1. set (c := ((N + g - 1) / g)%Z) in *.
  assert (C1 : (1 <= c)%Z) by (unfold c; apply Z.div_le_lower_bound; lia).
  rewrite (Z.div_mul c g) by lia.
  assert (Ex : py_insert (py_set (shape pw) (-1) (py_get (shape pw) (-1) / g)) (-1) g = pre ++ [g; c]).
  { unfold py_set, py_get. rewrite F1.
    assert (Pp : forall a, py_pos (length (pre ++ [a])) (-1) = length pre).
    { intros a. unfold py_pos. cbn [Z.ltb Z.compare]. rewrite app_length. cbn [length]. lia. }
    rewrite Pp, nth_app_mid, set_nth_app. rewrite (Z.div_mul c g) by lia. unfold py_insert. rewrite Pp.
    rewrite Nat.min_l by (rewrite app_length; cbn [length]; lia).
    rewrite firstn_app_mid, skipn_app_mid. reflexivity. }
  rewrite Ex. rewrite Z.mul_comm in F1.
  destruct (view_split pw pre g c [] F1) as (v & E & S & V). rewrite E. cbn [obind]. clear E.
  destruct (blocked_pipeline stat q x N v pre g c [] (reduce_dim_act (-1)) (-1)) as (value & scale & E & S1 & S2 & H).
  - exact C1.
  - exact S.
  - intros ip a r iq H1 Ha Hr H2. rewrite V by assumption. rewrite F2 by (try assumption; nia). reflexivity.
  - change (reduce_dim_act (-1)) with (-1)%Z. unfold py_pos. cbn [Z.ltb Z.compare]. rewrite S, app_length. cbn [length]. lia.
  - change (expand_start (-1)) with (-2)%Z. unfold py_pos. cbn [Z.ltb Z.compare]. rewrite S, app_length. cbn [length]. lia.
  - exists value, scale. rewrite Z.mul_comm in S1. split; [exact E|]. split; [exact S1|]. split; [exact S2|].
    intros ip p H1 Hp. assert (Hp' : (0 <= p < g * c)%Z) by lia.
    destruct (H ip p [] H1 Hp' ltac:(constructor)) as [A B]. split; [exact A|]. rewrite B. unfold elem.
    rewrite (proj2 (Z.ltb_lt p N)) by lia. reflexivity.
Qed.

(** Hence the configured group size is used only when the padded size is its square. *)
Theorem C31_square_size_ok : forall stat q g x pre,
  (1 <= g)%Z -> shape x = pre ++ [(g * g)%Z] ->
  exists value scale, groupwise_act stat q g (-1) x = Some (value, scale)
    /\ forall ip p, in_box pre ip -> (0 <= p < g * g)%Z -> at_ scale (ip ++ [p]) = stat (block x (g * g) g ip [] p).
Proof.
  intros stat q g x pre Hg Es.
  destruct (C31_last_dim_block_size stat q g x pre (g * g) Hg ltac:(nia) Es) as (v & s & E & _ & _ & H).
  exists v, s. split; [exact E|]. intros ip p H1 Hp. destruct (H ip p H1 Hp) as [-> _].
  assert (Q1 : ((g * g + g - 1) / g = g)%Z) by (symmetry; apply Z.div_unique with (g - 1)%Z; lia).
  rewrite Q1, Z.div_mul by lia. reflexivity.
Qed.

(** The claim that the scale of an element depends only on the group of [group_size]
    consecutive elements containing it is false. *)
Theorem C31_group_size_refuted :
  exists stat q g N x y value scale value' scale',
    shape x = [N] /\ shape y = [N] /\ (N mod g = 0)%Z
    /\ block x N g [] [] 0 = block y N g [] [] 0
    /\ groupwise_act stat q g (-1) x = Some (value, scale)
    /\ groupwise_act stat q g (-1) y = Some (value', scale')
    /\ ~ at_ scale [0%Z] == at_ scale' [0%Z].
Proof.
  exists max_abs, (fun _ x => x), 2%Z, 8%Z, (T [8]%Z (fun _ => 1)),
    (T [8]%Z (fun idx => if (nth 0 idx 0 =? 3)%Z then 100 else 1)).
  do 4 eexists. split; [reflexivity|]. split; [reflexivity|]. split; [reflexivity|].
  split; [vm_compute; reflexivity|]. split; [reflexivity|]. split; [reflexivity|]. vm_compute. discriminate.
Qed.

(** The group size the OCP MX formats prescribe (32) on a 256-feature activation: blocks have
    8 elements. *)
Example C31_example :
  match groupwise_act max_abs (fun _ x => x) 32 (-1) (T [256]%Z (fun idx => inject_Z (nth 0 idx 0%Z))) with
  | Some (_, s) => at_ s [0]%Z == 7 /\ at_ s [8]%Z == 15
  | None => False end.
Proof. vm_compute. split; reflexivity. Qed.

Print Assumptions C31_last_dim_block_size.
Print Assumptions C31_square_size_ok.
Print Assumptions C31_group_size_refuted.
