(** Property C83: the scale applied to an output channel is the statistic of that channel, and
    of nothing else. *)
From Coq Require Import Permutation FinFun.
From Verif Require Import QUtil Groupwise GroupwiseProps ChannelStats.
Open Scope Q_scope.

(** ** Specification *)

(** All index tuples of a shape. *)
Fixpoint indices (sh : list Z) : list (list Z) :=
  match sh with
  | [] => [[]]
  | n :: sh' => flat_map (fun i => map (cons i) (indices sh')) (map Z.of_nat (seq 0 (Z.to_nat n)))
  end.
(** The elements of [w] whose index has [c] at dimension [d]. *)
Definition channel_values (d : nat) (c : Z) (w : tens) : list Q :=
  map (at_ w) (filter (fun idx => nth d idx 0 =? c)%Z (indices (shape w))).
Definition all_values (w : tens) : list Q := map (at_ w) (indices (shape w)).
Definition well_shaped (w : tens) : Prop := Forall (fun n => (0 <= n)%Z) (shape w).

(** ** Enumeration of indices *)
Lemma in_zrange n i : In i (zrange n) <-> (0 <= i < n)%Z.
Proof.
  unfold zrange. rewrite in_map_iff. split.
  - intros (k & <- & Hk). apply in_seq in Hk. lia.
  - intros H. exists (Z.to_nat i). split; [lia|]. apply in_seq. lia.
Qed.
Lemma NoDup_zrange n : NoDup (zrange n).
Proof. apply Injective_map_NoDup; [intros a b H; lia|apply seq_NoDup]. Qed.
Lemma zrange_app a b : (0 <= a)%Z -> (0 <= b)%Z -> zrange (a + b) = zrange a ++ map (fun i => (i + a)%Z) (zrange b).
Proof.
  intros Ha Hb. unfold zrange. rewrite Z2Nat.inj_add, seq_app, map_app by lia. f_equal.
  rewrite map_map. cbn [Nat.add].
  assert (G : forall k s, map Z.of_nat (seq (s + Z.to_nat a) k) = map (fun x => (Z.of_nat x + a)%Z) (seq s k)).
  { induction k as [|k IH]; intros s; [reflexivity|]. cbn [seq map].
    rewrite <- IH. f_equal. lia. }
  rewrite <- (G _ O). reflexivity.
Qed.
Lemma zrange_length n : length (zrange n) = Z.to_nat n.
Proof. unfold zrange. rewrite map_length, seq_length. reflexivity. Qed.

Lemma in_indices sh idx : In idx (indices sh) <-> in_box sh idx.
Proof.
  revert idx. induction sh as [|n sh IH]; intros idx; cbn [indices].
  - split; [intros [<-|[]]; constructor|]. intros H. inversion H. now left.
  - fold (zrange n). rewrite in_flat_map. split.
    + intros (i & Hi & H). apply in_map_iff in H. destruct H as (jdx & <- & Hj).
      constructor; [apply in_zrange, Hi|apply IH, Hj].
    + intros H. inversion H as [|? i ? jdx Hi Hj]; subst. exists i. split; [apply in_zrange, Hi|].
      apply in_map, IH, Hj.
Qed.
Lemma NoDup_indices sh : NoDup (indices sh).
Proof.
  induction sh as [|n sh IH]; cbn [indices]; [constructor; [intros []|constructor]|].
  fold (zrange n). pose proof (NoDup_zrange n) as N. induction N as [|i l Hi N IHl]; cbn [flat_map]; [constructor|].
  assert (NA : NoDup (map (cons i) (indices sh))).
  { apply Injective_map_NoDup; [intros a b H; congruence|exact IH]. }
  set (A := indices sh) in NA |- * at 1.
  assert (D : forall x, In x (map (cons i) A) -> ~ In x (flat_map (fun i0 => map (cons i0) (indices sh)) l)).
  { intros x Hx Hy. apply in_map_iff in Hx. destruct Hx as (a & <- & _).
    apply in_flat_map in Hy. destruct Hy as (i' & Hi' & Hy). apply in_map_iff in Hy. destruct Hy as (a' & E & _).
    injection E as -> _. contradiction. }
  revert NA D. generalize (map (cons i) A) as B. induction B as [|b B IHB]; intros NA D; [exact IHl|].
  cbn [app]. inversion NA; subst. constructor.
  - intros H. apply in_app_or in H. destruct H as [H|H]; [contradiction|]. apply (D b); [now left|exact H].
  - apply IHB; [assumption|]. intros x Hx. apply D. now right.
Qed.

Lemma prodZ_nonneg sh : Forall (fun n => (0 <= n)%Z) sh -> (0 <= prodZ sh)%Z.
Proof. induction 1; cbn [prodZ]; nia. Qed.

Lemma unflat_box sh n : Forall (fun n => (0 <= n)%Z) sh -> (0 <= n < prodZ sh)%Z ->
  in_box sh (unflat sh n) /\ flat sh (unflat sh n) = n.
Proof.
  intros F. revert n. induction F as [|a sh Ha F IH]; intros n Hn; cbn [unflat prodZ flat] in *.
  - split; [constructor|lia].
  - pose proof (prodZ_nonneg sh F) as P.
    assert (P1 : (0 < prodZ sh)%Z) by nia.
    pose proof (Z.mod_pos_bound n (prodZ sh) P1) as B. destruct (IH _ B) as [I1 I2].
    split; [constructor; [|exact I1]|].
    + split; [apply Z.div_pos; lia|]. apply Z.div_lt_upper_bound; lia.
    + rewrite I2. pose proof (Z.div_mod n (prodZ sh) ltac:(lia)). lia.
Qed.

Lemma unflat_indices sh : Forall (fun n => (0 <= n)%Z) sh ->
  Permutation (map (unflat sh) (zrange (prodZ sh))) (indices sh).
Proof.
  intros F. apply NoDup_Permutation.
  - pose proof (NoDup_zrange (prodZ sh)) as N.
    assert (B : forall i, In i (zrange (prodZ sh)) -> (0 <= i < prodZ sh)%Z) by (intros i; apply in_zrange).
    induction N as [|i l Hi N IH]; cbn [map]; constructor.
    + intros H. apply in_map_iff in H. destruct H as (j & E & Hj). apply Hi.
      destruct (unflat_box sh i F (B i (or_introl eq_refl))) as [_ Ei].
      destruct (unflat_box sh j F (B j (or_intror Hj))) as [_ Ej].
      rewrite <- Ei, <- E, Ej. exact Hj.
    + apply IH. intros j Hj. apply B. now right.
  - apply NoDup_indices.
  - intros idx. rewrite in_indices, in_map_iff. split.
    + intros (n & <- & Hn). apply in_zrange in Hn. apply unflat_box; assumption.
    + intros H. exists (flat sh idx). split; [apply unflat_flat, H|]. apply in_zrange, flat_bound, H.
Qed.

Lemma in_box_nth sh idx : in_box sh idx <->
  length idx = length sh /\ forall j, (j < length sh)%nat -> (0 <= nth j idx 0 < nth j sh 0)%Z.
Proof.
  split.
  - intros H. split; [symmetry; apply (F2_len _ _ _ H)|]. induction H as [|n i sh idx Hi H IH]; intros j Hj; cbn [length] in Hj; [lia|].
    destruct j; cbn [nth]; [exact Hi|apply IH; lia].
  - revert idx. induction sh as [|n sh IH]; intros [|i idx] [L H]; cbn [length] in L; try discriminate; constructor.
    + apply (H O). cbn [length]. lia.
    + apply IH. split; [lia|]. intros j Hj. apply (H (S j)). cbn [length]. lia.
Qed.

(** ** Permutations of dimensions *)
Definition inv (dims : list nat) (n : nat) (idx : list Z) : list Z :=
  map (fun d => nth (index_of d dims) idx 0%Z) (seq 0 n).

Lemma index_of_nth d dims : In d dims -> (index_of d dims < length dims)%nat /\ nth (index_of d dims) dims O = d.
Proof.
  induction dims as [|e dims IH]; intros H; [destruct H|]. cbn [index_of].
  destruct (Nat.eqb e d) eqn:E; [apply Nat.eqb_eq in E; cbn [length nth]; split; [lia|exact E]|].
  apply Nat.eqb_neq in E. destruct H as [H|H]; [congruence|]. destruct (IH H). cbn [length nth]. split; [lia|assumption].
Qed.
Lemma nth_index_of j dims : NoDup dims -> (j < length dims)%nat -> index_of (nth j dims O) dims = j.
Proof.
  intros N. revert j. induction N as [|e dims He N IH]; intros j Hj; [cbn [length] in Hj; lia|].
  destruct j as [|j]; cbn [nth index_of]; [rewrite Nat.eqb_refl; reflexivity|]. cbn [length] in Hj.
  destruct (Nat.eqb e (nth j dims O)) eqn:E; [|rewrite IH by lia; reflexivity].
  apply Nat.eqb_eq in E. exfalso. apply He. rewrite E. apply nth_In. lia.
Qed.

Section Dims.
Variables (dims : list nat) (n : nat).
Hypothesis P : Permutation dims (seq 0 n).

Lemma dims_len : length dims = n.
Proof. rewrite (Permutation_length P). apply seq_length. Qed.
Lemma dims_in d : In d dims <-> (d < n)%nat.
Proof.
  split; intros H.
  - apply (Permutation_in _ P) in H. apply in_seq in H. lia.
  - apply (Permutation_in _ (Permutation_sym P)). apply in_seq. lia.
Qed.
Lemma dims_nodup : NoDup dims.
Proof. apply (Permutation_NoDup (Permutation_sym P)), seq_NoDup. Qed.
Lemma nth_dims_lt j : (j < n)%nat -> (nth j dims O < n)%nat.
Proof. intros H. apply dims_in, nth_In. rewrite dims_len. exact H. Qed.

Lemma inv_len idx : length (inv dims n idx) = n.
Proof. unfold inv. rewrite map_length, seq_length. reflexivity. Qed.
Lemma inv_nth idx d : (d < n)%nat -> nth d (inv dims n idx) 0%Z = nth (index_of d dims) idx 0%Z.
Proof. intros H. unfold inv. apply (map_seq_nth (fun d => nth (index_of d dims) idx 0%Z)), H. Qed.
Lemma inv_nth_dims idx j : (j < n)%nat -> nth (nth j dims O) (inv dims n idx) 0%Z = nth j idx 0%Z.
Proof.
  intros H. rewrite inv_nth by (apply nth_dims_lt, H). rewrite nth_index_of; [reflexivity|apply dims_nodup|].
  rewrite dims_len. exact H.
Qed.
Lemma inv_inj a b : length a = n -> length b = n -> inv dims n a = inv dims n b -> a = b.
Proof.
  intros La Lb E. apply list_eq_nth; [congruence|]. intros j Hj.
  rewrite <- (inv_nth_dims a j), <- (inv_nth_dims b j) by lia. rewrite E. reflexivity.
Qed.
Definition fwd (idx : list Z) : list Z := map (fun d => nth d idx 0%Z) dims.
Lemma nth_map_dims (f : nat -> Z) j : (j < n)%nat -> nth j (map f dims) 0%Z = f (nth j dims O).
Proof.
  intros H. rewrite (nth_indep _ 0%Z (f O)) by (rewrite map_length, dims_len; exact H). apply map_nth.
Qed.
Lemma inv_fwd idx : length idx = n -> inv dims n (fwd idx) = idx.
Proof.
  intros L. apply list_eq_nth; [rewrite inv_len; congruence|]. rewrite inv_len. intros d Hd.
  rewrite inv_nth by exact Hd. destruct (index_of_nth d dims ltac:(apply dims_in, Hd)) as [I1 I2].
  rewrite dims_len in I1. unfold fwd. rewrite nth_map_dims by exact I1. rewrite I2. reflexivity.
Qed.
Lemma inv_box sh idx : length sh = n ->
  in_box (map (fun d => nth d sh 0%Z) dims) idx <-> length idx = n /\ in_box sh (inv dims n idx).
Proof.
  intros L. rewrite !in_box_nth, map_length, dims_len, inv_len, L. split.
  - intros [H1 H2]. split; [exact H1|]. split; [reflexivity|]. intros d Hd. rewrite inv_nth by exact Hd.
    destruct (index_of_nth d dims ltac:(apply dims_in, Hd)) as [I1 I2]. rewrite dims_len in I1.
    specialize (H2 _ I1). rewrite nth_map_dims in H2 by exact I1. rewrite I2 in H2. exact H2.
  - intros (H1 & _ & H2). split; [exact H1|]. intros j Hj. rewrite nth_map_dims by exact Hj.
    specialize (H2 _ (nth_dims_lt j Hj)). rewrite inv_nth_dims in H2 by exact Hj. exact H2.
Qed.
End Dims.

Lemma inv_id n idx : length idx = n -> inv (seq 0 n) n idx = idx.
Proof.
  intros L. apply list_eq_nth; [rewrite inv_len; congruence|]. rewrite inv_len. intros d Hd.
  rewrite inv_nth by exact Hd. f_equal.
  assert (E : nth d (seq 0 n) O = d) by (rewrite seq_nth; lia). rewrite <- E at 1.
  apply nth_index_of; [apply seq_NoDup|rewrite seq_length; exact Hd].
Qed.

(** ** Rows of the per-channel view *)
Definition rest (sh : list Z) (dims : list nat) : list Z := map (fun d => nth d sh 0%Z) (tl dims).
Definition order (sh : list Z) (dims : list nat) (c : Z) : list (list Z) :=
  map (fun r => inv dims (length sh) (c :: unflat (rest sh dims) r)) (zrange (prodZ (rest sh dims))).

Lemma rest_nonneg sh dims : Forall (fun n => (0 <= n)%Z) sh -> Forall (fun n => (0 <= n)%Z) (rest sh dims).
Proof.
  intros F. apply Forall_forall. intros z Hz. unfold rest in Hz. apply in_map_iff in Hz. destruct Hz as (d & <- & _).
  destruct (nth_in_or_default d sh 0%Z) as [I| ->]; [|lia]. rewrite Forall_forall in F. apply F, I.
Qed.

Lemma order_spec sh d tl c : Permutation (d :: tl) (seq 0 (length sh)) -> Forall (fun n => (0 <= n)%Z) sh ->
  (0 <= c < nth d sh 0)%Z ->
  Permutation (order sh (d :: tl) c) (filter (fun idx => nth d idx 0 =? c)%Z (indices sh)).
Proof.
  intros P F Hc. set (dims := d :: tl) in *.
  pose proof (rest_nonneg sh dims F) as FR.
  assert (Dd : (d < length sh)%nat) by (apply (dims_in dims _ P); now left).
  assert (Id : index_of d dims = O) by (cbn [dims index_of]; rewrite Nat.eqb_refl; reflexivity).
  assert (Lr : length (rest sh dims) = (length sh - 1)%nat).
  { unfold rest. rewrite map_length. cbn [dims List.tl]. pose proof (dims_len dims _ P) as L. cbn [dims length] in L. lia. }
  apply NoDup_Permutation.
  - unfold order. rewrite <- (map_map (unflat (rest sh dims)) (fun j => inv dims (length sh) (c :: j))).
    pose proof (Permutation_NoDup (Permutation_sym (unflat_indices _ FR)) (NoDup_indices _)) as N.
    assert (B : forall j, In j (map (unflat (rest sh dims)) (zrange (prodZ (rest sh dims)))) -> length j = (length sh - 1)%nat).
    { intros j Hj. apply (Permutation_in _ (unflat_indices _ FR)), in_indices, in_box_nth in Hj. destruct Hj as [Hj _]. congruence. }
    induction N as [|a l Ha N IH]; cbn [map]; constructor.
    + intros H. apply in_map_iff in H. destruct H as (j & E & Hj). apply Ha.
      apply (inv_inj dims _ P) in E; [injection E as ->; exact Hj| |]; cbn [length].
      * rewrite (B j) by (now right). lia.
      * rewrite (B a) by (now left). lia.
    + apply IH. intros j Hj. apply B. now right.
  - apply NoDup_filter, NoDup_indices.
  - intros idx. rewrite filter_In, in_indices. split.
    + intros H. unfold order in H. apply in_map_iff in H. destruct H as (r & <- & Hr). apply in_zrange in Hr.
      destruct (unflat_box _ _ FR Hr) as [Hb _].
      assert (B : in_box (map (fun d => nth d sh 0%Z) dims) (c :: unflat (rest sh dims) r)).
      { unfold dims. cbn [map]. constructor; [exact Hc|exact Hb]. }
      apply (inv_box dims _ P _ _ eq_refl) in B. destruct B as [B1 B2]. split; [exact B2|].
      rewrite (inv_nth dims) by exact Dd. rewrite Id. cbn [nth]. apply Z.eqb_refl.
    + intros [Hb Ec]. apply Z.eqb_eq in Ec.
      assert (Li : length idx = length sh) by (apply in_box_nth in Hb; tauto).
      assert (B : in_box (map (fun d => nth d sh 0%Z) dims) (fwd dims idx)).
      { apply (inv_box dims _ P _ _ eq_refl). rewrite (inv_fwd dims _ P) by exact Li.
        split; [unfold fwd; rewrite map_length; apply (dims_len dims _ P)|exact Hb]. }
      unfold dims in B. unfold fwd in B. cbn [map] in B. inversion B as [|? ? ? ? _ Bt]; subst.
      unfold order. apply in_map_iff. exists (flat (rest sh dims) (map (fun d => nth d idx 0%Z) tl)).
      fold (rest sh dims) in Bt. split.
      * rewrite unflat_flat by exact Bt. exact (inv_fwd dims _ P idx Li).
      * apply in_zrange, flat_bound. exact Bt.
Qed.

Definition dims_of (pd : option (list nat)) (n : nat) : list nat := match pd with Some dims => dims | None => seq 0 n end.

Lemma channels_view pd x d tl : dims_of pd (length (shape x)) = d :: tl ->
  Permutation (d :: tl) (seq 0 (length (shape x))) -> well_shaped x -> (0 < nth d (shape x) 0)%Z ->
  exists v, over_output_channels_view pd x = Some v
    /\ shape v = [nth d (shape x) 0%Z; prodZ (rest (shape x) (d :: tl))]
    /\ forall c, (0 <= c < nth d (shape x) 0)%Z -> row v c = map (at_ x) (order (shape x) (d :: tl) c).
Proof.
  intros Ed P F Hd. set (sh := shape x) in *. set (dims := d :: tl) in *.
  set (y := match pd with Some dims => permute dims x | None => x end).
  pose proof (rest_nonneg sh dims F) as FR. pose proof (prodZ_nonneg _ FR) as PR.
  assert (Lr : length (rest sh dims) = (length sh - 1)%nat).
  { unfold rest. rewrite map_length. cbn [dims List.tl]. pose proof (dims_len dims _ P) as L. cbn [dims length] in L. lia. }
  assert (Dd : (d < length sh)%nat) by (apply (dims_in dims _ P); now left).
  assert (Sy : shape y = nth d sh 0%Z :: rest sh dims).
  { unfold y. destruct pd as [dm|]; cbn [dims_of] in Ed.
    - subst dm. reflexivity.
    - assert (E : nth d sh 0%Z :: rest sh dims = map (fun d => nth d sh 0%Z) (seq 0 (length sh))) by (rewrite Ed; reflexivity).
      rewrite E. fold sh. apply list_eq_nth; [rewrite map_length, seq_length; reflexivity|].
      intros j Hj. rewrite map_seq_nth by exact Hj. reflexivity. }
  assert (Ay : forall j, length j = (length sh - 1)%nat -> forall c, at_ y (c :: j) = at_ x (inv dims (length sh) (c :: j))).
  { intros j Lj c. unfold y. destruct pd as [dm|]; cbn [dims_of] in Ed; [subst dm; reflexivity|].
    rewrite <- Ed. fold sh. rewrite inv_id; [reflexivity|]. cbn [length]. lia. }
  unfold over_output_channels_view. fold y. rewrite Sy. cbn [prodZ].
  destruct (nth d sh 0 =? 0)%Z eqn:E0; [apply Z.eqb_eq in E0; lia|].
  unfold view. rewrite Sy. cbn [prodZ].
  rewrite (Z.mul_comm (nth d sh 0%Z) (prodZ (rest sh dims))), Z.div_mul by lia.
  rewrite Z.mul_1_r, Z.mul_comm, Z.eqb_refl.
  eexists. split; [reflexivity|]. cbn [shape]. split; [reflexivity|].
  intros c Hc. unfold row, order. cbn [shape nth at_]. rewrite map_map. apply map_ext_in. intros r Hr.
  apply in_zrange in Hr. cbn [flat prodZ]. rewrite Z.mul_1_r, Z.add_0_r, Z.mul_1_r.
  cbn [unflat]. rewrite Z.div_add_l by lia. rewrite Z.div_small by exact Hr.
  rewrite (Z.add_comm (c * _)), Z_mod_plus_full, Z.mod_small by exact Hr. rewrite Z.add_0_r.
  apply Ay. destruct (unflat_box _ _ FR Hr) as [B _]. apply in_box_nth in B. destruct B as [B _]. congruence.
Qed.

(** ** Concatenation *)
Lemma cat_rows a b C Fa Fb : shape a = [C; Fa] -> shape b = [C; Fb] -> (0 <= Fa)%Z -> (0 <= Fb)%Z ->
  exists x, cat 1 a b = Some x /\ shape x = [C; (Fa + Fb)%Z] /\ forall c, row x c = row a c ++ row b c.
Proof.
  intros Sa Sb Ha Hb. unfold cat. rewrite Sa, Sb. cbn [length seq forallb nth Nat.eqb orb andb]. rewrite Z.eqb_refl.
  eexists. split; [reflexivity|]. cbn [shape set_nth]. split; [reflexivity|]. intros c. unfold row.
  cbn [shape nth set_nth]. rewrite Sa, Sb. cbn [nth]. rewrite zrange_app, map_app by assumption. f_equal.
  - apply map_ext_in. intros r Hr. apply in_zrange in Hr. cbn [at_ nth].
    destruct (r <? Fa)%Z eqn:E; [reflexivity|apply Z.ltb_ge in E; lia].
  - rewrite map_map. apply map_ext_in. intros r Hr. apply in_zrange in Hr. cbn [at_ nth set_nth].
    destruct (r + Fa <? Fa)%Z eqn:E; [apply Z.ltb_lt in E; lia|]. do 3 f_equal. lia.
Qed.

Lemma cat_flat a b Fa Fb : shape a = [Fa] -> shape b = [Fb] -> (0 <= Fa)%Z -> (0 <= Fb)%Z ->
  exists x, cat 0 a b = Some x /\ shape x = [(Fa + Fb)%Z]
    /\ map (fun r => at_ x [r]) (zrange (Fa + Fb)) = map (fun r => at_ a [r]) (zrange Fa) ++ map (fun r => at_ b [r]) (zrange Fb).
Proof.
  intros Sa Sb Ha Hb. unfold cat. rewrite Sa, Sb. cbn [length seq forallb nth Nat.eqb orb andb].
  eexists. split; [reflexivity|]. cbn [shape set_nth]. split; [reflexivity|].
  rewrite zrange_app, map_app by assumption. f_equal.
  - apply map_ext_in. intros r Hr. apply in_zrange in Hr. cbn [at_ nth].
    destruct (r <? Fa)%Z eqn:E; [reflexivity|apply Z.ltb_ge in E; lia].
  - rewrite map_map. apply map_ext_in. intros r Hr. apply in_zrange in Hr. cbn [at_ nth set_nth].
    destruct (r + Fa <? Fa)%Z eqn:E; [apply Z.ltb_lt in E; lia|]. do 3 f_equal. lia.
Qed.

Lemma cat_cols a b Ca Cb F : shape a = [Ca; F] -> shape b = [Cb; F] -> (0 <= Ca)%Z -> (0 <= Cb)%Z ->
  exists x, cat 0 a b = Some x /\ shape x = [(Ca + Cb)%Z; F]
    /\ map (row x) (zrange (Ca + Cb)) = map (row a) (zrange Ca) ++ map (row b) (zrange Cb).
Proof.
  intros Sa Sb Ha Hb. unfold cat. rewrite Sa, Sb. cbn [length seq forallb nth Nat.eqb orb andb]. rewrite Z.eqb_refl.
  eexists. split; [reflexivity|]. cbn [shape set_nth]. split; [reflexivity|].
  rewrite zrange_app, map_app by assumption. f_equal.
  - apply map_ext_in. intros c Hc. apply in_zrange in Hc. unfold row. cbn [shape nth set_nth]. rewrite Sa. cbn [nth].
    apply map_ext. intros r. cbn [at_ nth]. destruct (c <? Ca)%Z eqn:E; [reflexivity|apply Z.ltb_ge in E; lia].
  - rewrite map_map. apply map_ext_in. intros c Hc. apply in_zrange in Hc. unfold row. cbn [shape nth set_nth]. rewrite Sb. cbn [nth].
    apply map_ext. intros r. cbn [at_ nth set_nth].
    destruct (c + Ca <? Ca)%Z eqn:E; [apply Z.ltb_lt in E; lia|]. do 2 f_equal. lia.
Qed.

(** ** The dimension swap *)
Lemma swap_dims n d : (0 < d < n)%nat -> exists tl, permute_dims n d = Some (d :: tl) /\ Permutation (d :: tl) (seq 0 n).
Proof.
  intros H. unfold permute_dims. destruct (Nat.eqb d 0) eqn:E; [apply Nat.eqb_eq in E; lia|].
  rewrite !seq_nth by lia. cbn [Nat.add].
  assert (Sq : seq 0 n = 0%nat :: seq 1 (d - 1) ++ d :: seq (S d) (n - S d)).
  { replace n with (S ((d - 1) + S (n - S d)))%nat at 1 by lia. cbn [seq]. f_equal. rewrite seq_app. f_equal.
    replace (1 + (d - 1))%nat with d by lia. reflexivity. }
  rewrite Sq. cbn [set_nth].
  assert (E2 : set_nth d 0%nat (d :: seq 1 (d - 1) ++ d :: seq (S d) (n - S d))
             = d :: seq 1 (d - 1) ++ 0%nat :: seq (S d) (n - S d)).
  { replace d with (S (length (seq 1 (d - 1)))) at 1 by (rewrite seq_length; lia). cbn [set_nth]. f_equal. apply set_nth_app. }
  rewrite E2. eexists. split; [reflexivity|].
  rewrite <- Permutation_middle, <- Permutation_middle. apply perm_swap.
Qed.

Lemma weight_dims n d : (d < n)%nat -> exists tl, dims_of (permute_dims n d) n = d :: tl /\ Permutation (d :: tl) (seq 0 n).
Proof.
  intros H. destruct d as [|d].
  - unfold permute_dims. cbn [Nat.eqb dims_of]. destruct n; [lia|]. cbn [seq]. eexists. split; [reflexivity|apply Permutation_refl].
  - destruct (swap_dims n (S d) ltac:(lia)) as (tl & E & P). rewrite E. exists tl. split; [reflexivity|exact P].
Qed.

(** ** The statistic viewed with the broadcastable shape *)
Lemma flat_onehot n d C idx : (d < n)%nat -> length idx = n ->
  in_box (set_nth d C (repeat 1%Z n)) idx -> flat (set_nth d C (repeat 1%Z n)) idx = nth d idx 0%Z.
Proof.
  assert (P1 : forall k, prodZ (repeat 1%Z k) = 1%Z) by (induction k; cbn [repeat prodZ]; lia).
  assert (Z1 : forall k i, in_box (repeat 1%Z k) i -> flat (repeat 1%Z k) i = 0%Z).
  { intros k i B. pose proof (flat_bound _ _ B). rewrite P1 in H. lia. }
  revert d idx. induction n as [|n IH]; intros d idx Hd Li B; [lia|].
  destruct idx as [|i idx]; [discriminate|]. cbn [repeat] in *. destruct d as [|d]; cbn [set_nth] in *; inversion B; subst; cbn [flat nth].
  - rewrite P1, Z1 by assumption. lia.
  - assert (i = 0%Z) by lia. subst i. rewrite (IH d idx) by (try assumption; try lia; cbn [length] in Li; lia). lia.
Qed.
Lemma prod_onehot n d C : (d < n)%nat -> prodZ (set_nth d C (repeat 1%Z n)) = C.
Proof.
  assert (P1 : forall k, prodZ (repeat 1%Z k) = 1%Z) by (induction k; cbn [repeat prodZ]; lia).
  revert d. induction n as [|n IH]; intros d H; [lia|]. cbn [repeat]. destruct d as [|d]; cbn [set_nth prodZ].
  - rewrite P1. lia.
  - rewrite IH by lia. lia.
Qed.

Lemma view_channel st n d C : (d < n)%nat -> shape st = [C] ->
  exists sc, view st (set_nth d C (repeat 1%Z n)) = Some sc /\ shape sc = set_nth d C (repeat 1%Z n)
    /\ forall idx, length idx = n -> (0 <= nth d idx 0 < C)%Z -> bcast sc idx = at_ st [nth d idx 0%Z].
Proof.
  intros Hd Ss. unfold view. rewrite Ss. cbn [prodZ]. rewrite prod_onehot, Z.mul_1_r, Z.eqb_refl by exact Hd.
  eexists. split; [reflexivity|]. cbn [shape]. split; [reflexivity|]. intros idx Li Hc. unfold bcast. cbn [shape at_].
  set (sh := set_nth d C (repeat 1%Z n)).
  assert (Lsh : length sh = n) by (unfold sh; rewrite set_nth_length, repeat_length; reflexivity).
  destruct sh as [|s0 sh'] eqn:Esh; [cbn [length] in Lsh; lia|]. rewrite <- Esh in *. clear s0 sh' Esh.
  set (p := map _ (combine sh idx)).
  assert (Lp : length p = n) by (unfold p; rewrite map_length, combine_length; lia).
  assert (Np : forall j, (j < n)%nat -> nth j p 0%Z = if (nth j sh 0 =? 1)%Z then 0%Z else nth j idx 0%Z).
  { intros j Hj. unfold p.
    rewrite (nth_indep _ 0%Z ((fun q => if (fst q =? 1)%Z then 0%Z else snd q) (0%Z, 0%Z))) by (rewrite map_length, combine_length; lia).
    rewrite (map_nth (fun q : Z * Z => if (fst q =? 1)%Z then 0%Z else snd q)).
    rewrite combine_nth by lia. reflexivity. }
  assert (Ns : forall j, (j < n)%nat -> nth j sh 0%Z = if (j =? d)%nat then C else 1%Z).
  { intros j Hj. unfold sh. rewrite nth_set_nth, repeat_length.
    destruct (Nat.eqb_spec j d) as [->|Nj]; cbn [andb].
    - destruct (d <? n)%nat eqn:E; [reflexivity|apply Nat.ltb_ge in E; lia].
    - assert (I : In (nth j (repeat 1%Z n) 0%Z) (repeat 1%Z n)) by (apply nth_In; rewrite repeat_length; exact Hj).
      apply repeat_spec in I. exact I. }
  assert (B : in_box sh p).
  { apply in_box_nth. split; [congruence|]. rewrite Lsh. intros j Hj. rewrite Np, Ns by exact Hj.
    destruct (Nat.eqb_spec j d) as [->|Nj].
    - destruct (C =? 1)%Z eqn:E1; [apply Z.eqb_eq in E1; lia|exact Hc].
    - cbn [Z.eqb Pos.eqb]. lia. }
  unfold sh in B |- *. rewrite (flat_onehot n d C p Hd Lp B). fold sh.
  rewrite Np, Ns, Nat.eqb_refl by exact Hd. cbn [unflat prodZ]. rewrite Z.div_1_r. do 2 f_equal.
  destruct (C =? 1)%Z eqn:E1; [apply Z.eqb_eq in E1; lia|reflexivity].
Qed.

(** ** C83 *)

(** Layers that can share a per-channel weight quantizer: same number of dimensions, and
    [out_channels] entries at the output channel dimension. *)
Definition shareable (d n : nat) (C : Z) (w : tens) : Prop :=
  length (shape w) = n /\ nth d (shape w) 0%Z = C /\ well_shaped w.

Lemma stats_input_channels pd d tl n C ws : (0 < C)%Z -> dims_of pd n = d :: tl -> Permutation (d :: tl) (seq 0 n) ->
  ws <> [] -> Forall (shareable d n C) ws ->
  exists x F, stats_input (over_output_channels_view pd) 1 ws = Some x /\ shape x = [C; F] /\ (0 <= F)%Z
    /\ forall c, (0 <= c < C)%Z -> row x c = flat_map (fun w => map (at_ w) (order (shape w) (d :: tl) c)) (rev ws).
Proof.
  intros HC Ed P Hne FA. destruct ws as [|w ws]; [congruence|]. clear Hne.
  assert (V : forall w, shareable d n C w -> exists v, over_output_channels_view pd w = Some v
    /\ shape v = [C; prodZ (rest (shape w) (d :: tl))] /\ (0 <= prodZ (rest (shape w) (d :: tl)))%Z
    /\ forall c, (0 <= c < C)%Z -> row v c = map (at_ w) (order (shape w) (d :: tl) c)).
  { intros u (L & N & W). rewrite <- L in Ed, P.
    destruct (channels_view pd u d tl Ed P W ltac:(lia)) as (v & E & S & R). rewrite N in S, R.
    exists v. repeat split; try assumption. apply prodZ_nonneg, rest_nonneg, W. }
  inversion FA as [|? ? Hw Hws]; subst. unfold stats_input.
  destruct (V w Hw) as (v & E & S & HF & R). rewrite E. cbn [rev].
  assert (R' : forall c, (0 <= c < C)%Z -> row v c = flat_map (fun w => map (at_ w) (order (shape w) (d :: tl) c)) [w]).
  { intros c Hc. cbn [flat_map]. rewrite app_nil_r. apply R, Hc. }
  clear R E FA Hw.
  revert HF v S R'. generalize (prodZ (rest (shape w) (d :: tl))) as F0. generalize [w] as done. 
  induction Hws as [|u ws Hu Hws IH]; intros done F0 HF v S R; cbn [fold_left rev app].
  - exists v, F0. auto.
  - destruct (V u Hu) as (vu & Eu & Su & HFu & Ru). cbn [obind]. rewrite Eu. cbn [obind].
    destruct (cat_rows vu v C _ F0 Su S HFu HF) as (x & Ex & Sx & Rx). rewrite Ex.
    destruct (IH (u :: done) (prodZ (rest (shape u) (d :: tl)) + F0)%Z ltac:(lia) x Sx) as (x' & F' & H').
    + intros c Hc. rewrite Rx, Ru, R by exact Hc. reflexivity.
    + exists x', F'. replace ((rev ws ++ [u]) ++ done) with (rev ws ++ u :: done) by (rewrite <- app_assoc; reflexivity). exact H'.
Qed.

Lemma forallb_len d n C ws w : Forall (shareable d n C) (w :: ws) ->
  length (shape w) = n /\ forallb (fun m => Nat.eqb (length (shape m)) (length (shape w))) (w :: ws) = true.
Proof.
  intros F. assert (L : length (shape w) = n) by (inversion F as [|? ? [H _]]; exact H). split; [exact L|].
  apply forallb_forall. intros m Hm. rewrite Forall_forall in F. destruct (F m Hm) as [E _]. apply Nat.eqb_eq. congruence.
Qed.

(** The exact list passed to the statistic. *)
Lemma channel_scale_exact stat d n C ws : (d < n)%nat -> (0 < C)%Z -> ws <> [] -> Forall (shareable d n C) ws ->
  exists tl sc, Permutation (d :: tl) (seq 0 n)
    /\ weight_stats (RowStat stat) PerChannel d C ws = Some sc
    /\ shape sc = set_nth d C (repeat 1%Z n)
    /\ forall idx, length idx = n -> (0 <= nth d idx 0 < C)%Z ->
       bcast sc idx = stat (flat_map (fun w => map (at_ w) (order (shape w) (d :: tl) (nth d idx 0%Z))) (rev ws)).
Proof.
  intros Hd HC Hne F. destruct (weight_dims n d Hd) as (tl & Ed & P). exists tl.
  destruct (stats_input_channels _ d tl n C ws HC Ed P Hne F) as (x & Fx & Ex & Sx & HF & Rx).
  destruct ws as [|w ws]; [congruence|]. destruct (forallb_len _ _ _ _ _ F) as [L Fb].
  unfold weight_stats. rewrite Fb. cbn [negb]. rewrite L, Ex. cbn [obind].
  destruct (view_channel (reduce_rows stat x) n d C Hd) as (sc & Es & Ss & Bs).
  { unfold reduce_rows. cbn [shape]. rewrite Sx. reflexivity. }
  unfold channel_shape. exists sc. split; [exact P|]. split; [exact Es|]. split; [exact Ss|].
  intros idx Li Hi. rewrite (Bs idx Li Hi). unfold reduce_rows. cbn [at_ nth]. rewrite Rx by exact Hi. reflexivity.
Qed.

(** For any statistic, any output channel dimension and any number of layers sharing the
    quantizer, the scale has one entry per output channel in a shape that broadcasts along the
    output channel dimension, and the entry used for a weight is the statistic of exactly the
    weights of its channel in all layers. *)
Theorem C83_channel_scale : forall stat d n C ws,
  (d < n)%nat -> (0 < C)%Z -> ws <> [] -> Forall (shareable d n C) ws ->
  exists sc, weight_stats (RowStat stat) PerChannel d C ws = Some sc
    /\ shape sc = set_nth d C (repeat 1%Z n)
    /\ forall w idx, In w ws -> in_box (shape w) idx ->
       exists L, Permutation L (flat_map (channel_values d (nth d idx 0%Z)) ws) /\ bcast sc idx = stat L.
Proof.
  intros stat d n C ws Hd HC Hne F. destruct (channel_scale_exact stat d n C ws Hd HC Hne F) as (tl & sc & P & E & S & B).
  exists sc. split; [exact E|]. split; [exact S|]. intros w idx Hw Hi.
  rewrite Forall_forall in F. destruct (F w Hw) as (L & N & W).
  apply in_box_nth in Hi. destruct Hi as [Li Hb]. specialize (Hb d ltac:(lia)). rewrite N in Hb.
  eexists. split; [|apply B; [congruence|exact Hb]].
  transitivity (flat_map (fun w => map (at_ w) (order (shape w) (d :: tl) (nth d idx 0%Z))) ws).
  - apply Permutation_flat_map. symmetry. apply Permutation_rev.
  - clear E S B Hne Hw. assert (F' : forall u, In u ws -> shareable d n C u) by exact F. clear F.
    induction ws as [|u ws IH]; [reflexivity|]. cbn [flat_map]. apply Permutation_app.
    + destruct (F' u (or_introl eq_refl)) as (Lu & Nu & Wu). unfold channel_values. apply Permutation_map.
      apply order_spec; [rewrite Lu; exact P|exact Wu|rewrite Nu; exact Hb].
    + apply IH. intros v Hv. apply F'. now right.
Qed.

(** Weights of other channels have no influence. *)
Theorem C83_channels_independent : forall stat d n C ws ws' sc sc' idx,
  (d < n)%nat -> (0 < C)%Z -> ws <> [] -> Forall (shareable d n C) ws ->
  Forall2 (fun w w' => shape w' = shape w
     /\ forall i, in_box (shape w) i -> nth d i 0%Z = nth d idx 0%Z -> at_ w' i = at_ w i) ws ws' ->
  weight_stats (RowStat stat) PerChannel d C ws = Some sc ->
  weight_stats (RowStat stat) PerChannel d C ws' = Some sc' ->
  length idx = n -> (0 <= nth d idx 0 < C)%Z -> bcast sc' idx = bcast sc idx.
Proof.
  intros stat d n C ws ws' sc sc' idx Hd HC Hne F H2 E E' Li Hi.
  assert (F' : Forall (shareable d n C) ws').
  { clear - F H2. induction H2 as [|w w' ws ws' [S _] H2 IH]; constructor; inversion F as [|? ? (A & B & W)]; subst.
    - unfold shareable, well_shaped. rewrite S. auto.
    - apply IH. assumption. }
  assert (Hne' : ws' <> []) by (intros ->; inversion H2; subst; congruence).
  destruct (weight_dims n d Hd) as (t0 & Ed & P0).
  assert (G : forall us su, us <> [] -> Forall (shareable d n C) us ->
     weight_stats (RowStat stat) PerChannel d C us = Some su ->
     bcast su idx = stat (flat_map (fun w => map (at_ w) (order (shape w) (d :: t0) (nth d idx 0%Z))) (rev us))).
  { intros us su Hu Fu Eu.
    destruct (stats_input_channels _ d t0 n C us HC Ed P0 Hu Fu) as (x & Fx & Ex & Sx & HF & Rx).
    destruct us as [|w us]; [congruence|]. destruct (forallb_len _ _ _ _ _ Fu) as [L Fb].
    unfold weight_stats in Eu. rewrite Fb in Eu. cbn [negb] in Eu. rewrite L, Ex in Eu. cbn [obind] in Eu.
    destruct (view_channel (reduce_rows stat x) n d C Hd) as (s & Es & Ss & Bs).
    { unfold reduce_rows. cbn [shape]. rewrite Sx. reflexivity. }
    unfold channel_shape in Eu. rewrite Es in Eu. injection Eu as <-.
    rewrite (Bs idx Li Hi). unfold reduce_rows. cbn [at_ nth]. rewrite Rx by exact Hi. reflexivity. }
  rewrite (G ws' sc' Hne' F' E'), (G ws sc Hne F E). f_equal.
  clear - H2 F P0 Hi. induction H2 as [|w w' ws ws' [S A] H2 IH]; [reflexivity|]. cbn [rev].
  inversion F as [|? ? (L & N & W) F0]; subst. rewrite !flat_map_app, IH by assumption. f_equal.
  cbn [flat_map]. rewrite !app_nil_r, S. apply map_ext_in. intros i Hin.
  apply (Permutation_in _ (order_spec (shape w) d t0 _ ltac:(exact P0) W Hi)) in Hin.
  apply filter_In in Hin. destruct Hin as [I1 I2]. apply in_indices in I1. apply Z.eqb_eq in I2. apply A; assumption.
Qed.

(** One scale per tensor: the statistic of all weights of all layers, whatever their shapes
    (of equal rank). *)
Theorem C83_tensor_scale : forall stat d n C ws,
  ws <> [] -> Forall (fun w => length (shape w) = n /\ well_shaped w) ws ->
  exists sc, weight_stats (RowStat stat) PerTensor d C ws = Some sc /\ shape sc = []
    /\ forall idx, exists L, Permutation L (flat_map all_values ws) /\ bcast sc idx = stat L.
Proof.
  intros stat d n C ws Hne F. destruct ws as [|w ws]; [congruence|]. clear Hne.
  assert (Fb : forallb (fun m => Nat.eqb (length (shape m)) (length (shape w))) (w :: ws) = true).
  { apply forallb_forall. intros m Hm. rewrite Forall_forall in F. apply Nat.eqb_eq.
    destruct (F m Hm) as [-> _]. destruct (F w (or_introl eq_refl)) as [-> _]. reflexivity. }
  unfold weight_stats. rewrite Fb. cbn [negb].
  assert (V : forall u, (length (shape u) = n /\ well_shaped u) -> exists v, over_tensor_view u = Some v
     /\ shape v = [prodZ (shape u)] /\ (0 <= prodZ (shape u))%Z
     /\ Permutation (map (fun r => at_ v [r]) (zrange (prodZ (shape u)))) (all_values u)).
  { intros u [_ Wu]. unfold over_tensor_view, view. cbn [prodZ]. rewrite Z.mul_1_r, Z.eqb_refl.
    eexists. split; [reflexivity|]. split; [reflexivity|]. split; [apply prodZ_nonneg, Wu|]. cbn [at_].
    unfold all_values. rewrite <- (unflat_indices _ Wu), map_map. apply Permutation_refl'. apply map_ext.
    intros r. cbn [flat prodZ]. do 2 f_equal. lia. }
  assert (K : exists x Fx, stats_input over_tensor_view 0 (w :: ws) = Some x /\ shape x = [Fx]
     /\ Permutation (map (fun r => at_ x [r]) (zrange Fx)) (flat_map all_values (rev ws ++ [w]))).
  { inversion F as [|? ? Hw Hws]; subst. unfold stats_input.
    destruct (V w Hw) as (v & E & S & HF & R). rewrite E.
    assert (R' : Permutation (map (fun r => at_ v [r]) (zrange (prodZ (shape w)))) (flat_map all_values [w])).
    { cbn [flat_map]. rewrite app_nil_r. exact R. }
    clear R E F Fb. revert HF v S R'. generalize (prodZ (shape w)) as F0. generalize [w] as done.
    induction Hws as [|u ws Hu Hws IH]; intros done F0 HF v S R; cbn [fold_left rev app].
    - exists v, F0. auto.
    - destruct (V u Hu) as (vu & Eu & Su & HFu & Ru). cbn [obind]. rewrite Eu. cbn [obind].
      destruct (cat_flat vu v _ F0 Su S HFu HF) as (x & Ex & Sx & Rx). rewrite Ex.
      destruct (IH (u :: done) (prodZ (shape u) + F0)%Z ltac:(lia) x Sx) as (x' & F' & H').
      + rewrite Rx. cbn [flat_map]. apply Permutation_app; assumption.
      + exists x', F'. replace ((rev ws ++ [u]) ++ done) with (rev ws ++ u :: done) by (rewrite <- app_assoc; reflexivity). exact H'. }
  destruct K as (x & Fx & Ex & Sx & Rx). rewrite Ex. cbn [obind]. unfold view, reduce_all. cbn [shape prodZ Z.eqb Pos.eqb].
  eexists. split; [reflexivity|]. split; [reflexivity|]. intros idx. cbn [bcast shape at_].
  rewrite Sx. cbn [nth]. eexists. split; [|reflexivity].
  rewrite Rx. apply Permutation_flat_map. change (w :: ws) with ([w] ++ ws). rewrite Permutation_app_comm.
  apply Permutation_app_head. symmetry. apply Permutation_rev.
Qed.

(** MAX_AVE: the mean, over the channels of all layers, of the channel statistics. *)
Theorem C83_max_ave_scale : forall stat d n C ws,
  (d < n)%nat -> ws <> [] ->
  Forall (fun w => length (shape w) = n /\ well_shaped w /\ (0 < nth d (shape w) 0)%Z) ws ->
  (forall w w', In w ws -> In w' ws -> length (channel_values d 0 w) = length (channel_values d 0 w')) ->
  exists sc Ls, weight_stats (MaxAve stat) PerTensor d C ws = Some sc /\ shape sc = []
    /\ Forall2 (@Permutation Q) Ls (flat_map (fun w => map (fun c => channel_values d c w) (zrange (nth d (shape w) 0%Z))) (rev ws))
    /\ forall idx, bcast sc idx = Qsum (map stat Ls) / inject_Z (Z.of_nat (length Ls)).
Proof.
  intros stat d n C ws Hd Hne F HF. destruct (weight_dims n d Hd) as (tl & Ed & P).
  set (chans := fun w => map (fun c => map (at_ w) (order (shape w) (d :: tl) c)) (zrange (nth d (shape w) 0%Z))).
  assert (LenC : forall w, In w ws -> Z.of_nat (length (channel_values d 0 w)) = prodZ (rest (shape w) (d :: tl))).
  { intros w Hw. rewrite Forall_forall in F. destruct (F w Hw) as (L & W & N). unfold channel_values.
    rewrite map_length. rewrite <- (Permutation_length (order_spec (shape w) d tl 0 ltac:(rewrite L; exact P) W ltac:(lia))).
    unfold order. rewrite map_length, zrange_length. pose proof (prodZ_nonneg _ (rest_nonneg _ (d :: tl) W)). lia. }
  destruct ws as [|w ws]; [congruence|].
  set (Fx := prodZ (rest (shape w) (d :: tl))).
  assert (V : forall u, In u (w :: ws) -> exists v, over_output_channels_view (permute_dims n d) u = Some v
    /\ shape v = [nth d (shape u) 0%Z; Fx] /\ (0 < nth d (shape u) 0)%Z /\ map (row v) (zrange (nth d (shape u) 0%Z)) = chans u).
  { intros u Hu. rewrite Forall_forall in F. destruct (F u Hu) as (L & W & N).
    assert (P' : Permutation (d :: tl) (seq 0 (length (shape u)))) by (rewrite L; exact P).
    assert (Ed' : dims_of (permute_dims n d) (length (shape u)) = d :: tl) by (rewrite L; exact Ed).
    destruct (channels_view _ u d tl Ed' P' W N) as (v & E & S & R).
    exists v. split; [exact E|]. split.
    - rewrite S. unfold Fx. rewrite <- (LenC u Hu), <- (LenC w (or_introl eq_refl)).
      rewrite (HF u w Hu (or_introl eq_refl)). reflexivity.
    - split; [exact N|]. unfold chans. apply map_ext_in. intros c Hc. apply R, in_zrange, Hc. }
  assert (Fb : forallb (fun m => Nat.eqb (length (shape m)) (length (shape w))) (w :: ws) = true).
  { apply forallb_forall. intros m Hm. rewrite Forall_forall in F. apply Nat.eqb_eq.
    destruct (F m Hm) as [-> _]. destruct (F w (or_introl eq_refl)) as [-> _]. reflexivity. }
  assert (Lw : length (shape w) = n) by (rewrite Forall_forall in F; apply (F w (or_introl eq_refl))).
  assert (K : exists x Cx, stats_input (over_output_channels_view (permute_dims n d)) 0 (w :: ws) = Some x /\ shape x = [Cx; Fx]
     /\ (0 <= Cx)%Z /\ map (row x) (zrange Cx) = flat_map chans (rev ws ++ [w])).
  { unfold stats_input. destruct (V w (or_introl eq_refl)) as (v & E & S & N & R). rewrite E.
    assert (R' : map (row v) (zrange (nth d (shape w) 0%Z)) = flat_map chans [w]) by (cbn [flat_map]; rewrite app_nil_r; exact R).
    assert (V' : forall u, In u ws -> exists v, over_output_channels_view (permute_dims n d) u = Some v
      /\ shape v = [nth d (shape u) 0%Z; Fx] /\ (0 < nth d (shape u) 0)%Z /\ map (row v) (zrange (nth d (shape u) 0%Z)) = chans u)
      by (intros u Hu; apply V; now right).
    assert (N0 : (0 <= nth d (shape w) 0)%Z) by lia.
    clear R E V N F Fb HF LenC Hne. clearbody Fx. revert N0 v S R'. generalize (nth d (shape w) 0%Z) as C0. generalize [w] as done.
    induction ws as [|u ws IH]; intros done C0 N0 v S R; cbn [fold_left rev app].
    - exists v, C0. auto.
    - destruct (V' u (or_introl eq_refl)) as (vu & Eu & Su & Nu & Ru). cbn [obind]. rewrite Eu. cbn [obind].
      destruct (cat_cols vu v _ C0 Fx Su S ltac:(lia) N0) as (x & Ex & Sx & Rx). rewrite Ex.
      destruct (IH ltac:(intros a Ha; apply V'; now right) (u :: done) (nth d (shape u) 0 + C0)%Z ltac:(lia) x Sx) as (x' & C' & H').
      + rewrite Rx, Ru, R. reflexivity.
      + exists x', C'. replace ((rev ws ++ [u]) ++ done) with (rev ws ++ u :: done) by (rewrite <- app_assoc; reflexivity). exact H'. }
  destruct K as (x & Cx & Ex & Sx & HCx & Rx).
  unfold weight_stats. rewrite Fb. cbn [negb]. rewrite Lw, Ex. cbn [obind]. unfold view, mean_rows. cbn [shape prodZ Z.eqb Pos.eqb].
  eexists. exists (map (row x) (zrange Cx)). split; [reflexivity|]. split; [reflexivity|]. split.
  - rewrite Rx. change (rev (w :: ws)) with (rev ws ++ [w]).
    assert (Fu : forall u, In u (rev ws ++ [w]) -> length (shape u) = n /\ well_shaped u /\ (0 < nth d (shape u) 0)%Z).
    { intros u Hu. rewrite Forall_forall in F. apply F. change (w :: ws) with ([w] ++ ws).
      apply in_or_app. apply in_app_or in Hu. destruct Hu as [Hu|Hu]; [right; apply in_rev; exact Hu|left; exact Hu]. }
    revert Fu. generalize (rev ws ++ [w]) as us. induction us as [|u us IH]; intros Fu; [constructor|].
    cbn [flat_map]. apply Forall2_app; [|apply IH; intros a Ha; apply Fu; now right].
    destruct (Fu u (or_introl eq_refl)) as (L & W & N). unfold chans.
    assert (B : forall c, In c (zrange (nth d (shape u) 0%Z)) -> (0 <= c < nth d (shape u) 0)%Z) by (intros c; apply in_zrange).
    revert B. generalize (zrange (nth d (shape u) 0%Z)) as cs. induction cs as [|c cs IHc]; intros B; cbn [map]; constructor.
    + unfold channel_values. apply Permutation_map, order_spec; [rewrite L; exact P|exact W|apply B; now left].
    + apply IHc. intros a Ha. apply B. now right.
  - intros idx. cbn [bcast shape at_]. rewrite Sx. cbn [nth]. rewrite !map_map, !map_length, zrange_length. f_equal. f_equal. lia.
Qed.

(** Activations: any permutation that moves the channel dimension first, with the matching
    broadcastable shape. *)
Theorem C83_activation_channel_scale : forall stat d tl x,
  Permutation (d :: tl) (seq 0 (length (shape x))) -> well_shaped x -> (0 < nth d (shape x) 0)%Z ->
  exists sc, act_stats stat (Some (d :: tl)) (set_nth d (nth d (shape x) 0%Z) (repeat 1%Z (length (shape x)))) x = Some sc
    /\ forall idx, in_box (shape x) idx ->
       exists L, Permutation L (channel_values d (nth d idx 0%Z) x) /\ bcast sc idx = stat L.
Proof.
  intros stat d tl x P W N. assert (Dd : (d < length (shape x))%nat) by (apply (dims_in (d :: tl) _ P); now left).
  destruct (channels_view (Some (d :: tl)) x d tl eq_refl P W N) as (v & E & S & R).
  unfold act_stats. rewrite E. cbn [obind].
  destruct (view_channel (reduce_rows stat v) (length (shape x)) d (nth d (shape x) 0%Z) Dd) as (sc & Es & Ss & Bs).
  { unfold reduce_rows. cbn [shape]. rewrite S. reflexivity. }
  exists sc. split; [exact Es|]. intros idx Hi. apply in_box_nth in Hi. destruct Hi as [Li Hb]. specialize (Hb d Dd).
  rewrite (Bs idx Li Hb). unfold reduce_rows. cbn [at_ nth]. rewrite R by exact Hb.
  eexists. split; [|reflexivity]. unfold channel_values. apply Permutation_map, order_spec; assumption.
Qed.

(** The number of output channels must be the size of the weight's output channel dimension:
    otherwise the module raises. *)
Theorem C83_channel_mismatch_raises : forall stat d n C w,
  (d < n)%nat -> length (shape w) = n -> well_shaped w -> (0 < nth d (shape w) 0)%Z ->
  nth d (shape w) 0%Z <> C -> weight_stats (RowStat stat) PerChannel d C [w] = None.
Proof.
  intros stat d n C w Hd L W N Hc. unfold weight_stats. cbn [forallb]. rewrite Nat.eqb_refl. cbn [andb negb stats_input fold_left].
  rewrite L. destruct (weight_dims n d Hd) as (tl & Ed & P). rewrite <- L in Ed at 2. rewrite <- L in P.
  destruct (channels_view _ w d tl Ed P W N) as (v & E & S & R). rewrite E. cbn [obind]. unfold view, reduce_rows, channel_shape.
  cbn [shape]. rewrite S, prod_onehot by exact Hd. cbn [nth prodZ]. rewrite Z.mul_1_r.
  destruct (nth d (shape w) 0 =? C)%Z eqn:E0; [apply Z.eqb_eq in E0; contradiction|reflexivity].
Qed.

(** A transposed convolution with groups has weight shape (in, out / groups, ...) but reports
    out_channels = out: every per-channel weight quantizer raises for it. *)
Theorem C83_grouped_transposed_refuted : forall stat (groups per_group in_ch k : Z) w,
  (1 < groups)%Z -> (0 < per_group)%Z -> (0 < in_ch)%Z -> (0 < k)%Z ->
  shape w = [in_ch; per_group; k; k] ->
  weight_stats (RowStat stat) PerChannel 1 (groups * per_group) [w] = None.
Proof.
  intros stat groups pg ic k w Hg Hp Hi Hk S. apply (C83_channel_mismatch_raises stat 1 4).
  - lia.
  - rewrite S. reflexivity.
  - unfold well_shaped. rewrite S. repeat (constructor; [lia|]). constructor.
  - rewrite S. cbn [nth]. exact Hp.
  - rewrite S. cbn [nth]. nia.
Qed.

(** A concrete transposed-convolution weight (2 inputs, 3 outputs, kernel 2), AbsMax. *)
Definition absmax (l : list Q) : Q := fold_right (fun a m => if Qle_bool m (Qabs a) then Qabs a else m) 0 l.
Example C83_nontrivial :
  let w := T [2; 3; 2]%Z (fun i => inject_Z (flat [2; 3; 2]%Z i - 6)) in
  exists sc, weight_stats (RowStat absmax) PerChannel 1 3 [w] = Some sc
    /\ shape sc = [1; 3; 1]%Z
    /\ map (fun c => bcast sc [1; c; 0]%Z) [0; 1; 2]%Z = [6; 4; 5]
    /\ shareable 1 3 3 w.
Proof.
  eexists. split; [reflexivity|]. split; [reflexivity|]. split; [vm_compute; reflexivity|].
  split; [reflexivity|]. split; [reflexivity|]. unfold well_shaped. cbn [shape]. repeat (constructor; [lia|]). constructor.
Qed.

Print Assumptions C83_channel_scale.
Print Assumptions C83_channels_independent.
Print Assumptions C83_tensor_scale.
Print Assumptions C83_max_ave_scale.
Print Assumptions C83_activation_channel_scale.
Print Assumptions C83_channel_mismatch_raises.
Print Assumptions C83_grouped_transposed_refuted.
