(** Properties C81 (percentile statistics) and C82 (percentile-calibrated asymmetric
    activation quantizer). *)
From Coq Require Import Permutation Sorted.
From Verif Require Import QUtil Log2Q Ops OpsProofs IntQuant IntQuantProofs IntQuantProps
  Scaling ScalingProofs ScalingProps Percentile.
Open Scope Q_scope.

(** Number of elements satisfying a test. *)
Definition count (p : Q -> bool) (l : list Q) : Z := Z.of_nat (length (filter p l)).
Definition n_above (v : Q) (l : list Q) : Z := count (fun x => Qlt_bool v x) l.
Definition n_from (v : Q) (l : list Q) : Z := count (fun x => Qle_bool v x) l.
Definition n_below (v : Q) (l : list Q) : Z := count (fun x => Qlt_bool x v) l.
Definition n_upto (v : Q) (l : list Q) : Z := count (fun x => Qle_bool x v) l.
Definition len (l : list Q) : Z := Z.of_nat (length l).

Lemma count_perm p l m : Permutation l m -> count p l = count p m.
Proof.
  intros H. unfold count. f_equal. induction H; cbn [filter]; auto; [| |congruence].
  - destruct (p x); cbn [length]; congruence.
  - destruct (p x), (p y); reflexivity.
Qed.
Lemma count_app p l m : count p (l ++ m) = (count p l + count p m)%Z.
Proof. unfold count. rewrite filter_app, app_length. lia. Qed.
Lemma count_nonneg p l : (0 <= count p l)%Z.
Proof. unfold count. lia. Qed.
Lemma count_none p l : (forall x, In x l -> p x = false) -> count p l = 0%Z.
Proof.
  intros H. unfold count. replace (filter p l) with (@nil Q); [reflexivity|].
  induction l as [|a l IH]; [reflexivity|]. cbn [filter]. rewrite (H a) by (now left).
  apply IH. intros x Hx. apply H. now right.
Qed.
Lemma count_all p l : (forall x, In x l -> p x = true) -> count p l = len l.
Proof.
  intros H. unfold count, len. f_equal. induction l as [|a l IH]; [reflexivity|].
  cbn [filter]. rewrite (H a) by (now left). cbn [length]. rewrite IH; [reflexivity|].
  intros x Hx. apply H. now right.
Qed.
Lemma count_le p l : (count p l <= len l)%Z.
Proof.
  unfold count, len. induction l as [|a l IH]; cbn [filter]; [lia|]. destruct (p a); cbn [length]; lia.
Qed.

Lemma insert_perm x l : Permutation (x :: l) (insert x l).
Proof.
  induction l as [|y l IH]; cbn [insert]; [reflexivity|]. destruct (Qle_bool x y); [reflexivity|].
  rewrite perm_swap. constructor. exact IH.
Qed.
Lemma sort_perm l : Permutation l (sort l).
Proof.
  induction l as [|x l IH]; cbn [sort fold_right]; [reflexivity|]. rewrite <- insert_perm. constructor. exact IH.
Qed.
Lemma insert_sorted x l : StronglySorted Qle l -> StronglySorted Qle (insert x l).
Proof.
  induction 1 as [|y l Hs IH Hf]; cbn [insert]; [repeat constructor|].
  destruct (Qle_bool x y) eqn:E.
  - apply Qle_bool_iff in E. constructor; [constructor; assumption|]. constructor; [exact E|].
    eapply Forall_impl; [|exact Hf]. intros a Ha. cbv beta in Ha. lra.
  - apply Qle_bool_false in E. constructor; [exact IH|].
    apply Forall_forall. intros a Ha. apply (Permutation_in _ (Permutation_sym (insert_perm x l))) in Ha.
    destruct Ha as [<-|Ha]; [lra|]. rewrite Forall_forall in Hf. apply Hf, Ha.
Qed.
Lemma sort_sorted l : StronglySorted Qle (sort l).
Proof. induction l; cbn [sort fold_right]; [constructor|]. apply insert_sorted. exact IHl. Qed.

Lemma sorted_split a v c : StronglySorted Qle (a ++ v :: c) ->
  (forall x, In x a -> x <= v) /\ (forall x, In x c -> v <= x).
Proof.
  induction a as [|y a IH]; cbn [app]; intros H; inversion H as [|? ? Hs Hf]; subst.
  - split; [intros x []|]. rewrite Forall_forall in Hf. exact Hf.
  - destruct (IH Hs) as [H1 H2]. split; [|exact H2]. intros x [<-|Hx]; [|apply H1, Hx].
    rewrite Forall_forall in Hf. apply Hf, in_or_app. right. now left.
Qed.

Lemma sort_length l : length (sort l) = length l.
Proof. symmetry. apply Permutation_length, sort_perm. Qed.

(** The k-th value: at least k elements are not above it and fewer than k are below it. *)
Lemma kth_spec l k v : kthvalue l k = Some v ->
  (1 <= k <= len l)%Z /\ In v l /\ (k <= n_upto v l)%Z /\ (n_below v l < k)%Z
  /\ (n_above v l <= len l - k)%Z /\ (len l - k < n_from v l)%Z.
Proof.
  unfold kthvalue. destruct ((1 <=? k) && (k <=? Z.of_nat (length l)))%Z eqn:E; [|discriminate].
  apply andb_prop in E. destruct E as [E1 E2]. apply Z.leb_le in E1, E2. intros H.
  destruct (nth_error_split _ _ H) as (a & c & Es & La).
  pose proof (sort_sorted l) as HS. rewrite Es in HS. destruct (sorted_split _ _ _ HS) as [Ha Hc].
  assert (P : Permutation l (a ++ v :: c)) by (rewrite <- Es; apply sort_perm).
  assert (L : len l = Z.of_nat (length a + S (length c))).
  { unfold len. rewrite (Permutation_length P), app_length. reflexivity. }
  assert (Lk : Z.of_nat (length a) = (k - 1)%Z) by lia.
  assert (C1 : forall p x, count p (x :: c) = ((if p x then 1 else 0) + count p c)%Z).
  { intros p x. unfold count. cbn [filter]. destruct (p x); cbn [length]; lia. }
  split; [unfold len; lia|].
  split. { apply (Permutation_in _ (Permutation_sym P)), in_or_app. right. now left. }
  unfold n_upto, n_below, n_above, n_from.
  rewrite !(count_perm _ _ _ P), !count_app, !C1.
  pose proof (fun p => count_le p a) as La'. pose proof (fun p => count_le p c) as Lc'.
  pose proof (fun p => count_nonneg p a) as Na. pose proof (fun p => count_nonneg p c) as Nc.
  unfold len in La', Lc'.
  assert (V1 : Qle_bool v v = true) by (apply Qle_bool_iff; lra).
  assert (V2 : Qlt_bool v v = false) by (apply Qlt_bool_false; lra).
  rewrite V1, V2.
  rewrite (count_all (fun x => Qle_bool x v) a) by (intros x Hx; apply Qle_bool_iff, Ha, Hx).
  rewrite (count_none (fun x => Qlt_bool x v) c) by (intros x Hx; apply Qlt_bool_false, Hc, Hx).
  rewrite (count_none (fun x => Qlt_bool v x) a) by (intros x Hx; apply Qlt_bool_false, Ha, Hx).
  rewrite (count_all (fun x => Qle_bool v x) c) by (intros x Hx; apply Qle_bool_iff, Hc, Hx).
  unfold len in L |- *.
  specialize (Nc (fun x => Qle_bool x v)). specialize (La' (fun x => Qlt_bool x v)).
  specialize (Lc' (fun x => Qlt_bool v x)). specialize (Na (fun x => Qle_bool v x)). lia.
Qed.

Lemma kth_defined l k : (1 <= k <= len l)%Z <-> exists v, kthvalue l k = Some v.
Proof.
  split; [|intros [v H]; apply kth_spec in H; tauto].
  intros H. unfold kthvalue. replace ((1 <=? k) && (k <=? Z.of_nat (length l)))%Z with true.
  - destruct (nth_error (sort l) (Z.to_nat (k - 1))) as [v|] eqn:E; [now exists v|].
    apply nth_error_None in E. rewrite sort_length in E. unfold len in H. lia.
  - symmetry. apply andb_true_intro. unfold len in H. split; apply Z.leb_le; lia.
Qed.

(** The counting conditions determine the value. *)
Lemma count_mono (p p' : Q -> bool) l : (forall x, p x = true -> p' x = true) -> (count p l <= count p' l)%Z.
Proof.
  intros H. unfold count. induction l as [|a l IH]; cbn [filter]; [lia|].
  destruct (p a) eqn:E; [rewrite (H _ E)|destruct (p' a)]; cbn [length]; lia.
Qed.
Lemma kth_le l m k j v w : Permutation l m -> (k <= j)%Z ->
  kthvalue l k = Some v -> kthvalue m j = Some w -> v <= w.
Proof.
  intros P Hk Hv Hw. destruct (Qlt_le_dec w v) as [C|C]; [exfalso|exact C].
  apply kth_spec in Hv, Hw. destruct Hv as (_ & _ & _ & Hv & _), Hw as (_ & _ & Hw & _ & _).
  unfold n_below in Hv. rewrite (count_perm _ _ _ P) in Hv. unfold n_upto in Hw.
  assert (count (fun x => Qle_bool x w) m <= count (fun x => Qlt_bool x v) m)%Z; [|lia].
  apply count_mono. intros x Hx. apply Qle_bool_iff in Hx. apply Qlt_bool_iff. lra.
Qed.

Lemma map_count p f l : count p (map f l) = count (fun x => p (f x)) l.
Proof.
  unfold count. f_equal. induction l as [|a l IH]; [reflexivity|]. cbn [map filter].
  destruct (p (f a)); cbn [length]; congruence.
Qed.

(** ** C81 *)

(** [AbsPercentile]: the result is the magnitude of an element; at most (1 - q/100) n + 1/2
    elements have a larger magnitude, and no smaller threshold is good enough: at least that
    many have a magnitude not below it. *)
Theorem C81_abs_percentile : forall q x v,
  abs_percentile q x = Some v ->
  (exists e, In e x /\ v = Qabs e)
  /\ inject_Z (count (fun e => Qlt_bool v (Qabs e)) x) < inject_Z (len x) * (1 - q / 100) + (1 # 2)
  /\ inject_Z (len x) * (1 - q / 100) + (1 # 2) <= inject_Z (count (fun e => Qle_bool v (Qabs e)) x).
Proof.
  intros q x v H. unfold abs_percentile in H. apply kth_spec in H.
  destruct H as (_ & Hin & _ & _ & Ha & Hf).
  split. { apply in_map_iff in Hin. destruct Hin as (e & <- & He). now exists e. }
  unfold n_above, n_from in *. rewrite map_count in Ha, Hf.
  assert (L : len (map Qabs x) = len x) by (unfold len; now rewrite map_length). rewrite L in *.
  unfold rank_high, numel in *. fold (len x) in *. set (n := len x) in *.
  pose proof (Qfloor_lb ((1 # 100) * q * inject_Z n + (1 # 2))) as F1.
  pose proof (Qfloor_ub ((1 # 100) * q * inject_Z n + (1 # 2))) as F2.
  set (k := Qfloor _) in *.
  apply injz_le in Ha. apply Zlt_le_succ, injz_le in Hf. unfold Z.succ in Hf.
  rewrite inject_Z_minus in Ha. rewrite inject_Z_plus, inject_Z_minus, inject_Z_1 in Hf.
  assert (E : inject_Z n * (1 - q / 100) == inject_Z n - (1 # 100) * q * inject_Z n) by field.
  rewrite E. split; lra.
Qed.

(** It is defined exactly when q% of the elements amounts to half an element; below that the
    rank is 0 and torch.kthvalue raises. *)
Theorem C81_abs_percentile_defined : forall q x, q <= 100 -> x <> [] ->
  (exists v, abs_percentile q x = Some v) <-> 1 # 2 <= q / 100 * inject_Z (len x).
Proof.
  intros q x Hq Hx. unfold abs_percentile. rewrite <- kth_defined.
  assert (L : len (map Qabs x) = len x) by (unfold len; now rewrite map_length). rewrite L.
  unfold rank_high, numel. fold (len x). set (n := len x).
  assert (Hn : (1 <= n)%Z). { unfold n, len. destruct x; [congruence|cbn [length]; lia]. }
  pose proof (Qfloor_lb ((1 # 100) * q * inject_Z n + (1 # 2))) as F1.
  pose proof (Qfloor_ub ((1 # 100) * q * inject_Z n + (1 # 2))) as F2.
  set (k := Qfloor _) in *.
  assert (E : q / 100 * inject_Z n == (1 # 100) * q * inject_Z n) by field. rewrite E.
  assert (U : (k <= n)%Z).
  { apply injz_lt_succ. apply injz_le in Hn. rewrite inject_Z_1 in Hn.
    assert ((1 # 100) * q * inject_Z n <= 1 * inject_Z n) by (apply Qmult_le_compat_r; lra). lra. }
  split.
  - intros [H _]. apply injz_le in H. rewrite inject_Z_1 in H. lra.
  - intros H. split; [|exact U]. apply injz_lt_succ. rewrite inject_Z_1. lra.
Qed.

Theorem C81_zero_rank_refuted :
  exists q x, 0 < q /\ q <= 100 /\ x <> [] /\ abs_percentile q x = None.
Proof. exists 10, [1; 2; 3; 4]. repeat split; try reflexivity; discriminate. Qed.

(** The 100th percentile is the largest magnitude. *)
Theorem C81_hundred_is_max : forall x v m,
  abs_percentile 100 x = Some v -> abs_max x = Some m -> v == m.
Proof.
  intros x v m H Hm. destruct (abs_max_spec _ _ Hm) as [Hub (e & He & Ee)].
  pose proof (C81_abs_percentile _ _ _ H) as ((e' & He' & ->) & Ha & _).
  assert (Qabs e' <= m) by (apply Hub, He').
  destruct (Qlt_le_dec (Qabs e') m) as [C|C]; [exfalso|lra].
  assert (1 <= count (fun a => Qlt_bool (Qabs e') (Qabs a)) x)%Z.
  { unfold count. assert (I : In e (filter (fun a => Qlt_bool (Qabs e') (Qabs a)) x)).
    { apply filter_In. split; [exact He|]. apply Qlt_bool_iff. rewrite Ee. exact C. }
    destruct (filter _ x); [destruct I|cbn [length]; lia]. }
  apply injz_le in H1. rewrite inject_Z_1 in H1.
  assert (E : inject_Z (len x) * (1 - 100 / 100) == 0) by field. rewrite E in Ha. lra.
Qed.

(** Monotone in the percentage, and a function of the multiset of the elements. *)
Theorem C81_monotone : forall q q' x y v w, q <= q' -> Permutation x y ->
  abs_percentile q x = Some v -> abs_percentile q' y = Some w -> v <= w.
Proof.
  intros q q' x y v w Hq P Hv Hw. unfold abs_percentile in *.
  eapply kth_le; [apply Permutation_map, P| |exact Hv|exact Hw].
  unfold rank_high, numel. rewrite (Permutation_length P). apply Qfloor_mono.
  assert (0 <= inject_Z (Z.of_nat (length y))) by (apply (injz_le 0); lia).
  assert ((1 # 100) * q * inject_Z (Z.of_nat (length y)) <= (1 # 100) * q' * inject_Z (Z.of_nat (length y))).
  { apply Qmult_le_compat_r; lra. } lra.
Qed.

(** [NegativePercentileOrZero]: never positive, and less than q% of the elements lie below. *)
Theorem C81_negative_percentile : forall q x v,
  negative_percentile_or_zero q x = Some v ->
  v <= 0
  /\ inject_Z (n_below v x) < q / 100 * inject_Z (len x)
  /\ (v < 0 -> In v x /\ q / 100 * inject_Z (len x) <= inject_Z (n_upto v x)).
Proof.
  intros q x v H. unfold negative_percentile_or_zero in H.
  destruct (kthvalue x (rank_low q (numel x))) as [w|] eqn:E; [|discriminate]. injection H as <-.
  apply kth_spec in E. destruct E as (_ & Hin & Hu & Hb & _).
  unfold rank_low, numel in *. fold (len x) in *. set (n := len x) in *.
  pose proof (Qceiling_lb ((1 # 100) * q * inject_Z n)) as F1.
  pose proof (Qceiling_ub ((1 # 100) * q * inject_Z n)) as F2.
  set (k := Qceiling _) in *.
  assert (Eq : q / 100 * inject_Z n == (1 # 100) * q * inject_Z n) by field. rewrite Eq.
  split; [apply torch_min_r|]. split.
  - assert (n_below (torch_min w 0) x <= n_below w x)%Z.
    { apply count_mono. intros a Ha. apply Qlt_bool_iff in Ha. apply Qlt_bool_iff.
      pose proof (torch_min_l w 0). lra. }
    assert (H' : (n_below (torch_min w 0) x <= k - 1)%Z) by lia.
    apply injz_le in H'. rewrite inject_Z_minus, inject_Z_1 in H'. lra.
  - intros Hv. assert (Ew : torch_min w 0 = w).
    { revert Hv. unfold torch_min. destruct (Qle_bool w 0) eqn:E; [reflexivity|intros; lra]. }
    rewrite Ew in *. split; [exact Hin|]. apply injz_le in Hu. lra.
Qed.

(** It raises for the 0th percentile, whatever the tensor. *)
Theorem C81_negative_percentile_defined : forall q x, q <= 100 -> x <> [] ->
  (exists v, negative_percentile_or_zero q x = Some v) <-> 0 < q.
Proof.
  intros q x Hq Hx. unfold negative_percentile_or_zero.
  transitivity (exists v, kthvalue x (rank_low q (numel x)) = Some v).
  { destruct (kthvalue x _); split; intros [v H]; try discriminate; eauto. }
  rewrite <- kth_defined. unfold rank_low, numel. fold (len x). set (n := len x).
  assert (Hn : (1 <= n)%Z). { unfold n, len. destruct x; [congruence|cbn [length]; lia]. }
  assert (Hn' : 1 <= inject_Z n) by (apply (injz_le 1), Hn).
  pose proof (Qceiling_lb ((1 # 100) * q * inject_Z n)) as F1.
  pose proof (Qceiling_ub ((1 # 100) * q * inject_Z n)) as F2.
  set (k := Qceiling _) in *.
  split.
  - intros [H _]. apply injz_le in H. rewrite inject_Z_1 in H.
    destruct (Qlt_le_dec 0 q) as [C|C]; [exact C|exfalso].
    assert ((1 # 100) * q * inject_Z n <= 0 * inject_Z n) by (apply Qmult_le_compat_r; lra). lra.
  - intros H. split.
    + assert (0 < inject_Z k).
      { assert (0 * inject_Z n < (1 # 100) * q * inject_Z n) by (apply Qmult_lt_compat_r; lra). lra. }
      assert (0 < k)%Z by (apply injz_lt_inv; exact H0). lia.
    + apply injz_lt_succ.
      assert ((1 # 100) * q * inject_Z n <= 1 * inject_Z n) by (apply Qmult_le_compat_r; lra). lra.
Qed.

Theorem C81_zeroth_percentile_refuted :
  exists x, x <> [] /\ negative_percentile_or_zero 0 x = None /\ percentile_interval 0 100 x = None.
Proof. exists [-1; 2; 3]. split; [discriminate|split; reflexivity]. Qed.

(** With a reduction dimension, entry i is the statistic of the i-th slice alone. *)
Definition slice (x : mat) (d i : nat) : list Q :=
  match d with
  | O => map (fun j => ent x j i) (seq 0 (rows x))
  | _ => map (fun j => ent x i j) (seq 0 (cols x))
  end.
Definition n_slices (x : mat) (d : nat) : nat := match d with O => cols x | _ => rows x end.

Lemma all_some_nth {A} (l : list (option A)) m i : all_some l = Some m ->
  length m = length l /\ nth_error l i = option_map Some (nth_error m i).
Proof.
  revert m i. induction l as [|[a|] l IH]; intros m i H; cbn [all_some] in H; [| |discriminate].
  - injection H as <-. split; [reflexivity|]. destruct i; reflexivity.
  - destruct (all_some l) as [m'|]; [|discriminate]. injection H as <-.
    destruct (IH m' (pred i) eq_refl) as [L N]. split; [cbn [length]; congruence|].
    destruct i; [reflexivity|]. exact N.
Qed.

Lemma kth_dim_nth x k d out i v : kthvalue_dim x k d = Some out -> nth_error out i = Some v ->
  (i < n_slices x d)%nat /\ kthvalue (slice x d i) k = Some v.
Proof.
  intros H Hi. destruct (all_some_nth _ _ i H) as [L N]. rewrite Hi in N. cbn [option_map] in N.
  assert (Li : (i < n_slices x d)%nat).
  { assert (I : nth_error out i <> None) by congruence. apply nth_error_Some in I.
    rewrite L, map_length, seq_length in I. destruct d; exact I. }
  split; [exact Li|].
  rewrite nth_error_map in N.
  assert (S : nth_error (seq 0 (size x (other d))) i = Some i).
  { rewrite nth_error_nth' with (d := O).
    - rewrite seq_nth; [reflexivity|]. destruct d; exact Li.
    - rewrite seq_length. destruct d; exact Li. }
  rewrite S in N. cbn [option_map] in N. injection N as N. rewrite <- N. f_equal. destruct d; reflexivity.
Qed.

Lemma kth_dim_len x k d out : kthvalue_dim x k d = Some out -> length out = n_slices x d.
Proof.
  intros H. destruct (all_some_nth _ _ O H) as [L _]. rewrite L, map_length, seq_length. destruct d; reflexivity.
Qed.

Lemma slice_len x d i : length (slice x d i) = narrow_numel x (other d).
Proof. destruct d; unfold slice; rewrite map_length, seq_length; reflexivity. Qed.

Theorem C81_per_slice : forall q d x out,
  (abs_percentile_dim q d x = Some out -> length out = n_slices x d /\
     forall i v, nth_error out i = Some v -> abs_percentile q (slice x d i) = Some v)
  /\ (negative_percentile_dim q d x = Some out -> length out = n_slices x d /\
     forall i v, nth_error out i = Some v -> negative_percentile_or_zero q (slice x d i) = Some v).
Proof.
  intros q d x out. split; intros H.
  - unfold abs_percentile_dim in H. split; [apply (kth_dim_len _ _ _ _ H)|]. intros i v Hi.
    destruct (kth_dim_nth _ _ _ _ _ _ H Hi) as [_ K]. unfold abs_percentile, numel.
    rewrite slice_len. rewrite <- K. f_equal. destruct d; unfold slice; rewrite map_map; reflexivity.
  - unfold negative_percentile_dim in H.
    destruct (kthvalue_dim x _ d) as [l|] eqn:E; [|discriminate]. injection H as <-.
    split; [rewrite map_length; apply (kth_dim_len _ _ _ _ E)|]. intros i v Hi.
    rewrite nth_error_map in Hi. destruct (nth_error l i) as [u|] eqn:U; [|discriminate]. injection Hi as <-.
    destruct (kth_dim_nth _ _ _ _ _ _ E U) as [_ K]. unfold negative_percentile_or_zero, numel.
    rewrite slice_len, K. reflexivity.
Qed.

Theorem C81_interval_per_slice : forall lq hq d x out,
  percentile_interval_dim lq hq d x = Some out -> length out = n_slices x d /\
  forall i v, nth_error out i = Some v -> percentile_interval lq hq (slice x d i) = Some v.
Proof.
  intros lq hq d x out H. unfold percentile_interval_dim in H.
  destruct (kthvalue_dim x (rank_low _ _) d) as [lo|] eqn:E1; [|discriminate].
  destruct (kthvalue_dim x (rank_high _ _) d) as [hi|] eqn:E2; [|discriminate]. injection H as <-.
  pose proof (kth_dim_len _ _ _ _ E1) as L1. pose proof (kth_dim_len _ _ _ _ E2) as L2.
  assert (G : forall (l h : list Q), length l = length h ->
     length (map2 (fun l h => Qabs (h - torch_min l 0)) l h) = length l /\
     forall i v, nth_error (map2 (fun l h => Qabs (h - torch_min l 0)) l h) i = Some v ->
     exists a b, nth_error l i = Some a /\ nth_error h i = Some b /\ v = Qabs (b - torch_min a 0)).
  { induction l as [|a l IH]; intros [|b h] Lh; try discriminate.
    - split; [reflexivity|]. intros [|i] v Hv; discriminate.
    - injection Lh as Lh. destruct (IH h Lh) as [I1 I2]. cbn [map2]. split; [cbn [length]; congruence|].
      intros [|i] v Hv; cbn [nth_error] in *; [injection Hv as <-; eauto|apply I2, Hv]. }
  destruct (G lo hi ltac:(congruence)) as [G1 G2]. split; [exact (eq_trans G1 L1)|].
  intros i v Hi. destruct (G2 i v Hi) as (a & b & Ha & Hb & ->).
  destruct (kth_dim_nth _ _ _ _ _ _ E1 Ha) as [_ K1]. destruct (kth_dim_nth _ _ _ _ _ _ E2 Hb) as [_ K2].
  unfold percentile_interval, numel. rewrite slice_len, K1, K2. reflexivity.
Qed.

Example C81_nontrivial :
  let x := [-3; 1 # 2; 7; -(1 # 4); 2; -5; 1; 0; 6; -2] in
  abs_percentile 80 x = Some 5 /\ negative_percentile_or_zero 20 x = Some (-3)
  /\ percentile_interval 20 80 x = Some 5
  /\ abs_percentile_dim 50 1 (M 2 4 (fun i j => nth (i * 4 + j) x 0)) = Some [1 # 2; 1]
  /\ abs_percentile_dim 50 0 (M 2 4 (fun i j => nth (i * 4 + j) x 0)) = Some [2; 1 # 2; 1; 0].
Proof. vm_compute. repeat split; reflexivity. Qed.

(** ** C82 *)

(** Coverage of an interval by the asymmetric quantizer whose range is computed from it. *)
Lemma asym_covers r mv b m mx s : upward r -> (1 <= b)%Z -> m <= 0 -> 0 <= mx ->
  s = stats_scaling r mv (Qabs (mx - m)) (inject_Z (range_hi false false b)) -> ~ s == 0 ->
  0 < s /\ exists k, in_range false false b k
    /\ scale_shift_zero_point (cfg false false Round) true (Qabs m) s b = inject_Z k
    /\ forall x, m <= x <= mx -> Qabs (int_quant (cfg false false Round) s (inject_Z k) b x - x) <= s * (1 # 2).
Proof.
  intros Hr Hb Hm0 Hmx0 Es E0. set (N := range_hi false false b) in *.
  assert (HN : (1 <= N)%Z).
  { unfold N, range_hi. pose proof (Z.pow_le_mono_r 2 1 b ltac:(lia) ltac:(lia)). lia. }
  assert (HN' : 0 < inject_Z N) by (apply (injz_lt 0); lia).
  set (st := Qabs (mx - m)) in *.
  assert (Est : st == mx - m) by (apply Qabs_pos; lra).
  destruct (scale_covers r mv st (inject_Z N) s Hr ltac:(rewrite Est; lra) HN' (eq_sym Es) E0) as [Hs Hcov].
  rewrite Est in Hcov. split; [exact Hs|].
  assert (Em : Qabs m == - m) by (apply Qabs_neg; lra).
  set (rz := - m / s).
  assert (Hrz0 : 0 <= rz). { apply Qle_shift_div_l; [exact Hs|]. lra. }
  assert (Hrz : mx / s + rz <= inject_Z N).
  { assert (E : mx / s + rz == (mx - m) / s) by (unfold rz; field; apply Qpos_neq0, Hs).
    rewrite E. apply Qle_shift_div_r; [exact Hs|]. lra. }
  assert (Hmxs : 0 <= mx / s). { apply Qle_shift_div_l; [exact Hs|]. lra. }
  set (k := roundZ rz).
  assert (Hk0 : (0 <= k)%Z) by (apply rounding_ge_int; [apply round_rounding|exact Hrz0]).
  assert (HkN : (k <= N)%Z) by (apply rounding_le_int; [apply round_rounding|lra]).
  exists k. split; [unfold in_range, range_lo; fold N; lia|]. split.
  { unfold scale_shift_zero_point. cbn [iq_signed iq_narrow cfg].
    rewrite cfg_to_int. unfold code. cbn [float_to_intZ].
    assert (E1 : roundZ (Qabs m / s + inject_Z (min_int false false b)) = k).
    { unfold k. apply roundZ_eq. unfold min_int; cbn [negb andb]. unfold rz.
      change (inject_Z (0 * b)) with 0. rewrite Em. lra. }
    rewrite E1. f_equal. rewrite clampZ_spec by (apply min_le_max; lia).
    rewrite min_int_spec, max_int_spec. fold N. unfold range_lo. lia. }
  intros x [X1 X2]. pose proof (roundZ_err rz) as Ek. fold k in Ek.
  apply C03_half_step; [exact Hs|exact Hb| |].
  - unfold denote, range_lo. change (inject_Z 0) with 0.
    assert (E : m == - rz * s) by (unfold rz; field; apply Qpos_neq0, Hs).
    assert ((rz - inject_Z k - (1 # 2)) * s <= 0 * s) by (apply Qmult_le_compat_r; lra). lra.
  - unfold denote. fold N.
    assert (E : mx == mx / s * s) by (field; apply Qpos_neq0, Hs).
    assert (mx / s * s <= (inject_Z N - rz) * s) by (apply Qmult_le_compat_r; lra).
    assert ((inject_Z k - rz - (1 # 2)) * s <= 0 * s) by (apply Qmult_le_compat_r; lra). lra.
Qed.

(** After calibration on a batch in which fewer than high_q% - 1/2 of the elements are
    negative, the zero point is an integer of the unsigned range and all elements except
    less than (100 - high_q + low_q)% of them, plus one half, are reproduced within half a
    scale. *)
Theorem C82_percentile_covers : forall r mv lq hq b x s z,
  upward r -> (1 <= b)%Z -> inject_Z (n_below 0 x) < hq / 100 * inject_Z (len x) - (1 # 2) ->
  percentile_calibrate r mv lq hq b x = Some (s, z) ->
  0 < s
  /\ (exists k, in_range false false b k /\ z = inject_Z k)
  /\ inject_Z (count (fun e => Qlt_bool (s * (1 # 2)) (Qabs (int_quant (cfg false false Round) s z b e - e))) x)
     < inject_Z (len x) * (1 - hq / 100 + lq / 100) + (1 # 2).
Proof.
  intros r mv lq hq b x s z Hr Hb Hneg H. unfold percentile_calibrate, percentile_interval, negative_percentile_or_zero in H.
  destruct (kthvalue x (rank_low lq (numel x))) as [lo|] eqn:El; [|discriminate].
  destruct (kthvalue x (rank_high hq (numel x))) as [hi|] eqn:Eh; [|discriminate].
  assert (Esc : int_scaling false false b = range_hi false false b) by apply max_int_spec. rewrite Esc in H.
  cbv zeta in H.
  set (s0 := stats_scaling _ _ _ _) in H. set (z0 := scale_shift_zero_point _ _ _ _ _) in H.
  destruct (Qeq_bool s0 0) eqn:E0; [discriminate|]. injection H as Es Ez. apply Qeq_bool_false in E0.
  apply kth_spec in El, Eh. destruct El as (_ & _ & _ & Hbl & _), Eh as (_ & _ & _ & Hbh & Hah & _).
  unfold rank_low, rank_high, numel in Hbl, Hah, Hbh. fold (len x) in Hbl, Hah, Hbh. set (n := len x) in *.
  pose proof (Qceiling_lb ((1 # 100) * lq * inject_Z n)) as F1.
  pose proof (Qfloor_ub ((1 # 100) * hq * inject_Z n + (1 # 2))) as F2.
  set (kl := Qceiling _) in *. set (kh := Qfloor _) in *.
  set (m := torch_min lo 0) in *.
  assert (Hm0 : m <= 0) by apply torch_min_r. assert (Hml : m <= lo) by apply torch_min_l.
  assert (Hhi : 0 <= hi).
  { destruct (Qlt_le_dec hi 0) as [C|C]; [exfalso|exact C].
    (* all kh smallest are negative *)
    assert (U : (kh <= n_below 0 x)%Z).
    { apply Z.le_trans with (n - n_from 0 x)%Z.
      - assert (n_from 0 x <= n_above hi x)%Z; [|lia].
        apply count_mono. intros a Ha. apply Qle_bool_iff in Ha. apply Qlt_bool_iff. lra.
      - unfold n, n_from, n_below, count, len. clear. induction x as [|a x IH]; [cbn; lia|].
        cbn [filter]. destruct (Qle_bool 0 a) eqn:E1; destruct (Qlt_bool a 0) eqn:E2; cbn [length]; try lia.
        apply Qle_bool_false in E1. apply Qlt_bool_false in E2. lra. }
    apply injz_le in U.
    assert (Eq : hq / 100 * inject_Z n == (1 # 100) * hq * inject_Z n) by field. rewrite Eq in Hneg. lra. }
  assert (Es' : s = stats_scaling r mv (Qabs (hi - m)) (inject_Z (range_hi false false b))) by (symmetry; exact Es).
  rewrite Es in E0. unfold z0 in Ez. fold m in Ez. rewrite Es in Ez.
  destruct (asym_covers r mv b m hi s Hr Hb Hm0 Hhi Es' E0) as [Hs (k & Hk & Ek & Hc)].
  split; [exact Hs|]. rewrite <- Ez, Ek.
  split; [exists k; split; [exact Hk|reflexivity]|].
  assert (C : (count (fun e => Qlt_bool (s * (1 # 2)) (Qabs (int_quant (cfg false false Round) s (inject_Z k) b e - e))) x
     <= n_below lo x + n_above hi x)%Z).
  { unfold count, n_below, n_above, count. clear - Hc Hml. induction x as [|a x IH]; [cbn; lia|].
    cbn [filter]. destruct (Qlt_bool (s * (1 # 2)) _) eqn:E1; [|destruct (Qlt_bool a lo), (Qlt_bool hi a); cbn [length]; lia].
    destruct (Qlt_bool a lo) eqn:E2; [destruct (Qlt_bool hi a); cbn [length]; lia|].
    destruct (Qlt_bool hi a) eqn:E3; [cbn [length]; lia|].
    apply Qlt_bool_iff in E1. apply Qlt_bool_false in E2, E3. exfalso.
    pose proof (Hc a ltac:(lra)). lra. }
  assert (C2 : (count (fun e => Qlt_bool (s * (1 # 2)) (Qabs (int_quant (cfg false false Round) s (inject_Z k) b e - e))) x
     <= (kl - 1) + (n - kh))%Z) by lia.
  apply injz_le in C2. rewrite inject_Z_plus, !inject_Z_minus, inject_Z_1 in C2.
  assert (Eq : inject_Z n * (1 - hq / 100 + lq / 100) == inject_Z n - (1 # 100) * hq * inject_Z n + (1 # 100) * lq * inject_Z n) by field.
  rewrite Eq. lra.
Qed.

(** The guard is needed: when the high percentile is negative the interval does not reach
    zero, the zero point saturates and every element is off by many scales. *)
Theorem C82_all_negative_refuted :
  exists x s z, percentile_calibrate RestrictFP (Some (1 # 10000000000)) (1 # 1000) (99999 # 1000) 8 x = Some (s, z)
    /\ Forall (fun e => 100 * s < Qabs (int_quant (cfg false false Round) s z 8 e - e)) x.
Proof.
  exists [-10; -9]. eexists _, _. split; [reflexivity|].
  constructor; [vm_compute; reflexivity|]. constructor; [vm_compute; reflexivity|constructor].
Qed.

Example C82_nontrivial :
  let x := [-2; -1; 0; 1; 2; 3; 4; 5; 6; 40] in
  exists s z, percentile_calibrate RestrictFP None 10 90 3 x = Some (s, z)
    /\ inject_Z (n_below 0 x) < 90 / 100 * inject_Z (len x) - (1 # 2)
    /\ s == 8 # 7 /\ z = 2
    /\ count (fun e => Qlt_bool (s * (1 # 2)) (Qabs (int_quant (cfg false false Round) s z 3 e - e))) x = 1%Z.
Proof. eexists _, _. split; [reflexivity|]. vm_compute. repeat split; reflexivity. Qed.

Print Assumptions C81_abs_percentile.
Print Assumptions C81_abs_percentile_defined.
Print Assumptions C81_zero_rank_refuted.
Print Assumptions C81_hundred_is_max.
Print Assumptions C81_monotone.
Print Assumptions C81_negative_percentile.
Print Assumptions C81_negative_percentile_defined.
Print Assumptions C81_zeroth_percentile_refuted.
Print Assumptions C81_per_slice.
Print Assumptions C81_interval_per_slice.
Print Assumptions C82_percentile_covers.
Print Assumptions C82_all_negative_refuted.
