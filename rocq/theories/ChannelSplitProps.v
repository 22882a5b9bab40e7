(** C38 (channel splitting). *)
From Verif Require Import BatchNorm BatchNormProps Equalize EqualizeProofs EqualizeProps ChannelSplit.
From Coq Require Import Reals List Bool Arith Lra Lia FunctionalExtensionality.
Import ListNotations.
Open Scope R_scope.

(** ** The loop of [_split_channels] *)
Lemma set_nth_length {A} k (v : A) l : length (set_nth k v l) = length l.
Proof. revert k. induction l; intros [|k]; cbn; auto. Qed.
Lemma nth_set_nth {A} k (v d : A) l j : (k < length l)%nat -> nth j (set_nth k v l) d = if (j =? k)%nat then v else nth j l d.
Proof.
  revert k j. induction l as [|x l IH]; intros [|k] [|j] H; cbn in *; try lia; auto. apply IH. lia.
Qed.

Lemma split_length {A} (d : A) sc ids : forall rows, length (fold_left (split1 d sc) ids rows) = (length rows + length ids)%nat.
Proof.
  induction ids as [|i ids IH]; intros rows; cbn [fold_left length]; [lia|].
  rewrite IH. unfold split1. rewrite app_length, set_nth_length. cbn [length]. lia.
Qed.

Lemma split_old {A} (d : A) sc ids : forall rows j, NoDup ids -> Forall (fun i => (i < length rows)%nat) ids -> (j < length rows)%nat ->
  nth j (fold_left (split1 d sc) ids rows) d = if mem j ids then sc (nth j rows d) else nth j rows d.
Proof.
  induction ids as [|i ids IH]; intros rows j ND F Hj; cbn [fold_left]; [reflexivity|].
  inversion_clear ND as [|? ? Ni ND']. inversion_clear F as [|? ? Fi F'].
  assert (E : nth j (split1 d sc rows i) d = if (j =? i)%nat then sc (nth i rows d) else nth j rows d).
  { unfold split1. rewrite app_nth1 by (rewrite set_nth_length; exact Hj). apply nth_set_nth. exact Fi. }
  assert (L : length (split1 d sc rows i) = S (length rows)) by (unfold split1; rewrite app_length, set_nth_length; cbn; lia).
  rewrite IH; [|exact ND'| |lia].
  - rewrite E. unfold mem. cbn [existsb]. fold (mem j ids). destruct (Nat.eqb_spec j i) as [->|N]; cbn [orb]; [|reflexivity].
    destruct (mem i ids) eqn:Mi; [apply mem_in in Mi; contradiction|reflexivity].
  - rewrite L. eapply Forall_impl; [|exact F']. cbn beta. intros. lia.
Qed.

Lemma split_new {A} (d : A) sc ids : forall rows t, NoDup ids -> Forall (fun i => (i < length rows)%nat) ids -> (t < length ids)%nat ->
  nth (length rows + t) (fold_left (split1 d sc) ids rows) d = sc (nth (nth t ids 0%nat) rows d).
Proof.
  induction ids as [|i ids IH]; intros rows t ND F Ht; cbn [length] in Ht; [lia|]. cbn [fold_left].
  inversion_clear ND as [|? ? Ni ND']. inversion_clear F as [|? ? Fi F'].
  assert (L : length (split1 d sc rows i) = S (length rows)) by (unfold split1; rewrite app_length, set_nth_length; cbn; lia).
  assert (F2 : Forall (fun i0 => (i0 < length (split1 d sc rows i))%nat) ids) by (rewrite L; eapply Forall_impl; [|exact F']; cbn beta; intros; lia).
  destruct t as [|t].
  - rewrite Nat.add_0_r. rewrite split_old; [|exact ND'|exact F2|lia].
    destruct (mem (length rows) ids) eqn:Mi.
    { apply mem_in in Mi. rewrite Forall_forall in F'. specialize (F' _ Mi). lia. }
    unfold split1. rewrite app_nth2 by (rewrite set_nth_length; lia). rewrite set_nth_length, Nat.sub_diag. reflexivity.
  - replace (length rows + S t)%nat with (length (split1 d sc rows i) + t)%nat by lia.
    rewrite IH; [|exact ND'|exact F2|lia]. cbn [nth]. f_equal.
    assert (Hn : In (nth t ids 0%nat) ids) by (apply nth_In; lia).
    assert (Hlt : (nth t ids 0 < length rows)%nat) by (rewrite Forall_forall in F'; apply F'; exact Hn).
    unfold split1. rewrite app_nth1 by (rewrite set_nth_length; exact Hlt). rewrite nth_set_nth by exact Fi.
    destruct (Nat.eqb_spec (nth t ids 0%nat) i) as [E|E]; [rewrite E in Hn; contradiction|reflexivity].
Qed.

(** ** The rescaling: which channel a new channel comes from, and its factor *)
Definition parent (n : nat) (ids : list nat) (c : nat) : nat := if (c <? n)%nat then c else nth (c - n) ids 0%nat.
Definition factor (n : nat) (ids : list nat) (f : R) (c : nat) : R :=
  if (c <? n + length ids)%nat then (if (c <? n)%nat && negb (mem c ids) then 1 else f) else 0.

Definition good_ids (n : nat) (ids : list nat) : Prop := NoDup ids /\ Forall (fun i => (i < n)%nat) ids.

(** A split source produces the rescaled output. *)
Lemma fwd_split_out n ids f m x : good_ids n ids -> n_out_of m = Some n ->
  fwd (split_channels ids false f m) x = rescale (parent n ids) (factor n ids f) (fwd m x).
Proof.
  intros [ND F] Hn. destruct m as [n_in n_out K tap w b|]; [|discriminate]. injection Hn as ->.
  apply functional_extensionality. intros o. apply functional_extensionality. intros p.
  cbn [split_channels fwd]. set (d := ((fun _ _ : nat => 0), 0)).
  set (rows := map (fun o => (w o, b o)) (seq 0 n)).
  assert (LR : length rows = n) by (unfold rows; rewrite map_length, seq_length; reflexivity).
  assert (NR : forall j, (j < n)%nat -> nth j rows d = (w j, b j)).
  { intros j Hj. unfold rows. rewrite nth_indep with (d' := (w 0%nat, b 0%nat)) by (rewrite map_length, seq_length; exact Hj).
    rewrite (map_nth (fun o => (w o, b o))), seq_nth by exact Hj. reflexivity. }
  assert (F' : Forall (fun i => (i < length rows)%nat) ids) by (rewrite LR; exact F).
  unfold rescale, parent, factor. destruct (Nat.ltb_spec o (n + length ids)) as [Ho|Ho]; [|ring].
  set (sc := fun r : (nat -> nat -> R) * R => ((fun i k => fst r i k * f), snd r * f)).
  assert (CORE : forall o' (row : (nat -> nat -> R) * R), (o' < n)%nat -> row = sc (w o', b o') ->
     Rsum (map (fun i => Rsum (map (fun k => fst row i k * read (x i) (tap p k)) (seq 0 K))) (seq 0 n_in)) + snd row
     = (Rsum (map (fun i => Rsum (map (fun k => w o' i k * read (x i) (tap p k)) (seq 0 K))) (seq 0 n_in)) + b o') * f).
  { intros o' row _ ->. cbn [sc fst snd]. rewrite Rmult_plus_distr_r. f_equal.
    apply Rsum_scale. intros i. apply Rsum_scale. intros k. ring. }
  destruct (Nat.ltb_spec o n) as [L|L].
  - rewrite (split_old d sc ids rows o ND F') by lia. cbn [andb]. rewrite (proj2 (Nat.ltb_lt o n) L). rewrite NR by exact L.
    destruct (mem o ids); cbn [negb].
    + apply CORE; [exact L|reflexivity].
    + cbn [fst snd]. ring.
  - cbn [andb].
    assert (EN : nth o (fold_left (split1 d sc) ids rows) d = sc (nth (nth (o - n) ids 0%nat) rows d)).
    { rewrite <- (split_new d sc ids rows (o - n) ND F') by lia. f_equal. lia. }
    assert (Hin : In (nth (o - n) ids 0%nat) ids) by (apply nth_In; lia).
    assert (Hlt : (nth (o - n) ids 0 < n)%nat) by (rewrite Forall_forall in F; apply F; exact Hin).
    rewrite NR in EN by exact Hlt. rewrite (proj2 (Nat.ltb_lt _ n) Hlt). apply CORE; [exact Hlt|exact EN].
Qed.

(** Sums over the split channels. *)
Lemma Rsum_app' a b : Rsum (a ++ b) = Rsum a + Rsum b.
Proof. apply Rsum_app. Qed.
Lemma Rsum_ext_in {A} (f h : A -> R) l : (forall a, In a l -> f a = h a) -> Rsum (map f l) = Rsum (map h l).
Proof. intros H. rewrite (map_ext_in f h l H). reflexivity. Qed.
Lemma Rsum_plus {A} (f h : A -> R) l : Rsum (map (fun a => f a + h a) l) = Rsum (map f l) + Rsum (map h l).
Proof. induction l as [|a l IH]; cbn [map Rsum]; [ring|]. rewrite IH. ring. Qed.

Lemma Rsum_zero {A} (l : list A) : Rsum (map (fun _ => 0) l) = 0.
Proof. induction l; cbn [map Rsum]; [reflexivity|lra]. Qed.

Lemma Rsum_single (h : nat -> R) i : forall l, NoDup l -> In i l -> Rsum (map (fun c => if (c =? i)%nat then h c else 0) l) = h i.
Proof.
  induction l as [|a l IH]; intros ND H; [destruct H|]. inversion_clear ND as [|? ? Na ND']. cbn [map Rsum].
  destruct H as [->|H].
  - rewrite Nat.eqb_refl. rewrite (Rsum_ext_in _ (fun _ => 0)); [rewrite Rsum_zero; ring|].
    intros c Hc. destruct (Nat.eqb_spec c i) as [->|]; [contradiction|reflexivity].
  - destruct (Nat.eqb_spec a i) as [->|]; [contradiction|]. rewrite IH by assumption. ring.
Qed.

Lemma Rsum_ids (h : nat -> R) ids n : good_ids n ids ->
  Rsum (map (fun c => if mem c ids then h c else 0) (seq 0 n)) = Rsum (map h ids).
Proof.
  intros [ND F]. induction ids as [|i ids IH]; cbn [map Rsum].
  - rewrite (Rsum_ext_in _ (fun _ => 0)); [apply Rsum_zero|]. intros; reflexivity.
  - inversion_clear ND as [|? ? Ni ND']. inversion_clear F as [|? ? Fi F'].
    rewrite <- IH by assumption. rewrite <- (Rsum_single h i (seq 0 n)); [|apply seq_NoDup|apply in_seq; lia].
    rewrite <- Rsum_plus. apply Rsum_ext_in. intros c _. unfold mem. cbn [existsb]. fold (mem c ids).
    destruct (Nat.eqb_spec c i) as [->|N]; cbn [orb]; [|ring].
    destruct (mem i ids) eqn:Mi; [apply mem_in in Mi; contradiction|ring].
Qed.

Lemma seq_ids (h : nat -> R) ids : Rsum (map (fun t => h (nth t ids 0%nat)) (seq 0 (length ids))) = Rsum (map h ids).
Proof.
  induction ids as [|i ids IH]; [reflexivity|]. cbn [length seq map Rsum nth]. rewrite <- seq_shift, map_map.
  rewrite IH. reflexivity.
Qed.

(** A split sink reads the rescaled input; [fs] is the sink's factor and [fr] the source's. *)
Lemma fwd_split_in n ids fs fr m x : good_ids n ids -> fs * fr = / 2 -> n_in_of m = Some n ->
  fwd (split_channels ids true fs m) (rescale (parent n ids) (factor n ids fr) x) = fwd m x.
Proof.
  intros [ND F] Hh Hn. destruct m as [n_in n_out K tap w b|]; [|discriminate]. injection Hn as ->.
  apply functional_extensionality. intros o. apply functional_extensionality. intros p.
  cbn [split_channels fwd]. destruct (o <? n_out)%nat; [|reflexivity]. f_equal.
  set (d := (fun _ _ : nat => 0)). set (cols := map (fun (i o k : nat) => w o i k) (seq 0 n)).
  assert (LR : length cols = n) by (unfold cols; rewrite map_length, seq_length; reflexivity).
  assert (NR : forall j, (j < n)%nat -> nth j cols d = fun o k => w o j k).
  { intros j Hj. unfold cols. rewrite nth_indep with (d' := (fun o k => w o 0%nat k)) by (rewrite map_length, seq_length; exact Hj).
    rewrite (map_nth (fun (i o k : nat) => w o i k)), seq_nth by exact Hj. reflexivity. }
  assert (F' : Forall (fun i => (i < length cols)%nat) ids) by (rewrite LR; exact F).
  set (sc := fun (c : nat -> nat -> R) (o k : nat) => c o k * fs).
  set (h := fun i => Rsum (map (fun k => w o i k * read (x i) (tap p k)) (seq 0 K))).
  set (x' := rescale (parent n ids) (factor n ids fr) x).
  assert (RD : forall i q, read (x' i) q = read (x (parent n ids i)) q * factor n ids fr i).
  { intros i q. unfold x', rescale. destruct q; cbn [read]; ring. }
  rewrite seq_app, map_app, Rsum_app. cbn [plus].
  assert (A1 : Rsum (map (fun i => Rsum (map (fun k => nth i (fold_left (split1 d sc) ids cols) d o k * read (x' i) (tap p k)) (seq 0 K))) (seq 0 n))
           = Rsum (map (fun i => h i + (if mem i ids then h i * (- / 2) else 0)) (seq 0 n))).
  { apply Rsum_ext_in. intros i Hi. apply in_seq in Hi.
    rewrite (split_old d sc ids cols i ND F') by lia. rewrite NR by lia.
    assert (P : parent n ids i = i) by (unfold parent; rewrite (proj2 (Nat.ltb_lt i n)) by lia; reflexivity).
    assert (FA : factor n ids fr i = if mem i ids then fr else 1).
    { unfold factor. rewrite (proj2 (Nat.ltb_lt i (n + length ids))) by lia. rewrite (proj2 (Nat.ltb_lt i n)) by lia.
      destruct (mem i ids); reflexivity. }
    destruct (mem i ids) eqn:Mi.
    - replace (h i + h i * - / 2) with (h i * / 2) by field. unfold h. apply Rsum_scale. intros k. rewrite RD, P, FA. unfold sc.
      rewrite <- Hh. ring.
    - rewrite Rplus_0_r. unfold h. apply Rsum_map_ext. intros k. rewrite RD, P, FA. ring. }
  assert (A2 : Rsum (map (fun i => Rsum (map (fun k => nth i (fold_left (split1 d sc) ids cols) d o k * read (x' i) (tap p k)) (seq 0 K))) (seq n (length ids)))
           = Rsum (map (fun i => h i * / 2) ids)).
  { rewrite <- (seq_ids (fun i => h i * / 2)).
    assert (SH : seq n (length ids) = map (fun t => (n + t)%nat) (seq 0 (length ids))).
    { clear. generalize (length ids). intros k. rewrite <- (Nat.add_0_r n) at 1. generalize 0%nat as a.
      induction k as [|k IH]; intros a; cbn [seq map]; [reflexivity|]. f_equal. rewrite <- IH. f_equal. lia. }
    rewrite SH, map_map. apply Rsum_ext_in. intros t Ht. apply in_seq in Ht.
    assert (EN : nth (n + t) (fold_left (split1 d sc) ids cols) d = sc (nth (nth t ids 0%nat) cols d)).
    { rewrite <- (split_new d sc ids cols t ND F') by lia. f_equal. lia. }
    assert (Hlt : (nth t ids 0 < n)%nat) by (rewrite Forall_forall in F; apply F, nth_In; lia).
    rewrite NR in EN by exact Hlt.
    unfold h. apply Rsum_scale. intros k. rewrite EN. rewrite RD.
    assert (P : parent n ids (n + t) = nth t ids 0%nat).
    { unfold parent. rewrite (proj2 (Nat.ltb_ge (n + t) n)) by lia. f_equal. lia. }
    assert (FA : factor n ids fr (n + t) = fr).
    { unfold factor. rewrite (proj2 (Nat.ltb_lt (n + t) (n + length ids))) by lia. rewrite (proj2 (Nat.ltb_ge (n + t) n)) by lia. reflexivity. }
    rewrite P, FA. unfold sc. rewrite <- Hh. ring. }
  rewrite A1, A2. rewrite Rsum_plus.
  rewrite (Rsum_ids (fun i => h i * - / 2) ids n) by (split; assumption).
  rewrite (Rsum_scale h (fun i => h i * - / 2) (- / 2)) by reflexivity.
  rewrite (Rsum_scale h (fun i => h i * / 2) (/ 2)) by reflexivity. unfold h. field.
Qed.

(** ** Regions *)
Lemma n_in_split_out ids f m : n_in_of (split_channels ids false f m) = n_in_of m.
Proof. destruct m; reflexivity. Qed.
Lemma n_out_split_in ids f m : n_out_of (split_channels ids true f m) = n_out_of m.
Proof. destruct m; reflexivity. Qed.

Definition src_fac (split_input : bool) : R := if split_input then 1 else / 2.

Lemma supported_src M st n m : supported M st n = true -> mem m (srcs st) = true -> n_out_of (M m) = Some n.
Proof.
  unfold supported. intros H Hm. apply andb_prop in H. destruct H as [H _]. rewrite forallb_forall in H.
  apply mem_in in Hm. specialize (H m Hm). unfold is_n in H. destruct (n_out_of (M m)); [|discriminate]. apply Nat.eqb_eq in H. congruence.
Qed.
Lemma supported_sink M st n m : supported M st n = true -> mem m (sinks st) = true -> n_in_of (M m) = Some n.
Proof.
  unfold supported. intros H Hm. apply andb_prop in H. destruct H as [_ H]. rewrite forallb_forall in H.
  apply mem_in in Hm. specialize (H m Hm). unfold is_n in H. destruct (n_in_of (M m)); [|discriminate]. apply Nat.eqb_eq in H. congruence.
Qed.

Lemma fwd_split_region M st n ids si m x : supported M st n = true -> good_ids n ids ->
  fwd (split_region st ids si M m) (if mem m (sinks st) then rescale (parent n ids) (factor n ids (src_fac si)) x else x)
  = if mem m (srcs st) then rescale (parent n ids) (factor n ids (src_fac si)) (fwd (M m) x) else fwd (M m) x.
Proof.
  intros HS HG. pose proof (supported_src M st n m HS) as H1. pose proof (supported_sink M st n m HS) as H2.
  unfold split_region, src_fac. destruct si.
  - destruct (mem m (sinks st)); destruct (mem m (srcs st)).
    + rewrite (fwd_split_out n ids 1) by (auto; rewrite n_out_split_in; auto).
      rewrite (fwd_split_in n ids (/ 2) 1) by (auto; ring). reflexivity.
    + apply (fwd_split_in n ids (/ 2) 1); auto. ring.
    + apply (fwd_split_out n ids 1); auto.
    + reflexivity.
  - destruct (mem m (sinks st)); destruct (mem m (srcs st)).
    + rewrite (fwd_split_in n ids 1 (/ 2)) by (auto; rewrite ?n_in_split_out; auto; ring). apply (fwd_split_out n ids (/ 2)); auto.
    + apply (fwd_split_in n ids 1 (/ 2)); auto. ring.
    + apply (fwd_split_out n ids (/ 2)); auto.
    + reflexivity.
Qed.

Lemma factor_nonneg n ids si c : 0 <= factor n ids (src_fac si) c.
Proof. unfold factor, src_fac. destruct (c <? _)%nat; [|lra]. destruct (_ && _); [lra|]. destruct si; lra. Qed.

(** One region, any distinct channels, input or output split: all nodes outside the region are
    unchanged; inside, the original channels are kept (halved if split) and copies appended. *)
Theorem C38_region : forall D g M0 n0 st M n ids si e,
  wf D g -> unshared g -> no_mul g -> no_add_const g -> inv_hom g ->
  region g M0 n0 = Some st -> supported M st n = true -> good_ids n ids ->
  forall v, In v (map fst g) ->
  eval g (split_region st ids si M) e v
  = if in_region g st v
    then (fun c p => eval g M e v (parent n ids c) p * factor n ids (src_fac si) c)
    else eval g M e v.
Proof.
  intros D g M0 n0 st M n ids si e W US NM NC IH R HS HG v Hv.
  pose proof (region_closed D g M0 W NM n0 st R) as G.
  rewrite (region_rescales D g M0 st W US NM NC IH G M (split_region st ids si M) (parent n ids) (factor n ids (src_fac si))).
  - reflexivity.
  - apply factor_nonneg.
  - intros b m i x _. apply fwd_split_region; assumption.
  - right. exact Hv.
Qed.

(** ** The whole pass *)
Definition pairwise (regions : list wstate) : Prop :=
  forall i j a b, nth_error regions i = Some a -> nth_error regions j = Some b -> i <> j ->
  disjoint (srcs a) (srcs b) = true /\ disjoint (sinks a) (sinks b) = true.

Lemma clean_spec M : forall regions before st, In st (clean_regions M before regions) ->
  In st regions /\ supported M st (channels M st) = true.
Proof.
  induction regions as [|a rest IH]; intros before st; cbn [clean_regions]; [intros []|].
  destruct (keep M (before ++ rest) a) eqn:K.
  - intros [<-|H]; [|destruct (IH _ _ H); split; [right; assumption|assumption]].
    split; [left; reflexivity|]. unfold keep in K. apply andb_prop in K. apply K.
  - intros H. destruct (IH _ _ H). split; [right; assumption|assumption].
Qed.

Lemma clean_disjoint M : forall regions before,
  ForallOrdPairs (fun a b => disjoint (srcs a) (srcs b) = true /\ disjoint (sinks a) (sinks b) = true) (clean_regions M before regions).
Proof.
  induction regions as [|a rest IH]; intros before; cbn [clean_regions]; [constructor|].
  destruct (keep M (before ++ rest) a) eqn:K; [|apply IH]. constructor; [|apply IH].
  unfold keep in K. apply andb_prop in K. destruct K as [_ K]. rewrite forallb_forall in K.
  apply Forall_forall. intros b Hb. apply clean_spec in Hb. destruct Hb as [Hb _].
  specialize (K b (in_or_app _ _ _ (or_intror Hb))). apply andb_prop in K. exact K.
Qed.

Lemma disjoint_mem a b m : disjoint a b = true -> mem m a = true -> mem m b = false.
Proof.
  unfold disjoint. rewrite forallb_forall. intros H Hm. apply mem_in in Hm. specialize (H m Hm).
  apply negb_true_iff. exact H.
Qed.

(** Splitting a region does not change the channel counts another (disjoint) region relies on. *)
Lemma split_dims st ids si M m :
  (mem m (srcs st) = false -> n_out_of (split_region st ids si M m) = n_out_of (M m))
  /\ (mem m (sinks st) = false -> n_in_of (split_region st ids si M m) = n_in_of (M m)).
Proof.
  unfold split_region. destruct si; destruct (mem m (sinks st)); destruct (mem m (srcs st)); split; intros E; try discriminate;
    rewrite ?n_in_split_out, ?n_out_split_in, ?n_in_split_out; reflexivity.
Qed.

Lemma supported_after M st ids si st' n : disjoint (srcs st) (srcs st') = true -> disjoint (sinks st) (sinks st') = true ->
  supported M st' n = true -> supported (split_region st ids si M) st' n = true.
Proof.
  intros D1 D2. unfold supported. intros H. apply andb_prop in H. destruct H as [H1 H2]. rewrite forallb_forall in H1, H2.
  apply andb_true_intro. split; apply forallb_forall; intros m Hm.
  - rewrite (proj1 (split_dims st ids si M m)); [apply H1; exact Hm|].
    destruct (mem m (srcs st)) eqn:E; [|reflexivity]. apply mem_in in Hm. rewrite (disjoint_mem _ _ _ D1 E) in Hm. discriminate.
  - rewrite (proj2 (split_dims st ids si M m)); [apply H2; exact Hm|].
    destruct (mem m (sinks st)) eqn:E; [|reflexivity]. apply mem_in in Hm. rewrite (disjoint_mem _ _ _ D2 E) in Hm. discriminate.
Qed.

(** The pass: regions cleaned, then split one after the other with any choice of distinct
    channels.  Every output is unchanged, for every input. *)
Theorem C38_pass : forall D g M0 regions choose si e,
  wf D g -> unshared g -> no_mul g -> no_add_const g -> inv_hom g ->
  Forall (fun st => exists n0, region g M0 n0 = Some st) regions ->
  (forall M st n, supported M st n = true -> good_ids n (choose M st)) ->
  forall v f ins, In (v, KOther f ins) g ->
  eval g (split_all choose si (clean_regions M0 [] regions) M0) e v = eval g M0 e v.
Proof.
  intros D g M0 regions choose si e W US NM NC IH HR HC v f ins Hv.
  assert (K : kind_of g v = Some (KOther f ins)) by (apply (kind_of_spec D g W); exact Hv).
  assert (HF : Forall (fun st => (exists n0, region g M0 n0 = Some st) /\ exists n, supported M0 st n = true) (clean_regions M0 [] regions)).
  { apply Forall_forall. intros st Hst. apply clean_spec in Hst. destruct Hst as [H1 H2]. split; [|eauto].
    rewrite Forall_forall in HR. apply HR. exact H1. }
  pose proof (clean_disjoint M0 regions []) as HD. revert HF HD. generalize (clean_regions M0 [] regions) as rs.
  assert (Gen : forall rs M, Forall (fun st => (exists n0, region g M0 n0 = Some st) /\ exists n, supported M st n = true) rs ->
     ForallOrdPairs (fun a b => disjoint (srcs a) (srcs b) = true /\ disjoint (sinks a) (sinks b) = true) rs ->
     eval g (split_all choose si rs M) e v = eval g M e v).
  { induction rs as [|st rs IHr]; intros M HF HD; [reflexivity|].
    inversion_clear HF as [|? ? ((n0 & Rn) & n & Sn) HF']. inversion_clear HD as [|? ? Dst HD'].
    unfold split_all. cbn [fold_left]. fold (split_all choose si rs (split_region st (choose M st) si M)).
    rewrite IHr; [|  |exact HD'].
    - rewrite (C38_region D g M0 n0 st M n (choose M st) si e W US NM NC IH Rn Sn (HC M st n Sn)); [|apply (in_map fst) in Hv; exact Hv].
      unfold in_region. rewrite K. reflexivity.
    - rewrite Forall_forall in *. intros st' Hst'. destruct (HF' st' Hst') as (Q1 & n' & Q2). split; [exact Q1|]. exists n'.
      destruct (Dst st' Hst') as [D1 D2]. apply supported_after; assumption. }
  intros rs HF HD. apply Gen; assumption.
Qed.

Lemma channels_to_split_good order k si M st n : supported M st n = true -> good_ids n (channels_to_split order k si M st).
Proof.
  intros HS. assert (HC : (channels M st <= n)%nat).
  { unfold channels. destruct (srcs st) as [|m l] eqn:E; [lia|].
    rewrite (supported_src M st n m HS); [lia|]. rewrite E. cbn [mem existsb]. rewrite Nat.eqb_refl. reflexivity. }
  unfold channels_to_split. split; [apply NoDup_filter, seq_NoDup|].
  apply Forall_forall. intros c Hc. apply filter_In in Hc. destruct Hc as [Hc _]. apply in_seq in Hc. lia.
Qed.

(** The pass with the channels the code picks, whatever order [argsort] returns. *)
Corollary C38_pass_maxabs : forall D g M0 regions order k si e,
  wf D g -> unshared g -> no_mul g -> no_add_const g -> inv_hom g ->
  Forall (fun st => exists n0, region g M0 n0 = Some st) regions ->
  forall v f ins, In (v, KOther f ins) g ->
  eval g (split_all (channels_to_split order k si) si (clean_regions M0 [] regions) M0) e v = eval g M0 e v.
Proof.
  intros. eapply C38_pass; eauto. intros. apply channels_to_split_good. assumption.
Qed.

(** ** Example: the residual block of C37 with two-channel layers; channel 1 is split. *)
Definition two_lin (w : R) : module := Lin 2 2 1 idtap (fun _ _ _ => w) (fun _ => 1).
Definition two_mods : modules := fun m => if (m =? 10)%nat then two_lin 4 else if (m =? 11)%nat then two_lin 2 else two_lin 1.
Example C38_example : exists st, region res_graph two_mods 1 = Some st
  /\ supported two_mods st 2 = true /\ good_ids 2 [1%nat]
  /\ clean_regions two_mods [] [st] = [st]
  /\ channels_to_split (fun _ => [1; 0]%nat) (fun _ => 1%nat) true two_mods st = [1%nat]
  /\ n_out_of (split_region st [1%nat] true two_mods 10%nat) = Some 3%nat
  /\ n_in_of (split_region st [1%nat] true two_mods 11%nat) = Some 3%nat.
Proof.
  exists (W [11; 10]%nat [12; 11]%nat [(3, 4); (4, 5); (2, 4); (2, 3); (1, 2)]%nat false).
  repeat split; try reflexivity; repeat constructor. intros [].
Qed.

(** With a constant between source and sink an output split changes the function. *)
Theorem C38_added_constant_refuted : exists D g M n0 st ids e,
  wf D g /\ unshared g /\ no_mul g /\ inv_hom g /\ region g M n0 = Some st /\ supported M st 1 = true /\ good_ids 1 ids
  /\ In (4%nat, KOther out1 [3%nat]) g
  /\ eval g (split_region st ids false M) e 4%nat 0%nat 0%nat <> eval g M e 4%nat 0%nat 0%nat.
Proof.
  exists [0%nat], const_graph, const_mods, 1%nat, (W [10%nat] [12%nat] [(2, 3); (1, 2)]%nat false), [0%nat], (fun _ _ _ => 1).
  split; [cbn; unfold incl; cbn [In]; repeat split; lia|].
  split.
  { intros i j m a b H1 H2. cbn in H1, H2.
    destruct H1 as [E|[E|[E|[E|[]]]]]; try discriminate; injection E as <- <- <-;
    destruct H2 as [E|[E|[E|[E|[]]]]]; try discriminate; injection E as <- <-; reflexivity. }
  split; [intros i a b H; cbn in H; destruct H as [E|[E|[E|[E|[]]]]]; discriminate|].
  split; [intros i f a H; cbn in H; destruct H as [E|[E|[E|[E|[]]]]]; discriminate|].
  split; [reflexivity|]. split; [reflexivity|]. split; [repeat constructor; intros []|]. split; [right; right; right; left; reflexivity|].
  unfold const_graph, split_region. cbn [eval eval_kind Nat.eqb mem existsb srcs sinks orb const_mods one_lin split_channels
    fold_left split1 map seq nth set_nth app fst snd length plus].
  ev. unfold vsum. cbn [map Rsum Nat.ltb Nat.leb nth fst snd]. apply Rgt_not_eq. lra.
Qed.

(** A module called from a second place returns extra channels there. *)
Theorem C38_shared_module_refuted : exists D g M n0 st ids e,
  wf D g /\ no_mul g /\ no_add_const g /\ inv_hom g /\ region g M n0 = Some st /\ supported M st 1 = true /\ good_ids 1 ids
  /\ In (5%nat, KOther out1 [4%nat]) g
  /\ eval g M e 5%nat 1%nat 0%nat = 0 /\ eval g (split_region st ids true M) e 5%nat 1%nat 0%nat = 4.
Proof.
  exists [0%nat], shared_graph, const_mods, 1%nat, (W [10%nat] [12%nat] [(1, 2)]%nat false), [0%nat], (fun _ _ _ => 1).
  split; [cbn; unfold incl; cbn [In]; repeat split; lia|].
  split; [intros i a b H; cbn in H; destruct H as [E|[E|[E|[E|[E|[]]]]]]; discriminate|].
  split; [intros i ins c H; cbn in H; destruct H as [E|[E|[E|[E|[E|[]]]]]]; discriminate|].
  split; [intros i f a H; cbn in H; destruct H as [E|[E|[E|[E|[E|[]]]]]]; discriminate|].
  split; [reflexivity|]. split; [reflexivity|]. split; [repeat constructor; intros []|]. split; [do 4 right; left; reflexivity|].
  unfold shared_graph, split_region. cbn [eval eval_kind Nat.eqb mem existsb srcs sinks orb const_mods one_lin split_channels
    fold_left split1 map seq nth set_nth app fst snd length plus].
  ev. cbn [nth fst snd]. split; [reflexivity|]. lra.
Qed.

Print Assumptions C38_region.
Print Assumptions C38_pass.
Print Assumptions C38_pass_maxabs.
Print Assumptions C38_added_constant_refuted.
Print Assumptions C38_shared_module_refuted.
