(** Lemmas about statistics-based scaling. *)
From Verif Require Import QUtil Log2Q Ops OpsProofs IntQuant IntQuantProofs Scaling.
Open Scope Q_scope.

Lemma torch_max_l a b : a <= torch_max a b. Proof. unfold torch_max; qcase; lra. Qed.
Lemma torch_max_r a b : b <= torch_max a b. Proof. unfold torch_max; qcase; lra. Qed.
Lemma torch_min_l a b : torch_min a b <= a. Proof. unfold torch_min; qcase; lra. Qed.
Lemma torch_min_r a b : torch_min a b <= b. Proof. unfold torch_min; qcase; lra. Qed.
Lemma torch_max_cases a b : torch_max a b = a \/ torch_max a b = b.
Proof. unfold torch_max; qcase; auto. Qed.
Lemma torch_min_cases a b : torch_min a b = a \/ torch_min a b = b.
Proof. unfold torch_min; qcase; auto. Qed.

Lemma fold_max_ub l : forall a, a <= fold_left torch_max l a /\ (forall x, In x l -> x <= fold_left torch_max l a).
Proof.
  induction l as [|y l IH]; intros a; cbn [fold_left].
  - split; [lra|]. intros x [].
  - destruct (IH (torch_max a y)) as [H1 H2]. split.
    + pose proof (torch_max_l a y). lra.
    + intros x [<-|Hx]; [pose proof (torch_max_r a y); lra|apply H2, Hx].
Qed.

Lemma fold_max_in l : forall a, fold_left torch_max l a = a \/ In (fold_left torch_max l a) l.
Proof.
  induction l as [|y l IH]; intros a; cbn [fold_left]; [left; reflexivity|].
  destruct (IH (torch_max a y)) as [H|H].
  - destruct (torch_max_cases a y) as [E|E]; rewrite E in H.
    + left. rewrite E. exact H.
    + right; left. rewrite E. symmetry. exact H.
  - right; right. exact H.
Qed.

Lemma fold_min_lb l : forall a, fold_left torch_min l a <= a /\ (forall x, In x l -> fold_left torch_min l a <= x).
Proof.
  induction l as [|y l IH]; intros a; cbn [fold_left].
  - split; [lra|]. intros x [].
  - destruct (IH (torch_min a y)) as [H1 H2]. split.
    + pose proof (torch_min_l a y). lra.
    + intros x [<-|Hx]; [pose proof (torch_min_r a y); lra|apply H2, Hx].
Qed.

Lemma reduce_max_spec l m : reduce_max l = Some m ->
  (forall x, In x l -> x <= m) /\ In m l.
Proof.
  destruct l as [|a l]; [discriminate|]. cbn. intros H. injection H as <-.
  destruct (fold_max_ub l a) as [H1 H2]. split.
  - intros x [<-|Hx]; auto.
  - destruct (fold_max_in l a) as [E|E]; [left; symmetry; exact E|right; exact E].
Qed.

Lemma fold_min_in l : forall a, fold_left torch_min l a = a \/ In (fold_left torch_min l a) l.
Proof.
  induction l as [|y l IH]; intros a; cbn [fold_left]; [left; reflexivity|].
  destruct (IH (torch_min a y)) as [H|H].
  - destruct (torch_min_cases a y) as [E|E]; rewrite E in H.
    + left. rewrite E. exact H.
    + right; left. rewrite E. symmetry. exact H.
  - right; right. exact H.
Qed.

Lemma reduce_min_spec l m : reduce_min l = Some m ->
  (forall x, In x l -> m <= x) /\ In m l.
Proof.
  destruct l as [|a l]; [discriminate|]. cbn. intros H. injection H as <-.
  destruct (fold_min_lb l a) as [H1 H2]. split.
  - intros x [<-|Hx]; auto.
  - destruct (fold_min_in l a) as [E|E]; [left; symmetry; exact E|right; exact E].
Qed.

Lemma reduce_max_some l : l <> [] -> exists m, reduce_max l = Some m.
Proof. destruct l; [congruence|]. intros _. eexists; reflexivity. Qed.
Lemma reduce_min_some l : l <> [] -> exists m, reduce_min l = Some m.
Proof. destruct l; [congruence|]. intros _. eexists; reflexivity. Qed.

Lemma abs_max_spec l m : abs_max l = Some m ->
  (forall x, In x l -> Qabs x <= m) /\ (exists x, In x l /\ Qabs x = m).
Proof.
  intros H. apply reduce_max_spec in H. destruct H as [H1 H2]. split.
  - intros x Hx. apply H1. apply in_map, Hx.
  - apply in_map_iff in H2. destruct H2 as (x & E & Hx). exists x. auto.
Qed.

Lemma abs_max_some l : l <> [] -> exists m, abs_max l = Some m.
Proof. intros H. apply reduce_max_some. destruct l; [congruence|discriminate]. Qed.

Lemma abs_max_nonneg l m : abs_max l = Some m -> 0 <= m.
Proof. intros H. apply abs_max_spec in H. destruct H as [_ (x & _ & <-)]. apply Qabs_nonneg. Qed.

Lemma clamp_min_opt_ge mv x : x <= clamp_min_opt mv x.
Proof. destruct mv as [v|]; cbn; [qcase; [lra|apply torch_max_l]|lra]. Qed.

Lemma clamp_min_opt_min v x : ~ v == 0 -> v <= clamp_min_opt (Some v) x.
Proof. intros H. cbn. qcase; [contradiction|apply torch_max_r]. Qed.

(** Every restricted scale that rounds upward dominates stats / threshold. *)
Lemma f2i_log2_ceil_ge x : 0 < x -> x <= pow2 (f2i_log2 Ceil x).
Proof. intros H. apply (ceil_log2_spec x H). Qed.
