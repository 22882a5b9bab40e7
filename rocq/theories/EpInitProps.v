(** C115: initialisation of accumulator-aware quantizers by Euclidean projection. *)
From Coq Require Import List Bool Permutation Sorted.
From Verif Require Import QUtil Ops QuantTensor IntQuant A2Q EpInit.
Import ListNotations.
Open Scope Q_scope.

(** ** Sorting and sums *)
Lemma insert_perm x l : Permutation (x :: l) (insert x l).
Proof.
  induction l as [|y l IH]; cbn; [reflexivity|]. destruct (Qle_bool x y); [reflexivity|].
  rewrite perm_swap. constructor. exact IH.
Qed.
Lemma sort_perm l : Permutation l (sort l).
Proof. induction l as [|x l IH]; cbn; [constructor|]. rewrite <- insert_perm. constructor. exact IH. Qed.
Lemma insert_sorted x l : StronglySorted Qle l -> StronglySorted Qle (insert x l).
Proof.
  induction 1 as [|y l S1 IH F]; cbn; [repeat constructor|]. destruct (Qle_bool x y) eqn:E.
  - apply Qle_bool_iff in E. constructor; [constructor; assumption|]. constructor; [exact E|].
    eapply Forall_impl; [|exact F]. cbn. intros a Ha. lra.
  - constructor; [exact IH|]. apply Forall_forall. intros a I.
    apply (Permutation_in _ (Permutation_sym (insert_perm x l))) in I. destruct I as [<-|I].
    + assert (~ x <= y) by (intros C; apply Qle_bool_iff in C; congruence). lra.
    + rewrite Forall_forall in F. apply F. exact I.
Qed.
Lemma sort_sorted l : StronglySorted Qle (sort l).
Proof. induction l; cbn; [constructor|]. apply insert_sorted. assumption. Qed.
Lemma ss_nth l : StronglySorted Qle l -> forall i j, (i <= j)%nat -> (j < length l)%nat -> nth i l 0 <= nth j l 0.
Proof.
  induction 1 as [|x l S1 IH F]; intros i j Hij Hj; cbn [length] in Hj; [lia|].
  destruct i as [|i], j as [|j]; cbn [nth]; try lia; try lra.
  - rewrite Forall_forall in F. apply F. apply nth_In. lia.
  - apply IH; lia.
Qed.
Lemma rev_nth_desc l i j : (i <= j)%nat -> (j < length l)%nat -> nth j (rev (sort l)) 0 <= nth i (rev (sort l)) 0.
Proof.
  intros Hij Hj. pose proof (Permutation_length (sort_perm l)) as Lp. rewrite !rev_nth by lia.
  apply ss_nth; [apply sort_sorted|lia|lia].
Qed.
Lemma Qsum_app a b : Qsum (a ++ b) == Qsum a + Qsum b.
Proof. induction a as [|x a IH]; cbn; [ring|]. rewrite IH. ring. Qed.
Lemma Qsum_perm (f : Q -> Q) a b : Permutation a b -> Qsum (map f a) == Qsum (map f b).
Proof. induction 1 as [|x a b _ IH|x y a|a b c _ I1 _ I2]; cbn; [ring|rewrite IH; ring|ring|rewrite I1; exact I2]. Qed.
Lemma cumsum_nth l : forall acc j, (j < length l)%nat -> nth j (cumsum acc l) 0 == acc + Qsum (firstn (S j) l).
Proof.
  induction l as [|x l IH]; intros acc j Hj; cbn [length] in Hj; [lia|]. destruct j as [|j].
  - cbn. ring.
  - change (nth (S j) (cumsum acc (x :: l)) 0) with (nth j (cumsum (acc + x) l) 0). rewrite IH by lia.
    change (firstn (S (S j)) (x :: l)) with (x :: firstn (S j) l). cbn [Qsum]. ring.
Qed.
Lemma firstn_S_sum l j : (S j < length l)%nat -> Qsum (firstn (S (S j)) l) == Qsum (firstn (S j) l) + nth (S j) l 0.
Proof.
  revert j. induction l as [|x l IH]; intros j Hj; cbn [length] in Hj; [lia|]. destruct j as [|j].
  - destruct l as [|y l]; [cbn in Hj; lia|]. cbn. ring.
  - change (firstn (S (S (S j))) (x :: l)) with (x :: firstn (S (S j)) l).
    change (firstn (S (S j)) (x :: l)) with (x :: firstn (S j) l). cbn [Qsum nth]. rewrite IH by lia. ring.
Qed.

Lemma last_filter (h : nat -> bool) n : forall r, last_index (filter h (seq 0 n)) = Some r ->
  (r < n)%nat /\ h r = true /\ forall j, (r < j < n)%nat -> h j = false.
Proof.
  induction n as [|n IH]; intros r E; [discriminate|]. rewrite seq_S, filter_app in E. cbn [filter Nat.add] in E.
  destruct (h n) eqn:Hn.
  - assert (r = n).
    { destruct (filter h (seq 0 n)) as [|a l]; cbn in E; [congruence|]. rewrite last_last in E. congruence. }
    subst r. split; [lia|]. split; [exact Hn|]. intros j Hj. lia.
  - rewrite app_nil_r in E. destruct (IH r E) as (A & B & C). split; [lia|]. split; [exact B|].
    intros j Hj. destruct (Nat.eq_dec j n) as [->|]; [exact Hn|]. apply C. lia.
Qed.
Lemma last_exists (h : nat -> bool) n : (0 < n)%nat -> h 0%nat = true -> exists r, last_index (filter h (seq 0 n)) = Some r.
Proof. intros Hn H0. destruct n as [|n]; [lia|]. cbn. rewrite H0. cbn. eexists. reflexivity. Qed.

Lemma shrink_sum u theta k : (k <= length u)%nat -> (forall i, (i < k)%nat -> theta <= nth i u 0) ->
  (forall i, (k <= i < length u)%nat -> nth i u 0 <= theta) ->
  Qsum (map (fun v => torch_max (v - theta) 0) u) == Qsum (firstn k u) - inject_Z (Z.of_nat k) * theta.
Proof.
  revert k. induction u as [|x u IH]; intros k Hk Hl Hr; cbn [length] in Hk.
  - assert (k = 0%nat) by lia. subst. cbn. ring.
  - cbn [map Qsum]. destruct k as [|k].
    + assert (X : Qsum (map (fun v => torch_max (v - theta) 0) u) == Qsum (firstn 0 u) - inject_Z (Z.of_nat 0) * theta).
      { apply IH; [lia|intros i Hi; lia|]. intros i Hi. apply (Hr (S i)). cbn [length]. lia. }
      rewrite X.
      pose proof (Hr 0%nat ltac:(cbn [length]; lia)) as A. cbn [nth] in A. cbn. unfold torch_max. qcase; lra.
    + assert (X : Qsum (map (fun v => torch_max (v - theta) 0) u) == Qsum (firstn k u) - inject_Z (Z.of_nat k) * theta).
      { apply IH; [lia| |]; intros i Hi; [apply (Hl (S i)); lia|apply (Hr (S i)); cbn [length]; lia]. }
      rewrite X.
      pose proof (Hl 0%nat ltac:(lia)) as A. cbn [nth] in A. cbn [firstn Qsum]. rewrite Nat2Z.inj_succ. unfold Z.succ.
      rewrite inject_Z_plus. change (inject_Z 1) with 1. unfold torch_max. qcase; lra.
Qed.

(** ** The threshold *)
Lemma min_le x l : Forall (fun y => minimum x l <= y) (x :: l).
Proof.
  revert x. induction l as [|y l IH]; intros x.
  - constructor; [cbn; lra|constructor].
  - specialize (IH y). change (minimum x (y :: l)) with (torch_min x (minimum y l)). set (m := minimum y l) in *. clearbody m.
    constructor; [unfold torch_min; qcase; lra|]. eapply Forall_impl; [|exact IH]. intros a Ha. cbn in Ha. unfold torch_min. qcase; lra.
Qed.
Lemma min_in x l : In (minimum x l) (x :: l).
Proof.
  revert x. induction l as [|y l IH]; intros x; [left; reflexivity|].
  change (minimum x (y :: l)) with (torch_min x (minimum y l)). unfold torch_min. qcase; [left; reflexivity|right; apply IH].
Qed.

Lemma simplex_spec vec r : 0 < r -> vec <> [] -> Forall (fun x => 0 <= x) vec ->
  (Qsum vec <= r /\ simplex vec r = Some vec) \/
  (r < Qsum vec /\ exists theta, 0 <= theta /\ simplex vec r = Some (map (fun v => torch_max (v - theta) 0) vec) /\
     Qsum (map (fun v => torch_max (v - theta) 0) vec) == r).
Proof.
  intros Hr Hne Hp. unfold simplex. destruct (Qle_bool r 0) eqn:E0; [apply Qle_bool_iff in E0; lra|].
  destruct vec as [|x vec']; [contradiction|].
  assert (M : 0 <= minimum x vec') by (rewrite Forall_forall in Hp; apply Hp; apply min_in).
  rewrite (proj2 (Qlt_bool_false _ _) M). set (vec := x :: vec') in *. cbv zeta.
  destruct (Qle_bool (Qsum vec) r) eqn:Es; [left; apply Qle_bool_iff in Es; split; [exact Es|reflexivity]|right].
  assert (Ho : r < Qsum vec).
  { assert (~ Qsum vec <= r) by (intros C; apply Qle_bool_iff in C; congruence). lra. }
  split; [exact Ho|]. set (u := rev (sort vec)).
  assert (Pu : Permutation vec u) by (unfold u; rewrite <- Permutation_rev; apply sort_perm).
  assert (Lu : length u = length vec) by (symmetry; apply Permutation_length, Pu).
  assert (Hn : (0 < length vec)%nat) by (cbn; lia).
  assert (Desc : forall i j, (i <= j)%nat -> (j < length vec)%nat -> nth j u 0 <= nth i u 0) by (intros; apply rev_nth_desc; assumption).
  assert (Pos : forall i, (i < length vec)%nat -> 0 <= nth i u 0).
  { intros i Hi. rewrite Forall_forall in Hp. apply Hp. apply (Permutation_in _ (Permutation_sym Pu)). apply nth_In. lia. }
  set (holds := fun i => Qlt_bool (nth i (cumsum 0 u) 0 - r) (nth i u 0 * inject_Z (Z.of_nat i + 1))).
  assert (H0 : holds 0%nat = true).
  { unfold holds. apply Qlt_bool_iff. rewrite cumsum_nth by lia. change (inject_Z (Z.of_nat 0 + 1)) with 1.
    destruct u as [|a u']; [cbn in Lu; lia|]. cbn. lra. }
  destruct (last_exists holds (length vec) Hn H0) as [rho Er]. rewrite Er.
  destruct (last_filter _ _ _ Er) as (R1 & R2 & R3). set (K := inject_Z (Z.of_nat rho + 1)).
  assert (PK : 0 < K) by (unfold K; change 0 with (inject_Z 0); rewrite <- Zlt_Qlt; lia).
  set (theta := (nth rho (cumsum 0 u) 0 - r) / K). exists theta.
  assert (Et : theta * K == Qsum (firstn (S rho) u) - r).
  { unfold theta. rewrite cumsum_nth by lia. field. lra. }
  clearbody theta.
  assert (A : theta < nth rho u 0).
  { unfold holds in R2. apply Qlt_bool_iff in R2. rewrite cumsum_nth in R2 by lia. fold K in R2.
    apply (Qmult_lt_r _ _ K PK). rewrite Et. lra. }
  assert (B : (S rho < length vec)%nat -> nth (S rho) u 0 <= theta).
  { intros L. specialize (R3 (S rho) ltac:(lia)). unfold holds in R3. apply Qlt_bool_false in R3.
    rewrite cumsum_nth, firstn_S_sum in R3 by lia.
    replace (Z.of_nat (S rho) + 1)%Z with (Z.of_nat rho + 1 + 1)%Z in R3 by lia. rewrite inject_Z_plus in R3. fold K in R3.
    change (inject_Z 1) with 1 in R3. apply (Qmult_le_r _ _ K PK). rewrite Et. set (y := nth (S rho) u 0) in *. clearbody y.
    assert (y * (K + 1) == y * K + y) by ring. lra. }
  split; [|split; [reflexivity|]].
  - destruct (Nat.eq_dec (S rho) (length vec)) as [E|N].
    + assert (F : Qsum (firstn (S rho) u) == Qsum vec).
      { rewrite E, <- Lu, firstn_all. pose proof (Qsum_perm (fun x => x) _ _ Pu) as P. rewrite !map_id in P. symmetry. exact P. }
      rewrite F in Et. assert (0 * K < theta * K) by (rewrite Et; lra). apply Qlt_le_weak, (Qmult_lt_r _ _ K PK). assumption.
    + apply Qle_trans with (nth (S rho) u 0); [apply Pos; lia|apply B; lia].
  - rewrite (Qsum_perm _ _ _ Pu). rewrite (shrink_sum u theta (S rho)).
    + rewrite Nat2Z.inj_succ. unfold Z.succ. fold K. lra.
    + lia.
    + intros i Hi. apply Qle_trans with (nth rho u 0); [lra|apply Desc; lia].
    + intros i Hi. apply Qle_trans with (nth (S rho) u 0); [apply Desc; lia|apply B; lia].
Qed.

(** ** Projection onto the l1 ball *)
(** Spec: norm, squared distance, and shrinking every magnitude by [theta]. *)
Fixpoint norm1 (l : list Q) : Q := match l with [] => 0 | x :: l' => Qabs x + norm1 l' end.
Fixpoint sqdist (a b : list Q) : Q :=
  match a, b with x :: a', y :: b' => (x - y) * (x - y) + sqdist a' b' | _, _ => 0 end.
Definition shrunk (theta x y : Q) : Prop :=
  (Qabs x <= theta /\ y == 0) \/ (theta <= x /\ y == x - theta) \/ (x <= - theta /\ y == x + theta).

Lemma norm1_sum l : norm1 l == Qsum (map Qabs l).
Proof. induction l as [|x l IH]; cbn; [reflexivity|]. rewrite IH. reflexivity. Qed.
Lemma sgn_abs x : inject_Z (sgnZ x) * Qabs x == x.
Proof.
  unfold sgnZ. destruct (Qlt_bool 0 x) eqn:A.
  - apply Qlt_bool_iff in A. rewrite Qabs_pos by lra. change (inject_Z 1) with 1. ring.
  - apply Qlt_bool_false in A. destruct (Qlt_bool x 0) eqn:B.
    + apply Qlt_bool_iff in B. rewrite Qabs_neg by lra. change (inject_Z (-1)) with (-1). ring.
    + apply Qlt_bool_false in B. rewrite Qabs_pos by lra. change (inject_Z 0) with 0. lra.
Qed.
Lemma sgn_shrunk theta x : 0 <= theta -> shrunk theta x (inject_Z (sgnZ x) * torch_max (Qabs x - theta) 0).
Proof.
  intros Ht. unfold shrunk, sgnZ. destruct (Qlt_bool 0 x) eqn:A.
  - apply Qlt_bool_iff in A. change (inject_Z 1) with 1. assert (E : Qabs x == x) by (apply Qabs_pos; lra).
    unfold torch_max. qcase; [right; left|left]; split; lra.
  - apply Qlt_bool_false in A. destruct (Qlt_bool x 0) eqn:B.
    + apply Qlt_bool_iff in B. change (inject_Z (-1)) with (-1). assert (E : Qabs x == - x) by (apply Qabs_neg; lra).
      unfold torch_max. qcase; [right; right|left]; split; lra.
    + apply Qlt_bool_false in B. change (inject_Z 0) with 0. left. assert (E : Qabs x == x) by (apply Qabs_pos; lra).
      split; [lra|ring].
Qed.
Lemma shrunk_abs theta x y : 0 <= theta -> shrunk theta x y -> Qabs y == torch_max (Qabs x - theta) 0.
Proof.
  intros Ht [[A B]|[[A B]|[A B]]]; rewrite B.
  - change (Qabs 0) with 0. unfold torch_max. qcase; lra.
  - assert (E : Qabs x == x) by (apply Qabs_pos; lra). rewrite (Qabs_pos (x - theta)) by lra. unfold torch_max. qcase; lra.
  - assert (E : Qabs x == - x) by (apply Qabs_neg; lra). rewrite (Qabs_neg (x + theta)) by lra. unfold torch_max. qcase; lra.
Qed.

(** What is returned: the vector itself, or every magnitude shrunk by one threshold, chosen so
    that the norm is the radius. *)
Theorem C115_returns : forall v r, 0 < r -> v <> [] -> exists p, l1_ball v r = Some p /\ length p = length v /\
  ((norm1 v <= r /\ Forall2 Qeq p v) \/
   (r < norm1 v /\ norm1 p == r /\ exists theta, 0 <= theta /\ Forall2 (shrunk theta) v p)).
Proof.
  intros v r Hr Hv. unfold l1_ball. destruct (Qle_bool r 0) eqn:E0; [apply Qle_bool_iff in E0; lra|]. cbv zeta.
  assert (Ha : Forall (fun x => 0 <= x) (map Qabs v)) by (apply Forall_map, Forall_forall; intros; apply Qabs_nonneg).
  assert (Hne : map Qabs v <> []) by (destruct v; [contradiction|discriminate]).
  pose proof (norm1_sum v) as N1.
  destruct (simplex_spec (map Qabs v) r Hr Hne Ha) as [[S1 S2]|(S1 & theta & Ht & S2 & S3)]; rewrite S2; cbn [obind]; eexists; (split; [reflexivity|]).
  - split; [rewrite map_length, combine_length, !map_length; apply Nat.min_id|]. left. split; [lra|].
    clear. induction v as [|x v IH]; cbn; constructor; [apply sgn_abs|exact IH].
  - split; [rewrite map_length, combine_length, !map_length; apply Nat.min_id|]. right. split; [lra|].
    rewrite map_map in S2, S3. set (p := map _ (combine _ _)).
    assert (F : Forall2 (shrunk theta) v p).
    { subst p. clear - Ht. induction v as [|x v IH]; cbn; constructor; [apply sgn_shrunk, Ht|exact IH]. }
    split; [|exists theta; split; assumption]. rewrite <- S3. clearbody p. clear - F Ht.
    induction F as [|x y v p H F IH]; cbn; [reflexivity|]. rewrite IH, (shrunk_abs theta x y Ht H). reflexivity.
Qed.

(** It is the nearest point of the ball, by a margin that makes it the only one. *)
Theorem C115_projection : forall v r, 0 < r -> v <> [] -> exists p, l1_ball v r = Some p /\ length p = length v /\ norm1 p <= r /\
  forall y, length y = length v -> norm1 y <= r -> sqdist v p + sqdist p y <= sqdist v y.
Proof.
  intros v r Hr Hv. destruct (C115_returns v r Hr Hv) as (p & E & L & C). exists p. split; [exact E|]. split; [exact L|].
  destruct C as [[C1 C2]|(C1 & C2 & theta & Ht & F)].
  - split.
    + assert (X : norm1 p == norm1 v) by (clear - C2; induction C2 as [|a b p v H F IH]; cbn; [reflexivity|rewrite IH, H; reflexivity]).
      rewrite X. exact C1.
    + intros y _ _. clear - C2. revert y. induction C2 as [|a b p v H F IH]; intros y; cbn; [lra|].
      destruct y as [|c y].
      * specialize (IH []). assert (Z : forall l : list Q, sqdist l [] == 0) by (intros [|? ?]; reflexivity). rewrite !Z in IH. rewrite H.
        assert (b - b == 0) by ring. nra.
      * specialize (IH y). assert (X : (b - a) * (b - a) + (a - c) * (a - c) == (b - c) * (b - c)) by (rewrite H; ring). lra.
  - split; [rewrite C2; lra|]. intros y Ly Hy.
    assert (K : 2 * theta * (norm1 p - norm1 y) + (sqdist v p + sqdist p y) <= sqdist v y).
    { clear - F Ly Ht. revert y Ly. induction F as [|a b v p H F IH]; intros [|c y] Ly; try discriminate; cbn [norm1 sqdist]; [lra|].
      injection Ly as Ly. specialize (IH y Ly).
      assert (X : 2 * theta * (Qabs b - Qabs c) + ((a - b) * (a - b) + (b - c) * (b - c)) <= (a - c) * (a - c)).
      { pose proof (Qle_Qabs c) as A1. pose proof (Qle_Qabs (- c)) as A2. rewrite Qabs_opp in A2.
        set (ac := Qabs c) in *. clearbody ac. destruct H as [[H1 H2]|[[H1 H2]|[H1 H2]]]; rewrite H2.
        - change (Qabs 0) with 0. pose proof (Qle_Qabs a) as B1. pose proof (Qle_Qabs (- a)) as B2. rewrite Qabs_opp in B2.
          set (aa := Qabs a) in *. clearbody aa. assert (a * c <= theta * ac).
          { destruct (Qlt_le_dec c 0); nra. }
          nra.
        - rewrite Qabs_pos by lra. nra.
        - rewrite Qabs_neg by lra. nra. }
      lra. }
    assert (0 <= theta * (norm1 p - norm1 y)) by (apply Qmult_le_0_compat; lra). lra.
Qed.

(** Projecting twice changes nothing. *)
Theorem C115_idempotent : forall v r p, l1_ball v r = Some p -> exists p', l1_ball p r = Some p' /\ Forall2 Qeq p' p.
Proof.
  intros v r p E. assert (Hr : 0 < r).
  { unfold l1_ball in E. destruct (Qle_bool r 0) eqn:E0; [discriminate|]. assert (~ r <= 0) by (intros C; apply Qle_bool_iff in C; congruence). lra. }
  assert (Hv : v <> []) by (intros ->; unfold l1_ball, simplex in E; cbn [map] in E; destruct (Qle_bool r 0); discriminate).
  destruct (C115_projection v r Hr Hv) as (q & E' & L & N & _). rewrite E in E'. injection E' as ->.
  assert (Hq : q <> []) by (destruct q; [destruct v; [contradiction|discriminate]|discriminate]).
  destruct (C115_returns q r Hr Hq) as (p' & E'' & _ & [[_ C]|[C _]]); [eauto|lra].
Qed.

(** It raises exactly for a radius that is not positive and for an empty vector. *)
Theorem C115_raises : forall v r, l1_ball v r = None <-> r <= 0 \/ v = [].
Proof.
  intros v r. split.
  - intros E. destruct (Qlt_le_dec 0 r) as [Hr|Hr]; [|left; exact Hr]. right. destruct v as [|x v]; [reflexivity|].
    destruct (C115_returns (x :: v) r Hr ltac:(discriminate)) as (p & E' & _). congruence.
  - intros [H| ->].
    + unfold l1_ball. rewrite (proj2 (Qle_bool_iff _ _) H). reflexivity.
    + unfold l1_ball. destruct (Qle_bool r 0) eqn:E0; [reflexivity|]. cbv zeta. unfold simplex. cbn [map]. rewrite E0. reflexivity.
Qed.

(** ** All channels of a layer *)
Theorem C115_channels : forall ws radius vs, l1_proj_matrix_per_channel ws radius = Some vs ->
  length vs = length ws /\
  forall i, (i < length ws)%nat ->
    exists r, (radius = PerTensor r \/ exists l, radius = PerChannel l /\ nth_error l i = Some r) /\
    length (nth i vs []) = length (nth i ws []) /\ norm1 (nth i vs []) <= r /\
    forall y, length y = length (nth i ws []) -> norm1 y <= r ->
      sqdist (nth i ws []) (nth i vs []) + sqdist (nth i vs []) y <= sqdist (nth i ws []) y.
Proof.
  assert (R : forall ws rs vs, rows ws rs = Some vs -> length vs = length ws /\
    forall i, (i < length ws)%nat -> exists r, nth_error rs i = Some r /\ l1_ball (nth i ws []) r = Some (nth i vs [])).
  { induction ws as [|w ws IH]; intros rs vs E; cbn in E.
    - injection E as <-. split; [reflexivity|]. cbn. intros i Hi. lia.
    - destruct rs as [|r rs]; [discriminate|]. destruct (l1_ball w r) as [v|] eqn:Ev; [|discriminate]. cbn [obind] in E.
      destruct (rows ws rs) as [vs'|] eqn:Er; [|discriminate]. cbn [obind] in E. injection E as <-.
      destruct (IH rs vs' Er) as [L I]. split; [cbn; lia|]. intros [|i] Hi; cbn in *; [eauto|]. apply I. lia. }
  assert (P : forall w r v, l1_ball w r = Some v -> length v = length w /\ norm1 v <= r /\
    forall y, length y = length w -> norm1 y <= r -> sqdist w v + sqdist v y <= sqdist w y).
  { intros w r v E. assert (X : ~ (r <= 0 \/ w = [])) by (rewrite <- C115_raises; congruence).
    destruct (C115_projection w r) as (p & E' & H).
    - destruct (Qlt_le_dec 0 r); [assumption|]. exfalso. apply X. left. assumption.
    - intros ->. apply X. right. reflexivity.
    - rewrite E in E'. injection E' as ->. exact H. }
  intros ws radius vs E. unfold l1_proj_matrix_per_channel in E. destruct radius as [r|l].
  - destruct (R _ _ _ E) as [L I]. split; [exact L|]. intros i Hi. destruct (I i Hi) as (r' & E1 & E2).
    assert (r' = r).
    { apply nth_error_In, in_map_iff in E1. destruct E1 as (? & <- & _). reflexivity. }
    subst r'. exists r. split; [left; reflexivity|]. apply P. exact E2.
  - destruct (Nat.eqb (length l) (length ws)); [|discriminate]. destruct (R _ _ _ E) as [L I]. split; [exact L|].
    intros i Hi. destruct (I i Hi) as (r' & E1 & E2). exists r'. split; [right; eauto|]. apply P. exact E2.
Qed.

(** With positive radii, one for the layer or one per channel, it does not raise. *)
Theorem C115_channels_return : forall ws radius, Forall (fun w => w <> []) ws ->
  (exists vs, l1_proj_matrix_per_channel ws radius = Some vs) <->
  match radius with
  | PerTensor r => ws = [] \/ 0 < r
  | PerChannel l => length l = length ws /\ Forall (fun r => 0 < r) l
  end.
Proof.
  assert (R : forall ws rs, Forall (fun w => w <> []) ws -> length rs = length ws ->
    (exists vs, rows ws rs = Some vs) <-> Forall (fun r => 0 < r) rs).
  { induction ws as [|w ws IH]; intros [|r rs] F L; try discriminate; cbn [rows].
    - split; [constructor|eauto].
    - inversion_clear F as [|? ? F1 F2]. injection L as L. specialize (IH rs F2 L). split.
      + intros [vs E]. destruct (l1_ball w r) as [v|] eqn:Ev; [|discriminate]. cbn [obind] in E.
        destruct (rows ws rs) as [vs'|] eqn:Er; [|discriminate]. constructor; [|apply IH; eauto].
        destruct (Qlt_le_dec 0 r) as [|H]; [assumption|]. assert (l1_ball w r = None) by (apply C115_raises; left; exact H). congruence.
      + intros H. inversion_clear H as [|? ? H1 H2]. apply IH in H2. destruct H2 as [vs' Er]. rewrite Er.
        destruct (l1_ball w r) as [v|] eqn:Ev; [cbn; eauto|]. apply C115_raises in Ev. destruct Ev; [lra|contradiction]. }
  intros ws radius F. unfold l1_proj_matrix_per_channel. destruct radius as [r|l].
  - rewrite R by (try assumption; apply map_length). rewrite Forall_map. split.
    + intros H. destruct ws as [|w ws]; [left; reflexivity|]. right. inversion_clear H. assumption.
    + intros [-> |H]; [constructor|]. apply Forall_forall. intros; exact H.
  - destruct (Nat.eqb_spec (length l) (length ws)) as [E|N].
    + rewrite R by assumption. tauto.
    + split; [intros [vs H]; discriminate|intros [H _]; contradiction].
Qed.

(** ** What the quantizer does afterwards *)
(** If the stored norm is that of the weights, as it is when the quantizer is created, then after
    the initialisation the quantizer divides the projected weights by the plain scale. *)
Theorem C115_plain_scale : forall c T s v w, c = LConv2d \/ c = LLinear -> 0 < T -> 0 < s -> v == norm1 w -> 0 < v ->
  exists w' v' p, ep_channel c T s v w = Some (w', v') /\ norm1 w' <= s * T /\ inner_forward T s v' None w' = Some p /\ p == s.
Proof.
  intros c T s v w Hc0 HT Hs Ev Hv. assert (Hc : projected c = true) by (destruct Hc0 as [-> | ->]; reflexivity). assert (Hz : 0 < s * T) by nra.
  assert (Hw : w <> []) by (intros ->; cbn in Ev; lra).
  destruct (C115_returns w (s * T) Hz Hw) as (w' & E & _ & C). unfold ep_channel. cbv zeta. rewrite Hc, E. cbn [obind].
  set (v' := if Qle_bool v (s * T) then v else s * T). exists w', v'.
  assert (A : norm1 w' == v' /\ v' <= s * T /\ 0 < v').
  { unfold v'. destruct C as [[C1 C2]|(C1 & C2 & _)].
    - assert (X : norm1 w' == norm1 w) by (clear - C2; induction C2 as [|a b p q H F IH]; cbn; [reflexivity|rewrite IH, H; reflexivity]).
      rewrite (proj2 (Qle_bool_iff v (s * T))) by lra. rewrite X. split; [lra|]. split; lra.
    - destruct (Qle_bool v (s * T)) eqn:Q1; [apply Qle_bool_iff in Q1; lra|]. split; [exact C2|]. split; lra. }
  destruct A as (A1 & A2 & A3). clearbody v'. unfold inner_forward. cbv zeta. unfold clamp_min_opt, qdiv.
  assert (Es : Qeq_bool s 0 = false) by (destruct (Qeq_bool s 0) eqn:X; [apply Qeq_bool_iff in X; lra|reflexivity]). rewrite Es. cbn [obind].
  assert (Ea : Qabs v' == v') by (apply Qabs_pos; lra).
  assert (Eg : Qabs v' / s == v' / s) by (rewrite Ea; reflexivity).
  assert (Pg : 0 < v' / s) by (apply Qlt_shift_div_l; lra).
  assert (Lg : v' / s <= T) by (apply Qle_shift_div_r; [exact Hs|]; lra).
  assert (NT : Qlt_bool T (Qabs v' / s) = false) by (apply Qlt_bool_false; rewrite Eg; exact Lg). rewrite NT.
  assert (Ng : Qeq_bool (Qabs v' / s) 0 = false) by (destruct (Qeq_bool (Qabs v' / s) 0) eqn:X; [apply Qeq_bool_iff in X; rewrite Eg in X; lra|reflexivity]).
  rewrite Ng. cbn [obind]. eexists. split; [reflexivity|]. split; [rewrite A1; exact A2|]. split; [reflexivity|].
  unfold l1_norm. rewrite <- norm1_sum, A1, Ea. field. split; lra.
Qed.

(** Layers other than 2d convolutions and linear layers have their stored norm capped and their
    weights left: every weight shrinks by the same factor instead. *)
Theorem C115_other_layers_refuted : forall c T s v w, c = LConv1d \/ c = LConvTranspose2d -> 0 < T -> 0 < s -> v == norm1 w -> s * T < v ->
  exists v' p, ep_channel c T s v w = Some (w, v') /\ s * T < norm1 w /\ inner_forward T s v' None w = Some p /\ s < p.
Proof.
  intros c T s v w Hc0 HT Hs Ev Hv. assert (Hc : projected c = false) by (destruct Hc0 as [-> | ->]; reflexivity). assert (Hz : 0 < s * T) by nra. unfold ep_channel. cbv zeta. rewrite Hc.
  destruct (Qle_bool v (s * T)) eqn:Q1; [apply Qle_bool_iff in Q1; lra|]. exists (s * T). unfold inner_forward. cbv zeta. unfold clamp_min_opt, qdiv.
  assert (Es : Qeq_bool s 0 = false) by (destruct (Qeq_bool s 0) eqn:X; [apply Qeq_bool_iff in X; lra|reflexivity]). rewrite Es. cbn [obind].
  assert (Eg : Qabs (s * T) / s == T) by (rewrite Qabs_pos by lra; field; lra).
  assert (NT : Qlt_bool T (Qabs (s * T) / s) = false) by (apply Qlt_bool_false; rewrite Eg; lra). rewrite NT.
  assert (Ng : Qeq_bool (Qabs (s * T) / s) 0 = false) by (destruct (Qeq_bool (Qabs (s * T) / s) 0) eqn:X; [apply Qeq_bool_iff in X; rewrite Eg in X; lra|reflexivity]).
  rewrite Ng. cbn [obind]. eexists. split; [reflexivity|]. split; [lra|]. split; [reflexivity|].
  unfold l1_norm. rewrite <- norm1_sum, Eg. apply Qlt_shift_div_l; [exact HT|]. lra.
Qed.

(** With the zero-centred quantizer (A2Q+) the weights are projected before centring, which can
    increase the norm: the quantizer then still rescales. *)
Theorem C115_zero_center_refuted : exists T s w w' v', 0 < T /\ 0 < s /\
  ep_channel LLinear T s (norm1 (map (fun x => x + zero_center w) w)) w = Some (w', v') /\
  s * T < norm1 (map (fun x => x + zero_center w') w') /\
  exists p, inner_forward T s v' None (map (fun x => x + zero_center w') w') = Some p /\ s < p.
Proof.
  exists 3, 1, [4; 0; 0; 0], [3; 0; 0; 0], 3. split; [reflexivity|]. split; [reflexivity|]. split; [vm_compute; reflexivity|].
  split; [vm_compute; reflexivity|]. eexists. split; [vm_compute; reflexivity|reflexivity].
Qed.

Example C115_nontrivial :
  (exists p, l1_ball [5; -3; 1; 0; -2] 4 = Some p /\ Forall2 Qeq p [3; -1; 0; 0; 0]) /\
  (exists w' v', ep_channel LConv2d 4 (1 # 2) 6 [3; -2; 1] = Some (w', v') /\ Forall2 Qeq w' [3 # 2; - (1 # 2); 0] /\ v' == 2) /\
  l1_ball [1; 2] 0 = None.
Proof.
  split; [eexists; split; [vm_compute; reflexivity|repeat constructor]|].
  split; [|reflexivity]. eexists. eexists. split; [vm_compute; reflexivity|]. split; [repeat constructor|reflexivity].
Qed.

Print Assumptions C115_returns.
Print Assumptions C115_projection.
Print Assumptions C115_idempotent.
Print Assumptions C115_raises.
Print Assumptions C115_channels.
Print Assumptions C115_channels_return.
Print Assumptions C115_plain_scale.
Print Assumptions C115_other_layers_refuted.
Print Assumptions C115_zero_center_refuted.
