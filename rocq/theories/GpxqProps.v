(** C39 (GPTQ block independence and grid), C40 (Hessian), C59 (GPTQ optimality), C60 (dead
    inputs and damping), C61 (GPFQ), C62 (GPFQv2), C63 (views and slices). *)
From Verif Require Import Gpxq.
From Coq Require Import Reals List Bool Arith Lra Lia Permutation FunctionalExtensionality.
Import ListNotations.
Open Scope R_scope.

(** ** Sums *)
Lemma sum_ext n f g : (forall i, (i < n)%nat -> f i = g i) -> sum n f = sum n g.
Proof. induction n; intros H; cbn [sum]; [reflexivity|]. rewrite IHn, H by (try lia; intros; apply H; lia). reflexivity. Qed.
Lemma sum_plus n f g : sum n (fun i => f i + g i) = sum n f + sum n g.
Proof. induction n; cbn [sum]; [ring|]. rewrite IHn. ring. Qed.
Lemma sum_scale n k f : sum n (fun i => k * f i) = k * sum n f.
Proof. induction n; cbn [sum]; [ring|]. rewrite IHn. ring. Qed.
Lemma sum_scale_r n k f : sum n (fun i => f i * k) = sum n f * k.
Proof. induction n; cbn [sum]; [ring|]. rewrite IHn. ring. Qed.
Lemma sum_minus n f g : sum n (fun i => f i - g i) = sum n f - sum n g.
Proof. induction n; cbn [sum]; [ring|]. rewrite IHn. ring. Qed.
Lemma sum_zero n f : (forall i, (i < n)%nat -> f i = 0) -> sum n f = 0.
Proof. intros H. rewrite (sum_ext n f (fun _ => 0) H). clear. induction n; cbn [sum]; lra. Qed.
Lemma sum_swap n m f : sum n (fun i => sum m (f i)) = sum m (fun j => sum n (fun i => f i j)).
Proof.
  induction n; cbn [sum]; [symmetry; apply sum_zero; intros; reflexivity|].
  rewrite IHn, <- sum_plus. reflexivity.
Qed.
Lemma sum_single n f k : (k < n)%nat -> (forall i, (i < n)%nat -> i <> k -> f i = 0) -> sum n f = f k.
Proof.
  induction n; intros Hk H; [lia|]. cbn [sum]. destruct (Nat.eq_dec k n) as [->|N].
  - rewrite (sum_zero n f); [ring|]. intros i Hi. apply H; lia.
  - rewrite IHn; [|lia|intros; apply H; lia]. rewrite (H n); [ring|lia|lia].
Qed.
Lemma sum_nonneg n f : (forall i, (i < n)%nat -> 0 <= f i) -> 0 <= sum n f.
Proof. induction n; intros H; cbn [sum]; [lra|]. specialize (IHn (fun i Hi => H i (Nat.lt_lt_succ_r _ _ Hi))). specialize (H n (Nat.lt_succ_diag_r n)). lra. Qed.
Lemma sum_pos n f k : (k < n)%nat -> (forall i, (i < n)%nat -> 0 <= f i) -> 0 < f k -> 0 < sum n f.
Proof.
  induction n; intros Hk H Hp; [lia|]. cbn [sum]. destruct (Nat.eq_dec k n) as [->|N].
  - pose proof (sum_nonneg n f (fun i Hi => H i (Nat.lt_lt_succ_r _ _ Hi))). lra.
  - specialize (IHn ltac:(lia) (fun i Hi => H i (Nat.lt_lt_succ_r _ _ Hi)) Hp). specialize (H n (Nat.lt_succ_diag_r n)). lra.
Qed.
Lemma lsum_app {A} (f : A -> R) a b : lsum f (a ++ b) = lsum f a + lsum f b.
Proof. induction a; unfold lsum in *; cbn [app fold_right]; [ring|]. rewrite IHa. ring. Qed.
Lemma lsum_scale {A} (f g : A -> R) k l : (forall a, g a = k * f a) -> lsum g l = k * lsum f l.
Proof. intros H. induction l; unfold lsum in *; cbn [fold_right]; [ring|]. rewrite IHl, H. ring. Qed.
Lemma lsum_perm {A} (f : A -> R) a b : Permutation a b -> lsum f a = lsum f b.
Proof. induction 1; unfold lsum in *; cbn [fold_right]; lra. Qed.
Lemma lsum_sum {A} (f : A -> nat -> R) l n : sum n (fun i => lsum (fun a => f a i) l) = lsum (fun a => sum n (f a)) l.
Proof.
  induction l; unfold lsum; cbn [fold_right]; [apply sum_zero; intros; reflexivity|].
  rewrite sum_plus. unfold lsum in IHl. rewrite IHl. reflexivity.
Qed.
Lemma lsum_nonneg {A} (f : A -> R) l : (forall a, In a l -> 0 <= f a) -> 0 <= lsum f l.
Proof.
  induction l as [|a l IH]; intros H; unfold lsum; cbn [fold_right]; [lra|]. fold (lsum f l).
  pose proof (H a (or_introl eq_refl)). pose proof (IH (fun b Hb => H b (or_intror Hb))). lra.
Qed.
Lemma lsum_ext {A} (f g : A -> R) l : (forall a, In a l -> f a = g a) -> lsum f l = lsum g l.
Proof.
  induction l as [|a l IH]; intros H; unfold lsum; cbn [fold_right]; [reflexivity|]. fold (lsum f l) (lsum g l).
  rewrite (H a), IH by (cbn; auto; intros; apply H; cbn; auto). reflexivity.
Qed.
Lemma lsum_zero_all {A} (f : A -> R) l : (forall a, In a l -> 0 <= f a) -> lsum f l = 0 -> forall a, In a l -> f a = 0.
Proof.
  induction l as [|a l IH]; intros Hn Hz b Hb; [destruct Hb|]. unfold lsum in Hz. cbn [fold_right] in Hz. fold (lsum f l) in Hz.
  pose proof (Hn a (or_introl eq_refl)) as Ha. pose proof (lsum_nonneg f l (fun c Hc => Hn c (or_intror Hc))) as Hl.
  destruct Hb as [<-|Hb]; [lra|]. apply IH; [intros; apply Hn; cbn; auto|lra|exact Hb].
Qed.

(** * C40: the Hessian *)
Definition total (bs : list batch) : nat := fold_right (fun b s => (size b + s)%nat) 0%nat bs.
Definition all_samples (bs : list batch) : list (nat -> R) := flat_map samples bs.

Lemma hessian_from bs : Forall (fun b => (0 < size b)%nat) bs -> forall N H S,
  (forall i j, INR N * H i j = 2 * S i j) ->
  let (N', H') := fold_left update_batch bs (N, H) in
  N' = (N + total bs)%nat /\ forall i j, INR N' * H' i j = 2 * (S i j + lsum (fun x => x i * x j) (all_samples bs)).
Proof.
  induction 1 as [|b bs Hb F IH]; intros N H S HI; cbn [fold_left total fold_right all_samples flat_map].
  - split; [lia|]. intros i j. rewrite HI. unfold lsum. cbn [fold_right]. ring.
  - unfold update_batch at 2. cbv beta iota zeta.
    set (N1 := (N + size b)%nat). assert (HN : 0 < INR N1) by (apply lt_0_INR; unfold N1; lia).
    set (H1 := fun i j => _). specialize (IH N1 H1 (fun i j => S i j + lsum (fun x => x i * x j) (samples b))).
    assert (P : forall i j, INR N1 * H1 i j = 2 * (S i j + lsum (fun x => x i * x j) (samples b))).
    { intros i j. unfold H1.
      rewrite (lsum_scale (fun x => x i * x j) _ (2 / INR N1)).
      - replace (INR N1 * (H i j * (INR N / INR N1) + 2 / INR N1 * lsum (fun x => x i * x j) (samples b)))
          with (INR N * H i j + 2 * lsum (fun x => x i * x j) (samples b)) by (field; lra).
        rewrite HI. ring.
      - intros x. assert (SQ : sqrt (2 / INR N1) * sqrt (2 / INR N1) = 2 / INR N1) by (apply sqrt_sqrt; apply Rlt_le, Rdiv_lt_0_compat; lra).
        replace (sqrt (2 / INR N1) * x i * (sqrt (2 / INR N1) * x j)) with (sqrt (2 / INR N1) * sqrt (2 / INR N1) * (x i * x j)) by ring.
        rewrite SQ. reflexivity. }
    specialize (IH P). destruct (fold_left update_batch bs (N1, H1)) as [N' H']. destruct IH as [E1 E2].
    split; [rewrite E1; unfold N1, total; lia|]. intros i j. rewrite E2. rewrite lsum_app. unfold all_samples. ring.
Qed.

Theorem C40_hessian : forall bs, Forall (fun b => (0 < size b)%nat) bs -> bs <> [] ->
  fst (hessian bs) = total bs
  /\ forall i j, snd (hessian bs) i j = 2 / INR (total bs) * lsum (fun x => x i * x j) (all_samples bs).
Proof.
  intros bs F NE. pose proof (hessian_from bs F 0%nat (fun _ _ => 0) (fun _ _ => 0)) as P. cbn [INR] in P.
  specialize (P ltac:(intros; ring)). unfold hessian. destruct (fold_left update_batch bs (0%nat, fun _ _ : nat => 0)) as [N H].
  destruct P as [E1 E2]. cbn [fst snd]. split; [exact E1|]. intros i j. specialize (E2 i j).
  assert (HT : (0 < total bs)%nat) by (destruct F as [|b bs Hb F]; [contradiction|cbn [total fold_right]; lia]).
  apply lt_0_INR in HT. rewrite E1 in E2. cbn [plus] in E2. apply (Rmult_eq_reg_l (INR (total bs))); [|lra]. rewrite E2. field. lra.
Qed.

Lemma all_samples_perm a b : Permutation a b -> Permutation (all_samples a) (all_samples b).
Proof. intros. apply Permutation_flat_map. assumption. Qed.
Lemma total_perm a b : Permutation a b -> total a = total b.
Proof. induction 1; cbn [total fold_right] in *; unfold total in *; try lia; auto. Qed.

(** The order of the batches does not matter, nor how samples are grouped into batches. *)
Corollary C40_order : forall a b, Forall (fun b => (0 < size b)%nat) a -> a <> [] -> Permutation a b ->
  snd (hessian a) = snd (hessian b).
Proof.
  intros a b F NE P. apply functional_extensionality. intros i. apply functional_extensionality. intros j.
  assert (Fb : Forall (fun b => (0 < size b)%nat) b).
  { rewrite Forall_forall in *. intros x Hx. apply F. eapply Permutation_in; [apply Permutation_sym; exact P|exact Hx]. }
  assert (Nb : b <> []) by (intros ->; apply Permutation_sym, Permutation_nil in P; contradiction).
  rewrite (proj2 (C40_hessian a F NE)), (proj2 (C40_hessian b Fb Nb)).
  rewrite (total_perm a b P), (lsum_perm _ _ _ (all_samples_perm a b P)). reflexivity.
Qed.

Corollary C40_split : forall a1 a2 b1 b2 x1 x2, (0 < b1)%nat -> (0 < b2)%nat ->
  Forall (fun b => (0 < size b)%nat) (a1 ++ a2) ->
  snd (hessian (a1 ++ [B b1 x1; B b2 x2] ++ a2)) = snd (hessian (a1 ++ [B (b1 + b2) (x1 ++ x2)] ++ a2)).
Proof.
  intros a1 a2 b1 b2 x1 x2 H1 H2 F. apply Forall_app in F. destruct F as [F1 F2].
  apply functional_extensionality. intros i. apply functional_extensionality. intros j.
  assert (G1 : Forall (fun b => (0 < size b)%nat) (a1 ++ [B b1 x1; B b2 x2] ++ a2)) by (apply Forall_app; split; [exact F1|repeat constructor; cbn; auto; lia]).
  assert (G2 : Forall (fun b => (0 < size b)%nat) (a1 ++ [B (b1 + b2) (x1 ++ x2)] ++ a2)) by (apply Forall_app; split; [exact F1|repeat constructor; cbn; auto; lia]).
  rewrite (proj2 (C40_hessian _ G1 ltac:(intros E; apply app_eq_nil in E; destruct E; discriminate))).
  rewrite (proj2 (C40_hessian _ G2 ltac:(intros E; apply app_eq_nil in E; destruct E; discriminate))).
  assert (T : forall l k, total (l ++ k) = (total l + total k)%nat) by (induction l; intros; cbn [app total fold_right]; [reflexivity|]; fold (total (l ++ k)); fold (total l); rewrite IHl; lia).
  assert (A : forall l k, all_samples (l ++ k) = all_samples l ++ all_samples k) by (intros; apply flat_map_app).
  f_equal.
  - f_equal. f_equal. rewrite !T. cbn [total fold_right size]. lia.
  - rewrite !A, !lsum_app. cbn [all_samples flat_map samples app]. rewrite !app_nil_r. rewrite !lsum_app. ring.
Qed.

Example C40_example : snd (hessian [B 1 [fun _ => 1]; B 3 [fun _ => 2; fun i => INR i]]) 1%nat 1%nat = 2 / 4 * 6.
Proof.
  rewrite (proj2 (C40_hessian [B 1 [fun _ => 1]; B 3 [fun _ => 2; fun i => INR i]] ltac:(repeat constructor) ltac:(discriminate))).
  cbn [total fold_right size all_samples flat_map samples app lsum plus]. unfold lsum. cbn [fold_right INR]. field.
Qed.

(** * C60: dead inputs and damping *)
Definition form (n : nat) (H : mat) (d : nat -> R) : R := sum n (fun i => sum n (fun j => d i * H i j * d j)).
Definition out (n : nat) (w x : nat -> R) : R := sum n (fun c => w c * x c).

Lemma form_outer n d (x : nat -> R) : sum n (fun i => sum n (fun j => d i * (x i * x j) * d j)) = out n d x * out n d x.
Proof.
  unfold out. rewrite <- sum_scale_r. apply sum_ext. intros i _.
  rewrite <- sum_scale. apply sum_ext. intros j _. ring.
Qed.

Lemma form_hessian n bs d : Forall (fun b => (0 < size b)%nat) bs -> bs <> [] ->
  form n (snd (hessian bs)) d = 2 / INR (total bs) * lsum (fun x => out n d x * out n d x) (all_samples bs).
Proof.
  intros F NE. unfold form.
  rewrite (sum_ext n _ (fun i => 2 / INR (total bs) * lsum (fun x => sum n (fun j => d i * (x i * x j) * d j)) (all_samples bs))).
  - rewrite sum_scale. f_equal. rewrite lsum_sum. apply lsum_ext. intros x _. apply form_outer.
  - intros i _. rewrite <- lsum_sum, <- sum_scale. apply sum_ext. intros j _. rewrite (proj2 (C40_hessian bs F NE)).
    rewrite (lsum_scale (fun x => x i * x j) (fun x => d i * (x i * x j) * d j) (d i * d j)) by (intros; ring). ring.
Qed.

Lemma dead_spec bs c : Forall (fun b => (0 < size b)%nat) bs -> bs <> [] ->
  dead (snd (hessian bs)) c = true <-> (forall x, In x (all_samples bs) -> x c = 0).
Proof.
  intros F NE. unfold dead. rewrite (proj2 (C40_hessian bs F NE)).
  assert (HT : 0 < INR (total bs)) by (apply lt_0_INR; destruct F; [contradiction|cbn [total fold_right]; lia]).
  assert (H2 : 0 < 2 / INR (total bs)) by (apply Rdiv_lt_0_compat; lra).
  destruct (Req_EM_T _ 0) as [E|E]; split; intros Q; try reflexivity; try discriminate.
  - intros x Hx. apply Rmult_integral in E. destruct E as [E|E]; [lra|].
    pose proof (lsum_zero_all (fun x : nat -> R => x c * x c) (all_samples bs) ltac:(intros a _; cbn beta; nra) E x Hx) as Z. cbn beta in Z. apply Rmult_integral in Z. tauto.
  - exfalso. apply E. rewrite (lsum_ext _ (fun _ => 0)) by (intros x Hx; rewrite (Q x Hx); ring).
    assert (Z : forall l : list (nat -> R), lsum (fun _ => 0) l = 0) by (clear; induction l; unfold lsum in *; cbn [fold_right]; lra).
    rewrite Z. ring.
Qed.

(** Zeroing the dead columns does not change any output on the calibration data. *)
Theorem C60_dead_harmless : forall n bs W, Forall (fun b => (0 < size b)%nat) bs -> bs <> [] ->
  forall r x, In x (all_samples bs) -> out n (zero_dead (snd (hessian bs)) W r) x = out n (W r) x.
Proof.
  intros n bs W F NE r x Hx. apply sum_ext. intros c _. unfold zero_dead.
  destruct (dead (snd (hessian bs)) c) eqn:D; [|reflexivity]. rewrite dead_spec in D by assumption. rewrite (D x Hx). ring.
Qed.

(** The columns of inputs that are zero in every sample are zeroed, the others are untouched. *)
Theorem C60_dead_zeroed : forall bs W r c, Forall (fun b => (0 < size b)%nat) bs -> bs <> [] ->
  ((forall x, In x (all_samples bs) -> x c = 0) -> zero_dead (snd (hessian bs)) W r c = 0)
  /\ ((exists x, In x (all_samples bs) /\ x c <> 0) -> zero_dead (snd (hessian bs)) W r c = W r c).
Proof.
  intros bs W r c F NE. unfold zero_dead. pose proof (dead_spec bs c F NE) as D. split.
  - intros H. apply D in H. rewrite H. reflexivity.
  - intros (x & Hx & Nx). destruct (dead (snd (hessian bs)) c); [|reflexivity].
    exfalso. apply Nx. apply D; [reflexivity|exact Hx].
Qed.

(** The matrix handed to the Cholesky factorisation is symmetric positive definite, whatever the
    calibration data (even without any non-zero sample). *)
Theorem C60_positive_definite : forall n bs percdamp, Forall (fun b => (0 < size b)%nat) bs -> bs <> [] -> 0 < percdamp ->
  let H := damp percdamp n (fix_dead (snd (hessian bs))) in
  (forall i j, H i j = H j i)
  /\ forall d, (exists k, (k < n)%nat /\ d k <> 0) -> 0 < form n H d.
Proof.
  intros n bs pd F NE Hp H. set (H0 := snd (hessian bs)) in *.
  assert (HT : 0 < INR (total bs)) by (apply lt_0_INR; destruct F; [contradiction|cbn [total fold_right]; lia]).
  assert (H2 : 0 < 2 / INR (total bs)) by (apply Rdiv_lt_0_compat; lra).
  split.
  - intros i j. unfold H, damp, fix_dead. destruct (Nat.eqb_spec i j) as [->|N]; [rewrite Nat.eqb_refl; reflexivity|].
    destruct (Nat.eqb_spec j i) as [->|]; [contradiction|]. cbn [andb]. unfold H0.
    rewrite !(proj2 (C40_hessian bs F NE)). f_equal. apply lsum_ext. intros x _. ring.
  - intros d (k & Hk & Hd).
    assert (DG : forall c, 0 < fix_dead H0 c c).
    { intros c. unfold fix_dead. rewrite Nat.eqb_refl. cbn [andb]. destruct (dead H0 c) eqn:D; [lra|].
      unfold dead in D. destruct (Req_EM_T (H0 c c) 0) as [|E]; [discriminate|].
      assert (0 <= H0 c c).
      { unfold H0. rewrite (proj2 (C40_hessian bs F NE)). apply Rmult_le_pos; [lra|]. apply lsum_nonneg. intros x _. nra. }
      lra. }
    set (lam := pd * (sum n (fun k => fix_dead H0 k k) / INR n)).
    assert (HL : 0 < lam).
    { apply Rmult_lt_0_compat; [exact Hp|]. apply Rdiv_lt_0_compat; [|apply lt_0_INR; lia].
      apply sum_pos with (k := k); [exact Hk| |apply DG]. intros. apply Rlt_le, DG. }
    assert (E : form n H d = form n H0 d + sum n (fun i => (if dead H0 i then d i * d i else 0) + lam * (d i * d i))).
    { unfold form. rewrite <- sum_plus. apply sum_ext. intros i Hi.
      assert (Z : sum n (fun j => d i * H i j * d j) - sum n (fun j => d i * H0 i j * d j)
                  = (if dead H0 i then d i * d i else 0) + lam * (d i * d i)).
      { rewrite <- sum_minus. rewrite (sum_single n _ i Hi).
        - unfold H, damp, fix_dead at 1. rewrite Nat.eqb_refl. cbn [andb]. fold lam. destruct (dead H0 i) eqn:D; [|ring].
          unfold dead in D. destruct (Req_EM_T (H0 i i) 0) as [E0|]; [|discriminate]. rewrite E0. ring.
        - intros j _ N. unfold H, damp, fix_dead. destruct (Nat.eqb_spec i j); [congruence|]. cbn [andb]. ring. }
      lra. }
    rewrite E. unfold H0. rewrite form_hessian by assumption. fold H0.
    assert (0 <= lsum (fun x => out n d x * out n d x) (all_samples bs)) by (apply lsum_nonneg; intros; nra).
    assert (0 < sum n (fun i => (if dead H0 i then d i * d i else 0) + lam * (d i * d i))).
    { apply sum_pos with (k := k); [exact Hk| |].
      - intros i _. destruct (dead H0 i); nra.
      - assert (0 < d k * d k) by nra. destruct (dead H0 k); nra. }
    nra.
Qed.

Example C60_example : Forall (fun b => (0 < size b)%nat) [B 1 [fun i => if (i =? 0)%nat then 1 else 0]]
  /\ dead (snd (hessian [B 1 [fun i => if (i =? 0)%nat then 1 else 0]])) 1 = true
  /\ dead (snd (hessian [B 1 [fun i => if (i =? 0)%nat then 1 else 0]])) 0 = false.
Proof.
  split; [repeat constructor|]. split.
  - apply dead_spec; [repeat constructor|discriminate|]. intros x [<-|[]]. reflexivity.
  - destruct (dead _ 0) eqn:D; [|reflexivity]. rewrite dead_spec in D; [|repeat constructor|discriminate].
    specialize (D _ (or_introl eq_refl)). cbn in D. lra.
Qed.

(** * C39: GPTQ *)
Section gptq.
Variable quant : mat -> nat -> nat -> R.
Variables perm pos : nat -> nat.
Variable h : mat.
Variable n : nat.
Hypothesis pos_perm : forall p, (p < n)%nat -> pos (perm p) = p.
Hypothesis perm_pos : forall c, (pos c < n)%nat -> perm (pos c) = c.

(** Independent specification: the textbook algorithm, one column after the other, all later
    columns updated at once. *)
Definition ref_step (p : nat) (W : mat) : mat := fun r c =>
  if ((p <=? pos c) && (pos c <? n))%nat
  then W r c - (W r (perm p) - quant W r (perm p)) / h p p * h p (pos c) else W r c.
Definition ref_upto (k : nat) (W : mat) : mat := fold_left (fun W p => ref_step p W) (seq 0 k) W.

(** The quantized value of a column depends only on that column of the weights (given scales). *)
Definition column_local : Prop := forall W W' c, (forall r, W r c = W' r c) -> forall r, quant W r c = quant W' r c.

(** Relation between the blocked state in block [i1, i2) at position [p] and the reference. *)
Definition sim (i1 i2 p : nat) (Wb E W : mat) : Prop := forall r c,
  ((pos c < i2)%nat -> Wb r c = W r c)
  /\ ((i2 <= pos c)%nat -> (pos c < n)%nat -> W r c = Wb r c - sum (p - i1) (fun i => E (i1 + i)%nat r * h (i1 + i)%nat (pos c)))
  /\ ((n <= pos c)%nat -> Wb r c = W r c).

Lemma sim_step (CL : column_local) i1 i2 p Wb E W : (i1 <= p < i2)%nat -> (i2 <= n)%nat -> sim i1 i2 p Wb E W ->
  sim i1 i2 (S p) (step quant perm pos h i2 p Wb) (fun p' r => if (p' =? p)%nat then err quant perm h Wb p r else E p' r) (ref_step p W).
Proof.
  intros Hp Hn S.
  assert (EQ : forall r, Wb r (perm p) = W r (perm p)).
  { intros r. apply (proj1 (S r (perm p))). rewrite pos_perm by lia. lia. }
  assert (ER : forall r, err quant perm h Wb p r = (W r (perm p) - quant W r (perm p)) / h p p).
  { intros r. unfold err. rewrite EQ, (CL Wb W (perm p) EQ). reflexivity. }
  intros r c. destruct (S r c) as (S1 & S2 & S3). unfold step, ref_step.
  split; [|split].
  - intros Hc. rewrite S1 by exact Hc. rewrite (proj2 (Nat.ltb_lt (pos c) i2) Hc), (proj2 (Nat.ltb_lt (pos c) n)) by lia.
    rewrite ER. reflexivity.
  - intros Hc Hc'. rewrite (proj2 (Nat.ltb_ge (pos c) i2) Hc), andb_false_r. rewrite (proj2 (Nat.ltb_lt (pos c) n) Hc'), (proj2 (Nat.leb_le p (pos c))) by lia.
    cbn [andb]. rewrite S2 by assumption. replace (Datatypes.S p - i1)%nat with (Datatypes.S (p - i1)) by lia. cbn [sum].
    replace (i1 + (p - i1))%nat with p by lia. rewrite Nat.eqb_refl.
    rewrite (sum_ext (p - i1) (fun i => (if (i1 + i =? p)%nat then err quant perm h Wb p r else E (i1 + i)%nat r) * h (i1 + i)%nat (pos c))
               (fun i => E (i1 + i)%nat r * h (i1 + i)%nat (pos c))); [rewrite ER; ring|].
    intros i Hi. destruct (Nat.eqb_spec (i1 + i) p); [lia|reflexivity].
  - intros Hc. rewrite S3 by exact Hc. rewrite (proj2 (Nat.ltb_ge (pos c) n) Hc), (proj2 (Nat.ltb_ge (pos c) i2)) by lia.
    rewrite !andb_false_r. reflexivity.
Qed.

Lemma sim_inner (CL : column_local) i1 i2 : (i2 <= n)%nat -> forall k p Wb E W, (i1 <= p)%nat -> (p + k = i2)%nat -> sim i1 i2 p Wb E W ->
  let (Wb', E') := inner quant perm pos h i2 p k Wb E in
  sim i1 i2 i2 Wb' E' (fold_left (fun W p => ref_step p W) (seq p k) W).
Proof.
  intros Hn. induction k as [|k IH]; intros p Wb E W Hp Hk S; cbn [inner seq fold_left].
  - replace i2 with p in * by lia. exact S.
  - apply IH; [lia|lia|]. apply sim_step; [exact CL|lia|exact Hn|exact S].
Qed.

Lemma blocks_ref (CL : column_local) bs : (0 < bs)%nat -> forall fuel i1 W, (n - i1 <= fuel)%nat ->
  blocks quant perm pos h n bs fuel i1 W = fold_left (fun W p => ref_step p W) (seq i1 (n - i1)) W.
Proof.
  intros Hb. induction fuel as [|fuel IH]; intros i1 W Hf; cbn [blocks].
  - replace (n - i1)%nat with 0%nat by lia. reflexivity.
  - destruct (Nat.ltb_spec i1 n) as [L|L]; [|replace (n - i1)%nat with 0%nat by lia; reflexivity].
    set (i2 := Nat.min (i1 + bs) n).
    pose proof (sim_inner CL i1 i2 ltac:(unfold i2; lia) (i2 - i1) i1 W (fun _ _ => 0) W ltac:(lia) ltac:(unfold i2; lia)) as Si.
    assert (S0 : sim i1 i2 i1 W (fun _ _ => 0) W).
    { intros r c. rewrite Nat.sub_diag. cbn [sum]. repeat split; intros; try reflexivity. ring. }
    specialize (Si S0). destruct (inner quant perm pos h i2 i1 (i2 - i1) W (fun _ _ => 0)) as [W' E].
    assert (FE : flush pos h n i1 i2 W' E = fold_left (fun W p => ref_step p W) (seq i1 (i2 - i1)) W).
    { apply functional_extensionality. intros r. apply functional_extensionality. intros c.
      destruct (Si r c) as (S1 & S2 & S3). unfold flush.
      destruct (Nat.leb_spec i2 (pos c)) as [A|A]; cbn [andb]; [|apply S1; exact A].
      destruct (Nat.ltb_spec (pos c) n) as [A'|A']; cbn [andb]; [symmetry; apply S2; assumption|apply S3; exact A']. }
    rewrite FE, IH by lia.
    destruct (Nat.le_gt_cases n (i1 + bs)) as [G|G].
    + replace (n - (i1 + bs))%nat with 0%nat by lia. cbn [seq fold_left]. replace i2 with n by (unfold i2; lia). reflexivity.
    + replace i2 with (i1 + bs)%nat by (unfold i2; lia).
      replace (n - i1)%nat with ((i1 + bs - i1) + (n - (i1 + bs)))%nat by lia.
      rewrite (seq_app (i1 + bs - i1)), fold_left_app. f_equal. f_equal. lia.
Qed.

(** For every block size the result is that of the textbook algorithm. *)
Theorem C39_blocks : column_local -> forall bs W, (0 < bs)%nat ->
  gptq quant perm pos h n bs W = ref_upto n W.
Proof. intros CL bs W Hb. unfold gptq, ref_upto. rewrite blocks_ref by (auto; lia). rewrite Nat.sub_0_r. reflexivity. Qed.

Corollary C39_block_size_irrelevant : column_local -> forall bs bs' W, (0 < bs)%nat -> (0 < bs')%nat ->
  gptq quant perm pos h n bs W = gptq quant perm pos h n bs' W.
Proof. intros. rewrite !C39_blocks by assumption. reflexivity. Qed.

Lemma ref_later k W r c : (pos c < k)%nat -> ref_upto (S k) W r c = ref_upto k W r c.
Proof.
  intros H. unfold ref_upto. rewrite seq_S, fold_left_app. cbn [fold_left plus]. unfold ref_step at 1.
  rewrite (proj2 (Nat.leb_gt k (pos c))) by lia. reflexivity.
Qed.

Lemma ref_frozen c W r k : (pos c < k)%nat -> forall j, ref_upto (k + j) W r c = ref_upto k W r c.
Proof.
  intros H. induction j; [rewrite Nat.add_0_r; reflexivity|]. rewrite Nat.add_succ_r, ref_later by lia. exact IHj.
Qed.

(** Column [c] ends at the quantized value of what it was when it was processed. *)
Lemma ref_final W r c : (pos c < n)%nat -> h (pos c) (pos c) <> 0 ->
  ref_upto n W r c = quant (ref_upto (pos c) W) r c.
Proof.
  intros Hc Hd. set (p := pos c) in *.
  replace n with (S p + (n - S p))%nat at 1 by lia. rewrite ref_frozen by (fold p; lia).
  unfold ref_upto at 1. rewrite seq_S, fold_left_app. cbn [fold_left plus]. fold (ref_upto p W).
  unfold ref_step. fold p. rewrite Nat.leb_refl, (proj2 (Nat.ltb_lt p n) Hc). cbn [andb].
  assert (E : perm p = c) by (apply perm_pos; exact Hc). rewrite E. field. exact Hd.
Qed.

(** On termination every weight is a quantized value, and quantizing the final weights again
    (as inference does) returns them unchanged. *)
Theorem C39_on_grid : column_local -> (forall p, (p < n)%nat -> h p p <> 0) ->
  forall bs W, (0 < bs)%nat -> forall r c, (pos c < n)%nat -> exists V, gptq quant perm pos h n bs W r c = quant V r c.
Proof. intros CL HD bs W Hb r c Hc. rewrite C39_blocks by assumption. eexists. apply ref_final; auto. Qed.

Theorem C39_fixed_point : column_local -> (forall p, (p < n)%nat -> h p p <> 0) ->
  (forall W c, (forall r, quant (fun r' c' => quant W r' c') r c = quant W r c)) ->
  forall bs W, (0 < bs)%nat -> forall r c, (pos c < n)%nat ->
  quant (gptq quant perm pos h n bs W) r c = gptq quant perm pos h n bs W r c.
Proof.
  intros CL HD ID bs W Hb r c Hc. rewrite C39_blocks by assumption.
  rewrite (ref_final W r c Hc) by auto.
  rewrite (CL (ref_upto n W) (fun r' c' => quant (ref_upto (pos c) W) r' c') c); [apply ID|].
  intros r'. apply ref_final; auto.
Qed.

(** Only the ratios within a row of the factor matter: rescaling the Hessian changes nothing. *)
Lemma ref_scale (k : R) W : k <> 0 -> (forall p, (p < n)%nat -> h p p <> 0) -> forall j, (j <= n)%nat ->
  fold_left (fun W p => fun r c => if ((p <=? pos c) && (pos c <? n))%nat
      then W r c - (W r (perm p) - quant W r (perm p)) / (k * h p p) * (k * h p (pos c)) else W r c) (seq 0 j) W = ref_upto j W.
Proof.
  intros Hk HD. unfold ref_upto. induction j as [|j IH]; intros Hj; [reflexivity|].
  rewrite seq_S, !fold_left_app. cbn [fold_left plus]. rewrite IH by lia. clear IH.
  set (V := fold_left (fun W p => ref_step p W) (seq 0 j) W). unfold ref_step.
  apply functional_extensionality. intros r. apply functional_extensionality. intros c.
  destruct ((j <=? pos c) && (pos c <? n))%nat; [|reflexivity]. f_equal. field. split; [apply HD; lia|exact Hk].
Qed.
End gptq.

Theorem C39_hessian_scale : forall quant perm pos h n k bs W,
  (forall p, (p < n)%nat -> pos (perm p) = p) -> column_local quant -> (forall p, (p < n)%nat -> h p p <> 0) -> k <> 0 -> (0 < bs)%nat ->
  gptq quant perm pos (fun i j => k * h i j) n bs W = gptq quant perm pos h n bs W.
Proof.
  intros quant perm pos h n k bs W PP CL HD Hk Hb.
  rewrite (C39_blocks quant perm pos (fun i j => k * h i j) n PP CL bs W Hb), (C39_blocks quant perm pos h n PP CL bs W Hb).
  unfold ref_upto at 1. unfold ref_step. cbv beta. apply (ref_scale quant perm pos h n k W Hk HD n (le_n n)).
Qed.

(** Example: binary quantizer with a fixed scale, two columns. *)
Definition fixed_sign (s : R) : mat -> nat -> nat -> R := fun W r c => if Rle_dec 0 (W r c) then s else - s.
Definition ones : mat := fun i j => if (i <=? j)%nat then 1 else 0.
Example C39_example : column_local (fixed_sign 2) /\ (forall p, (p < 3)%nat -> ones p p <> 0)
  /\ gptq (fixed_sign 2) (fun p => p) (fun p => p) ones 3 2 (fun _ _ => 1) 0%nat 1%nat = 2.
Proof.
  split; [intros W W' c H r; unfold fixed_sign; rewrite (H r); reflexivity|]. split; [intros p _; unfold ones; rewrite Nat.leb_refl; lra|].
  rewrite (C39_blocks (fixed_sign 2) (fun p => p) (fun p => p) ones 3); [|auto|intros W W' c H r; unfold fixed_sign; rewrite (H r); reflexivity|lia].
  unfold ref_upto, ref_step, ones, fixed_sign. cbn [seq fold_left Nat.leb Nat.ltb andb].
  repeat match goal with |- context [Rle_dec ?a ?b] => destruct (Rle_dec a b); try (exfalso; lra) end; lra.
Qed.

(** When the scale is computed from the weights being updated (here: their largest magnitude),
    the result depends on the number of blocks and does not lie on its own grid. *)
Definition maxabs3 (W : mat) (r : nat) : R := Rmax (Rabs (W r 0%nat)) (Rmax (Rabs (W r 1%nat)) (Rabs (W r 2%nat))).
Definition stats_sign : mat -> nat -> nat -> R := fun W r c => if Rle_dec 0 (W r c) then maxabs3 W r else - maxabs3 W r.
Definition w112 : mat := fun _ c => if (c =? 2)%nat then 2 else 1.

Ltac simple_term a := lazymatch a with
  | context [Rabs _] => fail | context [Rmax _ _] => fail | context [Rle_dec _ _] => fail | _ => idtac end.
Ltac crunch := repeat (first
  [ match goal with |- context [Rle_dec ?a ?b] => simple_term b; destruct (Rle_dec a b); try (exfalso; lra) end
  | match goal with |- context [Rabs ?a] => simple_term a; rewrite (Rabs_pos_eq a) by lra end
  | match goal with |- context [Rmax ?a ?b] => simple_term a; simple_term b; first [rewrite (Rmax_left a b) by lra | rewrite (Rmax_right a b) by lra] end ]).

Theorem C39_stats_scale_refuted : exists h W, (forall p, h p p <> 0) /\
  gptq stats_sign (fun p => p) (fun p => p) h 3 2 W 0%nat 1%nat <> gptq stats_sign (fun p => p) (fun p => p) h 3 3 W 0%nat 1%nat
  /\ stats_sign (gptq stats_sign (fun p => p) (fun p => p) h 3 3 W) 0%nat 0%nat <> gptq stats_sign (fun p => p) (fun p => p) h 3 3 W 0%nat 0%nat.
Proof.
  exists ones, w112. split; [intros p; unfold ones; rewrite Nat.leb_refl; lra|].
  assert (A : forall c v, (c = 0%nat /\ v = 2) \/ (c = 1%nat /\ v = 3) \/ (c = 2%nat /\ v = 4) ->
            gptq stats_sign (fun p => p) (fun p => p) ones 3 3 w112 0%nat c = v).
  { intros c v [[-> ->]|[[-> ->]|[-> ->]]];
    cbv [gptq blocks inner flush step err stats_sign maxabs3 ones w112 Nat.ltb Nat.leb Nat.eqb Nat.min Nat.sub plus andb sum]; crunch; lra. }
  assert (B1 : gptq stats_sign (fun p => p) (fun p => p) ones 3 2 w112 0%nat 1%nat = 2).
  { cbv [gptq blocks inner flush step err stats_sign maxabs3 ones w112 Nat.ltb Nat.leb Nat.eqb Nat.min Nat.sub plus andb sum]; crunch; lra. }
  rewrite B1. unfold stats_sign at 2, maxabs3 at 1 2.
  rewrite (A 0%nat 2), (A 1%nat 3), (A 2%nat 4) by intuition. split; [lra|]. crunch. lra.
Qed.

(** * C59: optimality of the GPTQ step *)
Section optimal.
Variables (n : nat) (H U : mat).
Hypothesis upper : forall i j, (j < i)%nat -> U i j = 0.
Hypothesis diag : forall i, (i < n)%nat -> U i i <> 0.
(** [U] is the upper Cholesky factor of the inverse of [H]: [U H U^T = I]. *)
Hypothesis factor : forall i j, (i < n)%nat -> (j < n)%nat ->
  sum n (fun a => sum n (fun b => U i a * H a b * U j b)) = if (i =? j)%nat then 1 else 0.

Definition comb (y : nat -> R) : nat -> R := fun a => sum n (fun p => y p * U p a).

(** In the coordinates given by the rows of [U] the quadratic error is a sum of squares. *)
Lemma form_comb y : form n H (comb y) = sum n (fun p => y p * y p).
Proof.
  unfold form, comb.
  rewrite (sum_ext n _ (fun a => sum n (fun p => y p * sum n (fun q => y q * sum n (fun b => U p a * H a b * U q b))))).
  - rewrite sum_swap. apply sum_ext. intros p Hp. rewrite sum_scale. f_equal.
    rewrite sum_swap. rewrite (sum_single n _ p Hp).
    + rewrite sum_scale, (factor p p Hp Hp), Nat.eqb_refl. ring.
    + intros q Hq N. rewrite sum_scale, (factor p q Hp Hq). destruct (Nat.eqb_spec p q); [congruence|ring].
  - intros a _. 
    rewrite (sum_ext n (fun j => sum n (fun p => y p * U p a) * H a j * sum n (fun p => y p * U p j))
               (fun j => sum n (fun p => sum n (fun q => y p * (y q * (U p a * H a j * U q j)))))).
    + rewrite sum_swap. apply sum_ext. intros p _.
      rewrite (sum_ext n (fun i => sum n (fun q => y p * (y q * (U p a * H a i * U q i)))) (fun i => y p * sum n (fun q => y q * (U p a * H a i * U q i)))) by (intros; apply sum_scale).
      rewrite sum_scale. f_equal. rewrite sum_swap. apply sum_ext. intros q _. apply sum_scale.
    + intros b _. rewrite Rmult_assoc. rewrite <- sum_scale_r. apply sum_ext. intros p _.
      rewrite <- !sum_scale. apply sum_ext. intros q _. ring.
Qed.

(** Every change of the weights has coordinates, computed by forward substitution. *)
Fixpoint coord_list (d : nat -> R) (k : nat) : nat -> R :=
  match k with
  | O => fun _ => 0
  | S k' => let y := coord_list d k' in fun p => if (p =? k')%nat then (d k' - sum k' (fun q => y q * U q k')) / U k' k' else y p
  end.

Lemma coord_ok d : forall k, (k <= n)%nat ->
  (forall a, (a < k)%nat -> sum k (fun p => coord_list d k p * U p a) = d a) /\ (forall p, (k <= p)%nat -> coord_list d k p = 0).
Proof.
  induction k as [|k IH]; intros Hk; [split; [intros; lia|reflexivity]|]. destruct (IH ltac:(lia)) as [I1 I2].
  cbn [coord_list]. split.
  - intros a Ha. cbn [sum]. rewrite Nat.eqb_refl.
    rewrite (sum_ext k _ (fun p => coord_list d k p * U p a)) by (intros p Hp; destruct (Nat.eqb_spec p k); [lia|reflexivity]).
    destruct (Nat.eq_dec a k) as [->|N].
    + field. apply diag. lia.
    + rewrite I1 by lia. rewrite (upper k a) by lia. ring.
  - intros p Hp. destruct (Nat.eqb_spec p k); [lia|]. apply I2. lia.
Qed.

Lemma coords d : exists y, (forall a, (a < n)%nat -> comb y a = d a) /\
  forall j, (j < n)%nat -> (forall a, (a < j)%nat -> d a = 0) -> y j * U j j = d j /\ forall p, (p < j)%nat -> y p = 0.
Proof.
  exists (coord_list d n). destruct (coord_ok d n (le_n n)) as [C1 C2]. split; [exact C1|].
  intros j Hj Hz.
  assert (Z : forall p, (p < j)%nat -> coord_list d n p = 0).
  { intros p. induction p as [p IH] using (well_founded_induction lt_wf). intros Hp.
    pose proof (C1 p ltac:(lia)) as E. rewrite (sum_single n _ p ltac:(lia)) in E.
    - rewrite (Hz p Hp) in E. apply Rmult_integral in E. destruct E as [E|E]; [exact E|]. exfalso. apply (diag p); [lia|exact E].
    - intros i Hi N. destruct (Nat.lt_ge_cases i p) as [L|L]; [rewrite (IH i L) by lia; ring|rewrite (upper i p) by lia; ring]. }
  split; [|exact Z]. pose proof (C1 j Hj) as E. rewrite (sum_single n _ j Hj) in E; [exact E|].
  intros i Hi N. destruct (Nat.lt_ge_cases i j) as [L|L]; [rewrite (Z i L); ring|rewrite (upper i j) by lia; ring].
Qed.

Lemma form_ext d d' : (forall a, (a < n)%nat -> d a = d' a) -> form n H d = form n H d'.
Proof. intros E. unfold form. apply sum_ext. intros i Hi. apply sum_ext. intros j Hj. rewrite (E i Hi), (E j Hj). reflexivity. Qed.

(** Fixing column [j] to its quantized value changes it by [- e * U j j]; the update
    [- e * U j _] of the remaining columns costs [e^2], and no other update of the remaining
    columns costs less. *)
Theorem C59_step_optimal : forall j e d, (j < n)%nat ->
  (forall a, (a < j)%nat -> d a = 0) -> d j = - e * U j j ->
  form n H (fun a => - e * U j a) = e * e /\ form n H (fun a => - e * U j a) <= form n H d.
Proof.
  intros j e d Hj Hz Hd.
  assert (E : form n H (fun a => - e * U j a) = e * e).
  { rewrite (form_ext _ (comb (fun p => if (p =? j)%nat then - e else 0))).
    - rewrite form_comb, (sum_single n _ j Hj); [rewrite Nat.eqb_refl; ring|]. intros i _ N. destruct (Nat.eqb_spec i j); [contradiction|ring].
    - intros a _. unfold comb. rewrite (sum_single n _ j Hj); [rewrite Nat.eqb_refl; reflexivity|].
      intros i _ N. destruct (Nat.eqb_spec i j); [contradiction|ring]. }
  split; [exact E|]. rewrite E. destruct (coords d) as (y & Y1 & Y2). destruct (Y2 j Hj Hz) as [Yj _].
  rewrite (form_ext d (comb y)) by (intros; symmetry; apply Y1; assumption). rewrite form_comb.
  assert (EY : y j = - e) by (apply (Rmult_eq_reg_r (U j j)); [rewrite Yj, Hd; reflexivity|apply diag; exact Hj]).
  assert (G : forall m, (m <= n)%nat -> (j < m)%nat -> e * e <= sum m (fun p => y p * y p)).
  { induction m as [|m IH]; intros Hm Hjm; [lia|]. cbn [sum]. destruct (Nat.eq_dec j m) as [<-|N].
    - rewrite EY. pose proof (sum_nonneg j (fun p => y p * y p) ltac:(intros; cbn beta; nra)). lra.
    - specialize (IH ltac:(lia) ltac:(lia)). pose proof (Rle_0_sqr (y m)) as Q. unfold Rsqr in Q. lra. }
  apply G; [lia|exact Hj].
Qed.

(** The total error of the final weights is the sum of the squared step errors. *)
Section whole.
Variable quant : mat -> nat -> nat -> R.
Hypothesis CL : column_local quant.
Variables perm pos : nat -> nat.
Hypothesis pos_perm : forall p, (p < n)%nat -> pos (perm p) = p.

Lemma ref_shift W r : forall k, (k <= n)%nat -> forall c, (c < n)%nat ->
  ref_upto quant perm pos U n k W r (perm c)
  = W r (perm c) - sum k (fun p => err quant perm U (ref_upto quant perm pos U n p W) p r * U p c).
Proof.
  induction k as [|k IH]; intros Hk c Hc; [unfold ref_upto; cbn [seq fold_left sum]; ring|].
  unfold ref_upto at 1. rewrite seq_S, fold_left_app. cbn [fold_left plus]. fold (ref_upto quant perm pos U n k W).
  unfold ref_step. cbn [sum]. rewrite (pos_perm c Hc), (proj2 (Nat.ltb_lt c n) Hc).
  destruct (Nat.leb_spec k c) as [L|L]; cbn [andb].
  - rewrite IH by lia. unfold err. ring.
  - rewrite IH by lia. rewrite (upper k c) by lia. ring.
Qed.

Theorem C59_total_error : forall bs W r, (0 < bs)%nat ->
  form n H (fun c => gptq quant perm pos U n bs W r (perm c) - W r (perm c))
  = sum n (fun p => err quant perm U (ref_upto quant perm pos U n p W) p r * err quant perm U (ref_upto quant perm pos U n p W) p r).
Proof.
  intros bs W r Hb. rewrite (C39_blocks quant perm pos U n pos_perm CL) by exact Hb.
  set (e := fun p => err quant perm U (ref_upto quant perm pos U n p W) p r).
  rewrite (form_ext _ (comb (fun p => - e p))).
  - rewrite form_comb. apply sum_ext. intros. fold (e i). ring.
  - intros c Hc. rewrite ref_shift by lia. fold e. unfold comb.
    rewrite (sum_ext n (fun p => - e p * U p c) (fun p => (-1) * (e p * U p c))) by (intros; ring). rewrite sum_scale.
    unfold e. ring.
Qed.
End whole.
End optimal.

(** What the quadratic error means: with the damped Hessian of the calibration data it is the
    squared output error on that data plus the damping. *)
Theorem C59_meaning : forall n bs lam d, Forall (fun b => (0 < size b)%nat) bs -> bs <> [] ->
  form n (fun i j => if (i =? j)%nat then snd (hessian bs) i j + lam else snd (hessian bs) i j) d
  = 2 / INR (total bs) * lsum (fun x => out n d x * out n d x) (all_samples bs) + lam * sum n (fun i => d i * d i).
Proof.
  intros n bs lam d F NE. rewrite <- form_hessian by assumption. unfold form. rewrite <- sum_scale, <- sum_plus.
  apply sum_ext. intros i Hi.
  rewrite (sum_ext n _ (fun j => d i * snd (hessian bs) i j * d j + (if (i =? j)%nat then lam * (d i * d i) else 0))).
  - rewrite sum_plus. f_equal. rewrite (sum_single n _ i Hi); [rewrite Nat.eqb_refl; reflexivity|].
    intros j _ N. destruct (Nat.eqb_spec i j); [congruence|reflexivity].
  - intros j _. destruct (Nat.eqb_spec i j) as [<-|]; ring.
Qed.

(** Example: H = [[2, -1], [-1, 1]] has inverse [[1, 1], [1, 2]] = U^T U with U = [[1, 1], [0, 1]]. *)
Definition h2 : mat := fun i j => match i, j with O, O => 2 | S O, S O => 1 | _, _ => -1 end.
Example C59_example : (forall i j, (j < i)%nat -> ones i j = 0) /\ (forall i, (i < 2)%nat -> ones i i <> 0)
  /\ (forall i j, (i < 2)%nat -> (j < 2)%nat ->
      sum 2 (fun a => sum 2 (fun b => ones i a * h2 a b * ones j b)) = if (i =? j)%nat then 1 else 0)
  /\ form 2 h2 (fun a => - 3 * ones 0%nat a) = 9.
Proof.
  split; [intros i j L; unfold ones; rewrite (proj2 (Nat.leb_gt i j) L); reflexivity|].
  split; [intros i _; unfold ones; rewrite Nat.leb_refl; lra|].
  split; [|unfold form, ones, h2; cbn [sum Nat.leb]; lra].
  intros [|[|i]] [|[|j]] Hi Hj; try lia; unfold ones, h2; cbn [sum Nat.leb Nat.eqb]; lra.
Qed.

(** * C61: GPFQ *)
Section gpfq.
Variable quant : mat -> nat -> nat -> R.
Variable perm : nat -> nat.
Variable n : nat.
Variables X Xq : mat.
Variable m : nat.
Hypothesis CL : column_local quant.
Hypothesis inj : forall a b, (a < n)%nat -> (b < n)%nat -> perm a = perm b -> a = b.

Definition upto (k : nat) (W : mat) := fold_left (fun st t => gpfq_step quant perm X Xq m t st) (seq 0 k) ((fun _ _ => 0), W).

Lemma upto_S k W : upto (S k) W = gpfq_step quant perm X Xq m k (upto k W).
Proof. unfold upto. rewrite seq_S, fold_left_app. reflexivity. Qed.

Lemma gpfq_untouched W k : (k <= n)%nat -> forall t r, (k <= t)%nat -> (t < n)%nat -> snd (upto k W) r (perm t) = W r (perm t).
Proof.
  induction k as [|k IH]; intros Hk t r Ht Hn; [reflexivity|]. rewrite upto_S. unfold gpfq_step.
  destruct (upto k W) as [U V] eqn:E. cbn [snd]. destruct (Nat.eqb_spec (perm t) (perm k)) as [Q|_].
  - apply inj in Q; lia.
  - apply IH; lia.
Qed.

Lemma gpfq_frozen W k : (k <= n)%nat -> forall j t r, (t < k)%nat -> (k + j <= n)%nat -> snd (upto (k + j) W) r (perm t) = snd (upto k W) r (perm t).
Proof.
  intros Hk. induction j as [|j IH]; intros t r Ht Hn; [rewrite Nat.add_0_r; reflexivity|].
  rewrite Nat.add_succ_r, upto_S. unfold gpfq_step. destruct (upto (k + j) W) as [U V] eqn:E. cbn [snd].
  destruct (Nat.eqb_spec (perm t) (perm (k + j))) as [Q|_]; [apply inj in Q; lia|].
  rewrite <- IH by lia. reflexivity.
Qed.

Lemma gpfq_residual_k W : forall k, (k <= n)%nat -> forall r s,
  fst (upto k W) r s = sum k (fun t => W r (perm t) * X s (perm t)) - sum k (fun t => quant (snd (upto k W)) r (perm t) * Xq s (perm t)).
Proof.
  induction k as [|k IH]; intros Hk r s; [unfold upto; cbn [seq fold_left fst sum]; ring|].
  cbn [sum].
  assert (Q : forall t, (t < k)%nat -> quant (snd (upto (S k) W)) r (perm t) = quant (snd (upto k W)) r (perm t)).
  { intros t Ht. apply CL. intros r'. replace (S k) with (k + 1)%nat by lia. apply gpfq_frozen; lia. }
  rewrite (sum_ext k (fun t => quant (snd (upto (S k) W)) r (perm t) * Xq s (perm t)) (fun t => quant (snd (upto k W)) r (perm t) * Xq s (perm t)))
    by (intros t Ht; rewrite Q by exact Ht; reflexivity).
  specialize (IH ltac:(lia) r s). pose proof (gpfq_untouched W k ltac:(lia) k r (le_n k) ltac:(lia)) as UT.
  rewrite upto_S. unfold gpfq_step. destruct (upto k W) as [U V]. cbn [fst snd] in *. rewrite IH, UT. ring.
Qed.

(** The residual at the end is exactly the difference between the float layer on float inputs
    and the layer with the final weights, quantized, on quantized inputs. *)
Theorem C61_residual : forall W r s,
  fst (gpfq quant perm n X Xq m W) r s
  = sum n (fun t => W r (perm t) * X s (perm t)) - sum n (fun t => quant (snd (gpfq quant perm n X Xq m W)) r (perm t) * Xq s (perm t)).
Proof. intros. apply gpfq_residual_k. lia. Qed.

(** The value chosen for a column minimises the remaining squared error over all reals, *)
Definition sq_err (U : nat -> R) (c : nat) (a : R) : R := sum m (fun s => (U s - a * Xq s c) * (U s - a * Xq s c)).

Lemma sq_err_expand U c a : sq_err U c a = dot m U U - 2 * a * dot m U (fun s => Xq s c) + a * a * dot m (fun s => Xq s c) (fun s => Xq s c).
Proof.
  unfold sq_err, dot. rewrite <- !sum_scale, <- sum_minus, <- sum_plus. apply sum_ext. intros. ring.
Qed.

Lemma dot_nonneg f : 0 <= dot m f f.
Proof. apply sum_nonneg. intros. nra. Qed.

Lemma dot_zero f g : dot m g g = 0 -> dot m f g = 0.
Proof.
  intros Z. unfold dot in *. apply sum_zero. intros i Hi.
  assert (g i = 0); [|rewrite H; ring]. destruct (Req_dec (g i) 0) as [E|E]; [exact E|].
  pose proof (sum_pos m (fun s => g s * g s) i Hi ltac:(intros; cbn beta; nra) ltac:(cbn beta; nra)). lra.
Qed.

Theorem C61_target_optimal : forall U c r a, sq_err (U r) c (q_arg Xq m U c r) <= sq_err (U r) c a.
Proof.
  intros U c r a. rewrite !sq_err_expand. unfold q_arg. set (x := fun s => Xq s c).
  pose proof (dot_nonneg x) as N. destruct (Rlt_dec 0 (dot m x x)) as [P|P].
  - set (u := dot m (U r) x) in *. set (v := dot m x x) in *.
    assert (E : (dot m (U r) (U r) - 2 * a * u + a * a * v) - (dot m (U r) (U r) - 2 * (u / v) * u + u / v * (u / v) * v) = v * ((a - u / v) * (a - u / v))) by (field; lra).
    assert (0 <= v * ((a - u / v) * (a - u / v))) by (apply Rmult_le_pos; [lra|apply Rle_0_sqr]). lra.
  - assert (Z : dot m x x = 0) by lra. rewrite (dot_zero (U r) x Z), Z. lra.
Qed.

(** and the quantized value minimises it over the grid when the quantizer rounds to the nearest
    grid point. *)
Theorem C61_grid_optimal : forall U c r q (grid : R -> Prop),
  (forall g, grid g -> Rabs (q_arg Xq m U c r - q) <= Rabs (q_arg Xq m U c r - g)) ->
  forall g, grid g -> sq_err (U r) c q <= sq_err (U r) c g.
Proof.
  intros U c r q grid Hq g Hg. specialize (Hq g Hg). rewrite !sq_err_expand. unfold q_arg in Hq. set (x := fun s => Xq s c) in *.
  pose proof (dot_nonneg x) as N. destruct (Rlt_dec 0 (dot m x x)) as [P|P].
  - set (u := dot m (U r) x) in *. set (v := dot m x x) in *. set (z := u / v) in *.
    assert (EU : u = z * v) by (unfold z; field; lra).
    assert (SQ : (z - q) * (z - q) <= (z - g) * (z - g)).
    { pose proof (Rsqr_le_abs_1 _ _ Hq) as S. unfold Rsqr in S. exact S. }
    rewrite EU. nra.
  - assert (Z : dot m x x = 0) by lra. rewrite (dot_zero (U r) x Z), Z. lra.
Qed.
End gpfq.

Example C61_example : column_local (fixed_sign 2)
  /\ snd (gpfq (fixed_sign 2) (fun t => t) 2 (fun s _ => INR (S s)) (fun s _ => INR (S s)) 2 (fun _ _ => 3)) 0%nat 1%nat = 4.
Proof.
  split; [intros W W' c H r; unfold fixed_sign; rewrite (H r); reflexivity|].
  unfold gpfq, gpfq_step, q_arg, dot, fixed_sign. cbn [seq fold_left snd Nat.eqb sum INR].
  repeat match goal with
    | |- context [Rlt_dec ?a ?b] => destruct (Rlt_dec a b); try (exfalso; lra)
    | |- context [Rle_dec ?a ?b] => simple_term b; destruct (Rle_dec a b); try (exfalso; lra) end; lra.
Qed.

(** * C62: GPFQv2 *)
Section gpfq2.
Variable quant : mat -> nat -> nat -> R.
Variable perm : nat -> nat.
Variable n : nat.
Variables X Xq : mat.
Variable m : nat.
Variable percdamp : R.
Hypothesis CL : column_local quant.
Hypothesis bij : forall a b, (a < n)%nat -> (b < n)%nat -> perm a = perm b -> a = b.
Hypothesis rng : forall a, (a < n)%nat -> (perm a < n)%nat.
Hypothesis npos : (0 < n)%nat.
(** [S] is the symmetric square root of the damped [H], [Si] its inverse. *)
Let H := damp percdamp n (covH n m Xq).
Let G := covG n m X Xq.
Variables S Si : mat.
Hypothesis sym : forall i j, S i j = S j i.
Hypothesis root : forall i j, (i < n)%nat -> (j < n)%nat -> sum n (fun k => S i k * S k j) = H i j.
Hypothesis inverse : forall i j, (i < n)%nat -> (j < n)%nat -> sum n (fun k => S i k * Si k j) = if (i =? j)%nat then 1 else 0.
Let F := matmul n Si G.
Let norms := fun c => H c c.

Definition upto2 (k : nat) (W : mat) := fold_left (fun st t => gpfq2_step quant perm n F S norms t st) (seq 0 k) ((fun _ _ => 0), W).
Lemma upto2_S k W : upto2 (Datatypes.S k) W = gpfq2_step quant perm n F S norms k (upto2 k W).
Proof. unfold upto2. rewrite seq_S, fold_left_app. reflexivity. Qed.

(** Independent specification: the targets of GPFQ computed from inner products of the inputs;
    the damping enters only the denominator. *)
Definition ip (a b : nat -> nat -> R) (i j : nat) : R := 2 / INR n * sum m (fun s => a s i * b s j).
Definition lam : R := percdamp * (sum n (fun k => ip Xq Xq k k) / INR n).
Definition target (W Q : mat) (t r : nat) : R :=
  let num := sum (Datatypes.S t) (fun j => W r (perm j) * ip Xq X (perm t) (perm j)) - sum t (fun j => Q r (perm j) * ip Xq Xq (perm t) (perm j)) in
  let den := ip Xq Xq (perm t) (perm t) + lam in
  if Rlt_dec 0 den then num / den else 0.

Lemma covH_ip i j : covH n m Xq i j = ip Xq Xq i j.
Proof.
  unfold covH, ip. rewrite <- sum_scale. apply sum_ext. intros s _.
  assert (HN : 0 < INR n) by (apply lt_0_INR; exact npos).
  assert (SQ : sqrt (2 / INR n) * sqrt (2 / INR n) = 2 / INR n) by (apply sqrt_sqrt; apply Rlt_le, Rdiv_lt_0_compat; lra).
  rewrite <- SQ at 3. ring.
Qed.
Lemma covG_ip i j : covG n m X Xq i j = ip Xq X i j.
Proof.
  unfold covG, ip. rewrite <- sum_scale. apply sum_ext. intros s _.
  assert (HN : 0 < INR n) by (apply lt_0_INR; exact npos).
  assert (SQ : sqrt (2 / INR n) * sqrt (2 / INR n) = 2 / INR n) by (apply sqrt_sqrt; apply Rlt_le, Rdiv_lt_0_compat; lra).
  rewrite <- SQ at 3. ring.
Qed.
Lemma H_off i j : i <> j -> H i j = ip Xq Xq i j.
Proof. intros N. unfold H, damp. destruct (Nat.eqb_spec i j); [contradiction|]. apply covH_ip. Qed.
Lemma H_diag i : H i i = ip Xq Xq i i + lam.
Proof.
  unfold H, damp. rewrite Nat.eqb_refl, covH_ip. unfold lam. f_equal. f_equal. f_equal. apply sum_ext. intros. apply covH_ip.
Qed.

(** [S^T F = G]: the inner product of a float column with a column of [S] is that of the inputs. *)
Lemma SF i j : (i < n)%nat -> sum n (fun s => F s j * S s i) = ip Xq X i j.
Proof.
  intros Hi. rewrite <- covG_ip. unfold F, matmul.
  rewrite (sum_ext n _ (fun s => sum n (fun k => S i s * Si s k * G k j))).
  - rewrite sum_swap. rewrite (sum_single n _ i Hi).
    + rewrite sum_scale_r, (inverse i i Hi Hi), Nat.eqb_refl. unfold G. ring.
    + intros k Hk N. rewrite sum_scale_r, (inverse i k Hi Hk). destruct (Nat.eqb_spec i k); [congruence|ring].
  - intros s _. rewrite (sym s i). rewrite <- sum_scale_r. apply sum_ext. intros k _. ring.
Qed.
Lemma SS i j : (i < n)%nat -> (j < n)%nat -> sum n (fun s => S s j * S s i) = H i j.
Proof. intros Hi Hj. rewrite <- (root i j Hi Hj). apply sum_ext. intros s _. rewrite (sym s i). ring. Qed.

Lemma v2_untouched W k : (k <= n)%nat -> forall t r, (k <= t)%nat -> (t < n)%nat -> snd (upto2 k W) r (perm t) = W r (perm t).
Proof.
  induction k as [|k IH]; intros Hk t r Ht Hn; [reflexivity|]. rewrite upto2_S. unfold gpfq2_step.
  destruct (upto2 k W) as [U V] eqn:E. cbn [snd]. destruct (Nat.eqb_spec (perm t) (perm k)) as [Q|_].
  - apply bij in Q; lia.
  - apply IH; lia.
Qed.
Lemma v2_frozen W k : (k <= n)%nat -> forall j t r, (t < k)%nat -> (k + j <= n)%nat -> snd (upto2 (k + j) W) r (perm t) = snd (upto2 k W) r (perm t).
Proof.
  intros Hk. induction j as [|j IH]; intros t r Ht Hn; [rewrite Nat.add_0_r; reflexivity|].
  rewrite Nat.add_succ_r, upto2_S. unfold gpfq2_step. destruct (upto2 (k + j) W) as [U V] eqn:E. cbn [snd].
  destruct (Nat.eqb_spec (perm t) (perm (k + j))) as [Q|_]; [apply bij in Q; lia|].
  rewrite <- IH by lia. reflexivity.
Qed.
Lemma v2_residual W : forall k, (k <= n)%nat -> forall r s,
  fst (upto2 k W) r s = sum k (fun t => W r (perm t) * F s (perm t)) - sum k (fun t => quant (snd (upto2 k W)) r (perm t) * S s (perm t)).
Proof.
  induction k as [|k IH]; intros Hk r s; [unfold upto2; cbn [seq fold_left fst sum]; ring|].
  cbn [sum].
  assert (Q : forall t, (t < k)%nat -> quant (snd (upto2 (Datatypes.S k) W)) r (perm t) = quant (snd (upto2 k W)) r (perm t)).
  { intros t Ht. apply CL. intros r'. replace (Datatypes.S k) with (k + 1)%nat by lia. apply v2_frozen; lia. }
  rewrite (sum_ext k (fun t => quant (snd (upto2 (Datatypes.S k) W)) r (perm t) * S s (perm t)) (fun t => quant (snd (upto2 k W)) r (perm t) * S s (perm t)))
    by (intros t Ht; rewrite Q by exact Ht; reflexivity).
  specialize (IH ltac:(lia) r s). pose proof (v2_untouched W k ltac:(lia) k r (le_n k) ltac:(lia)) as UT.
  rewrite upto2_S. unfold gpfq2_step. destruct (upto2 k W) as [U V]. cbn [fst snd] in *. rewrite IH, UT. ring.
Qed.

(** Every column gets the target defined by inner products of the (float and quantized) inputs
    and by the quantized values of the columns before it. *)
Theorem C62_targets : forall W t r, (t < n)%nat ->
  let V := snd (gpfq2 quant perm n F S norms W) in
  V r (perm t) = target W (quant V) t r.
Proof.
  intros W t r Ht V. change V with (snd (upto2 n W)). clear V.
  assert (E1 : snd (upto2 n W) r (perm t) = snd (upto2 (Datatypes.S t) W) r (perm t)).
  { replace n with (Datatypes.S t + (n - Datatypes.S t))%nat at 1 by lia. apply v2_frozen; lia. }
  assert (E2 : forall j, (j < t)%nat -> quant (snd (upto2 n W)) r (perm j) = quant (snd (upto2 t W)) r (perm j)).
  { intros j Hj. apply CL. intros r'. replace n with (t + (n - t))%nat at 1 by lia. apply v2_frozen; lia. }
  rewrite E1. unfold target. rewrite (sum_ext t (fun j => quant (snd (upto2 n W)) r (perm j) * ip Xq Xq (perm t) (perm j))
     (fun j => quant (snd (upto2 t W)) r (perm j) * ip Xq Xq (perm t) (perm j))) by (intros j Hj; rewrite E2 by exact Hj; reflexivity).
  pose proof (v2_residual W t ltac:(lia) r) as RS. pose proof (v2_untouched W t ltac:(lia) t r (le_n t) Ht) as UT.
  rewrite upto2_S. unfold gpfq2_step. destruct (upto2 t W) as [U V]. cbn [fst snd] in *. rewrite Nat.eqb_refl.
  unfold norms. rewrite H_diag. destruct (Rlt_dec 0 _) as [P|P]; [|reflexivity]. f_equal.
  rewrite (sum_ext n _ (fun s => (sum t (fun j => W r (perm j) * (F s (perm j) * S s (perm t))) - sum t (fun j => quant V r (perm j) * (S s (perm j) * S s (perm t))))
      + W r (perm t) * (F s (perm t) * S s (perm t)))).
  - rewrite sum_plus, sum_minus, !(sum_swap n t). rewrite sum_scale, (SF (perm t) (perm t) (rng t Ht)). cbn [sum].
    rewrite (sum_ext t (fun j => sum n (fun i => W r (perm j) * (F i (perm j) * S i (perm t)))) (fun j => W r (perm j) * ip Xq X (perm t) (perm j)))
      by (intros j Hj; rewrite sum_scale, (SF (perm t) (perm j) (rng t Ht)); reflexivity).
    rewrite (sum_ext t (fun j => sum n (fun i => quant V r (perm j) * (S i (perm j) * S i (perm t)))) (fun j => quant V r (perm j) * ip Xq Xq (perm t) (perm j))).
    + ring.
    + intros j Hj. rewrite sum_scale, (SS (perm t) (perm j) (rng t Ht) (rng j ltac:(lia))), H_off; [reflexivity|].
      intros E. apply bij in E; lia.
  - intros s _. rewrite RS, UT.
    rewrite (sum_ext t (fun j => W r (perm j) * (F s (perm j) * S s (perm t))) (fun j => W r (perm j) * F s (perm j) * S s (perm t))) by (intros; ring).
    rewrite (sum_ext t (fun j => quant V r (perm j) * (S s (perm j) * S s (perm t))) (fun j => quant V r (perm j) * S s (perm j) * S s (perm t))) by (intros; ring).
    rewrite !sum_scale_r. ring.
Qed.
End gpfq2.

(** The original GPFQ chooses the same targets without damping. *)
Theorem C62_gpfq_targets : forall quant perm n X Xq m, column_local quant ->
  (forall a b, (a < n)%nat -> (b < n)%nat -> perm a = perm b -> a = b) -> (0 < n)%nat ->
  forall W t r, (t < n)%nat ->
  let V := snd (gpfq quant perm n X Xq m W) in
  V r (perm t) = target perm n X Xq m 0 W (quant V) t r.
Proof.
  intros quant perm n X Xq m CL bij npos W t r Ht V. change V with (snd (upto quant perm X Xq m n W)). clear V.
  assert (E1 : snd (upto quant perm X Xq m n W) r (perm t) = snd (upto quant perm X Xq m (S t) W) r (perm t)).
  { replace n with (S t + (n - S t))%nat at 1 by lia. apply (gpfq_frozen quant perm n X Xq m bij); lia. }
  assert (E2 : forall j, (j < t)%nat -> quant (snd (upto quant perm X Xq m n W)) r (perm j) = quant (snd (upto quant perm X Xq m t W)) r (perm j)).
  { intros j Hj. apply CL. intros r'. replace n with (t + (n - t))%nat at 1 by lia. apply (gpfq_frozen quant perm n X Xq m bij); lia. }
  rewrite E1. unfold target. rewrite (sum_ext t (fun j => quant (snd (upto quant perm X Xq m n W)) r (perm j) * ip n m Xq Xq (perm t) (perm j))
     (fun j => quant (snd (upto quant perm X Xq m t W)) r (perm j) * ip n m Xq Xq (perm t) (perm j))) by (intros j Hj; rewrite E2 by exact Hj; reflexivity).
  pose proof (gpfq_residual_k quant perm n X Xq m CL bij W t ltac:(lia) r) as RS.
  pose proof (gpfq_untouched quant perm n X Xq m bij W t ltac:(lia) t r (le_n t) Ht) as UT.
  rewrite upto_S. unfold gpfq_step. destruct (upto quant perm X Xq m t W) as [U V]. cbn [fst snd] in *. rewrite Nat.eqb_refl.
  unfold q_arg. replace (ip n m Xq Xq (perm t) (perm t) + lam n Xq m 0) with (2 / INR n * dot m (fun s => Xq s (perm t)) (fun s => Xq s (perm t))) by (unfold lam, ip, dot; ring).
  assert (K : 0 < 2 / INR n) by (apply Rdiv_lt_0_compat; [lra|apply lt_0_INR; exact npos]).
  set (x := fun s => Xq s (perm t)).
  assert (NUM : dot m (fun s => U r s + V r (perm t) * X s (perm t)) x * (2 / INR n)
    = sum (S t) (fun j => W r (perm j) * ip n m Xq X (perm t) (perm j)) - sum t (fun j => quant V r (perm j) * ip n m Xq Xq (perm t) (perm j))).
  { unfold dot. rewrite UT.
    rewrite (sum_ext m _ (fun s => (sum t (fun j => W r (perm j) * (X s (perm j) * x s)) - sum t (fun j => quant V r (perm j) * (Xq s (perm j) * x s)))
        + W r (perm t) * (X s (perm t) * x s))).
    - rewrite sum_plus, sum_minus, !(sum_swap m t), sum_scale. cbn [sum]. unfold ip.
      rewrite (sum_ext t (fun j => sum m (fun i => W r (perm j) * (X i (perm j) * x i))) (fun j => W r (perm j) * sum m (fun s => Xq s (perm t) * X s (perm j))))
        by (intros j Hj; rewrite sum_scale; f_equal; apply sum_ext; intros; unfold x; ring).
      rewrite (sum_ext t (fun j => sum m (fun i => quant V r (perm j) * (Xq i (perm j) * x i))) (fun j => quant V r (perm j) * sum m (fun s => Xq s (perm t) * Xq s (perm j))))
        by (intros j Hj; rewrite sum_scale; f_equal; apply sum_ext; intros; unfold x; ring).
      rewrite (sum_ext m (fun i => X i (perm t) * x i) (fun s => Xq s (perm t) * X s (perm t))) by (intros; unfold x; ring).
      rewrite (sum_ext t (fun j => W r (perm j) * (2 / INR n * sum m (fun s => Xq s (perm t) * X s (perm j)))) (fun j => 2 / INR n * (W r (perm j) * sum m (fun s => Xq s (perm t) * X s (perm j))))) by (intros; ring).
      rewrite (sum_ext t (fun j => quant V r (perm j) * (2 / INR n * sum m (fun s => Xq s (perm t) * Xq s (perm j)))) (fun j => 2 / INR n * (quant V r (perm j) * sum m (fun s => Xq s (perm t) * Xq s (perm j))))) by (intros; ring).
      rewrite !sum_scale. ring.
    - intros s _. rewrite RS.
      rewrite (sum_ext t (fun j => W r (perm j) * (X s (perm j) * x s)) (fun j => W r (perm j) * X s (perm j) * x s)) by (intros; ring).
      rewrite (sum_ext t (fun j => quant V r (perm j) * (Xq s (perm j) * x s)) (fun j => quant V r (perm j) * Xq s (perm j) * x s)) by (intros; ring).
      rewrite !sum_scale_r. ring. }
  destruct (Rlt_dec 0 (dot m x x)) as [P|P]; destruct (Rlt_dec 0 (2 / INR n * dot m x x)) as [P'|P']; try reflexivity; try (exfalso; nra).
  assert (0 < INR n) by (apply lt_0_INR; exact npos). rewrite <- NUM. field. split; lra.
Qed.

Section gpfq2_cor.
Variable quant : mat -> nat -> nat -> R.
Variable perm : nat -> nat.
Variables (n m : nat) (X Xq : mat) (percdamp : R) (S Si : mat).
Hypothesis CL : column_local quant.
Hypothesis bij : forall a b, (a < n)%nat -> (b < n)%nat -> perm a = perm b -> a = b.
Hypothesis rng : forall a, (a < n)%nat -> (perm a < n)%nat.
Hypothesis npos : (0 < n)%nat.
Hypothesis sym : forall i j, S i j = S j i.
Hypothesis root : forall i j, (i < n)%nat -> (j < n)%nat -> sum n (fun k => S i k * S k j) = damp percdamp n (covH n m Xq) i j.
Hypothesis inverse : forall i j, (i < n)%nat -> (j < n)%nat -> sum n (fun k => S i k * Si k j) = if (i =? j)%nat then 1 else 0.
Let v2 (W : mat) : mat :=
  snd (gpfq2 quant perm n (matmul n Si (covG n m X Xq)) S (fun c => damp percdamp n (covH n m Xq) c c) W).

(** Without damping the memory-efficient version returns the same weights as GPFQ. *)
Corollary C62_equivalent : percdamp = 0 -> forall W t r, (t < n)%nat ->
  v2 W r (perm t) = snd (gpfq quant perm n X Xq m W) r (perm t).
Proof.
  intros Z W t. induction t as [t IH] using (well_founded_induction lt_wf). intros r Ht. unfold v2.
  rewrite (C62_targets quant perm n X Xq m percdamp CL bij rng npos S Si sym root inverse W t r Ht).
  rewrite (C62_gpfq_targets quant perm n X Xq m CL bij npos W t r Ht). rewrite Z. unfold target.
  rewrite (sum_ext t _ (fun j => quant (snd (gpfq quant perm n X Xq m W)) r (perm j) * ip n m Xq Xq (perm t) (perm j))); [reflexivity|].
  intros j Hj. f_equal. rewrite <- Z. apply CL. intros r'. apply IH; [exact Hj|lia].
Qed.

(** With damping, the first column is shrunk towards zero although nothing has been rounded yet,
    even when the inputs are not quantized at all. *)
Corollary C62_damping_shrinks : X = Xq -> 0 < lam n Xq m percdamp -> forall W r,
  v2 W r (perm 0) = W r (perm 0) * (ip n m Xq Xq (perm 0) (perm 0) / (ip n m Xq Xq (perm 0) (perm 0) + lam n Xq m percdamp)).
Proof.
  intros -> HL W r. unfold v2.
  rewrite (C62_targets quant perm n Xq Xq m percdamp CL bij rng npos S Si sym root inverse W 0 r npos). unfold target. cbn [sum].
  assert (P : 0 <= ip n m Xq Xq (perm 0) (perm 0)).
  { unfold ip. apply Rmult_le_pos; [apply Rlt_le, Rdiv_lt_0_compat; [lra|apply lt_0_INR; exact npos]|]. apply sum_nonneg. intros; nra. }
  destruct (Rlt_dec 0 _) as [Q|Q]; [|exfalso; lra]. field. lra.
Qed.
End gpfq2_cor.

Definition eye : mat := fun i j => if (i =? j)%nat then 1 else 0.
Example C62_example : (forall i j, eye i j = eye j i)
  /\ (forall i j, (i < 2)%nat -> (j < 2)%nat -> sum 2 (fun k => eye i k * eye k j) = damp 0 2 (covH 2 2 eye) i j)
  /\ (forall i j, (i < 2)%nat -> (j < 2)%nat -> sum 2 (fun k => eye i k * eye k j) = if (i =? j)%nat then 1 else 0).
Proof.
  assert (S1 : sqrt (2 / INR 2) = 1) by (replace (2 / INR 2) with 1 by (cbn; lra); apply sqrt_1).
  split; [intros i j; unfold eye; rewrite Nat.eqb_sym; reflexivity|].
  split; intros [|[|i]] [|[|j]] Hi Hj; try lia; unfold damp, covH; rewrite ?S1; unfold eye; cbn [sum Nat.eqb]; lra.
Qed.

(** * C63: the updates reach the layer, and columns are sliced correctly *)
Lemma squeeze_strides shape : mergeable (squeeze (contiguous shape)) = true
  /\ match squeeze (contiguous shape) with (d, s) :: _ => (d * s)%nat = fold_right Nat.mul 1%nat shape | [] => fold_right Nat.mul 1%nat shape = 1%nat end.
Proof.
  induction shape as [|d shape [IH1 IH2]]; [split; reflexivity|]. cbn [contiguous squeeze filter fst fold_right].
  destruct (Nat.eqb_spec d 1) as [->|N]; cbn [negb]; fold (squeeze (contiguous shape)).
  - split; [exact IH1|]. destruct (squeeze (contiguous shape)) as [|[d2 s2] l]; lia.
  - destruct (squeeze (contiguous shape)) as [|[d2 s2] l] eqn:E; cbn [mergeable].
    + split; [reflexivity|]. lia.
    + split; [|lia]. rewrite IH2, Nat.eqb_refl. exact IH1.
Qed.

(** Linear and convolution weights (any shape): the flattened matrix is a view, updates reach
    the layer. *)
Theorem C63_written : forall A shape (w w' : A), shape <> [] -> written_back false shape w w' = w'.
Proof.
  intros A shape w w' NE. destruct shape as [|d shape]; [contradiction|]. unfold written_back. cbn [contiguous flatten_is_view].
  rewrite (proj1 (squeeze_strides shape)). reflexivity.
Qed.

(** Transposed convolutions with at least two input and two output channels: the flattened
    matrix is a copy, the layer keeps its weights. *)
Theorem C63_transposed_lost : forall A i o k rest (w w' : A),
  (2 <= i)%nat -> (2 <= o)%nat -> Forall (fun d => 1 <= d)%nat (k :: rest) -> (2 <= fold_right Nat.mul 1 (k :: rest))%nat ->
  written_back true (i :: o :: k :: rest) w w' = w.
Proof.
  intros A i o k rest w w' Hi Ho HF HK. unfold written_back. cbn [contiguous transpose01 flatten_is_view].
  set (kr := k :: rest) in *.
  change ((k, fold_right Nat.mul 1%nat rest) :: contiguous rest) with (contiguous kr).
  change (fold_right Nat.mul 1%nat (o :: kr)) with (o * fold_right Nat.mul 1 kr)%nat.
  cbn [squeeze filter fst]. destruct (Nat.eqb_spec i 1) as [|_]; [lia|]. cbn [negb]. fold (squeeze (contiguous kr)).
  destruct (squeeze_strides kr) as [_ S2]. destruct (squeeze (contiguous kr)) as [|[d2 s2] l]; [lia|]. cbn [mergeable].
  rewrite S2. destruct (Nat.eqb_spec (o * fold_right Nat.mul 1%nat kr) (fold_right Nat.mul 1%nat kr)) as [E|_]; [nia|]. reflexivity.
Qed.

(** Example: a [QuantConvTranspose2d(4, 8, 3)]. *)
Example C63_transposed_refuted : exists shape, written_back true shape 0%nat 1%nat = 0%nat /\ written_back false shape 0%nat 1%nat = 1%nat.
Proof. exists [4; 8; 3; 3]%nat. split; reflexivity. Qed.

(** Row-major position of a multi-index. *)
Fixpoint flat (shapes idx : list nat) : nat :=
  match shapes, idx with d :: ds, i :: is_ => (i * fold_right Nat.mul 1 ds + flat ds is_)%nat | _, _ => 0%nat end.

Lemma residual_length l i : length (residual l i) = length l.
Proof. revert i. induction l; intros i; cbn [residual length]; auto. Qed.

Lemma flat_app s1 s2 i1 i2 : length s1 = length i1 -> flat (s1 ++ s2) (i1 ++ i2) = (flat s1 i1 * fold_right Nat.mul 1 s2 + flat s2 i2)%nat.
Proof.
  revert i1. induction s1 as [|d s1 IH]; intros [|i i1] L; cbn [length] in L; try lia; cbn [app flat]; [lia|].
  rewrite IH by lia. rewrite fold_right_app. 
  assert (P : forall l p, fold_right Nat.mul p l = (fold_right Nat.mul 1 l * p)%nat) by (induction l; intros; cbn [fold_right]; [lia|rewrite IHl; lia]).
  rewrite (P s1 (fold_right Nat.mul 1%nat s2)). lia.
Qed.

Lemma flat_residual l : Forall (fun d => 1 <= d)%nat l -> forall i, (i < fold_right Nat.mul 1 l)%nat ->
  flat (rev l) (rev (residual l i)) = i /\ Forall2 (fun x d => x < d)%nat (residual l i) l.
Proof.
  induction 1 as [|d l Hd F IH]; intros i Hi; cbn [residual rev fold_right] in *; [split; [cbn; lia|constructor]|].
  assert (Hq : (i / d < fold_right Nat.mul 1 l)%nat) by (apply Nat.div_lt_upper_bound; lia).
  destruct (IH (i / d)%nat Hq) as [IH1 IH2]. split.
  - rewrite flat_app by (rewrite !rev_length, residual_length; reflexivity). rewrite IH1. cbn [flat fold_right].
    pose proof (Nat.div_mod i d ltac:(lia)). lia.
  - constructor; [apply Nat.mod_upper_bound; lia|exact IH2].
Qed.

(** The per-dimension index computed for a column is its row-major multi-index. *)
Theorem C63_slice : forall shapes i, Forall (fun d => 1 <= d)%nat shapes -> (i < fold_right Nat.mul 1 shapes)%nat ->
  flat shapes (index_nd shapes i) = i /\ Forall2 (fun x d => x < d)%nat (index_nd shapes i) shapes.
Proof.
  intros shapes i F Hi. unfold index_nd.
  assert (Fr : Forall (fun d => 1 <= d)%nat (rev shapes)) by (apply Forall_rev; exact F).
  assert (P : forall l, fold_right Nat.mul 1%nat (rev l) = fold_right Nat.mul 1%nat l).
  { induction l as [|a l IHl]; [reflexivity|]. cbn [rev fold_right]. rewrite fold_right_app. cbn [fold_right].
    assert (Q : forall l p, fold_right Nat.mul p l = (fold_right Nat.mul 1 l * p)%nat) by (induction l0; intros; cbn [fold_right]; [lia|rewrite IHl0; lia]).
    rewrite Q, IHl. lia. }
  destruct (flat_residual (rev shapes) Fr i ltac:(rewrite P; exact Hi)) as [R1 R2]. rewrite rev_involutive in R1. split; [exact R1|].
  rewrite <- (rev_involutive shapes) at 2. revert R2. generalize (residual (rev shapes) i) (rev shapes). clear. intros a b R.
  induction R; cbn [rev]; [constructor|]. apply Forall2_app; [assumption|constructor; [assumption|constructor]].
Qed.

(** For [QuantConvTranspose3d] the shape used is (out, k, k, k) while the columns are
    (in, k, k, k): with more input than output channels a different entry is read. *)
Theorem C63_transposed3d_refuted : exists n_in n_out k i, (i < n_in * (k * (k * (k * 1))))%nat
  /\ flat [n_in; k; k; k] (index_nd [n_out; k; k; k] i) <> i.
Proof. exists 4%nat, 2%nat, 1%nat, 3%nat. split; [cbn; lia|]. vm_compute. discriminate. Qed.

Example C63_slice_example : index_nd [2; 3; 4]%nat 17 = [1; 1; 1]%nat.
Proof. reflexivity. Qed.

(** Row sampling of GPFQ: with a shorter later batch one index can be out of range. *)
Theorem C61_sample_ok : forall A rand (rows : list A), (list_max rand <> length rows)%nat -> rand <> [] ->
  exists l, select rand rows = Some l.
Proof.
  intros A rand rows HM NE. unfold select. set (ix := if (length rows <? list_max rand)%nat then _ else _).
  assert (OK : forallb (fun i => i <? length rows)%nat ix = true).
  { unfold ix. destruct (Nat.ltb_spec (length rows) (list_max rand)) as [L|L].
    - apply forallb_forall. intros x Hx. apply filter_In in Hx. apply Hx.
    - assert (Hm : (list_max rand < length rows)%nat) by lia. apply forallb_forall. intros x Hx. apply Nat.ltb_lt.
      pose proof (proj1 (list_max_le rand (list_max rand)) (le_n _)) as LM. rewrite Forall_forall in LM. specialize (LM x Hx). lia. }
  rewrite OK. eauto.
Qed.
Theorem C61_sample_refuted : exists rand (rows : list nat), select rand rows = None.
Proof. exists [0; 2]%nat, [7; 8]%nat. reflexivity. Qed.

Print Assumptions C39_blocks.
Print Assumptions C39_on_grid.
Print Assumptions C39_fixed_point.
Print Assumptions C39_hessian_scale.
Print Assumptions C39_stats_scale_refuted.
Print Assumptions C40_hessian.
Print Assumptions C40_order.
Print Assumptions C40_split.
Print Assumptions C59_step_optimal.
Print Assumptions C59_total_error.
Print Assumptions C59_meaning.
Print Assumptions C60_dead_harmless.
Print Assumptions C60_dead_zeroed.
Print Assumptions C60_positive_definite.
Print Assumptions C61_residual.
Print Assumptions C61_target_optimal.
Print Assumptions C61_grid_optimal.
Print Assumptions C61_sample_ok.
Print Assumptions C61_sample_refuted.
Print Assumptions C62_targets.
Print Assumptions C62_gpfq_targets.
Print Assumptions C62_equivalent.
Print Assumptions C62_damping_shrinks.
Print Assumptions C63_written.
Print Assumptions C63_transposed_lost.
Print Assumptions C63_slice.
Print Assumptions C63_transposed3d_refuted.
