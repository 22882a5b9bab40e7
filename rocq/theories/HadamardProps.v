(** Property C110: the Hadamard classifier. *)
From Coq Require Import Reals List Bool Arith ZArith Lia Lra Psatz.
From Verif Require Import Hadamard.
Import ListNotations.
Open Scope R_scope.

(** ** Specification *)
Fixpoint zdot (a b : list Z) : Z := match a, b with x :: a', y :: b' => (x * y + zdot a' b')%Z | _, _ => 0%Z end.
(** Correlation of the sample [x] with row [c]. *)
Definition corr (l : classifier) (c : nat) (x : list R) : R := dotz (nth c (hc_proj l) []) x.
Definition sqnorm (x : list R) : R := rsum (map (fun a => a * a) x).
Definition at2 (v : list (list R)) (n c : nat) : R := nth c (nth n v []) 0.
Definition wf (l : classifier) : Prop := (1 <= hc_in l)%nat /\ (1 <= hc_out l)%nat.

(** ** Lemmas: the matrix *)
Lemma pow2_pos k : (1 <= 2 ^ k)%nat.
Proof. induction k; cbn; lia. Qed.
Lemma had_len k : length (hadamard k) = (2 ^ k)%nat.
Proof. induction k; [reflexivity|]. cbn [hadamard Nat.pow]. rewrite app_length, !map_length, IHk. lia. Qed.
Lemma had_row k : forall r, In r (hadamard k) -> length r = (2 ^ k)%nat /\ Forall (fun z => z = 1%Z \/ z = (-1)%Z) r.
Proof.
  induction k as [|k IH]; intros r H.
  - destruct H as [<-|[]]. split; [reflexivity|]. repeat constructor.
  - cbn [hadamard] in H. apply in_app_or in H.
    destruct H as [H|H]; apply in_map_iff in H as (r0 & <- & H0); destruct (IH r0 H0) as (L & F);
      rewrite app_length, ?map_length, L; (split; [cbn; lia|]); apply Forall_app; split; auto.
    clear -F. induction F as [|z r E F IH]; cbn; constructor; auto. destruct E; subst; auto.
Qed.
Lemma nth_had_lo k i : (i < 2 ^ k)%nat -> nth i (hadamard (S k)) [] = nth i (hadamard k) [] ++ nth i (hadamard k) [].
Proof.
  intros H. cbn [hadamard]. rewrite app_nth1 by (rewrite map_length, had_len; lia).
  rewrite (nth_indep _ [] ((fun r => r ++ r) [])) by (rewrite map_length, had_len; lia). apply (map_nth (fun r : list Z => r ++ r)).
Qed.
Lemma nth_had_hi k i : (i < 2 ^ k)%nat -> nth (2 ^ k + i) (hadamard (S k)) [] = nth i (hadamard k) [] ++ map Z.opp (nth i (hadamard k) []).
Proof.
  intros H. cbn [hadamard]. rewrite app_nth2 by (rewrite map_length, had_len; lia). rewrite map_length, had_len.
  replace (2 ^ k + i - 2 ^ k)%nat with i by lia.
  rewrite (nth_indep _ [] ((fun r => r ++ map Z.opp r) [])) by (rewrite map_length, had_len; lia). apply (map_nth (fun r : list Z => r ++ map Z.opp r)).
Qed.
Lemma zdot_app a b c d : length a = length c -> zdot (a ++ b) (c ++ d) = (zdot a c + zdot b d)%Z.
Proof. revert c. induction a as [|x a IH]; intros [|y c] L; try discriminate; cbn; auto. rewrite IH by (cbn in L; lia). lia. Qed.
Lemma zdot_oppr a b : zdot a (map Z.opp b) = (- zdot a b)%Z.
Proof. revert b. induction a as [|x a IH]; intros [|y b]; cbn; auto. rewrite IH. lia. Qed.
Lemma zdot_oppl a b : zdot (map Z.opp a) b = (- zdot a b)%Z.
Proof. revert b. induction a as [|x a IH]; intros [|y b]; cbn; auto. rewrite IH. lia. Qed.
Lemma had_orth k : forall i j, (i < 2 ^ k)%nat -> (j < 2 ^ k)%nat ->
  zdot (nth i (hadamard k) []) (nth j (hadamard k) []) = if Nat.eqb i j then Z.of_nat (2 ^ k) else 0%Z.
Proof.
  induction k as [|k IH]; intros i j Hi Hj.
  - cbn in Hi, Hj. assert (i = 0%nat) by lia. assert (j = 0%nat) by lia. subst. reflexivity.
  - assert (Ln : forall i, (i < 2 ^ k)%nat -> length (nth i (hadamard k) []) = (2 ^ k)%nat).
    { intros. apply had_row. apply nth_In. rewrite had_len. assumption. }
    assert (C : forall i, (i < 2 ^ S k)%nat -> (i < 2 ^ k)%nat \/ exists i', (i = 2 ^ k + i')%nat /\ (i' < 2 ^ k)%nat).
    { intros i0 H. cbn in H. destruct (Nat.lt_ge_cases i0 (2 ^ k)); [now left|right]. exists (i0 - 2 ^ k)%nat. lia. }
    assert (P : Z.of_nat (2 ^ S k) = (2 * Z.of_nat (2 ^ k))%Z) by (rewrite Nat.pow_succ_r', Nat2Z.inj_mul; reflexivity).
    destruct (C i Hi) as [A|(i' & -> & A)], (C j Hj) as [B|(j' & -> & B)];
      repeat first [rewrite (nth_had_hi k _ A)|rewrite (nth_had_hi k _ B)|rewrite (nth_had_lo k _ A)|rewrite (nth_had_lo k _ B)]; rewrite zdot_app by (rewrite !Ln by assumption; reflexivity);
      rewrite ?zdot_oppr, ?zdot_oppl, ?zdot_oppr, !IH, P by assumption.
    + destruct (Nat.eqb_spec i j); lia.
    + destruct (Nat.eqb_spec i (2 ^ k + j')), (Nat.eqb_spec i j'); lia.
    + destruct (Nat.eqb_spec (2 ^ k + i') j), (Nat.eqb_spec i' j); lia.
    + destruct (Nat.eqb_spec (2 ^ k + i') (2 ^ k + j')), (Nat.eqb_spec i' j'); lia.
Qed.
Lemma proj_S k n m : (n <= 2 ^ k)%nat -> (m <= 2 ^ k)%nat -> proj_of (S k) n m = proj_of k n m.
Proof.
  intros Hn Hm. unfold proj_of. cbn [hadamard]. rewrite firstn_app, map_length, had_len.
  replace (m - 2 ^ k)%nat with 0%nat by lia. cbn [firstn]. rewrite app_nil_r, firstn_map, map_map. apply map_ext_in.
  intros r Hr. assert (In r (hadamard k)) as Ir by (rewrite <- (firstn_skipn m (hadamard k)); apply in_or_app; now left).
  destruct (had_row k r Ir) as (L & _). rewrite firstn_app, L. replace (n - 2 ^ k)%nat with 0%nat by lia. cbn. apply app_nil_r.
Qed.
Lemma proj_ge k k' n m : (k <= k')%nat -> (n <= 2 ^ k)%nat -> (m <= 2 ^ k)%nat -> proj_of k' n m = proj_of k n m.
Proof.
  intros H Hn Hm. induction H as [|k' H IH]; auto. rewrite proj_S; auto; eapply Nat.le_trans; try eassumption; apply Nat.pow_le_mono_r; lia.
Qed.
Lemma size_ok n m : (n <= 2 ^ size_exponent n m)%nat /\ (m <= 2 ^ size_exponent n m)%nat.
Proof.
  unfold size_exponent. destruct (Nat.le_gt_cases (Nat.max n m) 1) as [H|H].
  - pose proof (pow2_pos (Nat.log2_up (Nat.max n m))). lia.
  - pose proof (Nat.log2_up_spec _ H). lia.
Qed.
Lemma proj_row l r : In r (hc_proj l) -> length r = hc_in l /\ Forall (fun z => z = 1%Z \/ z = (-1)%Z) r.
Proof.
  unfold hc_proj, proj_of. intros H. apply in_map_iff in H as (r0 & <- & H). pose proof (size_ok (hc_in l) (hc_out l)) as (A & B).
  set (k := size_exponent (hc_in l) (hc_out l)) in *.
  assert (In r0 (hadamard k)) as Ir by (rewrite <- (firstn_skipn (hc_out l) (hadamard k)); apply in_or_app; now left).
  destruct (had_row k r0 Ir) as (L & F). rewrite firstn_length, L. split; [lia|].
  rewrite <- (firstn_skipn (hc_in l) r0) in F. apply Forall_app in F. tauto.
Qed.
Lemma proj_len l : length (hc_proj l) = hc_out l.
Proof. unfold hc_proj, proj_of. rewrite map_length, firstn_length, had_len. pose proof (size_ok (hc_in l) (hc_out l)). lia. Qed.

(** ** Lemmas: products *)
Lemma dotz_app a b c d : length a = length c -> dotz (a ++ b) (c ++ d) = dotz a c + dotz b d.
Proof. revert c. induction a as [|x a IH]; intros [|y c] L; try discriminate; cbn; [lra|]. rewrite IH by (cbn in L; lia). lra. Qed.
Lemma dotz_opp a b : dotz (map Z.opp a) b = - dotz a b.
Proof. revert b. induction a as [|x a IH]; intros [|y b]; cbn; try lra. rewrite IH, opp_IZR. lra. Qed.
Lemma dotz_scale h x k : dotz h (map (fun a => a / k) x) = dotz h x / k.
Proof. revert x. induction h as [|z h IH]; intros [|a x]; cbn; try (unfold Rdiv; lra). rewrite IH. unfold Rdiv. lra. Qed.
Lemma dotz_codes h s q : dotz h (map (fun z => s * IZR z) q) = s * IZR (zdot h q).
Proof. revert q. induction h as [|z h IH]; intros [|a q]; cbn; try lra. rewrite IH, plus_IZR, mult_IZR. lra. Qed.
Fixpoint vadd (a b : list R) : list R := match a, b with x :: a', y :: b' => (x + y) :: vadd a' b' | _, _ => [] end.
Lemma vadd_len a b : length a = length b -> length (vadd a b) = length a.
Proof. revert b. induction a as [|x a IH]; intros [|y b] L; try discriminate; cbn; auto. Qed.
Lemma dotz_vadd h a b : length a = length b -> dotz h (vadd a b) = dotz h a + dotz h b.
Proof. revert a b. induction h as [|z h IH]; intros [|x a] [|y b] L; try discriminate; cbn; try lra. rewrite IH by (cbn in L; lia). lra. Qed.
Lemma dotz_vopp h b : dotz h (map Ropp b) = - dotz h b.
Proof. revert b. induction h as [|z h IH]; intros [|y b]; cbn; try lra. rewrite IH. lra. Qed.
Lemma sq_split a b : length a = length b -> sqnorm (vadd a b) + sqnorm (vadd a (map Ropp b)) = 2 * (sqnorm a + sqnorm b).
Proof. unfold sqnorm. revert b. induction a as [|x a IH]; intros [|y b] L; try discriminate; cbn; [lra|]. specialize (IH b ltac:(cbn in L; lia)). nra. Qed.
Lemma rsum_app a b : rsum (a ++ b) = rsum a + rsum b.
Proof. induction a; cbn; lra. Qed.
Lemma sq_app a b : sqnorm (a ++ b) = sqnorm a + sqnorm b.
Proof. unfold sqnorm. rewrite map_app, rsum_app. reflexivity. Qed.
Lemma rsum_plus {A} (f g : A -> R) l : rsum (map f l) + rsum (map g l) = rsum (map (fun x => f x + g x) l).
Proof. induction l; cbn; lra. Qed.
Lemma parseval k : forall x, length x = (2 ^ k)%nat -> rsum (map (fun r => dotz r x * dotz r x) (hadamard k)) = INR (2 ^ k) * sqnorm x.
Proof.
  induction k as [|k IH]; intros x L.
  - cbn in L. destruct x as [|a [|? ?]]; try discriminate. cbn. lra.
  - set (a := firstn (2 ^ k) x). set (b := skipn (2 ^ k) x). assert (E : x = a ++ b) by (symmetry; apply firstn_skipn).
    cbn [Nat.pow] in L. assert (La : length a = (2 ^ k)%nat) by (unfold a; rewrite firstn_length; lia).
    assert (Lb : length b = (2 ^ k)%nat) by (unfold b; rewrite skipn_length; lia). rewrite E. clearbody a b. clear E L x.
    cbn [hadamard]. rewrite map_app, rsum_app, !map_map.
    rewrite (map_ext_in _ (fun r => dotz r (vadd a b) * dotz r (vadd a b))).
    2:{ intros r Hr. destruct (had_row k r Hr) as (Lr & _). rewrite dotz_app, dotz_vadd by congruence. reflexivity. }
    rewrite (map_ext_in (fun r => dotz (r ++ map Z.opp r) (a ++ b) * _) (fun r => dotz r (vadd a (map Ropp b)) * dotz r (vadd a (map Ropp b)))).
    2:{ intros r Hr. destruct (had_row k r Hr) as (Lr & _). rewrite dotz_app, dotz_opp, dotz_vadd, dotz_vopp by (rewrite ?map_length; congruence). reflexivity. }
    rewrite !IH by (rewrite vadd_len; rewrite ?map_length; congruence).
    rewrite <- Rmult_plus_distr_l, sq_split, sq_app by congruence. rewrite Nat.pow_succ_r', mult_INR. cbn [INR]. lra.
Qed.
Lemma sq_nonneg x : 0 <= sqnorm x.
Proof. unfold sqnorm. induction x; cbn; nra. Qed.
Lemma cauchy h x : Forall (fun z => z = 1%Z \/ z = (-1)%Z) h -> length h = length x -> dotz h x * dotz h x <= INR (length x) * sqnorm x.
Proof.
  intros F. revert x. induction F as [|z h Z F IH]; intros [|a x] L; try discriminate; [cbn; lra|].
  specialize (IH x ltac:(cbn in L; lia)). cbn [dotz length]. rewrite S_INR. change (sqnorm (a :: x)) with (a * a + sqnorm x).
  pose proof (sq_nonneg x) as P. assert (ZZ : IZR z * IZR z = 1) by (destruct Z; subst; lra).
  set (D := dotz h x) in *. set (n := INR (length x)) in *. set (q := sqnorm x) in *. set (w := IZR z) in *.
  assert (Pn : 0 <= n) by apply pos_INR. clearbody D n q w.
  destruct (Req_dec n 0) as [N0|N0].
  - rewrite N0 in *. assert (D = 0) by nra. subst D. nra.
  - assert (0 < n) by lra. assert (K : 0 <= n * ((n + 1) * (a * a + q) - (w * a + D) * (w * a + D))).
    { replace (n * ((n + 1) * (a * a + q) - (w * a + D) * (w * a + D)))
        with ((n * (w * a) - D) * (n * (w * a) - D) + (n + 1) * (n * q - D * D) + n * (n + 1) * (a * a) * (1 - w * w)) by ring.
      rewrite ZZ. pose proof (Rle_0_sqr (n * (w * a) - D)) as Q. unfold Rsqr in Q. assert (0 <= (n + 1) * (n * q - D * D)) by (apply Rmult_le_pos; lra). lra. }
    assert (0 <= (n + 1) * (a * a + q) - (w * a + D) * (w * a + D)); [|lra].
    apply Rmult_le_reg_l with n; lra.
Qed.
Lemma fro_row v r : In r v -> sqnorm r <= fro v * fro v.
Proof.
  intros H. unfold fro. rewrite sqrt_sqrt.
  - induction v as [|r' v IH]; [easy|]. cbn [map rsum]. fold (sqnorm r').
    assert (P : 0 <= rsum (map (fun r => rsum (map (fun x => x * x) r)) v)).
    { clear. induction v as [|a v IH]; cbn; [lra|]. pose proof (sq_nonneg a) as Q. unfold sqnorm in Q. lra. }
    destruct H as [<-|H]; [lra|]. specialize (IH H). pose proof (sq_nonneg r'). lra.
  - clear. induction v as [|a v IH]; cbn; [lra|]. pose proof (sq_nonneg a) as Q. unfold sqnorm in Q. lra.
Qed.
Lemma norm_pos v : 0 < fro v + hc_eps.
Proof. unfold fro, hc_eps. pose proof (sqrt_pos (rsum (map (fun r => rsum (map (fun x => x * x) r)) v))). assert (0 < / 100000000) by (apply Rinv_0_lt_compat; lra). lra. Qed.

(** The value of a call. *)
Lemma forward_inv l v s zp bw y : forward l (IntQ v s zp bw) = Some y ->
  zp = 0 /\ Forall (fun r => length r = hc_in l) v /\ q_scale y = s * hc_scale l / (fro v + hc_eps) /\
  q_zp y = 0 /\ q_bw y = max_output_bit_width l bw /\ q_signed y = true /\
  length (q_value y) = length v /\
  forall n, (n < length v)%nat -> length (nth n (q_value y) []) = hc_out l /\
    forall c, (c < hc_out l)%nat -> at2 (q_value y) n c = - hc_scale l * (corr l c (nth n v []) / (fro v + hc_eps)).
Proof.
  cbn [forward]. destruct (forallb _ v) eqn:F; [|discriminate]. destruct (hc_return_qt l); [|discriminate].
  destruct (Req_EM_T zp 0) as [->|]; [|discriminate]. intros [= <-]. cbn [q_value q_scale q_zp q_bw q_signed].
  split; [reflexivity|]. split.
  { apply Forall_forall. intros r Hr. apply Nat.eqb_eq. revert r Hr. now apply forallb_forall. }
  do 4 (split; [reflexivity|]). split; [apply map_length|]. intros n Hn.
  set (g := fun r => map (fun h => - hc_scale l * dotz h (map (fun x => x / (fro v + hc_eps)) r)) (hc_proj l)).
  assert (E : nth n (map g v) [] = g (nth n v [])).
  { rewrite (nth_indep _ [] (g [])) by (rewrite map_length; lia). apply map_nth. }
  split; [rewrite E; unfold g; rewrite map_length; apply proj_len|]. intros c Hc. unfold at2. rewrite E. unfold g.
  set (f := fun h => - hc_scale l * dotz h (map (fun x => x / (fro v + hc_eps)) (nth n v []))).
  rewrite (nth_indep _ 0 (f [])) by (rewrite map_length, proj_len; lia). rewrite map_nth. unfold f, corr. rewrite dotz_scale. reflexivity.
Qed.

(** ** Theorems *)

(** The rows are those of a Hadamard matrix however large it is taken; they consist of ones and
    minus ones, and when the input width is a power of two and there are at most as many classes,
    they are pairwise orthogonal. *)
Theorem C110_matrix : forall l, wf l ->
  (forall k, (hc_in l <= 2 ^ k)%nat -> (hc_out l <= 2 ^ k)%nat -> proj_of k (hc_in l) (hc_out l) = hc_proj l) /\
  length (hc_proj l) = hc_out l /\
  (forall r, In r (hc_proj l) -> length r = hc_in l /\ Forall (fun z => z = 1%Z \/ z = (-1)%Z) r) /\
  (forall k c d, hc_in l = (2 ^ k)%nat -> (hc_out l <= hc_in l)%nat -> (c < hc_out l)%nat -> (d < hc_out l)%nat ->
     zdot (nth c (hc_proj l) []) (nth d (hc_proj l) []) = if Nat.eqb c d then Z.of_nat (hc_in l) else 0%Z).
Proof.
  intros l W. assert (SZ : forall k, (hc_in l <= 2 ^ k)%nat -> (hc_out l <= 2 ^ k)%nat -> proj_of k (hc_in l) (hc_out l) = hc_proj l).
  { intros k A B. unfold hc_proj. pose proof (size_ok (hc_in l) (hc_out l)) as (C & D).
    destruct (Nat.le_ge_cases k (size_exponent (hc_in l) (hc_out l))) as [H|H]; [symmetry|]; apply proj_ge; auto. }
  split; [exact SZ|]. split; [apply proj_len|]. split; [apply proj_row|]. intros k c d Hk Ho Hc Hd.
  rewrite <- (SZ k) by lia. unfold proj_of.
  assert (N : forall c, (c < hc_out l)%nat -> nth c (map (firstn (hc_in l)) (firstn (hc_out l) (hadamard k))) [] = nth c (hadamard k) []).
  { intros e He. rewrite (nth_indep _ [] (firstn (hc_in l) [])) by (rewrite map_length, firstn_length, had_len; lia). rewrite map_nth.
    assert (E : nth e (firstn (hc_out l) (hadamard k)) [] = nth e (hadamard k) []).
    { rewrite <- (firstn_skipn (hc_out l) (hadamard k)) at 2. rewrite app_nth1; [reflexivity|]. rewrite firstn_length, had_len. lia. }
    rewrite E. apply firstn_all2. assert (In (nth e (hadamard k) []) (hadamard k)) as Ie by (apply nth_In; rewrite had_len; lia).
    rewrite (proj1 (had_row k _ Ie)). lia. }
  rewrite !N by assumption. rewrite had_orth by lia. now rewrite Hk.
Qed.

(** Which calls return. *)
Theorem C110_returns : forall l inp,
  (exists y, forward l inp = Some y) <->
  exists v s bw, inp = IntQ v s 0 bw /\ hc_return_qt l = true /\ Forall (fun r => length r = hc_in l) v.
Proof.
  intros l inp. split.
  - intros (y & E). destruct inp as [v|v s zp bw|v]; try discriminate. pose proof (forward_inv _ _ _ _ _ _ E) as (Z & F & _). subst zp.
    exists v, s, bw. split; [reflexivity|]. split; [|exact F]. cbn in E. destruct (forallb _ v); [|discriminate]. now destruct (hc_return_qt l).
  - intros (v & s & bw & -> & R & F). cbn [forward]. rewrite R.
    assert (E : forallb (fun r => Nat.eqb (length r) (hc_in l)) v = true).
    { apply forallb_forall. intros r Hr. apply Nat.eqb_eq. rewrite Forall_forall in F. auto. }
    rewrite E. destruct (Req_EM_T 0 0); [eauto|congruence].
Qed.

(** One row per sample, one value per class; no value exceeds |scale| * sqrt(in_channels). *)
Theorem C110_bounded : forall l v s zp bw y, forward l (IntQ v s zp bw) = Some y ->
  length (q_value y) = length v /\
  forall n c, (n < length v)%nat -> (c < hc_out l)%nat ->
    length (nth n (q_value y) []) = hc_out l /\ Rabs (at2 (q_value y) n c) <= Rabs (hc_scale l) * sqrt (INR (hc_in l)).
Proof.
  intros l v s zp bw y E. destruct (forward_inv _ _ _ _ _ _ E) as (_ & F & _ & _ & _ & _ & L & V).
  split; [exact L|]. intros n c Hn Hc. destruct (V n Hn) as (L2 & V2). split; [exact L2|]. rewrite V2 by assumption.
  rewrite Rabs_mult, Rabs_Ropp. apply Rmult_le_compat_l; [apply Rabs_pos|].
  set (x := nth n v []) in *. assert (Ix : In x v) by (apply nth_In; assumption).
  assert (Lx : length x = hc_in l) by (rewrite Forall_forall in F; auto).
  assert (Hr : In (nth c (hc_proj l) []) (hc_proj l)) by (apply nth_In; rewrite proj_len; assumption).
  destruct (proj_row l _ Hr) as (Lr & Fr). pose proof (cauchy _ x Fr ltac:(congruence)) as Q. fold (corr l c x) in Q. rewrite Lx in Q.
  pose proof (norm_pos v) as Np. pose proof (fro_row v x Ix) as Qf. assert (F0 : 0 <= fro v) by apply sqrt_pos.
  unfold Rdiv. rewrite Rabs_mult, Rabs_inv, (Rabs_right (fro v + hc_eps)) by lra.
  apply Rmult_le_reg_r with (fro v + hc_eps); [assumption|]. rewrite Rmult_assoc, Rinv_l, Rmult_1_r by lra.
  assert (He : 0 < hc_eps) by (unfold hc_eps; apply Rinv_0_lt_compat; lra).
  assert (A : Rabs (corr l c x) <= sqrt (INR (hc_in l)) * fro v).
  { apply Rsqr_incr_0; [|apply Rabs_pos|apply Rmult_le_pos; [apply sqrt_pos|assumption]]. rewrite <- Rsqr_abs. unfold Rsqr.
    replace (sqrt (INR (hc_in l)) * fro v * (sqrt (INR (hc_in l)) * fro v)) with (sqrt (INR (hc_in l)) * sqrt (INR (hc_in l)) * (fro v * fro v)) by ring.
    rewrite sqrt_sqrt by apply pos_INR. eapply Rle_trans; [exact Q|]. apply Rmult_le_compat_l; [apply pos_INR|exact Qf]. }
  eapply Rle_trans; [exact A|]. apply Rmult_le_compat_l; [apply sqrt_pos|lra].
Qed.

(** With as many classes as inputs, a power of two, no information is lost: the squared length of
    the output of a sample is that of its input times scale^2 * in_channels / norm^2. *)
Theorem C110_parseval : forall l k v s zp bw y, hc_in l = (2 ^ k)%nat -> hc_out l = (2 ^ k)%nat ->
  forward l (IntQ v s zp bw) = Some y -> forall n, (n < length v)%nat ->
  sqnorm (nth n (q_value y) []) = hc_scale l * hc_scale l * INR (hc_in l) / ((fro v + hc_eps) * (fro v + hc_eps)) * sqnorm (nth n v []).
Proof.
  intros l k v s zp bw y Hi Ho E n Hn. pose proof (norm_pos v) as Np.
  assert (F : Forall (fun r => length r = hc_in l) v) by apply (forward_inv _ _ _ _ _ _ E).
  assert (Lx : length (nth n v []) = hc_in l) by (rewrite Forall_forall in F; apply F, nth_In; assumption).
  cbn [forward] in E. destruct (forallb _ v); [|discriminate]. destruct (hc_return_qt l); [|discriminate].
  destruct (Req_EM_T zp 0); [|discriminate]. assert (Ey : q_value y = map (fun r => map (fun h => - hc_scale l * dotz h (map (fun x => x / (fro v + hc_eps)) r)) (hc_proj l)) v) by now injection E as <-.
  rewrite Ey. set (g := fun r => map (fun h => - hc_scale l * dotz h (map (fun x => x / (fro v + hc_eps)) r)) (hc_proj l)).
  rewrite (nth_indep _ [] (g [])) by (rewrite map_length; lia). rewrite map_nth. unfold g.
  set (N := fro v + hc_eps) in *. set (x := nth n v []) in *. unfold sqnorm at 1. rewrite map_map.
  rewrite (map_ext _ (fun h => hc_scale l * hc_scale l / (N * N) * (dotz h x * dotz h x))).
  2:{ intros h. rewrite dotz_scale. field. lra. }
  assert (RS : forall c (f : list Z -> R) L, rsum (map (fun h => c * f h) L) = c * rsum (map f L)).
  { intros c f L. induction L as [|a L IH]; cbn; [lra|]. rewrite IH. lra. }
  rewrite (RS _ (fun h => dotz h x * dotz h x)).
  assert (P : hc_proj l = hadamard k).
  { unfold hc_proj. pose proof (size_ok (hc_in l) (hc_out l)) as (A & B).
    assert (K : (k <= size_exponent (hc_in l) (hc_out l))%nat).
    { destruct (Nat.le_gt_cases k (size_exponent (hc_in l) (hc_out l))) as [|G]; auto. rewrite Hi in A at 1.
      assert (2 ^ size_exponent (hc_in l) (hc_out l) < 2 ^ k)%nat by (apply Nat.pow_lt_mono_r; lia). lia. }
    rewrite (proj_ge k) by lia. unfold proj_of. rewrite Hi, Ho. rewrite (firstn_all2 (hadamard k)) by (rewrite had_len; lia).
    rewrite <- (map_id (hadamard k)) at 2. apply map_ext_in. intros r Hr. apply firstn_all2. rewrite (proj1 (had_row k r Hr)). lia. }
  rewrite P, parseval by congruence. rewrite Hi. field. lra.
Qed.

(** The order of the classes of a sample depends on that sample only: class c is scored above
    class d exactly when the sample correlates less with row c (scale positive). *)
Theorem C110_order : forall l v s zp bw y, 0 < hc_scale l -> forward l (IntQ v s zp bw) = Some y ->
  forall n c d, (n < length v)%nat -> (c < hc_out l)%nat -> (d < hc_out l)%nat ->
  (at2 (q_value y) n d < at2 (q_value y) n c <-> corr l c (nth n v []) < corr l d (nth n v [])).
Proof.
  intros l v s zp bw y Sp E n c d Hn Hc Hd. destruct (forward_inv _ _ _ _ _ _ E) as (_ & _ & _ & _ & _ & _ & _ & V).
  destruct (V n Hn) as (_ & V2). rewrite !V2 by assumption. pose proof (norm_pos v) as Np. apply Rinv_0_lt_compat in Np.
  set (a := corr l c (nth n v [])). set (b := corr l d (nth n v [])). unfold Rdiv. set (i := / (fro v + hc_eps)) in *.
  pose proof (Rmult_lt_0_compat _ _ Sp Np) as Q.
  replace (- hc_scale l * (b * i)) with (- (hc_scale l * i) * b) by ring. replace (- hc_scale l * (a * i)) with (- (hc_scale l * i) * a) by ring.
  split; intros H; nra.
Qed.

(** The integer behind an output value is minus the product of row and input codes; the declared
    scale and zero point reproduce the value from it. *)
Theorem C110_codes : forall l codes s bw y, forward l (IntQ (map (map (fun q => s * IZR q)) codes) s 0 bw) = Some y ->
  q_zp y = 0 /\ q_signed y = true /\ q_bw y = max_output_bit_width l bw /\
  forall n c, (n < length codes)%nat -> (c < hc_out l)%nat ->
    at2 (q_value y) n c = q_scale y * IZR (- zdot (nth c (hc_proj l) []) (nth n codes [])).
Proof.
  intros l codes s bw y E. destruct (forward_inv _ _ _ _ _ _ E) as (_ & _ & Es & Ez & Eb & Eg & _ & V).
  split; [exact Ez|]. split; [exact Eg|]. split; [exact Eb|]. intros n c Hn Hc.
  destruct (V n ltac:(rewrite map_length; exact Hn)) as (_ & V2). rewrite V2 by assumption. rewrite Es.
  pose proof (norm_pos (map (map (fun q => s * IZR q)) codes)) as Np. set (N := fro _ + hc_eps) in *. unfold corr.
  rewrite (nth_indep _ [] (map (fun q => s * IZR q) [])) by (rewrite map_length; exact Hn). rewrite map_nth, dotz_codes, opp_IZR. field. lra.
Qed.

(** For signed narrow-range inputs the code fits the declared signed bit width; for any input it
    fits in one more bit, sign and magnitude. *)
Lemma zdot_bound h q M : Forall (fun z => z = 1%Z \/ z = (-1)%Z) h -> (0 <= M)%Z -> Forall (fun z => (Z.abs z <= M)%Z) q ->
  length h = length q -> (Z.abs (zdot h q) <= M * Z.of_nat (length q))%Z.
Proof.
  intros F P. revert q. induction F as [|z h E F IH]; intros [|a q] G L; try discriminate; [cbn; lia|].
  inversion G; subst. specialize (IH q ltac:(assumption) ltac:(cbn in L; lia)). cbn [zdot length]. rewrite Nat2Z.inj_succ. destruct E; subst z; nia.
Qed.
Theorem C110_range : forall l bw q c, wf l -> (2 <= bw)%Z -> length q = hc_in l -> (c < hc_out l)%nat ->
  let B := max_output_bit_width l bw in
  let out := (- zdot (nth c (hc_proj l) []) q)%Z in
  (Forall (fun z => (- (2 ^ (bw - 1) - 1) <= z <= 2 ^ (bw - 1) - 1)%Z) q -> (- 2 ^ (B - 1) <= out <= 2 ^ (B - 1) - 1)%Z) /\
  (Forall (fun z => (- 2 ^ bw < z < 2 ^ bw)%Z) q -> (- 2 ^ B <= out <= 2 ^ B)%Z).
Proof.
  intros l bw q c (Wi & Wo) Hb Lq Hc B out.
  assert (Hr : In (nth c (hc_proj l) []) (hc_proj l)) by (apply nth_In; rewrite proj_len; assumption).
  destruct (proj_row l _ Hr) as (Lr & Fr). set (I := Z.of_nat (hc_in l)) in *. assert (I1 : (1 <= I)%Z) by (unfold I; lia).
  assert (P2 : (2 ^ bw = 2 * 2 ^ (bw - 1))%Z) by (rewrite <- Z.pow_succ_r by lia; f_equal; lia).
  assert (P3 : (2 <= 2 ^ (bw - 1))%Z) by (change 2%Z with (2 ^ 1)%Z at 1; apply Z.pow_le_mono_r; lia).
  assert (SB : ((2 ^ bw - 1) * I <= 2 ^ B)%Z) by (unfold B, max_output_bit_width; fold I; apply Z.log2_up_spec; nia).
  assert (B1 : (1 <= B)%Z).
  { destruct (Z.le_gt_cases 1 B) as [|G]; auto. assert (2 ^ B <= 1)%Z; [|nia].
    destruct (Z.le_gt_cases 0 B); [assert (B = 0)%Z by lia; subst B; now replace (max_output_bit_width l bw) with 0%Z by lia|rewrite Z.pow_neg_r; lia]. }
  assert (PB : (2 ^ B = 2 * 2 ^ (B - 1))%Z) by (rewrite <- Z.pow_succ_r by lia; f_equal; lia).
  split; intros F.
  - assert (Z.abs (zdot (nth c (hc_proj l) []) q) <= (2 ^ (bw - 1) - 1) * I)%Z.
    { unfold I. rewrite <- Lq. apply zdot_bound; auto; [lia| |congruence]. eapply Forall_impl; [|exact F]. cbn. intros; lia. }
    subst out. nia.
  - assert (Z.abs (zdot (nth c (hc_proj l) []) q) <= (2 ^ bw - 1) * I)%Z.
    { unfold I. rewrite <- Lq. apply zdot_bound; auto; [lia| |congruence]. eapply Forall_impl; [|exact F]. cbn. intros; lia. }
    subst out. lia.
Qed.

(** A checkpoint reproduces the outputs in any classifier of the same configuration. *)
Theorem C110_checkpoint : forall l1 l2 inp, hc_in l1 = hc_in l2 -> hc_out l1 = hc_out l2 -> hc_return_qt l1 = hc_return_qt l2 ->
  forward (load_state_dict l2 (state_dict l1)) inp = forward l1 inp.
Proof. intros [i o s r] [i2 o2 s2 r2] inp A B C. cbn in A, B, C. subst. reflexivity. Qed.

(** ** Expectations that fail *)

(** The output bit width is that of an unsigned sum but declared signed: unsigned and full-range
    signed inputs leave the declared range. *)
Theorem C110_range_refuted :
  (exists l bw q c, wf l /\ (2 <= bw)%Z /\ length q = hc_in l /\ (c < hc_out l)%nat /\ Forall (fun z => (0 <= z < 2 ^ bw)%Z) q /\
     (- zdot (nth c (hc_proj l) []) q < - 2 ^ (max_output_bit_width l bw - 1))%Z) /\
  (exists l bw q c, wf l /\ (2 <= bw)%Z /\ length q = hc_in l /\ (c < hc_out l)%nat /\ Forall (fun z => (- 2 ^ (bw - 1) <= z < 2 ^ (bw - 1))%Z) q /\
     (2 ^ (max_output_bit_width l bw - 1) - 1 < - zdot (nth c (hc_proj l) []) q)%Z).
Proof.
  split.
  - exists (hadamard_init 4 2 true), 8%Z, [255; 255; 255; 255]%Z, 0%nat. split; [split; cbn; lia|].
    split; [lia|]. split; [reflexivity|]. split; [cbn; lia|]. split; [repeat constructor; lia|reflexivity].
  - exists (hadamard_init 5 2 true), 2%Z, [-2; -2; -2; -2; -2]%Z, 0%nat. split; [split; cbn; lia|].
    split; [lia|]. split; [reflexivity|]. split; [cbn; lia|]. split; [repeat constructor; cbn; lia|reflexivity].
Qed.

(** The norm is taken over the whole batch: the output of a sample changes with the others. *)
Theorem C110_batch_independent_refuted : exists l x x' s bw y y',
  forward l (IntQ [x] s 0 bw) = Some y /\ forward l (IntQ [x; x'] s 0 bw) = Some y' /\ at2 (q_value y) 0 0 <> at2 (q_value y') 0 0.
Proof.
  exists (hadamard_init 1 1 true), [1], [1], 1, 8%Z.
  destruct (proj2 (C110_returns (hadamard_init 1 1 true) (IntQ [[1]] 1 0 8))) as (y & E).
  { exists [[1]], 1, 8%Z. repeat split. repeat constructor. }
  destruct (proj2 (C110_returns (hadamard_init 1 1 true) (IntQ [[1]; [1]] 1 0 8))) as (y' & E').
  { exists [[1]; [1]], 1, 8%Z. repeat split. repeat constructor. }
  exists y, y'. split; [exact E|]. split; [exact E'|].
  destruct (forward_inv _ _ _ _ _ _ E) as (_ & _ & _ & _ & _ & _ & _ & V). destruct (V 0%nat ltac:(cbn; lia)) as (_ & V2).
  destruct (forward_inv _ _ _ _ _ _ E') as (_ & _ & _ & _ & _ & _ & _ & V'). destruct (V' 0%nat ltac:(cbn; lia)) as (_ & V2').
  rewrite V2, V2' by (cbn; lia). cbn [nth]. pose proof (norm_pos [[1]]) as P. pose proof (norm_pos [[1]; [1]]) as P'.
  assert (C : corr (hadamard_init 1 1 true) 0 [1] = 1) by (unfold corr; cbn; lra). rewrite C.
  assert (S1 : hc_scale (hadamard_init 1 1 true) = 1) by (cbn; rewrite sqrt_1; lra). rewrite S1.
  assert (F1 : fro [[1]] = 1) by (unfold fro; cbn; replace (1 * 1 + 0 + 0) with 1 by lra; apply sqrt_1).
  assert (F2 : 1 < fro [[1]; [1]]) by (unfold fro; cbn; rewrite <- sqrt_1 at 1; apply sqrt_lt_1; lra).
  rewrite F1 in *. intros H. assert (Q : / (1 + hc_eps) = / (fro [[1]; [1]] + hc_eps)) by lra.
  apply (f_equal Rinv) in Q. rewrite !Rinv_inv in Q. lra.
Qed.

(** Rows cut to a width that is not a power of two are not orthogonal. *)
Theorem C110_orthogonal_refuted : exists l, wf l /\ (hc_out l <= hc_in l)%nat /\
  zdot (nth 0 (hc_proj l) []) (nth 1 (hc_proj l) []) <> 0%Z.
Proof. exists (hadamard_init 3 2 true). split; [split; cbn; lia|]. split; [cbn; lia|]. vm_compute. discriminate. Qed.

(** ** Examples *)
Example C110_ex_matrix : hc_proj (hadamard_init 4 3 true) = [[1; 1; 1; 1]; [1; -1; 1; -1]; [1; 1; -1; -1]]%Z /\ wf (hadamard_init 4 3 true).
Proof. split; [vm_compute; reflexivity|split; cbn; lia]. Qed.
Example C110_ex_bw : max_output_bit_width (hadamard_init 4 3 true) 8 = 10%Z /\ (- zdot [1; -1; 1; -1] [100; -100; 127; -127] = -454)%Z.
Proof. split; reflexivity. Qed.
Example C110_ex_forward : exists y, forward (hadamard_init 2 2 true) (IntQ (map (map (fun q => / 2 * IZR q)) [[3; -5]%Z; [0; 7]%Z]) (/ 2) 0 4) = Some y
  /\ at2 (q_value y) 0 1 = q_scale y * IZR (-8) /\ q_bw y = 5%Z.
Proof.
  destruct (proj2 (C110_returns (hadamard_init 2 2 true) (IntQ (map (map (fun q => / 2 * IZR q)) [[3; -5]%Z; [0; 7]%Z]) (/ 2) 0 4))) as (y & E).
  { do 3 eexists. split; [reflexivity|]. split; [reflexivity|]. repeat constructor. }
  exists y. split; [exact E|]. destruct (C110_codes _ _ _ _ _ E) as (_ & _ & B & V). split; [|exact B]. exact (V 0%nat 1%nat ltac:(cbn; lia) ltac:(cbn; lia)).
Qed.
Example C110_ex_scale : 0 < hc_scale (hadamard_init 2 2 true) /\ hc_in (hadamard_init 2 2 true) = (2 ^ 1)%nat.
Proof. split; [|reflexivity]. cbn. apply Rdiv_lt_0_compat; [lra|]. apply sqrt_lt_R0. lra. Qed.
Example C110_ex_raises : forward (hadamard_init 2 2 false) (IntQ [[1; 2]] 1 0 8) = None /\ forward (hadamard_init 2 2 true) (Plain [[1; 2]]) = None.
Proof. split; reflexivity. Qed.

Print Assumptions C110_matrix.
Print Assumptions C110_returns.
Print Assumptions C110_bounded.
Print Assumptions C110_parseval.
Print Assumptions C110_order.
Print Assumptions C110_codes.
Print Assumptions C110_range.
Print Assumptions C110_checkpoint.
Print Assumptions C110_range_refuted.
Print Assumptions C110_batch_independent_refuted.
Print Assumptions C110_orthogonal_refuted.
