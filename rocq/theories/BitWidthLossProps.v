(** C56: bit-width regularisation reports the size-weighted average. *)
From Coq Require Import QArith ZArith List Bool Lia Lqa Permutation.
From Verif Require Import BitWidthLoss.
Import ListNotations.
Local Open Scope Q_scope.

(** ** Specification *)

(** The calls that count: all of them, except that the ops-weighted loss skips unquantized
    outputs. *)
Definition counted (k : kind) (cs : list call) : list call :=
  match k with OutputByOps => filter is_quant cs | _ => cs end.

Fixpoint sum_of (f : call -> Q) (cs : list call) : Q :=
  match cs with [] => 0 | c :: cs' => f c + sum_of f cs' end.

(** Element count of a shape, and of a shape without its batch dimension. *)
Fixpoint prod (l : list Z) : Z := match l with [] => 1%Z | x :: l' => (x * prod l')%Z end.

Definition elements (k : kind) (c : call) : Z :=
  match k with
  | WeightBySize => prod (size c)
  | ActBySize => prod (tl (size c))
  | OutputByOps => (prod (tl (size c)) * per_elem_ops c)%Z
  end.

Definition positive (k : kind) (c : call) : Prop := (0 < elements k c)%Z.

(** ** Proofs *)

Lemma fold_mul l : forall a, fold_left Z.mul l a = (a * prod l)%Z.
Proof. induction l as [|x l IH]; intros a; cbn [fold_left prod]; [ring|]. rewrite IH. ring. Qed.

Lemma numel_prod l : numel l = prod l.
Proof. unfold numel. rewrite fold_mul. ring. Qed.

Definition unit (k : kind) : Q := match k with OutputByOps => / MEGA | _ => 1 end.

Lemma unit_pos k : 0 < unit k.
Proof. destruct k; reflexivity. Qed.

Lemma weight_elements k c : weight_of k c == inject_Z (elements k c) * unit k.
Proof.
  destruct k; cbn [weight_of elements unit]; rewrite numel_prod; try ring.
  rewrite inject_Z_mult. unfold Qdiv. ring.
Qed.

Lemma fold_sum l : forall a, fold_left Qplus l a == a + qsum l.
Proof.
  unfold qsum. induction l as [|x l IH]; intros a; cbn [fold_left]; [ring|].
  rewrite IH. rewrite (IH (0 + x)). ring.
Qed.

Lemma qsum_cons x l : qsum (x :: l) == x + qsum l.
Proof. unfold qsum at 1. cbn [fold_left]. rewrite fold_sum. ring. Qed.

Lemma qsum_app a b : qsum (a ++ b) == qsum a + qsum b.
Proof.
  induction a as [|x a IH]; cbn [app]; [unfold qsum at 2; cbn; ring|].
  rewrite !qsum_cons, IH. ring.
Qed.

Lemma passes_spec k cs : forall a,
  let a' := forward_passes k a cs in
  tot a' == tot a + sum_of (fun c => inject_Z (elements k c)) (counted k cs) * unit k /\
  qsum (weighted a') == qsum (weighted a) +
    sum_of (fun c => inject_Z (elements k c) * bw c) (counted k cs) * unit k /\
  length (weighted a') = (length (weighted a) + length (counted k cs))%nat.
Proof.
  induction cs as [|c cs IH]; intros a; cbv zeta; cbn [forward_passes fold_left].
  { replace (counted k []) with (@nil call) by (destruct k; reflexivity). cbn [sum_of length].
    split; [ring|]. split; [ring|lia]. }
  destruct (IH (hook k a c)) as (H1 & H2 & H3). unfold forward_passes in H1, H2, H3.
  destruct k; cbn [hook counted filter] in *.
  - rewrite H1, H2, H3. cbn [tot weighted sum_of length]. rewrite qsum_app, qsum_cons, app_length. cbn [length].
    assert (We := weight_elements WeightBySize c).
      set (wc := weight_of WeightBySize c) in *. clearbody wc. rewrite We. cbn [length]. unfold qsum at 2. cbn [fold_left]. split; [ring|]. split; [ring|lia].
  - rewrite H1, H2, H3. cbn [tot weighted sum_of length]. rewrite qsum_app, qsum_cons, app_length. cbn [length].
    assert (We := weight_elements ActBySize c).
      set (wc := weight_of ActBySize c) in *. clearbody wc. rewrite We. cbn [length]. unfold qsum at 2. cbn [fold_left]. split; [ring|]. split; [ring|lia].
  - destruct (is_quant c) eqn:Eq.
    + rewrite H1, H2, H3. cbn [tot weighted sum_of length]. rewrite qsum_app, qsum_cons, app_length. cbn [length].
      assert (We := weight_elements OutputByOps c).
      set (wc := weight_of OutputByOps c) in *. clearbody wc. rewrite We. cbn [length]. unfold qsum at 2. cbn [fold_left]. split; [ring|]. split; [ring|lia].
    + rewrite H1, H2, H3. split; [ring|]. split; [ring|lia].
Qed.

Lemma injZ0 : inject_Z 0 = 0.
Proof. reflexivity. Qed.

Lemma sum_pos k cs : cs <> [] -> (forall c, In c cs -> positive k c) ->
  0 < sum_of (fun c => inject_Z (elements k c)) cs.
Proof.
  intros Hne Hp. destruct cs as [|c cs]; [congruence|]. cbn [sum_of].
  assert (0 <= sum_of (fun c => inject_Z (elements k c)) cs).
  { assert (Hp' : forall x, In x cs -> positive k x) by (intros; apply Hp; right; assumption).
    clear Hp Hne. induction cs as [|d cs IH]; cbn [sum_of]; [lra|].
    assert (0 < inject_Z (elements k d)) by (rewrite <- injZ0, <- Zlt_Qlt; apply Hp'; left; reflexivity).
    assert (0 <= sum_of (fun c => inject_Z (elements k c)) cs) by (apply IH; intros; apply Hp'; right; assumption).
    lra. }
  assert (0 < inject_Z (elements k c)) by (rewrite <- injZ0, <- Zlt_Qlt; apply Hp; left; reflexivity). lra.
Qed.

(** After any sequence of forward passes since the last reset, the reported average is the sum of
    elements times bit width over the sum of elements, over the counted calls. *)
Theorem C56_average k cs :
  counted k cs <> [] -> (forall c, In c (counted k cs) -> positive k c) ->
  exists v, retrieve_average (forward_passes k zero_accumulated_values cs) = Some v /\
    v * sum_of (fun c => inject_Z (elements k c)) (counted k cs) ==
    sum_of (fun c => inject_Z (elements k c) * bw c) (counted k cs).
Proof.
  intros Hne Hp. destruct (passes_spec k cs zero_accumulated_values) as (H1 & H2 & H3).
  cbv zeta in *. cbn [tot weighted zero_accumulated_values length] in H1, H2, H3.
  assert (P := sum_pos k _ Hne Hp). assert (U := unit_pos k).
  set (a := forward_passes k zero_accumulated_values cs) in *.
  set (n := sum_of (fun c => inject_Z (elements k c)) (counted k cs)) in *.
  set (w := sum_of (fun c => inject_Z (elements k c) * bw c) (counted k cs)) in *.
  assert (NU : 0 < n * unit k) by (apply Qmult_lt_0_compat; assumption).
  assert (T : ~ tot a == 0) by (rewrite H1; lra).
  unfold retrieve_average, guard.
  destruct (Qeq_bool (tot a) 0) eqn:E; [apply Qeq_bool_iff in E; contradiction|].
  destruct (weighted a) as [|x l] eqn:W.
  { cbn in H3. destruct (counted k cs); [congruence|cbn in H3; lia]. }
  eexists. split; [reflexivity|]. rewrite H2, H1. unfold qsum at 1. cbn [fold_left].
  assert (~ n == 0) by lra. assert (~ unit k == 0) by lra. field. split; assumption.
Qed.

(** So it lies between any lower and upper bound of the bit widths. *)
Theorem C56_between k cs lo hi :
  counted k cs <> [] -> (forall c, In c (counted k cs) -> positive k c /\ lo <= bw c <= hi) ->
  exists v, retrieve_average (forward_passes k zero_accumulated_values cs) = Some v /\ lo <= v <= hi.
Proof.
  intros Hne Hp. destruct (C56_average k cs Hne) as (v & E & H); [intros c Hc; apply Hp, Hc|].
  exists v. split; [exact E|].
  assert (P := sum_pos k _ Hne (fun c Hc => proj1 (Hp c Hc))).
  assert (B : lo * sum_of (fun c => inject_Z (elements k c)) (counted k cs) <=
    sum_of (fun c => inject_Z (elements k c) * bw c) (counted k cs) <=
    hi * sum_of (fun c => inject_Z (elements k c)) (counted k cs)).
  { clear H E P Hne. induction (counted k cs) as [|c l IH]; cbn [sum_of]; [lra|].
    destruct IH as [I1 I2]; [intros; apply Hp; right; assumption|].
    destruct (Hp c) as [Pc Bc]; [left; reflexivity|].
    assert (0 < inject_Z (elements k c)) by (rewrite <- injZ0, <- Zlt_Qlt; exact Pc).
    set (e := inject_Z (elements k c)) in *. clearbody e.
    assert (lo * e <= bw c * e) by (apply Qmult_le_compat_r; lra).
    assert (bw c * e <= hi * e) by (apply Qmult_le_compat_r; lra). lra. }
  set (n := sum_of (fun c => inject_Z (elements k c)) (counted k cs)) in *. rewrite <- H in B.
  split; apply Qmult_le_r with n; lra.
Qed.

(** The non-averaged form: one term per counted call, adding up to the average. *)
Theorem C56_list_sums_to_average k cs v l :
  retrieve_average (forward_passes k zero_accumulated_values cs) = Some v ->
  retrieve_list (forward_passes k zero_accumulated_values cs) = Some l ->
  qsum l == v /\ length l = length (counted k cs).
Proof.
  destruct (passes_spec k cs zero_accumulated_values) as (_ & _ & H3). cbv zeta in H3.
  unfold retrieve_average, retrieve_list. set (a := forward_passes k zero_accumulated_values cs) in *.
  destruct (guard a); [|discriminate]. intros [= <-] [= <-]. split.
  - clear H3. induction (weighted a) as [|x l IH]; cbn [map]; [reflexivity|].
    rewrite !qsum_cons, IH. unfold Qdiv. ring.
  - rewrite map_length, H3. reflexivity.
Qed.

(** Several identical passes without a reset in between report the same average as one. *)
Lemma counted_app k a b : counted k (a ++ b) = counted k a ++ counted k b.
Proof. destruct k; cbn; try reflexivity. apply filter_app. Qed.

Lemma sum_app f a b : sum_of f (a ++ b) == sum_of f a + sum_of f b.
Proof. induction a as [|c a IH]; cbn [sum_of app]; [ring|]. rewrite IH. ring. Qed.

Lemma sum_repeat f a n : sum_of f (concat (repeat a n)) == inject_Z (Z.of_nat n) * sum_of f a.
Proof.
  induction n as [|n IH]; [cbn; ring|]. cbn [repeat concat]. rewrite sum_app, IH.
  rewrite Nat2Z.inj_succ, <- Z.add_1_l, inject_Z_plus. ring.
Qed.

Lemma counted_repeat k a n : counted k (concat (repeat a n)) = concat (repeat (counted k a) n).
Proof. induction n as [|n IH]; [destruct k; reflexivity|]. cbn [repeat concat]. rewrite counted_app, IH. reflexivity. Qed.

Theorem C56_repeated_passes k cs n :
  (0 < n)%nat -> counted k cs <> [] -> (forall c, In c (counted k cs) -> positive k c) ->
  exists v v', retrieve_average (forward_passes k zero_accumulated_values cs) = Some v /\
    retrieve_average (forward_passes k zero_accumulated_values (concat (repeat cs n))) = Some v' /\
    v == v'.
Proof.
  intros Hn Hne Hp. destruct (C56_average k cs Hne Hp) as (v & E & H).
  assert (Hne' : counted k (concat (repeat cs n)) <> []).
  { rewrite counted_repeat. destruct n; [lia|]. cbn. intros C. apply app_eq_nil in C. apply Hne, C. }
  destruct (C56_average k (concat (repeat cs n)) Hne') as (v' & E' & H').
  { intros c Hc. apply Hp. rewrite counted_repeat in Hc. clear -Hc. induction n; [contradiction|].
    cbn in Hc. apply in_app_or in Hc. destruct Hc; [assumption|]. apply IHn. assumption. }
  exists v, v'. split; [exact E|]. split; [exact E'|].
  rewrite counted_repeat in H'. rewrite !sum_repeat in H'.
  assert (P := sum_pos k _ Hne Hp).
  set (s := sum_of (fun c => inject_Z (elements k c)) (counted k cs)) in *.
  set (w := sum_of (fun c => inject_Z (elements k c) * bw c) (counted k cs)) in *.
  assert (0 < inject_Z (Z.of_nat n)) by (rewrite <- injZ0, <- Zlt_Qlt; lia).
  set (m := inject_Z (Z.of_nat n)) in *. clearbody m s w.
  assert (H2 : v' * s == w).
  { apply Qmult_inj_l with m; [lra|]. rewrite <- H'. ring. }
  apply Qmult_inj_r with s; [lra|]. rewrite H, H2. reflexivity.
Qed.

(** The batch size does not matter for activations and layer outputs. *)
Definition same_but_batch (c c' : call) : Prop :=
  tl (size c) = tl (size c') /\ bw c = bw c' /\ per_elem_ops c = per_elem_ops c' /\ is_quant c = is_quant c'.

Theorem C56_batch_size_irrelevant k cs cs' :
  k <> WeightBySize -> Forall2 same_but_batch cs cs' ->
  retrieve_average (forward_passes k zero_accumulated_values cs) =
  retrieve_average (forward_passes k zero_accumulated_values cs').
Proof.
  intros Hk H. f_equal. unfold forward_passes. generalize zero_accumulated_values as a.
  induction H as [|c c' cs cs' (E1 & E2 & E3 & E4) H IH]; intros a; [reflexivity|].
  cbn [fold_left]. rewrite IH. f_equal. destruct k; [congruence| |]; cbn [hook weight_of];
    rewrite E1, E2, ?E3, ?E4; reflexivity.
Qed.

(** Nothing to report raises. *)
Theorem C56_nothing_raises k cs :
  counted k cs = [] -> retrieve_average (forward_passes k zero_accumulated_values cs) = None /\
    retrieve_list (forward_passes k zero_accumulated_values cs) = None.
Proof.
  intros H. destruct (passes_spec k cs zero_accumulated_values) as (_ & _ & H3). cbv zeta in H3.
  rewrite H in H3. cbn in H3. unfold retrieve_average, retrieve_list, guard.
  destruct (weighted (forward_passes k zero_accumulated_values cs)); [|discriminate].
  rewrite andb_false_r. split; reflexivity.
Qed.

(** Two weights: 4 bits on 64x3x3x3 elements, 8 bits on 10x64. *)
Example C56_example :
  exists v, retrieve_average (forward_passes WeightBySize zero_accumulated_values
    [Call [64; 3; 3; 3]%Z 4 0 true; Call [10; 64]%Z 8 0 true]) = Some v /\
    v == 12032 # 2368 /\ 4 <= v <= 8.
Proof.
  destruct (C56_between WeightBySize
    [Call [64; 3; 3; 3]%Z 4 0 true; Call [10; 64]%Z 8 0 true] 4 8) as (v & E & B).
  - discriminate.
  - intros c [<-|[<-|[]]]; split; cbn; try lra; reflexivity.
  - exists v. split; [exact E|]. split; [|exact B].
    vm_compute in E. injection E as <-. reflexivity.
Qed.

(** An unquantized layer output is skipped by the ops-weighted loss. *)
Example C56_ops_example :
  exists v, retrieve_average (forward_passes OutputByOps zero_accumulated_values
    [Call [2; 10]%Z 8 128 true; Call [2; 100]%Z 32 128 false; Call [2; 30]%Z 4 128 true]) = Some v /\ v == 5.
Proof. eexists. split; [vm_compute; reflexivity|reflexivity]. Qed.

Print Assumptions C56_average.
Print Assumptions C56_between.
Print Assumptions C56_repeated_passes.
