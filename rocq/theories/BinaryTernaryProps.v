(** Properties C13 (binary/ternary levels), C14 (learned bit widths), C27 (quantization delay). *)
From Verif Require Import QUtil Ops OpsProofs BinaryTernary.
Open Scope Q_scope.

Definition value_of (r : quant_out * delay) : list Q := fst (fst (fst (fst r))).

Lemma binary_sign_cases v : (0 <= v /\ binary_sign v == 1) \/ (v < 0 /\ binary_sign v == - (1)).
Proof. unfold binary_sign. qcase; [left|right]; split; try assumption; reflexivity. Qed.

(** ** C13 *)

(** Specification of the binary and ternary level of a number. *)
Definition binary_level (s v y : Q) : Prop := (0 <= v /\ y == s) \/ (v < 0 /\ y == - s).
Definition ternary_level (s t v y : Q) : Prop :=
  (t * s < v /\ y == s) \/ (v < - (t * s) /\ y == - s) \/ (- (t * s) <= v <= t * s /\ y == 0).

Theorem C13_binary : forall scaling x,
  let r := binary_quant scaling (delay_init None) x in
  Forall2 (binary_level (scaling x)) x (value_of r)
  /\ snd (fst (fst (fst r))) = scaling x /\ snd (fst r) = 1%Z.
Proof.
  intros f x r. subst r. unfold binary_quant, value_of; cbn. split; [|split; reflexivity].
  generalize (f x). intros s.
  induction x as [|v x IH]; cbn; constructor; [|exact IH].
  destruct (binary_sign_cases v) as [[H E]|[H E]]; [left|right]; (split; [exact H|]); rewrite E; ring.
Qed.

Theorem C13_clamped_binary_same_levels : forall scaling x,
  0 < scaling x ->
  Forall2 (binary_level (scaling x)) x (value_of (clamped_binary_quant scaling (delay_init None) x)).
Proof.
  intros f x. unfold clamped_binary_quant, value_of; cbn. generalize (f x). intros s Hs.
  rewrite map_map.
  induction x as [|v x IH]; cbn; constructor; [|exact IH].
  assert (K : (0 <= v /\ 0 <= tensor_clamp v (- s) s) \/ (v < 0 /\ tensor_clamp v (- s) s < 0)).
  { unfold tensor_clamp. repeat qcase; destruct (Qlt_le_dec v 0); solve [left; lra|right; lra|lra]. }
  unfold binary_level.
  destruct (binary_sign_cases (tensor_clamp v (- s) s)) as [[H E]|[H E]], K as [[K1 K2]|[K1 K2]]; try lra;
    [left|right]; (split; [exact K1|]); rewrite E; ring.
Qed.

Theorem C13_ternary : forall scaling t x,
  0 < scaling x -> 0 <= t ->
  Forall2 (ternary_level (scaling x) t) x (value_of (ternary_quant scaling t (delay_init None) x)).
Proof.
  intros f t x. unfold ternary_quant, value_of; cbn. generalize (f x). intros s Hs Ht.
  assert (Hts : 0 <= t * s) by nra.
  induction x as [|v x IH]; cbn; constructor; [|exact IH].
  unfold ternary_level.
  destruct (sgnZ_cases v) as [[H E]|[[H E]|[H E]]]; rewrite E; qabs v; qcase; rewrite Habs in *;
    try lra; solve [left; injz; split; lra | right; left; injz; split; lra | right; right; injz; split; [lra|ring]
                   | right; right; split; [lra|]; change (inject_Z 0) with 0; ring].
Qed.

Lemma levels_idem (P : Q -> Q -> Prop) (f : Q -> Q) :
  (forall v, P v (f v)) -> (forall v y, P v y -> f y == y) -> forall x, Forall2 Qeq (map f (map f x)) (map f x).
Proof.
  intros HP Hf x. induction x as [|v x IH]; cbn; constructor; [|exact IH]. apply (Hf v), HP.
Qed.

(** Re-quantizing the output with the same scale changes nothing. *)
Theorem C13_binary_idempotent : forall s x, 0 < s ->
  let q := fun x => value_of (binary_quant (fun _ => s) (delay_init None) x) in
  let qc := fun x => value_of (clamped_binary_quant (fun _ => s) (delay_init None) x) in
  Forall2 Qeq (q (q x)) (q x) /\ Forall2 Qeq (qc (qc x)) (qc x).
Proof.
  intros s x Hs q qc. subst q qc. unfold binary_quant, clamped_binary_quant, value_of; cbn. split.
  - induction x as [|v x IH]; cbn; constructor; [|exact IH].
    destruct (binary_sign_cases v) as [[H E]|[H E]];
      destruct (binary_sign_cases (binary_sign v * s)) as [[H' E']|[H' E']]; rewrite E in H'; rewrite E', E; lra.
  - rewrite !map_map.
    induction x as [|v x IH]; cbn; constructor; [|exact IH].
    set (u := binary_sign (tensor_clamp v (- s) s) * s).
    assert (U : u == s \/ u == - s).
    { unfold u. destruct (binary_sign_cases (tensor_clamp v (- s) s)) as [[_ E]|[_ E]]; [left|right]; rewrite E; ring. }
    clearbody u.
    assert (K : tensor_clamp u (- s) s == u).
    { rewrite clamp_inside by lra. reflexivity. }
    destruct (binary_sign_cases (tensor_clamp u (- s) s)) as [[H E]|[H E]]; rewrite E; lra.
Qed.

Theorem C13_ternary_idempotent : forall s t x, 0 < s -> 0 <= t < 1 ->
  let q := fun x => value_of (ternary_quant (fun _ => s) t (delay_init None) x) in
  Forall2 Qeq (q (q x)) (q x).
Proof.
  intros s t x Hs [Ht Ht1] q. subst q. cbv beta.
  pose proof (C13_ternary (fun _ => s) t x Hs Ht) as L.
  set (y := value_of (ternary_quant (fun _ => s) t (delay_init None) x)) in *. clearbody y.
  pose proof (C13_ternary (fun _ => s) t y Hs Ht) as L'.
  set (z := value_of (ternary_quant (fun _ => s) t (delay_init None) y)) in *. clearbody z.
  assert (Hts : 0 <= t * s) by nra. assert (Hts1 : t * s < s) by nra.
  revert z L'. induction L as [|v u x y Hvu _ IH]; intros z L'; inversion L' as [|a b c d Hab Hcd]; subst; constructor.
  - unfold ternary_level in *. lra.
  - apply IH, Hcd.
Qed.

(** At threshold 1 idempotence fails: the level +s is itself not above the threshold. *)
Theorem C13_ternary_threshold_one_refuted :
  exists s x, 0 < s /\
  let q := fun x => value_of (ternary_quant (fun _ => s) 1 (delay_init None) x) in
  ~ Forall2 Qeq (q (q x)) (q x).
Proof.
  exists 1, [2]. split; [reflexivity|]. cbv zeta beta. intros H. inversion H as [|a b c d E _]; subst.
  vm_compute in E. discriminate E.
Qed.

Example C13_nontrivial :
  Forall2 Qeq (value_of (binary_quant (fun _ => 1 # 2) NoDelay [3; - (1 # 4); 0])) [1 # 2; - 1 # 2; 1 # 2]
  /\ Forall2 Qeq (value_of (ternary_quant (fun _ => 1) (1 # 2) NoDelay [3; - (1 # 4); - (3 # 4)])) [1; 0; - 1 # 1].
Proof. split; repeat constructor; reflexivity. Qed.

(** ** C14 *)

(** After construction, training may move the offset to any value; the module still reports
    an integer not below the configured minimum. *)
Theorem C14_learned_bit_width_at_least_min : forall m bw mn off0 base offset,
  bit_width_parameter_init bw mn = Some (off0, base) ->
  exists b, bit_width_parameter_forward m (offset, base) = inject_Z b /\ (mn <= b)%Z /\ (2 <= b)%Z.
Proof.
  intros m bw mn off0 base off H. unfold bit_width_parameter_init, min_int_bit_width in H.
  destruct (bw <? 2)%Z eqn:E1; [discriminate|]. destruct (mn <? 2)%Z eqn:E2; [discriminate|].
  destruct (bw <? mn)%Z; [discriminate|]. injection H as _ <-.
  apply Z.ltb_ge in E2. unfold bit_width_parameter_forward, float_to_int.
  eexists. split; [reflexivity|].
  assert (G : (mn <= float_to_intZ m (Qabs off + inject_Z mn))%Z); [|lia].
  apply rounding_ge_int; [apply mode_rounding|]. pose proof (Qabs_nonneg off). lra.
Qed.

Theorem C14_initial_bit_width : forall m bw mn st,
  bit_width_parameter_init bw mn = Some st -> bit_width_parameter_forward m st = inject_Z bw.
Proof.
  intros m bw mn st H. unfold bit_width_parameter_init in H.
  destruct (bw <? min_int_bit_width)%Z; [discriminate|]. destruct (mn <? min_int_bit_width)%Z; [discriminate|].
  destruct (bw <? mn)%Z eqn:E; [discriminate|]. injection H as <-. apply Z.ltb_ge, injz_le in E.
  unfold bit_width_parameter_forward, float_to_int. f_equal.
  rewrite <- (rnd_int _ (mode_rounding m) bw) at 2. apply (rnd_eq _ (mode_rounding m)).
  rewrite Qabs_pos by lra. ring.
Qed.

(** Construction fails exactly on inadmissible widths. *)
Theorem C14_init_errors : forall bw mn,
  bit_width_parameter_init bw mn = None <-> (bw < mn \/ mn < 2)%Z.
Proof.
  intros bw mn. unfold bit_width_parameter_init, min_int_bit_width.
  destruct (bw <? 2)%Z eqn:E1; destruct (mn <? 2)%Z eqn:E2; destruct (bw <? mn)%Z eqn:E3;
    rewrite ?Z.ltb_lt, ?Z.ltb_ge in *; split; intros; try discriminate; try reflexivity; lia.
Qed.

(** Loading a checkpoint with a constant bit width restores that width if it is at least the
    minimum; below the minimum it is silently reflected to 2*min - stored. *)
Theorem C14_load_constant : forall m bw mn st stored,
  bit_width_parameter_init bw mn = Some st ->
  bit_width_parameter_forward m (bit_width_parameter_load_const st (inject_Z stored))
  = inject_Z (if (mn <=? stored)%Z then stored else 2 * mn - stored).
Proof.
  intros m bw mn st k H. unfold bit_width_parameter_init in H.
  destruct (bw <? min_int_bit_width)%Z; [discriminate|]. destruct (mn <? min_int_bit_width)%Z; [discriminate|].
  destruct (bw <? mn)%Z eqn:E; [discriminate|]. injection H as <-.
  unfold bit_width_parameter_forward, bit_width_parameter_load_const, float_to_int. f_equal.
  destruct (mn <=? k)%Z eqn:L.
  - apply Z.leb_le, injz_le in L. rewrite <- (rnd_int _ (mode_rounding m) k) at 2.
    apply (rnd_eq _ (mode_rounding m)). rewrite Qabs_pos by lra. ring.
  - apply Z.leb_gt, injz_lt in L. rewrite <- (rnd_int _ (mode_rounding m) (2 * mn - k)).
    apply (rnd_eq _ (mode_rounding m)). rewrite Qabs_neg by lra. rewrite inject_Z_minus, inject_Z_mult.
    change (inject_Z 2) with 2. ring.
Qed.

(** Bit-width removal: whatever the learned coefficient, the resulting width stays between
    the configured bounds. *)
Theorem C14_removal_within_bounds : forall eps coeff lo hi b,
  0 < eps -> (lo <= hi)%Z ->
  inject_Z lo <= msb_clamp_bit_width (remove_bit_width_forward eps coeff) lo hi b <= inject_Z hi
  /\ 0 < remove_bit_width_forward eps coeff.
Proof.
  intros eps c lo hi b He Hl. split.
  - apply clamp_range, injz_le, Hl.
  - apply Qdiv_pos; [reflexivity|]. pose proof (Qabs_nonneg c). lra.
Qed.

(** Finding: removal is not monotone — removing more bits than available *increases* the
    resulting width again (absolute value instead of a clamp at zero). *)
Theorem C14_removal_monotone_refuted :
  exists r1 r2 lo hi b, r1 < r2 /\ msb_clamp_bit_width r1 lo hi b < msb_clamp_bit_width r2 lo hi b.
Proof. exists 4, 14, 2%Z, 32%Z, 8. split; reflexivity. Qed.

Example C14_nontrivial :
  exists st, bit_width_parameter_init 8 4 = Some st
    /\ bit_width_parameter_forward Round (- 5 # 2, snd st) == 6
    /\ bit_width_parameter_forward Round (bit_width_parameter_load_const st 2) == 6.
Proof. eexists. split; [reflexivity|]. split; reflexivity. Qed.

(** ** C27 *)

(** A quantizer behind a delay: the quantized value is computed on every call and the
    wrapper chooses what is returned. *)
Definition delayed {A} (q : A -> A) (d : delay) (x : A) : A * delay := delay_forward d x (q x).

Definition delay_counter (d : delay) : Z := match d with NoDelay => 0 | DelaySteps n => n end.

Lemma run_delayed {A} (q : A -> A) : forall xs d, (0 <= delay_counter d)%Z ->
  let '(ys, d') := run_calls (delayed q) d xs in
  ys = map (fun p => if (Z.of_nat (fst p) <? delay_counter d)%Z then snd p else q (snd p))
           (combine (seq 0 (length xs)) xs)
  /\ (delay_counter d' = Z.max 0 (delay_counter d - Z.of_nat (length xs)))%Z.
Proof.
  induction xs as [|x xs IH]; intros d Hd; cbn [run_calls].
  - split; [reflexivity|]. cbn. lia.
  - unfold delayed at 1, delay_forward. destruct d as [|n].
    + specialize (IH NoDelay ltac:(cbn; lia)).
      destruct (run_calls (delayed q) NoDelay xs) as [ys d']. destruct IH as [-> E]. split.
      * cbn [length seq combine map fst snd delay_counter]. f_equal.
        assert (G : forall l k, map (fun p : nat * A => if (Z.of_nat (fst p) <? 0)%Z then snd p else q (snd p)) (combine (seq k (length l)) l) = map q l).
        { induction l as [|a l IHl]; intros k; cbn; [reflexivity|]. rewrite IHl.
          destruct (Z.of_nat k <? 0)%Z eqn:F; [apply Z.ltb_lt in F; lia|reflexivity]. }
        rewrite !G. reflexivity.
      * rewrite E. cbn [delay_counter length]. lia.
    + cbn [delay_counter] in Hd. destruct (0 <? n)%Z eqn:P.
      * apply Z.ltb_lt in P. specialize (IH (DelaySteps (n - 1)) ltac:(cbn; lia)).
        destruct (run_calls (delayed q) (DelaySteps (n - 1)) xs) as [ys d']. destruct IH as [-> E]. split.
        -- cbn [length seq combine map fst snd delay_counter]. f_equal.
           { destruct (Z.of_nat 0 <? n)%Z eqn:F; [reflexivity|]. apply Z.ltb_ge in F; lia. }
           assert (G : forall l k,
             map (fun p : nat * A => if (Z.of_nat (fst p) <? n - 1)%Z then snd p else q (snd p)) (combine (seq k (length l)) l)
             = map (fun p : nat * A => if (Z.of_nat (fst p) <? n)%Z then snd p else q (snd p)) (combine (seq (S k) (length l)) l)).
           { induction l as [|a l IHl]; intros k; cbn [length seq combine map fst snd]; [reflexivity|]. rewrite IHl.
             f_equal. destruct (Z.of_nat k <? n - 1)%Z eqn:F1, (Z.of_nat (S k) <? n)%Z eqn:F2;
               rewrite ?Z.ltb_lt, ?Z.ltb_ge in *; try reflexivity; lia. }
           apply G.
        -- rewrite E. cbn [delay_counter length]. lia.
      * apply Z.ltb_ge in P. assert (n = 0)%Z by lia. subst n.
        specialize (IH (DelaySteps 0) ltac:(cbn; lia)).
        destruct (run_calls (delayed q) (DelaySteps 0) xs) as [ys d']. destruct IH as [-> E]. split.
        -- cbn [length seq combine map fst snd delay_counter]. f_equal.
           assert (G : forall l k j,
             map (fun p : nat * A => if (Z.of_nat (fst p) <? 0)%Z then snd p else q (snd p)) (combine (seq k (length l)) l)
             = map (fun p : nat * A => if (Z.of_nat (fst p) <? 0)%Z then snd p else q (snd p)) (combine (seq j (length l)) l)).
           { induction l as [|a l IHl]; intros k j; cbn [length seq combine map fst snd]; [reflexivity|].
             rewrite (IHl (S k) (S j)). f_equal.
             destruct (Z.of_nat k <? 0)%Z eqn:F1, (Z.of_nat j <? 0)%Z eqn:F2;
               rewrite ?Z.ltb_lt, ?Z.ltb_ge in *; try reflexivity; lia. }
           apply G.
        -- rewrite E. cbn [delay_counter length]. lia.
Qed.

Lemma nth_error_combine_seq {A} (l : list A) : forall k i,
  nth_error (combine (seq k (length l)) l) i
  = match nth_error l i with Some a => Some ((k + i)%nat, a) | None => None end.
Proof.
  induction l as [|a l IH]; intros k i; destruct i; cbn; try reflexivity.
  - rewrite Nat.add_0_r. reflexivity.
  - rewrite IH. destruct (nth_error l i); [|reflexivity]. do 2 f_equal. lia.
Qed.

(** For every history of calls, call number i (counted from 0) returns its input unchanged
    while i < N and the quantized value from then on; the counter ends at max(0, N - calls). *)
Theorem C27_delay_exactly_N_calls : forall {A} (q : A -> A) (steps : option Z) (xs : list A) ys d',
  run_calls (delayed q) (delay_init steps) xs = (ys, d') ->
  let N := match steps with Some n => n | None => 0%Z end in
  length ys = length xs
  /\ (forall i x y, nth_error xs i = Some x -> nth_error ys i = Some y ->
        ((Z.of_nat i < N)%Z -> y = x) /\ ((N <= Z.of_nat i)%Z -> y = q x))
  /\ delay_counter d' = Z.max 0 (Z.max 0 N - Z.of_nat (length xs)).
Proof.
  intros A q steps xs ys d' H N.
  assert (C : delay_counter (delay_init steps) = Z.max 0 N).
  { subst N. destruct steps as [n|]; cbn [delay_init]; [|cbn; lia].
    destruct (n <=? 0)%Z eqn:E; cbn [delay_counter]; [apply Z.leb_le in E|apply Z.leb_gt in E]; lia. }
  pose proof (run_delayed q xs (delay_init steps) ltac:(lia)) as R. rewrite H in R. destruct R as [-> E].
  split; [|split].
  - rewrite map_length, combine_length, seq_length. apply Nat.min_id.
  - intros i x y Hx Hy. rewrite nth_error_map, nth_error_combine_seq, Hx in Hy. cbn in Hy.
    injection Hy as <-. rewrite C. split; intros L.
    + destruct (Z.of_nat i <? Z.max 0 N)%Z eqn:F; [reflexivity|]. apply Z.ltb_ge in F. lia.
    + destruct (Z.of_nat i <? Z.max 0 N)%Z eqn:F; [|reflexivity]. apply Z.ltb_lt in F. lia.
  - rewrite E, C. reflexivity.
Qed.

(** The same for the binary quantizer as used by the library (value component). *)
Theorem C27_binary_quant_delay : forall scaling steps xs outs d',
  run_calls (binary_quant scaling) (delay_init steps) xs = (outs, d') ->
  forall i x o, nth_error xs i = Some x -> nth_error outs i = Some o ->
    let N := match steps with Some n => n | None => 0%Z end in
    ((Z.of_nat i < N)%Z -> fst (fst (fst o)) = x)
    /\ ((N <= Z.of_nat i)%Z -> Forall2 (binary_level (scaling x)) x (fst (fst (fst o)))).
Proof.
  intros f steps xs outs d' H.
  set (q := fun x => map (fun v => binary_sign v * f x) x).
  assert (R : forall xs d, run_calls (delayed q) d xs
     = (map (fun o => fst (fst (fst o))) (fst (run_calls (binary_quant f) d xs)), snd (run_calls (binary_quant f) d xs))).
  { induction xs0 as [|x0 xs0 IH]; intros d; cbn [run_calls]; [reflexivity|].
    unfold binary_quant at 1 3, delayed at 1. fold (q x0).
    destruct (delay_forward d x0 (q x0)) as [y d1] eqn:E. rewrite IH.
    assert (E' : delay_forward d x0 (map (fun v => binary_sign v * f x0) x0) = (y, d1)) by exact E.
    rewrite ?E'. destruct (run_calls (binary_quant f) d1 xs0) as [os d2]. reflexivity. }
  specialize (R xs (delay_init steps)). rewrite H in R. cbn [fst snd] in R.
  pose proof (C27_delay_exactly_N_calls q steps xs _ _ R) as (_ & P & _).
  intros i x o Hx Ho N.
  assert (Ho' : nth_error (map (fun o => fst (fst (fst o))) outs) i = Some (fst (fst (fst o)))).
  { exact (map_nth_error (fun o : quant_out => fst (fst (fst o))) i outs Ho). }
  destruct (P i x _ Hx Ho') as [P1 P2]. split; [exact P1|]. intros L. rewrite (P2 L).
  exact (proj1 (C13_binary f x)).
Qed.

(** Finding: calls made in evaluation mode consume the delay as well (the training flag is
    not consulted).  Tagging calls with a training flag, some call that is among the first N
    training-mode calls is quantized. *)
Theorem C27_training_only_refuted :
  exists (calls : list (bool * Q)) (N : Z) ys d' i x,
    run_calls (delayed (fun _ => 7)) (delay_init (Some N)) (map snd calls) = (ys, d')
    /\ nth_error calls i = Some (true, x)
    /\ (Z.of_nat (length (filter fst (firstn i calls))) < N)%Z
    /\ nth_error ys i <> Some x.
Proof.
  exists [(false, 1); (true, 2)], 1%Z. eexists _, _, 1%nat, 2.
  split; [reflexivity|]. split; [reflexivity|]. split; [reflexivity|]. cbn. discriminate.
Qed.

Example C27_nontrivial :
  fst (run_calls (delayed (fun x : Z => (x * 10)%Z)) (delay_init (Some 2%Z)) [1; 2; 3; 4]%Z) = [1; 2; 30; 40]%Z.
Proof. reflexivity. Qed.

Print Assumptions C13_binary.
Print Assumptions C13_clamped_binary_same_levels.
Print Assumptions C13_ternary.
Print Assumptions C13_binary_idempotent.
Print Assumptions C13_ternary_idempotent.
Print Assumptions C13_ternary_threshold_one_refuted.
Print Assumptions C14_learned_bit_width_at_least_min.
Print Assumptions C14_initial_bit_width.
Print Assumptions C14_init_errors.
Print Assumptions C14_load_constant.
Print Assumptions C14_removal_within_bounds.
Print Assumptions C14_removal_monotone_refuted.
Print Assumptions C27_delay_exactly_N_calls.
Print Assumptions C27_binary_quant_delay.
Print Assumptions C27_training_only_refuted.
