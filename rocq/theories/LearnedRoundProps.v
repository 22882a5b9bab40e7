(** C52 (learned and stochastic rounding), C75 (learned rounding starts from the float weight). *)
From Coq Require Import ZArith Reals Lra Lia Bool.
From Coquelicot Require Import Coquelicot.
From Verif Require Import Ste LearnedRound.
Local Open Scope R_scope.

Lemma floor_bounds x : floorR x <= x < floorR x + 1.
Proof. unfold floorR. destruct (base_Int_part x). lra. Qed.

Lemma sigmoid_bounds x : 0 < sigmoid x < 1.
Proof.
  unfold sigmoid. assert (P := exp_pos (- x)). split; [apply Rinv_0_lt_compat; lra|].
  rewrite <- Rinv_1 at 2. apply Rinv_lt_contravar; lra.
Qed.

Lemma sigmoid_half x : 0 < x <-> 1/2 < sigmoid x.
Proof.
  unfold sigmoid. assert (P := exp_pos (- x)). split; intros H.
  - assert (exp (- x) < 1) by (rewrite <- exp_0; apply exp_increasing; lra).
    replace (1/2) with (/ 2) by field. apply Rinv_lt_contravar; lra.
  - destruct (Rlt_dec 0 x) as [|N]; [assumption|]. exfalso.
    assert (1 <= exp (- x)).
    { rewrite <- exp_0. destruct (Req_dec x 0) as [->|]; [rewrite Ropp_0; lra|].
      left. apply exp_increasing. lra. }
    assert (/ (1 + exp (- x)) <= / 2) by (apply Rinv_le_contravar; lra). lra.
Qed.

Lemma clamp01_bounds p : 0 <= torch_clamp p 0 1 <= 1.
Proof.
  unfold torch_clamp. split; [|apply Rmin_r].
  apply Rmin_glb; [apply Rmax_r|lra].
Qed.

(** In training mode the result is a soft value between the two neighbouring integers, for any
    parameter, stretch or temperature... *)
Theorem C52_learned_round_training_hard zeta gamma v x :
  floorR x <= learned_round (hard_sigmoid zeta gamma) true v x <= floorR x + 1.
Proof.
  unfold learned_round, p_forward, hard_sigmoid.
  assert (B := clamp01_bounds (sigmoid v * (zeta - gamma) + gamma)). lra.
Qed.

Theorem C52_learned_round_training_sigmoid t v x :
  floorR x < learned_round (temp_sigmoid t) true v x < floorR x + 1.
Proof.
  unfold learned_round, p_forward, temp_sigmoid. assert (B := sigmoid_bounds (v / t)). lra.
Qed.

(** ... and in evaluation mode it is exactly one of them. *)
Theorem C52_learned_round_eval impl v x :
  exists k : Z, learned_round impl false v x = IZR k /\ Rabs (IZR k - x) <= 1 /\
    (IZR k = floorR x \/ IZR k = floorR x + 1).
Proof.
  assert (B := floor_bounds x). unfold learned_round, p_forward, floorR in *.
  destruct (Rlt_dec 0 v).
  - exists (Int_part x + 1)%Z. rewrite plus_IZR. split; [reflexivity|]. split; [|tauto].
    rewrite Rabs_right; lra.
  - exists (Int_part x). split; [ring|]. split; [|tauto]. rewrite Rabs_left1; lra.
Qed.

Lemma hard_sigmoid_half zeta gamma v :
  gamma < zeta -> zeta + gamma = 1 -> (0 < v <-> 1/2 < hard_sigmoid zeta gamma v).
Proof.
  intros Hg Hs. rewrite sigmoid_half. unfold hard_sigmoid, torch_clamp.
  set (p := sigmoid v * (zeta - gamma) + gamma).
  assert (Hp : p - 1/2 = (sigmoid v - 1/2) * (zeta - gamma)).
  { unfold p. replace gamma with (1 - zeta) by lra. field. }
  split; intros H.
  - assert (0 < (sigmoid v - 1/2) * (zeta - gamma)) by (apply Rmult_lt_0_compat; lra).
    apply Rmin_glb_lt; [|lra]. apply Rlt_le_trans with p; [lra|apply Rmax_l].
  - destruct (Rlt_dec (1/2) (sigmoid v)); [assumption|]. exfalso.
    assert (0 <= (1/2 - sigmoid v) * (zeta - gamma)) by (apply Rmult_le_pos; lra).
    assert (Rmax p 0 <= 1/2) by (apply Rmax_lub; lra).
    assert (Rmin (Rmax p 0) 1 <= Rmax p 0) by apply Rmin_l. lra.
Qed.

(** Evaluation rounds the soft value of training to the nearer of the two integers (ties down),
    for the default stretch and for every positive temperature. *)
Theorem C52_eval_follows_training_hard zeta gamma v x :
  gamma < zeta -> zeta + gamma = 1 ->
  learned_round (hard_sigmoid zeta gamma) false v x =
  if Rlt_dec (floorR x + 1/2) (learned_round (hard_sigmoid zeta gamma) true v x)
  then floorR x + 1 else floorR x.
Proof.
  intros Hg Hs. assert (E := hard_sigmoid_half zeta gamma v Hg Hs).
  unfold learned_round, p_forward.
  destruct (Rlt_dec 0 v) as [H|H]; destruct (Rlt_dec _ _) as [K|K]; try ring.
  - exfalso. apply K. apply E in H. lra.
  - exfalso. apply H. apply E. lra.
Qed.

Theorem C52_eval_follows_training_sigmoid t v x :
  0 < t ->
  learned_round (temp_sigmoid t) false v x =
  if Rlt_dec (floorR x + 1/2) (learned_round (temp_sigmoid t) true v x)
  then floorR x + 1 else floorR x.
Proof.
  intros Ht. assert (E := sigmoid_half (v / t)).
  assert (V : 0 < v <-> 0 < v / t).
  { split; intros H; [apply Rdiv_lt_0_compat; assumption|].
    replace v with (v / t * t) by (field; lra). apply Rmult_lt_0_compat; assumption. }
  unfold learned_round, p_forward, temp_sigmoid.
  destruct (Rlt_dec 0 v) as [H|H]; destruct (Rlt_dec _ _) as [K|K]; try ring.
  - exfalso. apply K. assert (1/2 < sigmoid (v / t)) by (apply E, V, H). lra.
  - exfalso. apply H. apply V, E. lra.
Qed.

(** The constructor only rejects temperature zero: with a negative one, training leans one way
    and evaluation rounds the other way. *)
Theorem C52_negative_temperature_refuted :
  exists t v x, t <> 0 /\ learned_round (temp_sigmoid t) false v x = floorR x + 1 /\
    learned_round (temp_sigmoid t) true v x < floorR x + 1/2.
Proof.
  exists (-1), 1, 0. split; [lra|]. unfold learned_round, p_forward, temp_sigmoid.
  split; [destruct (Rlt_dec 0 1); [ring|lra]|].
  assert (E := sigmoid_half (1 / -1)).
  destruct (Rlt_dec (1/2) (sigmoid (1 / -1))) as [H|H].
  - apply E in H. exfalso. replace (1 / -1) with (-1) in H by field. lra.
  - destruct (Req_dec (sigmoid (1 / -1)) (1/2)) as [H2|H2]; [|lra]. exfalso.
    unfold sigmoid in H2. replace (- (1 / -1)) with 1 in H2 by field.
    assert (1 < exp 1) by (rewrite <- exp_0 at 1; apply exp_increasing; lra).
    assert (H3 : / (1 + exp 1) < / 2) by (apply Rinv_lt_contravar; lra). lra.
Qed.

(** An integer input need not stay where it is: with a positive parameter evaluation moves it up
    by a whole step. *)
Theorem C52_integer_moves_refuted :
  exists impl v, learned_round impl false v 3 = 4.
Proof.
  exists (hard_sigmoid (11/10) (-1/10)), 1. unfold learned_round, p_forward, floorR.
  destruct (Rlt_dec 0 1); [|lra]. replace (Int_part 3) with 3%Z; [ring|].
  symmetry. destruct (base_Int_part 3) as [A B].
  assert ((Int_part 3 < 4)%Z) by (apply lt_IZR; lra).
  assert ((2 < Int_part 3)%Z) by (apply lt_IZR; lra). lia.
Qed.

(** ** Initialisation *)

(** With the documented initialisation the soft-rounded weight is the float weight itself, for
    every weight, scale and stretch around the unit interval. *)
Theorem C75_initial_soft_weight zeta gamma w s :
  s <> 0 -> gamma < 0 -> 1 < zeta ->
  learned_round (hard_sigmoid zeta gamma) true (learned_round_init zeta gamma w s) (w / s) * s = w.
Proof.
  intros Hs Hg Hz. assert (B := floor_bounds (w / s)).
  set (d := w / s - floorR (w / s)). assert (Hd : 0 <= d < 1) by (unfold d; lra).
  assert (P : 0 < (zeta - gamma) / (d - gamma) - 1).
  { replace ((zeta - gamma) / (d - gamma) - 1) with ((zeta - d) / (d - gamma)) by (field; lra).
    apply Rdiv_lt_0_compat; lra. }
  assert (E : hard_sigmoid zeta gamma (learned_round_init zeta gamma w s) = d).
  { unfold hard_sigmoid, learned_round_init, sigmoid. cbv zeta. fold d.
    rewrite Ropp_involutive, exp_ln by exact P.
    replace (/ (1 + ((zeta - gamma) / (d - gamma) - 1)) * (zeta - gamma) + gamma) with d
      by (field; lra).
    unfold torch_clamp. rewrite Rmax_left, Rmin_left by lra. reflexivity. }
  unfold learned_round, p_forward. rewrite E. unfold d. field. assumption.
Qed.

(** Evaluated right away, the weight is rounded to the nearest integer (ties down). *)
Theorem C75_initial_hard_weight zeta gamma w s :
  s <> 0 -> gamma < 0 -> 1 < zeta -> zeta + gamma = 1 ->
  learned_round (hard_sigmoid zeta gamma) false (learned_round_init zeta gamma w s) (w / s) =
  (if Rlt_dec (floorR (w / s) + 1/2) (w / s) then floorR (w / s) + 1 else floorR (w / s)).
Proof.
  intros Hs Hg Hz H1. rewrite C52_eval_follows_training_hard by lra.
  assert (E := C75_initial_soft_weight zeta gamma w s Hs Hg Hz).
  assert (E' : learned_round (hard_sigmoid zeta gamma) true (learned_round_init zeta gamma w s) (w / s) = w / s).
  { apply Rmult_eq_reg_r with s; [|assumption]. rewrite E. field. assumption. }
  rewrite E'. reflexivity.
Qed.

(** ** Stochastic rounding *)

(** Every draw gives the integer below or above, and integers never move. *)
Theorem C52_stochastic_neighbours u x :
  0 <= u < 1 ->
  (stochastic_round u x = floorR x \/ stochastic_round u x = floorR x + 1) /\
  Rabs (stochastic_round u x - x) < 1 /\
  (x = floorR x -> stochastic_round u x = x).
Proof.
  intros Hu. assert (B := floor_bounds x). unfold stochastic_round, bernoulli.
  rewrite Rabs_right by lra. destruct (Rlt_dec u (x - floorR x)) as [H|H].
  - split; [tauto|]. split; [rewrite Rabs_right; lra|]. intros E. lra.
  - split; [tauto|]. split; [rewrite Rabs_left1; lra|]. intros E. lra.
Qed.

(** The expected result (over a uniform draw) is the input: stochastic rounding is unbiased. *)
Theorem C52_stochastic_unbiased x :
  is_RInt (fun u => stochastic_round u x) 0 1 x.
Proof.
  assert (B := floor_bounds x). set (f := floorR x) in *. set (d := x - f).
  assert (Hd : 0 <= d < 1) by (unfold d; lra).
  assert (I1 : is_RInt (fun u => stochastic_round u x) 0 d ((d - 0) * (f + 1))).
  { apply (is_RInt_ext (fun _ => f + 1)).
    - intros u Hu. rewrite Rmin_left, Rmax_right in Hu by lra. unfold stochastic_round, bernoulli.
      fold f. rewrite Rabs_right by lra. destruct (Rlt_dec u (x - f)) as [|H]; [reflexivity|].
      unfold d in Hu. lra.
    - evar_last; [apply @is_RInt_const|]. unfold scal. cbn. unfold mult. cbn. ring. }
  assert (I2 : is_RInt (fun u => stochastic_round u x) d 1 ((1 - d) * f)).
  { apply (is_RInt_ext (fun _ => f)).
    - intros u Hu. rewrite Rmin_left, Rmax_right in Hu by lra. unfold stochastic_round, bernoulli.
      fold f. rewrite Rabs_right by lra. destruct (Rlt_dec u (x - f)) as [H|]; [|reflexivity].
      unfold d in Hu. lra.
    - evar_last; [apply @is_RInt_const|]. unfold scal. cbn. unfold mult. cbn. ring. }
  evar_last; [apply (is_RInt_Chasles _ _ _ _ _ _ I1 I2)|].
  unfold plus. cbn. unfold d. match goal with |- ?l = ?r => change (l = r :> R) end. ring.
Qed.

(** The module rounds stochastically in training, and in evaluation unless deterministic inference was
    asked for. *)
Theorem C52_module_stochastic deterministic_inference training x :
  deterministic_inference = false \/ training = true ->
  is_RInt (fun u => stochastic_round_ste deterministic_inference training u x) 0 1 x /\
  forall u, 0 <= u < 1 -> stochastic_round_ste deterministic_inference training u x = floorR x
                       \/ stochastic_round_ste deterministic_inference training u x = floorR x + 1.
Proof.
  intros H. assert (E : forall u, stochastic_round_ste deterministic_inference training u x = stochastic_round u x).
  { intros u. unfold stochastic_round_ste. destruct H as [-> | ->]; [reflexivity|]. rewrite Bool.andb_false_r. reflexivity. }
  split.
  - apply (is_RInt_ext (fun u => stochastic_round u x)); [intros u _; symmetry; apply E|apply C52_stochastic_unbiased].
  - intros u Hu. rewrite E. apply C52_stochastic_neighbours, Hu.
Qed.

(** Deterministic inference ignores the draw and rounds to a nearest integer, one of the two
    training could have drawn. *)
Theorem C52_deterministic_inference u x :
  exists k : Z, stochastic_round_ste true false u x = IZR k /\ Rabs (IZR k - x) <= 1/2 /\
    (IZR k = floorR x \/ (IZR k = floorR x + 1 /\ x <> floorR x)).
Proof.
  assert (B := floor_bounds x). unfold stochastic_round_ste. cbn [andb negb].
  unfold roundR, floorR in *. set (f := Int_part x) in *. clearbody f.
  assert (Hdn : x - IZR f <= 1/2 -> exists k : Z, IZR f = IZR k /\ Rabs (IZR k - x) <= 1/2 /\
    (IZR k = IZR f \/ (IZR k = IZR f + 1 /\ x <> IZR f))).
  { intros H. exists f. split; [reflexivity|]. split; [apply Rabs_le; lra|tauto]. }
  assert (Hup : 1/2 <= x - IZR f -> exists k : Z, IZR (f + 1) = IZR k /\ Rabs (IZR k - x) <= 1/2 /\
    (IZR k = IZR f \/ (IZR k = IZR f + 1 /\ x <> IZR f))).
  { intros H. exists (f + 1)%Z. split; [reflexivity|]. rewrite plus_IZR. split; [apply Rabs_le; lra|].
    right. split; lra. }
  cbv zeta. destruct (Rlt_dec (x - IZR f) (1/2)); [apply Hdn; lra|].
  destruct (Rlt_dec (1/2) (x - IZR f)); [apply Hup; lra|].
  destruct (Z.even f); [apply Hdn; lra|apply Hup; lra].
Qed.

(** A draw equal to the fractional part rounds down. *)
Example C52_stochastic_example :
  stochastic_round (1/5) (5/4) = 2 /\ stochastic_round (1/4) (5/4) = 1 /\ stochastic_round 0 3 = 3.
Proof.
  assert (F : floorR (5/4) = 1).
  { unfold floorR. replace (Int_part (5/4)) with 1%Z; [reflexivity|].
    destruct (base_Int_part (5/4)) as [A B].
    assert ((Int_part (5/4) < 2)%Z) by (apply lt_IZR; lra).
    assert ((0 < Int_part (5/4))%Z) by (apply lt_IZR; lra). lia. }
  unfold stochastic_round, bernoulli. rewrite F. rewrite Rabs_right by lra.
  destruct (Rlt_dec (1/5) (5/4 - 1)); [|lra]. destruct (Rlt_dec (1/4) (5/4 - 1)); [lra|].
  split; [ring|]. split; [reflexivity|].
  destruct (C52_stochastic_neighbours 0 3) as (_ & _ & E); [lra|].
  unfold stochastic_round, bernoulli in E. apply E.
  unfold floorR. replace (Int_part 3) with 3%Z; [reflexivity|].
  destruct (base_Int_part 3) as [A B].
  assert ((Int_part 3 < 4)%Z) by (apply lt_IZR; lra).
  assert ((2 < Int_part 3)%Z) by (apply lt_IZR; lra). lia.
Qed.

(** The default stretch meets the hypotheses: 0.13 at scale 0.1 starts at exactly 0.13 and
    evaluates to 1 step. *)
Example C75_example :
  learned_round (hard_sigmoid (11/10) (-1/10)) true
    (learned_round_init (11/10) (-1/10) (13/100) (1/10)) (13/100 / (1/10)) * (1/10) = 13/100.
Proof. apply C75_initial_soft_weight; lra. Qed.

Print Assumptions C52_eval_follows_training_hard.
Print Assumptions C52_stochastic_unbiased.
Print Assumptions C52_module_stochastic.
Print Assumptions C75_initial_soft_weight.
