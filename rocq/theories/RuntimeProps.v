(** Properties C24-C26: statistics collection, calibrated parameters, checkpoints. *)
From Coq Require Import Reals ZArith List Bool Lra Lia.
From Verif Require Import Runtime.
Import ListNotations.
Open Scope R_scope.

(** ** Specification of the averages (closed forms) *)
Fixpoint Rsum (l : list R) : R := match l with [] => 0 | x :: l' => x + Rsum l' end.

(** arithmetic mean *)
Definition mean (cs : list R) : R := Rsum cs / INR (length cs).

(** exponential average: the first sample has weight (1-m)^(n-1), sample i>1 weight m(1-m)^(n-i) *)
Fixpoint wsum (m : R) (cs : list R) : R :=
  match cs with [] => 0 | c :: r => m * (1 - m) ^ (length r) * c + wsum m r end.
Definition ema (m : R) (cs : list R) : R :=
  match cs with [] => 0 | c :: r => (1 - m) ^ (length r) * c + wsum m r end.

Definition average (m : option R) (cs : list R) : R :=
  match m with None => mean cs | Some m => ema m cs end.

(** ** Averages are maintained by the update *)
Lemma Rsum_app a b : Rsum (a ++ b) = Rsum a + Rsum b.
Proof. induction a; cbn; lra. Qed.

Lemma wsum_app m a x : wsum m (a ++ [x]) = (1 - m) * wsum m a + m * x.
Proof.
  induction a as [|c a IH]; cbn [wsum app length].
  - cbn. lra.
  - rewrite IH, app_length. cbn [length]. replace (length a + 1)%nat with (S (length a)) by lia. cbn [pow]. lra.
Qed.

Lemma average_one m c : average m [c] = c.
Proof. destruct m; cbn; [lra|]. unfold mean; cbn. lra. Qed.

Lemma average_snoc m cs x : cs <> [] ->
  average m (cs ++ [x]) = momentum_update m (average m cs) x (length cs) (S (length cs)).
Proof.
  intros H. destruct m as [m|]; cbn [average momentum_update].
  - destruct cs as [|c r]; [congruence|]. cbn [app ema]. rewrite wsum_app, app_length. cbn [length].
    replace (length r + 1)%nat with (S (length r)) by lia. cbn [pow]. lra.
  - unfold mean. rewrite Rsum_app, app_length. cbn [length Rsum].
    replace (length cs + 1)%nat with (S (length cs)) by lia. rewrite S_INR.
    assert (0 < INR (length cs)).
    { destruct cs; [congruence|]. apply lt_0_INR. cbn. lia. }
    field. lra.
Qed.

Lemma average_pos m : (match m with Some m => 0 <= m <= 1 | None => True end) ->
  forall l, Forall (fun c => 0 < c) l -> l <> [] -> 0 < average m l.
Proof.
  intros Hm l. pattern l. apply rev_ind; [congruence|]. clear l. intros x l IH F _.
  apply Forall_app in F. destruct F as [F1 F2]. inversion F2 as [|? ? Px _]; subst.
  destruct l as [|c r]; [cbn [app]; rewrite average_one; exact Px|].
  rewrite average_snoc by discriminate. specialize (IH F1 ltac:(discriminate)).
  set (A := average m (c :: r)) in *. clearbody A.
  destruct m as [m|]; cbn [momentum_update].
  - destruct (Req_dec m 0) as [->|]; [lra|]. assert (0 < m * x) by (apply Rmult_lt_0_compat; lra).
    assert (0 <= A * (1 - m)) by (apply Rmult_le_pos; lra). lra.
  - pose proof (lt_0_INR (length (c :: r)) ltac:(cbn; lia)) as I1.
    pose proof (lt_0_INR (S (length (c :: r))) ltac:(lia)) as I2.
    assert (0 < A * (INR (length (c :: r)) / INR (S (length (c :: r))))).
    { apply Rmult_lt_0_compat; [exact IH|]. apply Rdiv_lt_0_compat; assumption. }
    assert (0 < x / INR (S (length (c :: r)))) by (apply Rdiv_lt_0_compat; assumption). lra.
Qed.

(** ** C24 *)
Fixpoint rs_stats (es : list rs_event) : list R :=
  match es with [] => [] | RTrain s :: es' => s :: rs_stats es' | REval :: es' => rs_stats es' end.

(** the statistic stored after a history [hist] of batch statistics *)
Definition rs_ok (m : option R) (st : rstats) (hist : list R) : Prop :=
  rs_counter st = length hist /\ rs_running st = match hist with [] => 1 | _ => average m hist end.

Lemma rs_step_ok m st hist e : rs_ok m st hist ->
  rs_ok m (fst (rs_step m st e)) (hist ++ rs_stats [e]).
Proof.
  intros [C Rn]. destruct e as [s|]; cbn [rs_step fst rs_stats].
  - unfold rs_train. cbn [fst]. split; cbn [rs_counter rs_running].
    + rewrite C, app_length. cbn. lia.
    + destruct hist as [|h hist]; cbn [length] in C; rewrite C.
      * cbn [Nat.eqb app]. rewrite Rn, average_one. lra.
      * cbn [Nat.eqb]. rewrite Rn. change (S (length hist)) with (length (h :: hist)).
        rewrite <- average_snoc by discriminate. reflexivity.
  - cbn. rewrite app_nil_r. split; assumption.
Qed.

Lemma rs_run_ok m : forall es st hist, rs_ok m st hist ->
  rs_ok m (fst (rs_run m st es)) (hist ++ rs_stats es).
Proof.
  induction es as [|e es IH]; intros st hist H; cbn [rs_run].
  - rewrite app_nil_r. exact H.
  - pose proof (rs_step_ok m st hist e H) as H1. destruct (rs_step m st e) as [st1 o]. cbn [fst] in H1.
    specialize (IH st1 _ H1). destruct (rs_run m st1 es) as [st2 os]. cbn [fst] in *.
    rewrite <- app_assoc in IH. replace (rs_stats [e] ++ rs_stats es) with (rs_stats (e :: es)) in IH; [exact IH|].
    destruct e; reflexivity.
Qed.

(** After any interleaving of training and evaluation calls the stored value is the configured
    average of the batch statistics of the training calls, and evaluation returns it. *)
Theorem C24_running_average : forall m es,
  rs_stats es <> [] ->
  rs_eval (fst (rs_run m rs_init es)) = (fst (rs_run m rs_init es), average m (rs_stats es)).
Proof.
  intros m es H. assert (K := rs_run_ok m es rs_init [] (conj eq_refl eq_refl)). cbn [app] in K.
  unfold rs_eval. destruct K as [_ K]. rewrite K. destruct (rs_stats es); [congruence|reflexivity].
Qed.

(** Outputs: training calls use the statistic of their own batch, evaluation calls the average
    of all earlier training batches. *)
Theorem C24_outputs : forall m es1 e es2,
  rs_stats es1 <> [] ->
  nth_error (snd (rs_run m rs_init (es1 ++ e :: es2))) (length es1)
  = Some (match e with RTrain s => s | REval => average m (rs_stats es1) end).
Proof.
  intros m es1 e es2 H.
  assert (G : forall es st hist, rs_ok m st hist -> hist ++ rs_stats es <> [] ->
     nth_error (snd (rs_run m st (es ++ e :: es2))) (length es)
     = Some (match e with RTrain s => s | REval => average m (hist ++ rs_stats es) end)).
  { induction es as [|e0 es IH]; intros st hist K N; cbn [app rs_run length].
    - destruct e as [s|]; cbn [rs_step rs_train rs_eval].
      + destruct (rs_run _ _ es2); reflexivity.
      + destruct (rs_run _ _ es2); cbn. destruct K as [_ K]. rewrite K. cbn in N. rewrite app_nil_r in *.
        destruct hist; [congruence|reflexivity].
    - pose proof (rs_step_ok m st hist e0 K) as K1. destruct (rs_step m st e0) as [st1 o]. cbn [fst] in K1.
      specialize (IH st1 _ K1).
      assert (E : (hist ++ rs_stats [e0]) ++ rs_stats es = hist ++ rs_stats (e0 :: es)).
      { rewrite <- app_assoc. destruct e0; reflexivity. }
      rewrite E in IH. specialize (IH N). destruct (rs_run m st1 (es ++ e :: es2)). exact IH. }
  apply (G es1 rs_init []); [split; reflexivity|exact H].
Qed.

(** The average stays within the range of the batch statistics (momentum in [0,1]). *)
Theorem C24_average_bounded : forall m es lo hi,
  (match m with Some m => 0 <= m <= 1 | None => True end) ->
  rs_stats es <> [] -> Forall (fun s => lo <= s <= hi) (rs_stats es) ->
  lo <= rs_running (fst (rs_run m rs_init es)) <= hi.
Proof.
  intros m es lo hi Hm Hne F.
  assert (K := C24_running_average m es Hne). unfold rs_eval in K. injection K as K. rewrite K. clear K.
  revert Hne F. generalize (rs_stats es). intros l. pattern l. apply rev_ind; [congruence|]. clear l.
  intros x l IH _ F. apply Forall_app in F. destruct F as [F1 F2]. inversion F2 as [|? ? Px _]; subst.
  destruct l as [|c r]; [cbn [app]; rewrite average_one; exact Px|].
  rewrite average_snoc by discriminate. specialize (IH ltac:(discriminate) F1).
  set (A := average m (c :: r)) in *. clearbody A.
  destruct m as [m|]; cbn [momentum_update].
  - nra.
  - pose proof (lt_0_INR (length (c :: r)) ltac:(cbn; lia)) as I1. rewrite S_INR.
    set (n := INR (length (c :: r))) in *. clearbody n.
    assert (E : A * (n / (n + 1)) + x / (n + 1) = (A * n + x) / (n + 1)) by (field; lra).
    rewrite E. split.
    + apply Rmult_le_reg_r with (n + 1); [lra|]. replace ((A * n + x) / (n + 1) * (n + 1)) with (A * n + x) by (field; lra). nra.
    + apply Rmult_le_reg_r with (n + 1); [lra|]. replace ((A * n + x) / (n + 1) * (n + 1)) with (A * n + x) by (field; lra). nra.
Qed.

(** Finding: the counter is not part of the checkpoint.  Resuming training from a checkpoint
    multiplies the restored average by the next statistic: with all batch statistics equal to
    3 the average becomes 9. *)
Theorem C24_resume_refuted : forall m,
  exists es d st, d = rs_save (fst (rs_run m rs_init es))
    /\ st = rs_load rs_init d
    /\ Forall (fun s => s = 3) (rs_stats es) /\ rs_running st = 3
    /\ rs_running (fst (rs_train m st 3)) = 9.
Proof.
  intros m. exists [RTrain 3; RTrain 3], 3, {| rs_counter := 0; rs_running := 3 |}.
  split; [|split; [reflexivity|split; [repeat constructor|split; [reflexivity|cbn; lra]]]].
  destruct m as [m|]; cbn; lra.
Qed.

Example C24_nontrivial :
  rs_running (fst (rs_run (Some (1/10)) rs_init [RTrain 2; REval; RTrain 4; RTrain 3])) = 1.8*0.9+0.4*0.9+0.3
  /\ rs_running (fst (rs_run None rs_init [RTrain 2; REval; RTrain 4; RTrain 3])) = 3.
Proof. split; cbn; lra. Qed.

(** ** C25 *)
(** Clamped statistics of the (ordinary) training calls. *)
Fixpoint p_stats (c : pcfg) (es : list pevent) : list R :=
  match es with
  | [] => []
  | PTrain s _ :: es' => clamp_value (p_min c) s :: p_stats c es'
  | _ :: es' => p_stats c es'
  end.
Definition is_opt (e : pevent) : bool := match e with POpt _ => true | _ => false end.
Definition is_local (e : pevent) : bool := match e with PLocal _ _ => true | _ => false end.
Definition no_opt (es : list pevent) : Prop := Forall (fun e => is_opt e = false) es.
Definition no_local (es : list pevent) : Prop := Forall (fun e => is_local e = false) es.

Definition ps_collecting (c : pcfg) (st : pstate) (hist : list R) : Prop :=
  ps_counter st = length hist /\ ps_buffer st = match hist with [] => 1 | _ => average (p_momentum c) hist end.

Lemma ps_step_collecting c st hist e : ps_collecting c st hist ->
  (length (hist ++ p_stats c [e]) < p_steps c \/
   (length (hist ++ p_stats c [e]) <= p_steps c /\ is_local e = false))%nat ->
  ps_collecting c (fst (ps_step c st e)) (hist ++ p_stats c [e])
  /\ (is_opt e = false -> ps_value (fst (ps_step c st e)) = ps_value st).
Proof.
  intros [C B] L. destruct e as [s t|s t|t|v]; cbn [ps_step p_stats].
  - rewrite app_length in L. cbn [length p_stats] in L. unfold ps_train. rewrite (proj2 (Nat.ltb_lt _ _)) by lia. cbn [fst].
    split; [|reflexivity]. split; cbn [ps_counter ps_buffer].
    + rewrite C, app_length. cbn. lia.
    + destruct hist as [|h hist]; cbn [length] in C; rewrite C.
      * cbn [Nat.eqb app]. rewrite B, average_one. lra.
      * cbn [Nat.eqb]. rewrite B. change (S (length hist)) with (length (h :: hist)).
        rewrite <- average_snoc by discriminate. reflexivity.
  - cbn [p_stats] in *. rewrite app_nil_r in *. unfold ps_train.
    destruct L as [L|[_ L]]; [|discriminate].
    rewrite (proj2 (Nat.ltb_lt _ _)) by lia. cbn [fst]. split; [split; assumption|reflexivity].
  - cbn. rewrite app_nil_r. split; [split; assumption|reflexivity].
  - cbn. rewrite app_nil_r. split; [split; assumption|discriminate].
Qed.

Lemma p_stats_app c a b : p_stats c (a ++ b) = p_stats c a ++ p_stats c b.
Proof. induction a as [|e a IH]; cbn; [reflexivity|]. destruct e; cbn; rewrite ?IH; reflexivity. Qed.

Lemma p_stats_cons c e es : p_stats c (e :: es) = p_stats c [e] ++ p_stats c es.
Proof. destruct e; reflexivity. Qed.

Lemma ps_run_collecting c : forall es st hist, ps_collecting c st hist ->
  (length (hist ++ p_stats c es) < p_steps c \/ (length (hist ++ p_stats c es) <= p_steps c /\ no_local es))%nat ->
  ps_collecting c (ps_run c st es) (hist ++ p_stats c es)
  /\ (no_opt es -> ps_value (ps_run c st es) = ps_value st).
Proof.
  induction es as [|e es IH]; intros st hist H L; cbn [ps_run].
  - cbn. rewrite app_nil_r. split; [exact H|reflexivity].
  - rewrite p_stats_cons, app_assoc in L |- *.
    assert (L1 : (length (hist ++ p_stats c [e]) <= length ((hist ++ p_stats c [e]) ++ p_stats c es))%nat) by (rewrite (app_length _ (p_stats c es)); lia).
    destruct (ps_step_collecting c st hist e H) as [S1 S2].
    { destruct L as [L|[L N]]; [left; lia|right; split; [lia|inversion N; assumption]]. }
    destruct (IH _ _ S1) as [S3 S4].
    { destruct L as [L|[L N]]; [left; exact L|right; split; [exact L|inversion N; assumption]]. }
    split; [exact S3|]. intros N. inversion N; subst. rewrite S4 by assumption. apply S2. assumption.
Qed.

(** While at most [steps] training batches have been seen: the counter counts them, the buffer
    is their average and evaluation uses it, whatever evaluation calls and optimizer steps are
    interleaved.  (Local-loss calls are harmless as long as the collection is not complete.) *)
Theorem C25_collection_phase : forall c es t,
  (0 < p_steps c)%nat -> p_stats c es <> [] ->
  (length (p_stats c es) < p_steps c \/ (length (p_stats c es) <= p_steps c /\ no_local es))%nat ->
  snd (ps_step c (ps_run c ps_init es) (PEval t))
  = Rabs (clamp_value (p_min c) (restrict_fwd (p_restrict c)
        (pre (p_restrict c) (average (p_momentum c) (p_stats c es) / t)))).
Proof.
  intros c es t Hs Hne L.
  destruct (ps_run_collecting c es ps_init [] (conj eq_refl eq_refl) L) as [[C B] _]. cbn [app] in *.
  cbn [ps_step snd]. unfold ps_eval. rewrite C, B. rewrite (proj2 (Nat.leb_le _ _)) by lia.
  destruct (p_stats c es); [congruence|reflexivity].
Qed.

(** Each of the first [steps] training calls uses the statistic of its own batch. *)
Theorem C25_collection_outputs : forall c es s t,
  (length (p_stats c es) < p_steps c)%nat ->
  snd (ps_step c (ps_run c ps_init es) (PTrain s t)) = Rabs (clamp_value (p_min c) s / t).
Proof.
  intros c es s t L.
  destruct (ps_run_collecting c es ps_init [] (conj eq_refl eq_refl)) as [[C B] _]; [left; exact L|]. cbn [app] in *.
  cbn [ps_step]. unfold ps_train. rewrite C. rewrite (proj2 (Nat.ltb_lt _ _)) by lia. reflexivity.
Qed.

(** The call after the last collected batch turns the average into the parameter, provided the
    parameter was not touched before. *)
Theorem C25_conversion : forall c es s t,
  (0 < p_steps c)%nat -> length (p_stats c es) = p_steps c -> no_local es -> no_opt es ->
  let st := fst (ps_step c (ps_run c ps_init es) (PTrain s t)) in
  ps_counter st = S (p_steps c)
  /\ ps_value st = pre (p_restrict c) (average (p_momentum c) (p_stats c es))
  /\ snd (ps_step c (ps_run c ps_init es) (PTrain s t)) = learned_scale c (ps_value st) t.
Proof.
  intros c es s t Hs L NL NO.
  destruct (ps_run_collecting c es ps_init [] (conj eq_refl eq_refl)) as [[C B] V]; [right; cbn; split; [lia|exact NL]|].
  specialize (V NO). cbn [app] in *. cbn [ps_step]. unfold ps_train. rewrite C, L.
  rewrite (proj2 (Nat.ltb_ge _ _)) by lia. rewrite Nat.eqb_refl. cbn [fst snd ps_counter ps_value].
  rewrite V, B. cbn [ps_init ps_value]. destruct (p_stats c es) as [|a l]; [cbn in L; lia|].
  repeat split. lra.
Qed.

(** Afterwards: statistics of the input are never looked at, the buffer and counter stay, the
    parameter changes only through the optimizer. *)
Definition last_opt (v : R) (es : list pevent) : R :=
  fold_left (fun v e => match e with POpt v' => v' | _ => v end) es v.

Theorem C25_learned_phase : forall c st es,
  (p_steps c < ps_counter st)%nat ->
  let st' := ps_run c st es in
  ps_counter st' = ps_counter st /\ ps_buffer st' = ps_buffer st
  /\ ps_value st' = last_opt (ps_value st) es
  /\ forall s t, snd (ps_step c st' (PTrain s t)) = learned_scale c (ps_value st') t
              /\ snd (ps_step c st' (PLocal s t)) = learned_scale c (ps_value st') t
              /\ snd (ps_step c st' (PEval t)) = learned_scale c (ps_value st') t.
Proof.
  intros c st es. cbn zeta. revert st. induction es as [|e es IH]; intros st H; cbn [ps_run].
  - repeat split; cbn [ps_step]; unfold ps_train, ps_eval;
      rewrite ?(proj2 (Nat.ltb_ge _ _)), ?(proj2 (Nat.eqb_neq _ _)), ?(proj2 (Nat.leb_gt _ _)) by lia; reflexivity.
  - assert (S1 : ps_counter (fst (ps_step c st e)) = ps_counter st
              /\ ps_buffer (fst (ps_step c st e)) = ps_buffer st
              /\ ps_value (fst (ps_step c st e)) = match e with POpt v => v | _ => ps_value st end).
    { destruct e; cbn [ps_step fst]; unfold ps_train;
        rewrite ?(proj2 (Nat.ltb_ge _ _)), ?(proj2 (Nat.eqb_neq _ _)) by lia; repeat split. }
    destruct S1 as (A1 & A2 & A3). destruct (IH (fst (ps_step c st e))) as (B1 & B2 & B3 & B4); [lia|].
    rewrite B1, B2, A1, A2. split; [reflexivity|]. split; [reflexivity|]. split; [|exact B4].
    rewrite B3, A3. reflexivity.
Qed.

(** Evaluation calls can be inserted or removed anywhere without changing anything else. *)
Definition not_eval (e : pevent) : bool := match e with PEval _ => false | _ => true end.
Theorem C25_evaluation_is_pure : forall c es st, ps_run c st (filter not_eval es) = ps_run c st es.
Proof.
  intros c. induction es as [|e es IH]; intros st; [reflexivity|].
  destruct e; cbn [filter not_eval ps_run ps_step fst]; apply IH.
Qed.

Lemma ln2_pos : 0 < ln 2. Proof. pose proof ln_lt_2. lra. Qed.

Lemma log2R_div a b : 0 < a -> 0 < b -> log2R (a / b) = log2R a - log2R b.
Proof.
  intros Ha Hb. unfold log2R, Rdiv. rewrite ln_mult by (try assumption; apply Rinv_0_lt_compat, Hb).
  rewrite ln_Rinv by exact Hb. ring.
Qed.

Lemma pre_div r a b : 0 < a -> 0 < b -> pre r (a / b) = combine_thr r (pre r a) (pre r b).
Proof. intros Ha Hb. destruct r; cbn; try reflexivity; apply log2R_div; assumption. Qed.

(** The scale seen by evaluation does not jump at the conversion. *)
Theorem C25_no_jump_at_conversion : forall c es s t t',
  (0 < p_steps c)%nat -> length (p_stats c es) = p_steps c -> no_local es -> no_opt es ->
  (match p_momentum c with Some m => 0 <= m <= 1 | None => True end) ->
  Forall (fun x => 0 < x) (p_stats c es) -> 0 < t' ->
  ps_eval c (fst (ps_step c (ps_run c ps_init es) (PTrain s t))) t' = ps_eval c (ps_run c ps_init es) t'.
Proof.
  intros c es s t t' Hs L NL NO Hm F Ht.
  destruct (C25_conversion c es s t Hs L NL NO) as (C1 & V1 & _).
  set (st1 := fst _) in *. unfold ps_eval. rewrite C1, (proj2 (Nat.leb_gt _ _)) by lia.
  destruct (ps_run_collecting c es ps_init [] (conj eq_refl eq_refl)) as [[C B] _]; [right; cbn; split; [lia|exact NL]|].
  cbn [app] in *. rewrite C, (proj2 (Nat.leb_le _ _)) by lia. unfold learned_scale. rewrite V1, B.
  destruct (p_stats c es) as [|a l] eqn:E; [cbn in L; lia|]. rewrite <- E in *.
  rewrite pre_div; [reflexivity| |exact Ht]. apply average_pos; [exact Hm|exact F|rewrite E; discriminate].
Qed.

(** Finding: during collection the parameter already receives (zero) gradients, so an optimizer
    with weight decay moves it away from 1 and the calibrated scale is multiplied by it. *)
Theorem C25_weight_decay_refuted :
  exists c es s t, length (p_stats c es) = p_steps c /\ no_local es
    /\ ps_eval c (ps_run c ps_init es) t = 2
    /\ ps_eval c (fst (ps_step c (ps_run c ps_init es) (PTrain s t))) t = 1.
Proof.
  exists {| p_steps := 1; p_momentum := Some (1/10); p_restrict := RFloat; p_min := None |},
         [PTrain 2 1; POpt (1/2)], 2, 1.
  split; [reflexivity|]. split; [repeat constructor|].
  split; unfold ps_eval, learned_scale; cbn; rewrite Rabs_right; lra.
Qed.

(** Finding: a local-loss call (MSE search) that arrives exactly when collection is complete
    performs the conversion, although local-loss mode promises not to touch the state. *)
Theorem C25_local_loss_refuted :
  exists c es s t, length (p_stats c es) = p_steps c
    /\ ps_counter (fst (ps_step c (ps_run c ps_init es) (PLocal s t))) <> ps_counter (ps_run c ps_init es).
Proof.
  exists {| p_steps := 1; p_momentum := Some (1/10); p_restrict := RFloat; p_min := None |}, [PTrain 2 1], 2, 1.
  split; [reflexivity|]. cbn. discriminate.
Qed.

(** Finding: the power-of-two restriction is not applied while statistics are collected, so a
    power-of-two quantizer trains with other scales (statistic 3: scale 3). *)
Theorem C25_power_of_two_not_applied_while_collecting_refuted :
  exists c s t, p_restrict c = RPowerOfTwo
    /\ snd (ps_step c ps_init (PTrain s t)) = 3
    /\ forall k : Z, snd (ps_step c ps_init (PTrain s t)) <> powerRZ 2 k.
Proof.
  exists {| p_steps := 1; p_momentum := Some (1/10); p_restrict := RPowerOfTwo; p_min := None |}, 3, 1.
  split; [reflexivity|].
  assert (E : snd (ps_step {| p_steps := 1; p_momentum := Some (1/10); p_restrict := RPowerOfTwo; p_min := None |} ps_init (PTrain 3 1)) = 3).
  { cbn. rewrite Rabs_right; lra. }
  split; [exact E|]. intros k K. rewrite E in K. clear E.
  destruct (Z_lt_le_dec k 0) as [Hk|Hk].
  - assert (powerRZ 2 k <= 1).
    { destruct k as [|p|p]; [lia|lia|]. cbn [powerRZ]. replace 1 with (/ 1) by lra. apply Rinv_le_contravar; [lra|]. apply pow_R1_Rle; lra. }
    lra.
  - assert (Ek : powerRZ 2 k = IZR (2 ^ k)).
    { rewrite <- (Z2Nat.id k) by lia. rewrite <- pow_powerRZ. rewrite <- pow_IZR. reflexivity. }
    rewrite Ek in K. apply eq_IZR in K.
    destruct (Z.eq_dec k 0) as [->|]; [cbn in K; lia|].
    replace k with (Z.succ (k - 1)) in K by lia. rewrite Z.pow_succ_r in K by lia. lia.
Qed.

(** The zero-point module follows the same life cycle (buffer added to a zero parameter). *)
Definition zp_collecting (c : pcfg) (st : pstate) (hist : list R) : Prop :=
  ps_counter st = length hist /\ ps_buffer st = match hist with [] => 0 | _ => average (p_momentum c) hist end.
Fixpoint z_stats (es : list pevent) : list R :=
  match es with [] => [] | PTrain s _ :: es' => s :: z_stats es' | _ :: es' => z_stats es' end.

Lemma zp_run_collecting c : forall es st hist, zp_collecting c st hist ->
  (length (hist ++ z_stats es) <= p_steps c)%nat -> no_local es ->
  zp_collecting c (zp_run c st es) (hist ++ z_stats es)
  /\ (no_opt es -> ps_value (zp_run c st es) = ps_value st).
Proof.
  induction es as [|e es IH]; intros st hist [C B] L NL; cbn [zp_run].
  - cbn. rewrite app_nil_r. split; [split; assumption|reflexivity].
  - inversion NL as [|? ? N1 N2]; subst. destruct e as [s t|s t|t|v]; [|discriminate| |]; cbn [zp_step fst z_stats] in *.
    + unfold zp_train. assert (Lc : (ps_counter st < p_steps c)%nat) by (rewrite C; rewrite app_length in L; cbn in L; lia).
      rewrite (proj2 (Nat.ltb_lt _ _) Lc). cbn [fst].
      replace (hist ++ s :: z_stats es) with ((hist ++ [s]) ++ z_stats es) in * by (rewrite <- app_assoc; reflexivity).
      destruct (IH {| ps_counter := S (ps_counter st);
         ps_buffer := if Nat.eqb (ps_counter st) 0 then ps_buffer st + s
                      else momentum_update (p_momentum c) (ps_buffer st) s (ps_counter st) (S (ps_counter st));
         ps_value := ps_value st |} (hist ++ [s])) as [S1 S2]; [|exact L|exact N2|].
      * split; cbn [ps_counter ps_buffer]; [rewrite C, app_length; cbn; lia|].
        destruct hist as [|h hist]; cbn [length] in C; rewrite C.
        { cbn [Nat.eqb app]. rewrite B, average_one. lra. }
        cbn [Nat.eqb]. rewrite B. change (S (length hist)) with (length (h :: hist)).
        rewrite <- average_snoc by discriminate. reflexivity.
      * split; [exact S1|]. intros N. inversion N; subst. rewrite S2 by assumption. reflexivity.
    + destruct (IH st hist (conj C B) L N2) as [S1 S2]. split; [exact S1|]. intros N. inversion N; subst. apply S2. assumption.
    + destruct (IH {| ps_counter := ps_counter st; ps_buffer := ps_buffer st; ps_value := v |} hist (conj C B) L N2) as [S1 S2].
      split; [exact S1|]. intros N. inversion N; discriminate.
Qed.

Theorem C25_zero_point_lifecycle : forall c es,
  (0 < p_steps c)%nat -> z_stats es <> [] -> no_local es ->
  ((length (z_stats es) <= p_steps c)%nat ->
     zp_eval c (zp_run c zp_init es) = Rabs (average (p_momentum c) (z_stats es)))
  /\ (length (z_stats es) = p_steps c -> no_opt es -> forall s t,
     let st := fst (zp_step c (zp_run c zp_init es) (PTrain s t)) in
     ps_value st = average (p_momentum c) (z_stats es)
     /\ zp_eval c st = zp_eval c (zp_run c zp_init es)).
Proof.
  intros c es Hs Hne NL. split.
  - intros L. destruct (zp_run_collecting c es zp_init [] (conj eq_refl eq_refl) L NL) as [[C B] _]. cbn [app] in *.
    unfold zp_eval. rewrite C, B, (proj2 (Nat.leb_le _ _)) by lia. destruct (z_stats es); [congruence|reflexivity].
  - intros L NO s t.
    destruct (zp_run_collecting c es zp_init [] (conj eq_refl eq_refl)) as [[C B] V]; [cbn; lia|exact NL|]. specialize (V NO).
    cbn [app] in *. cbn zeta. cbn [zp_step]. unfold zp_train. rewrite C, L.
    rewrite (proj2 (Nat.ltb_ge _ _)) by lia. rewrite Nat.eqb_refl. cbn [fst ps_value].
    destruct (z_stats es) as [|a l]; [congruence|]. rewrite V, B. cbn [zp_init ps_value].
    split; [lra|]. unfold zp_eval. cbn [ps_counter ps_value]. rewrite C, L.
    rewrite (proj2 (Nat.leb_gt _ _)) by lia. rewrite (proj2 (Nat.leb_le _ _)) by lia. rewrite B. f_equal. lra.
Qed.

(** A weight scale initialised from statistics of the weight ([ParameterFromStatsFromParameter]):
    local-loss calls leave the module alone, the first other call stores the statistic, and
    from then on no call looks at the statistic again or changes the stored value. *)
Definition ws_calls (c : pcfg) (st : wstate) (calls : list (bool * R * R)) : wstate :=
  fold_left (fun st call => let '(local, s, t) := call in fst (ws_forward c local st s t)) calls st.
Theorem C25_parameter_statistics_used_once : forall c locals calls s t,
  Forall (fun call => fst (fst call) = true) locals ->
  ws_calls c ws_init locals = ws_init
  /\ let st := ws_calls c ws_init (locals ++ (false, s, t) :: calls) in
     ws_done st = true /\ ws_value st = pre (p_restrict c) s
     /\ forall local s' t', fst (ws_forward c local st s' t') = st
        /\ snd (ws_forward c local st s' t')
           = Rabs (clamp_value (p_min c) (restrict_fwd (p_restrict c)
               (combine_thr (p_restrict c) (pre (p_restrict c) s) (pre (p_restrict c) t')))).
Proof.
  intros c locals calls s t F.
  assert (L : ws_calls c ws_init locals = ws_init).
  { induction F as [|[[l a] b] locals H _ IH]; [reflexivity|]. cbn in H. subst l. exact IH. }
  split; [exact L|]. cbn zeta. unfold ws_calls in *. rewrite fold_left_app, L. cbn [fold_left].
  set (st1 := fst (ws_forward c false ws_init s t)).
  assert (E1 : st1 = {| ws_done := true; ws_value := pre (p_restrict c) s |}).
  { unfold st1, ws_forward. cbn. f_equal. lra. }
  clearbody st1. subst st1.
  assert (K : forall calls, fold_left (fun st call => let '(local, s, t) := call in fst (ws_forward c local st s t)) calls
     {| ws_done := true; ws_value := pre (p_restrict c) s |} = {| ws_done := true; ws_value := pre (p_restrict c) s |}).
  { clear calls. induction calls as [|[[l a] b] calls IH]; [reflexivity|]. exact IH. }
  rewrite K. repeat split.
Qed.

(** ** C26 *)
(** Reachable states: any history of events on a new module. *)
Theorem C26_save_load_preserves_evaluation : forall c full es t,
  (0 < p_steps c)%nat ->
  (match p_momentum c with Some m => 0 <= m <= 1 | None => True end) ->
  Forall (fun x => 0 < x) (p_stats c es) -> 0 < t ->
  ps_eval c (ps_load c ps_init (ps_save c full (ps_run c ps_init es))) t = ps_eval c (ps_run c ps_init es) t.
Proof.
  intros c full es t Hs Hm F Ht.
  (* invariant: either still collecting some history of positive statistics, or learned *)
  assert (INV : forall es st hist, ps_collecting c st hist -> (length hist <= p_steps c)%nat ->
     Forall (fun x => 0 < x) (hist ++ p_stats c es) ->
     (p_steps c < ps_counter (ps_run c st es))%nat
     \/ (exists h, ps_collecting c (ps_run c st es) h /\ (length h <= p_steps c)%nat /\ Forall (fun x => 0 < x) h)).
  { clear es F. induction es as [|e es IH]; intros st hist H L F; cbn [ps_run].
    - right. exists hist. cbn in F. rewrite app_nil_r in F. repeat split; try apply H; assumption.
    - rewrite p_stats_cons, app_assoc in F.
      assert (Dec : (length (hist ++ p_stats c [e]) < p_steps c \/ (length (hist ++ p_stats c [e]) <= p_steps c /\ is_local e = false)
                   \/ (ps_counter (fst (ps_step c st e)) > p_steps c))%nat).
      { destruct H as [C _]. rewrite app_length.
        destruct e as [s u|s u|u|v]; cbn [p_stats length is_local].
        - destruct (Nat.eq_dec (length hist) (p_steps c)); [|lia]. right. right.
          cbn [ps_step]. unfold ps_train. rewrite (proj2 (Nat.ltb_ge _ _)) by lia. rewrite (proj2 (Nat.eqb_eq _ _)) by lia. cbn. lia.
        - destruct (Nat.eq_dec (length hist) (p_steps c)); [|lia]. right. right.
          cbn [ps_step]. unfold ps_train. rewrite (proj2 (Nat.ltb_ge _ _)) by lia. rewrite (proj2 (Nat.eqb_eq _ _)) by lia. cbn. lia.
        - right. left. split; [lia|reflexivity].
        - right. left. split; [lia|reflexivity]. }
      destruct Dec as [D|[D|D]].
      + destruct (ps_step_collecting c st hist e H (or_introl D)) as [S1 _]. apply (IH _ _ S1); [lia|exact F].
      + destruct (ps_step_collecting c st hist e H (or_intror D)) as [S1 _]. apply (IH _ _ S1); [lia|exact F].
      + left. destruct (C25_learned_phase c _ es D) as (A & _). cbn zeta in A. rewrite A. exact D. }
  destruct (INV es ps_init [] (conj eq_refl eq_refl) (Nat.le_0_l _) F) as [G|(h & [C B] & L & Fh)].
  - unfold ps_save. rewrite (proj2 (Nat.eqb_neq _ _)) by lia. cbn [andb].
    rewrite (proj2 (Nat.leb_gt _ _)) by lia. cbn [ps_load]. unfold ps_eval. cbn [ps_counter ps_value].
    rewrite !(proj2 (Nat.leb_gt _ _)) by lia. reflexivity.
  - set (st := ps_run c ps_init es) in *. clearbody st. unfold ps_save.
    destruct (Nat.eqb (ps_counter st) 0 && negb full) eqn:E.
    + apply andb_prop in E. destruct E as [E _]. apply Nat.eqb_eq in E.
      cbn [ps_load]. unfold ps_eval. rewrite E. cbn [ps_init ps_counter ps_buffer].
      destruct h; [|cbn in C; lia]. rewrite B. reflexivity.
    + rewrite (proj2 (Nat.leb_le _ _)) by lia. cbn [ps_load]. unfold ps_eval. cbn [ps_counter ps_value].
      rewrite (proj2 (Nat.leb_gt _ _)) by lia. rewrite (proj2 (Nat.leb_le _ _)) by lia.
      unfold learned_scale. rewrite pre_div; [reflexivity| |exact Ht]. rewrite B.
      destruct h; [lra|]. apply average_pos; [exact Hm|exact Fh|discriminate].
Qed.

(** A module that received a value starts in the learned phase: training and evaluation agree
    and further batches do not change it. *)
Theorem C26_loaded_module_is_learned : forall c st v es s t,
  let st' := ps_run c (ps_load c st (Some v)) es in
  no_opt es ->
  ps_value st' = v
  /\ snd (ps_step c st' (PTrain s t)) = learned_scale c v t
  /\ snd (ps_step c st' (PEval t)) = learned_scale c v t.
Proof.
  intros c st v es s t. cbn zeta. intros NO.
  destruct (C25_learned_phase c (ps_load c st (Some v)) es) as (_ & _ & V & O); [cbn; lia|]. cbn zeta in *.
  assert (E : last_opt (ps_value (ps_load c st (Some v))) es = v).
  { cbn [ps_load ps_value]. clear - NO. unfold last_opt. induction NO as [|e es H _ IH]; [reflexivity|].
    cbn [fold_left]. destruct e; try exact IH. discriminate. }
  rewrite E in V. destruct (O s t) as (O1 & _ & O3). rewrite V in O1, O3. repeat split; assumption.
Qed.

(** The same for the zero point (loading is the same code: zero_point.py L169-185). *)
Theorem C26_zero_point_save_load : forall c es,
  (0 < p_steps c)%nat ->
  zp_eval c (ps_load c zp_init (zp_save c (zp_run c zp_init es))) = zp_eval c (zp_run c zp_init es).
Proof.
  intros c es Hs.
  assert (INV : forall es st, (ps_counter st = 0%nat -> ps_buffer st = 0) ->
     ps_counter (zp_run c st es) = 0%nat -> ps_buffer (zp_run c st es) = 0).
  { clear es. induction es as [|e es IH]; intros st H; [exact H|]. cbn [zp_run]. apply IH.
    destruct e as [s t|s t|t|v]; cbn [zp_step fst]; unfold zp_train; [| |exact H|exact H].
    - destruct (Nat.ltb _ _); [cbn; lia|]. destruct (Nat.eqb _ _); [cbn; lia|exact H].
    - destruct (Nat.ltb _ _); [exact H|]. destruct (Nat.eqb _ _); [cbn; lia|exact H]. }
  specialize (INV es zp_init (fun _ => eq_refl)). set (st := zp_run c zp_init es) in *. clearbody st.
  unfold zp_save. destruct (Nat.eqb (ps_counter st) 0) eqn:E.
  - apply Nat.eqb_eq in E. cbn [ps_load]. unfold zp_eval. rewrite E, INV by exact E. reflexivity.
  - destruct (Nat.leb (ps_counter st) (p_steps c)) eqn:G; cbn [ps_load]; unfold zp_eval; cbn [ps_counter ps_value];
      rewrite G, (proj2 (Nat.leb_gt _ _)) by lia; reflexivity.
Qed.

(** Weight scaling initialised from statistics of the parameter: saving and loading preserve
    the evaluation of the scale for the same (current) statistic. *)
Theorem C26_parameter_scaling_save_load : forall c st stats t,
  (ws_done st = true \/ st = ws_init) ->
  snd (ws_forward c false (ws_load ws_init (ws_save false st)) stats t) = snd (ws_forward c false st stats t).
Proof.
  intros c [d v] stats t [H|H].
  - cbn in H. subst. reflexivity.
  - rewrite H. reflexivity.
Qed.

(** Finding: with config._FULL_STATE_DICT the placeholder value 1 of a module that was never
    called is saved, and loading it disables the initialisation from statistics. *)
Theorem C26_full_state_dict_refuted :
  exists c stats t, snd (ws_forward c false ws_init stats t) = 5
    /\ snd (ws_forward c false (ws_load ws_init (ws_save true ws_init)) stats t) = 1.
Proof.
  exists {| p_steps := 1; p_momentum := None; p_restrict := RFloat; p_min := None |}, 5, 1.
  split; cbn; unfold restrict_clamp; cbn; rewrite Rabs_right; lra.
Qed.

Definition ex_cfg : pcfg := {| p_steps := 2; p_momentum := Some (1/10); p_restrict := RPowerOfTwo; p_min := Some (1/1000) |}.
Definition ex_events : list pevent := [PTrain 4 1; PEval 1; PTrain 8 1].
Example C25_nontrivial :
  p_stats ex_cfg ex_events = [4; 8] /\ length (p_stats ex_cfg ex_events) = p_steps ex_cfg
  /\ no_local ex_events /\ no_opt ex_events
  /\ average (p_momentum ex_cfg) (p_stats ex_cfg ex_events) = 4.4.
Proof.
  assert (E : p_stats ex_cfg ex_events = [4; 8]).
  { cbn. repeat (destruct (Rlt_dec _ _); [lra|]). reflexivity. }
  rewrite E. repeat split; try (repeat constructor). cbn. lra.
Qed.

Print Assumptions C24_running_average.
Print Assumptions C24_outputs.
Print Assumptions C24_average_bounded.
Print Assumptions C24_resume_refuted.
Print Assumptions C25_collection_phase.
Print Assumptions C25_collection_outputs.
Print Assumptions C25_conversion.
Print Assumptions C25_learned_phase.
Print Assumptions C25_evaluation_is_pure.
Print Assumptions C25_no_jump_at_conversion.
Print Assumptions C25_weight_decay_refuted.
Print Assumptions C25_local_loss_refuted.
Print Assumptions C25_power_of_two_not_applied_while_collecting_refuted.
Print Assumptions C25_zero_point_lifecycle.
Print Assumptions C25_parameter_statistics_used_once.
Print Assumptions C26_zero_point_save_load.
Print Assumptions C26_save_load_preserves_evaluation.
Print Assumptions C26_loaded_module_is_learned.
Print Assumptions C26_parameter_scaling_save_load.
Print Assumptions C26_full_state_dict_refuted.
