(** C57 (mean-squared-error search), C76 (half-quadratic optimisation). *)
From Coq Require Import ZArith Reals List Bool Arith Lra Lia Psatz.
From Verif Require Import Ste Mse.
Import ListNotations.
Local Open Scope R_scope.

(** ** The flags come back *)

(** No module is in local-loss mode: the state in which a search may start (L559). *)
Definition quiet (ms : list md) : Prop := Forall (fun m => ll m <> Some true) ms.

(** What the quantizer sees while a candidate is evaluated. *)
Definition evaluating (ms : list md) : list md :=
  map (fun m => Md (match ll m with Some _ => Some true | None => None end)
                   (match ob m with Some _ => Some false | None => None end)) ms.

Lemma evaluate_loss_quiet ql s c :
  quiet (mods s) ->
  mods (fst (evaluate_loss ql s c)) = mods s /\
  snd (evaluate_loss ql s c) = ql (evaluating (mods s)) c.
Proof.
  intros Hq. unfold evaluate_loss. cbv zeta. cbn [fst snd].
  unfold restore_observer_mode, set_local_loss_mode, set_observer_mode.
  cbn [mods prev candidate]. split.
  - induction Hq as [|m ms Hm Hq IH]; [reflexivity|]. cbn [map restore]. rewrite IH.
    f_equal. destruct m as [[[]|] [[]|]]; cbn in *; congruence.
  - f_equal. rewrite map_map. reflexivity.
Qed.

Lemma grid_loop_state ql steps : forall i s xl bl b,
  quiet (mods s) -> mods (fst (grid_loop ql steps i s xl bl b)) = mods s.
Proof.
  induction steps as [|k IH]; intros i s xl bl b Hq; cbn [grid_loop]; [reflexivity|].
  destruct (evaluate_loss ql s (fun j => xl j * INR i)) as [s' loss] eqn:E.
  destruct (evaluate_loss_quiet ql s (fun j => xl j * INR i) Hq) as [E1 _]. rewrite E in E1.
  cbn [fst] in E1. rewrite IH; [exact E1|]. rewrite E1. exact Hq.
Qed.

Lemma fib_loop_state ql num steps : forall i s xl xr L0 Li la,
  quiet (mods s) -> mods (fst (fib_loop ql num steps i s xl xr L0 Li la)) = mods s.
Proof.
  induction steps as [|k IH]; intros i s xl xr L0 Li la Hq; cbn [fib_loop]; [reflexivity|].
  cbv zeta.
  match goal with |- context [evaluate_loss ql s ?c] =>
    destruct (evaluate_loss ql s c) as [s' f1] eqn:E;
    destruct (evaluate_loss_quiet ql s c Hq) as [E1 _]; rewrite E in E1; cbn [fst] in E1 end.
  match goal with |- context [evaluate_loss ql s' ?c] =>
    destruct (evaluate_loss ql s' c) as [s'' f2] eqn:E'; 
    destruct (evaluate_loss_quiet ql s' c) as [E2 _]; [rewrite E1; exact Hq|];
    rewrite E' in E2; cbn [fst] in E2 end.
  rewrite IH; [congruence|]. rewrite E2, E1. exact Hq.
Qed.

(** A complete search, by either method, leaves every local-loss and observer flag of the
    quantizer as it was. *)
Theorem C57_flags_restored ql num method s init s' r :
  quiet (mods s) -> mse_search ql num method s init = Some (s', r) -> mods s' = mods s.
Proof.
  intros Hq. unfold mse_search. destruct method.
  - destruct (mse_grid_search ql num s (fun j => init j / INR num)) as [s1 b] eqn:E.
    intros [= <- _]. cbn [mods]. unfold mse_grid_search in E.
    assert (G := grid_loop_state ql (num - 1) 2 s (fun j => init j / INR num) (fun _ => PInf)
                   (fun j => init j / INR num) Hq). rewrite E in G. exact G.
  - unfold mse_fib_search. destruct (num <? 2)%nat; [discriminate|].
    destruct (fib_loop _ _ _ _ _ _ _ _ _ _) as [s1 b] eqn:E. intros [= <- _]. cbn [mods].
    assert (G := fib_loop_state ql num (num - 1) 2 s (fun j => init j / INR num) init
      (fun j => init j - init j / INR num)
      (fun j => INR (fib (num - 2)) / INR (fib num) * (init j - init j / INR num))
      (fun j => init j / INR num) Hq).
    rewrite E in G. exact G.
Qed.

(** Afterwards the winning candidate is what other modules read in local-loss mode. *)
Theorem C57_candidate_saved ql num method s init s' r other :
  mse_search ql num method s init = Some (s', r) ->
  mse_forward ql num method true s' other = Some (s', r).
Proof.
  unfold mse_search. intros H. assert (candidate s' = Some r).
  { destruct method; [destruct (mse_grid_search _ _ _ _)|destruct (mse_fib_search _ _ _ _ _) as [[]|];
      [|discriminate]]; injection H as <- <-; reflexivity. }
  unfold mse_forward. cbn [negb]. rewrite H0. reflexivity.
Qed.

(** ** Grid search *)

Definition fl_le (a b : fl) : Prop := fle a b = true.

Lemma fle_refl a : a <> NaN -> fle a a = true.
Proof. destruct a; cbn; try congruence. intros _. destruct (Rle_dec r r); [reflexivity|lra]. Qed.

Lemma fle_trans a b c : fle a b = true -> fle b c = true -> fle a c = true.
Proof.
  destruct a, b, c; cbn; try congruence; try (intros; reflexivity).
  destruct (Rle_dec r r0), (Rle_dec r0 r1), (Rle_dec r r1); intros; try reflexivity; try congruence; lra.
Qed.

Lemma flt_spec a b : a <> NaN -> b <> NaN -> flt a b = negb (fle b a).
Proof.
  destruct a, b; cbn; try congruence; intros _ _; try reflexivity.
  destruct (Rlt_dec r r0), (Rle_dec r0 r); reflexivity || lra.
Qed.

Lemma fmin_spec a b : a <> NaN -> b <> NaN ->
  fmin a b = if flt a b then a else b.
Proof.
  destruct a, b; cbn; try congruence; intros _ _; try reflexivity.
  destruct (Rlt_dec r r0); f_equal; [rewrite Rmin_left|rewrite Rmin_right]; lra || reflexivity.
Qed.

Lemma flt_fle a b : flt a b = true -> fle a b = true.
Proof. destruct a, b; cbn; try congruence. destruct (Rlt_dec r r0), (Rle_dec r r0); congruence || lra. Qed.

(** Invariant of the loop for one channel with its own loss [l]. *)
Lemma grid_loop_best ql (l : R -> fl) j steps : forall i s xl bl b,
  quiet (mods s) ->
  (forall c, ql (evaluating (mods s)) c j = l (c j)) ->
  (forall i', (i <= i' < i + steps)%nat -> l (xl j * INR i') <> NaN) ->
  bl j <> NaN ->
  let r := snd (grid_loop ql steps i s xl bl b) in
  (r j = b j /\ (forall i', (i <= i' < i + steps)%nat -> fle (bl j) (l (xl j * INR i')) = true)) \/
  (exists i', (i <= i' < i + steps)%nat /\ r j = xl j * INR i' /\ flt (l (r j)) (bl j) = true /\
    (forall i'', (i <= i'' < i + steps)%nat -> fle (l (r j)) (l (xl j * INR i'')) = true)).
Proof.
  induction steps as [|k IH]; intros i s xl bl b Hq Hsep Hnan Hbl; cbn [grid_loop].
  { left. split; [reflexivity|]. intros; lia. }
  destruct (evaluate_loss ql s (fun j => xl j * INR i)) as [s' loss] eqn:E.
  destruct (evaluate_loss_quiet ql s (fun j => xl j * INR i) Hq) as [E1 E2]. rewrite E in E1, E2.
  cbn [fst snd] in E1, E2.
  assert (El : loss j = l (xl j * INR i)) by (rewrite E2; apply Hsep).
  assert (N : l (xl j * INR i) <> NaN) by (apply Hnan; lia).
  cbv zeta.
  set (b' := vwhere _ _ b). set (bl' := fun j0 => fmin (loss j0) (bl j0)).
  assert (Ebl : bl' j = if flt (l (xl j * INR i)) (bl j) then l (xl j * INR i) else bl j).
  { unfold bl'. rewrite El. apply fmin_spec; assumption. }
  assert (Eb : b' j = if flt (l (xl j * INR i)) (bl j) then xl j * INR i else b j).
  { unfold b', vwhere. rewrite El. reflexivity. }
  specialize (IH (S i) s' xl bl' b'). rewrite E1 in IH. cbv zeta in IH.
  destruct IH as [[R1 R2]|(i' & Hi' & R1 & R2 & R3)].
  - exact Hq.
  - exact Hsep.
  - intros; apply Hnan; lia.
  - rewrite Ebl. destruct (flt _ _); assumption.
  - rewrite Eb in R1. destruct (flt (l (xl j * INR i)) (bl j)) eqn:F.
    + right. exists i. split; [lia|]. split; [exact R1|]. rewrite R1. split; [exact F|].
      intros i'' Hi''. destruct (Nat.eq_dec i'' i) as [->|]; [apply fle_refl; assumption|].
      rewrite Ebl in R2. apply R2. lia.
    + left. split; [exact R1|]. intros i'' Hi''. rewrite Ebl in R2.
      destruct (Nat.eq_dec i'' i) as [->|]; [|apply R2; lia].
      rewrite flt_spec in F by assumption. destruct (fle (bl j) (l (xl j * INR i))); [reflexivity|discriminate].
  - right. exists i'. split; [lia|]. split; [exact R1|].
    assert (fle (bl' j) (bl j) = true).
    { rewrite Ebl. destruct (flt (l (xl j * INR i)) (bl j)) eqn:F; [apply flt_fle; assumption|apply fle_refl; assumption]. }
    assert (R2' : fle (l (snd (grid_loop ql k (S i) s' xl bl' b') j)) (bl j) = true)
      by (eapply fle_trans; [apply flt_fle, R2|assumption]).
    assert (NR : l (snd (grid_loop ql k (S i) s' xl bl' b') j) <> NaN)
      by (intros C; rewrite C in R2; discriminate).
    split.
    + rewrite flt_spec by assumption. destruct (fle (bl j) _) eqn:G; [|reflexivity]. exfalso.
      assert (C : fle (bl' j) (l (snd (grid_loop ql k (S i) s' xl bl' b') j)) = true)
        by (eapply fle_trans; eassumption).
      rewrite flt_spec in R2; [|assumption|rewrite Ebl; destruct (flt _ _); assumption].
      rewrite C in R2. discriminate.
    + intros i'' Hi''. destruct (Nat.eq_dec i'' i) as [->|]; [|apply R3; lia].
      apply flt_fle in R2. eapply fle_trans; [exact R2|]. rewrite Ebl.
      destruct (flt (l (xl j * INR i)) (bl j)) eqn:F; [apply fle_refl; assumption|].
      rewrite flt_spec in F by assumption. destruct (fle (bl j) (l (xl j * INR i))); [reflexivity|discriminate].
Qed.

(** Grid search with a per-channel loss: every channel gets, independently of the others, the best
    of its own candidates 2/num, 3/num, ..., num/num of its initial value. *)
Theorem C57_grid_optimal ql num s init s' r j (l : R -> fl) :
  (2 <= num)%nat -> quiet (mods s) ->
  (forall c, ql (evaluating (mods s)) c j = l (c j)) ->
  (forall i, (2 <= i <= num)%nat -> exists y, l (init j / INR num * INR i) = Fin y) ->
  mse_search ql num Grid s init = Some (s', r) ->
  exists i, (2 <= i <= num)%nat /\ r j = init j / INR num * INR i /\
    forall i', (2 <= i' <= num)%nat -> fl_le (l (r j)) (l (init j / INR num * INR i')).
Proof.
  intros Hn Hq Hsep Hfin. unfold mse_search, mse_grid_search.
  destruct (grid_loop ql (num - 1) 2 s (fun j => init j / INR num) (fun _ => PInf)
    (fun j => init j / INR num)) as [s1 b] eqn:E.
  intros [= _ <-].
  assert (G := grid_loop_best ql l j (num - 1) 2 s (fun j => init j / INR num) (fun _ => PInf)
                 (fun j => init j / INR num) Hq Hsep). cbv zeta in G. rewrite E in G. cbn [snd] in G.
  destruct G as [[_ G]|(i & Hi & G1 & G2 & G3)].
  - intros i Hi. destruct (Hfin i) as [y ->]; [lia|]. discriminate.
  - discriminate.
  - exfalso. destruct (Hfin 2%nat) as [y Hy]; [lia|]. specialize (G 2%nat ltac:(lia)).
    rewrite Hy in G. discriminate.
  - exists i. split; [lia|]. split; [exact G1|]. intros i' Hi'. apply G3. lia.
Qed.

(** Never worse than the starting statistic (the last candidate is the initial value itself). *)
Theorem C57_grid_no_worse_than_init ql num s init s' r j (l : R -> fl) :
  (2 <= num)%nat -> quiet (mods s) ->
  (forall c, ql (evaluating (mods s)) c j = l (c j)) ->
  (forall i, (2 <= i <= num)%nat -> exists y, l (init j / INR num * INR i) = Fin y) ->
  mse_search ql num Grid s init = Some (s', r) ->
  fl_le (l (r j)) (l (init j)).
Proof.
  intros Hn Hq Hsep Hfin H. destruct (C57_grid_optimal ql num s init s' r j l Hn Hq Hsep Hfin H)
    as (i & _ & _ & G).
  specialize (G num ltac:(lia)). replace (init j / INR num * INR num) with (init j) in G; [exact G|].
  field. apply not_0_INR. lia.
Qed.

(** One NaN loss stops the search for good: with a NaN at the first candidate the unevaluated
    1/num of the initial value is returned, however good the others are. *)
Theorem C57_grid_nan_refuted :
  exists ql num s init s' r, quiet (mods s) /\
    mse_search ql num Grid s init = Some (s', r) /\
    r 0%nat <> init 0%nat /\
    ql (evaluating (mods s)) init 0%nat = Fin 0 /\
    forall i, (2 <= i <= num)%nat -> r 0%nat <> init 0%nat / INR num * INR i.
Proof.
  exists (fun _ c j => if Rlt_dec (c j) (5/2) then NaN else Fin 0), 3%nat, (Mst [] [] None), (fun _ => 3).
  eexists. exists (fun j => 3 / INR 3).
  split; [constructor|]. split.
  - unfold mse_search, mse_grid_search. cbn [Nat.sub grid_loop].
    unfold evaluate_loss. cbv zeta. cbn [fst snd].
    match goal with |- Some (?a, ?f) = Some (_, ?g) =>
      assert (F : f = g); [|rewrite F; reflexivity] end.
    unfold vwhere. cbn [INR]. 
    destruct (Rlt_dec (3 / (1 + 1 + 1) * (1 + 1)) (5/2)) as [|H]; [|exfalso; apply H; lra].
    cbn [flt fmin]. destruct (Rlt_dec _ _); reflexivity.
  - split; [cbn [INR]; lra|]. cbv beta. split; [destruct (Rlt_dec 3 (5/2)); [lra|reflexivity]|].
    intros i Hi. assert (2 <= INR i) by (change 2 with (INR 2); apply le_INR; lia).
    change (INR 3) with (1 + 1 + 1). intros E. lra.
Qed.

(** ** Fibonacci search *)

Lemma fib_SS n : fib (S (S n)) = (fib n + fib (S n))%nat.
Proof. unfold fib. cbn [fib_pair]. destruct (fib_pair n) as [a b]. cbn. lia. Qed.

Lemma fib_mono n : (fib n <= fib (S n))%nat.
Proof.
  induction n as [n IH] using lt_wf_ind. destruct n as [|[|n]]; [cbn; lia|cbn; lia|].
  rewrite (fib_SS (S n)). lia.
Qed.

Lemma fib_pos n : (0 < fib (S n))%nat.
Proof. induction n as [|n IH]; [cbn; lia|]. rewrite fib_SS. lia. Qed.

Lemma fib_ratio k : 0 <= INR (fib k) / INR (fib (k + 2)) <= 1/2.
Proof.
  replace (k + 2)%nat with (S (S k)) by lia.
  assert (P : 0 < INR (fib (S (S k)))) by (apply lt_0_INR, fib_pos).
  assert (G : 2 * INR (fib k) <= INR (fib (S (S k)))).
  { rewrite fib_SS, plus_INR. assert (M := le_INR _ _ (fib_mono k)). lra. }
  assert (0 <= INR (fib k)) by apply pos_INR. split.
  - apply Rmult_le_pos; [assumption|left; apply Rinv_0_lt_compat; assumption].
  - apply Rmult_le_reg_r with (INR (fib (S (S k)))); [assumption|].
    unfold Rdiv. rewrite Rmult_assoc, Rinv_l by lra. lra.
Qed.

Lemma fl_cases a b :
  (fle a b = true /\ fge a b = false /\ fne a b = true) \/
  (fle a b = false /\ fge a b = true /\ fne a b = true) \/
  (fle a b = true /\ fge a b = true /\ fne a b = false) \/
  (fle a b = false /\ fge a b = false /\ fne a b = true).
Proof.
  destruct a, b; cbn; try tauto. unfold fge; cbn.
  destruct (Rle_dec r r0), (Rle_dec r0 r), (Req_EM_T r r0); try tauto; exfalso; lra.
Qed.

Lemma fib_loop_bracket ql num j A B steps : forall i s xl xr L0 Li la,
  (2 <= i)%nat -> (i + steps = num + 1)%nat ->
  A <= xl j -> xl j <= xr j -> xr j <= B -> L0 j = xr j - xl j -> 0 <= Li j <= L0 j ->
  A <= la j <= B ->
  A <= snd (fib_loop ql num steps i s xl xr L0 Li la) j <= B.
Proof.
  induction steps as [|k IH]; intros i s xl xr L0 Li la Hi Hn HA HB1 HB HL HLi Hla; cbn [fib_loop];
    [exact Hla|].
  cbv zeta.
  match goal with |- context [evaluate_loss ql s ?c] =>
    destruct (evaluate_loss ql s c) as [s' f1] end.
  match goal with |- context [evaluate_loss ql s' ?c] =>
    destruct (evaluate_loss ql s' c) as [s'' f2] end.
  assert (Rt := fib_ratio (num - i)). replace (num - i + 2)%nat with (num - (i - 2))%nat in Rt by lia.
  set (r := INR (fib (num - i)) / INR (fib (num - (i - 2)))) in *. clearbody r.
  unfold vwhere.
  destruct (Rgt_dec (Li j) (L0 j / 2)) as [G|G].
  - apply IH; try lia; destruct (Rgt_dec (Li j) (L0 j / 2)) as [_|]; try contradiction;
      destruct (fl_cases (f1 j) (f2 j)) as [(e1 & e2 & e3)|[(e1 & e2 & e3)|[(e1 & e2 & e3)|(e1 & e2 & e3)]]];
      rewrite ?e1, ?e2, ?e3; try reflexivity; try lra; nra.
  - apply IH; try lia; destruct (Rgt_dec (Li j) (L0 j / 2)) as [|_]; try contradiction;
      destruct (fl_cases (f1 j) (f2 j)) as [(e1 & e2 & e3)|[(e1 & e2 & e3)|[(e1 & e2 & e3)|(e1 & e2 & e3)]]];
      rewrite ?e1, ?e2, ?e3; try reflexivity; try lra; nra.
Qed.

Lemma div_num_le x n : 0 <= x -> (2 <= n)%nat -> 0 <= x / INR n <= x.
Proof.
  intros Hx Hn. assert (2 <= INR n) by (change 2 with (INR 2); apply le_INR; lia).
  assert (0 < / INR n) by (apply Rinv_0_lt_compat; lra).
  assert (/ INR n <= 1) by (rewrite <- Rinv_1; apply Rinv_le_contravar; lra).
  unfold Rdiv. split; nra.
Qed.

(** For every loss whatsoever (infinite and NaN values included), the result of the Fibonacci
    search lies between 1/num of the initial value and the initial value. *)
Theorem C57_fib_in_bracket ql num s init j s' r :
  0 <= init j -> mse_search ql num Fibonacci s init = Some (s', r) ->
  init j / INR num <= r j <= init j.
Proof.
  intros Hi. unfold mse_search, mse_fib_search. destruct (num <? 2)%nat eqn:En; [discriminate|].
  apply Nat.ltb_ge in En.
  destruct (fib_loop _ _ _ _ _ _ _ _ _ _) as [s1 b] eqn:E. intros [= _ <-].
  assert (D := div_num_le (init j) num Hi En).
  assert (Rt := fib_ratio (num - 2)). replace (num - 2 + 2)%nat with num in Rt by lia.
  assert (G := fib_loop_bracket ql num j (init j / INR num) (init j) (num - 1) 2 s
    (fun j => init j / INR num) init (fun j => init j - init j / INR num)
    (fun j => INR (fib (num - 2)) / INR (fib num) * (init j - init j / INR num))
    (fun j => init j / INR num)).
  rewrite E in G. cbn [snd] in G. apply G; try lia; try lra. cbv beta.
  set (q := INR (fib (num - 2)) / INR (fib num)) in *. clearbody q. nra.
Qed.

(** Fewer than two iterations raise. *)
Theorem C57_fib_needs_two ql num s init :
  mse_search ql num Fibonacci s init = None <-> (num < 2)%nat.
Proof.
  unfold mse_search, mse_fib_search. destruct (num <? 2)%nat eqn:E.
  - apply Nat.ltb_lt in E. split; [intros _; exact E|reflexivity].
  - apply Nat.ltb_ge in E. destruct (fib_loop _ _ _ _ _ _ _ _ _ _). split; [discriminate|lia].
Qed.

(** Strictly unimodal loss with its minimum at [m]. *)
Definition unimodal (l : R -> R) (m : R) : Prop :=
  (forall x y, x < y <= m -> l y < l x) /\ (forall x y, m <= x < y -> l x < l y).

Lemma fin_compare a b :
  (a < b -> fle (Fin a) (Fin b) = true /\ fge (Fin a) (Fin b) = false /\ fne (Fin a) (Fin b) = true) /\
  (b < a -> fle (Fin a) (Fin b) = false /\ fge (Fin a) (Fin b) = true /\ fne (Fin a) (Fin b) = true) /\
  (a = b -> fle (Fin a) (Fin b) = true /\ fge (Fin a) (Fin b) = true /\ fne (Fin a) (Fin b) = false).
Proof.
  unfold fge, fle, fne. destruct (Rle_dec a b), (Rle_dec b a), (Req_EM_T a b);
    repeat split; intros; try reflexivity; exfalso; lra.
Qed.

(** State of a run: [k] iterations left, bracket of F(k+1) cells of width [c] starting at cell [p],
    and the step F(k) or F(k-1) cells. *)
Lemma fib_loop_accuracy ql num j (l : R -> R) m A c steps : forall k i s xl xr L0 Li la p,
  quiet (mods s) ->
  (forall v, ql (evaluating (mods s)) v j = Fin (l (v j))) ->
  unimodal l m -> 0 <= c ->
  (forall a b, (a < b <= fib num)%nat -> 0 < c -> l (A + INR a * c) <> l (A + INR b * c)) ->
  (steps = S k)%nat -> (2 <= i)%nat -> (i + steps = num + 1)%nat ->
  (p + fib (S (S k)) <= fib num)%nat ->
  xl j = A + INR p * c -> xr j = xl j + INR (fib (S (S k))) * c -> L0 j = xr j - xl j ->
  (Li j = INR (fib (S k)) * c \/ Li j = INR (fib k) * c) ->
  xl j <= m <= xr j ->
  Rabs (snd (fib_loop ql num steps i s xl xr L0 Li la) j - m) <= c.
Proof.
  induction steps as [|st IH]; intros k i s xl xr L0 Li la p Hq Hsep Hu Hc Hg Hst Hi Hn Hp Hxl Hxr HL HLi Hm;
    [discriminate|].
  injection Hst as ->. cbn [fib_loop]. cbv zeta.
  set (x1 := vwhere _ (fun j0 => xr j0 - Li j0) (fun j0 => xl j0 + Li j0)).
  set (x2 := vwhere _ (fun j0 => xl j0 + Li j0) (fun j0 => xr j0 - Li j0)).
  destruct (evaluate_loss ql s x1) as [s' f1] eqn:E.
  destruct (evaluate_loss_quiet ql s x1 Hq) as [E1 E2]. rewrite E in E1, E2. cbn [fst snd] in E1, E2.
  assert (Hq' : quiet (mods s')) by (rewrite E1; exact Hq).
  destruct (evaluate_loss ql s' x2) as [s'' f2] eqn:E'.
  destruct (evaluate_loss_quiet ql s' x2 Hq') as [E3 E4]. rewrite E' in E3, E4. cbn [fst snd] in E3, E4.
  assert (F1 : f1 j = Fin (l (x1 j))) by (rewrite E2; apply Hsep).
  assert (F2 : f2 j = Fin (l (x2 j))) by (rewrite E4, E1; apply Hsep).
  assert (Hq'' : quiet (mods s'')) by (rewrite E3; exact Hq').
  assert (Hsep'' : forall v, ql (evaluating (mods s'')) v j = Fin (l (v j))) by (rewrite E3, E1; exact Hsep).
  assert (Fs : INR (fib (S (S k))) = INR (fib k) + INR (fib (S k))) by (rewrite fib_SS, plus_INR; reflexivity).
  assert (Fm : INR (fib k) <= INR (fib (S k))) by (apply le_INR, fib_mono).
  assert (F0 : 0 <= INR (fib k)) by apply pos_INR.
  (* the probes *)
  assert (X : x1 j = A + INR (p + fib k) * c /\ x2 j = A + INR (p + fib (S k)) * c).
  { unfold x1, x2, vwhere. rewrite !plus_INR.
    destruct (Rgt_dec (Li j) (L0 j / 2)) as [G|G]; destruct HLi as [HLi|HLi]; rewrite HLi, HL, Hxr in *;
      rewrite Fs in *; rewrite Hxl.
    - split; ring.
    - assert (INR (fib k) * c <= INR (fib (S k)) * c) by (apply Rmult_le_compat_r; assumption).
      exfalso. lra.
    - assert (INR (fib k) * c <= INR (fib (S k)) * c) by (apply Rmult_le_compat_r; assumption).
      split; lra.
    - split; ring. }
  destruct X as [X1 X2].
  destruct k as [|[|k]].
  - (* one iteration left: the two ends *)
    cbn [fib_loop snd]. unfold vwhere at 1. change (fib 1) with 1%nat in *. change (fib 0) with 0%nat in *.
    change (fib 2) with 1%nat in *. rewrite X1, X2. rewrite !plus_INR in *.
    cbn [INR] in *. destruct (fle (f1 j) (f2 j)); apply Rabs_le; lra.
  - (* two iterations left: both probes are the middle *)
    change (fib 1) with 1%nat in *. change (fib 2) with 1%nat in *. change (fib 3) with 2%nat in *.
    assert (T : x1 j = x2 j) by (rewrite X1, X2; reflexivity).
    destruct (fin_compare (l (x1 j)) (l (x2 j))) as (_ & _ & Ht).
    destruct Ht as (T1 & T2 & T3); [rewrite T; reflexivity|].
    rewrite <- F1, <- F2 in T1, T2, T3.
    cbn [fib_loop]. cbv zeta.
    match goal with |- context [evaluate_loss ql s'' ?v] => destruct (evaluate_loss ql s'' v) as [s3 g1] end.
    match goal with |- context [evaluate_loss ql s3 ?v] => destruct (evaluate_loss ql s3 v) as [s4 g2] end.
    cbn [snd]. unfold vwhere. rewrite T1, T2, T3. fold x1 x2. rewrite T.
    assert (Z : x2 j - x2 j = 0) by ring. rewrite Z, Rmult_0_r, Rplus_0_r, Rminus_0_r.
    assert (W : forall b1 b2 : bool, Rabs ((if b1 then if b2 then x2 j else x2 j
        else if b2 then x2 j else x2 j) - m) <= c).
    { intros b1 b2. replace (if b1 then if b2 then x2 j else x2 j else if b2 then x2 j else x2 j)
        with (x2 j) by (destruct b1, b2; reflexivity).
      rewrite X2, plus_INR. cbn [INR] in *. apply Rabs_le. lra. }
    match goal with |- Rabs ((if ?b then if ?d then _ else _ else _) - m) <= c => apply (W b d) end.
  - (* general step *)
    assert (Fg : (fib (S (S k)) < fib (S (S (S k))))%nat)
      by (rewrite (fib_SS (S k)); assert (Q := fib_pos k); lia).
    assert (Rc : INR (fib (num - i)) / INR (fib (num - (i - 2))) * (xr j - xl j) = INR (fib (S (S k))) * c).
    { replace (num - i)%nat with (S (S k)) by lia. replace (num - (i - 2))%nat with (S (S (S (S k)))) by lia.
      rewrite Hxr. assert (0 < INR (fib (S (S (S (S k)))))) by (apply lt_0_INR, fib_pos). field. lra. }
    assert (Hd : 0 < c \/ c = 0) by lra. destruct Hd as [Hd|Hd].
    + assert (Lt : x1 j < x2 j).
      { rewrite X1, X2, !plus_INR. apply lt_INR in Fg. nra. }
      assert (Hne : l (x1 j) <> l (x2 j)).
      { rewrite X1, X2. apply Hg; [|assumption]. rewrite fib_SS in Hp. lia. }
      destruct (Rlt_or_le (l (x1 j)) (l (x2 j))) as [Hlt|Hge].
      * destruct (fin_compare (l (x1 j)) (l (x2 j))) as (C & _ & _). destruct (C Hlt) as (T1 & T2 & T3).
        rewrite <- F1, <- F2 in T1, T2, T3.
        apply (IH (S k) (S i) _ _ _ _ _ _ p Hq'' Hsep'' Hu Hc Hg eq_refl); try lia.
        -- rewrite fib_SS in Hp. lia.
        -- unfold vwhere. rewrite T2. exact Hxl.
        -- unfold vwhere. rewrite T1, T2. fold x2. rewrite X2, Hxl, plus_INR. ring.
        -- reflexivity.
        -- left. cbv beta. rewrite T3. rewrite HL. exact Rc.
        -- unfold vwhere. rewrite T1, T2. fold x2. split; [lra|].
           destruct (Rle_or_lt m (x2 j)); [assumption|]. exfalso.
           destruct Hu as [U _]. specialize (U (x1 j) (x2 j)). lra.
      * assert (Hgt : l (x2 j) < l (x1 j)) by lra.
        destruct (fin_compare (l (x1 j)) (l (x2 j))) as (_ & C & _). destruct (C Hgt) as (T1 & T2 & T3).
        rewrite <- F1, <- F2 in T1, T2, T3.
        apply (IH (S k) (S i) _ _ _ _ _ _ (p + fib (S (S k)))%nat Hq'' Hsep'' Hu Hc Hg eq_refl); try lia.
        -- rewrite fib_SS in Hp. lia.
        -- unfold vwhere. rewrite T2. fold x1. exact X1.
        -- unfold vwhere. rewrite T1, T2. fold x1. rewrite X1, Hxr, Hxl, plus_INR.
           rewrite Fs. ring.
        -- reflexivity.
        -- left. cbv beta. rewrite T3. rewrite HL. exact Rc.
        -- unfold vwhere. rewrite T1, T2. fold x1. split; [|lra].
           destruct (Rle_or_lt (x1 j) m); [assumption|]. exfalso.
           destruct Hu as [_ U]. specialize (U (x1 j) (x2 j)). lra.
    + (* degenerate bracket *)
      subst c. rewrite Rmult_0_r in *.
      assert (T : x1 j = x2 j) by lra.
      destruct (fin_compare (l (x1 j)) (l (x2 j))) as (_ & _ & C).
      destruct C as (T1 & T2 & T3); [rewrite T; reflexivity|]. rewrite <- F1, <- F2 in T1, T2, T3.
      apply (IH (S k) (S i) _ _ _ _ _ _ p Hq'' Hsep'' Hu Hc); try lia.
      * intros; lra.
      * rewrite fib_SS in Hp. lia.
      * unfold vwhere. rewrite T2. fold x1. lra.
      * unfold vwhere. rewrite T1, T2. fold x1 x2. lra.
      * reflexivity.
      * left. cbv beta. unfold vwhere. rewrite T1, T2, T3. fold x1 x2.
        rewrite T. replace (x2 j - x2 j) with 0 by ring. ring.
      * unfold vwhere. rewrite T1, T2. fold x1 x2. lra.
Qed.

(** For a strictly unimodal loss with minimum [m] inside the bracket, the result is within one
    cell of [m], where the bracket is divided into F(num) cells (6765 for the default 20
    iterations) — provided the loss differs at any two of the cell boundaries, so that no
    comparison of two different probes is a tie. *)
Theorem C57_fib_accuracy ql num s init j (l : R -> R) m s' r :
  quiet (mods s) ->
  (forall v, ql (evaluating (mods s)) v j = Fin (l (v j))) ->
  0 <= init j -> unimodal l m -> init j / INR num <= m <= init j ->
  let c := (init j - init j / INR num) / INR (fib num) in
  (forall a b, (a < b <= fib num)%nat -> 0 < c ->
     l (init j / INR num + INR a * c) <> l (init j / INR num + INR b * c)) ->
  mse_search ql num Fibonacci s init = Some (s', r) ->
  Rabs (r j - m) <= c.
Proof.
  intros Hq Hsep Hi Hu Hm c Hg. unfold mse_search, mse_fib_search.
  destruct (num <? 2)%nat eqn:En; [discriminate|]. apply Nat.ltb_ge in En.
  destruct (fib_loop _ _ _ _ _ _ _ _ _ _) as [s1 b] eqn:E. intros [= _ <-].
  assert (D := div_num_le (init j) num Hi En).
  destruct num as [|[|n]]; try lia.
  assert (P : 0 < INR (fib (S (S n)))) by (apply lt_0_INR, fib_pos).
  assert (Hc : 0 <= c).
  { unfold c, Rdiv. apply Rmult_le_pos; [lra|left; apply Rinv_0_lt_compat; assumption]. }
  assert (Ec : init j - init j / INR (S (S n)) = INR (fib (S (S n))) * c) by (unfold c; set (d := init j / INR (S (S n))); field; lra).
  assert (G := fib_loop_accuracy ql (S (S n)) j l m (init j / INR (S (S n))) c (S n) n 2 s
    (fun j => init j / INR (S (S n))) init (fun j => init j - init j / INR (S (S n)))
    (fun j => INR (fib (S (S n) - 2)) / INR (fib (S (S n))) * (init j - init j / INR (S (S n))))
    (fun j => init j / INR (S (S n))) 0%nat Hq Hsep Hu Hc Hg eq_refl).
  replace (S (S n) - 1)%nat with (S n) in E by lia. rewrite E in G. cbn [snd] in G. apply G; try lia.
  - cbn [INR]. ring.
  - cbv beta. lra.
  - reflexivity.
  - right. cbv beta. rewrite Ec. replace (S (S n) - 2)%nat with n by lia. field. lra.
  - exact Hm.
Qed.

(** One channel of the loop, for evaluating examples. *)
Fixpoint fibs (l : R -> R) (num steps i : nat) (xl xr L0 Li la : R) : R :=
  match steps with
  | O => la
  | S k =>
      let c := if Rgt_dec Li (L0 / 2) then true else false in
      let x1 := if c then xr - Li else xl + Li in
      let x2 := if c then xl + Li else xr - Li in
      let f1 := Fin (l x1) in let f2 := Fin (l x2) in
      let xr := if fle f1 f2 then x2 else xr in
      let xl := if fge f1 f2 then x1 else xl in
      fibs l num k (S i) xl xr (xr - xl)
        (INR (fib (num - i)) / INR (fib (num - (i - 2))) * (if fne f1 f2 then L0 else xr - xl))
        (if fle f1 f2 then x1 else x2)
  end.

Lemma fib_loop_scalar ql num l j :
  (forall ms v, ql ms v j = Fin (l (v j))) -> forall steps i s xl xr L0 Li la,
  snd (fib_loop ql num steps i s xl xr L0 Li la) j = fibs l num steps i (xl j) (xr j) (L0 j) (Li j) (la j).
Proof.
  intros Hs. induction steps as [|k IH]; intros i s xl xr L0 Li la; [reflexivity|].
  cbn [fib_loop fibs]. unfold evaluate_loss. cbv zeta. cbn [fst snd]. rewrite IH.
  unfold vwhere. rewrite !Hs. reflexivity.
Qed.

(** One step with known probes, first probe better. *)
Lemma fibs_left l num k i xl xr L0 Li la x1 x2 r :
  (Li > L0 / 2 /\ x1 = xr - Li /\ x2 = xl + Li \/ Li <= L0 / 2 /\ x1 = xl + Li /\ x2 = xr - Li) ->
  l x1 < l x2 -> r = INR (fib (num - i)) / INR (fib (num - (i - 2))) ->
  fibs l num (S k) i xl xr L0 Li la = fibs l num k (S i) xl x2 (x2 - xl) (r * L0) x1.
Proof.
  intros H Hl ->. cbn [fibs]. cbv zeta.
  assert (E1 : (if (if Rgt_dec Li (L0 / 2) then true else false) then xr - Li else xl + Li) = x1)
    by (destruct (Rgt_dec Li (L0 / 2)); lra).
  assert (E2 : (if (if Rgt_dec Li (L0 / 2) then true else false) then xl + Li else xr - Li) = x2)
    by (destruct (Rgt_dec Li (L0 / 2)); lra).
  rewrite E1, E2. destruct (fin_compare (l x1) (l x2)) as (C & _ & _). destruct (C Hl) as (-> & -> & ->).
  reflexivity.
Qed.

(** A negative starting value (the zero-point statistic) breaks the Fibonacci search: the bracket
    is walked backwards and candidates outside it are returned.  (The library's zero-point search
    selects the grid instead.) *)
Theorem C57_fib_negative_init_refuted :
  exists ql num s init s' r (l : R -> R) m, quiet (mods s) /\
    (forall v, ql (evaluating (mods s)) v 0%nat = Fin (l (v 0%nat))) /\
    unimodal l m /\ init 0%nat <= m <= init 0%nat / INR num /\
    mse_search ql num Fibonacci s init = Some (s', r) /\
    r 0%nat = -3/2 /\ m = -3 /\ init 0%nat = -4 /\ l (init 0%nat) < l (r 0%nat).
Proof.
  set (l := fun x => (x + 3) * (x + 3)).
  exists (fun _ v j => Fin (l (v j))), 4%nat, (Mst [] [] None), (fun _ => -4).
  destruct (mse_search (fun _ v j => Fin (l (v j))) 4 Fibonacci (Mst [] [] None) (fun _ => -4))
    as [[s' r]|] eqn:E; [|apply C57_fib_needs_two in E; lia].
  exists s', r, l, (-3). split; [constructor|]. split; [reflexivity|].
  split; [unfold unimodal, l; split; intros; nra|]. split; [cbn [INR]; lra|]. split; [exact E|].
  assert (Er : r 0%nat = -3/2).
  { unfold mse_search, mse_fib_search in E. change (4 <? 2)%nat with false in E.
    cbv beta iota zeta in E.
    match type of E with context [fib_loop ?q ?n ?st ?i ?s0 ?a ?b ?c ?d ?e] =>
      assert (G := fib_loop_scalar q n l 0%nat (fun ms v => eq_refl) st i s0 a b c d e);
      destruct (fib_loop q n st i s0 a b c d e) as [s1 r1] end.
    injection E as _ <-. cbn [snd] in G. rewrite G. clear G.
    change (fib (4 - 2)) with 1%nat. change (fib 4) with 3%nat. change (4 - 1)%nat with 3%nat.
    rewrite (fibs_left l 4 2 2 _ _ _ _ _ (-3) (-2) (1/3)); cbn [INR]; unfold l;
      [|left; simpl; lra|simpl; lra|simpl; lra].
    rewrite (fibs_left l 4 1 3 _ _ _ _ _ (-2) (-1) (1/2)); cbn [INR]; unfold l;
      [|right; simpl; lra|simpl; lra|simpl; lra].
    rewrite (fibs_left l 4 0 4 _ _ _ _ _ (-3/2) (-1/2) 0); cbn [INR]; unfold l;
      [|right; simpl; lra|simpl; lra|simpl; lra].
    reflexivity. }
  split; [exact Er|]. split; [reflexivity|]. split; [reflexivity|]. cbv beta. rewrite Er. unfold l. lra.
Qed.

(** The hypotheses are met by ordinary losses: three observed flags, two channels with different
    quadratic losses, ten grid steps. *)
Example C57_grid_example :
  exists s' r,
    mse_search (fun _ v j => Fin ((v j - INR (j + 1)) * (v j - INR (j + 1)))) 10 Grid
      (Mst [Md (Some false) (Some true); Md None (Some false)] [] None) (fun _ => 5) = Some (s', r) /\
    mods s' = [Md (Some false) (Some true); Md None (Some false)] /\
    r 0%nat = 1 /\ r 1%nat = 2.
Proof.
  set (ql := fun (_ : list md) (v : vec) (j : nat) => Fin ((v j - INR (j + 1)) * (v j - INR (j + 1)))).
  set (s := Mst [Md (Some false) (Some true); Md None (Some false)] [] None).
  assert (Hq : quiet (mods s)) by (repeat constructor; cbn; congruence).
  destruct (mse_search ql 10 Grid s (fun _ => 5)) as [[s' r]|] eqn:E.
  2:{ unfold mse_search in E. destruct (mse_grid_search _ _ _ _); discriminate. }
  exists s', r. split; [reflexivity|]. split; [exact (C57_flags_restored _ _ _ _ _ _ _ Hq E)|].
  assert (K : forall j, (j <= 1)%nat -> r j = INR (j + 1)).
  { intros j Hj.
    destruct (C57_grid_optimal ql 10 s (fun _ => 5) s' r j
      (fun x => Fin ((x - INR (j + 1)) * (x - INR (j + 1))))) as (i & Hi & Hr & Hb); try assumption; try lia.
    - reflexivity.
    - intros i Hi. eexists. reflexivity.
    - specialize (Hb (2 * (j + 1))%nat ltac:(lia)). unfold fl_le, fle in Hb.
      destruct (Rle_dec _ _) as [H|]; [|discriminate].
      rewrite mult_INR in H. replace (INR 10) with 10 in H by (cbn; lra). replace (INR 2) with 2 in H by (cbn; lra).
      replace (5 / 10 * (2 * INR (j + 1)) - INR (j + 1)) with 0 in H by field.
      rewrite Rmult_0_l in H. nra. }
  split; [rewrite K by lia; simpl; lra|rewrite K by lia; simpl; lra].
Qed.

(** ... and for the Fibonacci accuracy: minimum at 4/3, five iterations, loss values distinct. *)
Example C57_fib_example :
  exists s' r,
    mse_search (fun _ v j => Fin ((v j - 4/3) * (v j - 4/3))) 5 Fibonacci
      (Mst [Md (Some false) None] [] None) (fun _ => 5) = Some (s', r) /\
    Rabs (r 0%nat - 4/3) <= 4/5.
Proof.
  destruct (mse_search (fun _ v j => Fin ((v j - 4/3) * (v j - 4/3))) 5 Fibonacci
      (Mst [Md (Some false) None] [] None) (fun _ => 5)) as [[s' r]|] eqn:E.
  2:{ apply C57_fib_needs_two in E. lia. }
  exists s', r. split; [reflexivity|].
  replace (4/5) with ((5 - 5 / INR 5) / INR (fib 5)) by (change (fib 5) with 5%nat; simpl; lra).
  apply (C57_fib_accuracy _ 5 _ (fun _ => 5) 0 (fun x => (x - 4/3) * (x - 4/3)) (4/3)) with (7 := E).
  - repeat constructor. cbn. congruence.
  - reflexivity.
  - lra.
  - split; intros; nra.
  - replace (INR 5) with 5 by (simpl; lra). lra.
  - change (fib 5) with 5%nat. replace (INR 5) with 5 by (simpl; lra). intros a b [Hab Hb] _.
    assert (La : INR a < INR b) by (apply lt_INR; lia).
    rewrite !INR_IZR_INZ in *.
    replace ((5 - 5 / 5) / 5) with (4/5) by field. replace (5/5) with 1 by field.
    intros C.
    assert (D : (IZR (Z.of_nat a) - IZR (Z.of_nat b)) *
      (12 * (IZR (Z.of_nat a) + IZR (Z.of_nat b)) - 10) = 0) by nra.
    apply Rmult_integral in D. destruct D as [D|D]; [lra|].
    rewrite <- plus_IZR, <- mult_IZR in D.
    assert (D' : IZR (12 * (Z.of_nat a + Z.of_nat b)) = IZR 10) by lra. apply eq_IZR in D'. lia.
Qed.

(** ** Half-quadratic optimisation *)

(** The [n]-th candidate of a run that does not stop, from the initial value and beta. *)
Fixpoint trajectory {A} (next : R -> A -> A) (kappa beta : R) (c : A) (n : nat) : A :=
  match n with O => c | S k => trajectory next kappa (beta * kappa) (next beta c) k end.

Lemma hqo_loop_best {A} (loss : A -> fl) next kappa iters : forall beta c bl best,
  (forall n, loss (trajectory next kappa beta c n) <> NaN) ->
  loss best = bl -> bl <> NaN ->
  let r := fst (hqo_loop A loss next kappa iters beta c bl best) in
  (r = best /\ (iters = 0%nat \/ fle bl (loss c) = true)) \/
  (exists n, (n < iters)%nat /\ r = trajectory next kappa beta c n /\ flt (loss r) bl = true /\
    (forall m, (m <= n)%nat -> fle (loss r) (loss (trajectory next kappa beta c m)) = true) /\
    ((S n < iters)%nat -> fle (loss r) (loss (trajectory next kappa beta c (S n))) = true)).
Proof.
  induction iters as [|k IH]; intros beta c bl best Hn Hb Hbl; cbn [hqo_loop].
  { left. split; [reflexivity|]. left. reflexivity. }
  cbv zeta. assert (N0 := Hn 0%nat). cbn [trajectory] in N0. unfold fge.
  destruct (fle bl (loss c)) eqn:F.
  - cbn [fst]. rewrite flt_spec by assumption. rewrite F. cbn [negb]. left. split; [reflexivity|].
    right. reflexivity.
  - assert (L : flt (loss c) bl = true) by (rewrite flt_spec, F by assumption; reflexivity).
    rewrite L, fmin_spec, L by assumption. right.
    destruct (IH (beta * kappa) (next beta c) (loss c) c) as [[R1 R2]|(n & Hk & R1 & R2 & R3 & R4)].
    + intros n. apply (Hn (S n)).
    + reflexivity.
    + assumption.
    + exists 0%nat. split; [lia|]. cbn [trajectory]. split; [exact R1|]. rewrite R1. split; [exact L|].
      split.
      * intros m Hm. replace m with 0%nat by lia. cbn [trajectory]. apply fle_refl. assumption.
      * intros Hk. destruct R2 as [R2|R2]; [lia|exact R2].
    + exists (S n). split; [lia|]. split; [exact R1|].
      split.
      * rewrite flt_spec; [|intros C; rewrite C in R2; discriminate|assumption].
        match goal with |- negb (fle bl ?y) = true => destruct (fle bl y) eqn:G; [|reflexivity] end.
        exfalso. apply flt_fle in R2. assert (C := fle_trans _ _ _ G R2). congruence.
      * split.
        -- intros m Hm. destruct m as [|m]; [cbn [trajectory]; apply flt_fle; exact R2|].
           cbn [trajectory]. apply R3. lia.
        -- intros Hk'. exact (R4 ltac:(lia)).
Qed.

(** The optimiser returns one of the candidates it evaluated, no worse than any candidate before
    it, and stops at the first candidate that is no improvement. *)
Theorem C76_hqo_best_so_far {A} (loss : A -> fl) next kappa iters beta init :
  (0 < iters)%nat -> (exists y, loss init = Fin y) ->
  (forall n, loss (trajectory next kappa beta init n) <> NaN) ->
  let r := fst (hqo_search A loss next kappa iters beta init) in
  exists n, (n < iters)%nat /\ r = trajectory next kappa beta init n /\
    (forall m, (m <= n)%nat -> fl_le (loss r) (loss (trajectory next kappa beta init m))) /\
    ((S n < iters)%nat -> fl_le (loss r) (loss (trajectory next kappa beta init (S n)))).
Proof.
  intros Hi [y Hy] Hn. unfold hqo_search. destruct iters as [|k]; [lia|]. cbn [hqo_loop]. cbv zeta.
  rewrite Hy. cbn [flt fge fle fmin].
  destruct (hqo_loop_best loss next kappa k (beta * kappa) (next beta init) (Fin y) init)
    as [[R1 R2]|(n & Hk & R1 & R2 & R3 & R4)].
  - intros n. apply (Hn (S n)).
  - exact Hy.
  - discriminate.
  - exists 0%nat. split; [lia|]. cbn [trajectory]. split; [exact R1|]. rewrite R1, Hy. split.
    + intros m Hm. replace m with 0%nat by lia. cbn [trajectory]. rewrite Hy. apply fle_refl. discriminate.
    + intros Hk. destruct R2 as [R2|R2]; [lia|exact R2].
  - exists (S n). split; [lia|]. split; [exact R1|]. split.
    + intros m Hm. destruct m as [|m]; [cbn [trajectory]; rewrite Hy; apply flt_fle; exact R2|].
      cbn [trajectory]. apply R3. lia.
    + intros Hk'. exact (R4 ltac:(lia)).
Qed.

Lemma roundR_IZR z : roundR (IZR z) = IZR z.
Proof.
  unfold roundR. assert (E : Int_part (IZR z) = z).
  { destruct (base_Int_part (IZR z)) as [A B].
    assert ((Int_part (IZR z) <= z)%Z) by (apply le_IZR; lra).
    assert ((z < Int_part (IZR z) + 1)%Z) by (apply lt_IZR; rewrite plus_IZR; lra). lia. }
  rewrite E. destruct (Rlt_dec (IZR z - IZR z) (1/2)); [reflexivity|lra].
Qed.

(** On weights that are already exactly representable (no error left to shrink), the zero-point
    update finds the zero point of the quantizer... *)
Theorem C76_zero_point_update_exact (s : R) (q zp : Z) :
  s <> 0 -> hqo_zero_point_value (IZR (q - zp) * s) 0 (IZR (q - zp) * s) s (IZR zp) = - (IZR zp * s).
Proof. intros Hs. unfold hqo_zero_point_value. rewrite minus_IZR. field. assumption. Qed.

(** ... and the scale update finds its scale, but only for a zero point of zero: *)
Theorem C76_scale_update_exact (s : R) (q : Z) :
  s <> 0 -> q <> 0%Z -> hqo_scale_ratio (IZR q * s) 0 (IZR q * s) s 0 = s.
Proof.
  intros Hs Hq. unfold hqo_scale_ratio. replace (IZR q * s / s) with (IZR q) by (field; assumption).
  rewrite roundR_IZR. field. apply not_0_IZR. assumption.
Qed.

(** the zero point is subtracted a second time from the already shifted codes. *)
Theorem C76_scale_update_shifted (s : R) (q zp : Z) :
  s <> 0 -> (q - 2 * zp <> 0)%Z ->
  hqo_scale_ratio (IZR (q - zp) * s) 0 (IZR (q - zp) * s) s (IZR zp) =
  s * IZR (q - zp) / IZR (q - 2 * zp).
Proof.
  intros Hs Hq. unfold hqo_scale_ratio.
  replace (IZR (q - zp) * s / s) with (IZR (q - zp)) by (field; assumption).
  rewrite roundR_IZR. replace (IZR (q - zp) - IZR zp) with (IZR (q - 2 * zp)).
  - field. apply not_0_IZR. assumption.
  - rewrite !minus_IZR, mult_IZR. ring.
Qed.

Theorem C76_scale_update_refuted :
  exists s q zp, s <> 0 /\
    hqo_scale_ratio (IZR (q - zp) * s) 0 (IZR (q - zp) * s) s (IZR zp) = -3 * s.
Proof.
  exists 1, 14%Z, 8%Z. split; [lra|]. rewrite C76_scale_update_shifted; [|lra|lia].
  change (14 - 8)%Z with 6%Z. change (14 - 2 * 8)%Z with (-2)%Z. lra.
Qed.

(** Optimising the scale leaves the optimiser as it was, so the same input gives the same result
    again. *)
Theorem C76_scale_repeatable {A} (loss : A -> fl) next kappa iters beta init :
  let '(r, beta') := hqo_scale_optimize loss next kappa iters beta init in
  fst (hqo_scale_optimize loss next kappa iters beta' init) = r.
Proof. reflexivity. Qed.

(** Not so for the zero point, whose beta keeps growing from call to call: the update for one
    weight 0.4 at scale 1 with an unrounded zero point, where the second call on the same weight
    no longer reaches the exact solution of the first. *)
Definition one_weight_value (x c : R) : R := roundR (x - c) + c.
Definition one_weight_loss (x c : R) : fl := Fin (Rabs (one_weight_value x c - x)).
Definition one_weight_next (x beta c : R) : R :=
  hqo_zero_point_value x (shrink_l1 (x - one_weight_value x c) beta) (one_weight_value x c) 1 (- c).

Lemma roundR_small x : -1/2 < x < 1/2 -> roundR x = 0.
Proof.
  intros H. unfold roundR. destruct (base_Int_part x) as [A B].
  destruct (Rlt_or_le x 0) as [N|N].
  - assert (E : Int_part x = (-1)%Z).
    { assert ((Int_part x < 0)%Z) by (apply lt_IZR; lra).
      assert ((-2 < Int_part x)%Z) by (apply lt_IZR; lra). lia. }
    rewrite E. destruct (Rlt_dec (x - -1) (1/2)); [lra|]. destruct (Rlt_dec (1/2) (x - -1)); [|lra].
    reflexivity.
  - assert (E : Int_part x = 0%Z).
    { assert ((Int_part x < 1)%Z) by (apply lt_IZR; lra).
      assert ((-1 < Int_part x)%Z) by (apply lt_IZR; lra). lia. }
    rewrite E. destruct (Rlt_dec (x - 0) (1/2)); [reflexivity|lra].
Qed.

Theorem C76_zero_point_repeatable_refuted :
  exists x kappa beta, 0 < beta /\ 1 < kappa /\
    let run b := hqo_zero_point_optimize (one_weight_loss x) (one_weight_next x) kappa 2 b 0 in
    fst (run (snd (run beta))) <> fst (run beta) /\
    one_weight_loss x (fst (run beta)) = Fin 0 /\
    one_weight_loss x (fst (run (snd (run beta)))) <> Fin 0.
Proof.
  exists (2/5), 4, 1. split; [lra|]. split; [lra|].
  assert (V : forall c, -1/10 < c < 9/10 -> one_weight_value (2/5) c = c).
  { intros c Hc. unfold one_weight_value. rewrite roundR_small by lra. ring. }
  assert (Ls : forall c, -1/10 < c < 9/10 -> one_weight_loss (2/5) c = Fin (Rabs (c - 2/5))).
  { intros c Hc. unfold one_weight_loss. rewrite V by lra. reflexivity. }
  assert (Nx : forall b c, -1/10 < c < 9/10 ->
     one_weight_next (2/5) b c = 2/5 - shrink_l1 (2/5 - c) b).
  { intros b c Hc. unfold one_weight_next, hqo_zero_point_value. rewrite V by lra. field. }
  assert (Run : forall b c1, one_weight_next (2/5) b 0 = c1 -> 0 < c1 <= 2/5 ->
    hqo_zero_point_optimize (one_weight_loss (2/5)) (one_weight_next (2/5)) 4 2 b 0 =
    (c1, b * 4 * 4)).
  { intros b c1 E1 Hc1. unfold hqo_zero_point_optimize, hqo_search. cbn [hqo_loop]. cbv zeta.
    rewrite E1, !Ls by lra. rewrite (Rabs_left (0 - 2/5)), (Rabs_left1 (c1 - 2/5)) by lra.
    cbn [fge fle flt fmin].
    unfold fge, fle, flt. destruct (Rle_dec (- (0 - 2/5)) (- (c1 - 2/5))); [lra|].
    destruct (Rlt_dec (- (c1 - 2/5)) (- (0 - 2/5))); [reflexivity|lra]. }
  assert (S1 : one_weight_next (2/5) 1 0 = 2/5).
  { rewrite Nx by lra. unfold shrink_l1. rewrite Rabs_right by lra.
    rewrite Rmax_right by lra. ring. }
  assert (S2 : one_weight_next (2/5) 16 0 = 1/16).
  { rewrite Nx by lra. unfold shrink_l1. rewrite Rabs_right by lra.
    destruct (Rlt_dec 0 (2/5 - 0)); [|lra]. rewrite Rmax_left by lra. field. }
  cbv beta zeta. rewrite (Run 1 (2/5) S1) by lra. cbn [snd fst]. replace (1 * 4 * 4) with 16 by ring.
  rewrite (Run 16 (1/16) S2) by lra. cbn [fst]. split; [lra|]. rewrite !Ls by lra. split.
  - f_equal. rewrite Rminus_diag_eq, Rabs_R0 by reflexivity. reflexivity.
  - intros [= C]. rewrite Rabs_left in C by lra. lra.
Qed.

(** A run of the scale optimiser meeting the hypotheses: the loss |c - 1|, halving the distance. *)
Example C76_hqo_example :
  let r := fst (hqo_search R (fun c => Fin (Rabs (c - 1))) (fun _ c => (c + 1) / 2) 2 3 1 9) in
  Rabs (r - 1) <= Rabs (9 - 1).
Proof.
  cbv zeta.
  destruct (C76_hqo_best_so_far (fun c => Fin (Rabs (c - 1))) (fun _ c => (c + 1) / 2) 2 3 1 9)
    as (n & _ & _ & H & _); [lia|eexists; reflexivity|intros; discriminate|].
  specialize (H 0%nat ltac:(lia)). unfold fl_le, fle in H. cbn [trajectory] in H.
  destruct (Rle_dec _ _); [assumption|discriminate].
Qed.

Print Assumptions C57_flags_restored.
Print Assumptions C57_grid_optimal.
Print Assumptions C57_fib_in_bracket.
Print Assumptions C57_fib_accuracy.
Print Assumptions C76_hqo_best_so_far.
Print Assumptions C76_zero_point_repeatable_refuted.
