(** C45 (alignment of outputs), C46 (initial states), C64 (torch checkpoints), C65 (shared input
    weights), C67 (continuing a sequence), C68 (coupled gates). *)
From Verif Require Import Rnn.
From Coq Require Import Reals List Bool ZArith Lia Lra Permutation.
Import ListNotations.
Open Scope R_scope.

Lemma list_eq_dec_nil {A} (l : list A) : {l = []} + {l <> []}.
Proof. destruct l; [left; reflexivity|right; discriminate]. Qed.

(** ** C45 *)
Section Loop.
  Context {St X : Type}.
  Variable step : St -> X -> St.

  (** The states after each prefix, in processing order. *)
  Fixpoint scan (xs : list X) (st : St) : list St :=
    match xs with [] => [] | x :: xs' => step st x :: scan xs' (step st x) end.
  Lemma scan_length xs : forall st, length (scan xs st) = length xs.
  Proof. induction xs as [|x xs IH]; intros st; cbn; [reflexivity|]. rewrite IH. reflexivity. Qed.
  Lemma scan_nth xs : forall st t, (t < length xs)%nat -> nth_error (scan xs st) t = Some (fold_left step (firstn (S t) xs) st).
  Proof.
    induction xs as [|x xs IH]; intros st t H; cbn in H; [lia|]. destruct t as [|t]; [destruct xs; reflexivity|].
    cbn [scan nth_error]. rewrite IH by lia. reflexivity.
  Qed.
  Lemma scan_app a b st : scan (a ++ b) st = (scan a st ++ scan b (fold_left step a st))%list.
  Proof. revert st. induction a as [|x a IH]; intros st; cbn; [reflexivity|]. rewrite IH. reflexivity. Qed.

  Lemma loop_fwd : forall ys pre st, loop step (pre ++ ys) (length ys) (Z.of_nat (length pre)) 1 st = Some (scan ys st).
  Proof.
    induction ys as [|y ys IH]; intros pre st; [reflexivity|]. cbn [loop length].
    destruct (Z.ltb_spec (Z.of_nat (length pre)) 0); [lia|]. rewrite Nat2Z.id, nth_error_app2 by lia. rewrite Nat.sub_diag. cbn [nth_error].
    replace (pre ++ y :: ys)%list with ((pre ++ [y]) ++ ys)%list by (rewrite <- app_assoc; reflexivity).
    replace (Z.of_nat (length pre) + 1)%Z with (Z.of_nat (length (pre ++ [y])%list)) by (rewrite app_length; cbn; lia).
    rewrite IH. reflexivity.
  Qed.
  Lemma loop_bwd : forall ys post st, loop step (rev ys ++ post) (length ys) (Z.of_nat (length ys) - 1) (-1) st = Some (scan ys st).
  Proof.
    induction ys as [|y ys IH]; intros post st; [reflexivity|]. cbn [loop length rev].
    destruct (Z.ltb_spec (Z.of_nat (S (length ys)) - 1) 0); [lia|].
    replace (Z.to_nat (Z.of_nat (S (length ys)) - 1)) with (length (rev ys)) by (rewrite rev_length; lia).
    rewrite <- app_assoc. rewrite nth_error_app2 by lia. rewrite Nat.sub_diag. cbn [nth_error app].
    replace (Z.of_nat (S (length ys)) - 1 + -1)%Z with (Z.of_nat (length ys) - 1)%Z by lia.
    rewrite IH. reflexivity.
  Qed.
  Lemma cell_forward_eq rv xs st : cell_forward step rv xs st = Some (scan (if rv then rev xs else xs) st).
  Proof.
    unfold cell_forward. destruct rv.
    - pose proof (loop_bwd (rev xs) [] st) as H. rewrite rev_involutive, app_nil_r, rev_length in H. exact H.
    - exact (loop_fwd xs [] st).
  Qed.
  Lemma scan_last xs st : xs <> [] -> exists l, rev (scan xs st) = fold_left step xs st :: l.
  Proof.
    intros H. destruct (exists_last H) as (ys & y & ->). rewrite scan_app, rev_app_distr, fold_left_app. cbn. eexists. reflexivity.
  Qed.
  Lemma layer_run_eq rv xs st : xs <> [] ->
    layer_run step rv xs st = Some (if rv then rev (scan (rev xs) st) else scan xs st, fold_left step (if rv then rev xs else xs) st).
  Proof.
    intros H. unfold layer_run. rewrite cell_forward_eq.
    assert (H' : (if rv then rev xs else xs) <> []). { destruct rv; [|exact H]. intros K. apply H. rewrite <- (rev_involutive xs), K. reflexivity. }
    destruct (scan_last _ st H') as [l ->]. destruct rv; reflexivity.
  Qed.
  Lemma layer_run_empty rv st : layer_run step rv [] st = None.
  Proof. destruct rv; reflexivity. Qed.

  Lemma rev_skipn (xs : list X) t : rev (skipn t xs) = firstn (length xs - t) (rev xs).
  Proof.
    rewrite <- (firstn_skipn t xs) at 3. rewrite rev_app_distr. rewrite firstn_app, rev_length, skipn_length, Nat.sub_diag.
    cbn [firstn]. rewrite app_nil_r, <- (skipn_length t), <- rev_length, firstn_all. reflexivity.
  Qed.
End Loop.

(** Position t of a forward layer is the state after inputs 0..t, of a reversed one the state
    after inputs T-1..t; the returned state is the one after the whole sequence. *)
Theorem C45_outputs : forall St X (step : St -> X -> St) rv xs st, xs <> [] ->
  exists outs final, layer_run step rv xs st = Some (outs, final) /\ length outs = length xs
  /\ (forall t, (t < length xs)%nat -> nth_error outs t = Some (if rv then fold_left step (rev (skipn t xs)) st else fold_left step (firstn (S t) xs) st))
  /\ final = fold_left step (if rv then rev xs else xs) st
  /\ nth_error outs (if rv then 0 else length xs - 1)%nat = Some final.
Proof.
  intros St X step rv xs st H. assert (L : (0 < length xs)%nat) by (destruct xs; [contradiction|cbn; lia]).
  do 2 eexists. split; [apply (layer_run_eq step rv xs st H)|].
  assert (P : forall t, (t < length xs)%nat -> nth_error (if rv then rev (scan step (rev xs) st) else scan step xs st) t
     = Some (if rv then fold_left step (rev (skipn t xs)) st else fold_left step (firstn (S t) xs) st)).
  { intros t Ht. destruct rv; [|apply scan_nth; exact Ht].
    set (l := scan step (rev xs) st). assert (LL : length l = length xs) by (unfold l; rewrite scan_length, rev_length; reflexivity).
    assert (D : (t < length l)%nat) by lia.
    rewrite (nth_error_nth' (rev l) st) by (rewrite rev_length; exact D). rewrite rev_nth by exact D.
    rewrite <- (nth_error_nth' l) with (d := st) by lia. unfold l at 1. rewrite scan_nth by (rewrite rev_length; lia).
    rewrite rev_skipn. f_equal. f_equal. f_equal. lia. }
  split; [destruct rv; [rewrite rev_length|]; rewrite scan_length, ?rev_length; reflexivity|].
  split; [exact P|]. split; [reflexivity|]. destruct rv.
  - rewrite P by lia. cbn [skipn]. reflexivity.
  - rewrite P by lia. replace (S (length xs - 1)) with (length xs) by lia. rewrite firstn_all. reflexivity.
Qed.

(** A reversed layer is the forward layer on the reversed sequence, with the outputs reversed back. *)
Theorem C45_mirror : forall St X (step : St -> X -> St) xs st outs final,
  layer_run step false (rev xs) st = Some (outs, final) -> layer_run step true xs st = Some (rev outs, final).
Proof.
  intros St X step xs st outs final E. destruct (list_eq_dec_nil xs) as [->|H].
  - discriminate.
  - rewrite layer_run_eq in E. 2:{ intros K. apply H. rewrite <- (rev_involutive xs), K. reflexivity. }
    injection E as <- <-. exact (layer_run_eq step true xs st H).
Qed.

(** Instances for the two layer kinds. *)
Theorem C45_rnn : forall n_in n_hid q g rv xs st, xs <> [] ->
  exists outs final, rnn_layer n_in n_hid q g rv xs st = Some (outs, final) /\ length outs = length xs /\
  forall t, (t < length xs)%nat -> nth_error outs t =
    Some (fold_left (rnn_iter n_in n_hid q g) (if rv then rev (skipn t xs) else firstn (S t) xs) (maybe_quantize_state (r_output q) st)).
Proof.
  intros n_in n_hid q g rv xs st H. destruct (C45_outputs _ _ (rnn_iter n_in n_hid q g) rv xs (maybe_quantize_state (r_output q) st) H) as (outs & final & E & L & P & _).
  exists outs, final. split; [exact E|]. split; [exact L|]. intros t Ht. rewrite (P t Ht). destruct rv; reflexivity.
Qed.
Theorem C45_lstm : forall n_in n_hid cifg q w rv xs hx cx, xs <> [] ->
  exists outs h c, lstm_layer n_in n_hid cifg q w rv xs hx cx = Some (outs, h, c) /\ length outs = length xs /\
  (forall t, (t < length xs)%nat -> nth_error outs t =
    Some (fst (fold_left (lstm_iter n_in n_hid cifg q w) (if rv then rev (skipn t xs) else firstn (S t) xs)
      (maybe_quantize_state (q_output q) hx, maybe_quantize_state (q_cell_state q) cx)))) /\
  nth_error outs (if rv then 0 else length xs - 1)%nat = Some h.
Proof.
  intros n_in n_hid cifg q w rv xs hx cx H. unfold lstm_layer.
  destruct (C45_outputs _ _ (lstm_iter n_in n_hid cifg q w) rv xs (maybe_quantize_state (q_output q) hx, maybe_quantize_state (q_cell_state q) cx) H) as (outs & [h c] & E & L & P & _ & F).
  rewrite E. exists (map fst outs), h, c. split; [reflexivity|]. split; [rewrite map_length; exact L|]. split.
  - intros t Ht. rewrite nth_error_map, (P t Ht). destruct rv; reflexivity.
  - rewrite nth_error_map, F. reflexivity.
Qed.

(** Without an initial state the layer starts from zero: the same as passing zeros, when the
    state quantizer maps zero to zero. *)
Theorem C45_no_state : forall n_in n_hid q g rv xs, r_output q vzero = vzero ->
  rnn_layer n_in n_hid q g rv xs None = rnn_layer n_in n_hid q g rv xs (Some vzero).
Proof. intros n_in n_hid q g rv xs H. unfold rnn_layer, maybe_quantize_state. rewrite H. reflexivity. Qed.

Example C45_example : layer_run (fun (s : list nat) (x : nat) => x :: s) true [1; 2; 3]%nat [] = Some ([[1; 2; 3]; [2; 3]; [3]], [1; 2; 3])%nat.
Proof. reflexivity. Qed.

(** ** C67: continuing a sequence from the returned state *)
Theorem C67_rnn : forall n_in n_hid q g xs ys st o1 s1, (forall v, r_output q (r_output q v) = r_output q v) ->
  rnn_layer n_in n_hid q g false xs st = Some (o1, s1) -> ys <> [] ->
  exists o2 s2, rnn_layer n_in n_hid q g false ys (Some s1) = Some (o2, s2)
  /\ rnn_layer n_in n_hid q g false (xs ++ ys) st = Some ((o1 ++ o2)%list, s2).
Proof.
  intros n_in n_hid q g xs ys st o1 s1 HQ E Hy. unfold rnn_layer in *.
  destruct (list_eq_dec_nil xs) as [->|Hx]; [discriminate|].
  rewrite layer_run_eq in E by exact Hx. injection E as <- <-.
  set (s0 := maybe_quantize_state (r_output q) st). set (f := rnn_iter n_in n_hid q g).
  assert (Q : maybe_quantize_state (r_output q) (Some (fold_left f xs s0)) = fold_left f xs s0).
  { destruct (exists_last Hx) as (zs & z & ->). rewrite fold_left_app. cbn. unfold f at 2 4. unfold rnn_iter. apply HQ. }
  rewrite Q. do 2 eexists. split; [apply layer_run_eq; exact Hy|].
  rewrite layer_run_eq by (intros K; apply app_eq_nil in K; tauto). rewrite scan_app, fold_left_app. reflexivity.
Qed.

Theorem C67_lstm : forall n_in n_hid cifg q w xs ys hx cx o1 h1 c1,
  (forall v, q_output q (q_output q v) = q_output q v) -> (forall v, q_cell_state q (q_cell_state q v) = q_cell_state q v) ->
  lstm_layer n_in n_hid cifg q w false xs hx cx = Some (o1, h1, c1) -> ys <> [] ->
  exists o2 h2 c2, lstm_layer n_in n_hid cifg q w false ys (Some h1) (Some c1) = Some (o2, h2, c2)
  /\ lstm_layer n_in n_hid cifg q w false (xs ++ ys) hx cx = Some ((o1 ++ o2)%list, h2, c2).
Proof.
  intros n_in n_hid cifg q w xs ys hx cx o1 h1 c1 HO HC E Hy. unfold lstm_layer in *.
  destruct (list_eq_dec_nil xs) as [->|Hx]; [discriminate|].
  rewrite layer_run_eq in E by exact Hx.
  set (s0 := (maybe_quantize_state (q_output q) hx, maybe_quantize_state (q_cell_state q) cx)) in *. set (f := lstm_iter n_in n_hid cifg q w) in *.
  destruct (fold_left f xs s0) as [h c] eqn:F. injection E as <- <- <-.
  assert (Q : (maybe_quantize_state (q_output q) (Some h), maybe_quantize_state (q_cell_state q) (Some c)) = (h, c)).
  { destruct (exists_last Hx) as (zs & z & ->). rewrite fold_left_app in F. cbn in F. destruct (fold_left f zs s0) as [h' c']. unfold f, lstm_iter in F.
    injection F as <- <-. cbn [maybe_quantize_state]. rewrite HO, HC. reflexivity. }
  rewrite Q, layer_run_eq by exact Hy. destruct (fold_left f ys (h, c)) as [h2 c2] eqn:F2.
  do 3 eexists. split; [reflexivity|].
  rewrite layer_run_eq by (intros K; apply app_eq_nil in K; tauto). rewrite fold_left_app, F, F2, scan_app, map_app, F. reflexivity.
Qed.

(** ** C46 *)
(** PyTorch convention: [h_0] has num_layers * num_directions entries, layer by layer. *)
Section Stack.
  Context {I St : Type}.
  Variable cat : list I -> I.
  Fixpoint spec_dirs (dirs : list (@direction I St)) (inp : I) (hs : list St) : option (list I * list St) :=
    match dirs, hs with
    | [], [] => Some ([], [])
    | dir :: dirs', h :: hs' =>
        match dir inp (Some h), spec_dirs dirs' inp hs' with
        | Some (o, st), Some (os, sts) => Some (o :: os, st :: sts)
        | _, _ => None
        end
    | _, _ => None
    end.
  Fixpoint spec_stack (nd : nat) (layers : list (list (@direction I St))) (inp : I) (hx : list St) : option (I * list St) :=
    match layers with
    | [] => Some (inp, [])
    | layer :: layers' =>
        match spec_dirs layer inp (firstn nd hx) with
        | None => None
        | Some (os, sts) =>
            match spec_stack nd layers' (match os with [o] => o | _ => cat os end) (skipn nd hx) with
            | Some (out, rest) => Some (out, (sts ++ rest)%list)
            | None => None
            end
        end
    end.

  Lemma run_layers_bi : forall layers l inp h, (forall layer, In layer layers -> length layer = 2%nat) ->
    length h = (2 * (l + length layers))%nat ->
    run_layers cat layers l inp (Some h) = spec_stack 2 layers inp (skipn (2 * l) h).
  Proof.
    induction layers as [|layer layers IH]; intros l inp h HD HL; [reflexivity|].
    pose proof (HD layer (or_introl eq_refl)) as D2. destruct layer as [|d0 [|d1 [|d2 layer]]]; try discriminate.
    assert (HS : exists a b rest, skipn (2 * l) h = a :: b :: rest /\ nth_error h (2 * l) = Some a /\ nth_error h (2 * l + 1) = Some b /\ skipn (2 * S l) h = rest).
    { assert (LS : length (skipn (2 * l) h) = (2 * S (length layers))%nat) by (rewrite skipn_length, HL; cbn [length]; lia).
      destruct (skipn (2 * l) h) as [|a [|b rest]] eqn:E; cbn in LS; try lia. exists a, b, rest.
      assert (SPL : h = (firstn (2 * l) h ++ a :: b :: rest)%list) by (rewrite <- E; symmetry; apply firstn_skipn).
      assert (LF : length (firstn (2 * l) h) = (2 * l)%nat) by (rewrite firstn_length, HL; cbn [length]; lia).
      split; [reflexivity|]. split; [|split].
      - rewrite SPL, nth_error_app2 by lia. rewrite LF, Nat.sub_diag. reflexivity.
      - rewrite SPL, nth_error_app2 by lia. rewrite LF. replace (2 * l + 1 - 2 * l)%nat with 1%nat by lia. reflexivity.
      - rewrite SPL. replace (2 * S l)%nat with (length (firstn (2 * l) h) + 2)%nat by lia.
        rewrite skipn_app. rewrite skipn_all2 by lia. replace (length (firstn (2 * l) h) + 2 - length (firstn (2 * l) h))%nat with 2%nat by lia. reflexivity. }
    destruct HS as (a & b & rest & S1 & N0 & N1 & S2).
    cbn [run_layers run_dirs spec_stack]. rewrite S1. cbn [firstn skipn spec_dirs]. rewrite Nat.add_0_r, N0, N1.
    destruct (d0 inp (Some a)) as [[o0 st0]|]; [|reflexivity]. destruct (d1 inp (Some b)) as [[o1 st1]|]; [|reflexivity].
    rewrite IH, S2; [reflexivity|intros y Hy; apply HD; right; exact Hy|rewrite HL; cbn [length]; lia].
  Qed.

  (** Bidirectional stacks, any number of layers. *)
  Theorem C46_bidirectional : forall layers inp h, (forall layer, In layer layers -> length layer = 2%nat) ->
    length h = (2 * length layers)%nat -> stack_forward cat layers inp (Some h) = spec_stack 2 layers inp h.
  Proof. intros layers inp h HD HL. unfold stack_forward. rewrite run_layers_bi by (auto; lia). reflexivity. Qed.

  (** One layer, one direction. *)
  Theorem C46_single : forall (d0 : @direction I St) inp h, stack_forward cat [[d0]] inp (Some [h]) = spec_stack 1 [[d0]] inp [h].
  Proof.
    intros d0 inp h. cbn. destruct (d0 inp (Some h)) as [[o st]|]; reflexivity.
  Qed.

  (** Unidirectional stacks with several layers: the indices run out of the state tensor, for
      every input and every layer function that succeeds. *)
  Lemma run_layers_uni : forall (layers : list (list (@direction I St))) l inp h, (forall layer, In layer layers -> length layer = 1%nat) -> layers <> [] ->
    (length h <= 2 * (l + (length layers - 1)))%nat -> run_layers cat layers l inp (Some h) = None.
  Proof.
    induction layers as [|layer layers IH]; intros l inp h HD HN HL; [contradiction|].
    pose proof (HD layer (or_introl eq_refl)) as D1. destruct layer as [|d0 [|d1 layer]]; try discriminate.
    cbn [run_layers run_dirs]. rewrite Nat.add_0_r. destruct (nth_error h (2 * l)) as [s|] eqn:N; [|reflexivity].
    destruct (d0 inp (Some s)) as [[o st]|]; [|reflexivity].
    destruct layers as [|layer' layers].
    - exfalso. cbn in HL. assert (2 * l < length h)%nat by (apply nth_error_Some; congruence). lia.
    - rewrite IH; [reflexivity|intros y Hy; apply HD; right; exact Hy|discriminate|cbn [length] in *; lia].
  Qed.
  Theorem C46_unidirectional_refuted : forall (layers : list (list (@direction I St))) inp h, (forall layer, In layer layers -> length layer = 1%nat) ->
    (2 <= length layers)%nat -> length h = length layers -> stack_forward cat layers inp (Some h) = None.
  Proof. intros layers inp h HD HL HH. unfold stack_forward. apply run_layers_uni; [exact HD|destruct layers; [cbn in HL; lia|discriminate]|lia]. Qed.
End Stack.
(** ...although the specification gives a result. *)
Example C46_spec_works : spec_stack (fun _ => 0%nat) 1 [[fun i (s : option nat) => Some (i, i)]; [fun i _ => Some (S i, i)]] 5%nat [7; 8]%nat = Some (6, [5; 5])%nat.
Proof. reflexivity. Qed.
Example C46_example : stack_forward (fun l => fold_right Nat.add 0%nat l)
   [[fun i s => match s with Some a => Some (i + a, a)%nat | None => None end; fun i s => match s with Some a => Some (i + 2 * a, a)%nat | None => None end]]
   1%nat (Some [10; 20]%nat) = Some (52, [10; 20])%nat.
Proof. reflexivity. Qed.

(** ** C64: a torch LSTM checkpoint, quantization disabled *)
(** torch.nn.LSTM: gates = W_ih x + b_ih + W_hh h + b_hh in the order i, f, g, o. *)
Section TorchLSTM.
  Variables (hs n_in : nat) (W_ih W_hh : mat) (b_ih b_hh : vec) (sig th : R -> R).
  Definition torch_gates (x h : vec) : vec := fun r =>
    sum_n n_in (fun j => W_ih r j * x j) + b_ih r + (sum_n hs (fun j => W_hh r j * h j) + b_hh r).
  Definition torch_step (st : vec * vec) (x : vec) : vec * vec :=
    let (h, c) := st in
    let gt := torch_gates x h in
    let c' := fun i => sig (gt (hs + i)%nat) * c i + sig (gt i) * th (gt (2 * hs + i)%nat) in
    (fun i => sig (gt (3 * hs + i)%nat) * th (c' i), c').

  (** All quantizers off: identity, or the bare activation function. *)
  Definition float_q : lstm_q :=
    LQ (fun v => v) (fun v => v) (fun v => v) (fun v => v)
       (fun v i => sig (v i)) (fun v i => sig (v i)) (fun v i => th (v i)) (fun v i => sig (v i))
       (fun v i => th (v i)) (fun v => v) (fun v => v) (fun v => v).

  Definition loaded_gate (k : nat) (g : gate) : Prop :=
    (forall i j, w_ih g i j = W_ih (k * hs + i)%nat j) /\ (forall i j, w_hh g i j = W_hh (k * hs + i)%nat j)
    /\ (forall i, bias g i = b_ih (k * hs + i)%nat + b_hh (k * hs + i)%nat).
  Definition loaded (w : lstm_w) : Prop := loaded_gate 0 (g_in w) /\ loaded_gate 1 (g_forget w) /\ loaded_gate 2 (g_cell w) /\ loaded_gate 3 (g_out w).

  (** The four entries may come in any order. *)
  Lemma load_any_order es : Permutation es [EWeightIH W_ih; EWeightHH W_hh; EBiasIH b_ih; EBiasHH b_hh] -> loaded (load_lstm hs es).
  Proof.
    intros P.
    assert (L4 : length es = 4%nat) by (apply Permutation_length in P; exact P).
    destruct es as [|e1 [|e2 [|e3 [|e4 [|e5 es]]]]]; try discriminate. clear L4.
    assert (IN : forall e, In e [e1; e2; e3; e4] <-> In e [EWeightIH W_ih; EWeightHH W_hh; EBiasIH b_ih; EBiasHH b_hh]).
    { intros e. split; apply Permutation_in; [exact P|symmetry; exact P]. }
    pose proof (proj2 (IN (EWeightIH W_ih)) ltac:(cbn; auto)) as I1. pose proof (proj2 (IN (EWeightHH W_hh)) ltac:(cbn; auto)) as I2.
    pose proof (proj2 (IN (EBiasIH b_ih)) ltac:(cbn; auto)) as I3. pose proof (proj2 (IN (EBiasHH b_hh)) ltac:(cbn; auto 6)) as I4.
    clear IN P. cbn [In] in I1, I2, I3, I4.
    assert (D : forall {A : Prop}, False -> A) by (intros; contradiction).
    decompose [or] I1; clear I1; try contradiction; subst;
    decompose [or] I2; clear I2; try contradiction; try discriminate; subst;
    decompose [or] I3; clear I3; try contradiction; try discriminate; subst;
    decompose [or] I4; clear I4; try contradiction; try discriminate; subst;
    (repeat split; intros; cbn; unfold slice_m, slice_v, vadd, vzero; cbn; try reflexivity; ring).
  Qed.

  Lemma sum_n_ext m f g : (forall j, (j < m)%nat -> f j = g j) -> sum_n m f = sum_n m g.
  Proof. induction m as [|m IH]; intros H; cbn; [reflexivity|]. rewrite IH by (intros; apply H; lia). rewrite H by lia. reflexivity. Qed.

  Definition agree (a b : vec * vec) : Prop := forall i, (i < hs)%nat -> fst a i = fst b i /\ snd a i = snd b i.
  Lemma gate_eq k g x h h' i : loaded_gate k g -> (forall j, (j < hs)%nat -> h j = h' j) -> gate_in n_in hs g x h i = torch_gates x h' (k * hs + i)%nat.
  Proof.
    intros (A & B & C) H. unfold gate_in, vadd, Rnn.linear, torch_gates. rewrite C.
    rewrite (sum_n_ext n_in _ (fun j => W_ih (k * hs + i)%nat j * x j)) by (intros; rewrite A; reflexivity).
    rewrite (sum_n_ext hs _ (fun j => W_hh (k * hs + i)%nat j * h' j)) by (intros; rewrite B, H by assumption; reflexivity). ring.
  Qed.
  Lemma step_agree w st st' x : loaded w -> agree st st' -> agree (lstm_iter n_in hs false float_q w st x) (torch_step st' x).
  Proof.
    intros (L0 & L1 & L2 & L3) A. destruct st as [h c], st' as [h' c']. unfold agree in *. cbn [fst snd] in A.
    assert (AH : forall j, (j < hs)%nat -> h j = h' j) by (intros j Hj; apply A; exact Hj).
    intros i Hi. destruct (A i Hi) as [_ Ac].
    pose proof (gate_eq 0 _ x h h' i L0 AH) as E0. pose proof (gate_eq 1 _ x h h' i L1 AH) as E1.
    pose proof (gate_eq 2 _ x h h' i L2 AH) as E2. pose proof (gate_eq 3 _ x h h' i L3 AH) as E3.
    replace (0 * hs + i)%nat with i in E0 by lia. replace (1 * hs + i)%nat with (hs + i)%nat in E1 by lia.
    unfold lstm_iter, torch_step, float_q. cbn [q_in_acc q_forget_acc q_cell_acc q_out_acc q_in_sig q_forget_sig q_cell_tanh q_out_sig q_hid_tanh q_cell_state q_output fst snd].
    unfold vmul, vadd. cbv beta. rewrite E0, E1, E2, E3, Ac. split; reflexivity.
  Qed.

  (** Whole sequences, both directions. *)
  Theorem C64_lstm : forall es xs rv, Permutation es [EWeightIH W_ih; EWeightHH W_hh; EBiasIH b_ih; EBiasHH b_hh] -> xs <> [] ->
    exists outs h c, lstm_layer n_in hs false float_q (load_lstm hs es) rv xs None None = Some (outs, h, c) /\
    forall t i, (t < length xs)%nat -> (i < hs)%nat ->
      exists o, nth_error outs t = Some o /\ o i = fst (fold_left torch_step (if rv then rev (skipn t xs) else firstn (S t) xs) (vzero, vzero)) i.
  Proof.
    intros es xs rv HP Hx. pose proof (load_any_order es HP) as LD.
    destruct (C45_lstm n_in hs false float_q (load_lstm hs es) rv xs None None Hx) as (outs & h & c & E & L & P & _).
    exists outs, h, c. split; [exact E|]. intros t i Ht Hi. eexists. split; [apply P; exact Ht|]. cbn [maybe_quantize_state].
    assert (AG : forall ys st st', agree st st' -> agree (fold_left (lstm_iter n_in hs false float_q (load_lstm hs es)) ys st) (fold_left torch_step ys st')).
    { induction ys as [|y ys IH]; intros st st' A; [exact A|]. cbn [fold_left]. apply IH. apply step_agree; assumption. }
    apply AG; [|exact Hi]. intros j _. split; reflexivity.
  Qed.
End TorchLSTM.
Example C64_example : bias (g_forget (load_lstm 2 [EBiasHH (fun i => 1); EWeightIH (fun i j => 2); EBiasIH (fun i => INR i); EWeightHH (fun i j => 3)])) 1%nat = 4.
Proof. cbn. unfold vadd, slice_v, vzero. cbn. ring. Qed.

(** ** C65 *)
(** What shared_input_hidden_weights promises: each gate of the reverse direction uses the input
    weight of the same gate of the forward direction. *)
Definition same_gates (a b : gates_w) : Prop := p_input a = p_input b /\ p_forget a = p_forget b /\ p_cell a = p_cell b /\ p_output a = p_output b.
Theorem C65_rnn : forall sh, (fst (bidirectional_rnn sh) = snd (bidirectional_rnn sh)) <-> sh = true.
Proof. intros []; cbn; split; intros H; congruence. Qed.
Theorem C65_lstm_partial : forall cifg, let (a, b) := bidirectional_lstm true cifg in p_cell a = p_cell b /\ p_output a = p_output b.
Proof. intros []; split; reflexivity. Qed.
Theorem C65_lstm_refuted : let (a, b) := bidirectional_lstm true false in
  ~ same_gates a b /\ Some (p_input b) = p_forget a /\ p_forget b = Some (p_input a).
Proof. cbn. split; [intros (H & _); discriminate|]. split; reflexivity. Qed.
(** With coupled gates the input gate is not shared at all. *)
Theorem C65_cifg_refuted : let (a, b) := bidirectional_lstm true true in p_input a <> p_input b.
Proof. cbn. discriminate. Qed.

(** ** C68: with coupled gates the cell state stays bounded *)
Theorem C68_bounded : forall n_in n_hid q w xs B Bg i, 0 <= B -> 0 <= Bg ->
  (forall v, 0 <= q_in_sig q v i <= q_one q vones i) -> (forall v, - Bg <= q_cell_tanh q v i <= Bg) -> q_one q vones i <= 1 ->
  Bg <= B ->
  (forall v, q_cell_state q v = v) ->
  forall h0 c0, - B <= c0 i <= B ->
  - B <= snd (fold_left (lstm_iter n_in n_hid true q w) xs (h0, c0)) i <= B.
Proof.
  intros n_in n_hid q w xs B Bg i HB HBg HI HG H1 HGB HC. induction xs as [|x xs IH]; intros h0 c0 Hc; [exact Hc|].
  cbn [fold_left]. unfold lstm_iter at 2. apply IH. rewrite !HC. unfold vadd, vmul, vsub.
  set (a := q_in_sig q _ i). assert (A : 0 <= a <= q_one q vones i) by apply HI.
  set (gt := q_cell_tanh q _ i). assert (GT : - Bg <= gt <= Bg) by apply HG.
  set (o := q_one q vones i) in *. clearbody a gt o.
  assert (- ((o - a) * B) <= (o - a) * c0 i <= (o - a) * B) by nra.
  assert (- (a * B) <= a * gt <= a * B) by nra. nra.
Qed.
Example C68_example : exists q : lstm_q, (forall v, 0 <= q_in_sig q v 0%nat <= q_one q vones 0%nat) /\ (forall v, - 1 <= q_cell_tanh q v 0%nat <= 1) /\ q_one q vones 0%nat = 1.
Proof.
  exists (LQ (fun v => v) (fun v => v) (fun v => v) (fun v => v) (fun v _ => 1 / 2) (fun v => v) (fun v _ => 1) (fun v => v) (fun v => v) (fun v => v) (fun v => v) (fun v => v)).
  cbn. unfold vones. repeat split; intros; lra.
Qed.

Print Assumptions C45_outputs.
Print Assumptions C45_mirror.
Print Assumptions C45_rnn.
Print Assumptions C45_lstm.
Print Assumptions C45_no_state.
Print Assumptions C46_bidirectional.
Print Assumptions C46_single.
Print Assumptions C46_unidirectional_refuted.
Print Assumptions C64_lstm.
Print Assumptions C65_rnn.
Print Assumptions C65_lstm_partial.
Print Assumptions C65_lstm_refuted.
Print Assumptions C65_cifg_refuted.
Print Assumptions C67_rnn.
Print Assumptions C67_lstm.
Print Assumptions C68_bounded.
