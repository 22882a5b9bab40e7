(** Proofs about [QuantState]: the well-formedness kept by every operation, and what a load
    leaves in every cell. *)
From Coq Require Import List Bool Arith Lia.
From Verif Require Import QuantState.
Import ListNotations.

Lemma set_at_length : forall A (a : A) l k, length (set_at k a l) = length l.
Proof. intros A a; induction l as [|b l IH]; intros [|k]; cbn; auto. Qed.
Lemma nth_error_set_at_eq : forall A (a : A) l k, k < length l -> nth_error (set_at k a l) k = Some a.
Proof. intros A a; induction l as [|b l IH]; intros [|k] H; cbn in *; try lia; auto. apply IH; lia. Qed.
Lemma nth_error_set_at_ne : forall A (a : A) l k j, j <> k -> nth_error (set_at k a l) j = nth_error l j.
Proof. intros A a; induction l as [|b l IH]; intros [|k] [|j] H; cbn; auto; try congruence. Qed.
Lemma nth_set_at_eq : forall A (a d : A) l k, k < length l -> nth k (set_at k a l) d = a.
Proof. intros. apply nth_error_nth. now apply nth_error_set_at_eq. Qed.
Lemma nth_set_at_ne : forall A (a d : A) l k j, j <> k -> nth j (set_at k a l) d = nth j l d.
Proof. intros A a d; induction l as [|b l IH]; intros [|k] [|j] H; cbn; auto; try congruence. Qed.
Lemma In_set_at : forall A (a x : A) l k, In x (set_at k a l) -> x = a \/ In x l.
Proof. intros A a x; induction l as [|b l IH]; intros [|k] H; cbn in *; intuition. apply IH in H0; intuition. Qed.
Lemma nth_error_lt : forall A (l : list A) k x, nth_error l k = Some x -> k < length l.
Proof. intros. apply nth_error_Some. congruence. Qed.

(** The layers using quantizer [q]. *)
Definition users_of (ps : list nat) (q : nat) : list nat :=
  filter (fun i => Nat.eqb (nth i ps 0) q) (seq 0 (length ps)).

Lemma users_of_In : forall ps q i, In i (users_of ps q) <-> i < length ps /\ nth i ps 0 = q.
Proof.
  intros. unfold users_of. rewrite filter_In, in_seq, Nat.eqb_eq. lia.
Qed.
Lemma users_of_snoc : forall ps q' q, users_of (ps ++ [q']) q = users_of ps q ++ (if Nat.eqb q' q then [length ps] else []).
Proof.
  intros. unfold users_of. rewrite app_length. cbn [length]. rewrite Nat.add_1_r, seq_S, filter_app. cbn [Nat.add filter].
  rewrite app_nth2, Nat.sub_diag by lia. cbn [nth].
  f_equal.
  apply filter_ext_in. intros i Hi. apply in_seq in Hi. rewrite app_nth1 by lia. reflexivity.
Qed.

Section Proofs.
  Context {V : Type}.
  Variable stat : list V -> V.
  Variable ini : list V -> V.
  Variable mul : V -> V -> V.
  Variable one : V.
  Notation model := (@model V).
  Notation init_tensor_quant := (@init_tensor_quant V ini one).
  Notation load_layer := (@load_layer V ini one).
  Notation load_layers := (@load_layers V ini one).
  Notation load_state_dict := (@load_state_dict V ini one).
  Notation proxy_scale := (@proxy_scale V stat mul).
  Notation layer_scale := (@layer_scale V stat mul).
  Notation step := (@step V stat ini mul one).
  Notation run := (@run V stat ini mul one).

  (** Well formed, apart from quantizer [x] which is about to be rebuilt. *)
  Record WFx (x : nat -> Prop) (m : model) : Prop := {
    wf_len : length (prx m) = length (wts m);
    wf_prx : forall q, In q (prx m) -> q < length (pxs m);
    wf_wts : forall c, In c (wts m) -> c < fresh m;
    wf_trk : forall q p, nth_error (pxs m) q = Some p -> px_tracked p = users_of (prx m) q;
    wf_ref : forall q p, ~ x q -> nth_error (pxs m) q = Some p -> px_refs p = map (wcell m) (px_tracked p);
    wf_val : forall q p, ~ x q -> nth_error (pxs m) q = Some p -> stateful (px_kind p) = true -> px_val p < fresh m /\ ~ In (px_val p) (wts m);
    wf_dis : forall q q' p p', ~ x q -> ~ x q' -> nth_error (pxs m) q = Some p -> nth_error (pxs m) q' = Some p' ->
      stateful (px_kind p) = true -> stateful (px_kind p') = true -> px_val p = px_val p' -> q = q';
    wf_par : forall q p, ~ x q -> nth_error (pxs m) q = Some p -> px_kind p = KParam -> px_init p = true }.
  Definition WF (m : model) : Prop := WFx (fun _ => False) m.

  Lemma WF_WFx : forall x m, WF m -> WFx x m.
  Proof. intros x m [a b c d e f g h]. constructor; eauto. Qed.

  Lemma WF_empty : forall h, WF (empty h).
  Proof.
    intros h. constructor; cbn; try (intros; contradiction); auto;
      intros; match goal with H : nth_error [] ?q = Some _ |- _ => destruct q; discriminate H end.
  Qed.

  (** What rebuilding does. *)
  Lemma itq_wts : forall m q, wts (init_tensor_quant m q) = wts m.
  Proof. intros m q. unfold QuantState.init_tensor_quant. destruct (nth_error _ _) as [p|]; auto. destruct (px_kind p); auto. Qed.
  Lemma itq_prx : forall m q, prx (init_tensor_quant m q) = prx m.
  Proof. intros m q. unfold QuantState.init_tensor_quant. destruct (nth_error _ _) as [p|]; auto. destruct (px_kind p); auto. Qed.
  Lemma itq_len : forall m q, length (pxs (init_tensor_quant m q)) = length (pxs m).
  Proof. intros m q. unfold QuantState.init_tensor_quant. destruct (nth_error _ _) as [p|]; auto. destruct (px_kind p); cbn; auto using set_at_length. Qed.
  Lemma itq_fresh : forall m q, fresh m <= fresh (init_tensor_quant m q).
  Proof. intros m q. unfold QuantState.init_tensor_quant. destruct (nth_error _ _) as [p|]; auto. destruct (px_kind p); cbn; auto. Qed.
  Lemma itq_heap : forall m q c, c < fresh m -> heap (init_tensor_quant m q) c = heap m c.
  Proof.
    intros m q c H. unfold QuantState.init_tensor_quant. destruct (nth_error _ _) as [p|]; auto.
    destruct (px_kind p); cbn; auto; unfold upd; destruct (Nat.eqb_spec c (fresh m)); auto; lia.
  Qed.
  Lemma itq_other : forall m q q', q' <> q -> nth_error (pxs (init_tensor_quant m q)) q' = nth_error (pxs m) q'.
  Proof.
    intros m q q' H. unfold QuantState.init_tensor_quant. destruct (nth_error _ q) as [p|]; auto.
    destruct (px_kind p); cbn [pxs]; apply nth_error_set_at_ne; auto.
  Qed.
  Lemma itq_self : forall m q p, nth_error (pxs m) q = Some p ->
    exists p', nth_error (pxs (init_tensor_quant m q)) q = Some p' /\
      px_kind p' = px_kind p /\ px_tracked p' = px_tracked p /\ px_refs p' = map (wcell m) (px_tracked p) /\
      (stateful (px_kind p) = true -> px_val p' = fresh m /\ fresh (init_tensor_quant m q) = S (fresh m)) /\
      (px_kind p = KParam -> px_init p' = true /\ heap (init_tensor_quant m q) (px_val p') = ini (map (heap m) (map (wcell m) (px_tracked p)))) /\
      (px_kind p = KFromStats -> px_init p' = false /\ heap (init_tensor_quant m q) (px_val p') = one).
  Proof.
    intros m q p H. unfold QuantState.init_tensor_quant. rewrite H. pose proof (nth_error_lt _ _ _ _ H) as L.
    destruct (px_kind p) eqn:K; cbn [pxs fresh heap]; rewrite nth_error_set_at_eq by exact L;
      eexists; (split; [reflexivity|]); cbn [px_kind px_tracked px_refs px_val px_init stateful]; unfold upd;
      rewrite ?Nat.eqb_refl; repeat split; auto; try congruence; try (intros; discriminate).
  Qed.

  Lemma itq_WF : forall m q, WFx (eq q) m -> (q < length (pxs m)) -> WF (init_tensor_quant m q).
  Proof.
    intros m q W L.
    destruct (nth_error (pxs m) q) as [p|] eqn:E; [|apply nth_error_None in E; lia].
    destruct (itq_self m q p E) as (p' & E' & K & T & R & Sv & Kp & Kf).
    assert (Wc : wcell (init_tensor_quant m q) = wcell m).
    { unfold wcell. now rewrite itq_wts. }
    assert (FR := itq_fresh m q).
    constructor; rewrite ?itq_wts, ?itq_prx, ?itq_len.
    - apply (wf_len _ _ W).
    - apply (wf_prx _ _ W).
    - intros c H. pose proof (wf_wts _ _ W c H). lia.
    - intros q' p1 H. destruct (Nat.eq_dec q' q) as [->|N].
      + assert (p1 = p') by congruence. subst. rewrite T. apply (wf_trk _ _ W _ _ E).
      + rewrite itq_other in H by auto. apply (wf_trk _ _ W _ _ H).
    - intros q' p1 _ H. rewrite Wc. destruct (Nat.eq_dec q' q) as [->|N].
      + assert (p1 = p') by congruence. subst. rewrite R, T. reflexivity.
      + rewrite itq_other in H by auto. apply (wf_ref _ _ W q' _); auto.
    - intros q' p1 _ H S1. destruct (Nat.eq_dec q' q) as [->|N].
      + assert (p1 = p') by congruence. subst. rewrite K in S1. destruct (Sv S1) as [-> ->]. split; [lia|].
        intro I. pose proof (wf_wts _ _ W _ I). lia.
      + rewrite itq_other in H by auto. destruct (wf_val _ _ W q' p1) as [a b]; auto. split; auto; lia.
    - intros q1 q2 p1 p2 _ _ H1 H2 S1 S2 EQ.
      destruct (Nat.eq_dec q1 q) as [->|N1]; destruct (Nat.eq_dec q2 q) as [->|N2]; auto.
      + assert (p1 = p') by congruence. subst. rewrite K in S1. destruct (Sv S1) as [e _].
        rewrite itq_other in H2 by auto. destruct (wf_val _ _ W q2 p2) as [a b]; auto. lia.
      + assert (p2 = p') by congruence. subst. rewrite K in S2. destruct (Sv S2) as [e _].
        rewrite itq_other in H1 by auto. destruct (wf_val _ _ W q1 p1) as [a b]; auto. lia.
      + rewrite itq_other in H1, H2 by auto. apply (wf_dis _ _ W q1 q2 p1 p2); auto.
    - intros q' p1 _ H KP. destruct (Nat.eq_dec q' q) as [->|N].
      + assert (p1 = p') by congruence. subst. apply Kp. congruence.
      + rewrite itq_other in H by auto. apply (wf_par _ _ W q'); auto.
  Qed.

  (** Changing values only. *)
  Lemma heap_WFx : forall x m h, WFx x m -> WFx x (Md h (fresh m) (wts m) (prx m) (pxs m)).
  Proof. intros x m h [a b c d e f g k]. constructor; auto. Qed.

  (** Changing the proxies' initialised flags only. *)
  Lemma flag_WFx : forall x m h q p b, WFx x m -> nth_error (pxs m) q = Some p -> (px_kind p = KParam -> b = true) ->
    WFx x (Md h (fresh m) (wts m) (prx m) (set_at q (Px (px_kind p) (px_tracked p) (px_refs p) (px_val p) b) (pxs m))).
  Proof.
    intros x m h q p b W E B. pose proof (nth_error_lt _ _ _ _ E) as L.
    set (p0 := Px (px_kind p) (px_tracked p) (px_refs p) (px_val p) b).
    assert (C : forall q' p1, nth_error (set_at q p0 (pxs m)) q' = Some p1 ->
                exists p2, nth_error (pxs m) q' = Some p2 /\ px_kind p1 = px_kind p2 /\ px_tracked p1 = px_tracked p2 /\
                px_refs p1 = px_refs p2 /\ px_val p1 = px_val p2 /\ (q' <> q -> p1 = p2) /\ (q' = q -> p1 = p0 /\ p2 = p)).
    { intros q' p1 H. destruct (Nat.eq_dec q' q) as [->|N].
      - rewrite nth_error_set_at_eq in H by auto. assert (p1 = p0) by congruence. subst p1. exists p. repeat split; auto. congruence.
      - rewrite nth_error_set_at_ne in H by auto. exists p1. repeat split; auto; congruence. }
    constructor; cbn [prx wts pxs fresh]; rewrite ?set_at_length; try apply W.
    - intros q' p1 H. destruct (C _ _ H) as (p2 & H2 & a & b0 & c & d & _). rewrite b0. apply (wf_trk _ _ W _ _ H2).
    - intros q' p1 X H. destruct (C _ _ H) as (p2 & H2 & a & b0 & c & d & _). rewrite b0, c. apply (wf_ref _ _ W q' _); auto.
    - intros q' p1 X H. destruct (C _ _ H) as (p2 & H2 & a & b0 & c & d & _). rewrite a, d. apply (wf_val _ _ W q' _); auto.
    - intros q1 q2 p1 p2 X1 X2 H1 H2. destruct (C _ _ H1) as (p3 & H3 & a & b0 & c & d & _).
      destruct (C _ _ H2) as (p4 & H4 & a' & b0' & c' & d' & _). rewrite a, d, a', d'. apply (wf_dis _ _ W q1 q2); auto.
    - intros q' p1 X H KP. destruct (C _ _ H) as (p2 & H2 & a & _ & _ & _ & Ne & Eq). destruct (Nat.eq_dec q' q) as [e|N].
      + destruct (Eq e) as [-> ->]. apply B. congruence.
      + rewrite (Ne N) in *. apply (wf_par _ _ W q'); auto.
  Qed.

  Lemma nth_prx_lt : forall x m i, WFx x m -> i < length (wts m) -> nth i (prx m) 0 < length (pxs m).
  Proof. intros x m i W H. apply (wf_prx _ _ W). apply nth_In. rewrite (wf_len _ _ W). exact H. Qed.

  Lemma new_layer_WF : forall m k w, WF m -> WF (new_layer ini one m k w).
  Proof.
    intros m k w W. unfold new_layer. apply itq_WF; [|cbn; rewrite app_length; cbn; lia].
    assert (NE : forall q p, length (pxs m) <> q -> nth_error (pxs m ++ [Px k [length (wts m)] [] 0 true]) q = Some p -> nth_error (pxs m) q = Some p).
    { intros q p N H. pose proof (nth_error_lt _ _ _ _ H) as L. rewrite app_length in L. cbn in L. rewrite nth_error_app1 in H by lia. exact H. }
    constructor; cbn [prx wts pxs fresh].
    - rewrite !app_length. cbn. now rewrite (wf_len _ _ W).
    - intros q H. rewrite app_length. cbn. apply in_app_or in H. destruct H as [H|[<-|[]]]; [|lia]. pose proof (wf_prx _ _ W _ H). lia.
    - intros c H. apply in_app_or in H. destruct H as [H|[<-|[]]]; [|lia]. pose proof (wf_wts _ _ W _ H). lia.
    - intros q p H. rewrite users_of_snoc. destruct (Nat.eqb_spec (length (pxs m)) q) as [e|N].
      + subst q. rewrite nth_error_app2, Nat.sub_diag in H by lia. cbn in H. assert (p = Px k [length (wts m)] [] 0 true) by congruence. subst p. cbn [px_tracked].
        assert (U : users_of (prx m) (length (pxs m)) = []).
        { destruct (users_of (prx m) (length (pxs m))) as [|a l] eqn:U; auto. exfalso.
          assert (I : In a (users_of (prx m) (length (pxs m)))) by (rewrite U; left; auto).
          apply users_of_In in I. destruct I as [Ha He]. assert (length (pxs m) < length (pxs m)); [|lia].
          rewrite <- He at 1. apply (wf_prx _ _ W). apply nth_In; auto. }
        rewrite U, (wf_len _ _ W). reflexivity.
      + rewrite app_nil_r. apply (wf_trk _ _ W). apply NE; auto.
    - intros q p N H. apply NE in H; auto. rewrite (wf_ref _ _ W _ _ (fun f => f) H). unfold wcell. cbn [wts].
      apply map_ext_in. intros i I. rewrite (wf_trk _ _ W _ _ H) in I. apply users_of_In in I. rewrite (wf_len _ _ W) in I. rewrite app_nth1; auto. lia.
    - intros q p N H Sf. apply NE in H; auto. destruct (wf_val _ _ W _ _ (fun f => f) H Sf) as [a b]. split; [lia|].
      intro I. apply in_app_or in I. destruct I as [I|[I|[]]]; auto. lia.
    - intros q1 q2 p1 p2 N1 N2 H1 H2. apply NE in H1; auto. apply NE in H2; auto. apply (wf_dis _ _ W q1 q2); auto.
    - intros q p N H. apply NE in H; auto. apply (wf_par _ _ W q); auto.
  Qed.

  Lemma share_layer_WF : forall m q w, WF m -> WF (share_layer ini one m q w).
  Proof.
    intros m q w W. unfold share_layer. destruct (nth_error (pxs m) q) as [p|] eqn:E; auto.
    pose proof (nth_error_lt _ _ _ _ E) as L.
    set (p0 := Px (px_kind p) (px_tracked p ++ [length (wts m)]) (px_refs p) (px_val p) (px_init p)).
    apply itq_WF; [|cbn; now rewrite set_at_length].
    assert (NE : forall q' p', q <> q' -> nth_error (set_at q p0 (pxs m)) q' = Some p' -> nth_error (pxs m) q' = Some p').
    { intros q' p' N H. rewrite nth_error_set_at_ne in H; auto. }
    constructor; cbn [prx wts pxs fresh]; rewrite ?set_at_length.
    - rewrite !app_length. cbn. now rewrite (wf_len _ _ W).
    - intros q' H. apply in_app_or in H. destruct H as [H|[<-|[]]]; auto. apply (wf_prx _ _ W _ H).
    - intros c H. apply in_app_or in H. destruct H as [H|[<-|[]]]; [|lia]. pose proof (wf_wts _ _ W _ H). lia.
    - intros q' p' H. rewrite users_of_snoc. destruct (Nat.eqb_spec q q') as [e|N].
      + subst q'. rewrite nth_error_set_at_eq in H by auto. assert (p' = p0) by congruence. subst p'. cbn [px_tracked p0].
        rewrite (wf_trk _ _ W _ _ E), (wf_len _ _ W). reflexivity.
      + rewrite app_nil_r. apply (wf_trk _ _ W). apply NE; auto.
    - intros q' p' N H. apply NE in H; auto. rewrite (wf_ref _ _ W _ _ (fun f => f) H). unfold wcell. cbn [wts].
      apply map_ext_in. intros i I. rewrite (wf_trk _ _ W _ _ H) in I. apply users_of_In in I. rewrite (wf_len _ _ W) in I. rewrite app_nth1; auto. lia.
    - intros q' p' N H Sf. apply NE in H; auto. destruct (wf_val _ _ W _ _ (fun f => f) H Sf) as [a b]. split; [lia|].
      intro I. apply in_app_or in I. destruct I as [I|[I|[]]]; auto. lia.
    - intros q1 q2 p1 p2 N1 N2 H1 H2. apply NE in H1; auto. apply NE in H2; auto. apply (wf_dis _ _ W q1 q2); auto.
    - intros q' p' N H. apply NE in H; auto. apply (wf_par _ _ W q'); auto.
  Qed.

  (** Giving layer [i] another weight cell. *)
  Lemma rebind_WFx : forall m h fr i c, WF m -> fresh m <= fr -> c < fr -> i < length (wts m) ->
    (fresh m <= c \/ In c (wts m)) ->
    WFx (eq (nth i (prx m) 0)) (Md h fr (set_at i c (wts m)) (prx m) (pxs m)).
  Proof.
    intros m h fr i c W F C L O.
    constructor; cbn [prx wts pxs fresh]; rewrite ?set_at_length; try apply W.
    - intros c' H. apply In_set_at in H. destruct H as [->|H]; auto. pose proof (wf_wts _ _ W _ H). lia.
    - intros q p N H. rewrite (wf_ref _ _ W _ _ (fun f => f) H). apply map_ext_in. intros j I.
      rewrite (wf_trk _ _ W _ _ H) in I. apply users_of_In in I. unfold wcell. cbn [wts]. rewrite nth_set_at_ne; auto. intros ->. apply N. tauto.
    - intros q p N H Sf. destruct (wf_val _ _ W _ _ (fun f => f) H Sf) as [a b]. split; [lia|]. intro I. apply In_set_at in I.
      destruct I as [e|I]; auto. subst c. destruct O as [O|O]; auto; lia.
    - intros q1 q2 p1 p2 N1 N2 H1 H2. apply (wf_dis _ _ W q1 q2); auto.
    - intros q p N H. apply (wf_par _ _ W q); auto.
  Qed.

  Lemma wcell_In : forall (m : model) i, i < length (wts m) -> In (wcell m i) (wts m).
  Proof. intros. unfold wcell. now apply nth_In. Qed.

  Lemma write_WF : forall m c v, WF m -> WF (write m c v).
  Proof. intros. unfold write. now apply heap_WFx. Qed.

  Lemma load_value_WF : forall m q v, WF m -> WF (load_value m q v).
  Proof.
    intros m q v W. unfold load_value. destruct (nth_error (pxs m) q) as [p|] eqn:E; auto. apply flag_WFx; auto.
  Qed.

  Lemma load_value_wts : forall (m : model) q v, wts (load_value m q v) = wts m.
  Proof. intros. unfold load_value. destruct (nth_error _ _); auto. Qed.
  Lemma load_value_prx : forall (m : model) q v, prx (load_value m q v) = prx m.
  Proof. intros. unfold load_value. destruct (nth_error _ _); auto. Qed.
  Lemma load_value_fresh : forall (m : model) q v, fresh (load_value m q v) = fresh m.
  Proof. intros. unfold load_value. destruct (nth_error _ _); auto. Qed.
  Lemma load_value_other : forall (m : model) q v q', q' <> q -> nth_error (pxs (load_value m q v)) q' = nth_error (pxs m) q'.
  Proof. intros. unfold load_value. destruct (nth_error (pxs m) q); auto. cbn [pxs]. now apply nth_error_set_at_ne. Qed.
  Lemma load_value_self : forall (m : model) q v p, nth_error (pxs m) q = Some p ->
    nth_error (pxs (load_value m q v)) q = Some (Px (px_kind p) (px_tracked p) (px_refs p) (px_val p) true).
  Proof. intros m q v p E. unfold load_value. rewrite E. cbn [pxs]. apply nth_error_set_at_eq. now apply nth_error_lt in E. Qed.
  Lemma load_value_heap : forall (m : model) q v p c, nth_error (pxs m) q = Some p ->
    heap (load_value m q v) c = if Nat.eqb c (px_val p) then v else heap m c.
  Proof. intros m q v p c E. unfold load_value. rewrite E. reflexivity. Qed.

  Lemma load_layer_WF : forall f d m i, WF m -> i < length (wts m) -> WF (fst (load_layer f d m i)).
  Proof.
    intros f d m i W L. unfold QuantState.load_layer.
    set (m1 := fst (match get d (i, FWeight) with Some v => (write m (wcell m i) v, false) | None => (m, true) end)).
    assert (W1 : WF m1) by (unfold m1; destruct (get d (i, FWeight)); cbn [fst]; auto using write_WF).
    assert (P1 : pxs m1 = pxs m) by (unfold m1; destruct (get d (i, FWeight)); reflexivity).
    replace (match get d (i, FWeight) with Some v => (write m (wcell m i) v, false) | None => (m, true) end)
      with (m1, snd (match get d (i, FWeight) with Some v => (write m (wcell m i) v, false) | None => (m, true) end))
      by (unfold m1; destruct (get d (i, FWeight)); reflexivity).
    cbv iota beta.
    set (m2 := if f_reinit f then init_tensor_quant m1 (nth i (prx m) 0) else m1).
    assert (W2 : WF m2).
    { unfold m2. destruct (f_reinit f); auto. apply itq_WF; [now apply WF_WFx|]. rewrite P1. apply (nth_prx_lt _ _ _ W L). }
    cbv zeta. destruct (nth_error (pxs m2) (nth i (prx m) 0)) as [p|]; cbn [fst]; auto.
    destruct (stateful (px_kind p)); cbn [fst]; auto. destruct (get d (i, FValue)); cbn [fst]; auto. now apply load_value_WF.
  Qed.

  Lemma load_layer_wts : forall f d m i, wts (fst (load_layer f d m i)) = wts m /\ prx (fst (load_layer f d m i)) = prx m /\ fresh m <= fresh (fst (load_layer f d m i)).
  Proof.
    intros f d m i. unfold QuantState.load_layer.
    destruct (get d (i, FWeight)) as [v|]; cbv iota beta zeta;
      set (m1 := if f_reinit f then _ else _);
      assert (A : wts m1 = wts m /\ prx m1 = prx m /\ fresh m <= fresh m1)
        by (unfold m1; destruct (f_reinit f); rewrite ?itq_wts, ?itq_prx; (split; [reflexivity|split; [reflexivity|]]);
            try (match goal with |- fresh m <= fresh (init_tensor_quant ?M ?Q) => exact (itq_fresh M Q) end); cbn; auto);
      destruct (nth_error (pxs m1) _) as [p|]; cbn [fst]; auto;
      destruct (stateful (px_kind p)); cbn [fst]; auto;
      destruct (get d (i, FValue)); cbn [fst]; rewrite ?load_value_wts, ?load_value_prx, ?load_value_fresh; auto.
  Qed.

  Lemma load_layers_fst : forall f d is m, fst (load_layers f d m is) = fold_left (fun m i => fst (load_layer f d m i)) is m.
  Proof.
    intros f d. induction is as [|i is IH]; intros m; cbn [QuantState.load_layers fold_left]; auto.
    rewrite <- IH. destruct (load_layer f d m i) as [m1 b]. cbn [fst]. destruct (load_layers f d m1 is). reflexivity.
  Qed.
  Lemma load_fst : forall f s m d, fst (load_state_dict f s m d) = fold_left (fun m i => fst (load_layer f d m i)) (seq 0 (length (wts m))) m.
  Proof.
    intros. unfold QuantState.load_state_dict. rewrite <- load_layers_fst. destruct (load_layers _ _ _ _). reflexivity.
  Qed.

  Lemma load_fold_WF : forall f d is m, WF m -> (forall i, In i is -> i < length (wts m)) ->
    WF (fold_left (fun m i => fst (load_layer f d m i)) is m) /\
    wts (fold_left (fun m i => fst (load_layer f d m i)) is m) = wts m /\
    prx (fold_left (fun m i => fst (load_layer f d m i)) is m) = prx m /\
    fresh m <= fresh (fold_left (fun m i => fst (load_layer f d m i)) is m).
  Proof.
    intros f d. induction is as [|i is IH]; intros m W H; cbn [fold_left]; auto.
    destruct (load_layer_wts f d m i) as (a & b & c).
    destruct (IH (fst (load_layer f d m i))) as (A & B & C & D).
    - apply load_layer_WF; auto. apply H. now left.
    - intros j J. rewrite a. apply H. now right.
    - split; [exact A|]. split; [congruence|]. split; [congruence|]. lia.
  Qed.
  Lemma load_WF : forall f s m d, WF m -> WF (fst (load_state_dict f s m d)) /\ wts (fst (load_state_dict f s m d)) = wts m /\
    prx (fst (load_state_dict f s m d)) = prx m /\ fresh m <= fresh (fst (load_state_dict f s m d)).
  Proof. intros f s m d W. rewrite load_fst. apply load_fold_WF; auto. intros i I. apply in_seq in I. lia. Qed.

  Lemma proxy_scale_WF : forall m q, WF m -> WF (snd (proxy_scale m q)).
  Proof.
    intros m q W. unfold QuantState.proxy_scale. destruct (nth_error (pxs m) q) as [p|] eqn:E; auto.
    destruct (px_kind p) eqn:K; auto. destruct (px_init p); auto. cbn [snd].
    rewrite <- K. apply flag_WFx; auto.
  Qed.

  Lemma init_preserving_WF : forall m q, WF m -> WF (init_preserving ini one m q).
  Proof.
    intros m q W. unfold init_preserving.
    assert (A : WF (init_tensor_quant m q)).
    { destruct (lt_dec q (length (pxs m))).
      - apply itq_WF; auto. now apply WF_WFx.
      - unfold QuantState.init_tensor_quant. assert (E : nth_error (pxs m) q = None) by (apply nth_error_None; lia). rewrite E. exact W. }
    destruct (saved_value m q); auto. now apply load_value_WF.
  Qed.

  Lemma step_WF : forall m o, WF m -> WF (step m o).
  Proof.
    intros m o W. destruct o; cbn [QuantState.step].
    - now apply new_layer_WF.
    - now apply share_layer_WF.
    - unfold replace_weight. destruct (Nat.ltb_spec i (length (wts m))); auto.
      apply itq_WF; [|cbn; eapply nth_prx_lt; eauto]. apply rebind_WFx; auto; lia.
    - unfold tie_weight. destruct (Nat.ltb_spec i (length (wts m))); auto. destruct (Nat.ltb_spec j (length (wts m))); auto. cbn [andb].
      pose proof (wcell_In m j H0) as I. pose proof (wf_wts _ _ W _ I).
      apply itq_WF; [|cbn; eapply nth_prx_lt; eauto]. apply rebind_WFx; auto.
    - unfold merge_bn. destruct (Nat.ltb_spec i (length (wts m))); auto.
      apply itq_WF; [|cbn; eapply nth_prx_lt; eauto]. apply WF_WFx. now apply write_WF.
    - unfold set_weight. destruct (Nat.ltb i (length (wts m))); auto. now apply write_WF.
    - unfold QuantState.layer_scale. destruct (nth_error (prx m) i); auto. now apply proxy_scale_WF.
    - now apply heap_WFx.
    - now apply load_WF.
    - now apply init_preserving_WF.
  Qed.

  Lemma run_WF : forall os m, WF m -> WF (run m os).
  Proof. induction os as [|o os IH]; intros m W; cbn; auto. apply IH. now apply step_WF. Qed.

  (** ** What rebuilding leaves: the scale of the quantizer *)
  Definition init_scale (k : kind) (ws : list V) : V := match k with KParam => ini ws | _ => stat ws end.

  Lemma map_heap_refs : forall x (m : model) q p, WFx x m -> ~ x q -> nth_error (pxs m) q = Some p ->
    map (heap m) (px_refs p) = map (weight m) (users_of (prx m) q).
  Proof.
    intros x m q p W N E. rewrite (wf_ref _ _ W _ _ N E), (wf_trk _ _ W _ _ E), map_map. reflexivity.
  Qed.

  Lemma itq_weight : forall m q i, (forall c, In c (wts m) -> c < fresh m) -> i < length (wts m) -> weight (init_tensor_quant m q) i = weight m i.
  Proof.
    intros m q i H L. unfold weight, wcell. rewrite itq_wts, itq_heap; auto. apply H. apply nth_In. exact L.
  Qed.

  Lemma itq_scale : forall m q p, (forall v, mul one v = v) -> WFx (eq q) m -> nth_error (pxs m) q = Some p ->
    fst (proxy_scale (init_tensor_quant m q) q) = Some (init_scale (px_kind p) (map (weight m) (users_of (prx m) q))).
  Proof.
    intros m q p ML W E. pose proof (nth_error_lt _ _ _ _ E) as L. pose proof (itq_WF _ _ W L) as W'.
    destruct (itq_self m q p E) as (p' & E' & K & T & R & Sv & Kp & Kf).
    unfold QuantState.proxy_scale. rewrite E'. rewrite K.
    assert (M : map (heap (init_tensor_quant m q)) (px_refs p') = map (weight m) (users_of (prx m) q)).
    { rewrite (map_heap_refs _ _ _ _ W' (fun f => f) E'), itq_prx. apply map_ext_in. intros i I. apply users_of_In in I.
      apply itq_weight; [apply (wf_wts _ _ W)|]. rewrite <- (wf_len _ _ W). tauto. }
    destruct (px_kind p) eqn:KK; cbn [fst init_scale].
    - now rewrite M.
    - destruct (Kp eq_refl) as [_ ->]. rewrite map_map, (wf_trk _ _ W _ _ E). reflexivity.
    - destruct (Kf eq_refl) as [-> ->]. cbn [fst]. rewrite M, ML. reflexivity.
  Qed.

  (** ** Loading *)
  Section Load.
    Variable d : @dict V.
    Variable m0 : model.
    Hypothesis W0 : WF m0.
    (** Layers holding the same Parameter find the same entry in the checkpoint. *)
    Hypothesis ALIAS : forall i j, i < length (wts m0) -> j < length (wts m0) -> wcell m0 i = wcell m0 j -> get d (i, FWeight) = get d (j, FWeight).

    Definition new_weight (i : nat) : V := match get d (i, FWeight) with Some v => v | None => weight m0 i end.

    (** A step on layer [k], in terms of its parts. *)
    Definition loaded_weight (m : model) (k : nat) : model := match get d (k, FWeight) with Some v => write m (wcell m k) v | None => m end.

    Lemma load_layer_fst : forall f m k, fst (load_layer f d m k) =
      let m2 := if f_reinit f then init_tensor_quant (loaded_weight m k) (nth k (prx m) 0) else loaded_weight m k in
      match nth_error (pxs m2) (nth k (prx m) 0) with
      | Some p => if stateful (px_kind p) then match get d (k, FValue) with Some v => load_value m2 (nth k (prx m) 0) v | None => m2 end else m2
      | None => m2
      end.
    Proof.
      intros f m k. unfold QuantState.load_layer, loaded_weight.
      destruct (get d (k, FWeight)); cbv iota beta zeta; destruct (nth_error _ _) as [p|]; auto;
        destruct (stateful (px_kind p)); auto; destruct (get d (k, FValue)); auto.
    Qed.

    Lemma loaded_weight_frame : forall m k, wts (loaded_weight m k) = wts m /\ prx (loaded_weight m k) = prx m /\
      pxs (loaded_weight m k) = pxs m /\ fresh (loaded_weight m k) = fresh m.
    Proof. intros. unfold loaded_weight. destruct (get d (k, FWeight)); auto. Qed.
    Lemma loaded_weight_heap : forall m k c, heap (loaded_weight m k) c =
      match get d (k, FWeight) with Some v => if Nat.eqb c (wcell m k) then v else heap m c | None => heap m c end.
    Proof. intros. unfold loaded_weight. destruct (get d (k, FWeight)); auto. Qed.

    (** The state of the quantizers' values: cell contents and flag. *)
    Definition pstate (m : model) (q : nat) : option (kind * V * bool) :=
      match nth_error (pxs m) q with Some p => Some (px_kind p, heap m (px_val p), px_init p) | None => None end.

    (** What holds once the layers before [k] are loaded; [P q s] describes the state of a
        quantizer. *)
    Record LInv (P : nat -> nat -> V -> bool -> nat -> Prop) (k : nat) (m : model) : Prop := {
      li_wf : WF m;
      li_wts : wts m = wts m0;
      li_prx : prx m = prx m0;
      li_fresh : fresh m0 <= fresh m;
      li_kind : forall q, option_map px_kind (nth_error (pxs m) q) = option_map px_kind (nth_error (pxs m0) q);
      li_w : forall i, i < length (wts m0) -> (weight m i = new_weight i) \/ ((forall j, j < k -> wcell m0 j <> wcell m0 i) /\ weight m i = weight m0 i);
      li_p : forall q p, nth_error (pxs m) q = Some p -> stateful (px_kind p) = true -> P k q (heap m (px_val p)) (px_init p) (px_val p) }.

    Lemma LInv_done : forall P k m i, LInv P k m -> i < k -> i < length (wts m0) -> weight m i = new_weight i.
    Proof. intros P k m i I H L. destruct (li_w _ _ _ I i L) as [A|[A _]]; auto. exfalso. now apply (A i H). Qed.

    (** The weight part of a step. *)
    Lemma loaded_weight_inv : forall P k m, LInv P k m -> k < length (wts m0) ->
      forall i, i < length (wts m0) -> (weight (loaded_weight m k) i = new_weight i) \/
        ((forall j, j < S k -> wcell m0 j <> wcell m0 i) /\ weight (loaded_weight m k) i = weight m0 i).
    Proof.
      intros P k m I K i L.
      assert (WC : forall j, wcell (loaded_weight m k) j = wcell m0 j).
      { intro j. unfold wcell. destruct (loaded_weight_frame m k) as (-> & _). now rewrite (li_wts _ _ _ I). }
      assert (WC' : forall j, wcell m j = wcell m0 j) by (intro j; unfold wcell; now rewrite (li_wts _ _ _ I)).
      assert (X : weight (loaded_weight m k) i = match get d (k, FWeight) with Some v => if Nat.eqb (wcell m0 i) (wcell m0 k) then v else heap m (wcell m0 i) | None => heap m (wcell m0 i) end).
      { unfold weight. rewrite WC, loaded_weight_heap, WC'. reflexivity. }
      rewrite X. clear X.
      destruct (Nat.eqb_spec (wcell m0 i) (wcell m0 k)) as [e|N].
      - left. unfold new_weight. rewrite (ALIAS i k L K e). destruct (get d (k, FWeight)) eqn:G; auto.
        destruct (li_w _ _ _ I i L) as [A|[_ A]]; unfold weight at 1 in A; rewrite WC' in A; rewrite A; auto.
        unfold new_weight. rewrite (ALIAS i k L K e), G. reflexivity.
      - assert (E : match get d (k, FWeight) with Some _ => heap m (wcell m0 i) | None => heap m (wcell m0 i) end = weight m i).
        { unfold weight. rewrite WC'. destruct (get d (k, FWeight)); auto. }
        rewrite E. destruct (li_w _ _ _ I i L) as [A|[A B]]; auto. right. split; auto.
        intros j J. destruct (Nat.eq_dec j k) as [->|]; auto. apply A. lia.
    Qed.

    Lemma loaded_weight_WF : forall m k, WF m -> WF (loaded_weight m k).
    Proof. intros m k W. unfold loaded_weight. destruct (get d (k, FWeight)); auto. now apply write_WF. Qed.

    (** Values of other cells are kept by the weight part. *)
    Lemma loaded_weight_val : forall m k q p, WF m -> k < length (wts m) -> nth_error (pxs m) q = Some p -> stateful (px_kind p) = true ->
      heap (loaded_weight m k) (px_val p) = heap m (px_val p).
    Proof.
      intros m k q p W L E Sf. rewrite loaded_weight_heap. destruct (get d (k, FWeight)); auto.
      destruct (Nat.eqb_spec (px_val p) (wcell m k)) as [e|]; auto. exfalso. destruct (wf_val _ _ W _ _ (fun f => f) E Sf) as [_ N].
      apply N. rewrite e. now apply wcell_In.
    Qed.
  End Load.

  (** *** Loading with the quantizers rebuilt *)
  Section Reinit.
    Variable d : @dict V.
    Variable m0 : model.
    Hypothesis W0 : WF m0.
    Hypothesis ALIAS : forall i j, i < length (wts m0) -> j < length (wts m0) -> wcell m0 i = wcell m0 j -> get d (i, FWeight) = get d (j, FWeight).
    Variable f : flags.
    Hypothesis RE : f_reinit f = true.

    Definition kind0 (q : nat) : kind := match nth_error (pxs m0) q with Some p => px_kind p | None => KStats end.
    Definition PR (k q : nat) (v : V) (b : bool) (c : nat) : Prop :=
      (forall l, In l (users_of (prx m0) q) -> l < k) ->
      users_of (prx m0) q <> [] ->
      fresh m0 <= c /\
      match get d (last (users_of (prx m0) q) 0, FValue) with
      | Some x => v = x /\ b = true
      | None => match kind0 q with
                | KParam => v = ini (map (new_weight d m0) (users_of (prx m0) q)) /\ b = true
                | _ => v = one /\ b = false
                end
      end.

    Lemma last_users : forall q k, In k (users_of (prx m0) q) -> (forall l, In l (users_of (prx m0) q) -> l < S k) -> last (users_of (prx m0) q) 0 = k.
    Proof.
      intros q k I H. unfold users_of in *.
      assert (G : forall n a, In k (filter (fun i => Nat.eqb (nth i (prx m0) 0) q) (seq a n)) ->
                  (forall l, In l (filter (fun i => Nat.eqb (nth i (prx m0) 0) q) (seq a n)) -> l < S k) ->
                  last (filter (fun i => Nat.eqb (nth i (prx m0) 0) q) (seq a n)) 0 = k).
      { clear I H. induction n as [|n IH]; intros a I H; [destruct I|]. rewrite seq_S in *. rewrite filter_app in *. cbn [filter] in *.
        destruct (Nat.eqb (nth (a + n) (prx m0) 0) q) eqn:E.
        - rewrite last_last. assert (a + n < S k) by (apply H; apply in_or_app; right; now left).
          apply in_app_or in I. destruct I as [I|[I|[]]]; [|lia]. apply filter_In in I. destruct I as [I _]. apply in_seq in I. lia.
        - rewrite app_nil_r in *. now apply IH. }
      now apply G.
    Qed.

    Lemma kind_of : forall (m : model) q p, option_map px_kind (nth_error (pxs m) q) = option_map px_kind (nth_error (pxs m0) q) ->
      nth_error (pxs m) q = Some p -> kind0 q = px_kind p.
    Proof.
      intros m q p H E. rewrite E in H. cbn in H. unfold kind0. destruct (nth_error (pxs m0) q); cbn in H; congruence.
    Qed.

    Lemma reinit_step : forall k m, k < length (wts m0) -> LInv d m0 PR k m -> LInv d m0 PR (S k) (fst (load_layer f d m k)).
    Proof.
      intros k m K I.
      assert (Wm := li_wf _ _ _ _ _ I). assert (Lk : k < length (wts m)) by (rewrite (li_wts _ _ _ _ _ I); exact K).
      assert (WFn := load_layer_WF f d m k Wm Lk).
      destruct (load_layer_wts f d m k) as (Aw & Ap & Af).
      set (q := nth k (prx m) 0).
      assert (Hq : q < length (pxs m)) by (apply (nth_prx_lt _ _ _ Wm Lk)).
      destruct (loaded_weight_frame d m k) as (Fw & Fp & Fx & Ff).
      set (m1 := loaded_weight d m k) in *.
      assert (W1 : WF m1) by (now apply loaded_weight_WF).
      destruct (nth_error (pxs m) q) as [p|] eqn:E; [|apply nth_error_None in E; lia].
      assert (E1 : nth_error (pxs m1) q = Some p) by (rewrite Fx; exact E).
      destruct (itq_self m1 q p E1) as (p' & E' & Kk & T & R & Sv & Kp & Kf).
      set (m2 := init_tensor_quant m1 q) in *.
      assert (W2 : WF m2) by (apply itq_WF; [now apply WF_WFx|rewrite Fx; exact Hq]).
      (* the result *)
      set (m3 := fst (load_layer f d m k)) in *.
      assert (D3 : m3 = if stateful (px_kind p) then match get d (k, FValue) with Some v => load_value m2 q v | None => m2 end else m2).
      { unfold m3. rewrite load_layer_fst, RE. cbv zeta. fold q. fold m1. fold m2. rewrite E', Kk. reflexivity. }
      assert (HW : forall i, i < length (wts m0) -> weight m3 i = weight m1 i).
      { intros i Li. assert (A : weight m2 i = weight m1 i).
        { unfold m2. apply itq_weight; [apply (wf_wts _ _ W1)|]. rewrite Fw, (li_wts _ _ _ _ _ I). exact Li. }
        rewrite D3. destruct (stateful (px_kind p)) eqn:Sf; auto. destruct (get d (k, FValue)) as [v|]; auto.
        rewrite <- A. unfold weight, wcell. rewrite load_value_wts, (load_value_heap _ _ _ _ _ E').
        destruct (Nat.eqb_spec (nth i (wts m2) 0) (px_val p')) as [e|]; auto. exfalso.
        rewrite <- Kk in Sf. destruct (wf_val _ _ W2 _ _ (fun f => f) E' Sf) as [_ N]. apply N. rewrite <- e. apply nth_In.
        unfold m2. rewrite itq_wts, Fw, (li_wts _ _ _ _ _ I). exact Li. }
      (* other quantizers *)
      assert (HO : forall q' p1, q' <> q -> nth_error (pxs m3) q' = Some p1 -> nth_error (pxs m) q' = Some p1 /\
                   (stateful (px_kind p1) = true -> heap m3 (px_val p1) = heap m (px_val p1))).
      { intros q' p1 N H.
        assert (A : nth_error (pxs m2) q' = Some p1).
        { rewrite D3 in H. destruct (stateful (px_kind p)); auto. destruct (get d (k, FValue)) as [v|]; auto. rewrite load_value_other in H; auto. }
        assert (A1 : nth_error (pxs m1) q' = Some p1) by (unfold m2 in A; rewrite itq_other in A; auto).
        split; [rewrite <- Fx; exact A1|]. intros Sf.
        assert (B : heap m2 (px_val p1) = heap m1 (px_val p1)) by (unfold m2; apply itq_heap; apply (wf_val _ _ W1 _ _ (fun f => f) A1 Sf)).
        assert (C : heap m1 (px_val p1) = heap m (px_val p1)) by (apply (loaded_weight_val d m k q' p1 Wm Lk); auto; now rewrite <- Fx).
        rewrite <- C, <- B, D3. destruct (stateful (px_kind p)) eqn:Sp; auto. destruct (get d (k, FValue)) as [v|]; auto.
        rewrite (load_value_heap _ _ _ _ _ E'). destruct (Nat.eqb_spec (px_val p1) (px_val p')) as [e|]; auto. exfalso. apply N.
        apply (wf_dis _ _ W2 q' q p1 p'); auto. now rewrite Kk. }
      constructor.
      - exact WFn.
      - rewrite Aw. apply (li_wts _ _ _ _ _ I).
      - rewrite Ap. apply (li_prx _ _ _ _ _ I).
      - pose proof (li_fresh _ _ _ _ _ I). lia.
      - intros q'. rewrite <- (li_kind _ _ _ _ _ I q'). destruct (Nat.eq_dec q' q) as [->|N].
        + rewrite E. rewrite D3. destruct (stateful (px_kind p)); [destruct (get d (k, FValue)) as [v|]|];
            rewrite ?(load_value_self _ _ _ _ E'), ?E'; cbn; now rewrite Kk.
        + rewrite D3. destruct (stateful (px_kind p)); [destruct (get d (k, FValue)) as [v|]|];
            rewrite ?load_value_other by auto; unfold m2; rewrite itq_other, Fx by auto; reflexivity.
      - intros i Li. rewrite HW by auto. now apply (loaded_weight_inv d m0 ALIAS PR k m I K).
      - intros q' p1 H Sf All Ne. destruct (Nat.eq_dec q' q) as [->|N].
        + (* the quantizer of layer k *)
          assert (Uk : In k (users_of (prx m0) q)).
          { apply users_of_In. split; [rewrite (wf_len _ _ W0); exact K|]. unfold q. now rewrite (li_prx _ _ _ _ _ I). }
          rewrite (last_users q k Uk All).
          assert (Sp : stateful (px_kind p) = true).
          { rewrite D3 in H. destruct (stateful (px_kind p)) eqn:Sp; auto. rewrite E' in H. assert (p1 = p') by congruence. subst. rewrite Kk in Sf. congruence. }
          destruct (Sv Sp) as [Vp _]. rewrite Ff in Vp. pose proof (li_fresh _ _ _ _ _ I).
          rewrite Sp in D3. destruct (get d (k, FValue)) as [v|] eqn:G.
          * rewrite D3 in H. rewrite (load_value_self _ _ _ _ E') in H.
            assert (p1 = Px (px_kind p') (px_tracked p') (px_refs p') (px_val p') true) by congruence. subst p1. cbn [px_val px_init].
            rewrite D3, (load_value_heap _ _ _ _ _ E'), Nat.eqb_refl. repeat split; lia.
          * rewrite D3 in H. assert (p1 = p') by congruence. subst p1. split; [lia|].
            rewrite (kind_of m q p (li_kind _ _ _ _ _ I q) E). rewrite D3.
            destruct (px_kind p) eqn:KK; [discriminate Sp| |].
            -- destruct (Kp eq_refl) as [-> ->]. split; auto. f_equal. rewrite map_map, (wf_trk _ _ W1 _ _ E1), Fp, (li_prx _ _ _ _ _ I).
               apply map_ext_in. intros i Ii. change (weight m1 i = new_weight d m0 i). pose proof (All _ Ii) as Lt.
               apply users_of_In in Ii. rewrite (wf_len _ _ W0) in Ii. destruct Ii as [Li _].
               destruct (loaded_weight_inv d m0 ALIAS PR k m I K i Li) as [A|[A _]]; auto. exfalso. now apply (A i Lt).
            -- destruct (Kf eq_refl) as [-> ->]. auto.
        + destruct (HO q' p1 N H) as [H' V']. rewrite (V' Sf). apply (li_p _ _ _ _ _ I q' p1 H' Sf); auto.
          intros l Il. pose proof (All _ Il). assert (l <> k); [|lia]. intros ->. apply users_of_In in Il. apply N. unfold q.
          rewrite (li_prx _ _ _ _ _ I). symmetry. tauto.
    Qed.

    Lemma reinit_inv : forall n, n <= length (wts m0) -> LInv d m0 PR n (fold_left (fun m i => fst (load_layer f d m i)) (seq 0 n) m0).
    Proof.
      induction n as [|n IH]; intros L.
      - cbn. constructor; auto.
        + intros i Li. right. split; auto. intros; lia.
        + intros q p E Sf All Ne. exfalso. destruct (users_of (prx m0) q) as [|a l]; auto. specialize (All a (or_introl eq_refl)). lia.
      - rewrite seq_S, fold_left_app. cbn [fold_left Nat.add]. apply reinit_step; auto. apply IH. lia.
    Qed.

    Lemma reinit_load : forall s, LInv d m0 PR (length (wts m0)) (fst (load_state_dict f s m0 d)).
    Proof. intros s. rewrite load_fst. apply reinit_inv. lia. Qed.
  End Reinit.

  (** *** Loading without rebuilding *)
  Section Keep.
    Variable d : @dict V.
    Variable m0 : model.
    Hypothesis W0 : WF m0.
    Hypothesis ALIAS : forall i j, i < length (wts m0) -> j < length (wts m0) -> wcell m0 i = wcell m0 j -> get d (i, FWeight) = get d (j, FWeight).
    Variable f : flags.
    Hypothesis RE : f_reinit f = false.

    (** The value of the last of these layers that has one in the checkpoint. *)
    Definition last_value (is : list nat) : option V :=
      fold_left (fun acc i => match get d (i, FValue) with Some v => Some v | None => acc end) is None.
    Definition PK (k q : nat) (v : V) (b : bool) (c : nat) : Prop :=
      exists p0, nth_error (pxs m0) q = Some p0 /\ c = px_val p0 /\
      match last_value (filter (fun i => Nat.eqb (nth i (prx m0) 0) q) (seq 0 k)) with
      | Some x => v = x /\ b = true
      | None => v = heap m0 (px_val p0) /\ b = px_init p0
      end.

    Lemma keep_step : forall k m, k < length (wts m0) -> LInv d m0 PK k m -> LInv d m0 PK (S k) (fst (load_layer f d m k)).
    Proof.
      intros k m K I.
      assert (Wm := li_wf _ _ _ _ _ I). assert (Lk : k < length (wts m)) by (rewrite (li_wts _ _ _ _ _ I); exact K).
      assert (WFn := load_layer_WF f d m k Wm Lk).
      destruct (load_layer_wts f d m k) as (Aw & Ap & Af).
      set (q := nth k (prx m) 0).
      assert (Hq : q < length (pxs m)) by (apply (nth_prx_lt _ _ _ Wm Lk)).
      destruct (loaded_weight_frame d m k) as (Fw & Fp & Fx & Ff).
      set (m1 := loaded_weight d m k) in *.
      assert (W1 : WF m1) by (now apply loaded_weight_WF).
      destruct (nth_error (pxs m) q) as [p|] eqn:E; [|apply nth_error_None in E; lia].
      assert (E1 : nth_error (pxs m1) q = Some p) by (rewrite Fx; exact E).
      set (m3 := fst (load_layer f d m k)) in *.
      assert (D3 : m3 = if stateful (px_kind p) then match get d (k, FValue) with Some v => load_value m1 q v | None => m1 end else m1).
      { unfold m3. rewrite load_layer_fst, RE. cbv zeta. fold q. fold m1. rewrite E1. reflexivity. }
      assert (HW : forall i, i < length (wts m0) -> weight m3 i = weight m1 i).
      { intros i Li. rewrite D3. destruct (stateful (px_kind p)) eqn:Sf; auto. destruct (get d (k, FValue)) as [v|]; auto.
        unfold weight, wcell. rewrite load_value_wts, (load_value_heap _ _ _ _ _ E1).
        destruct (Nat.eqb_spec (nth i (wts m1) 0) (px_val p)) as [e|]; auto. exfalso.
        destruct (wf_val _ _ W1 _ _ (fun f => f) E1 Sf) as [_ N]. apply N. rewrite <- e. apply nth_In.
        rewrite Fw, (li_wts _ _ _ _ _ I). exact Li. }
      assert (HO : forall q' p1, q' <> q -> nth_error (pxs m3) q' = Some p1 -> nth_error (pxs m) q' = Some p1 /\
                   (stateful (px_kind p1) = true -> heap m3 (px_val p1) = heap m (px_val p1))).
      { intros q' p1 N H.
        assert (A1 : nth_error (pxs m1) q' = Some p1).
        { rewrite D3 in H. destruct (stateful (px_kind p)); auto. destruct (get d (k, FValue)) as [v|]; auto. rewrite load_value_other in H; auto. }
        split; [rewrite <- Fx; exact A1|]. intros Sf.
        assert (C : heap m1 (px_val p1) = heap m (px_val p1)) by (apply (loaded_weight_val d m k q' p1 Wm Lk); auto; now rewrite <- Fx).
        rewrite <- C, D3. destruct (stateful (px_kind p)) eqn:Sp; auto. destruct (get d (k, FValue)) as [v|]; auto.
        rewrite (load_value_heap _ _ _ _ _ E1). destruct (Nat.eqb_spec (px_val p1) (px_val p)) as [e|]; auto. exfalso. apply N.
        apply (wf_dis _ _ W1 q' q p1 p); auto. }
      constructor.
      - exact WFn.
      - rewrite Aw. apply (li_wts _ _ _ _ _ I).
      - rewrite Ap. apply (li_prx _ _ _ _ _ I).
      - pose proof (li_fresh _ _ _ _ _ I). lia.
      - intros q'. rewrite <- (li_kind _ _ _ _ _ I q'). destruct (Nat.eq_dec q' q) as [->|N].
        + rewrite E. rewrite D3. destruct (stateful (px_kind p)); [destruct (get d (k, FValue)) as [v|]|];
            rewrite ?(load_value_self _ _ _ _ E1), ?E1; reflexivity.
        + rewrite D3. destruct (stateful (px_kind p)); [destruct (get d (k, FValue)) as [v|]|];
            rewrite ?load_value_other by auto; rewrite Fx; reflexivity.
      - intros i Li. rewrite HW by auto. now apply (loaded_weight_inv d m0 ALIAS PK k m I K).
      - intros q' p1 H Sf. unfold PK. rewrite seq_S, filter_app. cbn [Nat.add filter].
        assert (Qk : nth k (prx m0) 0 = q) by (unfold q; now rewrite (li_prx _ _ _ _ _ I)). rewrite Qk.
        destruct (Nat.eqb_spec q q') as [e|N].
        + subst q'. assert (Sp : stateful (px_kind p) = true).
          { rewrite D3 in H. destruct (stateful (px_kind p)) eqn:Sp; auto. rewrite E1 in H. congruence. }
          destruct (li_p _ _ _ _ _ I q p E Sp) as (p0 & H0 & C0 & ST). exists p0. split; auto.
          unfold last_value. rewrite fold_left_app. cbn [fold_left]. fold (last_value (filter (fun i => Nat.eqb (nth i (prx m0) 0) q) (seq 0 k))).
          rewrite Sp in D3. destruct (get d (k, FValue)) as [v|] eqn:G.
          * rewrite D3 in H. rewrite (load_value_self _ _ _ _ E1) in H.
            assert (p1 = Px (px_kind p) (px_tracked p) (px_refs p) (px_val p) true) by congruence. subst p1. cbn [px_val px_init].
            rewrite D3, (load_value_heap _ _ _ _ _ E1), Nat.eqb_refl. auto.
          * rewrite D3 in H. assert (p1 = p) by congruence. subst p1. rewrite D3.
            unfold m1. rewrite (loaded_weight_val d m k q p Wm Lk E Sp). auto.
        + rewrite app_nil_r. destruct (HO q' p1 (fun e => N (eq_sym e)) H) as [H' V']. rewrite (V' Sf). apply (li_p _ _ _ _ _ I q' p1 H' Sf).
    Qed.

    Lemma keep_inv : forall n, n <= length (wts m0) -> LInv d m0 PK n (fold_left (fun m i => fst (load_layer f d m i)) (seq 0 n) m0).
    Proof.
      induction n as [|n IH]; intros L.
      - cbn. constructor; auto.
        + intros i Li. right. split; auto. intros; lia.
        + intros q p E Sf. exists p. cbn. auto.
      - rewrite seq_S, fold_left_app. cbn [fold_left Nat.add]. apply keep_step; auto. apply IH. lia.
    Qed.
    Lemma keep_load : forall s, LInv d m0 PK (length (wts m0)) (fst (load_state_dict f s m0 d)).
    Proof. intros s. rewrite load_fst. apply keep_inv. lia. Qed.
  End Keep.
End Proofs.
