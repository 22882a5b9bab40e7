(** Property C108: which weight scale a layer uses after any history of building, sharing,
    replacing weights, folding, training, saving and loading. *)
From Coq Require Import List Bool Arith Lia ZArith.
From Verif Require Import QuantState QuantStateProofs.
Import ListNotations.

Section Props.
  Context {V : Type}.
  Variable stat : list V -> V.
  Variable ini : list V -> V.
  Variable mul : V -> V -> V.
  Variable one : V.
  Hypothesis ML : forall v, mul one v = v.
  Notation model := (@model V).
  Notation run := (@run V stat ini mul one).
  Notation step := (@step V stat ini mul one).
  Notation load_state_dict := (@load_state_dict V ini one).
  Notation itq := (@init_tensor_quant V ini one).

  (** ** Vocabulary of the claims *)
  Definition reachable (m : model) : Prop := exists h os, m = run (empty h) os.
  Definition layers (m : model) : nat := length (wts m).
  (** The scale layer [i] uses when it is called now. *)
  Definition scale (m : model) (i : nat) : option V := fst (layer_scale stat mul m i).
  (** The quantizer of layer [i], its kind, and the layers using it, in module order. *)
  Definition quantizer (m : model) (i : nat) : nat := nth i (prx m) 0.
  Definition kind_of_layer (m : model) (i : nat) : option kind := option_map px_kind (nth_error (pxs m) (quantizer m i)).
  Definition sharers (m : model) (i : nat) : list nat :=
    filter (fun j => Nat.eqb (quantizer m j) (quantizer m i)) (seq 0 (layers m)).
  (** The scale of a freshly built quantizer over given weights. *)
  Definition built_scale (k : kind) (ws : list V) : V := match k with KParam => ini ws | _ => stat ws end.
  (** No layer's quantizer that has not run yet had its placeholder 1 changed. *)
  Definition untouched (m : model) (i : nat) : Prop :=
    forall p, nth_error (pxs m) (quantizer m i) = Some p -> px_kind p = KFromStats -> px_init p = false -> heap m (px_val p) = one.
  Definition initialised (m : model) (i : nat) : Prop :=
    forall p, nth_error (pxs m) (quantizer m i) = Some p -> px_kind p = KFromStats -> px_init p = true.

  Lemma reachable_WF : forall m, reachable m -> WF m.
  Proof. intros m (h & os & ->). apply run_WF. apply WF_empty. Qed.
  Lemma reachable_step : forall m o, reachable m -> reachable (step m o).
  Proof. intros m o (h & os & ->). exists h, (os ++ [o]). unfold QuantState.run. rewrite fold_left_app. reflexivity. Qed.
  Lemma reachable_run : forall os m, reachable m -> reachable (run m os).
  Proof. induction os as [|o os IH]; intros m R; cbn; auto. apply IH. now apply reachable_step. Qed.

  Lemma sharers_users : forall m i, WF m -> sharers m i = users_of (prx m) (quantizer m i).
  Proof. intros m i W. unfold sharers, users_of, layers. rewrite (wf_len _ _ W). reflexivity. Qed.

  Lemma quantizer_some : forall m i, WF m -> i < layers m -> exists p, nth_error (pxs m) (quantizer m i) = Some p.
  Proof.
    intros m i W L. pose proof (nth_prx_lt _ _ _ W L) as H. unfold quantizer.
    destruct (nth_error (pxs m) (nth i (prx m) 0)) as [p|] eqn:E; eauto. apply nth_error_None in E. lia.
  Qed.

  Lemma scale_proxy : forall m i, WF m -> i < layers m -> scale m i = fst (proxy_scale stat mul m (quantizer m i)).
  Proof.
    intros m i W L. unfold scale, layer_scale, quantizer. unfold layers in L. rewrite <- (wf_len _ _ W) in L.
    rewrite (nth_error_nth' _ 0 L). reflexivity.
  Qed.

  (** The scale in terms of the state of the quantizer. *)
  Lemma scale_obs : forall m i p, WF m -> i < layers m -> nth_error (pxs m) (quantizer m i) = Some p ->
    scale m i = Some (match px_kind p with
                      | KStats => stat (map (weight m) (sharers m i))
                      | KParam => heap m (px_val p)
                      | KFromStats => if px_init p then heap m (px_val p) else mul (heap m (px_val p)) (stat (map (weight m) (sharers m i)))
                      end).
  Proof.
    intros m i p W L E. rewrite scale_proxy, sharers_users by auto. unfold proxy_scale. rewrite E.
    rewrite <- (map_heap_refs _ _ _ _ W (fun f => f) E).
    destruct (px_kind p); auto. destruct (px_init p); auto.
  Qed.

  (** ** Statistics follow the weights *)

  (** A scale computed from statistics is at every time the statistic of the current weights
      of all layers using the quantizer, whatever was done before. *)
  Theorem C108_stats_scale : forall m i, reachable m -> i < layers m -> kind_of_layer m i = Some KStats ->
    scale m i = Some (stat (map (weight m) (sharers m i))).
  Proof.
    intros m i R L K. apply reachable_WF in R. destruct (quantizer_some m i R L) as [p E].
    rewrite (scale_obs m i p R L E). unfold kind_of_layer in K. rewrite E in K. cbn in K. assert (px_kind p = KStats) as -> by congruence. reflexivity.
  Qed.

  (** ** Rebuilding forgets *)

  (** The operations after which the quantizer of layer [k] was built anew, other than
      loading. *)
  Inductive rebuilds (m : model) : @op V -> nat -> Prop :=
  | RbReplace : forall i k w, i < layers m -> quantizer m k = quantizer m i -> rebuilds m (ReplaceWeight i w) k
  | RbTie : forall i j k, i < layers m -> j < layers m -> quantizer m k = quantizer m i -> rebuilds m (TieWeight i j) k
  | RbMerge : forall i k f, i < layers m -> quantizer m k = quantizer m i -> rebuilds m (MergeBN i f) k
  | RbShare : forall k w, rebuilds m (ShareLayer (quantizer m k) w) k.

  Lemma itq_layer : forall m i, WFx (eq (quantizer m i)) m -> i < layers m -> forall kd, kind_of_layer m i = Some kd ->
    scale (itq m (quantizer m i)) i = Some (built_scale kd (map (weight m) (users_of (prx m) (quantizer m i)))) /\
    (forall j, j < layers m -> weight (itq m (quantizer m i)) j = weight m j) /\
    sharers (itq m (quantizer m i)) i = users_of (prx m) (quantizer m i).
  Proof.
    intros m i W L kd K. unfold kind_of_layer in K. destruct (nth_error (pxs m) (quantizer m i)) as [p|] eqn:E; [|discriminate K].
    assert (W' : WF (itq m (quantizer m i))) by (apply itq_WF; auto; now apply nth_error_lt in E).
    split; [|split].
    - rewrite scale_proxy; auto; [|unfold layers; now rewrite itq_wts].
      unfold quantizer at 2. rewrite itq_prx. fold (quantizer m i). rewrite (itq_scale stat ini mul one m (quantizer m i) p ML W E).
      cbn in K. assert (px_kind p = kd) by congruence. subst. reflexivity.
    - intros j J. apply itq_weight; auto. apply (wf_wts _ _ W).
    - rewrite sharers_users by auto. unfold quantizer. rewrite itq_prx. reflexivity.
  Qed.

  (** After a weight is replaced or tied, a batch norm folded, or the quantizer given to a
      further layer, every layer using that quantizer has the scale of a newly built quantizer
      over the current weights: a scale that was learned or loaded before is lost. *)
  Theorem C108_rebuild_forgets : forall m o k kd, reachable m -> k < layers m -> rebuilds m o k -> kind_of_layer m k = Some kd ->
    scale (step m o) k = Some (built_scale kd (map (weight (step m o)) (sharers (step m o) k))).
  Proof.
    intros m o k kd R L B K. apply reachable_WF in R.
    assert (G : forall m1, WFx (eq (quantizer m1 k)) m1 -> k < layers m1 -> kind_of_layer m1 k = Some kd ->
              scale (itq m1 (quantizer m1 k)) k = Some (built_scale kd (map (weight (itq m1 (quantizer m1 k))) (sharers (itq m1 (quantizer m1 k)) k)))).
    { intros m1 W1 L1 K1. destruct (itq_layer m1 k W1 L1 kd K1) as (A & C & D). rewrite A, D. do 2 f_equal.
      apply map_ext_in. intros j J. symmetry. apply C. apply users_of_In in J. unfold layers. rewrite <- (wf_len _ _ W1). tauto. }
    destruct B as [i k w Hi Q|i j k Hi Hj Q|i k f Hi Q|k w]; cbn [QuantState.step].
    - unfold replace_weight. destruct (Nat.ltb_spec i (length (wts m))); [|unfold layers in Hi; lia].
      fold (quantizer m i). rewrite <- Q.
      match goal with |- context [itq ?M _] => change (quantizer m k) with (quantizer M k); apply (G M) end.
      + change (WFx (eq (quantizer m k)) (Md (upd (heap m) (fresh m) w) (S (fresh m)) (set_at i (fresh m) (wts m)) (prx m) (pxs m))).
        rewrite Q. apply rebind_WFx; auto.
      + unfold layers. cbn. rewrite set_at_length. exact L.
      + exact K.
    - unfold tie_weight. destruct (Nat.ltb_spec i (length (wts m))); [|unfold layers in Hi; lia].
      destruct (Nat.ltb_spec j (length (wts m))); [|unfold layers in Hj; lia]. cbn [andb].
      fold (quantizer m i). rewrite <- Q.
      match goal with |- context [itq ?M _] => change (quantizer m k) with (quantizer M k); apply (G M) end.
      + change (WFx (eq (quantizer m k)) (Md (heap m) (fresh m) (set_at i (wcell m j) (wts m)) (prx m) (pxs m))).
        rewrite Q. pose proof (wcell_In m j Hj) as I. apply rebind_WFx; auto. apply (wf_wts _ _ R _ I).
      + unfold layers. cbn. rewrite set_at_length. exact L.
      + exact K.
    - unfold merge_bn. destruct (Nat.ltb_spec i (length (wts m))); [|unfold layers in Hi; lia].
      fold (quantizer m i). rewrite <- Q.
      match goal with |- context [itq ?M _] => change (quantizer m k) with (quantizer M k); apply (G M) end.
      + apply WF_WFx. now apply write_WF.
      + exact L.
      + exact K.
    - unfold share_layer. destruct (quantizer_some m k R L) as [p E]. rewrite E.
      set (m1 := Md _ _ _ _ _).
      assert (Q1 : quantizer m1 k = quantizer m k).
      { unfold quantizer, m1. cbn [prx]. rewrite app_nth1; auto. rewrite (wf_len _ _ R). exact L. }
      rewrite <- Q1. apply G.
      + rewrite Q1. pose proof (share_layer_WF ini one m (quantizer m k) w R) as W. unfold share_layer in W. rewrite E in W. fold m1 in W.
        (* re-derive the weaker invariant of m1 *)
        pose proof (nth_error_lt _ _ _ _ E) as Lq.
        assert (NE : forall q' p', quantizer m k <> q' -> nth_error (pxs m1) q' = Some p' -> nth_error (pxs m) q' = Some p').
        { intros q' p' N H. unfold m1 in H. cbn [pxs] in H. rewrite nth_error_set_at_ne in H; auto. }
        constructor.
        * pose proof (wf_len _ _ W) as H. rewrite itq_wts, itq_prx in H. exact H.
        * pose proof (wf_prx _ _ W) as H. rewrite itq_prx, itq_len in H. exact H.
        * intros c I. unfold m1 in I |- *. cbn [wts fresh] in *. apply in_app_or in I. destruct I as [I|[<-|[]]]; [|lia]. pose proof (wf_wts _ _ R _ I). lia.
        * intros q' p' H. destruct (Nat.eq_dec (quantizer m k) q') as [<-|N].
          -- destruct (itq_self ini one m1 _ _ H) as (p2 & E2 & _ & T2 & _). pose proof (wf_trk _ _ W _ _ E2) as X. rewrite itq_prx in X. congruence.
          -- pose proof (wf_trk _ _ W q' p') as X. rewrite itq_prx, itq_other in X by auto. apply X; auto.
        * intros q' p' N H. pose proof (wf_ref _ _ W q' p' (fun f => f)) as X. rewrite itq_other in X by auto. rewrite (X H).
          unfold wcell. rewrite itq_wts. reflexivity.
        * intros q' p' N H Sf. apply NE in H; auto. destruct (wf_val _ _ R _ _ (fun f => f) H Sf) as [a b].
          unfold m1. cbn [fresh wts]. split; [lia|]. intro I. apply in_app_or in I. destruct I as [I|[I|[]]]; auto. lia.
        * intros q1 q2 p1 p2 N1 N2 H1 H2. apply NE in H1; auto. apply NE in H2; auto. apply (wf_dis _ _ R q1 q2); auto.
        * intros q' p' N H. apply NE in H; auto. apply (wf_par _ _ R q'); auto.
      + unfold layers, m1. cbn. rewrite app_length. unfold layers in L. cbn. lia.
      + unfold kind_of_layer in *. rewrite Q1. unfold m1. cbn [pxs]. rewrite nth_error_set_at_eq by (now apply nth_error_lt in E). cbn.
        rewrite E in K. exact K.
  Qed.

  (** Rebuilding with [preserve_state_dict] keeps every weight and every scale, provided the
      quantizer ran before or its placeholder was left alone. *)
  Theorem C108_preserve : forall m k, reachable m -> k < layers m -> untouched m k ->
    forall i, i < layers m ->
      weight (step m (InitPreserving (quantizer m k))) i = weight m i /\
      scale (step m (InitPreserving (quantizer m k))) i = scale m i.
  Proof.
    intros m k R L U i Li. apply reachable_WF in R.
    destruct (quantizer_some m k R L) as [p E]. set (q := quantizer m k) in *.
    pose proof (nth_error_lt _ _ _ _ E) as Lq.
    assert (W1 : WF (itq m q)) by (apply itq_WF; auto; now apply WF_WFx).
    destruct (itq_self ini one m q p E) as (p1 & E1 & K1 & T1 & R1 & Sv & Kp & Kf).
    assert (W2 : WF (step m (InitPreserving q))) by (now apply step_WF).
    cbn [QuantState.step] in *. unfold init_preserving in *.
    set (m2 := match saved_value m q with Some v => load_value (itq m q) q v | None => itq m q end) in *.
    assert (Wt : wts m2 = wts m /\ prx m2 = prx m).
    { unfold m2. destruct (saved_value m q); rewrite ?load_value_wts, ?load_value_prx, ?itq_wts, ?itq_prx; auto. }
    destruct Wt as [Wt Pt].
    assert (HW : forall j, j < layers m -> weight m2 j = weight m j).
    { intros j J. rewrite <- (itq_weight ini one m q j (wf_wts _ _ R) J).
      unfold weight, wcell. rewrite Wt, itq_wts. unfold m2. destruct (saved_value m q) eqn:SV; auto.
      rewrite (load_value_heap _ _ _ _ _ E1). destruct (Nat.eqb_spec (nth j (wts m) 0) (px_val p1)) as [e|]; auto. exfalso.
      assert (Sf : stateful (px_kind p1) = true).
      { rewrite K1. unfold saved_value in SV. rewrite E in SV. destruct (px_kind p); auto; discriminate. }
      destruct (wf_val _ _ W1 _ _ (fun f => f) E1 Sf) as [_ N]. apply N. rewrite <- e, itq_wts. apply nth_In. exact J. }
    split; [now apply HW|].
    assert (Qi : quantizer m2 i = quantizer m i) by (unfold quantizer; now rewrite Pt).
    assert (Si : sharers m2 i = sharers m i) by (unfold sharers, quantizer, layers; now rewrite Pt, Wt).
    assert (Mi : map (weight m2) (sharers m2 i) = map (weight m) (sharers m i)).
    { rewrite Si. apply map_ext_in. intros j J. apply HW. unfold sharers in J. apply filter_In in J. destruct J as [J _]. apply in_seq in J. lia. }
    destruct (Nat.eq_dec (quantizer m i) q) as [e|N].
    - rewrite (scale_obs m i p) by (auto; now rewrite e).
      destruct (saved_value m q) as [v|] eqn:SV.
      + assert (E2 : nth_error (pxs m2) (quantizer m2 i) = Some (Px (px_kind p1) (px_tracked p1) (px_refs p1) (px_val p1) true)).
        { rewrite Qi, e. unfold m2. now apply load_value_self. }
        rewrite (scale_obs m2 i _ W2) with (2 := E2) by (unfold layers; rewrite Wt; exact Li). cbn [px_kind px_init px_val].
        assert (H2 : heap m2 (px_val p1) = v).
        { unfold m2. rewrite (load_value_heap _ _ _ _ _ E1), Nat.eqb_refl. reflexivity. }
        rewrite H2, K1. unfold saved_value in SV. rewrite E in SV. destruct (px_kind p); [discriminate SV|congruence|].
        destruct (px_init p); [congruence|discriminate SV].
      + assert (E2 : nth_error (pxs m2) (quantizer m2 i) = Some p1) by (rewrite Qi, e; unfold m2; exact E1).
        rewrite (scale_obs m2 i _ W2) with (2 := E2) by (unfold layers; rewrite Wt; exact Li).
        unfold saved_value in SV. rewrite E in SV. rewrite K1. destruct (px_kind p) eqn:KK; [now rewrite Mi|discriminate SV|].
        destruct (px_init p) eqn:PI; [discriminate SV|]. destruct (Kf eq_refl) as [-> H1]. rewrite Mi. do 2 f_equal.
        unfold m2. rewrite H1. symmetry. apply (U p); auto.
    - destruct (quantizer_some m i R Li) as [p3 E3].
      assert (E4 : nth_error (pxs m2) (quantizer m2 i) = Some p3).
      { rewrite Qi. unfold m2. destruct (saved_value m q); rewrite ?load_value_other by auto; rewrite itq_other; auto. }
      rewrite (scale_obs m i p3), (scale_obs m2 i p3) by (auto; unfold layers; rewrite Wt; exact Li).
      rewrite Mi.
      assert (HV : stateful (px_kind p3) = true -> heap m2 (px_val p3) = heap m (px_val p3)).
      { intros Sf. rewrite <- (itq_heap ini one m q (px_val p3)) by (apply (wf_val _ _ R _ _ (fun f => f) E3 Sf)).
        unfold m2. destruct (saved_value m q) eqn:SV; auto. rewrite (load_value_heap _ _ _ _ _ E1).
        destruct (Nat.eqb_spec (px_val p3) (px_val p1)) as [e|]; auto. exfalso. apply N.
        apply (wf_dis _ _ W1 (quantizer m i) q p3 p1); auto; [rewrite itq_other; auto|].
        rewrite K1. unfold saved_value in SV. rewrite E in SV. destruct (px_kind p); auto; discriminate. }
      destruct (px_kind p3); auto; rewrite HV; auto.
  Qed.

  (** ** Loading *)

  (** Layers that hold the same Parameter have the same weight in the checkpoint (always true
      when no weights are tied). *)
  Definition consistent (m : model) (d : @dict V) : Prop :=
    forall i j, i < layers m -> j < layers m -> wcell m i = wcell m j -> get d (i, FWeight) = get d (j, FWeight).
  Definition weight_after (m : model) (d : @dict V) (i : nat) : V := match get d (i, FWeight) with Some v => v | None => weight m i end.

  (** With quantizers rebuilt on load (the default): every weight in the checkpoint is loaded;
      a learned scale is the one the checkpoint has for the last layer using the quantizer, and
      if it has none there, that of a new quantizer over the weights after the load. What the
      model held before matters only for weights absent from the checkpoint. *)
  Theorem C108_load : forall m d fl s i kd, reachable m -> consistent m d -> f_reinit fl = true ->
    i < layers m -> kind_of_layer m i = Some kd ->
    let m' := fst (load_state_dict fl s m d) in
    weight m' i = weight_after m d i /\
    sharers m' i = sharers m i /\
    scale m' i = Some (match kd, get d (last (sharers m i) 0, FValue) with
                       | KStats, _ | _, None => built_scale kd (map (weight_after m d) (sharers m i))
                       | _, Some v => v
                       end).
  Proof.
    intros m d fl s i kd R C F L K m'. apply reachable_WF in R.
    pose proof (reinit_load ini mul one d m R C fl F s) as I. fold m' in I.
    assert (HW : forall j, j < layers m -> weight m' j = weight_after m d j).
    { intros j J. apply (LInv_done d m _ _ _ _ I); exact J. }
    assert (Wm := li_wf _ _ _ _ _ I). assert (Wt := li_wts _ _ _ _ _ I). assert (Pt := li_prx _ _ _ _ _ I).
    assert (Sh : sharers m' i = sharers m i) by (unfold sharers, quantizer, layers; now rewrite Pt, Wt).
    split; [auto|]. split; [exact Sh|].
    assert (L' : i < layers m') by (unfold layers; rewrite Wt; exact L).
    destruct (quantizer_some m' i Wm L') as [p E].
    assert (Qi : quantizer m' i = quantizer m i) by (unfold quantizer; now rewrite Pt).
    rewrite (scale_obs m' i p Wm L' E), Sh.
    assert (Mi : map (weight m') (sharers m i) = map (weight_after m d) (sharers m i)).
    { apply map_ext_in. intros j J. apply HW. unfold sharers in J. apply filter_In in J. destruct J as [J _]. apply in_seq in J. lia. }
    rewrite Mi.
    assert (Kp : px_kind p = kd).
    { unfold kind_of_layer in K. rewrite <- (li_kind _ _ _ _ _ I) in K. rewrite <- Qi, E in K. cbn in K. congruence. }
    rewrite Kp. f_equal.
    pose proof (li_p _ _ _ _ _ I _ _ E) as P. rewrite Kp in P.
    assert (K0 : kind0 m (quantizer m' i) = kd).
    { unfold kind0. rewrite Qi. unfold kind_of_layer in K. destruct (nth_error (pxs m) (quantizer m i)); cbn in K; congruence. }
    assert (U : users_of (prx m) (quantizer m' i) = sharers m i) by (rewrite Qi, sharers_users; auto).
    assert (P' : stateful kd = true -> PR ini one d m (length (wts m)) (quantizer m' i) (heap m' (px_val p)) (px_init p) (px_val p)) by exact P.
    clear P. unfold PR in P'. rewrite K0, U in P'.
    assert (PP : stateful kd = true -> match get d (last (sharers m i) 0, FValue) with
      | Some x => heap m' (px_val p) = x /\ px_init p = true
      | None => match kd with KParam => heap m' (px_val p) = ini (map (weight_after m d) (sharers m i)) /\ px_init p = true
                | _ => heap m' (px_val p) = one /\ px_init p = false end end).
    { intros Sf. apply P'; auto.
      - intros l I1. unfold sharers in I1. apply filter_In in I1. destruct I1 as [I1 _]. apply in_seq in I1. unfold layers in I1. lia.
      - intro N. assert (X : In i (sharers m i)); [|rewrite N in X; destruct X]. unfold sharers. apply filter_In. rewrite in_seq, Nat.eqb_eq. lia. }
    destruct kd; cbn [built_scale]; auto; specialize (PP eq_refl); destruct (get d (last (sharers m i) 0, FValue)); destruct PP as [-> PI]; auto;
      rewrite PI; auto.
  Qed.

  (** Without rebuilding: a learned scale is the one the checkpoint has for the last sharing
      layer that has one; otherwise the quantizer is as it was. *)
  Theorem C108_load_keep : forall m d fl s i kd, reachable m -> consistent m d -> f_reinit fl = false ->
    i < layers m -> kind_of_layer m i = Some kd ->
    let m' := fst (load_state_dict fl s m d) in
    weight m' i = weight_after m d i /\
    sharers m' i = sharers m i /\
    (kd = KStats -> scale m' i = Some (stat (map (weight_after m d) (sharers m i)))) /\
    (kd <> KStats -> forall l v, In l (sharers m i) -> get d (l, FValue) = Some v ->
       (forall l', In l' (sharers m i) -> l < l' -> get d (l', FValue) = None) -> scale m' i = Some v) /\
    (kd <> KStats -> initialised m i -> (forall l, In l (sharers m i) -> get d (l, FValue) = None) -> scale m' i = scale m i).
  Proof.
    intros m d fl s i kd R C F L K m'. apply reachable_WF in R.
    pose proof (keep_load ini one d m R C fl F s) as I. fold m' in I.
    assert (HW : forall j, j < layers m -> weight m' j = weight_after m d j).
    { intros j J. apply (LInv_done d m _ _ _ _ I); exact J. }
    assert (Wm := li_wf _ _ _ _ _ I). assert (Wt := li_wts _ _ _ _ _ I). assert (Pt := li_prx _ _ _ _ _ I).
    assert (Sh : sharers m' i = sharers m i) by (unfold sharers, quantizer, layers; now rewrite Pt, Wt).
    split; [auto|]. split; [exact Sh|].
    assert (L' : i < layers m') by (unfold layers; rewrite Wt; exact L).
    destruct (quantizer_some m' i Wm L') as [p E].
    assert (Qi : quantizer m' i = quantizer m i) by (unfold quantizer; now rewrite Pt).
    rewrite (scale_obs m' i p Wm L' E), Sh.
    assert (Mi : map (weight m') (sharers m i) = map (weight_after m d) (sharers m i)).
    { apply map_ext_in. intros j J. apply HW. unfold sharers in J. apply filter_In in J. destruct J as [J _]. apply in_seq in J. lia. }
    rewrite Mi.
    assert (Kp : px_kind p = kd).
    { unfold kind_of_layer in K. rewrite <- (li_kind _ _ _ _ _ I) in K. rewrite <- Qi, E in K. cbn in K. congruence. }
    pose proof (li_p _ _ _ _ _ I _ _ E) as P. rewrite Kp in *.
    split; [intros ->; reflexivity|].
    assert (U : filter (fun j => Nat.eqb (nth j (prx m) 0) (quantizer m' i)) (seq 0 (length (wts m))) = sharers m i).
    { rewrite Qi. reflexivity. }
    unfold PK in P. rewrite U in P.
    assert (NS : forall A, kd <> KStats -> (stateful kd = true -> A) -> A) by (intros A N; destruct kd; cbn; auto; congruence).
    split; intros N; apply (NS _ N); intros Sf; destruct (P Sf) as (p0 & E0 & C0 & ST).
    - intros l v Il G Lt.
      assert (LV : last_value d (sharers m i) = Some v).
      { unfold last_value. apply in_split in Il. destruct Il as (a & b & AB). 
        assert (Sb : forall x, In x b -> l < x).
        { intros x Ix. unfold sharers in AB. clear - AB Ix.
          assert (SS : forall n st pr, forall a b, filter pr (seq st n) = a ++ l :: b -> forall x, In x b -> l < x).
          { induction n as [|n IH]; intros st pr a0 b0 H y Iy; cbn in H; [destruct a0; discriminate|].
            destruct (pr st); [|eapply IH; eauto]. destruct a0 as [|z a0]; cbn in H.
            - assert (l = st /\ b0 = filter pr (seq (S st) n)) as [-> ->] by (split; congruence).
              apply filter_In in Iy. destruct Iy as [Iy _]. apply in_seq in Iy. lia.
            - assert (filter pr (seq (S st) n) = a0 ++ l :: b0) by congruence. eapply IH; eauto. }
          eapply SS; eauto. }
        rewrite AB in *. rewrite fold_left_app. cbn [fold_left]. rewrite G.
        assert (Nb : forall x, In x b -> get d (x, FValue) = None) by (intros x Ix; apply Lt; [apply in_or_app; right; now right|auto]).
        clear - Nb. induction b as [|x b IH]; auto. cbn [fold_left]. rewrite (Nb x (or_introl eq_refl)). apply IH. intros; apply Nb; now right. }
      rewrite LV in ST. destruct ST as [-> ->]. destruct kd; auto. discriminate Sf.
    - intros Ini No.
      assert (LV : last_value d (sharers m i) = None).
      { unfold last_value. assert (G : forall l, (forall x, In x l -> get d (x, FValue) = None) ->
          fold_left (fun acc j => match get d (j, FValue) with Some v => Some v | None => acc end) l None = None).
        { induction l as [|x l IH]; intros H; auto. cbn [fold_left]. rewrite (H x (or_introl eq_refl)). apply IH. intros; apply H; now right. }
        now apply G. }
      rewrite LV in ST. destruct ST as [-> ->]. rewrite Qi in E0.
      rewrite (scale_obs m i p0 R L E0).
      assert (K0 : px_kind p0 = kd) by (unfold kind_of_layer in K; rewrite E0 in K; cbn in K; congruence).
      rewrite K0. destruct kd; auto; [discriminate Sf|]. rewrite (Ini p0 E0 K0). reflexivity.
  Qed.

  (** When [load_state_dict] returns: not strict, or every layer finds its weight, every learned
      scale its value (unless missing keys are ignored), and every key has a place. *)
  Definition stateful_layer (m : model) (i : nat) : Prop := kind_of_layer m i = Some KParam \/ kind_of_layer m i = Some KFromStats.

  Lemma load_layer_kinds : forall fl d (m : model) k q,
    option_map px_kind (nth_error (pxs (fst (load_layer ini one fl d m k))) q) = option_map px_kind (nth_error (pxs m) q).
  Proof.
    intros fl d m k q. rewrite load_layer_fst. cbv zeta. set (q0 := nth k (prx m) 0).
    assert (A : forall m1 : model, option_map px_kind (nth_error (pxs (itq m1 q0)) q) = option_map px_kind (nth_error (pxs m1) q)).
    { intros m1. destruct (Nat.eq_dec q q0) as [->|N]; [|now rewrite itq_other].
      destruct (nth_error (pxs m1) q0) as [p|] eqn:E.
      - destruct (itq_self ini one m1 q0 p E) as (p' & -> & K & _). cbn. congruence.
      - unfold init_tensor_quant. rewrite E. now rewrite E. }
    assert (B : forall (m1 : model) v, option_map px_kind (nth_error (pxs (load_value m1 q0 v)) q) = option_map px_kind (nth_error (pxs m1) q)).
    { intros m1 v. destruct (Nat.eq_dec q q0) as [->|N]; [|now rewrite load_value_other].
      destruct (nth_error (pxs m1) q0) as [p|] eqn:E.
      - rewrite (load_value_self _ _ _ _ E). reflexivity.
      - unfold load_value. rewrite E. now rewrite E. }
    destruct (loaded_weight_frame d m k) as (_ & _ & Fx & _).
    set (m2 := if f_reinit fl then _ else _).
    assert (D : option_map px_kind (nth_error (pxs m2) q) = option_map px_kind (nth_error (pxs m) q)).
    { unfold m2. destruct (f_reinit fl); rewrite ?A, Fx; reflexivity. }
    destruct (nth_error (pxs m2) q0) as [p|]; auto. destruct (stateful (px_kind p)); auto. destruct (get d (k, FValue)); auto. now rewrite B.
  Qed.

  Definition misses (fl : flags) (d : @dict V) (m : model) (i : nat) : Prop :=
    get d (i, FWeight) = None \/ (f_ignore fl = false /\ stateful_layer m i /\ get d (i, FValue) = None).

  Lemma load_layer_miss : forall fl d (m : model) k, snd (load_layer ini one fl d m k) = true <-> misses fl d m k.
  Proof.
    intros fl d m k. unfold load_layer, misses, stateful_layer, kind_of_layer, quantizer.
    set (X := match get d (k, FWeight) with Some v => (write m (wcell m k) v, false) | None => (m, true) end).
    assert (PX : pxs (fst X) = pxs m) by (unfold X; destruct (get d (k, FWeight)); reflexivity).
    assert (SX : snd X = true <-> get d (k, FWeight) = None) by (unfold X; destruct (get d (k, FWeight)); cbn; split; congruence).
    destruct X as [m1 b]. cbn [fst snd] in *. cbv zeta. set (q0 := nth k (prx m) 0).
    set (m2 := if f_reinit fl then _ else _).
    assert (D : option_map px_kind (nth_error (pxs m2) q0) = option_map px_kind (nth_error (pxs m) q0)).
    { rewrite <- PX. unfold m2. destruct (f_reinit fl); auto. destruct (nth_error (pxs m1) q0) as [p|] eqn:E.
      - destruct (itq_self ini one m1 q0 p E) as (p' & -> & K & _). cbn. congruence.
      - unfold init_tensor_quant. rewrite E. now rewrite E. }
    rewrite <- D. destruct (nth_error (pxs m2) q0) as [p|]; cbn [option_map].
    - destruct (px_kind p); cbn [stateful].
      + cbn [snd]. rewrite SX. intuition congruence.
      + destruct (get d (k, FValue)); cbn [snd]; rewrite ?orb_true_iff, ?negb_true_iff, SX; intuition congruence.
      + destruct (get d (k, FValue)); cbn [snd]; rewrite ?orb_true_iff, ?negb_true_iff, SX; intuition congruence.
    - cbn [snd]. rewrite SX. intuition congruence.
  Qed.

  Lemma misses_kinds : forall fl d (m m' : model) i, prx m' = prx m ->
    (forall q, option_map px_kind (nth_error (pxs m') q) = option_map px_kind (nth_error (pxs m) q)) -> misses fl d m' i <-> misses fl d m i.
  Proof. intros fl d m m' i P K. unfold misses, stateful_layer, kind_of_layer, quantizer. rewrite P, K. tauto. Qed.

  Lemma load_layers_miss : forall fl d is m, snd (load_layers ini one fl d m is) = true <-> exists i, In i is /\ misses fl d m i.
  Proof.
    intros fl d. induction is as [|k is IH]; intros m; cbn [load_layers].
    - cbn. split; [discriminate|intros (i & [] & _)].
    - pose proof (load_layer_miss fl d m k) as A. pose proof (load_layer_kinds fl d m k) as Kn. destruct (load_layer_wts ini one fl d m k) as (_ & Pp & _).
      destruct (load_layer ini one fl d m k) as [m1 b]. cbn [fst snd] in *.
      pose proof (IH m1) as B. destruct (load_layers ini one fl d m1 is) as [m2 b']. cbn [snd] in *.
      rewrite orb_true_iff, A, B. split.
      + intros [H|(i & I & H)]; [exists k; split; auto; now left|]. exists i. split; [now right|]. now apply (misses_kinds fl d m m1 i).
      + intros (i & [<-|I] & H); auto. right. exists i. split; auto. now apply (misses_kinds fl d m m1 i).
  Qed.

  Definition has_place (m : model) (k : key) : Prop :=
    fst k < layers m /\ (snd k = FValue -> stateful_layer m (fst k)).

  Theorem C108_load_returns : forall m d fl s,
    snd (load_state_dict fl s m d) = true <->
    (s = true ->
      (forall i, i < layers m -> get d (i, FWeight) <> None) /\
      (forall i, i < layers m -> stateful_layer m i -> f_ignore fl = true \/ get d (i, FValue) <> None) /\
      (forall k v, In (k, v) d -> has_place m k)).
  Proof.
    intros m d fl s. unfold QuantState.load_state_dict.
    pose proof (load_layers_miss fl d (seq 0 (length (wts m))) m) as A.
    destruct (load_layers ini one fl d m (seq 0 (length (wts m)))) as [m1 b]. cbn [snd] in *.
    assert (KN : forall k, known_key m k = true <-> has_place m k).
    { intros [i [|]]; unfold known_key, has_place, stateful_layer, kind_of_layer, quantizer, layers; cbn [fst snd]; rewrite andb_true_iff, Nat.ltb_lt.
      - intuition congruence.
      - destruct (nth_error (pxs m) (nth i (prx m) 0)) as [p|]; cbn [option_map]; [destruct (px_kind p); cbn|]; intuition congruence. }
    destruct s; cbn [andb negb].
    2:{ split; auto. intros _. discriminate. }
    rewrite negb_true_iff, orb_false_iff. split.
    - intros [Hb Hu] _. repeat split.
      + intros i Li G. assert (b = true); [|congruence]. apply A. exists i. split; [apply in_seq; unfold layers in Li; lia|now left].
      + intros i Li St. destruct (f_ignore fl) eqn:Ig; auto. right. intro G. assert (b = true); [|congruence]. apply A. exists i.
        split; [apply in_seq; unfold layers in Li; lia|]. right. auto.
      + apply KN. apply not_false_iff_true. intro G. assert (X : existsb (fun e : key * V => negb (known_key m (fst e))) d = true); [|congruence].
        apply existsb_exists. exists (k, v). split; auto. cbn. now rewrite G.
      + apply KN. apply not_false_iff_true. intro G. assert (X : existsb (fun e : key * V => negb (known_key m (fst e))) d = true); [|congruence].
        apply existsb_exists. exists (k, v). split; auto. cbn. now rewrite G.
    - intros H. destruct (H eq_refl) as (Hw & Hv & Hk). split.
      + apply not_true_iff_false. intro G. apply A in G. destruct G as (i & I & M). apply in_seq in I. unfold layers in *.
        destruct M as [M|(Ig & St & M)]; [apply (Hw i); [lia|auto]|]. destruct (Hv i); auto; [lia|congruence].
      + apply not_true_iff_false. intro G. apply existsb_exists in G. destruct G as ([k v] & I & N). cbn in N.
        apply Hk in I. apply KN in I. rewrite I in N. discriminate.
  Qed.

  (** ** Round trips *)

  Lemma key_eqb_spec : forall a b, key_eqb a b = true <-> a = b.
  Proof.
    intros [i f] [j g]. unfold key_eqb. cbn. rewrite andb_true_iff, Nat.eqb_eq. split.
    - intros [-> H]. destruct f, g; cbn in H; congruence.
    - intros H. assert (i = j /\ f = g) as [-> ->] by (split; congruence). split; auto. destruct g; auto.
  Qed.
  Lemma get_app : forall (a b : @dict V) k, get (a ++ b) k = match get a k with Some v => Some v | None => get b k end.
  Proof. induction a as [|[k' v] a IH]; intros b k; cbn; auto. destruct (key_eqb k' k); auto. Qed.
  Lemma get_save_layer : forall (m : model) j i fd, get (save_layer m j) (i, fd) =
    if Nat.eqb j i then match fd with FWeight => Some (weight m i) | FValue => saved_value m (quantizer m i) end else None.
  Proof.
    intros m j i fd. unfold save_layer. cbn [get]. unfold key_eqb at 1. cbn [fst snd].
    destruct (Nat.eqb_spec j i) as [->|N]; cbn [andb].
    - destruct fd; cbn [field_eqb]; auto. unfold quantizer. destruct (saved_value m (nth i (prx m) 0)); cbn; auto. unfold key_eqb. cbn. now rewrite Nat.eqb_refl.
    - destruct (saved_value m (nth j (prx m) 0)); cbn; auto. unfold key_eqb. cbn. destruct (Nat.eqb_spec j i); [contradiction|]. reflexivity.
  Qed.
  Lemma get_state_dict : forall (m : model) i fd, get (state_dict m) (i, fd) =
    if Nat.ltb i (layers m) then match fd with FWeight => Some (weight m i) | FValue => saved_value m (quantizer m i) end else None.
  Proof.
    intros m i fd. unfold state_dict. fold (layers m). generalize (layers m) as n. induction n as [|n IH]; auto.
    rewrite seq_S, flat_map_app, get_app, IH. cbn [flat_map Nat.add]. rewrite app_nil_r, get_save_layer.
    destruct (Nat.ltb_spec i n); destruct (Nat.ltb_spec i (S n)); try lia.
    - destruct fd; auto. destruct (saved_value m (quantizer m i)); auto. destruct (Nat.eqb_spec n i); auto; lia.
    - assert (n = i) by lia. subst. now rewrite Nat.eqb_refl.
    - destruct (Nat.eqb_spec n i); auto; lia.
  Qed.
  Lemma In_state_dict : forall (m : model) k v, In (k, v) (state_dict m) -> fst k < layers m /\ (snd k = FValue -> saved_value m (quantizer m (fst k)) <> None).
  Proof.
    intros m k v H. unfold state_dict in H. apply in_flat_map in H. destruct H as (i & I & H). apply in_seq in I. unfold save_layer in H.
    unfold layers, quantizer. destruct H as [H|H].
    - assert (k = (i, FWeight)) by congruence. subst. cbn. split; [lia|discriminate].
    - destruct (saved_value m (nth i (prx m) 0)) eqn:E; [|destruct H]. destruct H as [H|[]]. assert (k = (i, FValue)) by congruence. subst. cbn. split; [lia|]. intros _. congruence.
  Qed.

  (** The same network: as many layers, the same sharing, the same kinds of quantizers. *)
  Definition same_network (m m' : model) : Prop :=
    layers m' = layers m /\ (forall i, i < layers m -> quantizer m' i = quantizer m i) /\
    (forall i, i < layers m -> kind_of_layer m' i = kind_of_layer m i).

  Lemma same_sharers : forall m m' i, same_network m m' -> i < layers m -> sharers m' i = sharers m i.
  Proof.
    intros m m' i (A & B & _) L. unfold sharers. rewrite A. apply filter_ext_in. intros j J. apply in_seq in J. rewrite !B by lia. reflexivity.
  Qed.
  Lemma last_In : forall (l : list nat) d, l <> [] -> In (last l d) l.
  Proof. intros l d. induction l as [|a [|b l] IH]; intros N; [congruence|now left|]. right. apply IH. discriminate. Qed.
  Lemma last_sharer : forall m i, i < layers m -> last (sharers m i) 0 < layers m /\ quantizer m (last (sharers m i) 0) = quantizer m i.
  Proof.
    intros m i L. assert (N : sharers m i <> []).
    { intro N. assert (X : In i (sharers m i)); [|rewrite N in X; destruct X]. unfold sharers. apply filter_In. rewrite in_seq, Nat.eqb_eq. lia. }
    pose proof (last_In _ 0 N) as I. unfold sharers in I at 2. apply filter_In in I. rewrite in_seq, Nat.eqb_eq in I. lia.
  Qed.
  Lemma saved_obs : forall (m : model) q p, nth_error (pxs m) q = Some p -> saved_value m q =
    match px_kind p with KStats => None | KParam => Some (heap m (px_val p)) | KFromStats => if px_init p then Some (heap m (px_val p)) else None end.
  Proof. intros m q p E. unfold saved_value. now rewrite E. Qed.

  Lemma saved_place : forall (m : model) i, kind_of_layer m i <> Some KParam -> kind_of_layer m i <> Some KFromStats -> saved_value m (quantizer m i) = None.
  Proof.
    intros m i A B. unfold kind_of_layer in *. unfold saved_value. destruct (nth_error (pxs m) (quantizer m i)) as [p|]; auto. cbn in *.
    destruct (px_kind p); congruence.
  Qed.

  (** Loading a checkpoint of a model [m] into any model of the same network [m'], with the
      default rebuilding, gives it the weights and the scales of [m], whatever [m'] went
      through, if layers tied in [m'] have equal weights in [m]. A strict load returns exactly
      when all learned scales of [m] were initialised, or missing keys are ignored. *)
  Theorem C108_round_trip : forall m m' fl s, reachable m -> reachable m' -> same_network m m' -> f_reinit fl = true ->
    (forall i j, i < layers m -> j < layers m -> wcell m' i = wcell m' j -> weight m i = weight m j) ->
    (forall i, i < layers m -> untouched m i) ->
    let m'' := fst (load_state_dict fl s m' (state_dict m)) in
    (forall i, i < layers m -> weight m'' i = weight m i /\ scale m'' i = scale m i) /\
    state_dict m'' = state_dict m /\
    (snd (load_state_dict fl s m' (state_dict m)) = true <->
     s = false \/ f_ignore fl = true \/ forall i, i < layers m -> initialised m i).
  Proof.
    intros m m' fl s R R' SN F TIE U m''. pose proof SN as (NL & NQ & NK).
    assert (W := reachable_WF m R). assert (W' := reachable_WF m' R').
    assert (C : consistent m' (state_dict m)).
    { intros i j Li Lj e. rewrite !get_state_dict. rewrite NL in Li, Lj. destruct (Nat.ltb_spec i (layers m)); [|lia]. destruct (Nat.ltb_spec j (layers m)); [|lia].
      f_equal. now apply TIE. }
    assert (WA : forall i, i < layers m -> weight_after m' (state_dict m) i = weight m i).
    { intros i L. unfold weight_after. rewrite get_state_dict. destruct (Nat.ltb_spec i (layers m)); [reflexivity|lia]. }
    assert (MP : forall i, i < layers m -> map (weight_after m' (state_dict m)) (sharers m i) = map (weight m) (sharers m i)).
    { intros i L. apply map_ext_in. intros j J. apply WA. unfold sharers in J. apply filter_In in J. destruct J as [J _]. apply in_seq in J. lia. }
    assert (KD : forall i, i < layers m -> exists p, nth_error (pxs m) (quantizer m i) = Some p /\ kind_of_layer m' i = Some (px_kind p)).
    { intros i L. destruct (quantizer_some m i W L) as [p E]. exists p. split; auto. rewrite NK by auto. unfold kind_of_layer. now rewrite E. }
    assert (OBS : forall i, i < layers m -> weight m'' i = weight m i /\ scale m'' i = scale m i).
    { intros i L. destruct (KD i L) as (p & E & K').
      destruct (C108_load m' (state_dict m) fl s i (px_kind p) R' C F) as (A & B & D); auto; [lia|].
      fold m'' in A, B, D. split; [now rewrite A, WA|]. rewrite D, (scale_obs m i p W L E). rewrite (same_sharers m m' i SN L).
      rewrite (MP i L). destruct (last_sharer m i L) as [L1 Q1]. rewrite get_state_dict. destruct (Nat.ltb_spec (last (sharers m i) 0) (layers m)); [|lia].
      rewrite Q1, (saved_obs m _ p E).
      destruct (px_kind p) eqn:KK; auto. destruct (px_init p) eqn:PI; auto. cbn [built_scale]. rewrite (U i L p E KK PI), ML. reflexivity. }
    split; [exact OBS|].
    (* saved entries *)
    assert (LD := load_WF ini one fl s m' (state_dict m) W'). fold m'' in LD. destruct LD as (W2 & Wt & Pt & _).
    assert (L2 : layers m'' = layers m) by (unfold layers at 1; rewrite Wt; exact NL).
    split.
    - unfold state_dict at 1 2. fold (layers m'') (layers m). rewrite L2.
      assert (SV : forall i, i < layers m -> save_layer m'' i = save_layer m i).
      { intros i L. unfold save_layer. destruct (OBS i L) as [-> Sc]. f_equal.
        assert (SVE : saved_value m'' (quantizer m'' i) = saved_value m (quantizer m i)); [|unfold quantizer in SVE; now rewrite SVE].
        assert (Q2 : quantizer m'' i = quantizer m i) by (unfold quantizer; rewrite Pt; apply NQ; exact L).
        destruct (KD i L) as (p & E & K').
        pose proof (reinit_load ini mul one (state_dict m) m' W' C fl F s) as I. fold m'' in I.
        assert (L2' : i < layers m'') by lia. destruct (quantizer_some m'' i W2 L2') as [p2 E2].
        assert (Kp2 : px_kind p2 = px_kind p).
        { pose proof (li_kind _ _ _ _ _ I (quantizer m'' i)) as X. rewrite E2 in X. cbn in X. unfold kind_of_layer in K'. rewrite NQ in K' by auto. rewrite Q2 in X. congruence. }
        rewrite (saved_obs _ _ _ E2), (saved_obs _ _ _ E), Kp2.
        destruct (px_kind p) eqn:KK; auto.
        + rewrite (scale_obs m'' i p2 W2 L2' E2), (scale_obs m i p W L E), Kp2, KK in Sc. exact Sc.
        + pose proof (li_p _ _ _ _ _ I _ _ E2) as P. rewrite Kp2 in P. specialize (P eq_refl). unfold PR in P.
          assert (Us : users_of (prx m') (quantizer m'' i) = sharers m i).
          { rewrite <- (same_sharers m m' i SN L), sharers_users by auto. f_equal. rewrite Q2. symmetry. now apply NQ. }
          rewrite Us in P.
          assert (P1 : fresh m' <= px_val p2 /\ match get (state_dict m) (last (sharers m i) 0, FValue) with
             | Some x => heap m'' (px_val p2) = x /\ px_init p2 = true
             | None => match kind0 m' (quantizer m'' i) with KParam => heap m'' (px_val p2) = ini (map (new_weight (state_dict m) m') (sharers m i)) /\ px_init p2 = true
                       | _ => heap m'' (px_val p2) = one /\ px_init p2 = false end end).
          { apply P.
            - intros l Il. unfold sharers in Il. apply filter_In in Il. destruct Il as [Il _]. apply in_seq in Il. change (length (wts m')) with (layers m'). lia.
            - intro N. assert (X : In i (sharers m i)); [|rewrite N in X; destruct X]. unfold sharers. apply filter_In. rewrite in_seq, Nat.eqb_eq. lia. }
          destruct P1 as [_ P1]. destruct (last_sharer m i L) as [L1 Q1]. rewrite get_state_dict in P1.
          destruct (Nat.ltb_spec (last (sharers m i) 0) (layers m)); [|lia]. rewrite Q1, (saved_obs m _ p E), KK in P1.
          destruct (px_init p).
          * destruct P1 as [-> ->]. reflexivity.
          * assert (K0 : kind0 m' (quantizer m'' i) = KFromStats).
            { unfold kind0. rewrite Q2, <- NQ by auto. unfold kind_of_layer in K'. destruct (nth_error (pxs m') (quantizer m' i)); cbn in K'; congruence. }
            rewrite K0 in P1. destruct P1 as [_ ->]. reflexivity. }
      rewrite !flat_map_concat_map. f_equal. apply map_ext_in. intros i I. apply in_seq in I. apply SV. lia.
    - rewrite C108_load_returns. unfold has_place, stateful_layer. rewrite NL. split.
      + intros H. destruct s; auto. right. destruct (H eq_refl) as (_ & Hv & _). destruct (f_ignore fl) eqn:Ig; auto. right.
        intros i L p E K. destruct (Hv i L) as [X|X]; [right; rewrite NK by auto; unfold kind_of_layer; rewrite E; cbn; congruence|discriminate|].
        rewrite get_state_dict in X. destruct (Nat.ltb_spec i (layers m)); [|lia]. rewrite (saved_obs m _ p E), K in X. destruct (px_init p); congruence.
      + intros H St. repeat split.
        * intros i L. rewrite get_state_dict. destruct (Nat.ltb_spec i (layers m)); [discriminate|lia].
        * intros i L Sl. destruct H as [H|[H|H]]; [congruence|auto|]. right. rewrite get_state_dict. destruct (Nat.ltb_spec i (layers m)); [|lia].
          destruct (KD i L) as (p & E & K'). rewrite (saved_obs m _ p E). rewrite K' in Sl. specialize (H i L p E).
          destruct (px_kind p); [destruct Sl; discriminate|discriminate|]. rewrite H by auto. discriminate.
        * intros. apply (In_state_dict m k v) in H0. lia.
        * intros E. apply (In_state_dict m k v) in H0. destruct H0 as [L X]. specialize (X E).
          rewrite NK by exact L. destruct (kind_of_layer m (fst k)) as [[| |]|] eqn:KK; auto; exfalso; apply X; apply saved_place; congruence.
  Qed.

  (** ** Optimizers *)

  (** Training steps over parameters of an earlier state [m0], calls, and in-place changes of
      weights. *)
  Inductive training (m0 : model) : @op V -> Prop :=
  | TrStep : forall opt g, (forall c, In c opt -> In c (parameters m0)) -> training m0 (OptStep opt g)
  | TrForward : forall i, training m0 (Forward i)
  | TrSet : forall i w, training m0 (SetWeight i w).

  Lemma parameters_lt : forall (m : model) c, WF m -> In c (parameters m) -> c < fresh m.
  Proof.
    intros m c W I. unfold parameters in I. apply in_app_or in I. destruct I as [I|I]; [now apply (wf_wts _ _ W)|].
    apply in_map_iff in I. destruct I as (p & <- & I). apply filter_In in I. destruct I as [I Sf].
    apply In_nth_error in I. destruct I as [q E]. apply (wf_val _ _ W q p (fun f => f) E Sf).
  Qed.

  Lemma step_fresh : forall (m : model) o, WF m -> fresh m <= fresh (step m o).
  Proof.
    intros m o W. destruct o; cbn [QuantState.step].
    - unfold new_layer. eapply Nat.le_trans; [|apply itq_fresh]. cbn. lia.
    - unfold share_layer. destruct (nth_error (pxs m) q); auto. eapply Nat.le_trans; [|apply itq_fresh]. cbn. lia.
    - unfold replace_weight. destruct (Nat.ltb i (length (wts m))); auto. eapply Nat.le_trans; [|apply itq_fresh]. cbn. lia.
    - unfold tie_weight. destruct (Nat.ltb i (length (wts m)) && Nat.ltb j (length (wts m))); auto. eapply Nat.le_trans; [|apply itq_fresh]. cbn. lia.
    - unfold merge_bn. destruct (Nat.ltb i (length (wts m))); auto. eapply Nat.le_trans; [|apply itq_fresh]. cbn. lia.
    - unfold set_weight. destruct (Nat.ltb i (length (wts m))); auto.
    - unfold layer_scale. destruct (nth_error (prx m) i); auto. unfold proxy_scale. destruct (nth_error (pxs m) n) as [p|]; auto. destruct (px_kind p); auto. destruct (px_init p); auto.
    - auto.
    - apply load_WF; auto.
    - unfold init_preserving. destruct (saved_value m q); rewrite ?load_value_fresh; apply itq_fresh.
  Qed.
  Lemma run_fresh : forall os (m : model), WF m -> fresh m <= fresh (run m os).
  Proof.
    induction os as [|o os IH]; intros m W; cbn; auto. eapply Nat.le_trans; [apply (step_fresh m o W)|]. apply IH. now apply step_WF.
  Qed.

  (** A learned scale that the optimizer does not know, once initialised, stays. *)
  Lemma frozen_step : forall (m0 m : model) o i p, WF m -> training m0 o -> i < layers m ->
    nth_error (pxs m) (quantizer m i) = Some p -> stateful (px_kind p) = true -> px_init p = true -> ~ In (px_val p) (parameters m0) ->
    nth_error (pxs (step m o)) (quantizer (step m o) i) = Some p /\ heap (step m o) (px_val p) = heap m (px_val p) /\ layers (step m o) = layers m.
  Proof.
    intros m0 m o i p W T L E Sf PI N. destruct T as [opt g H|j|j w]; cbn [QuantState.step].
    - unfold opt_step, quantizer, layers. cbn [pxs prx heap wts]. repeat split; auto.
      destruct (existsb (Nat.eqb (px_val p)) opt) eqn:X; auto. exfalso. apply existsb_exists in X. destruct X as (c & I & e). apply Nat.eqb_eq in e. subst c. apply N. now apply H.
    - unfold layer_scale. destruct (nth_error (prx m) j) as [q|]; auto. unfold proxy_scale. destruct (nth_error (pxs m) q) as [p2|] eqn:E2; auto.
      destruct (px_kind p2) eqn:K2; auto. destruct (px_init p2) eqn:I2; auto. cbn [snd]. unfold quantizer, layers. cbn [pxs prx heap wts].
      assert (Nq : quantizer m i <> q) by (intro e; subst q; assert (p = p2) by congruence; subst; congruence).
      split; [rewrite nth_error_set_at_ne; auto|]. split; auto. unfold upd. destruct (Nat.eqb_spec (px_val p) (px_val p2)) as [e|]; auto. exfalso. apply Nq.
      apply (wf_dis _ _ W (quantizer m i) q p p2); auto. now rewrite K2.
    - unfold set_weight. destruct (Nat.ltb_spec j (length (wts m))); auto. unfold write, quantizer, layers. cbn [pxs prx heap wts].
      split; auto. split; auto. unfold upd. destruct (Nat.eqb_spec (px_val p) (wcell m j)) as [e|]; auto. exfalso.
      destruct (wf_val _ _ W _ _ (fun f => f) E Sf) as [_ X]. apply X. rewrite e. now apply wcell_In.
  Qed.
  Lemma frozen_run : forall (m0 : model) os (m : model) i p, WF m -> Forall (training m0) os -> i < layers m ->
    nth_error (pxs m) (quantizer m i) = Some p -> stateful (px_kind p) = true -> px_init p = true -> ~ In (px_val p) (parameters m0) ->
    scale (run m os) i = scale m i.
  Proof.
    intros m0. induction os as [|o os IH]; intros m i p W T L E Sf PI N; [reflexivity|].
    inversion T as [|o' os' T1 T2 eq1]. subst. destruct (frozen_step m0 m o i p W T1 L E Sf PI N) as (A & B & C).
    change (run m (o :: os)) with (run (step m o) os).
    rewrite (IH (step m o) i p) by (first [assumption | now apply step_WF | lia | congruence]).
    rewrite (scale_obs m i p W L E), (scale_obs (step m o) i p) by (first [assumption | now apply step_WF | lia | congruence]).
    rewrite B, PI. destruct (px_kind p); auto. discriminate Sf.
  Qed.

  (** What gives the quantizer of layer [k] a new Parameter: the rebuilding operations, a load
      with rebuilding, and rebuilding with the state preserved. *)
  Inductive renews (m : model) : @op V -> nat -> Prop :=
  | RnRebuild : forall o k, rebuilds m o k -> renews m o k
  | RnLoad : forall fl s d k, f_reinit fl = true -> consistent m d -> renews m (Load fl s d) k
  | RnPreserve : forall i k, i < layers m -> quantizer m k = quantizer m i -> renews m (InitPreserving (quantizer m i)) k.

  Lemma renews_fresh : forall (m : model) o k, WF m -> k < layers m -> renews m o k ->
    k < layers (step m o) /\ exists p, nth_error (pxs (step m o)) (quantizer (step m o) k) = Some p /\
      option_map px_kind (Some p) = kind_of_layer m k /\ (stateful (px_kind p) = true -> fresh m <= px_val p).
  Proof.
    intros m o k W L Rn.
    assert (G : forall m1 q p1, nth_error (pxs m1) q = Some p1 -> fresh m <= fresh m1 -> option_map px_kind (Some p1) = kind_of_layer m k ->
      exists p, nth_error (pxs (itq m1 q)) q = Some p /\ option_map px_kind (Some p) = kind_of_layer m k /\ (stateful (px_kind p) = true -> fresh m <= px_val p)).
    { intros m1 q p1 E1 F1 K1. destruct (itq_self ini one m1 q p1 E1) as (p & E & K & _ & _ & Sv & _). exists p. split; auto. split; [cbn in *; congruence|].
      intros Sf. rewrite K in Sf. destruct (Sv Sf) as [-> _]. exact F1. }
    destruct (quantizer_some m k W L) as [p E].
    assert (Kk : option_map px_kind (Some p) = kind_of_layer m k) by (unfold kind_of_layer; now rewrite E).
    destruct Rn as [o k B|fl s d k F C|i k Li Q].
    - destruct B as [i k w Hi Q|i j k Hi Hj Q|i k f Hi Q|k w]; cbn [QuantState.step].
      + unfold replace_weight. destruct (Nat.ltb_spec i (length (wts m))); [|unfold layers in Hi; lia].
        unfold layers, quantizer. rewrite itq_wts, itq_prx. cbn [wts prx]. rewrite set_at_length. fold (quantizer m i) (quantizer m k). rewrite <- Q.
        split; [exact L|]. apply G with (p1 := p); auto. cbn. lia.
      + unfold tie_weight. destruct (Nat.ltb_spec i (length (wts m))); [|unfold layers in Hi; lia]. destruct (Nat.ltb_spec j (length (wts m))); [|unfold layers in Hj; lia]. cbn [andb].
        unfold layers, quantizer. rewrite itq_wts, itq_prx. cbn [wts prx]. rewrite set_at_length. fold (quantizer m i) (quantizer m k). rewrite <- Q.
        split; [exact L|]. apply G with (p1 := p); auto.
      + unfold merge_bn. destruct (Nat.ltb_spec i (length (wts m))); [|unfold layers in Hi; lia].
        unfold layers, quantizer. rewrite itq_wts, itq_prx. cbn [wts prx write]. fold (quantizer m i) (quantizer m k). rewrite <- Q.
        split; [exact L|]. apply G with (p1 := p); auto.
      + unfold share_layer. rewrite E. unfold layers, quantizer. rewrite itq_wts, itq_prx. cbn [wts prx]. rewrite app_length. fold (quantizer m k).
        split; [unfold layers in L; cbn; lia|]. rewrite app_nth1 by (rewrite (wf_len _ _ W); exact L). fold (quantizer m k).
        apply G with (p1 := Px (px_kind p) (px_tracked p ++ [length (wts m)]) (px_refs p) (px_val p) (px_init p)); auto.
        * cbn [pxs]. apply nth_error_set_at_eq. now apply nth_error_lt in E.
        * cbn. lia.
    - cbn [QuantState.step]. pose proof (reinit_load ini mul one d m W C fl F s) as I. set (m' := fst (load_state_dict fl s m d)) in *.
      assert (Wt := li_wts _ _ _ _ _ I). assert (Pt := li_prx _ _ _ _ _ I).
      unfold layers, quantizer. rewrite Wt, Pt. split; [exact L|]. fold (quantizer m k).
      pose proof (li_kind _ _ _ _ _ I (quantizer m k)) as Kq. rewrite E in Kq. destruct (nth_error (pxs m') (quantizer m k)) as [p'|] eqn:E'; [|discriminate Kq].
      exists p'. split; auto. split; [now rewrite Kq|]. intros Sf.
      pose proof (li_p _ _ _ _ _ I _ _ E' Sf) as P. apply P.
      + intros l Il. apply users_of_In in Il. rewrite (wf_len _ _ W) in Il. tauto.
      + intro N. assert (X : In k (users_of (prx m) (quantizer m k))); [|rewrite N in X; destruct X]. apply users_of_In. split; auto. rewrite (wf_len _ _ W). exact L.
    - cbn [QuantState.step]. rewrite <- Q. unfold init_preserving.
      assert (A : layers (match saved_value m (quantizer m k) with Some v => load_value (itq m (quantizer m k)) (quantizer m k) v | None => itq m (quantizer m k) end) = layers m
                  /\ prx (match saved_value m (quantizer m k) with Some v => load_value (itq m (quantizer m k)) (quantizer m k) v | None => itq m (quantizer m k) end) = prx m).
      { destruct (saved_value m (quantizer m k)); unfold layers; rewrite ?load_value_wts, ?load_value_prx, ?itq_wts, ?itq_prx; auto. }
      destruct A as [A1 A2]. rewrite A1. split; auto. unfold quantizer at 5. rewrite A2. fold (quantizer m k).
      destruct (G m (quantizer m k) p E (le_n _) Kk) as (p' & E' & K' & V').
      destruct (saved_value m (quantizer m k)) as [v|].
      + rewrite (load_value_self _ _ _ _ E'). eexists. split; [reflexivity|]. cbn [px_kind px_val]. split; auto.
      + exists p'. auto.
  Qed.

  Lemma forward_init : forall (m : model) k p, WF m -> k < layers m -> nth_error (pxs m) (quantizer m k) = Some p ->
    exists p', nth_error (pxs (step m (Forward k))) (quantizer (step m (Forward k)) k) = Some p' /\
      px_kind p' = px_kind p /\ px_val p' = px_val p /\ (stateful (px_kind p) = true -> px_init p' = true).
  Proof.
    intros m k p W L E. cbn [QuantState.step]. unfold layer_scale. unfold layers in L. rewrite <- (wf_len _ _ W) in L. rewrite (nth_error_nth' _ 0 L).
    fold (quantizer m k). unfold proxy_scale. rewrite E. pose proof (wf_par _ _ W _ _ (fun f => f) E) as PP.
    destruct (px_kind p) eqn:K; cbn [snd].
    - exists p. repeat split; auto. discriminate.
    - exists p. repeat split; auto.
    - destruct (px_init p) eqn:PI; cbn [snd].
      + exists p. auto.
      + unfold quantizer at 2. cbn [prx pxs]. fold (quantizer m k). rewrite nth_error_set_at_eq by (now apply nth_error_lt in E). eexists. split; [reflexivity|]. cbn. auto.
  Qed.

  (** An optimizer built over the parameters of the model at some time does not reach a scale
      whose quantizer was renewed later by sharing, replacing or tying a weight, folding,
      loading or rebuilding: from the first call after that, no training with that optimizer
      changes the scale. *)
  Theorem C108_optimizer_left_behind : forall m0 os o k os', reachable m0 -> k < layers (run m0 os) ->
    renews (run m0 os) o k -> stateful_layer (run m0 os) k -> Forall (training m0) os' ->
    let m := run m0 (os ++ [o; Forward k]) in
    scale (run m os') k = scale m k.
  Proof.
    intros m0 os o k os' R L Rn St T m. assert (W0 := reachable_WF _ R). set (m1 := run m0 os) in *.
    assert (W1 : WF m1) by (now apply run_WF).
    destruct (renews_fresh m1 o k W1 L Rn) as (L2 & p & E & Kp & Fr). assert (W2 : WF (step m1 o)) by (now apply step_WF).
    destruct (forward_init (step m1 o) k p W2 L2 E) as (p' & E' & K' & V' & I').
    assert (Sf : stateful (px_kind p) = true).
    { destruct St as [St|St]; rewrite St in Kp; cbn in Kp; assert (X : exists kd, px_kind p = kd /\ stateful kd = true) by (eexists; split; [|]; [injection Kp as ->; reflexivity|reflexivity]);
        destruct X as (kd & -> & X); exact X. }
    assert (M : m = step (step m1 o) (Forward k)) by (unfold m, m1, QuantState.run; rewrite fold_left_app; reflexivity).
    rewrite M. apply frozen_run with (m0 := m0) (p := p'); auto.
    - now apply step_WF.
    - assert (Lk : layers (step (step m1 o) (Forward k)) = layers (step m1 o)).
      { set (mm := step m1 o). unfold layers. cbn [QuantState.step]. unfold layer_scale. destruct (nth_error (prx mm) k) as [q|]; auto. unfold proxy_scale.
        destruct (nth_error (pxs mm) q) as [p2|]; auto. destruct (px_kind p2); auto. destruct (px_init p2); auto. }
      rewrite Lk. exact L2.
    - now rewrite K'.
    - rewrite V'. intro I. apply (parameters_lt m0 _ W0) in I. pose proof (run_fresh os m0 W0) as X. fold m1 in X. specialize (Fr Sf). lia.
  Qed.

  (** What leaves every Parameter in place: calls, in-place changes, training, and loading
      without rebuilding. *)
  Inductive in_place : @op V -> Prop :=
  | IpStep : forall opt g, in_place (OptStep opt g)
  | IpForward : forall i, in_place (Forward i)
  | IpSet : forall i w, in_place (SetWeight i w)
  | IpLoad : forall fl s d, f_reinit fl = false -> in_place (Load fl s d).

  Lemma set_at_params : forall l q p b, nth_error l q = Some p ->
    map px_val (filter (fun p => stateful (px_kind p)) (set_at q (Px (px_kind p) (px_tracked p) (px_refs p) (px_val p) b) l)) =
    map px_val (filter (fun p => stateful (px_kind p)) l).
  Proof.
    induction l as [|x l IH]; intros [|q] p b H; cbn in H; try discriminate.
    - assert (x = p) by congruence. subst. cbn. destruct (stateful (px_kind p)); reflexivity.
    - cbn. destruct (stateful (px_kind x)); cbn; now rewrite (IH q p b H).
  Qed.

  Lemma load_value_params : forall (m : model) q v, parameters (load_value m q v) = parameters m.
  Proof. intros. unfold load_value. destruct (nth_error (pxs m) q) as [p|] eqn:E; auto. unfold parameters. cbn [wts pxs]. now rewrite set_at_params. Qed.

  (** Over such histories the model's parameters stay the same objects, so an optimizer keeps
      reaching all of them. *)
  Theorem C108_parameters_kept : forall m os, Forall in_place os -> parameters (run m os) = parameters m.
  Proof.
    intros m os. revert m. induction os as [|o os IH]; intros m T; [reflexivity|]. inversion T as [|o' os' T1 T2 eq1]. subst.
    change (run m (o :: os)) with (run (step m o) os). rewrite (IH _ T2). destruct T1 as [opt g|i|i w|fl s d F]; cbn [QuantState.step].
    - reflexivity.
    - unfold layer_scale. destruct (nth_error (prx m) i) as [q|]; auto. unfold proxy_scale. destruct (nth_error (pxs m) q) as [p|] eqn:E; auto.
      destruct (px_kind p) eqn:K; auto. destruct (px_init p); auto. cbn [snd]. unfold parameters. cbn [wts pxs]. rewrite <- K. now rewrite set_at_params.
    - unfold set_weight. destruct (Nat.ltb i (length (wts m))); reflexivity.
    - rewrite load_fst. generalize (seq 0 (length (wts m))) as is. intros is. revert m. clear - F.
      induction is as [|k is IH]; intros m; cbn [fold_left]; auto. rewrite IH. rewrite load_layer_fst, F. cbv zeta.
      assert (A : parameters (loaded_weight d m k) = parameters m) by (unfold loaded_weight; destruct (get d (k, FWeight)); reflexivity).
      destruct (nth_error _ _) as [p|]; auto. destruct (stateful (px_kind p)); auto. destruct (get d (k, FValue)); auto. now rewrite load_value_params.
  Qed.

  (** Loading, folding, rebuilding and sharing leave every weight the same Parameter. *)
  Inductive keeps_weights : @op V -> Prop :=
  | KwPlace : forall o, in_place o -> keeps_weights o
  | KwLoad : forall fl s d, keeps_weights (Load fl s d)
  | KwMerge : forall i f, keeps_weights (MergeBN i f)
  | KwPreserve : forall q, keeps_weights (InitPreserving q)
  | KwShare : forall q w, keeps_weights (ShareLayer q w)
  | KwNew : forall k w, keeps_weights (NewLayer k w).

  Theorem C108_weights_kept : forall m os i, reachable m -> Forall keeps_weights os -> i < layers m ->
    wcell (run m os) i = wcell m i /\ In (wcell m i) (parameters m).
  Proof.
    intros m os i R T L. split; [|unfold parameters; apply in_or_app; left; now apply wcell_In].
    apply reachable_WF in R. revert m R L. induction os as [|o os IH]; intros m R L; [reflexivity|]. inversion T as [|o' os' T1 T2 eq1]. subst.
    change (run m (o :: os)) with (run (step m o) os).
    assert (A : wcell (step m o) i = wcell m i /\ layers m <= layers (step m o)).
    { unfold wcell, layers. destruct T1 as [o T1|fl s d|j f|q|q w|k w]; [destruct T1 as [opt g|j|j w|fl s d F]| | | | |]; cbn [QuantState.step].
      - auto.
      - unfold layer_scale. destruct (nth_error (prx m) j) as [q|]; auto. unfold proxy_scale. destruct (nth_error (pxs m) q) as [p|]; auto. destruct (px_kind p); auto. destruct (px_init p); auto.
      - unfold set_weight. destruct (Nat.ltb j (length (wts m))); auto.
      - destruct (load_WF ini one fl s m d R) as (_ & -> & _). auto.
      - destruct (load_WF ini one fl s m d R) as (_ & -> & _). auto.
      - unfold merge_bn. destruct (Nat.ltb j (length (wts m))); auto. rewrite itq_wts. auto.
      - unfold init_preserving. destruct (saved_value m q); rewrite ?load_value_wts, itq_wts; auto.
      - unfold share_layer. destruct (nth_error (pxs m) q); auto. rewrite itq_wts. cbn [wts]. rewrite app_length, app_nth1 by exact L. split; auto; lia.
      - unfold new_layer. rewrite itq_wts. cbn [wts]. rewrite app_length, app_nth1 by exact L. split; auto; lia. }
    destruct A as [A B]. rewrite IH; auto; [now apply step_WF|lia].
  Qed.
End Props.

Print Assumptions C108_stats_scale.
Print Assumptions C108_rebuild_forgets.
Print Assumptions C108_preserve.
Print Assumptions C108_load.
Print Assumptions C108_load_keep.
Print Assumptions C108_load_returns.
Print Assumptions C108_round_trip.
Print Assumptions C108_optimizer_left_behind.
Print Assumptions C108_parameters_kept.
Print Assumptions C108_weights_kept.

(** ** Concrete instances: integer weights, the largest as statistic *)
Local Open Scope Z_scope.
Definition zmax (ws : list Z) : Z := fold_right Z.max 0 ws.
Definition zini (ws : list Z) : Z := 10 * zmax ws.
Definition zrun := @run Z zmax zini Z.mul 1.
Definition zstep := @step Z zmax zini Z.mul 1.
Definition zscale := @scale Z zmax Z.mul.
Definition zload := @load_state_dict Z zini 1.
Definition z0 : @model Z := empty (fun _ => 0).
Definition default := Flags true false.
Local Open Scope nat_scope.

(** Three layers: the first two share a learned scale taken from statistics, the third has a
    learned scale of its own; all called, then trained. *)
Definition hist : list (@op Z) :=
  [NewLayer KFromStats 3%Z; ShareLayer 0 7%Z; NewLayer KParam 4%Z; Forward 0; Forward 2;
   OptStep [0; 1; 2; 3; 4; 5; 6] (fun c => Z.of_nat c * 11)%Z].
Definition mA : @model Z := zrun z0 hist.
(** A second model of the same network, never called. *)
Definition mB : @model Z := zrun z0 [NewLayer KFromStats 1%Z; ShareLayer 0 1%Z; NewLayer KParam 1%Z].

Example C108_ex_scales : map (zscale mA) [0; 1; 2] = [Some 33; Some 33; Some 55]%Z
  /\ map (zscale mB) [0; 1; 2] = [Some 1; Some 1; Some 10]%Z /\ map (weight mA) [0; 1; 2] = [0; 22; 44]%Z
  /\ sharers mA 1 = [0; 1] /\ kind_of_layer mA 1 = Some KFromStats /\ kind_of_layer mA 2 = Some KParam.
Proof. repeat split. Qed.

(** A shared statistics scale follows both weights through tying and training. *)
Example C108_ex_stats :
  let m := zrun z0 [NewLayer KStats 3%Z; ShareLayer 0 7%Z; NewLayer KParam 20%Z; TieWeight 0 2; OptStep [2] (fun _ => 90)%Z] in
  kind_of_layer m 1 = Some KStats /\ zscale m 1 = Some 90%Z /\ zscale m 1 = Some (zmax (map (weight m) (sharers m 1))).
Proof. repeat split. Qed.

(** Folding into layer 0 drops the learned 33 of both sharing layers. *)
Example C108_ex_forgets : rebuilds mA (MergeBN 0 (fun w => w + 5)%Z) 1
  /\ zscale mA 1 = Some 33%Z /\ zscale (zstep mA (MergeBN 0 (fun w => w + 5)%Z)) 1 = Some 22%Z
  /\ zscale (zstep mA (ReplaceWeight 2 2%Z)) 2 = Some 20%Z.
Proof. split; [apply RbMerge; cbv; auto; lia|]. repeat split. Qed.

Example C108_ex_preserve : zscale (zstep mA (InitPreserving 0)) 1 = Some 33%Z
  /\ untouched 1%Z mA 1 /\ untouched 1%Z mB 1 /\ zscale (zstep mB (InitPreserving 0)) 1 = zscale mB 1.
Proof.
  repeat split.
  - intros p E _ I. cbv in E. assert (p = Px KFromStats [0; 1] [0; 2] 3 true) by congruence. subst. discriminate I.
  - intros p E _ I. cbv in E. assert (p = Px KFromStats [0; 1] [0; 2] 3 false) by congruence. subst. reflexivity.
Qed.

(** Round trip from the trained model to the new one. *)
Example C108_ex_round_trip :
  same_network mA mB /\ (forall i j, i < layers mA -> j < layers mA -> wcell mB i = wcell mB j -> weight mA i = weight mA j) /\
  (forall i, i < layers mA -> untouched 1%Z mA i /\ initialised mA i) /\
  snd (zload default true mB (state_dict mA)) = true /\
  map (zscale (fst (zload default true mB (state_dict mA)))) [0; 1; 2] = [Some 33; Some 33; Some 55]%Z /\
  state_dict (fst (zload default true mB (state_dict mA))) = state_dict mA /\
  (exists f, f_reinit f = true /\ f_ignore f = false).
Proof.
  assert (L : layers mA = 3) by reflexivity. rewrite L.
  assert (I3 : forall i, i < 3 -> i = 0 \/ i = 1 \/ i = 2) by (intros; lia).
  split; [|split; [|split; [|split; [|split; [|split]]]]].
  - split; [reflexivity|]. rewrite L. split; intros i Hi; destruct (I3 i Hi) as [->|[->| ->]]; reflexivity.
  - intros i j Hi Hj. destruct (I3 i Hi) as [->|[->| ->]], (I3 j Hj) as [->|[->| ->]]; vm_compute; congruence.
  - intros i Hi. split; intros p E; destruct (I3 i Hi) as [->|[->| ->]]; vm_compute in E; injection E as <-; vm_compute; congruence.
  - reflexivity.
  - reflexivity.
  - reflexivity.
  - now exists default.
Qed.

(** A checkpoint with values for both sharing layers: the last one's is used; without
    rebuilding and with a value only for the first, that one. *)
Example C108_ex_load :
  zscale (fst (zload default true mA [((0, FWeight), 1%Z); ((0, FValue), 70%Z); ((1, FWeight), 2%Z); ((1, FValue), 80%Z); ((2, FWeight), 3%Z); ((2, FValue), 90%Z)])) 0 = Some 80%Z
  /\ zscale (fst (zload default false mA [((0, FWeight), 1%Z); ((0, FValue), 70%Z); ((1, FWeight), 2%Z)])) 0 = Some 2%Z
  /\ zscale (fst (zload (Flags false false) false mA [((0, FWeight), 1%Z); ((0, FValue), 70%Z); ((1, FWeight), 2%Z)])) 0 = Some 70%Z
  /\ zscale (fst (zload (Flags false false) false mA [((0, FWeight), 1%Z)])) 0 = Some 33%Z
  /\ consistent mA [((0, FWeight), 1%Z)].
Proof.
  repeat split. intros i j Hi Hj. change (layers mA) with 3 in *.
  assert (i = 0 \/ i = 1 \/ i = 2) as [->|[->| ->]] by lia; assert (j = 0 \/ j = 1 \/ j = 2) as [->|[->| ->]] by lia; vm_compute; congruence.
Qed.

(** An optimizer made before loading trains the weights of the loaded model and none of its
    learned scales; made after, it trains both. *)
Example C108_ex_optimizer :
  let o := Load default true (state_dict mA) in
  let m := zrun mB [o; Forward 0] in
  let early := zstep m (OptStep (parameters mB) (fun _ => 99%Z)) in
  let late := zstep m (OptStep (parameters m) (fun _ => 99%Z)) in
  renews mB o 0 /\ stateful_layer mB 0 /\ training mB (OptStep (parameters mB) (fun _ => 99%Z)) /\
  zscale m 0 = Some 33%Z /\ zscale early 0 = Some 33%Z /\ weight early 0 = 99%Z /\ zscale late 0 = Some 99%Z.
Proof.
  split; [|split; [|split; [|repeat split]]].
  - apply RnLoad; [reflexivity|]. intros i j Hi Hj. change (layers mB) with 3 in *.
    assert (i = 0 \/ i = 1 \/ i = 2) as [->|[->| ->]] by lia; assert (j = 0 \/ j = 1 \/ j = 2) as [->|[->| ->]] by lia; vm_compute; congruence.
  - now right.
  - now apply TrStep.
Qed.

Example C108_ex_kept :
  let os := [Forward 0; SetWeight 1 5%Z; Load (Flags false true) true (state_dict mA); OptStep [0] (fun _ => 1%Z)] in
  Forall in_place os /\ parameters (zrun mB os) = parameters mB /\ parameters mB = [0; 2; 4; 3; 5]
  /\ parameters (zrun mB [Load default true (state_dict mA)]) = [0; 2; 4; 7; 8].
Proof. split; [repeat constructor|repeat split]. Qed.

(** ** Expectations that fail *)

(** A model's own checkpoint, taken before its first call, is refused by a strict load. *)
Theorem C108_own_checkpoint_refuted : exists (os : list (@op Z)),
  snd (zload default true (zrun z0 os) (state_dict (zrun z0 os))) = false.
Proof. exists [NewLayer KFromStats 3%Z]. reflexivity. Qed.

(** A checkpoint of layers with separate quantizers loads strictly into layers sharing one;
    the first layer then does not use the scale saved for it. *)
Theorem C108_unshared_into_shared_refuted : exists (os os' : list (@op Z)) v,
  let d := state_dict (zrun z0 os) in
  let r := zload default true (zrun z0 os') d in
  snd r = true /\ get d (0, FValue) = Some v /\ zscale (zrun z0 os) 0 = Some v /\ zscale (fst r) 0 <> Some v.
Proof.
  exists [NewLayer KFromStats 3%Z; NewLayer KFromStats 7%Z; Forward 0; Forward 1], [NewLayer KFromStats 1%Z; ShareLayer 0 1%Z], 3%Z.
  repeat split. vm_compute. discriminate.
Qed.

(** A strict load that raises has already replaced weights and learned scales. *)
Theorem C108_failed_load_atomic_refuted : exists (os : list (@op Z)) d,
  let m := zrun z0 os in
  let r := zload default true m d in
  snd r = false /\ weight (fst r) 0 <> weight m 0 /\ zscale (fst r) 1 <> zscale m 1.
Proof.
  exists [NewLayer KFromStats 3%Z; NewLayer KFromStats 4%Z; Forward 0; Forward 1; SetWeight 1 40%Z], [((0, FWeight), 9%Z)].
  repeat split; vm_compute; discriminate.
Qed.

(** Without rebuilding and with missing keys ignored, a checkpoint taken before the first call
    leaves the scale of the weights that were there before. *)
Theorem C108_round_trip_keep_refuted : exists (os os' : list (@op Z)),
  let m := zrun z0 os in
  let r := zload (Flags false true) true (zrun z0 os') (state_dict m) in
  snd r = true /\ weight (fst r) 0 = weight m 0 /\ zscale (fst r) 0 <> zscale m 0.
Proof.
  exists [NewLayer KFromStats 3%Z], [NewLayer KFromStats 50%Z; Forward 0]. repeat split. vm_compute. discriminate.
Qed.

Print Assumptions C108_own_checkpoint_refuted.
Print Assumptions C108_unshared_into_shared_refuted.
Print Assumptions C108_failed_load_atomic_refuted.
Print Assumptions C108_round_trip_keep_refuted.
