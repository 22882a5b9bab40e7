(** C85 (activation equalization). *)
From Verif Require Import BatchNorm BatchNormProps Equalize EqualizeProofs EqualizeProps EqLayout EqLayoutProps ActEqualize.
From Coq Require Import Reals List Bool Arith Lra Lia FunctionalExtensionality.
Import ListNotations.
Open Scope R_scope.

(** ** Statistics *)
Definition samples (b : batch) : list value := fst b :: snd b.

Lemma batch_maxabs_spec b c p : (forall x, In x (samples b) -> Rabs (x c p) <= batch_maxabs b c p)
  /\ exists x, In x (samples b) /\ batch_maxabs b c p = Rabs (x c p).
Proof.
  destruct b as [x0 xs]. unfold batch_maxabs, samples. cbn [fst snd]. induction xs as [|y xs (IH1 & x & Hx & IH2)].
  - split; [intros x [<-|[]]; cbn; unfold vabs; lra|]. exists x0. split; [left; reflexivity|reflexivity].
  - change (fold_right (fun y m => vmax (vabs y) m) (vabs x0) (y :: xs) c p)
      with (Rmax (Rabs (y c p)) (fold_right (fun y m => vmax (vabs y) m) (vabs x0) xs c p)).
    set (m := fold_right (fun y m => vmax (vabs y) m) (vabs x0) xs c p) in *. clearbody m.
    split.
    + intros z Hz. cbn [In] in Hz. destruct Hz as [<-|[<-|Hz]].
      * eapply Rle_trans; [apply IH1; left; reflexivity|apply Rmax_r].
      * apply Rmax_l.
      * eapply Rle_trans; [apply IH1; right; exact Hz|apply Rmax_r].
    + destruct (Rle_dec m (Rabs (y c p))).
      * exists y. split; [right; left; reflexivity|]. apply Rmax_left. assumption.
      * exists x. split; [cbn [In] in *; tauto|]. rewrite Rmax_right by lra. exact IH2.
Qed.

Lemma calibrate_spec : forall bs v, calibrate bs = Some v -> forall c p,
  (forall b x, In b bs -> In x (samples b) -> Rabs (x c p) <= v c p)
  /\ exists b x, In b bs /\ In x (samples b) /\ v c p = Rabs (x c p).
Proof.
  unfold calibrate.
  assert (Gen : forall bs m v, fold_left record_maxabs bs m = Some v -> forall c p,
    (forall u, m = Some u -> u c p <= v c p) /\ (forall b x, In b bs -> In x (samples b) -> Rabs (x c p) <= v c p)
    /\ ((exists u, m = Some u /\ v c p = u c p) \/ exists b x, In b bs /\ In x (samples b) /\ v c p = Rabs (x c p))).
  { induction bs as [|b bs IH]; intros m v E c p.
    - cbn in E. subst m. split; [intros u Eu; injection Eu as ->; lra|]. split; [intros b x []|]. left. exists v. auto.
    - cbn [fold_left] in E. destruct (IH _ _ E c p) as (H1 & H2 & H3). unfold record_maxabs in H1, H3.
      destruct (batch_maxabs_spec b c p) as (B1 & x & Hx & B2).
      assert (Hb : batch_maxabs b c p <= v c p).
      { eapply Rle_trans; [|apply H1; reflexivity]. destruct m; [apply Rmax_r|lra]. }
      split; [|split].
      + intros u ->. eapply Rle_trans; [|apply H1; reflexivity]. apply Rmax_l.
      + intros b' x' [<-|Hb'] Hx'; [eapply Rle_trans; [apply B1; exact Hx'|exact Hb]|apply (H2 b' x' Hb' Hx')].
      + destruct H3 as [(u & Eu & Hv)|(b' & x' & Hb' & Hx' & Hv)]; [|right; exists b', x'; split; [right; exact Hb'|auto]].
        injection Eu as <-. destruct m as [u|].
        * unfold vmax in Hv. destruct (Rle_dec (batch_maxabs b c p) (u c p)) as [L|L].
          -- rewrite Rmax_left in Hv by exact L. left. exists u. auto.
          -- rewrite Rmax_right in Hv by lra. right. exists b, x. split; [left; reflexivity|]. split; [exact Hx|]. congruence.
        * right. exists b, x. split; [left; reflexivity|]. split; [exact Hx|]. congruence. }
  intros bs v E c p. destruct (Gen bs None v E c p) as (_ & H2 & [(u & Eu & _)|H3]); [discriminate|]. split; assumption.
Qed.

Lemma rmax_spec l : (forall x, In x l -> x <= rmax l) /\ (l <> [] -> (forall x, In x l -> -1 <= x) -> In (rmax l) l).
Proof.
  induction l as [|a l (IH1 & IH2)]; [split; [intros x []|congruence]|]. unfold rmax in *. cbn [fold_right]. split.
  - intros x [<-|Hx]; [apply Rmax_l|]. eapply Rle_trans; [apply IH1; exact Hx|apply Rmax_r].
  - intros _ Hl. destruct l as [|b l].
    + cbn [fold_right]. left. symmetry. apply Rmax_left. apply Hl. left. reflexivity.
    + destruct (Rle_dec (fold_right Rmax (-1) (b :: l)) a) as [L|L].
      * left. symmetry. apply Rmax_left. exact L.
      * rewrite Rmax_right by lra. right. apply IH2; [discriminate|]. intros x Hx. apply Hl. right. exact Hx.
Qed.

(** With 'maxabs' the range of a feature is the largest magnitude it took, over all batches,
    samples and positions of the calibration. *)
Theorem C85_maxabs_recorded : forall bs v P c, calibrate bs = Some v -> (0 < P)%nat ->
  (forall b x p, In b bs -> In x (samples b) -> (p < P)%nat -> Rabs (x c p) <= act_maxabs P v c)
  /\ exists b x p, In b bs /\ In x (samples b) /\ (p < P)%nat /\ act_maxabs P v c = Rabs (x c p).
Proof.
  intros bs v P c E HP. unfold act_maxabs. set (l := map _ _).
  assert (V : forall p, 0 <= v c p).
  { intros p. destruct (calibrate_spec bs v E c p) as (_ & b & x & _ & _ & ->). apply Rabs_pos. }
  destruct (rmax_spec l) as (R1 & R2). split.
  - intros b x p Hb Hx Hp. eapply Rle_trans; [|apply R1; apply (in_map (fun p => Rabs (v c p))); apply in_seq; split; [lia|exact Hp]].
    cbn beta. rewrite (Rabs_pos_eq (v c p)) by apply V. apply (calibrate_spec bs v E c p) with b; assumption.
  - assert (I : In (rmax l) l).
    { apply R2; [unfold l; destruct P; [lia|discriminate]|]. intros x Hx. apply in_map_iff in Hx. destruct Hx as (p & <- & _).
      pose proof (Rabs_pos (v c p)). lra. }
    apply in_map_iff in I. destruct I as (p & Ep & Hp). apply in_seq in Hp.
    destruct (calibrate_spec bs v E c p) as (_ & b & x & Hb & Hx & Ev). exists b, x, p. repeat split; [exact Hb|exact Hx|lia|].
    rewrite <- Ep, (Rabs_pos_eq (v c p)) by apply V. exact Ev.
Qed.

(** With 'range' it is not the width of the feature's values: here the values are 0, 1 at one
    position and 0, 5 at the other. *)
Definition rng_batch : batch := ((fun _ _ => 0), [fun _ p => if (p =? 0)%nat then 1 else 5]).
Theorem C85_range_refuted : exists bs v P c lo hi, calibrate_range bs = Some v
  /\ (forall b x p, In b bs -> In x (samples b) -> (p < P)%nat -> lo <= x c p <= hi)
  /\ (exists b x p, In b bs /\ In x (samples b) /\ (p < P)%nat /\ x c p = lo)
  /\ (exists b x p, In b bs /\ In x (samples b) /\ (p < P)%nat /\ x c p = hi)
  /\ act_range P v c <> hi - lo.
Proof.
  exists [rng_batch], (batch_range rng_batch), 2%nat, 0%nat, 0, 5. split; [reflexivity|].
  split.
  { intros b x p [<-|[]] [<-|[<-|[]]] _; cbn [fst snd rng_batch]; [lra|]. destruct (p =? 0)%nat; lra. }
  split; [exists rng_batch, (fun _ _ => 0), 0%nat; cbn; auto 8|].
  split; [exists rng_batch, (fun _ p => if (p =? 0)%nat then 1 else 5), 1%nat; cbn; auto 8|].
  assert (B0 : batch_range rng_batch 0%nat 0%nat = 1).
  { unfold batch_range, rng_batch. cbn [fst snd fold_right Nat.eqb]. rewrite (Rmax_left 1 0), (Rmin_right 1 0) by lra.
    destruct (Req_EM_T (1 - 0) 0); [lra|]. rewrite Rabs_pos_eq; lra. }
  assert (B1 : batch_range rng_batch 0%nat 1%nat = 5).
  { unfold batch_range, rng_batch. cbn [fst snd fold_right Nat.eqb]. rewrite (Rmax_left 5 0), (Rmin_right 5 0) by lra.
    destruct (Req_EM_T (5 - 0) 0); [lra|]. rewrite Rabs_pos_eq; lra. }
  unfold act_range. cbn [seq map fold_right]. rewrite B0, B1. rewrite (Rmax_left 5 1), (Rmin_right 5 1) by lra.
  destruct (Req_EM_T (5 - 1) 0); [lra|]. rewrite Rabs_pos_eq; lra.
Qed.

(** ** Layer-wise *)
(** Whatever the calibration recorded, the replaced layer computes the same function; layers
    whose weight axis does not enumerate the inputs are left alone. *)
Theorem C85_layerwise : forall alpha P bs v l, wf_layer l -> is_norm (to_mod l) = false -> calibrate bs = Some v ->
  exists q, layerwise alpha P (n_inputs l) (calibrate bs) l = Some q /\ forall x, eq_fwd q x = fwd (to_mod l) x.
Proof.
  intros alpha P bs v l W N E. rewrite E. unfold layerwise.
  destruct (input_axis l) as [ax|] eqn:A; [|eexists; split; [reflexivity|]; reflexivity].
  destruct (Nat.eqb_spec (n_inputs l) (sink_size l)) as [Z|Z]; cbn [negb]; [|eexists; split; [reflexivity|]; reflexivity].
  eexists. split; [reflexivity|]. intros x. cbn [eq_fwd]. apply C84_sink_scaling; [exact W| |exact A|exact N|].
  - apply (C84_sink_size l W); [congruence|symmetry; exact Z].
  - intros c. apply C37_factor_positive.
Qed.
(** It is replaced whenever it is an ordinary or a depthwise layer. *)
Theorem C85_layerwise_applies : forall alpha P bs v l ax, wf_layer l -> good_sink l -> input_axis l = Some ax -> calibrate bs = Some v ->
  exists inv l', layerwise alpha P (n_inputs l) (calibrate bs) l = Some (Wrapped inv l')
    /\ forall c, inv c = / scaling_factor alpha (act_maxabs P v c) (axis_range l ax c).
Proof.
  intros alpha P bs v l ax W G A E. rewrite E. unfold layerwise. rewrite A.
  rewrite (proj2 (C84_sink_size l W ltac:(congruence)) G), Nat.eqb_refl. cbn [negb].
  do 2 eexists. split; [reflexivity|]. intros c. unfold layer_factors, some_axis. rewrite A. reflexivity.
Qed.

Definition dw_layer : layer := LLin (TConv 2) 2 2 1 idtap (fun o _ _ => INR (S o)) None.
Example C85_layerwise_example : wf_layer dw_layer /\ good_sink dw_layer /\ is_norm (to_mod dw_layer) = false
  /\ input_axis dw_layer = Some false /\ exists v, calibrate [rng_batch; rng_batch] = Some v.
Proof.
  split; [exists 1%nat, 1%nat; lia|]. split; [right; right; reflexivity|]. split; [reflexivity|]. split; [reflexivity|].
  eexists. reflexivity.
Qed.

(** An unbatched input with as many positions as channels: function changed. *)
Definition sq_layer : layer := LLin (TConv 1) 2 1 1 idtap (fun _ _ _ => 1) None.
Definition sq_input : value := fun c p => if (p =? 0)%nat then 4 else 1.
Theorem C85_unbatched_refuted : exists alpha P x l, wf_layer l /\ good_sink l /\ is_norm (to_mod l) = false
  /\ unbatched_fwd (unbatched_layerwise alpha P x l) x 0%nat 0%nat <> fwd (to_mod l) x 0%nat 0%nat.
Proof.
  exists (/ 2), 2%nat, sq_input, sq_layer.
  split; [exists 2%nat, 1%nat; lia|]. split; [left; reflexivity|]. split; [reflexivity|].
  unfold unbatched_layerwise. cbn [sq_layer input_axis sink_size wsize Nat.eqb negb Nat.div Nat.divmod fst].
  set (s := layer_factors _ _ _).
  assert (F0 : s 0%nat = 2).
  { unfold s, layer_factors, unbatched_record, axis_range, some_axis, sq_layer. cbn [input_axis Nat.eqb wsize other_size n_taps entry seq flat_map map app negb sq_input].
    rewrite (Rabs_pos_eq 4), (Rabs_pos_eq 1) by lra. transitivity (scaling_factor (/ 2) 4 1); [f_equal; rmx; reflexivity|exact factor_4_1]. }
  assert (F1 : s 1%nat = 1).
  { unfold s, layer_factors, unbatched_record, axis_range, some_axis, sq_layer. cbn [input_axis Nat.eqb wsize other_size n_taps entry seq flat_map map app negb sq_input].
    rewrite (Rabs_pos_eq 1) by lra. transitivity (scaling_factor (/ 2) 1 1); [f_equal; rmx; reflexivity|exact factor_1_1]. }
  clearbody s. unfold sink_size, sq_layer. cbn [input_axis Nat.eqb wsize Nat.div Nat.divmod fst negb Nat.sub].
  cbn [unbatched_fwd update_sink to_mod fwd Nat.ltb Nat.leb dense bias_of scale_axis map seq Rsum read idtap sq_input Nat.eqb Nat.div Nat.divmod Nat.modulo fst snd Nat.sub].
  unfold scale_axis. rewrite F0, F1. apply Rlt_not_eq. lra.
Qed.

(** ** Multi-head attention *)
Definition projections_plain (m : mha) : Prop := is_norm (wq m) = false /\ is_norm (wk m) = false /\ is_norm (wv m) = false.
(** Self-attention is preserved, for every attention core. *)
Theorem C85_self_attention : forall s m q, projections_plain m -> (forall c, 0 < s c) ->
  mha_flow s m q q q = Some (mha_fwd m (snd q) (snd q) (snd q)).
Proof.
  intros s m q (N1 & N2 & N3) Hs. unfold mha_flow, skipped, mha_eq_fwd. rewrite Nat.eqb_refl. cbn [negb andb].
  unfold mha_fwd, mha_scale. cbn [wq wk wv core]. change (fun c p => snd q c p * / s c) with (scaled s (snd q)).
  rewrite !fwd_sink by assumption. reflexivity.
Qed.
(** Three different tensors: skipped. *)
Theorem C85_distinct_attention : forall s m q k v, fst q <> fst k -> fst k <> fst v ->
  mha_flow s m q k v = Some (mha_fwd m (snd q) (snd k) (snd v)).
Proof.
  intros s m q k v H1 H2. unfold mha_flow, skipped.
  destruct (Nat.eqb_spec (fst q) (fst k)); [contradiction|]. destruct (Nat.eqb_spec (fst k) (fst v)); [contradiction|]. reflexivity.
Qed.
(** Cross-attention with key and value the same memory is not skipped, and the model raises. *)
Theorem C85_cross_attention_refuted : forall s m q k v, fst q <> fst k -> fst k = fst v -> mha_flow s m q k v = None.
Proof.
  intros s m q k v H1 H2. unfold mha_flow, skipped, mha_eq_fwd. rewrite H2, Nat.eqb_refl, andb_false_r.
  destruct (Nat.eqb_spec (fst v) (fst q)); [congruence|reflexivity].
Qed.
(** Query and key the same tensor but another value (positions added to query and key only): the
    value is silently replaced by the query. *)
Definition value_only : mha := MHA (one_lin 1 0) (one_lin 1 0) (one_lin 1 0) (fun _ _ v => v).
Theorem C85_value_refuted : exists s m q k v, projections_plain m /\ (forall c, 0 < s c) /\ fst q = fst k /\ snd q = snd k /\ fst v <> fst k
  /\ exists out, mha_flow s m q k v = Some out /\ out 0%nat 0%nat <> mha_fwd m (snd q) (snd k) (snd v) 0%nat 0%nat.
Proof.
  exists (fun _ => 1), value_only, (0%nat, fun _ _ => 1), (0%nat, fun _ _ => 1), (1%nat, fun _ _ => 2).
  split; [split; [reflexivity|split; reflexivity]|]. split; [intros; lra|]. do 2 (split; [reflexivity|]). split; [discriminate|].
  eexists. split; [reflexivity|]. cbn. lra.
Qed.

(** ** Graphs *)
Definition app_src (st : wstate) (m : nat) : wstate := W (srcs st ++ [m]) (sinks st) (hist st) (bad st).

Section Walks.
Variables (g : graph) (M : modules) (is_act : nat -> bool).
Lemma fold_bad {A} (F1 F2 : wstate -> A -> wstate) l :
  (forall s a, bad (F1 s a) = false -> bad s = false) -> (forall s a, bad (F1 s a) = false -> F2 s a = F1 s a) ->
  forall s, bad (fold_left F1 l s) = false -> bad s = false /\ fold_left F2 l s = fold_left F1 l s.
Proof.
  intros Hb He. induction l as [|a l IH]; intros s H; [auto|]. cbn [fold_left] in *. destruct (IH _ H) as (B & E).
  split; [exact (Hb s a B)|]. rewrite (He s a B). exact E.
Qed.

Lemma walk_act_walk : forall f down n st, bad (walk_act g M is_act f down n st) = false ->
  bad st = false /\ walk g M f down n st = walk_act g M is_act f down n st.
Proof.
  induction f as [|f IH]; intros down n st; [discriminate|]. cbn [walk_act walk].
  destruct down; apply fold_bad; intros s a; destruct (seen s _); try (intros H; exact H); try (intros _; reflexivity); cbv zeta.
  - destruct (kind_of g a) as [[]|]; try discriminate; intros H.
    + destruct (is_norm _); [discriminate|exact H].
    + apply IH in H. apply H.
    + apply IH in H. apply H.
    + apply IH in H. destruct H as (H & _). apply IH in H. apply H.
  - destruct (kind_of g a) as [[]|]; try discriminate; intros H; try reflexivity.
    + apply IH in H. apply H.
    + apply IH in H. apply H.
    + apply IH in H. destruct H as (H & E). rewrite <- E. f_equal. apply IH. exact H.
  - destruct (kind_of g a) as [[]|]; try discriminate; intros H.
    + destruct (is_act m); [discriminate|]. apply IH in H. apply H.
    + apply IH in H. destruct H as (H & _). apply IH in H. apply H.
    + apply IH in H. destruct H as (H & _). apply IH in H. apply H.
    + apply IH in H. destruct H as (H & _). apply IH in H. apply H.
  - destruct (kind_of g a) as [[]|]; try discriminate; intros H; try reflexivity.
    + destruct (is_act m); [discriminate|]. apply IH in H. apply H.
    + apply IH in H. destruct H as (H & E). rewrite <- E. f_equal. apply IH. exact H.
    + apply IH in H. destruct H as (H & E). rewrite <- E. f_equal. apply IH. exact H.
    + apply IH in H. destruct H as (H & E). rewrite <- E. f_equal. apply IH. exact H.
Qed.

Lemma fold_app {A} (F : wstate -> A -> wstate) m l : (forall s a, F (app_src s m) a = app_src (F s a) m) ->
  forall s, fold_left F l (app_src s m) = app_src (fold_left F l s) m.
Proof. intros H. induction l as [|a l IH]; intros s; [reflexivity|]. cbn [fold_left]. rewrite H. apply IH. Qed.
Lemma walk_app m : forall f down n st, walk g M f down n (app_src st m) = app_src (walk g M f down n st) m.
Proof.
  induction f as [|f IH]; intros down n st; [reflexivity|]. cbn [walk].
  destruct down; apply fold_app; intros s a; unfold seen; cbn [hist app_src];
    destruct (existsb _ (hist s)); try reflexivity; cbv zeta.
  - change (visit (app_src s m) (n, a)) with (app_src (visit s (n, a)) m).
    destruct (kind_of g a) as [[]|]; try reflexivity.
    + destruct (is_norm _); reflexivity.
    + apply IH.
    + apply IH.
    + rewrite !IH. reflexivity.
  - change (visit (app_src s m) (a, n)) with (app_src (visit s (a, n)) m).
    destruct (kind_of g a) as [[]|]; try reflexivity.
    + rewrite <- IH. reflexivity.
    + rewrite !IH. reflexivity.
    + rewrite !IH. reflexivity.
    + rewrite !IH. reflexivity.
Qed.
End Walks.

(** The region of an activation is the region of C37 with the activation as one more source. *)
Lemma act_region_region g M is_act add n a st : act_region g M is_act add n = Some (a, st) ->
  region g M n = Some (match a with Some m => app_src st m | None => st end).
Proof.
  unfold act_region, region. destruct (kind_of g n) as [[m i| | | |]|]; try discriminate.
  destruct (is_act m && negb add); [discriminate|].
  set (st0 := walk_act g M is_act _ true n _).
  destruct (bad st0) eqn:B; [discriminate|]. destruct (length (sinks st0) =? 0)%nat eqn:Z; [discriminate|]. cbn [negb andb].
  intros E. injection E as <- <-.
  destruct (walk_act_walk g M is_act _ _ _ _ B) as (_ & Ew).
  destruct (is_act m).
  - change (W [m] [] [] false) with (app_src (W [] [] [] false) m). rewrite walk_app, Ew. fold st0. cbn [bad app_src sinks]. rewrite B, Z. reflexivity.
  - rewrite Ew. fold st0. rewrite B, Z. reflexivity.
Qed.

Lemma mem_app m l1 l2 : mem m (l1 ++ l2) = mem m l1 || mem m l2.
Proof. unfold mem. apply existsb_app. Qed.

(** The activation of a region cannot also be met as a source. *)
Lemma walk_act_srcs g M is_act : forall f down n st m, In m (srcs (walk_act g M is_act f down n st)) -> In m (srcs st) \/ is_act m = false.
Proof.
  assert (F : forall {A} (F1 : wstate -> A -> wstate) l m, (forall s a, In m (srcs (F1 s a)) -> In m (srcs s) \/ is_act m = false) ->
            forall s, In m (srcs (fold_left F1 l s)) -> In m (srcs s) \/ is_act m = false).
  { intros A F1 l m H. induction l as [|a l IH]; intros s Hm; [left; exact Hm|]. cbn [fold_left] in Hm.
    destruct (IH _ Hm) as [Hm'|]; [apply (H s a Hm')|right; assumption]. }
  induction f as [|f IH]; intros down n st m; [intros H; left; exact H|]. cbn [walk_act].
  destruct down; apply F; intros s a; destruct (seen s _); try (intros H; left; exact H); cbv zeta.
  - destruct (kind_of g a) as [[m' i| | | |]|]; try (intros H; left; exact H).
    + destruct (is_norm _); intros H; left; exact H.
    + intros H. apply IH in H. exact H.
    + intros H. apply IH in H. exact H.
    + intros H. apply IH in H. destruct H as [H|]; [|auto]. apply IH in H. exact H.
  - destruct (kind_of g a) as [[m' i| | | |]|]; try (intros H; left; exact H).
    + destruct (is_act m') eqn:Ia; [intros H; left; exact H|]. intros H. apply IH in H. destruct H as [H|]; [|auto].
      cbn [add_src srcs visit] in H. destruct H as [<-|H]; auto.
    + intros H. apply IH in H. destruct H as [H|]; [|auto]. apply IH in H. exact H.
    + intros H. apply IH in H. destruct H as [H|]; [|auto]. apply IH in H. exact H.
    + intros H. apply IH in H. destruct H as [H|]; [|auto]. apply IH in H. exact H.
Qed.

Lemma apply_act_apply g M is_act add n a st s M' : act_region g M is_act add n = Some (a, st) ->
  apply_act_region a st s M' = apply_region (match a with Some m => app_src st m | None => st end) s M'.
Proof.
  intros R. destruct a as [a|]; [|reflexivity].
  assert (Na : mem a (srcs st) = false).
  { unfold act_region in R. destruct (kind_of g n) as [[m i| | | |]|]; try discriminate.
    destruct (is_act m && negb add); [discriminate|].
    set (st0 := walk_act g M is_act (S (n_edges g)) true n (W (if is_act m then [] else [m]) [] [] false)) in R.
    assert (Hst : forall m', In m' (srcs st0) -> In m' (if is_act m then [] else [m]) \/ is_act m' = false) by (intros m'; apply walk_act_srcs).
    clearbody st0. destruct (negb (bad st0) && _); [|discriminate].
    destruct (is_act m) eqn:Ia; [|discriminate]. injection R as <- <-.
    destruct (mem m _) eqn:Hm; [|reflexivity]. apply mem_in in Hm. apply Hst in Hm. destruct Hm as [[]|Hm]; congruence. }
  apply functional_extensionality. intros m. unfold apply_act_region, apply_region. cbn [srcs sinks app_src].
  rewrite mem_app. cbn [mem existsb]. rewrite orb_false_r.
  destruct (Nat.eqb_spec m a) as [->|].
  - rewrite Na. reflexivity.
  - rewrite orb_false_r. reflexivity.
Qed.

(** Whatever ranges were recorded, graph activation equalization (with or without inserted
    multipliers) leaves every graph output unchanged, for every input. *)
Theorem C85_graph : forall D g M0 is_act add alpha steps e,
  wf D g -> unshared g -> no_mul g -> no_add_const g -> inv_hom g ->
  Forall (fun x => exists n, act_region g M0 is_act add n = Some (fst x)) steps ->
  forall v f ins, In (v, KOther f ins) g ->
  eval g (act_equalize alpha steps M0) e v = eval g M0 e v.
Proof.
  intros D g M0 is_act add alpha steps e W US NM NC IH HF v f ins Hv.
  assert (K : kind_of g v = Some (KOther f ins)) by (apply (kind_of_spec D g W); exact Hv).
  assert (Gen : forall steps M, Forall (fun x => exists n, act_region g M0 is_act add n = Some (fst x)) steps ->
            (forall m, is_norm (M m) = is_norm (M0 m)) ->
            eval g (act_equalize alpha steps M) e v = eval g M e v).
  { clear steps HF. induction steps as [|[[a st] act] steps IHs]; intros M HF MN; [reflexivity|].
    inversion_clear HF as [|? ? (n & Hn) HF']. cbn [fst] in Hn. unfold act_equalize. cbn [fold_left].
    fold (act_equalize alpha steps (apply_act_region a st (act_region_factors alpha act M st) M)).
    rewrite (apply_act_apply g M0 is_act add n a st _ M Hn).
    pose proof (act_region_region g M0 is_act add n a st Hn) as R.
    set (st' := match a with Some m => app_src st m | None => st end) in *.
    rewrite IHs; [|exact HF'|].
    - rewrite (region_preserves D g M0 n st' M _ e W US NM NC IH R MN).
      + apply (other_expect g st' _ _ v f ins). exact K.
      + intros c. apply C37_factor_positive.
      + right. apply (in_map fst) in Hv. exact Hv.
    - intros m. rewrite <- MN. unfold apply_region.
      destruct (mem m (sinks st')); rewrite ?is_norm_sink; destruct (mem m (srcs st')); rewrite ?is_norm_src; reflexivity. }
  apply Gen; [exact HF|reflexivity].
Qed.

(** A sigmoid between two layers, added to a branch: 1 = A(0); 2 = sigmoid(1); 3 = B(0);
    4 = 2 + 3; 5 = C(4); 6 output.  The region of the sigmoid has source B and sink C. *)
Definition sig_graph : graph :=
  [(1, KLayer 10 0); (2, KLayer 20 1); (3, KLayer 11 0); (4, KAdd [2; 3] 0); (5, KLayer 12 4); (6, KOther out1 [5])]%nat.
Definition sig_mods : modules := fun m =>
  if (m =? 20)%nat then Norm 1 (fun x c p => / (1 + exp (- x c p))) (fun _ => 1) (fun _ => 0) else one_lin 1 0.
Example C85_graph_example : wf [0%nat] sig_graph /\ unshared sig_graph /\ no_mul sig_graph /\ no_add_const sig_graph /\ inv_hom sig_graph
  /\ (exists st, act_region sig_graph sig_mods (Nat.eqb 20) true 2 = Some (Some 20%nat, st) /\ srcs st = [11%nat] /\ sinks st = [12%nat])
  /\ act_region sig_graph sig_mods (Nat.eqb 20) false 2 = None /\ act_region sig_graph sig_mods (Nat.eqb 20) true 3 = None.
Proof.
  split; [graph_side|]. split; [graph_side|]. split; [graph_side|].
  split; [intros i ins c H; cbn in H; repeat match type of H with _ \/ _ => destruct H as [H|H] end; try discriminate; try contradiction; injection H as <- <- <-; reflexivity|].
  split; [graph_side|]. split; [eexists; split; [reflexivity|]; split; reflexivity|]. split; reflexivity.
Qed.

Print Assumptions C85_maxabs_recorded.
Print Assumptions C85_range_refuted.
Print Assumptions C85_layerwise.
Print Assumptions C85_layerwise_applies.
Print Assumptions C85_unbatched_refuted.
Print Assumptions C85_self_attention.
Print Assumptions C85_distinct_attention.
Print Assumptions C85_cross_attention_refuted.
Print Assumptions C85_value_refuted.
Print Assumptions C85_graph.
