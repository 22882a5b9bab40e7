(** Properties of the alignment of additions and concatenations (C77, C78). *)
From Coq Require Import List Bool Arith ZArith QArith Lqa Lia.
Import ListNotations.
From Verif Require Import RequantGraph RequantGraphProps.
Local Open Scope nat_scope.

(** * Specification: the quantization metadata of the value of a node *)
Record meta := Meta { m_scale : Q; m_signed : bool; m_bw : Z }.

Section Meta.
(** Thresholds returned by the scaling modules and integer thresholds by the int_scaling modules:
    scale = threshold / int_threshold(bit_width)  (core/quant/int.py RescalingIntQuant). *)
Variable thr : nat -> Q.
Variable ithr : nat -> Z -> Q.
(** Bit width of a sum as a function of the operands' metadata. *)
Variable sum_bw : list meta -> Z.

Definition tq_scale (t : tqrec) : Q := thr (t_sc t) / ithr (t_isc t) (t_bw t).
Definition tq_meta (t : tqrec) : meta := Meta (tq_scale t) (t_signed t) (t_bw t).

(** [has_meta s i m]: at run time node [i] produces a quantized tensor with metadata [m].
    Layout operations and precision preserving modules keep it, a concatenation needs operands of
    equal metadata, a sum operands of equal scale. *)
Inductive has_meta (s : st) : nat -> meta -> Prop :=
| HM_act i m ins q : find_node (nodes s) i = Some (OModule m ins) ->
    get_module s m = Some (QAct q) -> has_meta s i (tq_meta (tqs s (q_tq q)))
| HM_pass i m j f mt : find_node (nodes s) i = Some (OModule m [j]) ->
    get_module s m = Some (Pass true f) -> has_meta s j mt -> has_meta s i mt
| HM_fn i f j mt : find_node (nodes s) i = Some (OFn f [j]) ->
    f = FReshape \/ f = FFlatten \/ f = FTranspose -> has_meta s j mt -> has_meta s i mt
| HM_meth i f j mt : find_node (nodes s) i = Some (OMeth f [j]) ->
    f = MView \/ f = MReshape \/ f = MFlatten \/ f = MT \/ f = MPermute \/ f = MTranspose ->
    has_meta s j mt -> has_meta s i mt
| HM_cat i ins mt : find_node (nodes s) i = Some (OFn FCat ins) -> ins <> [] ->
    (forall j, In j ins -> has_meta s j mt) -> has_meta s i mt
| HM_add i o ins mts sc : find_node (nodes s) i = Some o -> is_add o = true -> ins_of o = ins ->
    ins <> [] -> Forall2 (has_meta s) ins mts ->
    Forall (fun m => (m_scale m == sc)%Q) mts ->
    has_meta s i (Meta sc (existsb m_signed mts) (sum_bw mts)).

(** The graphs the claim is about: no graph input or attribute is reached, layout operations have
    one operand (no computed shapes), sums are not operands of a concatenation (quantize()
    requantizes them first). *)
Inductive reach_ok (s : st) : bool -> nat -> Prop :=
| RO_mod same i m ins : find_node (nodes s) i = Some (OModule m ins) ->
    (forall f, get_module s m <> Some (Pass true f)) -> reach_ok s same i
| RO_pass same i m j : find_node (nodes s) i = Some (OModule m [j]) ->
    reach_ok s same j -> reach_ok s same i
| RO_fn same i f j : find_node (nodes s) i = Some (OFn f [j]) ->
    f = FReshape \/ f = FFlatten \/ f = FTranspose -> reach_ok s same j -> reach_ok s same i
| RO_fother same i f ins : find_node (nodes s) i = Some (OFn (FOther f) ins) -> reach_ok s same i
| RO_meth same i f j : find_node (nodes s) i = Some (OMeth f [j]) ->
    f = MView \/ f = MReshape \/ f = MFlatten \/ f = MT \/ f = MPermute \/ f = MTranspose ->
    reach_ok s same j -> reach_ok s same i
| RO_mother same i f ins : find_node (nodes s) i = Some (OMeth (MOther f) ins) -> reach_ok s same i
| RO_cat same i ins : find_node (nodes s) i = Some (OFn FCat ins) -> ins <> [] ->
    (forall j, In j ins -> reach_ok s true j) -> reach_ok s same i
| RO_add i o : find_node (nodes s) i = Some o -> is_add o = true -> ins_of o <> [] ->
    (forall j, In j (ins_of o) -> reach_ok s false j) -> reach_ok s false i.

(** Quantizers that share their scaling modules have the same bit width. *)
Definition shared_scaling_same_bw (s : st) : Prop :=
  forall a b, t_sc (tqs s a) = t_sc (tqs s b) -> t_isc (tqs s a) = t_isc (tqs s b) ->
    t_bw (tqs s a) = t_bw (tqs s b).

(** * Lemmas *)
Lemma fold_prefix {A B} (f : list B -> A -> list B) l :
  (forall acc a, exists t, f acc a = acc ++ t) -> forall acc, exists t, fold_left f l acc = acc ++ t.
Proof.
  intros H. induction l as [|a l IH]; intros acc; [exists []; rewrite app_nil_r; reflexivity|].
  cbn [fold_left]. destruct (H acc a) as [t ->]. destruct (IH (acc ++ t)) as [u ->].
  exists (t ++ u). rewrite app_assoc. reflexivity.
Qed.

Lemma quant_list_prefix s fuel : forall same ins acc, exists t, quant_list fuel s same ins acc = acc ++ t.
Proof.
  induction fuel as [|k IH]; intros same ins acc; [exists []; cbn; rewrite app_nil_r; reflexivity|].
  cbn [quant_list]. apply fold_prefix. clear acc. intros acc i.
  assert (E0 : exists t, acc = acc ++ t) by (exists []; rewrite app_nil_r; reflexivity).
  destruct (find_node (nodes s) i) as [[| |m ins'|f ins'|m ins'|ins']|]; auto.
  - destruct (get_module s m) as [[? ? ?|[] ?|q|?|? ? ?]|]; eauto.
    destruct (tq_in_list (tqs s) same (q_tq q) acc); eauto.
  - destruct (fn_align f same); eauto.
  - destruct (meth_align m same); eauto.
Qed.

Lemma fold_prefix_in {A B} (f : list B -> A -> list B) l :
  (forall acc a, exists t, f acc a = acc ++ t) ->
  forall acc a, In a l -> exists acc' t, fold_left f l acc = f acc' a ++ t.
Proof.
  intros H. induction l as [|b l IH]; intros acc a Ha; [destruct Ha|]. cbn [fold_left].
  destruct Ha as [<-|Ha]; [|apply IH; exact Ha].
  destruct (fold_prefix f l H (f acc b)) as [t Ht]. exists acc, t. exact Ht.
Qed.

Definition claim (s : st) (t : nat) (same : bool) (i : nat) : Prop :=
  if same then has_meta s i (tq_meta (tqs s t))
  else exists mt, has_meta s i mt /\ (m_scale mt == tq_scale (tqs s t))%Q.

Lemma claim_weaken s t i : has_meta s i (tq_meta (tqs s t)) -> claim s t false i.
Proof. intros H. eexists; split; [exact H|]. reflexivity. Qed.

Lemma in_tq_list s same a l t :
  tq_in_list (tqs s) same a l = true -> (forall x, In x l -> x = Some t) ->
  tq_matches (tqs s) same a t = true.
Proof.
  unfold tq_in_list. intros H Hl. apply existsb_exists in H. destruct H as ([b|] & Hb & Hm); [|discriminate].
  specialize (Hl _ Hb). injection Hl as <-. exact Hm.
Qed.

Lemma F2_exists {A B} (P : A -> B -> Prop) l : (forall x, In x l -> exists y, P x y) ->
  exists ys, Forall2 P l ys.
Proof.
  induction l as [|x l IH]; intros H; [exists []; constructor|].
  destruct (H x (or_introl eq_refl)) as [y Hy]. destruct IH as [ys Hys]; [intros z Hz; apply H; right; exact Hz|].
  exists (y :: ys). constructor; assumption.
Qed.
Lemma F2_and_right {A B} (P : A -> B -> Prop) (R : B -> Prop) l ys :
  Forall2 (fun x y => P x y /\ R y) l ys -> Forall2 P l ys /\ Forall R ys.
Proof. induction 1 as [|x y l ys [H1 H2] _ [IH1 IH2]]; split; constructor; assumption. Qed.

Lemma quant_list_sound s t : topo (nodes s) -> shared_scaling_same_bw s ->
  forall fuel same ins acc,
  (forall i, In i ins -> reach_ok s same i /\ pos (nodes s) i < fuel) ->
  (forall x, In x (quant_list fuel s same ins acc) -> x = Some t) ->
  forall i, In i ins -> claim s t same i.
Proof.
  intros Ht Hbw. induction fuel as [|k IH]; intros same ins acc Hc Hall i Hi.
  { destruct (Hc i Hi) as [_ H]. lia. }
  destruct (Hc i Hi) as [Hr Hpos]. cbn [quant_list] in Hall.
  match type of Hall with forall x, In x (fold_left ?f ?l ?a) -> _ =>
    assert (Hp : forall acc0 i0, exists t, f acc0 i0 = acc0 ++ t) end.
  { clear -s. intros acc0 i0. cbv beta.
    assert (E0 : exists t, acc0 = acc0 ++ t) by (exists []; rewrite app_nil_r; reflexivity).
    destruct (find_node (nodes s) i0) as [[| |m0 ins0|f0 ins0|m0 ins0|ins0]|]; auto.
    - destruct (get_module s m0) as [[? ? ?|[] ?|q0|?|? ? ?]|]; eauto using quant_list_prefix.
      destruct (tq_in_list (tqs s) same (q_tq q0) acc0); eauto.
    - destruct (fn_align f0 same); eauto using quant_list_prefix.
    - destruct (meth_align m0 same); eauto using quant_list_prefix. }
  destruct (fold_prefix_in _ _ Hp acc i Hi) as (acc' & tl & Efold). clear Hp.
  rewrite Efold in Hall. clear Efold Hi Hc.
  assert (Hall' : forall x, _ -> x = Some t) by (intros x Hx; exact (Hall x (in_or_app _ _ _ (or_introl Hx)))).
  clear Hall. cbv beta in Hall'.
  assert (Hsub : forall o same' acc0, find_node (nodes s) i = Some o ->
            (forall j, In j (ins_of o) -> reach_ok s same' j) ->
            (forall x, In x (quant_list k s same' (all_input_nodes o) acc0) -> x = Some t) ->
            forall j, In j (ins_of o) -> claim s t same' j).
  { intros o same' acc0 Ho Hcj Hl j Hj. eapply IH; [|exact Hl|].
    - intros j' Hj'. unfold all_input_nodes in Hj'. rewrite dedup_in in Hj'.
      split; [apply Hcj, Hj'|]. specialize (Ht _ _ Ho _ Hj'). lia.
    - unfold all_input_nodes. rewrite dedup_in. exact Hj. }
  assert (Hnone : forall acc0 : list (option nat),
            (forall x, In x (acc0 ++ [None]) -> x = Some t) -> False).
  { intros acc0 H. specialize (H None ltac:(apply in_or_app; right; left; reflexivity)). discriminate H. }
  destruct Hr as
    [same i m ins' Hn Hm|same i m j Hn Hj|same i f j Hn Hf Hj|same i f ins' Hn|same i f j Hn Hf Hj
    |same i f ins' Hn|same i ins' Hn Hne Hj|i o Hn Ha Hne Hj]; rewrite Hn in Hall'.
  - destruct (get_module s m) as [[? ? ?|[] ?|q|?|? ? ?]|] eqn:G;
      try (exfalso; eapply Hnone; exact Hall').
    + exfalso. eapply Hm. reflexivity.
    + assert (Hm' : tq_matches (tqs s) same (q_tq q) t = true).
      { destruct (tq_in_list (tqs s) same (q_tq q) acc') eqn:E.
        - eapply in_tq_list; [exact E|exact Hall'].
        - specialize (Hall' (Some (q_tq q)) ltac:(apply in_or_app; right; left; reflexivity)).
          injection Hall' as <-. unfold tq_matches. destruct same; rewrite ?Nat.eqb_refl; reflexivity. }
      unfold tq_matches in Hm'. destruct same.
      * apply Nat.eqb_eq in Hm'. subst t. cbn [claim]. eapply HM_act; eassumption.
      * apply andb_prop in Hm'. destruct Hm' as [H1 H2]. apply Nat.eqb_eq in H1, H2.
        exists (tq_meta (tqs s (q_tq q))). split; [eapply HM_act; eassumption|].
        cbn [m_scale tq_meta]. unfold tq_scale. rewrite H1, H2, (Hbw _ _ H1 H2). reflexivity.
  - destruct (get_module s m) as [[? ? ?|[] ?|q|?|? ? ?]|] eqn:G;
      try (exfalso; eapply Hnone; exact Hall').
    + specialize (Hsub _ same _ Hn ltac:(intros j' [<-|[]]; exact Hj) Hall' j (or_introl eq_refl)).
      destruct same; cbn [claim] in *; [eapply HM_pass; eassumption|].
      destruct Hsub as (mt & H1 & H2). exists mt. split; [eapply HM_pass; eassumption|exact H2].
    + assert (Hm' : tq_matches (tqs s) same (q_tq q) t = true).
      { destruct (tq_in_list (tqs s) same (q_tq q) acc') eqn:E.
        - eapply in_tq_list; [exact E|exact Hall'].
        - specialize (Hall' (Some (q_tq q)) ltac:(apply in_or_app; right; left; reflexivity)).
          injection Hall' as <-. unfold tq_matches. destruct same; rewrite ?Nat.eqb_refl; reflexivity. }
      unfold tq_matches in Hm'. destruct same.
      * apply Nat.eqb_eq in Hm'. subst t. cbn [claim]. eapply HM_act; eassumption.
      * apply andb_prop in Hm'. destruct Hm' as [H1 H2]. apply Nat.eqb_eq in H1, H2.
        exists (tq_meta (tqs s (q_tq q))). split; [eapply HM_act; eassumption|].
        cbn [m_scale tq_meta]. unfold tq_scale. rewrite H1, H2, (Hbw _ _ H1 H2). reflexivity.
  - assert (E : fn_align f same = Follow same) by (destruct Hf as [->|[->| ->]]; reflexivity).
    rewrite E in Hall'.
    specialize (Hsub _ same _ Hn ltac:(intros j' [<-|[]]; exact Hj) Hall' j (or_introl eq_refl)).
    destruct same; cbn [claim] in *; [eapply HM_fn; eassumption|].
    destruct Hsub as (mt & H1 & H2). exists mt. split; [eapply HM_fn; eassumption|exact H2].
  - exfalso. eapply Hnone. exact Hall'.
  - destruct (meth_align f same) as [sm|] eqn:E; [|exfalso; eapply Hnone; exact Hall'].
    assert (sm = same) by (destruct Hf as [->|[->|[->|[->|[->| ->]]]]]; cbn in E; congruence). subst sm.
    specialize (Hsub _ same _ Hn ltac:(intros j' [<-|[]]; exact Hj) Hall' j (or_introl eq_refl)).
    destruct same; cbn [claim] in *; [eapply HM_meth; eassumption|].
    destruct Hsub as (mt & H1 & H2). exists mt. split; [eapply HM_meth; eassumption|exact H2].
  - exfalso. eapply Hnone. exact Hall'.
  - cbn [fn_align] in Hall'.
    specialize (Hsub _ true _ Hn Hj Hall'). cbn [claim ins_of] in Hsub.
    assert (H : has_meta s i (tq_meta (tqs s t))) by (eapply HM_cat; eassumption).
    destruct same; [exact H|apply claim_weaken; exact H].
  - assert (Hs : forall j, In j (ins_of o) -> claim s t false j).
    { destruct o as [| |m0 i0|f0 i0|m0 i0|i0]; try discriminate Ha.
      - destruct f0; try discriminate Ha. cbn [fn_align] in Hall'. exact (Hsub _ false _ Hn Hj Hall').
      - destruct m0; try discriminate Ha. cbn [meth_align] in Hall'. exact (Hsub _ false _ Hn Hj Hall'). }
    destruct (F2_exists (fun j mt => has_meta s j mt /\ (m_scale mt == tq_scale (tqs s t))%Q) (ins_of o) Hs)
      as [mts Hmts].
    apply F2_and_right in Hmts. destruct Hmts as [H1 H2].
    exists (Meta (tq_scale (tqs s t)) (existsb m_signed mts) (sum_bw mts)).
    split; [|reflexivity]. eapply HM_add; eauto.
Qed.

Lemma aligned_list_single l : aligned_list l = true -> exists t, forall x, In x l -> x = Some t.
Proof.
  unfold aligned_list. destruct (existsb _ l) eqn:E; [discriminate|]. intros H.
  destruct l as [|[a|] [|b l]]; try discriminate E; try discriminate H.
  - exists 0. intros x [].
  - exists a. intros x [<-|[]]. reflexivity.
Qed.

(** * C77 *)

(** If the check passes on an addition, all its operands are quantized with one common scale. *)
Theorem C77_aligned_addition_operands_share_scale s i o :
  topo (nodes s) -> shared_scaling_same_bw s ->
  find_node (nodes s) i = Some o -> is_add o = true ->
  (forall j, In j (ins_of o) -> reach_ok s false j) ->
  are_inputs_quantized_and_aligned s o false = true ->
  exists sc, forall j, In j (ins_of o) -> exists mt, has_meta s j mt /\ (m_scale mt == sc)%Q.
Proof.
  intros Ht Hbw Ho Ha Hr Hal. unfold are_inputs_quantized_and_aligned in Hal.
  destruct (aligned_list_single _ Hal) as [t Hall]. exists (tq_scale (tqs s t)). intros j Hj.
  refine (quant_list_sound s t Ht Hbw _ false _ [] _ Hall j _).
  - intros j' Hj'. unfold all_input_nodes in Hj'. rewrite dedup_in in Hj'. split; [auto|].
    pose proof (Ht _ _ Ho _ Hj'). pose proof (pos_found _ _ _ Ho). lia.
  - unfold all_input_nodes. rewrite dedup_in. exact Hj.
Qed.

(** If it passes on a concatenation, they share scale, sign and bit width. *)
Theorem C77_aligned_concat_operands_share_metadata s i ins :
  topo (nodes s) -> shared_scaling_same_bw s ->
  find_node (nodes s) i = Some (OFn FCat ins) ->
  (forall j, In j ins -> reach_ok s true j) ->
  are_inputs_quantized_and_aligned s (OFn FCat ins) true = true ->
  exists mt, forall j, In j ins -> has_meta s j mt.
Proof.
  intros Ht Hbw Ho Hr Hal. unfold are_inputs_quantized_and_aligned in Hal.
  destruct (aligned_list_single _ Hal) as [t Hall]. exists (tq_meta (tqs s t)). intros j Hj.
  refine (quant_list_sound s t Ht Hbw _ true _ [] _ Hall j _).
  - intros j' Hj'. unfold all_input_nodes in Hj'. cbn [ins_of] in Hj'. rewrite dedup_in in Hj'. split; [auto|].
    pose proof (Ht _ _ Ho _ Hj'). pose proof (pos_found _ _ _ Ho). lia.
  - unfold all_input_nodes. cbn [ins_of]. rewrite dedup_in. exact Hj.
Qed.

(** When [residual_handler] returns, every addition and concatenation of the resulting graph has
    passed the check: its operands are quantized with one scale (and, for concatenations, one sign
    and bit width). *)
Lemma first_misaligned_none s ns : first_misaligned s ns = None ->
  forall n same, In n ns -> add_or_cat (snd n) = Some same ->
  are_inputs_quantized_and_aligned s (snd n) same = true.
Proof.
  induction ns as [|m ns IH]; intros H n same Hn Ha; [destruct Hn|].
  cbn [first_misaligned] in H. destruct (needs_work s m) eqn:E; [discriminate H|].
  destruct Hn as [->|Hn]; [|eapply IH; eauto].
  unfold needs_work in E. rewrite Ha in E. destruct (are_inputs_quantized_and_aligned s (snd n) same); congruence.
Qed.
Lemma residual_handler_converged im cs iters : forall s s',
  residual_handler im cs iters s = Some s' -> first_misaligned s' (nodes s') = None.
Proof.
  induction iters as [|k IH]; intros s s' H; cbn [residual_handler] in H; unfold is_converged in H;
    destruct (first_misaligned s (nodes s)) as [[n same]|] eqn:E.
  - destruct (align_node im cs s n same); discriminate H.
  - injection H as <-. exact E.
  - destruct (align_node im cs s n same); [|discriminate H]. destruct k; [discriminate H|]. eapply IH; exact H.
  - injection H as <-. exact E.
Qed.

Lemma find_node_in ns i o : find_node ns i = Some o -> In (i, o) ns.
Proof.
  unfold find_node. match goal with |- context [find ?f ns] => destruct (find f ns) as [[j o']|] eqn:E end; [|intro H; discriminate H].
  intros H. injection H as <-. apply find_some in E. destruct E as [E1 E2].
  apply Nat.eqb_eq in E2. cbn in E2. subst j. exact E1.
Qed.

Theorem C77_residual_handler_result_aligned im cs iters s s' i o :
  residual_handler im cs iters s = Some s' ->
  topo (nodes s') -> shared_scaling_same_bw s' ->
  find_node (nodes s') i = Some o ->
  (is_add o = true -> (forall j, In j (ins_of o) -> reach_ok s' false j) ->
   exists sc, forall j, In j (ins_of o) -> exists mt, has_meta s' j mt /\ (m_scale mt == sc)%Q) /\
  (forall ins, o = OFn FCat ins -> (forall j, In j ins -> reach_ok s' true j) ->
   exists mt, forall j, In j ins -> has_meta s' j mt).
Proof.
  intros H Ht Hbw Ho. apply residual_handler_converged in H.
  pose proof (first_misaligned_none _ _ H (i, o)) as Hn. cbn [snd] in Hn.
  specialize (fun same => Hn same (find_node_in _ _ _ Ho)). split.
  - intros Ha Hr. eapply C77_aligned_addition_operands_share_scale; eauto. apply Hn.
    destruct o as [| |m0 i0|f0 i0|m0 i0|i0]; try discriminate Ha; [destruct f0|destruct m0]; try discriminate Ha; reflexivity.
  - intros ins -> Hr. eapply C77_aligned_concat_operands_share_metadata; eauto.
Qed.
End Meta.
