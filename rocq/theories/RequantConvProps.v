(** The alignment loop: what a successful run guarantees for quantize() as a whole, and graphs on
    which it never succeeds (C77, C78). *)
From Coq Require Import List Bool Arith ZArith QArith Lia.
Import ListNotations.
From Verif Require Import RequantGraph RequantGraphProps RequantAlignProps RequantProofs RequantFloatProps.
Local Open Scope nat_scope.

(** * C77 for the whole of the first four passes: all quantizers have one bit width. *)
Definition uniform_bw (W : Z) (s : st) : Prop := forall k, t_bw (tqs s k) = W.
Definition map_bw (W : Z) (im : idmap) : Prop := id_bw (id_signed im) = W /\ id_bw (id_unsigned im) = W.

Lemma uniform_new_identity W im sg s i s' : map_bw W im -> uniform_bw W s ->
  new_identity im sg s = (i, s') -> uniform_bw W s'.
Proof.
  intros [H1 H2] Hu H. injection H as _ <-. intros k. cbn. unfold upd.
  destruct (k =? next s); [destruct sg; assumption|apply Hu].
Qed.
Definition rw_bw (W : Z) (r : rewriter) : Prop :=
  match r with RNewAct _ _ (Some t) => t_bw t = W | _ => True end.
Lemma uniform_apply_rws W rs : forall s s', uniform_bw W s -> Forall (rw_bw W) rs ->
  apply_rws s rs = Some s' -> uniform_bw W s'.
Proof.
  induction rs as [|r rs IH]; intros s s' Hu Hf H; cbn [apply_rws] in H.
  - injection H as <-. exact Hu.
  - inversion Hf as [|? ? Hr Hf']; subst. destruct (apply_rw s r) as [s1|] eqn:E; [|discriminate H].
    eapply IH; [|exact Hf'|exact H]. clear IH H Hf Hf'.
    destruct r as [m n ex|old new|old q [t|]|]; cbn in E.
    + injection E as <-. exact Hu.
    + injection E as <-. exact Hu.
    + injection E as <-. intros k. cbn. unfold upd. destruct (k =? next s); [exact Hr|apply Hu].
    + injection E as <-. exact Hu.
    + discriminate E.
Qed.
Lemma input_handler_bw W im cs s name shared : map_bw W im -> uniform_bw W s ->
  forall fuel a ins, Forall (rw_bw W) (input_handler fuel im cs s name shared a ins).
Proof.
  intros [H1 H2] Hu. induction fuel as [|k IH]; intros a ins; [constructor|].
  cbn [input_handler]. apply Forall_flat_map, Forall_forall. intros i _.
  assert (Hi : Forall (rw_bw W) [RInsert name i []]) by (repeat constructor).
  destruct (find_node (nodes s) i) as [[| |m ins'|f ins'|m ins'|ins']|]; try exact Hi.
  - destruct (lookup_reg (reg s) m) as [j|]; [|repeat constructor].
    assert (Ha : Forall (rw_bw W) match align_input_quant im cs s j shared a with
                     | AReplace r => [r] | AInsert => [RInsert name i []] end).
    { unfold align_input_quant. destruct (inst s shared) as [| |sh| |]; try exact Hi.
      destruct (inst s j) as [| |q| |iq [] g]; try exact Hi; [|repeat constructor].
      destruct (q_identity q).
      - destruct (a || _); [repeat constructor|].
        destruct (negb (truthy (q_insigned q)) && _); [|repeat constructor].
        constructor; [exact H2|constructor].
      - destruct (cs _); [exact Hi|]. destruct a; (constructor; [|constructor]); [exact I|apply Hu]. }
    destruct (inst s j) as [|[] ?| | |]; try exact Ha. apply IH.
  - destruct (fn_handler f a); [apply IH|exact Hi].
  - destruct (meth_handler m a); [apply IH|exact Hi].
Qed.
Lemma uniform_residual W im cs : map_bw W im -> forall iters s s', uniform_bw W s ->
  residual_handler im cs iters s = Some s' -> uniform_bw W s'.
Proof.
  intros Hm. induction iters as [|k IH]; intros s s' Hu H; cbn [residual_handler] in H; unfold is_converged in H;
    destruct (first_misaligned s (nodes s)) as [[n same]|] eqn:E.
  - destruct (align_node im cs s n same); discriminate H.
  - injection H as <-. exact Hu.
  - destruct (align_node im cs s n same) as [s1|] eqn:E1; [|discriminate H].
    destruct k; [discriminate H|]. eapply IH; [|exact H]. clear IH H. unfold align_node in E1.
    destruct (new_identity im (negb (are_inputs_unsigned s (snd n))) s) as [sh s2] eqn:E2.
    assert (Hu2 : uniform_bw W (add_module s2 (MQuant (fst n)) sh))
      by exact (uniform_new_identity W im _ s sh s2 Hm Hu E2).
    eapply uniform_apply_rws; [exact Hu2| |exact E1]. apply input_handler_bw; assumption.
  - injection H as <-. exact Hu.
Qed.
Lemma uniform_inp W im s : map_bw W im -> uniform_bw W s -> uniform_bw W (inp_placeholder_handler im s).
Proof.
  intros Hm Hu. unfold inp_placeholder_handler.
  match goal with |- context [map fst (filter ?f (nodes s))] => generalize (map fst (filter f (nodes s))) end.
  intros ph. cbv zeta.
  assert (G : forall ph rs s0 rs' s', uniform_bw W s0 -> Forall (rw_bw W) rs ->
     fold_left (fun '(rs, s) n => let '(i, s) := new_identity im true s in
        (rs ++ [RInsert (MIn n) n []], add_module s (MIn n) i)) ph (rs, s0) = (rs', s') ->
     uniform_bw W s' /\ Forall (rw_bw W) rs').
  { clear - Hm. induction ph as [|n ph IH]; intros rs s0 rs' s' Hu F H; cbn [fold_left] in H.
    - injection H as <- <-. auto.
    - destruct (new_identity im true s0) as [i s1] eqn:E. eapply IH; [| |exact H].
      + exact (uniform_new_identity _ _ _ _ _ _ Hm Hu E).
      + apply Forall_app. split; [exact F|repeat constructor]. }
  match goal with |- context [fold_left ?f ph ([], s)] => destruct (fold_left f ph ([], s)) as [rs s1] eqn:E end.
  destruct (G _ _ _ _ _ Hu (Forall_nil _) E) as (Hu1 & F).
  destruct (apply_rws s1 rs) as [s'|] eqn:E'; [|exact Hu1]. eapply uniform_apply_rws; eauto.
Qed.
Lemma uniform_act W map_act s : (forall f sg b, map_act f = Some (sg, b) -> b = W) -> uniform_bw W s ->
  uniform_bw W (act_handler map_act s).
Proof.
  intros Hm Hu. unfold act_handler.
  match goal with |- uniform_bw _ (fold_left ?f _ _) =>
    assert (G : forall ns s0, uniform_bw W s0 -> uniform_bw W (fold_left f ns s0)) end; [|apply G, Hu].
  induction ns as [|n ns IH]; intros s0 H0; [exact H0|]. cbn [fold_left]. apply IH. clear IH.
  destruct (snd n) as [| |m ins| | |]; try exact H0.
  destruct (lookup_reg (reg s0) m) as [j|]; [|exact H0].
  destruct (inst s0 j) as [[] u f| | | |]; try exact H0.
  destruct (map_act f) as [[sg bw]|] eqn:E; [|exact H0].
  intros k. cbn. unfold upd. destruct (k =? next s0); [eapply Hm; exact E|apply H0].
Qed.
Lemma uniform_output W im : map_bw W im -> forall fuel sp n s rs s' rs', uniform_bw W s -> Forall (rw_bw W) rs ->
  output_quant_handler fuel im sp n s rs = (s', rs') -> uniform_bw W s' /\ Forall (rw_bw W) rs'.
Proof.
  intros Hm. induction fuel as [|k IH]; intros sp n s rs s' rs' Hu F H; cbn [output_quant_handler] in H.
  { injection H as <- <-. auto. }
  match type of H with (let '(_, _) := fold_left ?f ?us ?a in _) = _ =>
    set (step := f) in H; generalize dependent us; intros us0 H end.
  assert (G : forall us s1 rs1 d s2 rs2 d2, uniform_bw W s1 -> Forall (rw_bw W) rs1 ->
     fold_left step us (s1, rs1, d) = (s2, rs2, d2) -> uniform_bw W s2 /\ Forall (rw_bw W) rs2).
  { induction us as [|u us IHu]; intros s1 rs1 d s2 rs2 d2 Hu1 F1 H1; cbn [fold_left] in H1.
    - injection H1 as <- <- <-. auto.
    - destruct (step (s1, rs1, d) u) as [[s3 rs3] d3] eqn:Es.
      assert (G3 : uniform_bw W s3 /\ Forall (rw_bw W) rs3).
      { assert (Gi : forall s3 rs3 d3,
          (if d then (s1, rs1, d) else
              let signed := negb (sp && are_inputs_unsigned s1 (snd n)) in
              let '(i, s) := new_identity im signed s1 in
              (add_module s (MOut (fst n)) i, rs1 ++ [RInsert (MOut (fst n)) (fst n) []], true))
          = (s3, rs3, d3) -> uniform_bw W s3 /\ Forall (rw_bw W) rs3).
        { clear Es. intros s4 rs4 d4 E. destruct d; [injection E as <- <- <-; auto|].
          cbv zeta in E. destruct (new_identity im _ s1) as [i s5] eqn:E5. injection E as <- <- <-.
          split; [exact (uniform_new_identity _ _ _ _ _ _ Hm Hu1 E5)|].
          apply Forall_app. split; [exact F1|repeat constructor]. }
        unfold step in Es. cbv beta iota zeta in Es.
        destruct (snd u) as [| |m ins| | |]; try (eapply Gi; exact Es).
        destruct (get_module s1 m) as [[| |q|f|]|]; try (eapply Gi; exact Es).
        - injection Es as <- <- <-. auto.
        - destruct (output_quant_handler k im sp u s1 rs1) as [s4 rs4] eqn:E4. injection Es as <- <- <-.
          eapply IH; eauto. }
      eapply IHu; [apply G3|apply G3|exact H1]. }
  destruct (fold_left step us0 (s, rs, false)) as [[s2 rs2] d2] eqn:E. injection H as <- <-.
  eapply G; [exact Hu|exact F|exact E].
Qed.
Lemma uniform_add_output W im s s' : map_bw W im -> uniform_bw W s ->
  add_output_quant_handler im s = Some s' -> uniform_bw W s'.
Proof.
  intros Hm Hu H. unfold add_output_quant_handler in H.
  match type of H with (let '(_, _) := fold_left ?f ?us ?a in _) = _ => set (step := f) in H end.
  assert (G : forall ns s1 rs1 s2 rs2, uniform_bw W s1 -> Forall (rw_bw W) rs1 ->
     fold_left step ns (s1, rs1) = (s2, rs2) -> uniform_bw W s2 /\ Forall (rw_bw W) rs2).
  { induction ns as [|u ns IH]; intros s1 rs1 s2 rs2 Hu1 F1 H1; cbn [fold_left] in H1.
    - injection H1 as <- <-. auto.
    - destruct (step (s1, rs1) u) as [s3 rs3] eqn:Es. unfold step in Es.
      assert (G3 : uniform_bw W s3 /\ Forall (rw_bw W) rs3).
      { destruct (is_add (snd u)); [|injection Es as <- <-; auto]. eapply uniform_output; eauto. }
      eapply IH; [apply G3|apply G3|exact H1]. }
  destruct (fold_left step (nodes s) (s, [])) as [s1 rs] eqn:E.
  destruct (G _ _ _ _ _ Hu (Forall_nil _) E) as (Hu1 & F). eapply uniform_apply_rws; eauto.
Qed.

(** If quantize()'s first four passes succeed with one bit width everywhere, every addition in the
    result has operands of one common scale and every concatenation operands of one common scale,
    sign and bit width. *)
Theorem C77_quantize_aligns_additions_and_concats thr ithr sum_bw W im map_act cs iters s s' i o :
  traced s -> uniform_bw W s -> map_bw W im ->
  (forall f sg b, map_act f = Some (sg, b) -> b = W) ->
  quantize_front im map_act cs iters s = Some s' ->
  find_node (nodes s') i = Some o ->
  (is_add o = true -> (forall j, In j (ins_of o) -> reach_ok s' false j) ->
   exists sc, forall j, In j (ins_of o) ->
     exists mt, has_meta thr ithr sum_bw s' j mt /\ (m_scale mt == sc)%Q) /\
  (forall ins, o = OFn FCat ins -> (forall j, In j ins -> reach_ok s' true j) ->
   exists mt, forall j, In j ins -> has_meta thr ithr sum_bw s' j mt).
Proof.
  intros Ht Hu Hm Ha H Ho.
  destruct (C79_quantize_result_well_formed (fun _ (_ : list unit) => None) (fun _ _ => None) (fun _ _ => None)
                (fun _ => None) (fun _ => None) (fun _ => None) im map_act cs iters s s' Ht H) as (Htopo & _).
  unfold quantize_front in H.
  destruct (add_output_quant_handler im (act_handler map_act (inp_placeholder_handler im s))) as [s3|] eqn:E;
    [|discriminate H].
  assert (Hu3 : uniform_bw W s3).
  { eapply uniform_add_output; [exact Hm| |exact E]. apply uniform_act; [exact Ha|]. apply uniform_inp; assumption. }
  pose proof (uniform_residual W im cs Hm _ _ _ Hu3 H) as Hu'.
  eapply C77_residual_handler_result_aligned; [exact H|exact Htopo| |exact Ho].
  intros a b _ _. rewrite !Hu'. reflexivity.
Qed.

(** ** Without a uniform bit width it is false: sharing the scaling modules does not make the
    scales equal when the signed and unsigned quantizers have different widths. *)
Theorem C77_mixed_bit_widths_refuted :
  exists (thr : nat -> Q) (ithr : nat -> Z -> Q) map_act s s' o q1 q2 m1 m2,
    traced s /\ quantize_front std_map map_act (fun _ => false) 9 s = Some s' /\
    find_node (nodes s') 3 = Some o /\ is_add o = true /\
    are_inputs_quantized_and_aligned s' o false = true /\
    map (find_node (nodes s')) (ins_of o) = [Some (OModule m1 [0]); Some (OModule m2 [1])] /\
    get_module s' m1 = Some (QAct q1) /\ get_module s' m2 = Some (QAct q2) /\
    ~ (tq_scale thr ithr (tqs s' (q_tq q1)) == tq_scale thr ithr (tqs s' (q_tq q2)))%Q.
Proof.
  exists (fun _ => 1%Q), (fun _ b => inject_Z (2 ^ (b - 1))),
    (fun f => if f =? 200 then Some (false, 4%Z) else None), skip_graph.
  destruct (quantize_front std_map (fun f => if f =? 200 then Some (false, 4%Z) else None)
              (fun _ => false) 9 skip_graph) as [s'|] eqn:E; [|vm_compute in E; discriminate E].
  exists s'.
  destruct (find_node (nodes s') 3) as [o|] eqn:Eo; [|vm_compute in E; injection E as <-; discriminate Eo].
  exists o.
  destruct (get_module s' (MIn 0)) as [[| |q1| |]|] eqn:G1;
    try (vm_compute in E; injection E as <-; vm_compute in G1; discriminate G1).
  destruct (get_module s' (MOrig 1)) as [[| |q2| |]|] eqn:G2;
    try (vm_compute in E; injection E as <-; vm_compute in G2; discriminate G2).
  exists q1, q2, (MIn 0), (MOrig 1). split; [apply C79_example|]. split; [reflexivity|].
  vm_compute in E. injection E as <-. vm_compute in Eo. injection Eo as <-.
  vm_compute in G1. injection G1 as <-. vm_compute in G2. injection G2 as <-.
  vm_compute. repeat split; auto. intros H; discriminate H.
Qed.

(** * C78: graphs that cannot be aligned *)

(** ** An operand produced by the tensor method [transpose] *)
Definition blocked (s : st) : Prop :=
  valid s /\ exists a o same t ins, find_node (nodes s) a = Some o /\ add_or_cat o = Some same /\
    In t (ins_of o) /\ find_node (nodes s) t = Some (OMeth MTranspose ins).

Lemma blocked_misaligned s : blocked s -> first_misaligned s (nodes s) <> None.
Proof.
  intros (Hv & a & o & same & t & ins & Ha & Hs & Ht & Hf) Hn.
  pose proof (first_misaligned_none s (nodes s) Hn (a, o) same (find_node_some _ _ _ Ha) Hs) as H.
  cbn [snd] in H. unfold are_inputs_quantized_and_aligned in H.
  destruct (aligned_list_single _ H) as [u Hu].
  destruct (nodes s) as [|n0 ns] eqn:En; [discriminate Ha|]. rewrite <- En in *.
  assert (El : length (nodes s) = S (length ns)) by (rewrite En; reflexivity).
  rewrite El in Hu. cbn [quant_list] in Hu.
  match type of Hu with forall x, In x (fold_left ?f ?l ?a) -> _ =>
    assert (Hp : forall acc0 i0, exists t, f acc0 i0 = acc0 ++ t) end.
  { clear -s. intros acc0 i0. cbv beta.
    assert (E0 : exists t, acc0 = acc0 ++ t) by (exists []; rewrite app_nil_r; reflexivity).
    destruct (find_node (nodes s) i0) as [[| |m0 ins0|f0 ins0|m0 ins0|ins0]|]; auto.
    - destruct (get_module s m0) as [[? ? ?|[] ?|q0|?|? ? ?]|]; eauto using quant_list_prefix.
      destruct (tq_in_list (tqs s) same (q_tq q0) acc0); eauto.
    - destruct (fn_align f0 same); eauto using quant_list_prefix.
    - destruct (meth_align m0 same); eauto using quant_list_prefix. }
  assert (Hin : In t (all_input_nodes o)) by (unfold all_input_nodes; rewrite dedup_in; exact Ht).
  destruct (fold_prefix_in _ _ Hp [] t Hin) as (acc' & tl & Efold).
  rewrite Efold in Hu. rewrite Hf in Hu. cbn [meth_align] in Hu.
  specialize (Hu None ltac:(apply in_or_app; left; apply in_or_app; right; left; reflexivity)).
  discriminate Hu.
Qed.

(** Rewriters never insert after a [transpose] method node. *)
Definition rw_spares (t : nat) (r : rewriter) : Prop :=
  match r with RInsert _ n _ => n <> t | _ => True end.
Lemma input_handler_spares im cs s name shared t ins0 :
  find_node (nodes s) t = Some (OMeth MTranspose ins0) ->
  forall fuel a ins, Forall (rw_spares t) (input_handler fuel im cs s name shared a ins).
Proof.
  intros Hf. induction fuel as [|k IH]; intros a ins; [constructor|].
  cbn [input_handler]. apply Forall_flat_map, Forall_forall. intros i _.
  assert (Hi : find_node (nodes s) i <> find_node (nodes s) t -> Forall (rw_spares t) [RInsert name i []]).
  { intros H. constructor; [|constructor]. cbn. intros ->. congruence. }
  destruct (find_node (nodes s) i) as [[| |m ins'|f ins'|m ins'|ins']|] eqn:Ei;
    try (apply Hi; rewrite Hf; discriminate).
  - assert (Hi' : Forall (rw_spares t) [RInsert name i []]) by (apply Hi; rewrite Hf; discriminate).
    destruct (lookup_reg (reg s) m) as [j|]; [|repeat constructor].
    assert (Ha : Forall (rw_spares t) match align_input_quant im cs s j shared a with
                     | AReplace r => [r] | AInsert => [RInsert name i []] end).
    { unfold align_input_quant. destruct (inst s shared) as [| |sh| |]; try exact Hi'.
      destruct (inst s j) as [| |q| |iq [] g]; try exact Hi'; [|repeat constructor].
      destruct (q_identity q).
      - destruct (a || _); [repeat constructor|].
        destruct (negb (truthy (q_insigned q)) && _); repeat constructor.
      - destruct (cs _); [exact Hi'|]. destruct a; repeat constructor. }
    destruct (inst s j) as [|[] ?| | |]; try exact Ha. apply IH.
  - destruct (fn_handler f a); [apply IH|apply Hi; rewrite Hf; discriminate].
  - destruct (meth_handler m a) eqn:E; [apply IH|]. apply Hi. rewrite Hf. intros H.
    injection H as -> ->. discriminate E.
Qed.

Definition keeps (a t : nat) (s : st) : Prop :=
  exists o same ins, find_node (nodes s) a = Some o /\ add_or_cat o = Some same /\
    In t (ins_of o) /\ find_node (nodes s) t = Some (OMeth MTranspose ins).
Lemma keeps_rw a t s r s' : valid s -> a < next s -> t < next s ->
  keeps a t s -> rw_spares t r -> apply_rw s r = Some s' -> keeps a t s'.
Proof.
  intros Hv Ha Ht (o & same & ins & H1 & H2 & H3 & H4) Hr H.
  destruct r as [m n ex|old new|old q [tr|]|]; cbn in H; try discriminate H; injection H as <-;
    try (exists o, same, ins; auto; fail).
  change (replace_uses (insert_after (nodes s) n (next s, OModule m [n])) n (next s) (next s :: ex))
      with (insert_rw (nodes s) n (next s) m ex).
  unfold keeps. cbn [nodes]. cbn in Hr.
  exists (snd (rename n (next s) (next s :: ex) (a, o))), same.
  pose proof (rename_kind n (next s) (next s :: ex) (a, o)) as K1. cbn [snd] in K1.
  pose proof (find_node_insert_rw (nodes s) n (next s) m ex t _ ltac:(lia) H4) as F4.
  pose proof (rename_kind n (next s) (next s :: ex) (t, OMeth MTranspose ins)) as K4. cbn [snd] in K4.
  inversion K4 as [| | | |? ? b Eb Eb'|]; subst.
  exists b. split; [apply find_node_insert_rw; [lia|exact H1]|]. split; [|split].
  - clear - K1 H2. inversion K1; subst; cbn in *; try discriminate; congruence.
  - unfold rename. cbn [fst snd]. destruct (existsb (Nat.eqb a) (next s :: ex)); [exact H3|]. cbn [snd].
    assert (E : ins_of (set_ins o (map (fun i => if i =? n then next s else i) (ins_of o))) =
                map (fun i => if i =? n then next s else i) (ins_of o))
      by (destruct o; reflexivity).
    rewrite E. apply in_map_iff. exists t. split; [|exact H3].
    apply not_eq_sym, Nat.eqb_neq in Hr. rewrite Hr. reflexivity.
  - rewrite F4. f_equal. symmetry. exact Eb'.
Qed.
Lemma keeps_rws a t rs : forall s s', valid s -> a < next s -> t < next s ->
  keeps a t s -> Forall (rw_ok s) rs -> Forall (rw_spares t) rs -> apply_rws s rs = Some s' -> keeps a t s'.
Proof.
  induction rs as [|r rs IH]; intros s s' Hv Ha Ht Hk Hok Hr H; cbn [apply_rws] in H.
  - injection H as <-. exact Hk.
  - destruct (apply_rw s r) as [s1|] eqn:E; [|discriminate H].
    inversion Hok as [|? ? O1 O2]; inversion Hr as [|? ? R1 R2]; subst.
    pose proof (apply_rw_pres (fun _ (_ : list unit) => None) (fun _ _ => None) (fun _ _ => None)
                  (fun _ => None) (fun _ => None) (fun _ => None) _ _ _ Hv O1 E) as P.
    assert (Hn : next s <= next s1) by apply P.
    eapply IH; [apply P|lia|lia| | |exact R2|exact H].
    + eapply keeps_rw; [exact Hv|exact Ha|exact Ht|exact Hk|exact R1|exact E].
    + eapply Forall_impl; [|exact O2]. intros r'. eapply rw_ok_pres; exact P.
Qed.

Lemma blocked_step im cs s n same s' : blocked s -> first_misaligned s (nodes s) = Some (n, same) ->
  align_node im cs s n same = Some s' -> blocked s'.
Proof.
  intros (Hv & a & o & sm & t & ins & H1 & H2 & H3 & H4) Hm H.
  pose proof (first_misaligned_in _ _ _ _ Hm) as Hn.
  pose proof (align_node_pres (fun _ (_ : list unit) => None) (fun _ _ => None) (fun _ _ => None)
                (fun _ => None) (fun _ => None) (fun _ => None) im cs s n same s' Hv Hn H) as P.
  split; [apply P|].
  assert (K : keeps a t s'); [|destruct K as (o' & s2 & i2 & K1 & K2 & K3 & K4); exists a, o', s2, t, i2; auto].
  unfold align_node in H.
  destruct (new_identity im (negb (are_inputs_unsigned s (snd n))) s) as [shared s1] eqn:E.
  destruct (add_identity_pres (fun _ (_ : list unit) => None) (fun _ _ => None) (fun _ _ => None)
                (fun _ => None) (fun _ => None) (fun _ => None)
                _ _ _ _ _ (MQuant (fst n)) Hv (generated_MQuant _) E) as (P1 & Hj).
  assert (En : nodes (add_module s1 (MQuant (fst n)) shared) = nodes s).
  { unfold new_identity in E. destruct (new_tq s _) as [tt s2] eqn:E1. injection E as _ <-.
    injection E1 as _ <-. reflexivity. }
  assert (Hlt : forall x ox, find_node (nodes s) x = Some ox -> x < next s).
  { intros x ox Hx. destruct Hv as (_ & X & _). apply X. eapply in_map_fst, find_node_some, Hx. }
  assert (Hle : next s <= next (add_module s1 (MQuant (fst n)) shared)) by apply P1.
  eapply keeps_rws; [apply P1| | | | | |exact H].
  - specialize (Hlt _ _ H1). lia.
  - specialize (Hlt _ _ H4). lia.
  - exists o, sm, ins. rewrite En. auto.
  - eapply input_handler_ok; [apply P1|exact Hj| | |].
    + destruct (pres_new_identity (fun _ (_ : list unit) => None) (fun _ _ => None) (fun _ _ => None)
                (fun _ => None) (fun _ => None) (fun _ => None) _ _ _ _ _ Hv E) as (_ & Hi & _). exact Hi.
    + unfold new_identity in E. destruct (new_tq s _) as [tt s2] eqn:E1. injection E as <- <-.
      cbn. unfold upd. rewrite Nat.eqb_refl. eexists; split; reflexivity.
    + intros i Hi. unfold all_input_nodes in Hi. rewrite dedup_in in Hi. rewrite En.
      destruct Hv as (T & _). destruct n as [k on].
      assert (G : forall ns sn, topo_from sn ns -> In (k, on) ns -> In i (ins_of on) -> In i sn \/ In i (map fst ns)).
      { clear. induction ns as [|q ns IH]; intros sn H Hp Hc; [destruct Hp|].
        destruct H as (H1 & H2 & H3). destruct Hp as [->|Hp].
        - left. apply H1, Hc.
        - destruct (IH _ H3 Hp Hc) as [[<-|H]|H]; [right; left; reflexivity|left; exact H|right; right; exact H]. }
      destruct (G _ _ T Hn Hi) as [[]|Hx]. exact Hx.
  - apply input_handler_spares with (ins0 := ins). rewrite En. exact H4.
Qed.

Theorem C78_transpose_method_operand_never_aligns im cs iters : forall s,
  blocked s -> residual_handler im cs iters s = None.
Proof.
  induction iters as [|k IH]; intros s Hb; cbn [residual_handler]; unfold is_converged;
    pose proof (blocked_misaligned s Hb) as Hm;
    destruct (first_misaligned s (nodes s)) as [[n same]|] eqn:E; try contradiction.
  - destruct (align_node im cs s n same); reflexivity.
  - destruct (align_node im cs s n same) as [s'|] eqn:E'; [|reflexivity].
    destruct k as [|k]; [reflexivity|]. apply IH. eapply blocked_step; eauto.
Qed.

(** a.transpose(0, 1) + b with a, b quantized. *)
Definition transpose_graph : st :=
  ST [(0, OPlaceholder); (1, OModule (MOrig 0) [0]); (2, OModule (MOrig 1) [0]);
      (3, OMeth MTranspose [1]); (4, OFn (FAdd 1 0) [3; 2]); (5, OOutput [4])]
     [(MOrig 0, 0); (MOrig 1, 1)]
     (fun k => QAct (QA true None k 0)) (fun k => TQ k k true 8) 10.
Example C78_transpose_example : blocked transpose_graph.
Proof.
  split; [|exists 4, (OFn (FAdd 1 0) [3; 2]), false, 3, [1]; cbn; auto].
  split; [|split; [|split; [|split]]].
  - cbn. repeat split; intros x; cbn; try tauto; intuition (subst; auto; discriminate).
  - cbn. intros x H. intuition lia.
  - intros m i. cbn [transpose_graph reg]. rewrite !lookup_cons.
    destruct (mname_eqb (MOrig 0) m); [intros H; injection H as <-; cbn; lia|].
    destruct (mname_eqb (MOrig 1) m); [intros H; injection H as <-; cbn; lia|discriminate].
  - intros i m ins. cbn. intros [H|[H|[H|[H|[H|[H|[]]]]]]]; try discriminate H; injection H as <- <- <-; discriminate.
  - intros m i Hg. cbn. reflexivity.
Qed.

(** ** y1 = x + relu(f(x)), y2 = x + relu(g(x)) *)
Definition two_branch_mods (k : nat) : module :=
  match k with 1 | 3 => FpAct true true 200 | _ => Other None false 100 end.
Definition two_branch : st :=
  ST [(0, OPlaceholder); (1, OModule (MOrig 0) [0]); (2, OModule (MOrig 1) [1]);
      (3, OModule (MOrig 2) [0]); (4, OModule (MOrig 3) [3]);
      (5, OFn (FAdd 1 0) [0; 2]); (6, OFn (FAdd 1 0) [0; 4]); (7, OOutput [5; 6])]
     [(MOrig 0, 0); (MOrig 1, 1); (MOrig 2, 2); (MOrig 3, 3)] two_branch_mods (fun _ => TQ 0 0 false 8) 10.
Definition two_branch_nodes : list node :=
  [(0,OPlaceholder);(12,OModule (MIn 0) [0]);(1,OModule (MOrig 0) [12]);(2,OModule (MOrig 1) [1]);
   (3,OModule (MOrig 2) [12]);(4,OModule (MOrig 3) [3]);(5,OFn (FAdd 1 0) [12;2]);(21,OModule (MOut 5) [5]);
   (6,OFn (FAdd 1 0) [12;4]);(22,OModule (MOut 6) [6]);(7,OOutput [21;22])].

(** The loop invariant: one of the two additions is misaligned. *)
Record flipflop (s : st) (c0 i1 c2 i2 ix : nat) (tl : list (mname * nat)) (tx t1 t2 f1 f2 : nat) : Prop := {
  ff_nodes : nodes s = two_branch_nodes;
  ff_reg : reg s = (MOrig 0, c0) :: (MOrig 1, i1) :: (MOrig 2, c2) :: (MOrig 3, i2) :: (MIn 0, ix) :: tl;
  ff_dist : NoDup [c0; i1; c2; i2; ix];
  ff_lt : Forall (fun i => i < next s) [c0; i1; c2; i2; ix; tx; t1; t2];
  ff_ix : inst s ix = QAct (QA true None tx 0);
  ff_i1 : inst s i1 = QAct (QA false None t1 f1);
  ff_i2 : inst s i2 = QAct (QA false None t2 f2);
  ff_sc : Forall (fun t => t_sc (tqs s t) < next s) [tx; t1; t2];
  ff_bad : t_sc (tqs s tx) <> t_sc (tqs s t1) \/ t_sc (tqs s tx) <> t_sc (tqs s t2) }.

Lemma add_aligned_sc s a b m1 m2 i1 i2 j1 j2 q1 q2 :
  find_node (nodes s) a = Some (OModule m1 i1) -> find_node (nodes s) b = Some (OModule m2 i2) -> a <> b ->
  lookup_reg (reg s) m1 = Some j1 -> lookup_reg (reg s) m2 = Some j2 ->
  inst s j1 = QAct q1 -> inst s j2 = QAct q2 ->
  are_inputs_quantized_and_aligned s (OFn (FAdd 1 0) [a; b]) false =
  tq_matches (tqs s) false (q_tq q2) (q_tq q1).
Proof.
  intros Ha Hb Hab L1 L2 H1 H2. unfold are_inputs_quantized_and_aligned, all_input_nodes. cbn [ins_of dedup filter].
  assert (E : (b =? a) = false) by (apply Nat.eqb_neq; congruence). rewrite E. cbn [negb].
  destruct (nodes s) as [|n ns] eqn:En; [discriminate Ha|]. rewrite <- En in *.
  replace (length (nodes s)) with (S (length ns)) by (rewrite En; reflexivity).
  cbn [quant_list fold_left]. rewrite Ha, Hb. unfold get_module. rewrite L1, L2, H1, H2.
  cbn [tq_in_list existsb app]. rewrite orb_false_r.
  destruct (tq_matches (tqs s) false (q_tq q2) (q_tq q1)); reflexivity.
Qed.

Lemma flipflop_aligned1 s c0 i1 c2 i2 ix tl tx t1 t2 f1 f2 : flipflop s c0 i1 c2 i2 ix tl tx t1 t2 f1 f2 ->
  are_inputs_quantized_and_aligned s (OFn (FAdd 1 0) [12; 2]) false = tq_matches (tqs s) false t1 tx.
Proof.
  intros [Hn Hr _ _ Hx H1 H2 _ _].
  apply (add_aligned_sc s 12 2 (MIn 0) (MOrig 1) [0] [1] ix i1 _ _
           ltac:(rewrite Hn; reflexivity) ltac:(rewrite Hn; reflexivity) ltac:(discriminate)
           ltac:(rewrite Hr; reflexivity) ltac:(rewrite Hr; reflexivity) Hx H1).
Qed.
Lemma flipflop_aligned2 s c0 i1 c2 i2 ix tl tx t1 t2 f1 f2 : flipflop s c0 i1 c2 i2 ix tl tx t1 t2 f1 f2 ->
  are_inputs_quantized_and_aligned s (OFn (FAdd 1 0) [12; 4]) false = tq_matches (tqs s) false t2 tx.
Proof.
  intros [Hn Hr _ _ Hx H1 H2 _ _].
  apply (add_aligned_sc s 12 4 (MIn 0) (MOrig 3) [0] [3] ix i2 _ _
           ltac:(rewrite Hn; reflexivity) ltac:(rewrite Hn; reflexivity) ltac:(discriminate)
           ltac:(rewrite Hr; reflexivity) ltac:(rewrite Hr; reflexivity) Hx H2).
Qed.

(** The rewriters for one of the additions. *)
Lemma two_operand_handler im cs s k name shared a b m1 m2 i1 i2 j1 j2 q1 q2 sh :
  find_node (nodes s) a = Some (OModule m1 i1) -> find_node (nodes s) b = Some (OModule m2 i2) ->
  lookup_reg (reg s) m1 = Some j1 -> lookup_reg (reg s) m2 = Some j2 ->
  inst s j1 = QAct q1 -> inst s j2 = QAct q2 -> inst s shared = QAct sh ->
  q_identity q1 = true -> q_insigned q1 = None -> q_insigned sh = None -> q_identity q2 = false ->
  (forall t, cs t = false) ->
  input_handler (S k) im cs s name shared false [a; b] =
  [RInstance j1 shared;
   RNewAct j2 (QA false None 0 (q_fun q2))
     (Some (TQ (t_sc (tqs s (q_tq sh))) (t_isc (tqs s (q_tq sh))) (t_signed (tqs s (q_tq q2)))
               (t_bw (tqs s (q_tq q2)))))].
Proof.
  intros Ha Hb L1 L2 H1 H2 Hs I1 S1 Ss I2 Hc. cbn [input_handler flat_map]. rewrite Ha, Hb, L1, L2, H1, H2.
  unfold align_input_quant. rewrite Hs, H1, H2, I1, I2, S1, Ss, Hc. reflexivity.
Qed.
Lemma first_misaligned_two_branch s : nodes s = two_branch_nodes ->
  first_misaligned s (nodes s) =
  if are_inputs_quantized_and_aligned s (OFn (FAdd 1 0) [12; 2]) false then
    if are_inputs_quantized_and_aligned s (OFn (FAdd 1 0) [12; 4]) false then None
    else Some ((6, OFn (FAdd 1 0) [12; 4]), false)
  else Some ((5, OFn (FAdd 1 0) [12; 2]), false).
Proof.
  intros ->. unfold two_branch_nodes. cbn [first_misaligned needs_work add_or_cat snd].
  destruct (are_inputs_quantized_and_aligned s (OFn (FAdd 1 0) [12; 2]) false); [|reflexivity].
  destruct (are_inputs_quantized_and_aligned s (OFn (FAdd 1 0) [12; 4]) false); reflexivity.
Qed.

Ltac neqb := repeat match goal with
  | |- context [?a =? ?b] =>
      first [ rewrite (proj2 (Nat.eqb_neq a b)) by lia | rewrite (proj2 (Nat.eqb_eq a b)) by lia ]
  end.

Lemma flipflop_align1 cs s c0 i1 c2 i2 ix tl tx t1 t2 f1 f2 : (forall t, cs t = false) ->
  flipflop s c0 i1 c2 i2 ix tl tx t1 t2 f1 f2 ->
  exists s' i1' i2' ix' tl' tx' t1' t2',
    align_node std_map cs s (5, OFn (FAdd 1 0) [12; 2]) false = Some s' /\
    flipflop s' c0 i1' c2 i2' ix' tl' tx' t1' t2' f1 f2.
Proof.
  intros Hc [Hn Hr Hd Hl Hx H1 H2 Hs Hb].
  destruct s as [ns rg ins tq nx]. cbn [nodes reg inst tqs next] in *. subst ns rg.
  repeat match goal with H : Forall _ (_ :: _) |- _ => inversion H; clear H; subst end.
  assert (D : c0 <> i1 /\ c0 <> c2 /\ c0 <> i2 /\ c0 <> ix /\ i1 <> c2 /\ i1 <> i2 /\ i1 <> ix /\ c2 <> i2 /\
              c2 <> ix /\ i2 <> ix).
  { clear - Hd. repeat match goal with H : NoDup (_ :: _) |- _ => inversion H; clear H; subst end.
    cbn [In] in *. intuition. }
  destruct D as (D1 & D2 & D3 & D4 & D5 & D6 & D7 & D8 & D9 & D10).
  unfold align_node.
  match goal with |- context [negb ?x] => generalize (negb x) end. intros sg.
  assert (E : new_identity std_map sg (ST two_branch_nodes ((MOrig 0, c0) :: (MOrig 1, i1) :: (MOrig 2, c2)
                 :: (MOrig 3, i2) :: (MIn 0, ix) :: tl) ins tq nx) =
              (S nx, ST two_branch_nodes ((MOrig 0, c0) :: (MOrig 1, i1) :: (MOrig 2, c2)
                 :: (MOrig 3, i2) :: (MIn 0, ix) :: tl) (upd ins (S nx) (QAct (QA true None nx 0)))
                 (upd tq nx (TQ nx nx sg 8)) (S (S nx)))) by (destruct sg; reflexivity).
  rewrite E. clear E. cbn [fst snd]. unfold add_module. cbn [nodes reg inst tqs next reg_set mname_eqb].
  change (all_input_nodes (OFn (FAdd 1 0) [12; 2])) with [12; 2].
  change (length two_branch_nodes) with 11.
  erewrite (two_operand_handler std_map cs _ 10 (MQuant 5) (S nx) 12 2 (MIn 0) (MOrig 1) _ _ ix i1);
    try reflexivity; try assumption;
    [|cbn [inst]; unfold upd; neqb; eassumption|cbn [inst]; unfold upd; neqb; eassumption
     |cbn [inst]; unfold upd; neqb; reflexivity|reflexivity|reflexivity|reflexivity|reflexivity].
  cbn [apply_rws apply_rw new_tq new_inst replace_instance replace_first nodes reg inst tqs next q_tq q_fun q_identity q_insigned].
  neqb. eexists _, (S (S (S nx))), i2, (S nx), _, nx, (S (S nx)), t2. split; [reflexivity|].
  constructor; cbn [nodes reg inst tqs next replace_instance replace_first]; unfold upd.
  - reflexivity.
  - neqb. reflexivity.
  - repeat constructor; cbn [In]; intuition lia.
  - repeat (apply Forall_cons; [lia|]). apply Forall_nil.
  - neqb. reflexivity.
  - neqb. first [reflexivity|eassumption].
  - neqb. first [reflexivity|eassumption].
  - repeat (apply Forall_cons; [neqb; cbn [t_sc]; lia|]). apply Forall_nil.
  - neqb. cbn [t_sc]. lia.
Qed.

Lemma flipflop_align2 cs s c0 i1 c2 i2 ix tl tx t1 t2 f1 f2 : (forall t, cs t = false) ->
  flipflop s c0 i1 c2 i2 ix tl tx t1 t2 f1 f2 ->
  exists s' i1' i2' ix' tl' tx' t1' t2',
    align_node std_map cs s (6, OFn (FAdd 1 0) [12; 4]) false = Some s' /\
    flipflop s' c0 i1' c2 i2' ix' tl' tx' t1' t2' f1 f2.
Proof.
  intros Hc [Hn Hr Hd Hl Hx H1 H2 Hs Hb].
  destruct s as [ns rg ins tq nx]. cbn [nodes reg inst tqs next] in *. subst ns rg.
  repeat match goal with H : Forall _ (_ :: _) |- _ => inversion H; clear H; subst end.
  assert (D : c0 <> i1 /\ c0 <> c2 /\ c0 <> i2 /\ c0 <> ix /\ i1 <> c2 /\ i1 <> i2 /\ i1 <> ix /\ c2 <> i2 /\
              c2 <> ix /\ i2 <> ix).
  { clear - Hd. repeat match goal with H : NoDup (_ :: _) |- _ => inversion H; clear H; subst end.
    cbn [In] in *. intuition. }
  destruct D as (D1 & D2 & D3 & D4 & D5 & D6 & D7 & D8 & D9 & D10).
  unfold align_node.
  match goal with |- context [negb ?x] => generalize (negb x) end. intros sg.
  assert (E : new_identity std_map sg (ST two_branch_nodes ((MOrig 0, c0) :: (MOrig 1, i1) :: (MOrig 2, c2)
                 :: (MOrig 3, i2) :: (MIn 0, ix) :: tl) ins tq nx) =
              (S nx, ST two_branch_nodes ((MOrig 0, c0) :: (MOrig 1, i1) :: (MOrig 2, c2)
                 :: (MOrig 3, i2) :: (MIn 0, ix) :: tl) (upd ins (S nx) (QAct (QA true None nx 0)))
                 (upd tq nx (TQ nx nx sg 8)) (S (S nx)))) by (destruct sg; reflexivity).
  rewrite E. clear E. cbn [fst snd]. unfold add_module. cbn [nodes reg inst tqs next reg_set mname_eqb].
  change (all_input_nodes (OFn (FAdd 1 0) [12; 4])) with [12; 4].
  change (length two_branch_nodes) with 11.
  erewrite (two_operand_handler std_map cs _ 10 (MQuant 6) (S nx) 12 4 (MIn 0) (MOrig 3) _ _ ix i2);
    try reflexivity; try assumption;
    [|cbn [inst]; unfold upd; neqb; eassumption|cbn [inst]; unfold upd; neqb; eassumption
     |cbn [inst]; unfold upd; neqb; reflexivity|reflexivity|reflexivity|reflexivity|reflexivity].
  cbn [apply_rws apply_rw new_tq new_inst replace_instance replace_first nodes reg inst tqs next q_tq q_fun q_identity q_insigned].
  neqb. eexists _, i1, (S (S (S nx))), (S nx), _, nx, t1, (S (S nx)). split; [reflexivity|].
  constructor; cbn [nodes reg inst tqs next replace_instance replace_first]; unfold upd.
  - reflexivity.
  - neqb. reflexivity.
  - repeat constructor; cbn [In]; intuition lia.
  - repeat (apply Forall_cons; [lia|]). apply Forall_nil.
  - neqb. reflexivity.
  - neqb. first [reflexivity|eassumption].
  - neqb. first [reflexivity|eassumption].
  - repeat (apply Forall_cons; [neqb; cbn [t_sc]; lia|]). apply Forall_nil.
  - neqb. cbn [t_sc]. lia.
Qed.

Lemma flipflop_step cs s c0 i1 c2 i2 ix tl tx t1 t2 f1 f2 : (forall t, cs t = false) ->
  flipflop s c0 i1 c2 i2 ix tl tx t1 t2 f1 f2 ->
  exists s' i1' i2' ix' tl' tx' t1' t2', is_converged std_map cs s = Rewritten s' /\
    flipflop s' c0 i1' c2 i2' ix' tl' tx' t1' t2' f1 f2.
Proof.
  intros Hc F. unfold is_converged. rewrite first_misaligned_two_branch by apply F.
  rewrite (flipflop_aligned1 _ _ _ _ _ _ _ _ _ _ _ _ F), (flipflop_aligned2 _ _ _ _ _ _ _ _ _ _ _ _ F).
  unfold tq_matches.
  destruct (flipflop_align1 cs _ _ _ _ _ _ _ _ _ _ _ _ Hc F) as (s1 & a1 & a2 & a3 & a4 & a5 & a6 & a7 & E1 & F1).
  destruct (flipflop_align2 cs _ _ _ _ _ _ _ _ _ _ _ _ Hc F) as (s2 & b1 & b2 & b3 & b4 & b5 & b6 & b7 & E2 & F2).
  destruct (Nat.eqb_spec (t_sc (tqs s t1)) (t_sc (tqs s tx))) as [Q1|Q1]; cbn [andb];
    [destruct (Nat.eqb (t_isc (tqs s t1)) (t_isc (tqs s tx)))|].
  - destruct (Nat.eqb_spec (t_sc (tqs s t2)) (t_sc (tqs s tx))) as [Q2|Q2]; cbn [andb].
    + destruct (ff_bad _ _ _ _ _ _ _ _ _ _ _ _ F); congruence.
    + rewrite E2. exists s2, b1, b2, b3, b4, b5, b6, b7. auto.
  - rewrite E1. exists s1, a1, a2, a3, a4, a5, a6, a7. auto.
  - rewrite E1. exists s1, a1, a2, a3, a4, a5, a6, a7. auto.
Qed.

Lemma flipflop_never cs : (forall t, cs t = false) -> forall iters s c0 i1 c2 i2 ix tl tx t1 t2 f1 f2,
  flipflop s c0 i1 c2 i2 ix tl tx t1 t2 f1 f2 -> residual_handler std_map cs iters s = None.
Proof.
  intros Hc. induction iters as [|k IH]; intros s c0 i1 c2 i2 ix tl tx t1 t2 f1 f2 F;
    destruct (flipflop_step cs _ _ _ _ _ _ _ _ _ _ _ _ Hc F) as (s' & a1 & a2 & a3 & a4 & a5 & a6 & a7 & E & F');
    cbn [residual_handler]; rewrite E; [reflexivity|]. destruct k; [reflexivity|]. eapply IH, F'.
Qed.

(** quantize() on this network raises whatever the iteration limit: aligning one addition gives the
    shared operand a new quantizer and so misaligns the other. *)
Theorem C78_shared_skip_operand_never_aligns iters :
  quantize_front std_map std_acts (fun _ => false) iters two_branch = None.
Proof.
  unfold quantize_front.
  destruct (add_output_quant_handler std_map (act_handler std_acts (inp_placeholder_handler std_map two_branch)))
    as [s|] eqn:E; [|reflexivity].
  apply (flipflop_never (fun _ => false) (fun _ => eq_refl) iters s 0 14 2 16 11 [(MOut 5, 18); (MOut 6, 20)] 10 13 15 200 200).
  vm_compute in E. injection E as <-. constructor; try reflexivity.
  - repeat constructor; cbn [In]; intuition discriminate.
  - repeat constructor.
  - cbn. repeat constructor.
  - left. cbn. discriminate.
Qed.

(** A single branch of the same network is aligned after two iterations. *)
Example C78_single_branch_aligns :
  exists s', quantize_front std_map std_acts (fun _ => false) 2 skip_graph = Some s'.
Proof. vm_compute. eexists. reflexivity. Qed.

(** ** C77 example: the hypotheses of [C77_quantize_aligns_additions_and_concats] hold of the
    residual graph and its conclusion is about a real addition. *)
Example C77_example :
  traced skip_graph /\ map_bw 8 std_map /\
  (forall f sg b, std_acts f = Some (sg, b) -> b = 8%Z) /\ uniform_bw 8 skip_graph /\
  exists s' o, quantize_front std_map std_acts (fun _ => false) 9 skip_graph = Some s' /\
    find_node (nodes s') 3 = Some o /\ is_add o = true /\ length (ins_of o) = 2.
Proof.
  split; [apply C79_example|]. split; [split; reflexivity|]. split; [|split].
  - intros f sg b. unfold std_acts. repeat (destruct (_ =? _); [intros H; injection H as <- <-; reflexivity|]). try discriminate.
  - intros k. reflexivity.
  - destruct (quantize_front std_map std_acts (fun _ => false) 9 skip_graph) as [s'|] eqn:E;
      [|vm_compute in E; discriminate E].
    vm_compute in E. injection E as <-. do 2 eexists. split; [reflexivity|]. split; [reflexivity|]. split; reflexivity.
Qed.

Print Assumptions C77_quantize_aligns_additions_and_concats.
Print Assumptions C77_residual_handler_result_aligned.
Print Assumptions C77_mixed_bit_widths_refuted.
Print Assumptions C78_transpose_method_operand_never_aligns.
Print Assumptions C78_shared_skip_operand_never_aligns.
