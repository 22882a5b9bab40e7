(** Property C111: element-wise addition, concatenation and embedding layers. *)
From Coq Require Import String.
From Verif Require Import QUtil Ops OpsProofs IntQuant IntQuantProofs IntQuantProps QuantTensor QuantTensorProps IOLayers.
Open Scope Q_scope.

(** ** Specification *)
Definition valid (q : actq) : Prop := 0 < a_scale q /\ (2 <= a_bw q)%Z /\ a_mode q = Round.
Definition lowest (q : actq) : Q := denote (a_scale q) (a_zp q) (range_lo (a_signed q) (a_narrow q) (a_bw q)).
Definition highest (q : actq) : Q := denote (a_scale q) (a_zp q) (range_hi (a_signed q) (a_narrow q) (a_bw q)).
(** [x] keeps a distance of [d] from the ends of the range, up to half a step. *)
Definition inside (q : actq) (d x : Q) : Prop :=
  lowest q - a_scale q * (1 # 2) + d <= x /\ x <= highest q + a_scale q * (1 # 2) - d.
Definition within (e : Q) (u v : list Q) : Prop := Forall2 (fun x y => Qabs (x - y) <= e) u v.
Fixpoint sums (u v : list Q) : list Q := match u, v with x :: u', y :: v' => x + y :: sums u' v' | _, _ => [] end.

(** ** Lemmas *)
Lemma map2_sums u v : map2 Qplus u v = sums u v.
Proof. unfold map2. revert v. induction u as [|x u IH]; intros [|y v]; cbn; auto. f_equal. apply IH. Qed.
Lemma quant_err q x : valid q -> inside q 0 x ->
  Qabs (int_quant (cfg (a_signed q) (a_narrow q) (a_mode q)) (a_scale q) (inject_Z (a_zp q)) (a_bw q) x - x) <= a_scale q * (1 # 2).
Proof.
  intros (S & B & M) (A & C). rewrite M. apply C03_half_step; auto; [lia| |]; unfold lowest, highest in *; lra.
Qed.
Definition codes (q : actq) (v : list Q) : list Z :=
  map (code (a_signed q) (a_narrow q) (float_to_intZ (a_mode q)) (a_scale q) (a_zp q) (a_bw q)) v.
Lemma narrow_in_full sg nr b k : in_range sg nr b k -> in_range sg false b k.
Proof. unfold in_range, range_lo, range_hi. destruct sg, nr; lia. Qed.
Lemma quantized_stands tr q v : 0 < a_scale q -> (1 <= a_bw q)%Z -> stands_for (quantized tr q v) (codes q v).
Proof.
  intros S B. unfold stands_for, quantized, codes. cbn [qt_scale qt_zp qt_value qt_bw qt_signed]. split; [exact S|]. split.
  - unfold int_quant_tensor. induction v as [|x v IH]; cbn [map]; constructor; auto. rewrite cfg_quant. reflexivity.
  - apply Forall_forall. intros k Hk. apply in_map_iff in Hk as (x & <- & _). apply (narrow_in_full _ (a_narrow q)), code_in_range, B.
Qed.
Lemma quantized_range q v : (1 <= a_bw q)%Z -> Forall (in_range (a_signed q) (a_narrow q) (a_bw q)) (codes q v).
Proof. intros B. apply Forall_forall. intros k Hk. apply in_map_iff in Hk as (x & <- & _). apply code_in_range, B. Qed.
Lemma quantized_err tr q v : valid q -> Forall (inside q 0) v -> within (a_scale q * (1 # 2)) (qt_value (quantized tr q v)) v.
Proof.
  intros V F. unfold quantized, int_quant_tensor. cbn [qt_value]. induction F as [|x v H F IH]; cbn [map]; constructor; auto. apply quant_err; auto.
Qed.
Lemma within_sums e u v u' v' : within e u u' -> within e v v' -> length u = length v -> within (2 * e) (sums u v) (sums u' v').
Proof.
  intros H. revert v v'. induction H as [|x y u u' E H IH]; intros v v' G L; destruct G as [|a b v v' E' G]; try discriminate; cbn [sums]; [constructor|].
  constructor; [|apply IH; auto]. apply Qabs_le_iff in E, E'. apply Qabs_le_iff. lra.
Qed.
Lemma within_len e u v : within e u v -> length u = length v.
Proof. induction 1; cbn; auto. Qed.
Lemma within_trans e d u v w : within e u v -> within d v w -> within (e + d) u w.
Proof.
  intros H. revert w. induction H as [|x y u v E H IH]; intros w G; inversion G; subst; constructor; [|apply IH; assumption].
  apply Qabs_le_iff in E. match goal with h : Qabs (y - _) <= d |- _ => apply Qabs_le_iff in h end. apply Qabs_le_iff. lra.
Qed.
Lemma inside_near q e u v : within e u v -> Forall (inside q e) v -> Forall (inside q 0) u.
Proof.
  intros H. induction H as [|x y u v E H IH]; intros F; inversion F; subst; constructor; auto.
  apply Qabs_le_iff in E. unfold inside in *. lra.
Qed.
Lemma add_same tr q a b : 0 < a_scale q -> exists r, add (quantized tr q a) (quantized tr q b) = Some r /\
  qt_value r = map2 Qplus (qt_value (quantized tr q a)) (qt_value (quantized tr q b)) /\ qt_scale r == a_scale q /\ qt_zp r == 2 * inject_Z (a_zp q) /\ qt_signed r = a_signed q.
Proof.
  intros S. unfold add. assert (C : check_scale (quantized tr q a) (quantized tr q b) = true).
  { unfold check_scale, allclose, quantized. cbn [qt_training qt_scale]. destruct tr; auto. apply Qle_bool_iff.
    assert (E : a_scale q - a_scale q == 0) by lra. rewrite E. pose proof (Qabs_nonneg (a_scale q)). change (Qabs 0) with 0. lra. }
  rewrite C. eexists. split; [reflexivity|]. cbn [quantized qt_value qt_scale qt_zp qt_signed].
  split; [reflexivity|]. split; [field|]. split; [lra|]. apply orb_diag.
Qed.

(** ** Theorems *)

(** With input and output quantizers: inputs inside the input range whose sum keeps a distance of
    one input step from the ends of the output range are added with an error of at most one input
    step and half an output step; a quantized result consists of codes of the output quantizer. *)
Theorem C111_add : forall tr rq qi qo x y, valid qi -> valid qo ->
  length (op_value x) = length (op_value y) ->
  Forall (inside qi 0) (op_value x) -> Forall (inside qi 0) (op_value y) ->
  Forall (inside qo (a_scale qi)) (sums (op_value x) (op_value y)) ->
  exists r, eltwise_add tr (L (Some qi) (Some qo) rq) x y = Some r /\
    within (a_scale qi + a_scale qo * (1 # 2)) (value r) (sums (op_value x) (op_value y)) /\
    (rq = true -> exists t ks, r = TQ t /\ stands_for t ks /\ Forall (in_range (a_signed qo) (a_narrow qo) (a_bw qo)) ks /\
       qt_scale t = a_scale qo /\ qt_zp t = inject_Z (a_zp qo) /\ qt_bw t = a_bw qo /\ qt_signed t = a_signed qo) /\
    (rq = false -> exists v, r = TP v).
Proof.
  intros tr rq qi qo x y Vi Vo Lxy Fx Fy Fs. unfold eltwise_add. cbn [l_in l_out l_return_qt in_quant plus].
  set (vx := op_value x) in *. set (vy := op_value y) in *. clearbody vx vy. clear x y.
  destruct (add_same tr qi vx vy (proj1 Vi)) as (t & E & Ev & _). rewrite E. cbn [act_quant value].
  pose proof (quantized_err tr qi vx Vi Fx) as Wx. pose proof (quantized_err tr qi vy Vi Fy) as Wy.
  assert (W : within (a_scale qi) (qt_value t) (sums vx vy)).
  { rewrite Ev, map2_sums. pose proof (within_sums _ _ _ _ _ Wx Wy) as W. rewrite (within_len _ _ _ Wx), (within_len _ _ _ Wy) in W. specialize (W Lxy).
    clear -W. induction W; constructor; auto. lra. }
  assert (W2 : within (a_scale qo * (1 # 2)) (qt_value (quantized tr qo (qt_value t))) (qt_value t)).
  { apply quantized_err; auto. eapply inside_near; eauto. }
  assert (W3 : within (a_scale qi + a_scale qo * (1 # 2)) (qt_value (quantized tr qo (qt_value t))) (sums vx vy)).
  { pose proof (within_trans _ _ _ _ _ W2 W) as H. clear -H. induction H; constructor; auto. lra. }
  destruct Vo as (So & Bo & Mo). destruct rq; cbn [pack_output]; eexists; (split; [reflexivity|]); (split; [exact W3|]); split; try discriminate; intros _.
  - exists (quantized tr qo (qt_value t)), (codes qo (qt_value t)). split; [reflexivity|].
    split; [apply quantized_stands; auto; lia|]. split; [apply quantized_range; lia|]. repeat split; reflexivity.
  - eexists. reflexivity.
Qed.

(** With an input quantizer only: the sum is within one step, and a quantized result stands for
    the sums of the codes of the two inputs. *)
Theorem C111_add_no_output : forall tr rq qi x y, valid qi ->
  length (op_value x) = length (op_value y) ->
  Forall (inside qi 0) (op_value x) -> Forall (inside qi 0) (op_value y) ->
  exists r, eltwise_add tr (L (Some qi) None rq) x y = Some r /\
    within (a_scale qi) (value r) (sums (op_value x) (op_value y)) /\
    (rq = true -> exists t kx ky, r = TQ t /\ stands_for t (map2 Z.add kx ky) /\
       within (a_scale qi * (1 # 2)) (map (denote (a_scale qi) (a_zp qi)) kx) (op_value x) /\
       within (a_scale qi * (1 # 2)) (map (denote (a_scale qi) (a_zp qi)) ky) (op_value y) /\
       qt_scale t == a_scale qi /\ qt_zp t == 2 * inject_Z (a_zp qi) /\ qt_signed t = a_signed qi).
Proof.
  intros tr rq qi x y Vi Lxy Fx Fy. unfold eltwise_add. cbn [l_in l_out l_return_qt in_quant plus].
  set (vx := op_value x) in *. set (vy := op_value y) in *. clearbody vx vy. clear x y.
  destruct (add_same tr qi vx vy (proj1 Vi)) as (t & E & Ev & Es & Ez & Eg). rewrite E. cbn [act_quant].
  pose proof (quantized_err tr qi vx Vi Fx) as Wx. pose proof (quantized_err tr qi vy Vi Fy) as Wy.
  assert (W : within (a_scale qi) (qt_value t) (sums vx vy)).
  { rewrite Ev, map2_sums. pose proof (within_sums _ _ _ _ _ Wx Wy) as W. rewrite (within_len _ _ _ Wx), (within_len _ _ _ Wy) in W. specialize (W Lxy).
    clear -W. induction W; constructor; auto. lra. }
  destruct Vi as (Si & Bi & Mi). destruct rq; cbn [pack_output]; eexists; (split; [reflexivity|]); (split; [exact W|]); [|discriminate]. intros _.
  destruct (C16_sum_fits (quantized tr qi vx) (quantized tr qi vy) (codes qi vx) (codes qi vy)) as (t' & E' & St & _);
    try (apply quantized_stands; auto; lia); auto; try reflexivity. rewrite E in E'. assert (t = t') by congruence. subst t'.
  exists t, (codes qi vx), (codes qi vy). split; [reflexivity|]. split; [exact St|].
  assert (D : forall v, map (denote (a_scale qi) (a_zp qi)) (codes qi v) = qt_value (quantized tr qi v)).
  { intros v. unfold codes, quantized, int_quant_tensor. cbn [qt_value]. rewrite map_map. apply map_ext. intros u. rewrite cfg_quant. reflexivity. }
  rewrite !D. auto.
Qed.

(** With an input quantizer, the order of the operands does not matter. *)
Theorem C111_add_commutes : forall tr rq q out x y,
  0 < a_scale q -> (forall qo, out = Some qo -> 0 < a_scale qo) ->
  exists r r', eltwise_add tr (L (Some q) out rq) x y = Some r /\ eltwise_add tr (L (Some q) out rq) y x = Some r' /\
    Forall2 Qeq (value r) (value r').
Proof.
  intros tr rq q out x y Sq So. unfold eltwise_add. cbn [l_in l_out l_return_qt in_quant plus].
  set (vx := op_value x) in *. set (vy := op_value y) in *. clearbody vx vy. clear x y.
  destruct (add_same tr q vx vy Sq) as (t & E & Ev & _). destruct (add_same tr q vy vx Sq) as (t' & E' & Ev' & _). rewrite E, E'.
  assert (C : Forall2 Qeq (qt_value t) (qt_value t')).
  { rewrite Ev, Ev', !map2_sums. generalize (qt_value (quantized tr q vx)) (qt_value (quantized tr q vy)). clear. intros l.
    induction l as [|a l IH]; intros [|b m]; cbn [sums]; try constructor; [apply Qplus_comm|apply IH]. }
  destruct out as [qo|]; cbn [act_quant value].
  - assert (C2 : Forall2 Qeq (qt_value (quantized tr qo (qt_value t))) (qt_value (quantized tr qo (qt_value t')))).
    { unfold quantized, int_quant_tensor. cbn [qt_value]. clear -C. induction C as [|a b u v H C IH]; cbn [map]; constructor; auto.
      rewrite !cfg_quant. rewrite (code_eq _ _ _ _ _ _ (mode_rounding (a_mode qo)) _ _ H). reflexivity. }
    destruct rq; cbn [pack_output]; do 2 eexists; (split; [reflexivity|]); (split; [reflexivity|exact C2]).
  - destruct rq; cbn [pack_output]; do 2 eexists; (split; [reflexivity|]); (split; [reflexivity|exact C]).
Qed.

(** Without quantizers: plain tensors are added exactly, and a quantized result cannot be
    returned; quantized tensors are refused exactly when the left one is in evaluation mode and
    the scales differ by more than the tolerance. *)
Theorem C111_add_unquantized : forall tr rq u v s t,
  (eltwise_add tr (L None None false) (OPlain u) (OPlain v) = Some (TP (sums u v))) /\
  (eltwise_add tr (L None None true) (OPlain u) (OPlain v) = None) /\
  (eltwise_add tr (L None None rq) (OQuant s) (OQuant t) = None <->
     qt_training s = false /\ (1 # 100000000) + (1 # 100000) * Qabs (qt_scale t) < Qabs (qt_scale s - qt_scale t)).
Proof.
  intros tr rq u v s t. unfold eltwise_add. cbn [l_in l_out l_return_qt in_quant plus act_quant pack_output].
  split; [now rewrite map2_sums|]. split; [reflexivity|]. unfold add, check_scale, allclose. destruct (qt_training s).
  - split; [|intros (H & _); discriminate]. destruct rq; cbn; discriminate.
  - destruct (Qle_bool (Qabs (qt_scale s - qt_scale t)) ((1 # 100000000) + (1 # 100000) * Qabs (qt_scale t))) eqn:B.
    + split; [destruct rq; cbn; discriminate|]. intros (_ & H). apply Qle_bool_iff in B. lra.
    + split; [|reflexivity]. intros _. split; [reflexivity|]. apply Qle_bool_false in B. exact B.
Qed.

(** QuantCat always raises; so does building either layer with tied quantizers. *)
Theorem C111_unusable : forall tr l ts qi qo rq, quant_cat tr l ts = None /\ io_init qi qo true rq = None.
Proof. intros. split; reflexivity. Qed.

(** Embedding: which calls return. *)
Lemma lookup_some norm m rows idx : (exists out, lookup norm m rows idx = Some out) <-> Forall (fun i => (i < length rows)%nat) idx.
Proof.
  split.
  - intros (out & E). revert out E. induction idx as [|i idx IH]; intros out E; constructor; cbn [lookup] in E;
      destruct (nth_error rows i) eqn:N; try discriminate; destruct (lookup norm m rows idx) eqn:K; try discriminate.
    + apply nth_error_Some. congruence.
    + eapply IH. reflexivity.
  - intros F. induction F as [|i idx H F (out & E)]; cbn [lookup]; [eauto|]. rewrite E.
    apply nth_error_Some in H. destruct (nth_error rows i); [eauto|congruence].
Qed.
Theorem C111_embedding_returns : forall norm m rq w idx,
  (exists out, embedding norm m rq w idx = Some out) <->
  Forall (fun i => (i < length (w_rows w))%nat) idx /\
  match w with WInt _ ss zs _ _ _ => length ss = 1%nat /\ length zs = 1%nat | _ => rq = false end.
Proof.
  intros norm m rq w idx. rewrite <- (lookup_some norm m). unfold embedding, embedding_fn.
  destruct (lookup norm m (w_rows w) idx) as [out|].
  2:{ split; [intros (o & H); discriminate|intros ((o & H) & _); discriminate]. }
  destruct w as [rows|rows ss zs bw sg tr|rows].
  - destruct rq; split; eauto; [intros (o & H)|intros (_ & H)]; discriminate.
  - destruct ss as [|s [|s2 ss]]; [| |].
    + split; [intros (o & H); discriminate|]. intros (_ & H & _). discriminate.
    + destruct zs as [|z [|z2 zs]]; split; try (intros (o & H); discriminate); try (intros (_ & _ & H); discriminate); eauto.
    + split; [intros (o & H); discriminate|]. intros (_ & H & _). discriminate.
  - destruct rq; split; eauto; [intros (o & H)|intros (_ & H)]; discriminate.
Qed.

(** Without max_norm the output of a per-tensor quantized embedding stands for the rows of codes
    that were looked up, with the metadata of the weight. *)
Definition rows_stand (s z : Q) (bw : Z) (sg : bool) (rows : list (list Q)) (ks : list (list Z)) : Prop :=
  Forall2 (fun r k => Forall2 (fun v c => v == (inject_Z c - z) * s) r k /\ Forall (in_range sg false bw) k) rows ks.
Theorem C111_embedding : forall norm rows ks s z bw sg tr idx, rows_stand s z bw sg rows ks ->
  Forall (fun i => (i < length rows)%nat) idx ->
  exists out, embedding norm None true (WInt rows [s] [z] bw sg tr) idx = Some (EQ out s z bw sg tr) /\
    embedding norm None false (WInt rows [s] [z] bw sg tr) idx = Some (EP out) /\
    rows_stand s z bw sg out (map (fun i => nth i ks []) idx).
Proof.
  intros norm rows ks s z bw sg tr idx R F. destruct (proj2 (lookup_some norm None rows idx) F) as (out & E). exists out.
  unfold embedding, embedding_fn. cbn [w_rows]. rewrite E. split; [reflexivity|]. split; [reflexivity|].
  clear F. revert out E. induction idx as [|i idx IH]; intros out E; cbn [lookup] in E; [injection E as <-; constructor|].
  destruct (nth_error rows i) as [r|] eqn:N; [|discriminate]. destruct (lookup norm None rows idx) as [rs|]; [|discriminate].
  change (renorm norm None r) with r in E. assert (out = r :: rs) by congruence. subst out. cbn [map]. constructor; [|apply IH; reflexivity].
  clear -R N. revert i N. induction R as [|r0 k0 rows ks H R IH]; intros [|i] N; try discriminate; cbn [nth_error nth] in *; [congruence|eauto].
Qed.

(** ** Expectations that fail *)

(** Without an input quantizer the operands cannot be swapped: a plain left operand gives a plain
    sum, and the check of the scales looks at the left operand's training flag only. *)
Definition iq (s : Q) (v : list Q) (tr : bool) : iqt :=
  {| qt_value := v; qt_scale := s; qt_zp := 0; qt_bw := 8%Z; qt_signed := true; qt_training := tr |}.
Theorem C111_add_swapped_refuted :
  (exists l x y r, eltwise_add false l x y = Some r /\ eltwise_add false l y x = None) /\
  (exists l s t r, eltwise_add false l (OQuant s) (OQuant t) = Some r /\ eltwise_add false l (OQuant t) (OQuant s) = None).
Proof.
  split.
  - exists (L None None true), (OQuant (iq 1 [3] false)), (OPlain [4]). eexists. split; [reflexivity|reflexivity].
  - exists (L None None true), (iq 1 [3] true), (iq 2 [4] false). eexists. split; [reflexivity|reflexivity].
Qed.

(** With max_norm the returned quantized tensor is off its own grid. *)
Theorem C111_max_norm_refuted : exists norm m rows s z bw sg tr idx out ks,
  rows_stand s z bw sg rows ks /\ embedding norm m true (WInt rows [s] [z] bw sg tr) idx = Some (EQ out s z bw sg tr) /\
  forall ks', ~ rows_stand s z bw sg out ks'.
Proof.
  exists (fun r => Qsum (map Qabs r)), (Some 1), [[3; 1]], 1, 0, 8%Z, true, false, [0%nat]. eexists. exists [[3; 1]%Z].
  split.
  - repeat constructor; unfold in_range; cbn; lia.
  - split; [vm_compute; reflexivity|]. intros ks' R. inversion R as [|r k rs kk (H & _) _]; subst. inversion H as [|v c vs cs E _]; subst.
    unfold Qeq in E. cbn in E. lia.
Qed.

(** ** Examples *)
Definition q8 : actq := AQ true false Round (1 # 10) 0 8.
Definition q8o : actq := AQ true false Round (1 # 4) 0 8.
Example C111_ex_valid : valid q8 /\ valid q8o /\ Forall (inside q8 0) [(31 # 100); -2] /\ Forall (inside q8o (1 # 10)) (sums [(31 # 100); -2] [1; 5]).
Proof.
  unfold valid, inside, lowest, highest, denote, q8, q8o. cbn [a_scale a_zp a_bw a_signed a_narrow a_mode sums].
  repeat split; try lia; repeat constructor; vm_compute; discriminate.
Qed.
Example C111_ex_add : exists v, eltwise_add false (L (Some q8) (Some q8o) false) (OPlain [(31 # 100); -2]) (OPlain [1; 5]) = Some (TP v)
  /\ Forall2 Qeq v [5 # 4; 3].
Proof. eexists. split; [vm_compute; reflexivity|]. repeat constructor. Qed.
Example C111_ex_rows : rows_stand (1 # 2) 0 8 true [[1; 3 # 2]; [-2; 0]] [[2; 3]; [-4; 0]]%Z /\ Forall (fun i => (i < 2)%nat) [1; 0; 1]%nat.
Proof. split; repeat constructor; unfold in_range; cbn; lia. Qed.
Example C111_ex_embedding : embedding (fun _ => 0) None true (WInt [[1; 3 # 2]; [-2; 0]] [1 # 2] [0] 8 true false) [1; 0; 1]%nat
  = Some (EQ [[-2; 0]; [1; 3 # 2]; [-2; 0]] (1 # 2) 0 8 true false)
  /\ embedding (fun _ => 0) None false (WInt [[1; 3 # 2]; [-2; 0]] [1 # 2; 1 # 2] [0] 8 true false) [1]%nat = None.
Proof. split; reflexivity. Qed.

Print Assumptions C111_add.
Print Assumptions C111_add_no_output.
Print Assumptions C111_add_commutes.
Print Assumptions C111_add_unquantized.
Print Assumptions C111_unusable.
Print Assumptions C111_embedding_returns.
Print Assumptions C111_embedding.
Print Assumptions C111_add_swapped_refuted.
Print Assumptions C111_max_norm_refuted.
