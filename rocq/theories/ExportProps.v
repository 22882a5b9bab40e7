(** C32 (activation export), C33 (weight and bias export), C55 (inference handlers). *)
From Verif Require Import QUtil Ops OpsProofs IntQuant IntQuantProofs IntQuantProps QuantTensor QuantTensorProps
  Minifloat MinifloatProofs MinifloatProps Log2Q Export.
Open Scope Q_scope.

(** The bit widths each target accepts. *)
Definition exportable (t : target) (signed : bool) (b : Z) : Prop :=
  (2 <= b)%Z /\ ((b <= 8)%Z \/ (t = TorchQCDQ /\ signed = true /\ (b <= 32)%Z)).

(** [x] lies exactly half-way between two grid points. *)
Definition half_way (s x : Q) : Prop := exists n, x / s == inject_Z n + (1 # 2).

Lemma satZ_clamp lo hi n : (lo <= hi)%Z -> satZ lo hi n = clampZ n lo hi.
Proof. intros H. rewrite clampZ_spec by exact H. unfold satZ. lia. Qed.

(** Rounding before or after adding an integer agree off the ties, and for even integers. *)
Lemma round_shift_off_tie y z : (forall n, ~ y == inject_Z n + (1 # 2)) ->
  roundZ (y + inject_Z z) = (roundZ y + z)%Z.
Proof.
  intros H. symmetry. destruct (roundZ_spec y) as [R _]. apply Qabs_Qle_condition in R.
  apply round_he_unique.
  - apply Qabs_Qle_condition. rewrite inject_Z_plus. lra.
  - intros E. exfalso. rewrite inject_Z_plus in E.
    destruct (Qabs_cases (inject_Z (roundZ y) + inject_Z z - (y + inject_Z z))) as [[? U]|[? U]]; rewrite U in E.
    + apply (H (roundZ y - 1)%Z). unfold Z.sub. rewrite inject_Z_plus. change (inject_Z (- (1))) with (-1). lra.
    + apply (H (roundZ y)). lra.
Qed.

Lemma round_shift_cases y z : (forall n, ~ y == inject_Z n + (1 # 2)) \/ Z.even z = true ->
  roundZ (y + inject_Z z) = (roundZ y + z)%Z.
Proof. intros [H|H]; [apply round_shift_off_tie, H|apply roundZ_shift, H]. Qed.

(** In every case the two differ by at most one. *)
Lemma round_shift_close y z : (Z.abs (roundZ (y + inject_Z z) - (roundZ y + z)) <= 1)%Z.
Proof.
  pose proof (roundZ_err y) as A. pose proof (roundZ_err (y + inject_Z z)) as B.
  set (p := roundZ (y + inject_Z z)) in *. set (q := roundZ y) in *. clearbody p q.
  assert (U : inject_Z p - inject_Z q - inject_Z z <= 1) by lra.
  assert (V : -1 <= inject_Z p - inject_Z q - inject_Z z) by lra.
  unfold Qminus in U, V. rewrite <- !inject_Z_opp, <- !inject_Z_plus in U, V.
  change 1 with (inject_Z 1) in U. change (-1) with (inject_Z (-1)) in V.
  rewrite <- Zle_Qle in U, V. lia.
Qed.

(** The storage type covers the range of the quantizer. *)
Lemma range_in_dtype t sg nr b d : exportable t sg b -> signed_dtype b sg = Some d ->
  (dt_min d <= range_lo sg nr b /\ range_lo sg nr b <= range_hi sg nr b /\ range_hi sg nr b <= dt_max d)%Z.
Proof.
  intros [Hb Hw] Hd. unfold signed_dtype in Hd.
  assert (P : (2 <= 2 ^ (b - 1))%Z) by (change 2%Z with (2 ^ 1)%Z at 1; apply Z.pow_le_mono_r; lia).
  assert (P' : (2 ^ b = 2 * 2 ^ (b - 1))%Z) by (replace b with (Z.succ (b - 1)) at 1 by lia; apply Z.pow_succ_r; lia).
  destruct (Z.leb_spec b 8) as [L|L].
  - assert (U : (2 ^ (b - 1) <= 128)%Z) by (change 128%Z with (2 ^ 7)%Z; apply Z.pow_le_mono_r; lia).
    destruct sg; cbn [andb negb] in Hd; injection Hd as <-;
      destruct nr; unfold range_lo, range_hi, dt_min, dt_max; lia.
  - destruct Hw as [Hw|(_ & -> & Hw)]; [lia|].
    rewrite (proj2 (Z.ltb_lt 8 b)) in Hd by lia. cbn [andb negb] in Hd. injection Hd as <-.
    assert (U : (2 ^ (b - 1) <= 2 ^ 31)%Z) by (apply Z.pow_le_mono_r; lia).
    destruct nr; unfold range_lo, range_hi, dt_min, dt_max; lia.
Qed.

Lemma dtype_fits d n : (dt_min d <= n <= dt_max d)%Z -> cast d n = n.
Proof. intros H. apply cast_fits. destruct d; unfold fits, dt_min, dt_max in *; lia. Qed.

Lemma signed_dtype_defined t sg b : exportable t sg b -> exists d, signed_dtype b sg = Some d.
Proof.
  intros [Hb Hw]. unfold signed_dtype. destruct (Z.leb_spec b 8) as [L|L].
  - destruct sg; cbn [andb negb]; eauto.
  - destruct Hw as [Hw|(_ & -> & Hw)]; [lia|]. rewrite (proj2 (Z.ltb_lt 8 b)) by lia. cbn. eauto.
Qed.

(** The clip node that is emitted is exactly the range of the quantizer; when none is
    emitted the storage type has exactly that range. *)
Lemma clip_cases t sg nr b d : exportable t sg b -> signed_dtype b sg = Some d ->
  int_clip_kwargs nr sg b = Some (Some (range_lo sg nr b, range_hi sg nr b)) \/
  (int_clip_kwargs nr sg b = Some None /\ nr = false /\ (b = 8 \/ b = 32)%Z).
Proof.
  intros HE Hd. pose proof (range_in_dtype t sg nr b d HE Hd) as R. pose proof HE as [Hb Hw].
  unfold int_clip_kwargs. destruct (nr || _) eqn:C.
  - left. rewrite min_int_spec, max_int_spec.
    assert (D : (if sg && ((b <? 8)%Z || nr && (b <=? 8)%Z) then Some Int8
      else if negb sg && ((b <? 8)%Z || nr && (b <=? 8)%Z) then Some UInt8
      else if sg && ((b <? 32)%Z || nr && (b <=? 32)%Z) then Some Int32 else None) = Some d).
    { unfold signed_dtype in Hd. revert Hd C.
      destruct (Z.leb_spec b 8), (Z.ltb_spec b 8), (Z.ltb_spec b 32), (Z.leb_spec b 32), (Z.ltb_spec 8 b),
        (Z.eqb_spec b 8), (Z.eqb_spec b 32); try lia; destruct sg, nr; cbn; intros Hd C;
        try discriminate; try exact Hd; exfalso;
        destruct Hw as [?|(? & ? & ?)]; try lia; try discriminate. }
    rewrite D. rewrite !dtype_fits by lia. reflexivity.
  - right. apply orb_false_iff in C. destruct C as [-> C].
    split; [reflexivity|split; [reflexivity|]].
    destruct (Z.eqb_spec b 8); [left; assumption|]. destruct (Z.eqb_spec b 32); [right; assumption|discriminate].
Qed.

Lemma clip_range t sg nr b d n : exportable t sg b -> signed_dtype b sg = Some d ->
  exists clip, int_clip_kwargs nr sg b = Some clip /\
   apply_clip clip (satZ (dt_min d) (dt_max d) n) = clampZ n (range_lo sg nr b) (range_hi sg nr b).
Proof.
  intros HE Hd. pose proof (range_in_dtype t sg nr b d HE Hd) as R.
  destruct (clip_cases t sg nr b d HE Hd) as [C|(C & -> & Hb)]; rewrite C; eexists; (split; [reflexivity|]); cbn [apply_clip].
  - rewrite <- satZ_clamp by lia. unfold satZ. lia.
  - rewrite satZ_clamp by lia. f_equal.
    + destruct Hb as [-> | ->]; destruct sg; cbn in Hd; try discriminate; injection Hd as <-; reflexivity.
    + destruct Hb as [-> | ->]; destruct sg; cbn in Hd; try discriminate; injection Hd as <-; reflexivity.
Qed.

Lemma zp_ok t sg nr b d zp : exportable t sg b -> signed_dtype b sg = Some d ->
  in_range sg nr b zp -> zero_point_with_dtype sg b zp = Some zp.
Proof.
  intros HE Hd [Z1 Z2]. pose proof (range_in_dtype t sg nr b d HE Hd) as R.
  unfold zero_point_with_dtype. unfold signed_dtype in Hd.
  destruct (Z.leb_spec b 8) as [L|L]; destruct sg; cbn [andb negb] in *.
  - injection Hd as <-. rewrite dtype_fits by lia. reflexivity.
  - rewrite (proj2 (Z.ltb_ge zp 0)) by (destruct nr; cbn in Z1; lia).
    rewrite (proj2 (Z.ltb_ge 8 b)) by lia. injection Hd as <-. rewrite dtype_fits by lia. reflexivity.
  - rewrite (proj2 (Z.ltb_lt 8 b)) in Hd by lia. injection Hd as <-. rewrite dtype_fits by lia. reflexivity.
  - discriminate.
Qed.

(** ** C32 *)

(** The value computed by the exported graph, in integer terms. *)
Lemma qcdq_act_value t sg nr b s zp x :
  exportable t sg b -> 0 < s -> in_range sg nr b zp -> (0 <= zp)%Z ->
  qcdq_act t sg nr Round b s zp x
  = Some (denote s zp (clampZ (roundZ (x / s) + zp) (range_lo sg nr b) (range_hi sg nr b))).
Proof.
  intros HE Hs Hz Hz0. pose proof HE as [Hb Hw].
  destruct (signed_dtype_defined t sg b HE) as (d & Hd).
  destruct (clip_range t sg nr b d (roundZ (x / s) + zp) HE Hd) as (clip & Hc & Ec).
  unfold qcdq_act.
  assert (V : validate t true b Round = true).
  { unfold validate. rewrite (proj2 (Z.ltb_lt 1 b)) by lia. destruct t; [reflexivity|].
    destruct Hw as [Hw|(Hw & _)]; [|discriminate]. rewrite (proj2 (Z.leb_le b 8)) by lia. reflexivity. }
  rewrite V, (zp_ok t sg nr b d zp HE Hd Hz), Hd, Hc.
  assert (A : assert_ge_zero s zp b = true).
  { unfold assert_ge_zero. rewrite (proj2 (Qle_bool_iff 0 s)) by lra.
    rewrite (proj2 (Z.leb_le 0 zp)), (proj2 (Z.leb_le 0 b)) by lia. reflexivity. }
  rewrite A. unfold dequantize_linear, quantize_linear. rewrite Ec. reflexivity.
Qed.

Lemma int_quant_value sg nr s z b x :
  int_quant (cfg sg nr Round) s (inject_Z z) b x
  = denote s z (clampZ (roundZ (x / s + inject_Z z)) (range_lo sg nr b) (range_hi sg nr b)).
Proof. rewrite cfg_quant. unfold code, denote. rewrite min_int_spec, max_int_spec. reflexivity. Qed.

(** The exported activation quantizer computes the fake-quantized value, except possibly on
    exact half-way points with an odd zero point. *)
Theorem C32_export_equals_fake_quant t sg nr b s zp x :
  exportable t sg b -> 0 < s -> in_range sg nr b zp -> (0 <= zp)%Z ->
  Z.even zp = true \/ ~ half_way s x ->
  exists y, qcdq_act t sg nr Round b s zp x = Some y /\
            y == int_quant (cfg sg nr Round) s (inject_Z zp) b x.
Proof.
  intros HE Hs Hz Hz0 Ht. eexists. split; [apply qcdq_act_value; assumption|].
  rewrite int_quant_value. rewrite round_shift_cases; [reflexivity|].
  destruct Ht as [Ht|Ht]; [right; exact Ht|left]. intros n Hn. apply Ht. exists n. exact Hn.
Qed.

(** In particular for symmetric quantization, without any condition on the input. *)
Corollary C32_symmetric t sg nr b s x :
  exportable t sg b -> 0 < s ->
  exists y, qcdq_act t sg nr Round b s 0 x = Some y /\
            y == int_quant (cfg sg nr Round) s 0 b x.
Proof.
  intros HE Hs. apply (C32_export_equals_fake_quant t sg nr b s 0 x HE Hs); [|lia|left; reflexivity].
  pose proof (min_max_int sg nr b) as M. rewrite min_int_spec, max_int_spec in M.
  destruct HE. apply M. lia.
Qed.

(** On the remaining inputs the two differ by at most one step. *)
Theorem C32_within_one_step t sg nr b s zp x :
  exportable t sg b -> 0 < s -> in_range sg nr b zp -> (0 <= zp)%Z ->
  exists y, qcdq_act t sg nr Round b s zp x = Some y /\
            Qabs (y - int_quant (cfg sg nr Round) s (inject_Z zp) b x) <= s.
Proof.
  intros HE Hs Hz Hz0. eexists. split; [apply qcdq_act_value; assumption|].
  rewrite int_quant_value. pose proof (round_shift_close (x / s) zp) as C.
  assert (R : (range_lo sg nr b <= range_hi sg nr b)%Z) by (destruct Hz; lia).
  rewrite !clampZ_spec by exact R.
  set (p := Z.max (range_lo sg nr b) (Z.min (roundZ (x / s) + zp) (range_hi sg nr b))) in *.
  set (q := Z.max (range_lo sg nr b) (Z.min (roundZ (x / s + inject_Z zp)) (range_hi sg nr b))) in *.
  assert (D : (Z.abs (p - q) <= 1)%Z) by lia. clearbody p q.
  unfold denote.
  assert (E : (inject_Z p - inject_Z zp) * s - (inject_Z q - inject_Z zp) * s == inject_Z (p - q) * s).
  { unfold Z.sub. rewrite inject_Z_plus, inject_Z_opp. ring. }
  rewrite E, Qabs_Qmult, (Qabs_pos s) by lra.
  change (Qabs (inject_Z (p - q))) with (inject_Z (Z.abs (p - q))).
  rewrite <- (Qmult_1_l s) at 2. apply Qmult_le_compat_r; [|lra].
  change 1 with (inject_Z 1). apply injz_le. exact D.
Qed.

(** Finding: with an odd zero point a half-way input is exported differently:
    0.5 with zero point 1 gives 1 in the library and 0 in the exported graph. *)
Theorem C32_odd_zero_point_tie_refuted :
  exists b s zp x y, exportable OnnxQCDQ false b /\ 0 < s /\ in_range false false b zp /\ (0 <= zp)%Z /\
    qcdq_act OnnxQCDQ false false Round b s zp x = Some y /\
    ~ y == int_quant (cfg false false Round) s (inject_Z zp) b x.
Proof.
  exists 8%Z, 1, 1%Z, (1 # 2). eexists.
  split; [split; [lia|left; lia]|]. split; [lra|]. split; [vm_compute; split; discriminate|]. split; [lia|].
  split; [reflexivity|]. vm_compute. discriminate.
Qed.

(** Finding: a signed quantizer with a negative zero point cannot be exported at all. *)
Theorem C32_negative_zero_point_rejected t nr b s zp x :
  exportable t true b -> 0 < s -> in_range true nr b zp -> (zp < 0)%Z ->
  qcdq_act t true nr Round b s zp x = None.
Proof.
  intros HE Hs Hz Hz0. destruct (signed_dtype_defined t true b HE) as (d & Hd).
  unfold qcdq_act. destruct (validate t true b Round); [|reflexivity].
  rewrite (zp_ok t true nr b d zp HE Hd Hz), Hd. destruct (int_clip_kwargs nr true b); [|reflexivity].
  unfold assert_ge_zero. rewrite (proj2 (Z.leb_gt 0 zp)) by lia. rewrite andb_false_r. reflexivity.
Qed.

(** A clip node is omitted only when the storage type enforces exactly the range. *)
Theorem C32_clip_omitted_only_if_enforced t sg nr b d :
  exportable t sg b -> signed_dtype b sg = Some d ->
  int_clip_kwargs nr sg b = Some None ->
  dt_min d = range_lo sg nr b /\ dt_max d = range_hi sg nr b.
Proof.
  intros HE Hd H. destruct (clip_cases t sg nr b d HE Hd) as [C|(C & -> & Hb)]; [congruence|].
  destruct Hb as [-> | ->]; destruct sg; cbn in Hd; try discriminate; injection Hd as <-; split; reflexivity.
Qed.

(** Unsupported configurations are rejected rather than exported wrongly. *)
Theorem C32_unsupported_rejected t sg nr b s zp x :
  ~ exportable t sg b -> qcdq_act t sg nr Round b s zp x = None.
Proof.
  intros HN. unfold qcdq_act, validate.
  destruct (Z.ltb_spec 1 b) as [L|L]; [|reflexivity]. cbn [andb].
  destruct (Z.leb_spec b 8) as [L8|L8].
  { exfalso. apply HN. split; [lia|left; lia]. }
  destruct t; [|reflexivity]. cbn [andb].
  destruct sg.
  - destruct (Z_le_gt_dec b 32) as [L32|L32].
    { exfalso. apply HN. split; [lia|right]. repeat split. lia. }
    assert (C : int_clip_kwargs nr true b = None).
    { unfold int_clip_kwargs. rewrite (proj2 (Z.eqb_neq b 8)), (proj2 (Z.eqb_neq b 32)) by lia.
      rewrite orb_true_r. rewrite (proj2 (Z.ltb_ge b 8)), (proj2 (Z.leb_gt b 8)), (proj2 (Z.ltb_ge b 32)), (proj2 (Z.leb_gt b 32)) by lia.
      rewrite andb_false_r. reflexivity. }
    rewrite C. destruct (zero_point_with_dtype true b zp); [|reflexivity].
    destruct (signed_dtype b true); reflexivity.
  - unfold signed_dtype. rewrite (proj2 (Z.leb_gt b 8)) by lia. cbn [andb negb].
    destruct (zero_point_with_dtype false b zp); reflexivity.
Qed.

(** So are activations with any rounding other than to nearest, whatever the rest of the configuration;
    this is needed: the exported node always rounds to nearest. *)
Theorem C32_other_rounding_rejected t sg nr m b s zp x :
  m <> Round -> qcdq_act t sg nr m b s zp x = None.
Proof.
  intros HM. unfold qcdq_act, validate. destruct (1 <? b)%Z; [|reflexivity].
  destruct m; try reflexivity. congruence.
Qed.

Example ex_act_export :
  exportable OnnxQCDQ true 4 /\ in_range true true 4 2 /\
  exists y, qcdq_act OnnxQCDQ true true Round 4 (1 # 10) 2 (23 # 100) = Some y /\ y == 2 # 10.
Proof. split; [split; [lia|left; lia]|]. split; [vm_compute; split; discriminate|]. eexists. split; [reflexivity|]. reflexivity. Qed.

(** ** C33 *)

(** A parameter quantized by the library: values, scale, zero point, width, sign. *)
Definition fake_quantized (sg nr : bool) (m : rmode) (b : Z) (s : Q) (zp : Z) (ws : list Q) : iqt :=
  {| qt_value := map (int_quant (cfg sg nr m) s (inject_Z zp) b) ws; qt_scale := s; qt_zp := inject_Z zp;
     qt_bw := b; qt_signed := sg; qt_training := false |}.

Lemma fake_codes sg nr m b s zp ws : (1 <= b)%Z -> 0 < s ->
  exists ks, stands_for (fake_quantized sg nr m b s zp ws) ks /\ Forall (in_range sg nr b) ks.
Proof.
  intros Hb Hs. exists (map (code sg nr (float_to_intZ m) s zp b) ws).
  assert (R : Forall (in_range sg nr b) (map (code sg nr (float_to_intZ m) s zp b) ws)).
  { apply Forall_forall. intros k Hk. apply in_map_iff in Hk. destruct Hk as (x & <- & _).
    apply code_in_range, Hb. }
  split; [|exact R]. split; [exact Hs|]. split.
  - cbn [fake_quantized qt_value qt_zp qt_scale]. induction ws as [|w ws IH]; cbn [map]; constructor.
    + rewrite cfg_quant. reflexivity.
    + apply IH. inversion R; assumption.
  - eapply Forall_impl; [|exact R]. intros k [K1 K2]. cbn [fake_quantized qt_signed qt_bw]. unfold in_range in *.
    destruct sg, nr; unfold range_lo, range_hi in *; lia.
Qed.

(** Exported integer weights, clipped and dequantized, give the fake-quantized weights, for
    every rounding mode of the weight quantizer. *)
Theorem C33_weights t sg nr m b s zp ws :
  exportable t sg b -> 0 < s -> in_range sg nr b zp -> (0 <= zp)%Z ->
  let w := fake_quantized sg nr m b s zp ws in
  exists ys, qcdq_weight t nr m w zp = Some ys /\ Forall2 Qeq ys (qt_value w).
Proof.
  intros HE Hs Hz Hz0 w. pose proof HE as [Hb Hw].
  destruct (fake_codes sg nr m b s zp ws ltac:(lia) Hs) as (ks & St & Rk). fold w in St.
  destruct (C18_int_view_round_trips w ks St) as (d & Hi & _ & Hv).
  { subst w; cbn [fake_quantized qt_bw]. lia. }
  { subst w; cbn [fake_quantized qt_bw qt_signed]. destruct Hw as [?|(_ & Hsg & ?)]; [destruct sg; lia|rewrite Hsg; lia]. }
  destruct (signed_dtype_defined t sg b HE) as (dd & Hd).
  unfold qcdq_weight. change (qt_bw w) with b. change (qt_signed w) with sg. change (qt_scale w) with s in *.
  change (qt_zp w) with (inject_Z zp) in *.
  assert (V : validate t false b m = true).
  { unfold validate. rewrite (proj2 (Z.ltb_lt 1 b)) by lia. destruct t; [reflexivity|].
    destruct Hw as [Hw|(Hw & _)]; [|discriminate]. rewrite (proj2 (Z.leb_le b 8)) by lia. reflexivity. }
  rewrite V, Hi, (zp_ok t sg nr b dd zp HE Hd Hz).
  assert (A : assert_ge_zero s zp b = true).
  { unfold assert_ge_zero. rewrite (proj2 (Qle_bool_iff 0 s)) by lra.
    rewrite (proj2 (Z.leb_le 0 zp)), (proj2 (Z.leb_le 0 b)) by lia. reflexivity. }
  assert (G : forall clip, (clip = None \/ clip = Some (range_lo sg nr b, range_hi sg nr b)) ->
     Forall2 Qeq (map (fun q => dequantize_linear s zp (apply_clip clip q)) ks) (qt_value w)).
  { intros clip Hc. clear -Hc Hv Rk. revert Rk Hv. generalize (qt_value w). intros vs Rk Hv.
    induction Hv as [|v k vs ks E _ IH]; cbn [map]; [constructor|].
    inversion Rk as [|? ? [K1 K2] Rk']; subst. constructor; [|apply IH, Rk'].
    unfold dequantize_linear.
    assert (Ek : apply_clip clip k = k).
    { destruct Hc as [-> | ->]; cbn [apply_clip]; [reflexivity|]. unfold satZ. lia. }
    rewrite Ek, E. reflexivity. }
  destruct (clip_cases t sg nr b dd HE Hd) as [C|(C & _)]; rewrite C, A; eexists; (split; [reflexivity|]);
    apply G; auto.
Qed.

(** Exported integer biases dequantized with the scale they were quantized with. *)
Theorem C33_bias nr b s zp bs run_scale :
  (2 <= b <= 32)%Z -> 0 < s -> in_range true nr b zp -> run_scale == s ->
  let bq := fake_quantized true nr Round b s zp bs in
  exists ys, qcdq_bias Round bq run_scale zp = Some ys /\ Forall2 Qeq ys (qt_value bq).
Proof.
  intros Hb Hs Hz Hr bq.
  destruct (fake_codes true nr Round b s zp bs ltac:(lia) Hs) as (ks & St & Rk). fold bq in St.
  destruct (C18_int_view_round_trips bq ks St) as (d & Hi & _ & Hv).
  { subst bq; cbn [fake_quantized qt_bw]. lia. }
  { subst bq; cbn [fake_quantized qt_bw qt_signed]. lia. }
  unfold qcdq_bias. change (qt_bw bq) with b. change (qt_signed bq) with true. rewrite Hi.
  change (qt_scale bq) with s in *. change (qt_zp bq) with (inject_Z zp) in *.
  rewrite (proj2 (Z.ltb_lt 1 b)) by lia. cbn [andb].
  assert (HE : exportable TorchQCDQ true b) by (split; [lia|right; repeat split; lia]).
  destruct (signed_dtype_defined _ _ _ HE) as (dd & Hd). rewrite (zp_ok _ _ _ _ _ _ HE Hd Hz).
  eexists. split; [reflexivity|].
  clear -Hv Hr. revert Hv. generalize (qt_value bq). intros vs Hv.
  induction Hv as [|v k vs ks E _ IH]; cbn [map]; constructor; [|exact IH].
  unfold dequantize_linear. rewrite Hr, E. reflexivity.
Qed.

(** If the bias is later run with another scale, the exported integers are rescaled rather
    than re-quantized: the exported value is the fake-quantized one times the ratio. *)
Theorem C33_bias_other_scale nr b s zp bs run_scale :
  (2 <= b <= 32)%Z -> 0 < s -> in_range true nr b zp ->
  let bq := fake_quantized true nr Round b s zp bs in
  exists ys, qcdq_bias Round bq run_scale zp = Some ys /\
             Forall2 (fun y v => y == v * (run_scale / s)) ys (qt_value bq).
Proof.
  intros Hb Hs Hz bq.
  destruct (fake_codes true nr Round b s zp bs ltac:(lia) Hs) as (ks & St & Rk). fold bq in St.
  destruct (C18_int_view_round_trips bq ks St) as (d & Hi & _ & Hv).
  { subst bq; cbn [fake_quantized qt_bw]. lia. }
  { subst bq; cbn [fake_quantized qt_bw qt_signed]. lia. }
  unfold qcdq_bias. change (qt_bw bq) with b. change (qt_signed bq) with true. rewrite Hi.
  change (qt_scale bq) with s in *. change (qt_zp bq) with (inject_Z zp) in *.
  rewrite (proj2 (Z.ltb_lt 1 b)) by lia. cbn [andb].
  assert (HE : exportable TorchQCDQ true b) by (split; [lia|right; repeat split; lia]).
  destruct (signed_dtype_defined _ _ _ HE) as (dd & Hd). rewrite (zp_ok _ _ _ _ _ _ HE Hd Hz).
  eexists. split; [reflexivity|].
  clear -Hv Hs. revert Hv. generalize (qt_value bq). intros vs Hv.
  induction Hv as [|v k vs ks E _ IH]; cbn [map]; constructor; [|exact IH].
  unfold dequantize_linear. rewrite E. field. apply Qpos_neq0, Hs.
Qed.

Example ex_weight_export :
  exists ys, qcdq_weight OnnxQCDQ true Floor (fake_quantized true true Floor 4 (1 # 10) 0 [23 # 100; - (9 # 1)]) 0 = Some ys
   /\ Forall2 Qeq ys [2 # 10; - (7 # 10)].
Proof. eexists. split; [reflexivity|]. repeat constructor. Qed.

(** ** C55 *)

Lemma torch_clamp_spec x lo hi : lo <= hi -> torch_clamp x lo hi == tensor_clamp x lo hi.
Proof.
  intros H. unfold torch_clamp, torch_min, torch_max, tensor_clamp. repeat qcase; lra.
Qed.

(** The integer inference handler computes exactly the round-to-nearest fake quantizer. *)
Theorem C55_int_handler sg nr b s zp x : (1 <= b)%Z ->
  int_inference sg nr b s zp x == int_quant (cfg sg nr Round) s zp b x.
Proof.
  intros Hb. unfold int_inference, int_quant, to_int. cbn [cfg iq_signed iq_narrow iq_f2i].
  unfold float_to_int; cbn [float_to_intZ].
  rewrite torch_clamp_spec; [reflexivity|]. apply injz_le.
  pose proof (min_max_int sg nr b Hb). lia.
Qed.

(** A cached weight is used verbatim; if it was produced by the same quantizer, the handler
    agrees with it (the handler never changes the value of a quantized weight). *)
Theorem C55_weight_handler sg nr b s zp x cached : (1 <= b)%Z ->
  (forall v, cached = Some v -> v == int_quant (cfg sg nr Round) s zp b x) ->
  int_weight_inference cached sg nr b s zp x == int_quant (cfg sg nr Round) s zp b x.
Proof.
  intros Hb Hc. unfold int_weight_inference. destruct cached as [v|]; [apply Hc; reflexivity|].
  apply C55_int_handler, Hb.
Qed.

(** Finding: the handler always rounds to nearest, so a quantizer configured with FLOOR
    computes a different value. *)
Theorem C55_other_rounding_refuted :
  exists s x, 0 < s /\ ~ int_inference true false 8 s 0 x == int_quant (cfg true false Floor) s 0 8 x.
Proof. exists 1, (7 # 10). split; [lra|]. vm_compute. discriminate. Qed.

(** The floating-point handler agrees with the saturating minifloat quantizer when no code
    is reserved (the limit is the all-ones value). *)
Theorem C55_float_handler c eps x scale :
  fmt_ok c -> fsat c = true -> largest c == max_float (fe c) (fm c) (fbias c) ->
  exists y y', float_inference c eps x scale = Some (Fin y) /\
               float_quant c false eps x scale = Some (Fin y') /\ y == y'.
Proof.
  intros H S L. pose proof (max_value_largest c H) as E.
  unfold float_inference, float_quant, float_clamp. rewrite S. cbn [float_dequantize].
  eexists. eexists. split; [reflexivity|]. split; [reflexivity|].
  set (q := float_quantize c eps x scale). apply Qmult_comp; [|reflexivity].
  unfold tensor_clamp. destruct (fsigned c); repeat qcase; try lra.
Qed.

(** Finding: with reserved codes (OCP E4M3, largest value 448) the handler saturates at 480. *)
Theorem C55_reserved_codes_refuted :
  exists x y y', float_inference e4m3 tiny32 x 1 = Some (Fin y) /\
    float_quant e4m3 false tiny32 x 1 = Some (Fin y') /\ y == 480 /\ y' == 448.
Proof.
  exists 1000. eexists. eexists. split; [reflexivity|]. split; [reflexivity|].
  split; vm_compute; reflexivity.
Qed.

(** Finding: without saturation, the handler decides about overflow on the unscaled input:
    a value within range after scaling is turned into infinity, and one far out of range
    after scaling stays finite. *)
Definition e5m2ns : fcfg :=
  FCfg 5 2 15 true false (Some [[false; false]]) (Some [[false; true]; [true; true]; [true; false]]) (Some 57344) Round.

Theorem C55_unscaled_masks_refuted :
  exists x s, 0 < s /\ float_inference e5m2ns tiny32 x s = Some PInf /\
    (exists y, float_quant e5m2ns false tiny32 x s = Some (Fin y) /\ y == x) /\
  exists x' s' y', 0 < s' /\ float_inference e5m2ns tiny32 x' s' = Some (Fin y') /\
    float_quant e5m2ns false tiny32 x' s' = Some PInf.
Proof.
  exists (inject_Z (2 ^ 20)), (inject_Z (2 ^ 10)). split; [reflexivity|].
  split; [vm_compute; reflexivity|]. split; [eexists; split; [vm_compute; reflexivity|reflexivity]|].
  exists 1, (1 # 1000000). eexists. split; [reflexivity|]. split; vm_compute; reflexivity.
Qed.

Example ex_e5m2ns_ok : fmt_ok e5m2ns.
Proof.
  split; [cbn; lia|split; [cbn; lia|]]. cbn [fmax_avail e5m2ns fe fm fbias].
  split; [exists 123%Z; split; [cbn; lia|left; vm_compute; reflexivity]|lra].
Qed.
(** A format without reserved codes satisfies the hypotheses of [C55_float_handler]. *)
Definition e3m2 : fcfg := FCfg 3 2 3 true true None None None Round.
Example ex_e3m2 : fmt_ok e3m2 /\ largest e3m2 == max_float (fe e3m2) (fm e3m2) (fbias e3m2) /\ largest e3m2 == 28.
Proof. split; [split; [cbn; lia|split; [cbn; lia|exact I]]|]. split; vm_compute; reflexivity. Qed.

Print Assumptions C32_export_equals_fake_quant.
Print Assumptions C32_symmetric.
Print Assumptions C32_within_one_step.
Print Assumptions C32_odd_zero_point_tie_refuted.
Print Assumptions C32_negative_zero_point_rejected.
Print Assumptions C32_clip_omitted_only_if_enforced.
Print Assumptions C32_unsupported_rejected.
Print Assumptions C32_other_rounding_rejected.
Print Assumptions C33_weights.
Print Assumptions C33_bias.
Print Assumptions C33_bias_other_scale.
Print Assumptions C55_int_handler.
Print Assumptions C55_weight_handler.
Print Assumptions C55_other_rounding_refuted.
Print Assumptions C55_float_handler.
Print Assumptions C55_reserved_codes_refuted.
Print Assumptions C55_unscaled_masks_refuted.
