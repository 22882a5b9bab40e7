(** C34 (truncation), C35 (average pooling through integer sums), C44 (adaptive to plain
    average pooling), C58 (average pooling as a depthwise convolution). *)
From Verif Require Import QUtil Log2Q Ops OpsProofs IntQuant IntQuantProofs IntQuantProps QuantTensor QuantTensorProps
  Linear LinearProps Export ExportProps Trunc.
Open Scope Q_scope.

(** ** C34 *)

(** The integer produced by truncation. *)
Lemma trunc_code m s zp bi bo k x : 0 < s -> x == denote s zp k ->
  trunc_int_quant m s (inject_Z zp) bi bo x == denote s zp (float_to_intZ m (inject_Z k / pow2 (bi - bo))).
Proof.
  intros Hs Hx. unfold trunc_int_quant. cbn zeta.
  assert (E : roundZ (x / s + inject_Z zp) = k).
  { rewrite <- (roundZ_int k). apply roundZ_eq. rewrite Hx. unfold denote.
    rewrite Qdiv_mul_cancel by lra. ring. }
  rewrite E. reflexivity.
Qed.

Theorem C34_truncates_the_code : forall m s zp in_bw out_bw k x,
  0 < s -> x == denote s zp k ->
  exists q, trunc_int_quant m s (inject_Z zp) in_bw out_bw x == denote s zp q
    /\ Qabs (inject_Z q * pow2 (in_bw - out_bw) - inject_Z k) < pow2 (in_bw - out_bw).
Proof.
  intros m s zp bi bo k x Hs Hx. exists (float_to_intZ m (inject_Z k / pow2 (bi - bo))).
  split; [apply trunc_code; assumption|].
  pose proof (pow2_pos (bi - bo)) as P.
  pose proof (rounding_error _ (mode_rounding m) (inject_Z k / pow2 (bi - bo))) as R.
  set (q := float_to_intZ m _) in *. clearbody q. set (t := pow2 (bi - bo)) in *. clearbody t.
  setoid_replace (inject_Z q * t - inject_Z k) with ((inject_Z q - inject_Z k / t) * t) by (field; lra).
  rewrite Qabs_mul_pos by exact P. nra.
Qed.

Lemma floor_div_pow2 k d : (0 <= d)%Z -> floorZ (inject_Z k / pow2 d) = Z.shiftr k d.
Proof.
  intros Hd. rewrite Z.shiftr_div_pow2 by exact Hd. unfold floorZ.
  assert (P : (0 < 2 ^ d)%Z) by (apply Z.pow_pos_nonneg; lia).
  pose proof (Z.div_mod k (2 ^ d) ltac:(lia)) as D. pose proof (Z.mod_pos_bound k (2 ^ d) P) as M.
  apply injz_lt in P as PQ. change (inject_Z 0) with 0 in PQ.
  assert (B1 : inject_Z (2 ^ d * (k / 2 ^ d)) <= inject_Z k) by (apply injz_le; lia).
  assert (B2 : inject_Z k < inject_Z (2 ^ d * (k / 2 ^ d + 1))) by (apply injz_lt; lia).
  rewrite inject_Z_mult in B1, B2. rewrite inject_Z_plus in B2. change (inject_Z 1) with 1 in B2.
  assert (E : inject_Z k / pow2 d == inject_Z k / inject_Z (2 ^ d)) by (rewrite pow2_nonneg_Z by exact Hd; reflexivity).
  apply Qfloor_unique; rewrite E.
  - apply Qle_shift_div_l; [exact PQ|]. lra.
  - apply Qlt_shift_div_r; [exact PQ|]. lra.
Qed.

(** Without zero point and with the floor mode, truncation is an arithmetic right shift, and
    the result fits the output width for every code that fits the input width. *)
Theorem C34_floor_is_right_shift : forall signed s in_bw out_bw k x,
  0 < s -> x == inject_Z k * s -> (1 <= out_bw <= in_bw)%Z ->
  trunc_int_quant Floor s 0 in_bw out_bw x == inject_Z (Z.shiftr k (in_bw - out_bw)) * s
  /\ (in_range signed false in_bw k -> in_range signed false out_bw (Z.shiftr k (in_bw - out_bw))).
Proof.
  intros sg s bi bo k x Hs Hx Hb. split.
  - assert (E : x == denote s 0 k) by (rewrite Hx; unfold denote; change (inject_Z 0) with 0; ring).
    change 0 with (inject_Z 0). rewrite (trunc_code Floor s 0 bi bo k x Hs E). cbn [float_to_intZ].
    rewrite floor_div_pow2 by lia. unfold denote. change (inject_Z 0) with 0. ring.
  - rewrite Z.shiftr_div_pow2 by lia. unfold in_range.
    assert (P : (0 < 2 ^ (bi - bo))%Z) by (apply Z.pow_pos_nonneg; lia).
    assert (E1 : (2 ^ bi = 2 ^ (bi - bo) * 2 ^ bo)%Z) by (rewrite <- Z.pow_add_r by lia; f_equal; lia).
    assert (E2 : (2 ^ (bi - 1) = 2 ^ (bi - bo) * 2 ^ (bo - 1))%Z) by (rewrite <- Z.pow_add_r by lia; f_equal; lia).
    set (p := (2 ^ (bi - bo))%Z) in *. clearbody p.
    destruct sg; cbn [range_lo range_hi]; rewrite ?E1, ?E2; intros [L U].
    + split; [apply Z.div_le_lower_bound; lia|].
      assert (k / p < 2 ^ (bo - 1))%Z by (apply Z.div_lt_upper_bound; lia). lia.
    + split; [apply Z.div_le_lower_bound; lia|].
      assert (k / p < 2 ^ bo)%Z by (apply Z.div_lt_upper_bound; lia). lia.
Qed.

(** The rounding modes that may round up exceed the output range by at most one, and only
    at the top. *)
Theorem C34_other_modes_at_most_one_over : forall m signed s in_bw out_bw k x,
  0 < s -> x == inject_Z k * s -> (1 <= out_bw <= in_bw)%Z -> in_range signed false in_bw k ->
  exists q, trunc_int_quant m s 0 in_bw out_bw x == inject_Z q * s
    /\ (range_lo signed false out_bw <= q <= range_hi signed false out_bw + 1)%Z
    /\ (k + 2 ^ (in_bw - out_bw) <= range_hi signed false in_bw + 1 -> in_range signed false out_bw q)%Z.
Proof.
  intros m sg s bi bo k x Hs Hx Hb Hk.
  assert (E : x == denote s 0 k) by (rewrite Hx; unfold denote; change (inject_Z 0) with 0; ring).
  exists (float_to_intZ m (inject_Z k / pow2 (bi - bo))). split.
  { change 0 with (inject_Z 0). rewrite (trunc_code m s 0 bi bo k x Hs E).
    unfold denote. change (inject_Z 0) with 0. ring. }
  assert (P : (0 < 2 ^ (bi - bo))%Z) by (apply Z.pow_pos_nonneg; lia).
  assert (E1 : (2 ^ bi = 2 ^ (bi - bo) * 2 ^ bo)%Z) by (rewrite <- Z.pow_add_r by lia; f_equal; lia).
  assert (E2 : (2 ^ (bi - 1) = 2 ^ (bi - bo) * 2 ^ (bo - 1))%Z) by (rewrite <- Z.pow_add_r by lia; f_equal; lia).
  pose proof (pow2_nonneg_Z (bi - bo) ltac:(lia)) as EP.
  set (p := (2 ^ (bi - bo))%Z) in *. clearbody p.
  apply injz_lt in P as PQ. change (inject_Z 0) with 0 in PQ.
  assert (LO : (range_lo sg false bi = p * range_lo sg false bo)%Z) by (destruct sg; cbn [range_lo]; lia).
  assert (HI : (range_hi sg false bi + 1 = p * (range_hi sg false bo + 1))%Z) by (destruct sg; cbn [range_hi]; lia).
  unfold in_range in *.
  assert (GE : (range_lo sg false bo <= float_to_intZ m (inject_Z k / pow2 (bi - bo)))%Z).
  { apply rounding_ge_int; [apply mode_rounding|]. rewrite EP. apply Qle_shift_div_l; [exact PQ|].
    rewrite <- inject_Z_mult. apply injz_le. lia. }
  assert (LE : forall n, (k <= p * n)%Z -> (float_to_intZ m (inject_Z k / pow2 (bi - bo)) <= n)%Z).
  { intros n Hn. apply rounding_le_int; [apply mode_rounding|]. rewrite EP. apply Qle_shift_div_r; [exact PQ|].
    rewrite <- inject_Z_mult. apply injz_le. lia. }
  split; [split; [exact GE|]|].
  - apply LE. lia.
  - intros Hk'. split; [exact GE|]. apply LE. nia.
Qed.

(** The default mode of the truncation quantizers (round) does exceed the output range:
    the signed code 127 truncated from 8 to 4 bits becomes 8. *)
Theorem C34_round_overflow_refuted :
  exists s in_bw out_bw k, 0 < s /\ (1 <= out_bw <= in_bw)%Z /\ in_range true false in_bw k
    /\ exists q, trunc_int_quant Round s 0 in_bw out_bw (inject_Z k * s) == inject_Z q * s
         /\ ~ in_range true false out_bw q.
Proof.
  exists 1, 8%Z, 4%Z, 127%Z. repeat split; try lra; try lia; try (vm_compute; discriminate).
  exists 8%Z. split; [vm_compute; reflexivity|]. intros [_ H]. vm_compute in H. apply H. reflexivity.
Qed.

(** With a zero point the offset is not rescaled: a zero input does not stay zero. *)
Theorem C34_zero_point_refuted :
  exists m s zp in_bw out_bw x, 0 < s /\ (1 <= out_bw <= in_bw)%Z /\ in_range false false in_bw zp
    /\ x == 0 /\ ~ trunc_int_quant m s (inject_Z zp) in_bw out_bw x == 0.
Proof.
  exists Round, 1, 128%Z, 8%Z, 4%Z, 0. repeat split; try lra; try lia; try (vm_compute; discriminate).
Qed.

(** Export: with no zero point the QCDQ graph computes the truncated code saturated to the
    output range. *)
Theorem C34_export_saturates : forall t signed s in_bw out_bw k x,
  0 < s -> x == inject_Z k * s -> (2 <= out_bw <= 8)%Z ->
  exists y q, qcdq_trunc t signed Round s 0 in_bw out_bw x = Some y
    /\ trunc_int_quant Round s 0 in_bw out_bw x == inject_Z q * s
    /\ y == inject_Z (Z.max (range_lo signed false out_bw) (Z.min q (range_hi signed false out_bw))) * s.
Proof.
  intros t sg s bi bo k x Hs Hx Hb.
  assert (E : x == denote s 0 k) by (rewrite Hx; unfold denote; change (inject_Z 0) with 0; ring).
  assert (V : validate t true bo Round = true).
  { unfold validate. rewrite (proj2 (Z.ltb_lt 1 bo)) by lia. destruct t; cbn; [reflexivity|].
    apply Z.leb_le. lia. }
  set (q := roundZ (inject_Z k / pow2 (bi - bo))).
  assert (Q1 : trunc_int_quant Round s 0 bi bo x == inject_Z q * s).
  { change 0 with (inject_Z 0). rewrite (trunc_code Round s 0 bi bo k x Hs E). cbn [float_to_intZ].
    fold q. unfold denote. change (inject_Z 0) with 0. ring. }
  assert (Q2 : roundZ (x / (s * pow2 (bi - bo))) = q).
  { apply roundZ_eq. pose proof (pow2_pos (bi - bo)). rewrite Hx. field. split; lra. }
  unfold qcdq_trunc. rewrite V.
  assert (P : (2 <= 2 ^ (bo - 1) <= 128)%Z).
  { split; [change 2%Z with (2 ^ 1)%Z at 1|change 128%Z with (2 ^ 7)%Z]; apply Z.pow_le_mono_r; lia. }
  pose proof (pow2Z_half bo ltac:(lia)) as P2.
  assert (DQ : forall c, dequantize_linear s 0 c == inject_Z c * s).
  { intros c. unfold dequantize_linear. change (inject_Z 0) with 0. ring. }
  unfold int_clip_kwargs. cbn [orb andb].
  destruct (Z.eq_dec bo 8) as [->|N8].
  - cbn [Z.eqb negb andb Pos.eqb]. exists (dequantize_linear s 0 (apply_clip None (quantize_linear (if sg then Int8 else UInt8) (s * pow2 (bi - 8)) 0 x))), q.
    split; [reflexivity|split; [exact Q1|]]. rewrite DQ. cbn [apply_clip]. unfold quantize_linear. rewrite Q2.
    replace (satZ _ _ _) with (Z.max (range_lo sg false 8) (Z.min q (range_hi sg false 8))); [reflexivity|].
    unfold satZ. destruct sg; cbn [dt_min dt_max range_lo range_hi];
      change (2 ^ (8 - 1))%Z with 128%Z; change (2 ^ 8)%Z with 256%Z; lia.
  - rewrite (proj2 (Z.eqb_neq bo 8)) by lia. rewrite (proj2 (Z.eqb_neq bo 32)) by lia.
    rewrite (proj2 (Z.ltb_lt bo 8)) by lia. cbn [negb andb orb].
    assert (W : forall c, (-128 <= c < 128)%Z -> cast Int8 c = c) by (intros c Hc; apply cast_fits; unfold fits; lia).
    assert (W' : forall c, (0 <= c < 256)%Z -> cast UInt8 c = c) by (intros c Hc; apply cast_fits; unfold fits; lia).
    destruct sg; cbn [andb negb].
    + rewrite min_int_spec, max_int_spec. cbn [range_lo range_hi].
      rewrite !W by lia. do 2 eexists. split; [reflexivity|split; [exact Q1|]]. rewrite DQ. cbn [apply_clip].
      unfold quantize_linear. rewrite Q2.
      replace (satZ _ _ (satZ _ _ _)) with (Z.max (- 2 ^ (bo - 1)) (Z.min q (2 ^ (bo - 1) - 1))); [reflexivity|].
      unfold satZ. cbn [dt_min dt_max]. lia.
    + rewrite min_int_spec, max_int_spec. cbn [range_lo range_hi].
      rewrite !W' by lia. do 2 eexists. split; [reflexivity|split; [exact Q1|]]. rewrite DQ. cbn [apply_clip].
      unfold quantize_linear. rewrite Q2.
      replace (satZ _ _ (satZ _ _ _)) with (Z.max 0 (Z.min q (2 ^ bo - 1))); [reflexivity|].
      unfold satZ. cbn [dt_min dt_max]. lia.
Qed.

(** So the exported graph differs from the layer exactly at the overflowing codes. *)
Theorem C34_export_differs_refuted :
  exists t s in_bw out_bw k, 0 < s /\ in_range true false in_bw k
    /\ exists y, qcdq_trunc t true Round s 0 in_bw out_bw (inject_Z k * s) = Some y
        /\ ~ y == trunc_int_quant Round s 0 in_bw out_bw (inject_Z k * s).
Proof.
  exists TorchQCDQ, 1, 8%Z, 4%Z, 127%Z. split; [lra|]. split; [split; vm_compute; discriminate|].
  eexists. split; [vm_compute; reflexivity|]. vm_compute. discriminate.
Qed.

(** And with a zero point they differ on ordinary codes as well. *)
Theorem C34_export_zero_point_refuted :
  exists s zp in_bw out_bw k, 0 < s /\ in_range false false in_bw zp /\ in_range false false in_bw k
    /\ exists y, qcdq_trunc OnnxQCDQ false Round s zp in_bw out_bw (denote s zp k) = Some y
        /\ ~ y == trunc_int_quant Round s (inject_Z zp) in_bw out_bw (denote s zp k).
Proof.
  exists 1, 2%Z, 8%Z, 4%Z, 130%Z. split; [lra|]. split; [split; vm_compute; discriminate|].
  split; [split; vm_compute; discriminate|].
  eexists. split; [vm_compute; reflexivity|]. vm_compute. discriminate.
Qed.

Example C34_example : trunc_int_quant Floor (1 # 2) 0 10 8 (inject_Z 1001 * (1 # 2)) == inject_Z 250 * (1 # 2)
  /\ trunc_int_quant Round (1 # 2) 0 8 4 (inject_Z (-101) * (1 # 2)) == inject_Z (-6) * (1 # 2)
  /\ qcdq_trunc OnnxQCDQ true Round (1 # 2) 0 8 4 (inject_Z (-101) * (1 # 2)) <> None.
Proof. repeat split; vm_compute; (reflexivity || discriminate). Qed.

Print Assumptions C34_truncates_the_code.
Print Assumptions C34_floor_is_right_shift.
Print Assumptions C34_other_modes_at_most_one_over.
Print Assumptions C34_round_overflow_refuted.
Print Assumptions C34_zero_point_refuted.
Print Assumptions C34_export_saturates.
Print Assumptions C34_export_differs_refuted.
Print Assumptions C34_export_zero_point_refuted.

(** ** C44 *)
Lemma zrange_in a n i : In i (zrange a n) <-> (a <= i < a + n)%Z.
Proof.
  unfold zrange. rewrite in_map_iff. split.
  - intros (j & <- & H). apply in_seq in H. lia.
  - intros H. exists (Z.to_nat (i - a)). split; [lia|]. apply in_seq. lia.
Qed.

Lemma windows_equal inp out (g : bool) : (1 <= inp)%Z -> (1 <= out)%Z -> (inp mod out = 0)%Z -> (g = true -> out = 1%Z) ->
  avg_windows false (PDim inp (inp - inp / out * (out - 1)) (if g then 1%Z else (inp / out)%Z) 0)
  = adaptive_windows (inp, out).
Proof.
  intros Hi Ho Hm Hg. unfold avg_windows, adaptive_windows, pool_out_size. cbn [p_in p_k p_s p_p andb].
  pose proof (Z.div_mod inp out ltac:(lia)) as D. rewrite Hm in D. set (q := (inp / out)%Z) in *. clearbody q.
  assert (Hq : (1 <= q)%Z) by nia. assert (E : inp = (out * q)%Z) by lia. clear D Hm. subst inp.
  assert (S : ((out * q + 2 * 0 - (out * q - q * (out - 1)) + 0) / (if g then 1 else q) + 1 = out)%Z).
  { destruct g; [rewrite (Hg eq_refl); change (1 - 1)%Z with 0%Z; rewrite Z.div_1_r; lia|].
    replace (out * q + 2 * 0 - (out * q - q * (out - 1)) + 0)%Z with ((out - 1) * q)%Z by lia.
    rewrite Z.div_mul by lia. lia. }
  rewrite S. apply map_ext_in. intros i Hi'. apply zrange_in in Hi'.
  replace (i * (out * q))%Z with (i * q * out)%Z by lia. rewrite Z.div_mul by lia.
  replace (- ((i + 1) * (out * q)))%Z with (- ((i + 1) * q) * out)%Z by lia. rewrite Z.div_mul by lia.
  destruct g; [|f_equal; nia]. rewrite (Hg eq_refl) in *. assert (i = 0)%Z by lia. subst i. f_equal; lia.
Qed.

Definition sizes_ok (ios : list (Z * Z)) : Prop := Forall (fun io => (1 <= fst io)%Z /\ (1 <= snd io)%Z) ios.

(** Whenever the pass replaces an adaptive average pooling, the replacement computes the same
    outputs for every input of the recorded size, in any number of spatial dimensions. *)
Theorem C44_replacement_preserves : forall unit_stride ios dims x,
  sizes_ok ios -> adaptive_to_avg unit_stride ios = Some dims ->
  avg_pool false true dims x = adaptive_avg_pool ios x.
Proof.
  intros u ios dims x Hok H. unfold adaptive_to_avg in H.
  match type of H with (if ?c then _ else _) = _ => destruct c eqn:C end; [|discriminate].
  injection H as <-.
  set (g := u && forallb (fun io => (snd io =? 1)%Z) ios).
  assert (Hg : g = true -> Forall (fun io : Z * Z => snd io = 1%Z) ios).
  { unfold g. intros G. apply andb_prop in G. destruct G as [_ G]. rewrite Forall_forall. rewrite forallb_forall in G.
    intros io Hin. apply Z.eqb_eq. exact (G io Hin). }
  clearbody g. unfold avg_pool, adaptive_avg_pool.
  rewrite !map_map. cbn [p_in]. change (map (fun x0 : Z * Z => fst x0) ios) with (map fst ios).
  set (sz := map fst ios). clearbody sz. f_equal. f_equal. apply map_ext_in. intros [inp out] Hin.
  rewrite forallb_forall in C. specialize (C _ Hin). cbn [fst snd] in *. apply Z.eqb_eq in C.
  unfold sizes_ok in Hok. rewrite Forall_forall in Hok. destruct (Hok _ Hin) as [A B]. cbn [fst snd] in A, B.
  apply windows_equal; [exact A|exact B|exact C|].
  intros G. specialize (Hg G). rewrite Forall_forall in Hg. exact (Hg _ Hin).
Qed.

(** It replaces exactly when every input size is a multiple of the output size. *)
Theorem C44_replaces_iff_divisible : forall unit_stride ios,
  sizes_ok ios ->
  ((exists dims, adaptive_to_avg unit_stride ios = Some dims)
   <-> Forall (fun io => exists q, fst io = (snd io * q)%Z) ios).
Proof.
  intros u ios Hok. unfold adaptive_to_avg.
  match goal with |- context [if ?c then _ else _] => destruct c eqn:C end.
  - split; [intros _|intros _; eexists; reflexivity]. rewrite forallb_forall in C. rewrite Forall_forall.
    intros io Hin. specialize (C _ Hin). apply Z.eqb_eq in C. exists (fst io / snd io)%Z.
    unfold sizes_ok in Hok. rewrite Forall_forall in Hok. destruct (Hok _ Hin) as [A B].
    apply Z_div_exact_full_2; [lia|exact C].
  - split; [intros (d & H); discriminate|]. intros H. exfalso. apply not_true_iff_false in C. apply C.
    apply forallb_forall. intros io Hin. apply Z.eqb_eq. rewrite Forall_forall in H. destruct (H _ Hin) as (q & E).
    unfold sizes_ok in Hok. rewrite Forall_forall in Hok. destruct (Hok _ Hin) as [A B].
    rewrite E. rewrite Z.mul_comm. apply Z_mod_mult.
Qed.

(** The divisibility test matters: with the same formulas the windows differ when it fails. *)
Theorem C44_without_test_refuted :
  exists inp out, (1 <= out <= inp)%Z
    /\ avg_windows false (PDim inp (inp - inp / out * (out - 1)) (inp / out)%Z 0) <> adaptive_windows (inp, out).
Proof. exists 10%Z, 4%Z. split; [lia|]. vm_compute. discriminate. Qed.

Example C44_example :
  adaptive_to_avg true [(12, 4); (9, 3)]%Z = Some [PDim 12 3 3 0; PDim 9 3 3 0]
  /\ adaptive_to_avg true [(7, 1); (7, 1)]%Z = Some [PDim 7 7 1 0; PDim 7 7 1 0]
  /\ adaptive_to_avg true [(10, 4)]%Z = None
  /\ sizes_ok [(12, 4); (9, 3)]%Z.
Proof. repeat split; try reflexivity. repeat constructor; cbn; lia. Qed.

Print Assumptions C44_replacement_preserves.
Print Assumptions C44_replaces_iff_divisible.
Print Assumptions C44_without_test_refuted.

(** ** C35 *)

(** Specification: sums over the kh x kw window whose top-left corner is (r, c). *)
Fixpoint Zsum (l : list Z) : Z := match l with [] => 0%Z | a :: l' => (a + Zsum l')%Z end.
Definition window_sum (kx : Z -> Z -> Z) (r c kh kw : Z) : Z :=
  Zsum (map (fun a => Zsum (map (fun b => kx (r + a) (c + b))%Z (zrange 0 kw))) (zrange 0 kh)).
Definition positions (h w kh kw sh sw : Z) : list (Z * Z) :=
  map (fun p => (fst p * sh, snd p * sw)%Z)
      (list_prod (zrange 0 ((h - kh) / sh + 1)) (zrange 0 ((w - kw) / sw + 1))).

Lemma zrange_shift a n : zrange a n = map (fun i => (a + i)%Z) (zrange 0 n).
Proof. unfold zrange. rewrite map_map. apply map_ext. intros i. lia. Qed.

Lemma Qsum_app a b : Qsum (a ++ b) == Qsum a + Qsum b.
Proof. induction a as [|x a IH]; cbn [Qsum app]; [ring|]. rewrite IH. ring. Qed.

Lemma Qsum_flat {A B} (f : B -> Q) (g : A -> list B) l :
  Qsum (map f (flat_map g l)) == Qsum (map (fun a => Qsum (map f (g a))) l).
Proof.
  induction l as [|a l IH]; cbn [flat_map map Qsum]; [reflexivity|].
  rewrite map_app, Qsum_app, IH. reflexivity.
Qed.

Lemma Qsum_ext {A} (f g : A -> Q) l : (forall a, In a l -> f a == g a) -> Qsum (map f l) == Qsum (map g l).
Proof.
  induction l as [|a l IH]; intros H; cbn [map Qsum]; [reflexivity|].
  rewrite (H a) by (left; reflexivity). rewrite IH by (intros; apply H; right; assumption). reflexivity.
Qed.

Lemma Qsum_scaled {A} (k : A -> Z) s l : Qsum (map (fun a => inject_Z (k a) * s) l) == inject_Z (Zsum (map k l)) * s.
Proof.
  induction l as [|a l IH]; cbn [map Qsum Zsum]; [change (inject_Z 0) with 0; ring|].
  rewrite IH, inject_Z_plus. ring.
Qed.

Lemma Zsum_bounds {A} (k : A -> Z) lo hi l : (forall a, In a l -> (lo <= k a <= hi)%Z) ->
  (Z.of_nat (length l) * lo <= Zsum (map k l) <= Z.of_nat (length l) * hi)%Z.
Proof.
  induction l as [|a l IH]; intros H; cbn [map Zsum length]; [lia|].
  pose proof (H a (or_introl eq_refl)). specialize (IH (fun b Hb => H b (or_intror Hb))). nia.
Qed.

Lemma zrange_length a n : (0 <= n)%Z -> Z.of_nat (length (zrange a n)) = n.
Proof. intros H. unfold zrange. rewrite map_length, seq_length. lia. Qed.

Lemma window_sum_bounds kx r c kh kw lo hi : (0 <= kh)%Z -> (0 <= kw)%Z ->
  (forall a b, (0 <= a < kh)%Z -> (0 <= b < kw)%Z -> (lo <= kx (r + a) (c + b) <= hi)%Z) ->
  (kh * kw * lo <= window_sum kx r c kh kw <= kh * kw * hi)%Z.
Proof.
  intros Hh Hw H. unfold window_sum.
  pose proof (Zsum_bounds (fun a => Zsum (map (fun b => kx (r + a) (c + b))%Z (zrange 0 kw))) (kw * lo) (kw * hi) (zrange 0 kh)) as B.
  rewrite zrange_length in B by exact Hh.
  assert (T : (kh * (kw * lo) <= Zsum (map (fun a => Zsum (map (fun b => kx (r + a) (c + b))%Z (zrange 0 kw))) (zrange 0 kh)) <= kh * (kw * hi))%Z).
  { apply B. intros a Ha. apply zrange_in in Ha.
    pose proof (Zsum_bounds (fun b => kx (r + a) (c + b))%Z lo hi (zrange 0 kw)) as B'.
    rewrite zrange_length in B' by exact Hw. apply B'. intros b Hb. apply zrange_in in Hb. apply H; lia. }
  lia.
Qed.

(** The window positions of the pooling model. *)
Lemma windows_0 inp k s : (1 <= k)%Z -> (1 <= s)%Z ->
  avg_windows false (PDim inp k s 0) = map (fun i => (i * s, i * s + k)%Z) (zrange 0 ((inp - k) / s + 1))
  /\ (forall i, In i (zrange 0 ((inp - k) / s + 1)) -> (0 <= i * s /\ i * s + k <= inp)%Z).
Proof.
  intros Hk Hs. unfold avg_windows, pool_out_size. cbn [p_in p_k p_s p_p andb].
  replace (inp + 2 * 0 - k + 0)%Z with (inp - k)%Z by lia.
  assert (B : forall i, In i (zrange 0 ((inp - k) / s + 1)) -> (0 <= i * s /\ i * s + k <= inp)%Z).
  { intros i Hi. apply zrange_in in Hi. pose proof (Z.mul_div_le (inp - k) s ltac:(lia)). nia. }
  split; [|exact B]. apply map_ext_in. intros i Hi. specialize (B i Hi). f_equal; lia.
Qed.

Lemma box_sum_2d h w r c kh kw (x : list Z -> Q) (kx : Z -> Z -> Z) s :
  (0 <= r)%Z -> (r + kh <= h)%Z -> (0 <= c)%Z -> (c + kw <= w)%Z ->
  (forall i j, (0 <= i < h)%Z -> (0 <= j < w)%Z -> x [i; j] == inject_Z (kx i j) * s) ->
  box_sum [h; w] x [(r, (r + kh)%Z); (c, (c + kw)%Z)] == inject_Z (window_sum kx r c kh kw) * s.
Proof.
  intros Hr Hrk Hc Hck Hx. unfold box_sum, box. cbn [map fst snd cart].
  replace (r + kh - r)%Z with kh by lia. replace (c + kw - c)%Z with kw by lia.
  rewrite Qsum_flat. rewrite (zrange_shift r), map_map. unfold window_sum. rewrite <- Qsum_scaled.
  apply Qsum_ext. intros a Ha. apply zrange_in in Ha.
  rewrite map_map, Qsum_flat. rewrite (zrange_shift c), map_map. rewrite <- Qsum_scaled.
  apply Qsum_ext. intros b Hb. apply zrange_in in Hb. cbn [map Qsum].
  unfold get, inside. cbn [combine forallb fst snd].
  rewrite !(proj2 (Z.leb_le _ _)) by lia. rewrite !(proj2 (Z.ltb_lt _ _)) by lia. cbn [andb].
  rewrite Hx by lia. ring.
Qed.

Lemma cart_2 {A B C} (f : A -> C) (g : B -> C) la lb :
  cart [map f la; map g lb] = map (fun p => [f (fst p); g (snd p)]) (list_prod la lb).
Proof.
  assert (E : forall l : list B, cart [map g l] = map (fun b => [g b]) l).
  { cbn [cart]. induction l as [|b l IH]; cbn [map flat_map app]; [reflexivity|]. f_equal. exact IH. }
  change (cart [map f la; map g lb]) with (flat_map (fun a => map (cons a) (cart [map g lb])) (map f la)).
  rewrite E. induction la as [|a la IH]; cbn [map flat_map list_prod]; [reflexivity|].
  rewrite IH, map_app. f_equal. rewrite !map_map. reflexivity.
Qed.

Lemma avg_pool_2d h w kh kw sh sw (x : list Z -> Q) (kx : Z -> Z -> Z) s :
  (1 <= kh)%Z -> (1 <= kw)%Z -> (1 <= sh)%Z -> (1 <= sw)%Z ->
  (forall i j, (0 <= i < h)%Z -> (0 <= j < w)%Z -> x [i; j] == inject_Z (kx i j) * s) ->
  Forall2 (fun y p => y * inject_Z (kh * kw) == inject_Z (window_sum kx (fst p) (snd p) kh kw) * s)
    (avg_pool false true [PDim h kh sh 0; PDim w kw sw 0] x) (positions h w kh kw sh sw).
Proof.
  intros Hkh Hkw Hsh Hsw Hx. unfold avg_pool, positions. cbn [map p_in].
  destruct (windows_0 h kh sh Hkh Hsh) as [-> Bh]. destruct (windows_0 w kw sw Hkw Hsw) as [-> Bw].
  rewrite cart_2, map_map. set (l := list_prod _ _).
  assert (Bl : forall p, In p l -> (0 <= fst p * sh /\ fst p * sh + kh <= h /\ 0 <= snd p * sw /\ snd p * sw + kw <= w)%Z).
  { intros [i j] Hp. unfold l in Hp. apply in_prod_iff in Hp. destruct Hp as [Hi Hj].
    specialize (Bh _ Hi). specialize (Bw _ Hj). cbn [fst snd]. lia. }
  clearbody l. clear Bh Bw. induction l as [|p l IH]; cbn [map]; constructor.
  - cbn [fst snd]. destruct (Bl p (or_introl eq_refl)) as (A & B & C & D).
    rewrite box_sum_2d with (kx := kx) (s := s); try assumption.
    assert (E : box_size [(fst p * sh, fst p * sh + kh)%Z; (snd p * sw, snd p * sw + kw)%Z] = (kh * kw)%Z).
    { unfold box_size. cbn [map fst snd Zprod]. nia. }
    rewrite E. assert (P : (0 < kh * kw)%Z) by nia. apply injz_lt in P. change (inject_Z 0) with 0 in P.
    field. lra.
  - apply IH. intros q Hq. apply Bl. right. exact Hq.
Qed.

(** The tensor [x] of size h x w stands for the codes [kx] with scale [s] and zero point [zp]. *)
Definition stands_2d (h w : Z) (s : Q) (zp : Z) (x : list Z -> Q) (kx : Z -> Z -> Z) : Prop :=
  forall i j, (0 <= i < h)%Z -> (0 <= j < w)%Z -> x [i; j] == denote s zp (kx i j).

Lemma max_acc_avg b n : max_acc_bit_width_avg_pool b n = ceil_log2 (inject_Z ((2 ^ b - 1) * n)).
Proof. unfold max_acc_bit_width_avg_pool, ceil_log2_int. rewrite max_int_spec. reflexivity. Qed.

(** The bit width the pooling declares for the integer sum. *)
Definition sum_width (b n : Z) : Z := max_acc_bit_width_avg_pool b n.

Lemma Forall2_map_l' {A B C} (R : C -> B -> Prop) (f : A -> C) l m :
  Forall2 (fun a b => R (f a) b) l m -> Forall2 R (map f l) m.
Proof. induction 1; cbn [map]; constructor; assumption. Qed.

Lemma Forall2_weaken {A B} (R S : A -> B -> Prop) l m :
  (forall a b, In b m -> R a b -> S a b) -> Forall2 R l m -> Forall2 S l m.
Proof.
  intros H F. induction F; constructor.
  - apply H; [left; reflexivity|assumption].
  - apply IHF. intros. apply H; [right|]; assumption.
Qed.

(** The layer truncates the exact integer sum of the codes of each window (zero points are
    subtracted from every code, then added once). *)
Theorem C35_truncates_the_window_sum : forall m out_bw h w kh kw sh sw s zp in_bw x kx,
  0 < s -> (1 <= kh)%Z -> (1 <= kw)%Z -> (1 <= sh)%Z -> (1 <= sw)%Z -> stands_2d h w s zp x kx ->
  Forall2 (fun y p =>
      y == denote s zp (float_to_intZ m (inject_Z (window_sum (fun i j => kx i j - zp)%Z (fst p) (snd p) kh kw + zp)
                                         / pow2 (sum_width in_bw (kh * kw) - out_bw))))
    (trunc_avg_pool2d m out_bw h w kh kw sh sw s (inject_Z zp) in_bw x) (positions h w kh kw sh sw).
Proof.
  intros m ob h w kh kw sh sw s zp b x kx Hs Hkh Hkw Hsh Hsw Hx.
  unfold trunc_avg_pool2d. cbn zeta. apply Forall2_map_l'.
  pose proof (avg_pool_2d h w kh kw sh sw x (fun i j => kx i j - zp)%Z s Hkh Hkw Hsh Hsw) as A.
  eapply Forall2_weaken; [|apply A].
  - cbn beta. intros y p _ E. fold (sum_width b (kh * kw)). apply trunc_code; [exact Hs|].
    rewrite E. unfold denote. rewrite inject_Z_plus. ring.
  - intros i j Hi Hj. rewrite (Hx i j Hi Hj). unfold denote. rewrite inject_Z_minus. reflexivity.
Qed.

Lemma sum_width_spec b n : (1 <= b)%Z -> (1 <= n)%Z -> ((2 ^ b - 1) * n <= 2 ^ sum_width b n)%Z /\ (0 <= sum_width b n)%Z.
Proof.
  intros Hb Hn. unfold sum_width. rewrite max_acc_avg. apply ceil_log2_Z.
  pose proof (pow_ge b 1 Hb ltac:(lia)). change (2 ^ 1)%Z with 2%Z in *. nia.
Qed.

(** The declared width holds the sum of any window, for unsigned codes of at least two bits
    and for narrow-range signed codes. *)
Theorem C35_sum_fits_unsigned : forall b kh kw r c kx,
  (2 <= b)%Z -> (1 <= kh)%Z -> (1 <= kw)%Z -> (forall i j, in_range false false b (kx i j)) ->
  in_range false false (sum_width b (kh * kw)) (window_sum kx r c kh kw).
Proof.
  intros b kh kw r c kx Hb Hh Hw Hk. destruct (sum_width_spec b (kh * kw) ltac:(lia) ltac:(nia)) as [A B].
  pose proof (window_sum_bounds kx r c kh kw 0 (2 ^ b - 1) ltac:(lia) ltac:(lia)
                (fun a c' _ _ => Hk (r + a)%Z (c + c')%Z)) as S.
  pose proof (pow_ge b 2 Hb ltac:(lia)) as P. change (2 ^ 2)%Z with 4%Z in P.
  assert (N : ((2 ^ b - 1) * (kh * kw) <> 2 ^ sum_width b (kh * kw))%Z).
  { apply odd_factor_not_pow2; [lia| |exact B]. rewrite (pow2Z_half b ltac:(lia)).
    rewrite Z.odd_sub, Z.odd_mul. reflexivity. }
  unfold in_range. cbn [range_lo range_hi]. lia.
Qed.

Theorem C35_sum_fits_narrow_signed : forall b kh kw r c kx,
  (2 <= b)%Z -> (1 <= kh)%Z -> (1 <= kw)%Z -> (forall i j, in_range true true b (kx i j)) ->
  in_range true false (sum_width b (kh * kw)) (window_sum kx r c kh kw).
Proof.
  intros b kh kw r c kx Hb Hh Hw Hk. destruct (sum_width_spec b (kh * kw) ltac:(lia) ltac:(nia)) as [A B].
  pose proof (window_sum_bounds kx r c kh kw (1 - 2 ^ (b - 1)) (2 ^ (b - 1) - 1) ltac:(lia) ltac:(lia)
                (fun a c' _ _ => Hk (r + a)%Z (c + c')%Z)) as S.
  pose proof (pow_ge b 2 Hb ltac:(lia)) as P. change (2 ^ 2)%Z with 4%Z in P.
  pose proof (pow2Z_half b ltac:(lia)) as E.
  set (n := sum_width b (kh * kw)) in *. clearbody n.
  assert (W1 : (1 <= n)%Z).
  { destruct (Z.eq_dec n 0) as [->|]; [change (2 ^ 0)%Z with 1%Z in A; nia|lia]. }
  pose proof (pow2Z_half n W1) as En. unfold in_range. cbn [range_lo range_hi].
  set (a := (2 ^ (b - 1))%Z) in *. clearbody a. set (q := (kh * kw)%Z) in *.
  assert (1 <= q)%Z by (unfold q; nia). clearbody q. nia.
Qed.

(** It does not hold the sum of full-range signed codes: a 3x3 window of 3-bit signed codes
    can reach -36, but 6 bits are declared. *)
Theorem C35_signed_width_refuted :
  exists b kh kw kx, (2 <= b)%Z /\ (1 <= kh)%Z /\ (1 <= kw)%Z /\ (forall i j, in_range true false b (kx i j))
    /\ ~ in_range true false (sum_width b (kh * kw)) (window_sum kx 0 0 kh kw).
Proof.
  exists 3%Z, 3%Z, 3%Z, (fun _ _ => (-4)%Z). repeat split; try lia; try (vm_compute; discriminate).
  intros [H _]. vm_compute in H. apply H. reflexivity.
Qed.

(** Neither does it hold sums of one-bit unsigned codes over power-of-two windows. *)
Theorem C35_one_bit_width_refuted :
  exists kh kw kx, (1 <= kh)%Z /\ (1 <= kw)%Z /\ (forall i j, in_range false false 1 (kx i j))
    /\ ~ in_range false false (sum_width 1 (kh * kw)) (window_sum kx 0 0 kh kw).
Proof.
  exists 2%Z, 2%Z, (fun _ _ => 1%Z). repeat split; try lia; try (vm_compute; discriminate).
  intros [_ H]. vm_compute in H. apply H. reflexivity.
Qed.

(** End to end, floor mode, unsigned input without zero point: every output is a right shift
    of the integer window sum and fits the declared output width. *)
Theorem C35_output_fits : forall out_bw h w kh kw sh sw s in_bw x kx,
  0 < s -> (2 <= in_bw)%Z -> (1 <= kh)%Z -> (1 <= kw)%Z -> (1 <= sh)%Z -> (1 <= sw)%Z ->
  (1 <= out_bw <= sum_width in_bw (kh * kw))%Z ->
  (forall i j, in_range false false in_bw (kx i j)) -> stands_2d h w s 0 x kx ->
  Forall2 (fun y p =>
      let q := Z.shiftr (window_sum kx (fst p) (snd p) kh kw) (sum_width in_bw (kh * kw) - out_bw) in
      y == inject_Z q * s /\ in_range false false out_bw q)
    (trunc_avg_pool2d Floor out_bw h w kh kw sh sw s 0 in_bw x) (positions h w kh kw sh sw).
Proof.
  intros ob h w kh kw sh sw s b x kx Hs Hb Hkh Hkw Hsh Hsw Ho Hr Hx.
  pose proof (C35_truncates_the_window_sum Floor ob h w kh kw sh sw s 0 b x kx Hs Hkh Hkw Hsh Hsw Hx) as T.
  eapply Forall2_weaken; [|exact T]. cbn beta. intros y p _ E. cbn zeta.
  assert (F : window_sum (fun i j => kx i j - 0)%Z (fst p) (snd p) kh kw = window_sum kx (fst p) (snd p) kh kw).
  { unfold window_sum. f_equal. apply map_ext. intros a. f_equal. apply map_ext. intros b'. lia. }
  rewrite F, Z.add_0_r in E. cbn [float_to_intZ] in E. rewrite floor_div_pow2 in E by lia.
  split.
  - rewrite E. unfold denote. change (inject_Z 0) with 0. ring.
  - destruct (C34_floor_is_right_shift false s (sum_width b (kh * kw)) ob (window_sum kx (fst p) (snd p) kh kw)
                (inject_Z (window_sum kx (fst p) (snd p) kh kw) * s) Hs ltac:(reflexivity) Ho) as [_ G].
    apply G. apply C35_sum_fits_unsigned; assumption.
Qed.

(** For a power-of-two window and an output as wide as the input, the result is the average up
    to less than one scale; the shift amount is the logarithm of the window size. *)
Theorem C35_power_of_two_window_is_average : forall m h w kh kw sh sw s in_bw x kx d,
  0 < s -> (2 <= in_bw)%Z -> (1 <= kh)%Z -> (1 <= kw)%Z -> (1 <= sh)%Z -> (1 <= sw)%Z -> (0 <= d)%Z ->
  (kh * kw = 2 ^ d)%Z -> stands_2d h w s 0 x kx ->
  Forall2 (fun y p => Qabs (y - inject_Z (window_sum kx (fst p) (snd p) kh kw) * s / inject_Z (kh * kw)) < s)
    (trunc_avg_pool2d m in_bw h w kh kw sh sw s 0 in_bw x) (positions h w kh kw sh sw).
Proof.
  intros m h w kh kw sh sw s b x kx d Hs Hb Hkh Hkw Hsh Hsw Hd Hp Hx.
  assert (W : sum_width b (kh * kw) = (b + d)%Z).
  { unfold sum_width. rewrite max_acc_avg, Hp.
    pose proof (pow_ge b 2 Hb ltac:(lia)) as P. change (2 ^ 2)%Z with 4%Z in P.
    pose proof (pow_ge d 0 Hd ltac:(lia)) as P'. change (2 ^ 0)%Z with 1%Z in P'.
    assert (G : (1 <= (2 ^ b - 1) * 2 ^ d)%Z) by nia.
    pose proof (injz_lt 0 ((2 ^ b - 1) * 2 ^ d) ltac:(lia)) as PQ. change (inject_Z 0) with 0 in PQ.
    destruct (ceil_log2_spec _ PQ) as [A B]. set (c := ceil_log2 _) in *. clearbody c.
    assert (U1 : (b + d - 1 < c)%Z).
    { apply pow2_lt_inv. apply Qlt_le_trans with (inject_Z ((2 ^ b - 1) * 2 ^ d)); [|exact A].
      rewrite pow2_nonneg_Z by lia. apply injz_lt.
      assert (E : (2 ^ (b + d - 1) = 2 ^ (b - 1) * 2 ^ d)%Z) by (rewrite <- Z.pow_add_r by lia; f_equal; lia).
      rewrite E. pose proof (pow2Z_half b ltac:(lia)). nia. }
    assert (U2 : (c - 1 < b + d)%Z).
    { apply pow2_lt_inv. eapply Qlt_trans; [exact B|].
      rewrite pow2_nonneg_Z by lia. apply injz_lt. rewrite Z.pow_add_r by lia. nia. }
    lia. }
  pose proof (C35_truncates_the_window_sum m b h w kh kw sh sw s 0 b x kx Hs Hkh Hkw Hsh Hsw Hx) as T.
  eapply Forall2_weaken; [|exact T]. cbn beta. intros y p _ E.
  assert (F : window_sum (fun i j => kx i j - 0)%Z (fst p) (snd p) kh kw = window_sum kx (fst p) (snd p) kh kw).
  { unfold window_sum. f_equal. apply map_ext. intros a. f_equal. apply map_ext. intros b'. lia. }
  rewrite F, Z.add_0_r, W in E. replace (b + d - b)%Z with d in E by lia.
  set (n := window_sum kx (fst p) (snd p) kh kw) in *. clearbody n.
  pose proof (rounding_error _ (mode_rounding m) (inject_Z n / pow2 d)) as R.
  set (q := float_to_intZ m (inject_Z n / pow2 d)) in *. clearbody q.
  pose proof (pow2_pos d) as P. rewrite Hp. rewrite <- (pow2_nonneg_Z d Hd).
  rewrite E. unfold denote. change (inject_Z 0) with 0.
  setoid_replace ((inject_Z q - 0) * s - inject_Z n * s / pow2 d) with ((inject_Z q - inject_Z n / pow2 d) * s) by (field; lra).
  rewrite Qabs_mul_pos by exact Hs. nra.
Qed.

(** For other windows the result is not the average: a 3x3 window of the code 16 yields 9. *)
Theorem C35_other_windows_are_rescaled_refuted :
  exists h w kh kw s in_bw x kx, 0 < s /\ (2 <= in_bw)%Z /\ (1 <= kh)%Z /\ (1 <= kw)%Z /\ stands_2d h w s 0 x kx
    /\ trunc_avg_pool2d Round in_bw h w kh kw kh kw s 0 in_bw x = [9]
    /\ inject_Z (window_sum kx 0 0 kh kw) * s / inject_Z (kh * kw) == 16.
Proof.
  exists 3%Z, 3%Z, 3%Z, 3%Z, 1, 8%Z, (fun _ => 16), (fun _ _ => 16%Z).
  repeat split; try lra; try lia; try (vm_compute; reflexivity).
Qed.

(** Adaptive variant: the same layer as the fixed-window one when the output sizes divide the
    input sizes. *)
Theorem C35_adaptive_divisible : forall m out_bw h w oh ow s zp in_bw x,
  (1 <= h)%Z -> (1 <= w)%Z -> (1 <= oh)%Z -> (1 <= ow)%Z -> (h mod oh = 0)%Z -> (w mod ow = 0)%Z ->
  trunc_adaptive_avg_pool2d m out_bw [(h, oh); (w, ow)] s zp in_bw x
  = trunc_avg_pool2d m out_bw h w (h / oh) (w / ow) (h / oh) (w / ow) s zp in_bw x.
Proof.
  intros m ob h w oh ow s zp b x Hh Hw Hoh How Dh Dw.
  unfold trunc_adaptive_avg_pool2d, trunc_avg_pool2d. cbn [map compute_kernel_size_stride fst Zprod].
  pose proof (Z.div_mod h oh ltac:(lia)) as E1. pose proof (Z.div_mod w ow ltac:(lia)) as E2.
  rewrite Dh in E1. rewrite Dw in E2.
  assert (K1 : (h - (oh - 1) * (h / oh) = h / oh)%Z) by lia.
  assert (K2 : (w - (ow - 1) * (w / ow) = w / ow)%Z) by lia.
  rewrite K1, K2, Z.mul_1_r. f_equal. symmetry.
  replace (PDim h (h / oh) (h / oh) 0) with (PDim h (h - h / oh * (oh - 1)) (h / oh) 0) by (f_equal; lia).
  replace (PDim w (w / ow) (w / ow) 0) with (PDim w (w - w / ow * (ow - 1)) (w / ow) 0) by (f_equal; lia).
  apply (C44_replacement_preserves false [(h, oh); (w, ow)]).
  - repeat constructor; cbn [fst snd]; lia.
  - unfold adaptive_to_avg. cbn [forallb fst snd map andb]. rewrite Dh, Dw. reflexivity.
Qed.

(** Otherwise it is wrong: for 10 inputs and 4 outputs the true windows have three elements,
    the average is multiplied by four, and a constant code 6 sums to 24 instead of 18. *)
Theorem C35_adaptive_refuted :
  exists h w oh ow s in_bw out_bw x kx, 0 < s /\ stands_2d h w s 0 x kx
    /\ (forall i j, in_range false false in_bw (kx i j))
    /\ exists y rest, trunc_adaptive_avg_pool2d Floor out_bw [(h, oh); (w, ow)] s 0 in_bw x = y :: rest
      /\ out_bw = max_acc_bit_width_avg_pool in_bw (fst (compute_kernel_size_stride (h, oh)) * fst (compute_kernel_size_stride (w, ow)))
      /\ ~ y == inject_Z (window_sum kx 0 0 3 1) * s.
Proof.
  exists 10%Z, 1%Z, 4%Z, 1%Z, 1, 4%Z, 6%Z, (fun _ => 6), (fun _ _ => 6%Z).
  split; [lra|]. split; [intros i j _ _; vm_compute; reflexivity|].
  split; [intros i j; vm_compute; split; discriminate|].
  do 2 eexists. split; [vm_compute; reflexivity|]. split; [vm_compute; reflexivity|]. vm_compute. discriminate.
Qed.

Example C35_example :
  let kx := fun i j => (i + 2 * j)%Z in
  stands_2d 4 4 (1 # 2) 0 (fun idx => inject_Z (kx (nth 0 idx 0%Z) (nth 1 idx 0%Z)) * (1 # 2)) kx
  /\ sum_width 8 (2 * 2) = 10%Z
  /\ positions 4 4 2 2 2 2 = [(0, 0); (0, 2); (2, 0); (2, 2)]%Z
  /\ trunc_avg_pool2d Floor 8 4 4 2 2 2 2 (1 # 2) 0 8
       (fun idx => inject_Z (kx (nth 0 idx 0%Z) (nth 1 idx 0%Z)) * (1 # 2)) = [1 # 2; 5 # 2; 3 # 2; 7 # 2].
Proof.
  cbn zeta. split; [|split; [|split]].
  - intros i j _ _. cbn [nth]. unfold denote. change (inject_Z 0) with 0. ring.
  - vm_compute; reflexivity.
  - vm_compute; reflexivity.
  - vm_compute; reflexivity.
Qed.

Print Assumptions C35_truncates_the_window_sum.
Print Assumptions C35_sum_fits_unsigned.
Print Assumptions C35_sum_fits_narrow_signed.
Print Assumptions C35_signed_width_refuted.
Print Assumptions C35_one_bit_width_refuted.
Print Assumptions C35_output_fits.
Print Assumptions C35_power_of_two_window_is_average.
Print Assumptions C35_other_windows_are_rescaled_refuted.
Print Assumptions C35_adaptive_divisible.
Print Assumptions C35_adaptive_refuted.

(** ** C58 *)
Definition dims_ok (dims : list pdim) : Prop := Forall (fun d => (1 <= p_k d)%Z /\ (1 <= p_s d)%Z /\ (0 <= p_p d)%Z) dims.

Lemma windows_p d : (1 <= p_k d)%Z -> (1 <= p_s d)%Z ->
  avg_windows false d = map (fun st => (st, (st + p_k d)%Z))
                            (map (fun i => (i * p_s d - p_p d)%Z) (zrange 0 (pool_out_size false d))).
Proof.
  intros Hk Hs. unfold avg_windows. rewrite map_map. apply map_ext_in. intros i Hi. apply zrange_in in Hi.
  unfold pool_out_size in Hi. cbn [andb] in Hi. f_equal.
  pose proof (Z.mul_div_le (p_in d + 2 * p_p d - p_k d + 0) (p_s d) ltac:(lia)). nia.
Qed.

Lemma start_lb d i : (1 <= p_s d)%Z -> In i (zrange 0 (pool_out_size false d)) -> (1 <= p_k d)%Z ->
  (- p_p d <= i * p_s d - p_p d /\ i * p_s d - p_p d + p_k d <= p_in d + p_p d)%Z.
Proof.
  intros Hs Hi Hk. apply zrange_in in Hi. unfold pool_out_size in Hi. cbn [andb] in Hi.
  pose proof (Z.mul_div_le (p_in d + 2 * p_p d - p_k d + 0) (p_s d) ltac:(lia)). nia.
Qed.

Definition starts (d : pdim) : list Z := map (fun i => (i * p_s d - p_p d)%Z) (zrange 0 (pool_out_size false d)).
Fixpoint with_ends (dims : list pdim) (st : list Z) : list (Z * Z) :=
  match dims, st with
  | d :: dims', a :: st' => (a, (a + p_k d)%Z) :: with_ends dims' st'
  | _, _ => []
  end.

Lemma cart_windows dims : dims_ok dims ->
  cart (map (avg_windows false) dims) = map (with_ends dims) (cart (map starts dims)).
Proof.
  induction 1 as [|d dims (Hk & Hs & Hp) Hd IH]; [reflexivity|].
  cbn [map cart]. rewrite IH, windows_p by assumption. fold (starts d).
  induction (starts d) as [|a l IHl]; cbn [map flat_map]; [reflexivity|].
  rewrite map_app, IHl. f_equal. rewrite !map_map. reflexivity.
Qed.

Lemma cart_starts_in dims st : In st (cart (map starts dims)) -> Forall2 (fun d a => In a (starts d)) dims st.
Proof.
  revert st. induction dims as [|d dims IH]; intros st H; cbn [map cart] in H.
  - destruct H as [<-|[]]. constructor.
  - apply in_flat_map in H. destruct H as (a & Ha & H). apply in_map_iff in H. destruct H as (st' & <- & H).
    constructor; [exact Ha|]. apply IH, H.
Qed.

Lemma box_with_ends dims st : Forall2 (fun d a => In a (starts d)) dims st ->
  box (with_ends dims st) = cart (map (fun q => zrange (snd q) (p_k (fst q))) (combine dims st))
  /\ box_size (with_ends dims st) = Zprod (map p_k dims).
Proof.
  unfold box, box_size. induction 1 as [|d a dims st Ha F [IH1 IH2]]; [split; reflexivity|].
  cbn [with_ends map combine fst snd cart Zprod]. replace (a + p_k d - a)%Z with (p_k d) by lia.
  rewrite IH1, IH2. split; reflexivity.
Qed.

Lemma clip_unpadded dims st : dims_ok dims -> Forall (fun d => p_p d = 0%Z) dims ->
  Forall2 (fun d a => In a (starts d)) dims st ->
  clip_box (map p_in dims) (with_ends dims st) = with_ends dims st.
Proof.
  intros Hok Hp F. unfold clip_box. induction F as [|d a dims st Ha F IH]; [reflexivity|].
  inversion_clear Hok as [|? ? (Hk & Hs & _) Hok']. inversion_clear Hp as [|? ? P0 Hp'].
  cbn [with_ends map combine fst snd]. rewrite IH by assumption. f_equal.
  unfold starts in Ha. apply in_map_iff in Ha. destruct Ha as (i & <- & Hi).
  destruct (start_lb d i Hs Hi Hk) as [A B]. f_equal; lia.
Qed.

Lemma Qsum_mul {A} (f : A -> Q) c l : Qsum (map (fun a => c * f a) l) == c * Qsum (map f l).
Proof. induction l as [|a l IH]; cbn [map Qsum]; [ring|]. rewrite IH. ring. Qed.

(** The pass turns average pooling into a depthwise convolution computing the same outputs,
    when rounding output sizes down and either counting the padding or having none. *)
Theorem C58_conv_equals_avg_pool : forall count_include_pad dims x,
  dims_ok dims -> (count_include_pad = true \/ Forall (fun d => p_p d = 0%Z) dims) ->
  Forall2 Qeq (avg_pool_to_dw_conv false count_include_pad dims x) (avg_pool false count_include_pad dims x).
Proof.
  intros incl dims x Hok Hc. unfold avg_pool_to_dw_conv, const_conv, avg_pool.
  rewrite cart_windows by exact Hok. rewrite map_map. fold starts. change (fun d : pdim => map _ _) with starts.
  assert (I : forall st, In st (cart (map starts dims)) -> Forall2 (fun d a => In a (starts d)) dims st) by apply cart_starts_in.
  induction (cart (map starts dims)) as [|st l IH]; cbn [map]; constructor.
  - specialize (I st (or_introl eq_refl)). destruct (box_with_ends dims st I) as [B1 B2].
    unfold box_sum. rewrite B1, Qsum_mul.
    assert (E : (if incl then box_size (with_ends dims st) else box_size (clip_box (map p_in dims) (with_ends dims st)))
                = Zprod (map p_k dims)).
    { destruct incl; [exact B2|]. destruct Hc as [Hc|Hc]; [discriminate|]. rewrite clip_unpadded by assumption. exact B2. }
    rewrite E. unfold Qdiv. ring.
  - apply IH. intros q Hq. apply I. right. exact Hq.
Qed.

(** With padding that is not counted the border outputs differ. *)
Theorem C58_count_include_pad_refuted :
  exists dims x, dims_ok dims
    /\ ~ Forall2 Qeq (avg_pool_to_dw_conv false false dims x) (avg_pool false false dims x).
Proof.
  exists [PDim 4 2 2 1], (fun _ => 1). split; [repeat constructor; cbn; lia|].
  intros H. vm_compute in H. inversion H as [|? ? ? ? E]. discriminate E.
Qed.

(** With ceil_mode the number of outputs differs. *)
Theorem C58_ceil_mode_refuted :
  exists dims x, dims_ok dims
    /\ length (avg_pool_to_dw_conv true true dims x) <> length (avg_pool true true dims x).
Proof.
  exists [PDim 5 2 2 0], (fun _ => 1). split; [repeat constructor; cbn; lia|]. vm_compute. discriminate.
Qed.

Example C58_example :
  dims_ok [PDim 4 2 2 1; PDim 3 3 1 1]
  /\ avg_pool false true [PDim 4 2 2 1] (fun idx => inject_Z (nth 0 idx 0%Z) + 1) = [1 # 2; 5 # 2; 4 # 2]
  /\ length (avg_pool_to_dw_conv false true [PDim 4 2 2 1; PDim 3 3 1 1] (fun _ => 1)) = 9%nat.
Proof. split; [|split]; [repeat constructor; cbn; lia|vm_compute; reflexivity|vm_compute; reflexivity]. Qed.

Print Assumptions C58_conv_equals_avg_pool.
Print Assumptions C58_count_include_pad_refuted.
Print Assumptions C58_ceil_mode_refuted.
