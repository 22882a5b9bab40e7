(** C113: the layers for the FlexML target. *)
From Coq Require Import Znumtheory Zpow_facts.
From Verif Require Import QUtil Log2Q Ops OpsProofs IntQuant IntQuantProofs IntQuantProps FlexML.
Open Scope Q_scope.

(** ** The reciprocal of the kernel size *)
Definition kernel_ok (k : kernel) : Prop := (1 <= k_h k)%Z /\ (1 <= k_w k)%Z /\ (k_h k * k_w k <= 10000000000)%Z.

Lemma avg_scaling_eq k : avg_scaling k = (k_h k * k_w k)%Z.
Proof. destruct k; reflexivity. Qed.

Lemma kernel_pos k : kernel_ok k -> (1 <= avg_scaling k)%Z.
Proof. intros (A & B & _). rewrite avg_scaling_eq. nia. Qed.

Lemma div_input_pos k : kernel_ok k -> 0 < div_input k.
Proof.
  intros Hk. pose proof (kernel_pos k Hk) as P. unfold div_input. apply Qdiv_pos; [reflexivity|].
  change 0 with (inject_Z 0). apply injz_lt. lia.
Qed.

Lemma div_scale_eq k : kernel_ok k -> div_scale k == div_input k / 128.
Proof.
  intros Hk. pose proof (div_input_pos k Hk) as P. pose proof (kernel_pos k Hk) as K1.
  unfold div_scale. change (inject_Z (max_int true false div_bits + 1)) with (128 # 1).
  assert (A : Qabs (div_input k) == div_input k) by (apply Qabs_pos; lra).
  assert (L : scaling_min_val <= Qabs (div_input k)).
  { rewrite A. unfold div_input, scaling_min_val. destruct Hk as (_ & _ & Hk). rewrite <- avg_scaling_eq in Hk.
    assert (P1 : 0 < inject_Z (avg_scaling k)) by (change 0 with (inject_Z 0); apply injz_lt; lia).
    apply (Qmult_le_r _ _ _ P1). unfold Qdiv. rewrite Qmult_1_l, (Qmult_comm (/ _)), Qmult_inv_r by lra.
    apply injz_le in Hk. change (inject_Z 10000000000) with (10000000000 # 1) in Hk. lra. }
  unfold torch_max. rewrite (proj2 (Qle_bool_iff _ _) L). rewrite A. reflexivity.
Qed.

(** The reciprocal of the kernel size is always quantized to 127, one step below the exact 128:
    the pooling layer scales by 127/128 whatever the kernel. *)
Theorem C113_reciprocal : forall k, kernel_ok k ->
  div_int k = inject_Z 127 /\ div_scale k == (1 # 128) / inject_Z (k_h k * k_w k) /\
  div_value k == (127 # 128) / inject_Z (k_h k * k_w k) /\ rescaling_const k == 127 # 128.
Proof.
  intros k Hk. pose proof (div_input_pos k Hk) as P. pose proof (div_scale_eq k Hk) as S1.
  pose proof (kernel_pos k Hk) as K1.
  assert (P1 : 0 < inject_Z (avg_scaling k)) by (change 0 with (inject_Z 0); apply injz_lt; lia).
  assert (Y : div_input k / div_scale k + 0 == inject_Z 128).
  { rewrite S1. change (inject_Z 128) with (128 # 1). field. lra. }
  assert (I : div_int k = inject_Z 127).
  { unfold div_int, to_int. cbn [cfg iq_signed iq_narrow iq_f2i].
    change (float_to_int Round (div_input k / div_scale k + 0)) with (inject_Z (roundZ (div_input k / div_scale k + 0))).
    rewrite (roundZ_eq _ _ Y), roundZ_int. reflexivity. }
  split; [exact I|]. rewrite <- avg_scaling_eq.
  assert (S2 : div_scale k == (1 # 128) / inject_Z (avg_scaling k)).
  { rewrite S1. unfold div_input. field. lra. }
  assert (V : div_value k == (127 # 128) / inject_Z (avg_scaling k)).
  { unfold div_value, int_quant. fold (div_int k). rewrite I, S2. change (inject_Z 127) with (127 # 1). field. lra. }
  split; [exact S2|]. split; [exact V|]. unfold rescaling_const. rewrite V. field. lra.
Qed.

(** ** Sums over windows *)
Lemma zrange_cons a b : (a < b)%Z -> zrange a b = a :: zrange (a + 1) b.
Proof.
  intros H. unfold zrange. replace (Z.to_nat (b - a)) with (S (Z.to_nat (b - (a + 1)))) by lia.
  cbn [seq map]. f_equal; [lia|]. rewrite <- seq_shift, map_map. apply map_ext. intros i. lia.
Qed.
Lemma zrange_nil a b : (b <= a)%Z -> zrange a b = [].
Proof. intros H. unfold zrange. replace (Z.to_nat (b - a)) with 0%nat by lia. reflexivity. Qed.
Lemma zrange_in a b i : In i (zrange a b) -> (a <= i < b)%Z.
Proof. intros H. unfold zrange in H. apply in_map_iff in H. destruct H as (n & <- & H). apply in_seq in H. lia. Qed.
Lemma zrange_length a b : List.length (zrange a b) = Z.to_nat (b - a).
Proof. unfold zrange. rewrite map_length, seq_length. reflexivity. Qed.

Lemma Qsum_ext {A} (f g : A -> Q) l : (forall a, In a l -> f a == g a) -> Qsum (map f l) == Qsum (map g l).
Proof.
  induction l as [|a l IH]; intros H; cbn [map Qsum]; [reflexivity|].
  rewrite (H a) by (left; reflexivity). rewrite IH by (intros; apply H; right; assumption). reflexivity.
Qed.

(** Zero outside of [0, n). *)
Definition inside (n i : Z) : bool := (0 <=? i)%Z && (i <? n)%Z.

Lemma sum_clip n f : forall m a b, Z.to_nat (b - a) = m ->
  Qsum (map f (zrange (Z.max a 0) (Z.min b n))) == Qsum (map (fun i => if inside n i then f i else 0) (zrange a b)).
Proof.
  induction m as [|m IH]; intros a b Hm.
  - rewrite (zrange_nil a b) by lia. rewrite zrange_nil by lia. reflexivity.
  - rewrite (zrange_cons a b) by lia. cbn [map Qsum]. rewrite <- (IH (a + 1)%Z b) by lia.
    unfold inside at 1. destruct (Z.leb_spec 0 a) as [A|A]; cbn [andb].
    + destruct (Z.ltb_spec a n) as [B|B].
      * rewrite (Z.max_l a 0), (Z.max_l (a + 1) 0) by lia. rewrite (zrange_cons a (Z.min b n)) by lia. reflexivity.
      * rewrite !zrange_nil by lia. cbn [map Qsum]. ring.
    + rewrite (Z.max_r a 0), (Z.max_r (a + 1) 0) by lia. ring.
Qed.

(** The image surrounded by zeros, and the sum over one kernel-sized window of it. *)
Definition padded (H W : Z) (x : Z -> Z -> Q) (h w : Z) : Q := if inside H h && inside W w then x h w else 0.
Definition window_sum (c : pool_cfg) (H W : Z) (x : Z -> Z -> Q) (i j : Z) : Q :=
  Qsum (map (fun a => Qsum (map (fun b =>
      padded H W x (i * p_stride_h c - p_pad_h c + a)%Z (j * p_stride_w c - p_pad_w c + b)%Z)
    (zrange 0 (k_w (p_kernel c))))) (zrange 0 (k_h (p_kernel c)))).

Lemma zrange_shift o k : zrange o (o + k) = map (fun a => (o + a)%Z) (zrange 0 k).
Proof.
  unfold zrange. replace (o + k - o)%Z with (k - 0)%Z by lia. rewrite map_map. apply map_ext. intros a. lia.
Qed.

Lemma Qsum_zero {A} (l : list A) : Qsum (map (fun _ => 0) l) == 0.
Proof. induction l as [|a l IH]; cbn [map Qsum]; [reflexivity|]. rewrite IH. reflexivity. Qed.

(** The windows that exist without ceil_mode are not cut. *)
Lemma full_window n k s p i : (1 <= s)%Z -> (0 <= i < out_size n k s p false)%Z -> w_end n k s p i = (w_start s p i + k)%Z.
Proof.
  intros Hs Hi. unfold out_size in Hi. cbn [andb] in Hi. rewrite Z.add_0_r in Hi.
  assert (A : (i <= (n + 2 * p - k) / s)%Z) by lia.
  assert (B : (s * i <= n + 2 * p - k)%Z).
  { transitivity (s * ((n + 2 * p - k) / s))%Z; [apply Z.mul_le_mono_nonneg_l; lia|]. apply Z.mul_div_le. lia. }
  unfold w_end, w_start. lia.
Qed.

Definition out_ok (c : pool_cfg) (H W i j : Z) : Prop :=
  p_ceil c = false /\ (1 <= p_stride_h c)%Z /\ (1 <= p_stride_w c)%Z /\
  (0 <= i < out_size H (k_h (p_kernel c)) (p_stride_h c) (p_pad_h c) (p_ceil c))%Z /\
  (0 <= j < out_size W (k_w (p_kernel c)) (p_stride_w c) (p_pad_w c) (p_ceil c))%Z.

Lemma avg_pool_spec c H W x i j : out_ok c H W i j ->
  avg_pool2d c H W x i j == window_sum c H W x i j / inject_Z (k_h (p_kernel c) * k_w (p_kernel c)).
Proof.
  intros (Ec & S1 & S2 & Hi & Hj). rewrite Ec in Hi, Hj. unfold avg_pool2d. cbv zeta.
  rewrite (full_window _ _ _ _ _ S1 Hi), (full_window _ _ _ _ _ S2 Hj).
  set (hs := w_start (p_stride_h c) (p_pad_h c) i). set (ws := w_start (p_stride_w c) (p_pad_w c) j).
  set (kh := k_h (p_kernel c)). set (kw := k_w (p_kernel c)).
  replace ((hs + kh - hs) * (ws + kw - ws))%Z with (kh * kw)%Z by lia.
  assert (E : Qsum (map (fun h => Qsum (map (x h) (zrange (Z.max ws 0) (Z.min (ws + kw) W)))) (zrange (Z.max hs 0) (Z.min (hs + kh) H)))
    == window_sum c H W x i j); [|rewrite E; reflexivity].
  rewrite (sum_clip H _ _ hs (hs + kh) eq_refl). unfold window_sum. fold kh kw.
  rewrite (zrange_shift hs kh), map_map. apply Qsum_ext. intros a _.
  change (i * p_stride_h c - p_pad_h c + a)%Z with (hs + a)%Z.
  unfold padded. destruct (inside H (hs + a)); cbn [andb].
  - rewrite (sum_clip W _ _ ws (ws + kw) eq_refl), (zrange_shift ws kw), map_map. apply Qsum_ext. intros b _. reflexivity.
  - symmetry. apply Qsum_zero.
Qed.

(** Output of the layer on a plain or quantized image: 127/128 of the mean over the kernel. *)
Definition out_px (o : fin) : Z -> Z -> Q := match o with FPlain p => p | FQuant q => q_px q end.
Definition in_px := out_px.

Theorem C113_pool_value : forall c rq H W x o i j, kernel_ok (p_kernel c) -> out_ok c H W i j ->
  flexml_avg_pool c rq H W x = Some o ->
  out_px o i j == (127 # 128) * (window_sum c H W (in_px x) i j / inject_Z (k_h (p_kernel c) * k_w (p_kernel c))).
Proof.
  intros c rq H W x o i j Hk Ho E. destruct (C113_reciprocal _ Hk) as (_ & _ & _ & R).
  assert (G : forall px, avg_pool2d c H W px i j * rescaling_const (p_kernel c)
    == (127 # 128) * (window_sum c H W px i j / inject_Z (k_h (p_kernel c) * k_w (p_kernel c)))).
  { intros px. rewrite R, (avg_pool_spec c H W px i j Ho). ring. }
  unfold flexml_avg_pool in E. destruct x as [px|q].
  - destruct rq; [discriminate|]. inversion E; subst. cbn [out_px in_px]. apply G.
  - inversion E; subst. destruct rq; cbn [out_px in_px q_px]; apply G.
Qed.

(** It raises exactly for a plain input when a quantized output is asked for (the default). *)
Theorem C113_pool_returns : forall c rq H W x,
  flexml_avg_pool c rq H W x = None <-> rq = true /\ exists px, x = FPlain px.
Proof.
  intros c rq H W x. unfold flexml_avg_pool. destruct x as [px|q].
  - destruct rq; split; [eauto|reflexivity|discriminate|intros [A _]; discriminate].
  - split; [discriminate|]. intros (_ & px & A). discriminate.
Qed.

(** A quantized input keeps its zero point and signedness. *)
Theorem C113_pool_metadata : forall c H W q o, flexml_avg_pool c true H W (FQuant q) = Some o ->
  exists y, o = FQuant y /\ q_zp y = q_zp q /\ q_signed y = q_signed q.
Proof. intros c H W q o E. injection E as E. subst o. eexists. split; [reflexivity|]. split; reflexivity. Qed.

(** So the average of a constant image is not that constant. *)
Theorem C113_pool_exact_refuted : forall c H W v i j, kernel_ok (p_kernel c) -> out_ok c H W i j -> ~ v == 0 ->
  p_pad_h c = 0%Z -> p_pad_w c = 0%Z ->
  forall o, flexml_avg_pool c false H W (FPlain (fun _ _ => v)) = Some o -> ~ out_px o i j == v.
Proof.
  intros c H W v i j Hk Ho Hv P1 P2 o E C. rewrite (C113_pool_value _ _ _ _ _ _ _ _ Hk Ho E) in C. cbn [in_px out_px] in C.
  assert (S1 : window_sum c H W (fun _ _ => v) i j == inject_Z (k_h (p_kernel c) * k_w (p_kernel c)) * v).
  { destruct Ho as (Ec & A1 & A2 & Hi & Hj). rewrite Ec in Hi, Hj. unfold out_size in Hi, Hj. cbn [andb] in Hi, Hj.
    rewrite P1 in *. rewrite P2 in *. destruct Hk as (K1 & K2 & _).
    set (kh := k_h (p_kernel c)) in *. set (kw := k_w (p_kernel c)) in *.
    assert (B1 : (i * p_stride_h c + kh <= H)%Z).
    { assert (i <= (H + 2 * 0 - kh + 0) / p_stride_h c)%Z by lia.
      pose proof (Z.mul_div_le (H + 2 * 0 - kh + 0) (p_stride_h c) ltac:(lia)). nia. }
    assert (B2 : (j * p_stride_w c + kw <= W)%Z).
    { assert (j <= (W + 2 * 0 - kw + 0) / p_stride_w c)%Z by lia.
      pose proof (Z.mul_div_le (W + 2 * 0 - kw + 0) (p_stride_w c) ltac:(lia)). nia. }
    assert (Cst : forall l (u : Q), Qsum (map (fun _ : Z => u) l) == inject_Z (Z.of_nat (List.length l)) * u).
    { clear. intros l u. induction l as [|a l IH]; cbn [map Qsum List.length]; [ring|]. rewrite IH, Nat2Z.inj_succ.
      unfold Z.succ. rewrite inject_Z_plus. change (inject_Z 1) with 1. ring. }
    unfold window_sum. fold kh kw. rewrite P1, P2.
    rewrite (Qsum_ext _ (fun _ => inject_Z kw * v)).
    - rewrite Cst, zrange_length, Z.sub_0_r, Z2Nat.id by lia. rewrite inject_Z_mult. ring.
    - intros a Ha. apply zrange_in in Ha. rewrite (Qsum_ext _ (fun _ => v)).
      + rewrite Cst, zrange_length, Z.sub_0_r, Z2Nat.id by lia. reflexivity.
      + intros b Hb. apply zrange_in in Hb. unfold padded, inside.
        rewrite (proj2 (Z.leb_le 0 (i * p_stride_h c - 0 + a))) by nia.
        rewrite (proj2 (Z.ltb_lt (i * p_stride_h c - 0 + a) H)) by nia.
        rewrite (proj2 (Z.leb_le 0 (j * p_stride_w c - 0 + b))) by nia.
        rewrite (proj2 (Z.ltb_lt (j * p_stride_w c - 0 + b) W)) by nia. reflexivity. }
  assert (K0 : 0 < inject_Z (k_h (p_kernel c) * k_w (p_kernel c))).
  { change 0 with (inject_Z 0). apply injz_lt. destruct Hk as (K1 & K2 & _). nia. }
  rewrite S1 in C. apply Hv.
  assert (C2 : (127 # 128) * v == v).
  { rewrite <- C at 2. field. lra. }
  lra.
Qed.

(** ** Codes and widths *)
Lemma bits_127 o : (0 <= o)%Z -> ~ (127 | 2 ^ o)%Z.
Proof.
  intros Ho D.
  assert (R : rel_prime 127 (2 ^ o)).
  { apply rel_prime_Zpower_r; [exact Ho|]. apply Zgcd_1_rel_prime. reflexivity. }
  assert (D1 : (127 | 1)%Z) by (apply R; [exists 1%Z; reflexivity|exact D]).
  apply Z.divide_1_r_nonneg in D1; [discriminate|lia].
Qed.

Lemma width_spec k bw : kernel_ok k -> (1 <= bw)%Z ->
  (1 <= max_acc_bit_width k bw /\ (2 ^ bw - 1) * (k_h k * k_w k) * 127 <= 2 ^ max_acc_bit_width k bw - 1)%Z.
Proof.
  intros Hk Hb. destruct (C113_reciprocal _ Hk) as (I & _). pose proof (kernel_pos k Hk) as K1.
  assert (P2 : (2 <= 2 ^ bw)%Z) by (change 2%Z with (2 ^ 1)%Z at 1; apply Z.pow_le_mono_r; lia).
  set (N := ((2 ^ bw - 1) * avg_scaling k * 127)%Z). rewrite <- avg_scaling_eq. fold N.
  assert (N1 : (127 <= N)%Z) by (unfold N; nia).
  unfold max_acc_bit_width. rewrite I. change (max_int false false bw) with (2 ^ bw - 1)%Z.
  assert (X : inject_Z (2 ^ bw - 1) * inject_Z (avg_scaling k) * inject_Z 127 = inject_Z N).
  { unfold N. rewrite !inject_Z_mult. reflexivity. }
  rewrite X. assert (P : 0 < inject_Z N) by (change 0 with (inject_Z 0); apply injz_lt; lia).
  destruct (ceil_log2_spec _ P) as [C1 _]. set (o := ceil_log2 (inject_Z N)) in *.
  assert (O1 : (1 <= o)%Z).
  { destruct (Z_lt_le_dec o 1) as [L|L]; [exfalso|exact L].
    pose proof (pow2_mono o 0 ltac:(lia)) as M. rewrite pow2_0 in M.
    assert (M2 : inject_Z 127 <= inject_Z N) by (apply injz_le; exact N1). change (inject_Z 127) with (127 # 1) in M2. lra. }
  split; [exact O1|]. rewrite pow2_nonneg_Z in C1 by lia. apply injz_le_inv in C1.
  destruct (Z.eq_dec N (2 ^ o)) as [E|E]; [exfalso|lia].
  apply (bits_127 o ltac:(lia)). rewrite <- E. exists ((2 ^ bw - 1) * avg_scaling k)%Z. reflexivity.
Qed.

Fixpoint Zsum (l : list Z) : Z := match l with [] => 0%Z | x :: l' => (x + Zsum l')%Z end.
Lemma Zsum_bounds {A} (f : A -> Z) l lo hi : (forall a, In a l -> (lo <= f a <= hi)%Z) ->
  (Z.of_nat (List.length l) * lo <= Zsum (map f l) <= Z.of_nat (List.length l) * hi)%Z.
Proof.
  induction l as [|a l IH]; intros H; cbn [map Zsum List.length]; [lia|].
  pose proof (H a (or_introl eq_refl)). pose proof (IH (fun b Hb => H b (or_intror Hb))). rewrite Nat2Z.inj_succ. nia.
Qed.
Lemma Zsum_range (f : Z -> Z) k lo hi : (0 <= k)%Z -> (forall a, (lo <= f a <= hi)%Z) ->
  (k * lo <= Zsum (map f (zrange 0 k)) <= k * hi)%Z.
Proof.
  intros Hk H. pose proof (Zsum_bounds f (zrange 0 k) lo hi (fun a _ => H a)) as B.
  rewrite zrange_length, Z.sub_0_r, Z2Nat.id in B by exact Hk. exact B.
Qed.
Lemma Qsum_codes {A} (f : A -> Q) (g : A -> Z) s l : (forall a, In a l -> f a == inject_Z (g a) * s) ->
  Qsum (map f l) == inject_Z (Zsum (map g l)) * s.
Proof.
  induction l as [|a l IH]; intros H; cbn [map Zsum Qsum]; [ring|].
  rewrite (H a) by (left; reflexivity). rewrite IH by (intros; apply H; right; assumption).
  rewrite inject_Z_plus. ring.
Qed.

(** Sum of the codes of a window, zero padded. *)
Definition padded_code (H W : Z) (z : Z -> Z -> Z) (h w : Z) : Z := if inside H h && inside W w then z h w else 0%Z.
Definition code_sum (c : pool_cfg) (H W : Z) (z : Z -> Z -> Z) (i j : Z) : Z :=
  Zsum (map (fun a => Zsum (map (fun b =>
      padded_code H W z (i * p_stride_h c - p_pad_h c + a)%Z (j * p_stride_w c - p_pad_w c + b)%Z)
    (zrange 0 (k_w (p_kernel c))))) (zrange 0 (k_h (p_kernel c)))).

(** A quantized image without zero point gives 127 times the sum of the codes, as codes under the
    declared scale; they fit into the declared bit width, unless a signed input uses its lowest
    code. *)
Theorem C113_pool_codes : forall c H W q z o i j,
  kernel_ok (p_kernel c) -> out_ok c H W i j -> (1 <= q_bw q)%Z -> q_zp q = 0 ->
  (forall h w, (0 <= h < H)%Z -> (0 <= w < W)%Z -> q_px q h w == inject_Z (z h w) * q_scale q /\
     (if q_signed q then - 2 ^ (q_bw q - 1) < z h w < 2 ^ (q_bw q - 1) else 0 <= z h w < 2 ^ q_bw q)%Z) ->
  flexml_avg_pool c true H W (FQuant q) = Some (FQuant o) ->
  q_px o i j == inject_Z (127 * code_sum c H W z i j) * q_scale o /\
  q_scale o == q_scale q / (128 * inject_Z (k_h (p_kernel c) * k_w (p_kernel c))) /\
  q_zp o = 0 /\ q_signed o = q_signed q /\
  (if q_signed o then - 2 ^ (q_bw o - 1) <= 127 * code_sum c H W z i j < 2 ^ (q_bw o - 1)
   else 0 <= 127 * code_sum c H W z i j < 2 ^ q_bw o)%Z.
Proof.
  intros c H W q z o i j Hk Ho Hb Hz Hc E.
  pose proof (C113_pool_value c true H W (FQuant q) (FQuant o) i j Hk Ho E) as V. cbn [out_px in_px] in V.
  destruct (C113_reciprocal _ Hk) as (_ & DS & _ & _). pose proof (width_spec _ _ Hk Hb) as [O1 Wd].
  unfold flexml_avg_pool in E. assert (Eo : o = QI (fun i j => avg_pool2d c H W (q_px q) i j * rescaling_const (p_kernel c))
    (q_scale q * div_scale (p_kernel c)) (q_zp q) (max_acc_bit_width (p_kernel c) (q_bw q)) (q_signed q)) by congruence.
  assert (So : q_scale o == q_scale q / (128 * inject_Z (k_h (p_kernel c) * k_w (p_kernel c)))).
  { rewrite Eo. cbn [q_scale]. rewrite DS. field. change 0 with (inject_Z 0). intros A. apply injz_eq_inv in A.
    destruct Hk as (A1 & A2 & _). nia. }
  assert (K0 : 0 < inject_Z (k_h (p_kernel c) * k_w (p_kernel c))).
  { change 0 with (inject_Z 0). apply injz_lt. destruct Hk as (K1 & K2 & _). nia. }
  assert (WS : window_sum c H W (q_px q) i j == inject_Z (code_sum c H W z i j) * q_scale q).
  { unfold window_sum, code_sum. apply Qsum_codes. intros a _. apply Qsum_codes. intros b _. unfold padded, padded_code.
    destruct (inside H _) eqn:I1; [|cbn [andb]; ring]. destruct (inside W _) eqn:I2; [|cbn [andb]; ring]. cbn [andb].
    unfold inside in I1, I2. apply Bool.andb_true_iff in I1, I2. apply Hc; lia. }
  split; [|split; [exact So|split; [rewrite Eo; exact Hz|split; [rewrite Eo; reflexivity|]]]].
  - rewrite V, WS, So, (inject_Z_mult 127). change (inject_Z 127) with (127 # 1). field. lra.
  - replace (q_signed o) with (q_signed q) by (rewrite Eo; reflexivity).
    replace (q_bw o) with (max_acc_bit_width (p_kernel c) (q_bw q)) by (rewrite Eo; reflexivity).
    set (w := max_acc_bit_width (p_kernel c) (q_bw q)) in *.
    set (lo := (if q_signed q then - 2 ^ (q_bw q - 1) + 1 else 0)%Z).
    set (hi := (if q_signed q then 2 ^ (q_bw q - 1) - 1 else 2 ^ q_bw q - 1)%Z).
    assert (P1 : (0 < 2 ^ (q_bw q - 1))%Z) by (apply Z.pow_pos_nonneg; lia).
    assert (Pw : (0 < 2 ^ (w - 1))%Z) by (apply Z.pow_pos_nonneg; lia).
    assert (E1 : (2 ^ q_bw q = 2 * 2 ^ (q_bw q - 1))%Z) by (rewrite <- Z.pow_succ_r by lia; f_equal; lia).
    assert (E2 : (2 ^ w = 2 * 2 ^ (w - 1))%Z) by (rewrite <- Z.pow_succ_r by lia; f_equal; lia).
    destruct Hk as (K1 & K2 & _). set (kh := k_h (p_kernel c)) in *. set (kw := k_w (p_kernel c)) in *.
    assert (B : (kh * (kw * lo) <= code_sum c H W z i j <= kh * (kw * hi))%Z).
    { unfold code_sum. fold kh kw.
      apply Zsum_range; [lia|]. intros a. apply Zsum_range; [lia|]. intros b.
      unfold padded_code. destruct (inside H _) eqn:I1; cbn [andb]; [destruct (inside W _) eqn:I2; cbn [andb]|].
      - unfold inside in I1, I2. apply Bool.andb_true_iff in I1, I2.
        destruct (Hc (i * p_stride_h c - p_pad_h c + a)%Z (j * p_stride_w c - p_pad_w c + b)%Z ltac:(lia) ltac:(lia)) as [_ R].
        unfold lo, hi. destruct (q_signed q); lia.
      - unfold lo, hi. destruct (q_signed q); lia.
      - unfold lo, hi. destruct (q_signed q); lia. }
    assert (KK : (1 <= kh * kw)%Z) by nia. rewrite !Z.mul_assoc in B. set (K := (kh * kw)%Z) in *. clearbody K.
    clear - B Wd KK P1 Pw E1 E2. unfold lo, hi in B. set (S := code_sum c H W z i j) in *. clearbody S.
    set (p := (2 ^ (q_bw q - 1))%Z) in *. clearbody p. set (r := (2 ^ (w - 1))%Z) in *. clearbody r.
    destruct (q_signed q); nia.
Qed.

(** With the lowest signed code the result can leave the declared width: a 3x3 window of -2 under
    two bits. *)
Theorem C113_pool_signed_refuted : exists c q z o,
  kernel_ok (p_kernel c) /\ out_ok c 3 3 0 0 /\ q_bw q = 2%Z /\ q_signed q = true /\ q_zp q = 0 /\
  (forall h w, q_px q h w == inject_Z (z h w) * q_scale q /\ (- 2 ^ (q_bw q - 1) <= z h w < 2 ^ (q_bw q - 1))%Z) /\
  flexml_avg_pool c true 3 3 (FQuant q) = Some (FQuant o) /\
  q_px o 0%Z 0%Z == inject_Z (127 * code_sum c 3 3 z 0 0) * q_scale o /\
  (127 * code_sum c 3 3 z 0 0 < - 2 ^ (q_bw o - 1))%Z.
Proof.
  exists (PC (KInt 3) 3 3 0 0 false), (QI (fun _ _ => -2) 1 0 2 true), (fun _ _ => (-2)%Z).
  eexists. split; [repeat split; cbn; lia|]. split; [repeat split; vm_compute; congruence|].
  do 3 (split; [reflexivity|]). split; [intros; split; [reflexivity|cbn [q_bw]; vm_compute; split; [discriminate|reflexivity]]|].
  split; [reflexivity|]. split; [vm_compute; reflexivity|vm_compute; reflexivity].
Qed.

(** With ceil_mode a cut window is divided by its own size, and the result leaves the grid of the
    declared scale. *)
Theorem C113_pool_ceil_refuted : exists c q z o,
  kernel_ok (p_kernel c) /\ p_ceil c = true /\
  (1 < out_size 5 (k_h (p_kernel c)) (p_stride_h c) (p_pad_h c) true)%Z /\
  (0 < out_size 3 (k_w (p_kernel c)) (p_stride_w c) (p_pad_w c) true)%Z /\ q_zp q = 0 /\
  (forall h w, q_px q h w == inject_Z (z h w) * q_scale q /\ (0 <= z h w < 2 ^ q_bw q)%Z) /\
  flexml_avg_pool c true 5 3 (FQuant q) = Some (FQuant o) /\
  forall m, ~ q_px o 1%Z 0%Z == inject_Z m * q_scale o.
Proof.
  exists (PC (KInt 3) 3 3 0 0 true), (QI (fun h w => inject_Z (if (h =? 3)%Z && (w =? 0)%Z then 1 else 0)) 1 0 8 false),
    (fun h w => if (h =? 3)%Z && (w =? 0)%Z then 1%Z else 0%Z).
  eexists. split; [repeat split; cbn; lia|]. split; [reflexivity|]. split; [reflexivity|]. split; [reflexivity|].
  split; [reflexivity|].
  split; [intros h w; cbn [q_px q_scale q_bw]; split; [symmetry; apply Qmult_1_r|destruct ((h =? 3)%Z && (w =? 0)%Z); split; (lia || reflexivity)]|].
  split; [reflexivity|]. intros m. cbn [q_px q_scale].
  set (v := avg_pool2d _ _ _ _ _ _ * _). set (sc := 1 * div_scale _).
  assert (Ev : v == 127 # 768) by (vm_compute; reflexivity). assert (Es : sc == 1 # 1152) by (vm_compute; reflexivity).
  rewrite Ev, Es. clear. unfold Qeq, inject_Z. cbn [Qnum Qden Qmult Pos.mul]. lia.
Qed.

(** ** Leaky ReLU *)
Lemma aquant_monotone sg bw s x y : 0 < s -> (1 <= bw)%Z -> x <= y -> aquant sg bw s x <= aquant sg bw s y.
Proof. intros. apply (C04_monotone sg false Round s 0 bw x y); assumption. Qed.
Lemma aquant_grid sg bw s x : 0 < s -> (1 <= bw)%Z -> representable sg false bw s 0 (aquant sg bw s x).
Proof. intros. apply (C01_output_on_grid sg false Round s 0 bw x); assumption. Qed.
Lemma aquant_fix sg bw s x : 0 < s -> (1 <= bw)%Z -> aquant sg bw s (aquant sg bw s x) == aquant sg bw s x.
Proof. intros. apply (C02_idempotent sg false Round Round s 0 bw x); assumption. Qed.
Lemma aquant_close sg bw s x : 0 < s -> (1 <= bw)%Z ->
  inject_Z (range_lo sg false bw) * s - s * (1 # 2) <= x -> x <= inject_Z (range_hi sg false bw) * s + s * (1 # 2) ->
  Qabs (aquant sg bw s x - x) <= s * (1 # 2).
Proof.
  intros Hs Hb A B. apply (C03_half_step sg false s 0 bw x Hs Hb); unfold denote; change (inject_Z 0) with 0; lra.
Qed.
Lemma aquant_eq sg bw s x y : 0 < s -> (1 <= bw)%Z -> x == y -> aquant sg bw s x == aquant sg bw s y.
Proof. intros Hs Hb E. apply Qle_antisym; apply aquant_monotone; try assumption; lra. Qed.

Lemma slope_range sa slope : 0 < sa -> inject_Z 65535 * sa <= 1 -> 0 <= aquant false 16 sa slope <= 1.
Proof.
  intros Hs H. destruct (aquant_grid false 16 sa slope Hs ltac:(lia)) as (n & B & E).
  unfold in_range in B. change (range_lo false false 16) with 0%Z in B. change (range_hi false false 16) with 65535%Z in B.
  unfold denote in E. change (inject_Z 0) with 0 in E. destruct B as [B1 B2]. apply injz_le in B1, B2.
  change (inject_Z 0) with 0 in B1. rewrite E. split; nra.
Qed.
Lemma input_range si x : 0 < si -> inject_Z (-32768) * si <= aquant true 16 si x <= inject_Z 32767 * si.
Proof.
  intros Hs. destruct (aquant_grid true 16 si x Hs ltac:(lia)) as (n & B & E).
  unfold in_range in B. change (range_lo true false 16) with (-32768)%Z in B. change (range_hi true false 16) with 32767%Z in B.
  unfold denote in E. change (inject_Z 0) with 0 in E. destruct B as [B1 B2]. apply injz_le in B1, B2. rewrite E. split; nra.
Qed.
Lemma torch_max_mono a b c d : a <= c -> b <= d -> torch_max a b <= torch_max c d.
Proof. unfold torch_max. intros. repeat qcase; lra. Qed.

(** The output is a code of the output quantizer, and grows with the input. *)
Theorem C113_leaky_grid : forall slope si si2 sa so x, 0 < so ->
  exists n, (-128 <= n <= 127)%Z /\ leaky slope si si2 sa so x == inject_Z n * so.
Proof.
  intros slope si si2 sa so x Hs. unfold leaky. cbv zeta. set (y := torch_max _ _).
  destruct (aquant_grid true 8 so y Hs ltac:(lia)) as (n & B & E). exists n. split; [exact B|].
  rewrite E. unfold denote. change (inject_Z 0) with 0. ring.
Qed.

Theorem C113_leaky_monotone : forall slope si si2 sa so x y, 0 < si -> 0 < si2 -> 0 < sa -> 0 < so -> x <= y ->
  leaky slope si si2 sa so x <= leaky slope si si2 sa so y.
Proof.
  intros slope si si2 sa so x y H1 H2 H3 H4 L. unfold leaky. cbv zeta. apply aquant_monotone; [exact H4|lia|].
  pose proof (aquant_monotone true 16 si x y H1 ltac:(lia) L) as M.
  apply torch_max_mono; [exact M|]. apply aquant_monotone; [exact H2|lia|].
  destruct (aquant_grid false 16 sa slope H3 ltac:(lia)) as (n & B & E).
  unfold in_range in B. change (range_lo false false 16) with 0%Z in B. destruct B as [B _]. apply injz_le in B.
  unfold denote in E. change (inject_Z 0) with 0 in *. rewrite E. clear E.
  assert (P : 0 <= (inject_Z n - 0) * sa) by nra. set (al := (inject_Z n - 0) * sa) in *. nra.
Qed.

(** In evaluation mode (one input scale) and with a slope quantizer covering at most 1, a
    nonnegative input goes through the input and the output quantizer and nothing else. *)
Theorem C113_leaky_positive : forall slope si sa so x,
  0 < si -> 0 < sa -> 0 < so -> inject_Z 65535 * sa <= 1 -> 0 <= x ->
  leaky slope si si sa so x == int_quant (cfg true false Round) so 0 8 (int_quant (cfg true false Round) si 0 16 x).
Proof.
  intros slope si sa so x H1 H2 H3 Hc Hx. unfold leaky. cbv zeta.
  fold (aquant true 16 si x). fold (aquant true 8 so (aquant true 16 si x)). apply aquant_eq; [exact H3|lia|].
  destruct (slope_range sa slope H2 Hc) as [A1 A2].
  assert (Z0 : aquant true 16 si 0 == 0) by (apply (C07_zero_exact true false Round si 0 16 H1); [lia|split; vm_compute; discriminate]).
  pose proof (aquant_monotone true 16 si 0 x H1 ltac:(lia) Hx) as P. rewrite Z0 in P.
  set (al := aquant false 16 sa slope) in *. clearbody al.
  assert (L : aquant true 16 si (aquant true 16 si x * al) <= aquant true 16 si x).
  { rewrite <- (aquant_fix true 16 si x H1) at 2 by lia. apply aquant_monotone; [exact H1|lia|].
    set (v := aquant true 16 si x) in *. clearbody v. nra. }
  unfold torch_max. rewrite (proj2 (Qle_bool_iff _ _) L). reflexivity.
Qed.

(** The exact leaky ReLU, and the distance of the layer from it. *)
Definition leaky_exact (slope x : Q) : Q := if Qle_bool 0 x then x else slope * x.

Theorem C113_leaky_error : forall slope si sa so x,
  0 < si -> 0 < sa -> 0 < so -> 0 <= slope <= 1 ->
  inject_Z 65535 * sa <= 1 -> slope <= (inject_Z 65535 + (1 # 2)) * sa ->
  inject_Z (-32768) * si <= x <= inject_Z 32767 * si ->
  forall e, e == si * (1 # 2) + slope * si * (1 # 2) + (Qabs x + si * (1 # 2)) * sa * (1 # 2) ->
  inject_Z (-128) * so + e <= leaky_exact slope x <= inject_Z 127 * so - e ->
  Qabs (leaky slope si si sa so x - leaky_exact slope x) <= e + so * (1 # 2).
Proof.
  intros slope si sa so x H1 H2 H3 Hsl Hc Hr [X1 X2] e He [O1 O2]. unfold leaky. cbv zeta.
  pose proof (slope_range sa slope H2 Hc) as [A1 A2]. pose proof (input_range si x H1) as [I1 I2].
  change (inject_Z 65535) with (65535 # 1) in *. change (inject_Z (-32768)) with (-32768 # 1) in *.
  change (inject_Z 32767) with (32767 # 1) in *. change (inject_Z (-128)) with (-128 # 1) in *. change (inject_Z 127) with (127 # 1) in *.
  assert (D1 : Qabs (aquant true 16 si x - x) <= si * (1 # 2)).
  { apply aquant_close; [exact H1|lia| |]; change (inject_Z (range_lo true false 16)) with (-32768 # 1);
      change (inject_Z (range_hi true false 16)) with (32767 # 1); lra. }
  assert (D2 : Qabs (aquant false 16 sa slope - slope) <= sa * (1 # 2)).
  { apply aquant_close; [exact H2|lia| |]; change (inject_Z (range_lo false false 16)) with (0 # 1);
      change (inject_Z (range_hi false false 16)) with (65535 # 1); lra. }
  set (v := aquant true 16 si x) in *. set (al := aquant false 16 sa slope) in *. clearbody v al.
  assert (D3 : Qabs (aquant true 16 si (v * al) - v * al) <= si * (1 # 2)).
  { apply aquant_close; [exact H1|lia| |]; change (inject_Z (range_lo true false 16)) with (-32768 # 1);
      change (inject_Z (range_hi true false 16)) with (32767 # 1); nra. }
  set (w := aquant true 16 si (v * al)) in *. clearbody w.
  apply Qabs_Qle_condition in D1, D2, D3.
  assert (D4 : - (slope * si * (1 # 2) + (Qabs x + si * (1 # 2)) * sa * (1 # 2)) <= v * al - slope * x
               <= slope * si * (1 # 2) + (Qabs x + si * (1 # 2)) * sa * (1 # 2)).
  { assert (V : - (Qabs x + si * (1 # 2)) <= v <= Qabs x + si * (1 # 2)).
    { pose proof (Qle_Qabs x). pose proof (Qle_Qabs (- x)) as N. rewrite Qabs_opp in N. lra. }
    set (m := Qabs x + si * (1 # 2)) in *. clearbody m. clear - D1 D2 V Hsl H1 H2.
    assert (E : v * al - slope * x == v * (al - slope) + slope * (v - x)) by ring.
    assert (P1 : - (m * (sa * (1 # 2))) <= v * (al - slope) <= m * (sa * (1 # 2))).
    { set (d := al - slope) in *. clearbody d. set (h := sa * (1 # 2)) in *. clearbody h. split; nra. }
    assert (P2 : - (slope * (si * (1 # 2))) <= slope * (v - x) <= slope * (si * (1 # 2))).
    { set (d := v - x) in *. clearbody d. set (h := si * (1 # 2)) in *. clearbody h. split; nra. }
    rewrite E. lra. }
  set (t := slope * si * (1 # 2) + (Qabs x + si * (1 # 2)) * sa * (1 # 2)) in *.
  assert (T0 : 0 <= t).
  { unfold t. pose proof (Qabs_nonneg x). assert (0 <= slope * si) by nra. assert (0 <= (Qabs x + si * (1 # 2)) * sa) by nra. lra. }
  assert (Et : e == si * (1 # 2) + t) by (rewrite He; unfold t; ring). clearbody t.
  assert (D5 : - e <= torch_max v w - leaky_exact slope x <= e).
  { unfold leaky_exact, torch_max. clear O1 O2 A1 A2 I1 I2 He.
    destruct (Qle_bool 0 x) eqn:Q0.
    - apply Qle_bool_iff in Q0. assert (slope * x <= x) by nra. destruct (Qle_bool w v) eqn:Q1.
      + lra.
      + assert (~ w <= v) by (intros C; apply Qle_bool_iff in C; congruence). lra.
    - assert (N : ~ 0 <= x) by (intros C; apply Qle_bool_iff in C; congruence). assert (x <= slope * x) by nra.
      destruct (Qle_bool w v) eqn:Q1.
      + apply Qle_bool_iff in Q1. lra.
      + lra. }
  set (y := torch_max v w) in *. clearbody y.
  assert (D6 : Qabs (aquant true 8 so y - y) <= so * (1 # 2)).
  { apply aquant_close; [exact H3|lia| |]; change (inject_Z (range_lo true false 8)) with (-128 # 1);
      change (inject_Z (range_hi true false 8)) with (127 # 1); lra. }
  apply Qabs_Qle_condition in D6. apply Qabs_Qle_condition. lra.
Qed.

(** ** Calibration *)
(** Calibrated on the inputs alone, the range of the input quantizer covers them (up to the top
    code) ... *)
Lemma absmax_in l x : In x l -> Qabs x <= absmax l.
Proof.
  induction l as [|a l IH]; intros H; [destruct H|]. cbn [absmax]. unfold torch_max. destruct H as [->|H].
  - qcase; lra.
  - specialize (IH H). qcase; lra.
Qed.
Theorem C113_calibration_alone : forall xs x, In x xs -> Qabs x <= inject_Z 32768 * eval_scale true 16 (observe xs fresh).
Proof.
  intros xs x H. unfold observe, fresh. cbn [counter buffer Z.eqb]. unfold eval_scale. cbn [buffer].
  change (inject_Z (max_int true false 16 + 1)) with (32768 # 1). change (inject_Z 32768) with (32768 # 1).
  pose proof (absmax_in xs x H) as A. set (b := torch_max (absmax xs) scaling_min_val).
  assert (B : Qabs x <= b /\ scaling_min_val <= b) by (unfold b, torch_max; qcase; lra). destruct B as [B1 B2].
  clearbody b. unfold scaling_min_val in B2.
  assert (P : 0 < 1 * b / (32768 # 1)) by (unfold Qdiv; change (/ (32768 # 1)) with (1 # 32768); lra).
  destruct (ceil_log2_spec _ P) as [C _]. unfold Qdiv in C at 1. change (/ (32768 # 1)) with (1 # 32768) in C.
  set (p := pow2 _) in *. clearbody p. assert (M : p <= torch_max p scaling_min_val) by (unfold torch_max; qcase; lra).
  set (t := torch_max _ _) in *. clearbody t. lra.
Qed.

(** Over several batches the quantizer keeps the average of the batches' largest magnitudes. *)
Theorem C113_calibration_average : forall batches, batches <> [] ->
  let st := fold_left (fun st l => observe l st) batches fresh in
  counter st = Z.of_nat (List.length batches) /\
  buffer st == Qsum (map (fun l => torch_max (absmax l) (1 # 10000000000)) batches) / inject_Z (Z.of_nat (List.length batches)).
Proof.
  assert (Inv : forall bs st S, (1 <= counter st)%Z -> buffer st * inject_Z (counter st) == S ->
    counter (fold_left (fun st l => observe l st) bs st) = (counter st + Z.of_nat (List.length bs))%Z /\
    buffer (fold_left (fun st l => observe l st) bs st) * inject_Z (counter st + Z.of_nat (List.length bs))
      == S + Qsum (map (fun l => torch_max (absmax l) (1 # 10000000000)) bs)).
  { induction bs as [|b bs IH]; intros st S C E; cbn [fold_left map Qsum List.length].
    - rewrite Z.add_0_r. split; [reflexivity|]. rewrite E. ring.
    - assert (P : 0 < inject_Z (counter st + 1)) by (change 0 with (inject_Z 0); apply injz_lt; lia).
      destruct (IH (observe b st) (S + torch_max (absmax b) (1 # 10000000000))) as [I1 I2].
      + unfold observe. cbv zeta. destruct (counter st =? 0)%Z; cbn [counter]; lia.
      + unfold observe. cbv zeta. rewrite (proj2 (Z.eqb_neq (counter st) 0)) by lia. cbn [counter buffer].
        fold scaling_min_val. rewrite <- E. field. lra.
      + assert (Ec : counter (observe b st) = (counter st + 1)%Z).
        { unfold observe. cbv zeta. destruct (counter st =? 0)%Z; reflexivity. }
        rewrite Ec in I1, I2. replace (counter st + Z.of_nat (Datatypes.S (List.length bs)))%Z with (counter st + 1 + Z.of_nat (List.length bs))%Z by lia.
        split; [exact I1|]. rewrite I2. ring. }
  intros [|b bs] N; [contradiction|]. cbv zeta. cbn [fold_left map Qsum].
  destruct (Inv bs (observe b fresh) (torch_max (absmax b) (1 # 10000000000))) as [I1 I2].
  - cbn. lia.
  - unfold observe, fresh. cbn [counter buffer Z.eqb]. fold scaling_min_val. change (inject_Z (0 + 1)) with 1. ring.
  - change (counter (observe b fresh)) with 1%Z in I1, I2.
    replace (Z.of_nat (List.length (b :: bs))) with (1 + Z.of_nat (List.length bs))%Z by (cbn [List.length]; lia).
    split; [exact I1|]. rewrite <- I2. field.
    assert (P : 0 < inject_Z (1 + Z.of_nat (List.length bs))) by (change 0 with (inject_Z 0); apply injz_lt; lia). lra.
Qed.

(** ... but the layer calls the same quantizer on the input times the slope as well, and averages
    the two: the range after calibration can be little more than half of what was seen. *)
Theorem C113_calibration_refuted : exists slope xs x, 0 < slope < 1 /\ In x xs /\ 0 < x /\
  inject_Z 32767 * eval_scale true 16 (observe_input slope xs fresh) < (3 # 5) * x /\
  forall sa so, 0 < sa -> 0 < so -> inject_Z 65535 * sa <= 1 ->
    let si := eval_scale true 16 (observe_input slope xs fresh) in
    leaky slope si si sa so x <= (3 # 5) * x + so * (1 # 2).
Proof.
  exists (1 # 100), [19 # 10; -1 # 1], (19 # 10).
  assert (E : eval_scale true 16 (observe_input (1 # 100) [19 # 10; -1 # 1] fresh) == 1 # 32768) by (vm_compute; reflexivity).
  assert (P : 0 < eval_scale true 16 (observe_input (1 # 100) [19 # 10; -1 # 1] fresh)) by (rewrite E; reflexivity).
  assert (C : inject_Z 32767 * eval_scale true 16 (observe_input (1 # 100) [19 # 10; -1 # 1] fresh) < (3 # 5) * (19 # 10))
    by (rewrite E; reflexivity).
  split; [split; reflexivity|]. split; [left; reflexivity|]. split; [reflexivity|]. split; [exact C|].
  intros sa so Ha Hs Hc. cbv zeta. set (si := eval_scale _ _ _) in *. clearbody si.
  rewrite (C113_leaky_positive (1 # 100) si sa so (19 # 10) P Ha Hs Hc) by discriminate.
  fold (aquant true 16 si (19 # 10)). destruct (input_range si (19 # 10) P) as [_ I]. set (y := aquant true 16 si (19 # 10)) in *.
  clearbody y. fold (aquant true 8 so y).
  destruct (Qlt_le_dec ((inject_Z 127 + (1 # 2)) * so) y) as [L|L].
  - destruct (aquant_grid true 8 so y Hs ltac:(lia)) as (n & B & En). unfold in_range in B.
    change (range_hi true false 8) with 127%Z in B. destruct B as [_ B]. apply injz_le in B.
    unfold denote in En. change (inject_Z 0) with 0 in En. rewrite En. change (inject_Z 127) with (127 # 1) in *. nra.
  - destruct (Qlt_le_dec y ((-128 # 1) * so)) as [L2|L2].
    + pose proof (aquant_monotone true 8 so y ((-128 # 1) * so) Hs ltac:(lia) ltac:(lra)) as M.
      assert (F : aquant true 8 so ((-128 # 1) * so) == (-128 # 1) * so).
      { apply (C01_grid_is_reached true false Round so 0 8 _ Hs ltac:(lia)). exists (-128)%Z.
        split; [split; vm_compute; discriminate|]. unfold denote. change (inject_Z 0) with 0. change (inject_Z (-128)) with (-128 # 1). ring. }
      rewrite F in M. lra.
    + assert (D : Qabs (aquant true 8 so y - y) <= so * (1 # 2)).
      { apply aquant_close; [exact Hs|lia| |]; change (inject_Z (range_lo true false 8)) with (-128 # 1);
          change (inject_Z (range_hi true false 8)) with (127 # 1); change (inject_Z 127) with (127 # 1) in L; lra. }
      apply Qabs_Qle_condition in D. lra.
Qed.

(** ** Sharing *)
(** Layers that do not name an input quantizer have the same one: training either moves the
    scale of the other.  With quantizers of their own they are independent. *)
Theorem C113_sharing : forall a a1 o1 b a2 o2 xs s,
  let la := make_leaky a a1 None o1 in
  let lb := make_leaky b a2 None o2 in
  input_scale lb (train_layer la xs s) = input_scale la (train_layer la xs s).
Proof. reflexivity. Qed.

Theorem C113_own_quantizers : forall a a1 i1 o1 b a2 i2 o2 xs s, i1 <> i2 ->
  let la := make_leaky a a1 (Some i1) o1 in
  let lb := make_leaky b a2 (Some i2) o2 in
  input_scale lb (train_layer la xs s) = input_scale lb s.
Proof.
  intros a a1 i1 o1 b a2 i2 o2 xs s N. cbv zeta. unfold input_scale, train_layer, make_leaky. cbn [l_input].
  rewrite (proj2 (Nat.eqb_neq i2 i1)) by congruence. reflexivity.
Qed.

Theorem C113_independent_refuted : exists a b xs s,
  let la := make_leaky a None None None in
  let lb := make_leaky b None None None in
  input_scale lb s == 1 # 32768 /\ input_scale lb (train_layer la xs s) == 128 # 32768.
Proof.
  exists (1 # 10), (1 # 10), [200 # 1], (fun _ => fresh). cbv zeta. split; vm_compute; reflexivity.
Qed.

(** ** Examples *)
Example C113_nontrivial :
  kernel_ok (KPair 3 2) /\ out_ok (PC (KInt 2) 2 2 1 1 false) 4 4 1 2 /\
  div_value (KInt 7) == 127 # 6272 /\ max_acc_bit_width (KInt 7) 8 = 21%Z /\
  window_sum (PC (KInt 2) 2 2 1 1 false) 4 4 (fun h w => inject_Z (4 * h + w)) 1 2 == 18 /\
  leaky (1 # 4) (1 # 1024) (1 # 1024) (1 # 65536) (1 # 16) (-9 # 8) == -1 # 4 /\
  leaky (1 # 4) (1 # 1024) (1 # 1024) (1 # 65536) (1 # 16) (9 # 8) == 9 # 8.
Proof. repeat split; try (vm_compute; congruence); vm_compute; reflexivity. Qed.

Print Assumptions C113_reciprocal.
Print Assumptions C113_pool_value.
Print Assumptions C113_pool_returns.
Print Assumptions C113_pool_metadata.
Print Assumptions C113_pool_exact_refuted.
Print Assumptions C113_pool_codes.
Print Assumptions C113_pool_signed_refuted.
Print Assumptions C113_pool_ceil_refuted.
Print Assumptions C113_leaky_grid.
Print Assumptions C113_leaky_monotone.
Print Assumptions C113_leaky_positive.
Print Assumptions C113_leaky_error.
Print Assumptions C113_calibration_alone.
Print Assumptions C113_calibration_average.
Print Assumptions C113_calibration_refuted.
Print Assumptions C113_sharing.
Print Assumptions C113_own_quantizers.
Print Assumptions C113_independent_refuted.
