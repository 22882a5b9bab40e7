(** Properties C15-C19: arithmetic on quantized tensors. *)
From Verif Require Import QUtil Log2Q Ops OpsProofs IntQuantProps QuantTensor.
Open Scope Q_scope.

(** ** Specification

    A quantized tensor stands for a list of integer codes: each element equals
    (code - zero point) * scale, and every code lies in the integer range declared by the
    signedness and bit width of the tensor. *)
Definition stands_for (t : iqt) (ks : list Z) : Prop :=
  0 < qt_scale t
  /\ Forall2 (fun v k => v == (inject_Z k - qt_zp t) * qt_scale t) (qt_value t) ks
  /\ Forall (in_range (qt_signed t) false (qt_bw t)) ks.

Definition fits (d : dtype) (n : Z) : Prop :=
  match d with
  | Int8 => (-128 <= n <= 127)%Z
  | UInt8 => (0 <= n <= 255)%Z
  | Int32 => (- 2 ^ 31 <= n <= 2 ^ 31 - 1)%Z
  end.

(** ** Helper lemmas *)
Lemma pre_round_codes t ks : stands_for t ks -> map roundZ (pre_round t) = ks
  /\ Forall2 (fun p k => p == inject_Z k) (pre_round t) ks.
Proof.
  intros (Hs & Hv & _). unfold pre_round. set (v := qt_value t) in *. clearbody v.
  induction Hv as [|x k l ks Hx _ IH]; cbn [map]; [split; [reflexivity|constructor]|].
  assert (E : x / qt_scale t + qt_zp t == inject_Z k).
  { rewrite Hx. field. apply Qpos_neq0, Hs. }
  destruct IH as [IH1 IH2]. split.
  - f_equal; [|exact IH1]. rewrite (roundZ_eq _ _ E). apply roundZ_int.
  - constructor; [exact E|exact IH2].
Qed.

Lemma stands_for_is_int t ks : stands_for t ks ->
  forallb (fun p => Qlt_bool (Qabs (p - inject_Z (roundZ p))) is_valid_atol) (pre_round t) = true.
Proof.
  intros H. apply forallb_forall. intros p Hp.
  destruct (pre_round_codes t ks H) as [_ F].
  apply Qlt_bool_iff. unfold is_valid_atol.
  assert (exists k, p == inject_Z k) as [k E].
  { clear H. induction F as [|a b c d Hab _ IH]; [destruct Hp|]. destruct Hp as [<-|Hp]; [exists b; exact Hab|apply IH, Hp]. }
  rewrite (roundZ_eq _ _ E), roundZ_int.
  assert (Z0 : p - inject_Z k == 0) by lra. rewrite Z0. reflexivity.
Qed.

Lemma stands_for_valid t ks : (2 <= qt_bw t)%Z -> stands_for t ks -> is_valid t = true.
Proof.
  intros Hb H. unfold is_valid. rewrite (stands_for_is_int t ks H).
  destruct (pre_round_codes t ks H) as [E _]. rewrite E.
  destruct H as (_ & _ & R). rewrite (proj2 (Z.leb_le 2 (qt_bw t)) Hb).
  rewrite Forall_forall in R.
  destruct (qt_signed t); cbn [andb]; apply andb_true_iff; split; apply forallb_forall; intros r Hr;
    apply Z.leb_le; specialize (R r Hr); unfold in_range, range_lo, range_hi in R; lia.
Qed.

Lemma int_float_codes t ks : (2 <= qt_bw t)%Z -> stands_for t ks -> int_float t = Some ks.
Proof.
  intros Hb H. unfold int_float. rewrite (stands_for_valid t ks Hb H).
  destruct (pre_round_codes t ks H) as [-> _]. reflexivity.
Qed.

Lemma Forall2_map2 {A B} (P : A -> Z -> Prop) (Q0 : A -> Z -> Prop) (R : B -> Z -> Prop)
  (f : A -> A -> B) (g : Z -> Z -> Z) :
  (forall v1 k1 v2 k2, P v1 k1 -> Q0 v2 k2 -> R (f v1 v2) (g k1 k2)) ->
  forall l1 ks1 l2 ks2, Forall2 P l1 ks1 -> Forall2 Q0 l2 ks2 ->
  Forall2 R (map2 f l1 l2) (map2 g ks1 ks2).
Proof.
  intros H l1 ks1 l2 ks2 H1. revert l2 ks2.
  induction H1 as [|x k l ks Hx _ IH]; intros l2 ks2 H2.
  - inversion H2; subst; constructor.
  - inversion H2 as [|y k2 l2' ks2' Hy H2']; subst; unfold map2; cbn; constructor.
    + apply H; assumption.
    + apply (IH l2' ks2' H2').
Qed.

Lemma Forall_map2 (P Q0 R : Z -> Prop) g :
  (forall a b, P a -> Q0 b -> R (g a b)) ->
  forall l1 l2, Forall P l1 -> Forall Q0 l2 -> Forall R (map2 g l1 l2).
Proof.
  intros H l1 l2 H1. revert l2. induction H1 as [|x l Hx _ IH]; intros l2 H2; [constructor|].
  inversion H2 as [|y l2' Hy H2']; subst; unfold map2; cbn; constructor; [apply H; assumption|apply IH; assumption].
Qed.

(** ** C15 *)
Lemma mul_in_range sg1 sg2 b1 b2 k1 k2 :
  (1 <= b1)%Z -> (1 <= b2)%Z -> in_range sg1 false b1 k1 -> in_range sg2 false b2 k2 ->
  in_range (sg1 || sg2) false (b1 + b2) (k1 * k2).
Proof.
  intros H1 H2. unfold in_range.
  pose proof (pow2Z_pos (b1 - 1) ltac:(lia)) as P1. pose proof (pow2Z_pos (b2 - 1) ltac:(lia)) as P2.
  pose proof (pow2Z_half b1 H1) as E1. pose proof (pow2Z_half b2 H2) as E2.
  assert (E : (2 ^ (b1 + b2 - 1) = 2 * (2 ^ (b1 - 1) * 2 ^ (b2 - 1)))%Z).
  { rewrite <- Z.pow_add_r by lia. rewrite <- (Z.pow_succ_r 2) by lia. f_equal. lia. }
  assert (E' : (2 ^ (b1 + b2) = 4 * (2 ^ (b1 - 1) * 2 ^ (b2 - 1)))%Z).
  { rewrite (pow2Z_half (b1 + b2)) by lia. rewrite E. lia. }
  destruct sg1, sg2; cbn [orb range_lo range_hi]; rewrite ?E, ?E', ?E1, ?E2;
    set (p := (2 ^ (b1 - 1))%Z) in *; set (q := (2 ^ (b2 - 1))%Z) in *; clearbody p q; intros A B; nia.
Qed.

Theorem C15_product_fits : forall a b ka kb,
  stands_for a ka -> stands_for b kb -> (1 <= qt_bw a)%Z -> (1 <= qt_bw b)%Z ->
  qt_zp a == 0 -> qt_zp b == 0 ->
  exists r, mul a b = Some r
    /\ stands_for r (map2 Z.mul ka kb)
    /\ qt_value r = map2 Qmult (qt_value a) (qt_value b).
Proof.
  intros a b ka kb (Sa & Va & Ra) (Sb & Vb & Rb) Ha Hb Za Zb. unfold mul.
  rewrite (proj2 (Qeq_bool_iff _ _) Za), (proj2 (Qeq_bool_iff _ _) Zb). cbn [andb].
  eexists. split; [reflexivity|]. split; [|reflexivity].
  unfold stands_for. cbn [qt_scale qt_zp qt_value qt_bw qt_signed]. split; [|split].
  - apply Qmult_lt_0_compat; assumption.
  - eapply Forall2_map2; [|exact Va|exact Vb]. cbv beta. intros v1 k1 v2 k2 H1 H2.
    rewrite H1, H2, Za, Zb, inject_Z_mult. ring.
  - eapply Forall_map2; [|exact Ra|exact Rb]. intros. apply mul_in_range; assumption.
Qed.

(** Non-zero zero points are rejected. *)
Theorem C15_product_rejects_zero_points : forall a b,
  ~ (qt_zp a == 0 /\ qt_zp b == 0) -> mul a b = None.
Proof.
  intros a b H. unfold mul. destruct (Qeq_bool (qt_zp a) 0) eqn:E1; [|reflexivity].
  destruct (Qeq_bool (qt_zp b) 0) eqn:E2; [|reflexivity]. exfalso. apply H.
  split; apply Qeq_bool_iff; assumption.
Qed.

(** Quotients (not integral in general) stay inside the declared range. *)
Theorem C15_quotient_in_range : forall a b ka kb,
  stands_for a ka -> stands_for b kb -> (1 <= qt_bw a)%Z -> (1 <= qt_bw b)%Z ->
  qt_zp a == 0 -> qt_zp b == 0 -> Forall (fun k => k <> 0%Z) kb ->
  exists r, truediv a b = Some r /\ 0 < qt_scale r
    /\ Forall (fun v => inject_Z (range_lo (qt_signed r) false (qt_bw r)) <= v / qt_scale r + qt_zp r
                        <= inject_Z (range_hi (qt_signed r) false (qt_bw r))) (qt_value r).
Proof.
  intros a b ka kb (Sa & Va & Ra) (Sb & Vb & Rb) Ha Hb Za Zb Nz. unfold truediv.
  rewrite (proj2 (Qeq_bool_iff _ _) Za), (proj2 (Qeq_bool_iff _ _) Zb). cbn [andb].
  eexists. split; [reflexivity|]. cbn [qt_scale qt_zp qt_value qt_bw qt_signed].
  set (M := pow2 (qt_bw b - (if qt_signed b then 1 else 0))).
  assert (HM : 0 < M) by apply pow2_pos.
  assert (Hd : 0 < qt_scale b * M) by (apply Qmult_lt_0_compat; assumption).
  split; [apply Qdiv_pos; assumption|].
  set (sg1 := qt_signed a) in *. set (sg2 := qt_signed b) in *.
  set (b1 := qt_bw a) in *. set (b2 := qt_bw b) in *.
  assert (K : forall k1 k2, in_range sg1 false b1 k1 -> in_range sg2 false b2 k2 -> k2 <> 0%Z ->
     inject_Z (range_lo (sg1 || sg2) false (b1 + b2)) <= inject_Z k1 * M / inject_Z k2
     <= inject_Z (range_hi (sg1 || sg2) false (b1 + b2))).
  { intros k1 k2 R1 R2 N2.
    set (m := (2 ^ (b2 - (if sg2 then 1 else 0)))%Z).
    assert (EM : M == inject_Z m).
    { unfold M, m. apply pow2_nonneg_Z. destruct sg2; lia. }
    assert (D : forall lo hi, (0 < k2 -> lo * k2 <= k1 * m <= hi * k2)%Z -> (k2 < 0 -> hi * k2 <= k1 * m <= lo * k2)%Z ->
       inject_Z lo <= inject_Z k1 * M / inject_Z k2 <= inject_Z hi).
    { intros lo hi Dp Dn. rewrite EM. destruct (Z_lt_le_dec 0 k2) as [L|L].
      - specialize (Dp L). pose proof (injz_lt 0 k2 L) as L'. destruct Dp as [D1 D2].
        apply injz_le in D1, D2. rewrite !inject_Z_mult in *.
        split; [apply Qle_shift_div_l|apply Qle_shift_div_r]; assumption.
      - assert (L2 : (k2 < 0)%Z) by lia. specialize (Dn L2). destruct Dn as [D1 D2].
        pose proof (injz_lt 0 (- k2) ltac:(lia)) as L'.
        apply injz_le in D1, D2. rewrite !inject_Z_mult in *.
        assert (E : inject_Z k1 * inject_Z m / inject_Z k2 == (- (inject_Z k1 * inject_Z m)) / inject_Z (- k2)).
        { rewrite inject_Z_opp. field. intros C. apply N2. apply injz_eq_inv. exact C. }
        rewrite E. rewrite inject_Z_opp in L'.
        split; [apply Qle_shift_div_l|apply Qle_shift_div_r]; rewrite ?inject_Z_opp; try exact L'; lra. }
    pose proof (pow2Z_pos (b1 - 1) ltac:(lia)) as P1. pose proof (pow2Z_pos (b2 - 1) ltac:(lia)) as P2.
    pose proof (pow2Z_half b1 Ha) as E1. pose proof (pow2Z_half b2 Hb) as E2.
    assert (E : (2 ^ (b1 + b2 - 1) = 2 * (2 ^ (b1 - 1) * 2 ^ (b2 - 1)))%Z).
    { rewrite <- Z.pow_add_r by lia. rewrite <- (Z.pow_succ_r 2) by lia. f_equal. lia. }
    assert (E' : (2 ^ (b1 + b2) = 4 * (2 ^ (b1 - 1) * 2 ^ (b2 - 1)))%Z).
    { rewrite (pow2Z_half (b1 + b2)) by lia. rewrite E. lia. }
    assert (Em : (m = if sg2 then 2 ^ (b2 - 1) else 2 * 2 ^ (b2 - 1))%Z).
    { unfold m. destruct sg2; [reflexivity|]. rewrite Z.sub_0_r. exact E2. }
    clear EM. clearbody m. revert R1 R2. unfold in_range.
    destruct sg1, sg2; cbn [orb range_lo range_hi]; rewrite ?Z.sub_0_r, ?E, ?E', ?E1, ?E2;
      set (p := (2 ^ (b1 - 1))%Z) in *; set (q := (2 ^ (b2 - 1))%Z) in *; clearbody p q;
      intros R1 R2; apply D; intros L; rewrite Em; nia. }
  revert kb Vb Rb Nz. generalize (qt_value b).
  induction Va as [|x k l ks Hx _ IH]; intros vb kb Vb Rb Nz; [constructor|].
  inversion Ra as [|? ? Rk Rks]; subst.
  destruct Vb as [|y k2 lb kb Hy Vb']; [constructor|].
  inversion Rb as [|? ? Rk2 Rkb]; subst. inversion Nz as [|? ? N2 Nkb]; subst.
  unfold map2; cbn; constructor.
  - assert (E : x / y / (qt_scale a / (qt_scale b * M)) + qt_zp a * qt_zp b == inject_Z k * M / inject_Z k2).
    { rewrite Hx, Hy, Za, Zb. field. repeat split; try (apply Qpos_neq0; assumption).
      intros C. apply N2. apply injz_eq_inv. exact C. }
    rewrite E. apply K; assumption.
  - apply (IH Rks lb kb Vb' Rkb Nkb).
Qed.

Definition ex_a : iqt := {| qt_value := [- 4 # 1; 3 # 2]; qt_scale := 1 # 2; qt_zp := 0; qt_bw := 4; qt_signed := true; qt_training := false |}.
Definition ex_b : iqt := {| qt_value := [15 # 4; 1 # 4]; qt_scale := 1 # 4; qt_zp := 0; qt_bw := 4; qt_signed := false; qt_training := false |}.
Lemma ex_a_ok : stands_for ex_a [-8; 3]%Z.
Proof. repeat split; repeat constructor; try (cbn; lra); cbn; try lia; reflexivity. Qed.
Lemma ex_b_ok : stands_for ex_b [15; 1]%Z.
Proof. repeat split; repeat constructor; try (cbn; lra); cbn; try lia; reflexivity. Qed.
Example C15_nontrivial : exists r, mul ex_a ex_b = Some r /\ stands_for r [-120; 3]%Z /\ qt_bw r = 8%Z.
Proof.
  destruct (C15_product_fits ex_a ex_b _ _ ex_a_ok ex_b_ok) as (r & H & S & _); try (cbn; lia); try reflexivity.
  exists r. split; [exact H|]. split; [exact S|]. injection H as <-. reflexivity.
Qed.

(** ** C16 *)
Lemma add_bits_even p q w : (2 <= p)%Z -> (2 <= q)%Z -> (0 <= w)%Z -> (p mod 2 = 0)%Z -> (q mod 2 = 0)%Z ->
  (2 * p + 2 * q - 2 <= 2 ^ w)%Z -> (2 * p + 2 * q <= 2 ^ w)%Z.
Proof.
  intros Hp Hq Hw Ep Eq H.
  assert (W : (3 <= w)%Z).
  { destruct (Z_lt_le_dec w 3) as [L|L]; [|exact L]. exfalso.
    assert (2 ^ w <= 2 ^ 2)%Z by (apply Z.pow_le_mono_r; lia). lia. }
  assert (F : (2 ^ w = 4 * 2 ^ (w - 2))%Z).
  { change 4%Z with (2 ^ 2)%Z. rewrite <- Z.pow_add_r by lia. f_equal. lia. }
  rewrite F in *. Z.to_euclidean_division_equations. lia.
Qed.

Lemma ceil_log2_Z n : (1 <= n)%Z -> (n <= 2 ^ ceil_log2 (inject_Z n))%Z /\ (0 <= ceil_log2 (inject_Z n))%Z.
Proof.
  intros H. pose proof (injz_lt 0 n ltac:(lia)) as P. destruct (ceil_log2_spec _ P) as [A B].
  assert (W : (0 <= ceil_log2 (inject_Z n))%Z).
  { apply pow2_le_inv. rewrite pow2_0. apply injz_le in H. change (inject_Z 1) with 1 in H. lra. }
  split; [|exact W]. rewrite pow2_nonneg_Z in A by exact W. apply injz_le_inv, A.
Qed.

Lemma add_in_range sg b1 b2 k1 k2 :
  (2 <= b1)%Z -> (2 <= b2)%Z -> in_range sg false b1 k1 -> in_range sg false b2 k2 ->
  in_range sg false (add_bit_width sg sg b1 b2) (k1 + k2).
Proof.
  intros H1 H2. unfold in_range.
  pose proof (pow2Z_half b1 ltac:(lia)) as E1. pose proof (pow2Z_half b2 ltac:(lia)) as E2.
  pose proof (pow2Z_half (b1 - 1) ltac:(lia)) as E3. pose proof (pow2Z_half (b2 - 1) ltac:(lia)) as E4.
  pose proof (pow2Z_pos (b1 - 1 - 1) ltac:(lia)) as P1. pose proof (pow2Z_pos (b2 - 1 - 1) ltac:(lia)) as P2.
  unfold add_bit_width. rewrite !min_int_spec, !max_int_spec.
  set (n := (range_hi sg false b1 + range_hi sg false b2 - (range_lo sg false b1 + range_lo sg false b2))%Z).
  assert (En : n = (2 * 2 ^ (b1 - 1) + 2 * 2 ^ (b2 - 1) - 2)%Z).
  { unfold n. destruct sg; cbn [range_hi range_lo]; lia. }
  destruct (ceil_log2_Z n ltac:(lia)) as [A W]. rewrite En in A at 1.
  set (w := ceil_log2 (inject_Z n)) in *. clearbody w.
  apply add_bits_even in A; try lia.
  2:{ rewrite E3. rewrite Z.mul_comm. apply Z_mod_mult. }
  2:{ rewrite E4. rewrite Z.mul_comm. apply Z_mod_mult. }
  assert (W1 : (1 <= w)%Z).
  { destruct (Z.eq_dec w 0) as [->|]; [change (2 ^ 0)%Z with 1%Z in A|]; lia. }
  pose proof (pow2Z_half w W1) as Ew.
  destruct sg; cbn [range_hi range_lo]; lia.
Qed.

Theorem C16_sum_fits : forall a b ka kb,
  stands_for a ka -> stands_for b kb -> (2 <= qt_bw a)%Z -> (2 <= qt_bw b)%Z ->
  qt_signed a = qt_signed b -> qt_scale a == qt_scale b ->
  exists r, add a b = Some r
    /\ stands_for r (map2 Z.add ka kb)
    /\ qt_scale r == qt_scale a
    /\ qt_value r = map2 Qplus (qt_value a) (qt_value b).
Proof.
  intros a b ka kb (Sa & Va & Ra) (Sb & Vb & Rb) Ha Hb Hsg Hsc. unfold add.
  assert (C : check_scale a b = true).
  { unfold check_scale, allclose. destruct (qt_training a); [reflexivity|]. apply Qle_bool_iff.
    assert (E : qt_scale a - qt_scale b == 0) by lra. rewrite E.
    pose proof (Qabs_nonneg (qt_scale b)). change (Qabs 0) with 0. lra. }
  rewrite C. eexists. split; [reflexivity|]. cbn [qt_scale qt_value].
  assert (Es : (qt_scale a + qt_scale b) / 2 == qt_scale a) by (rewrite Hsc; field).
  split; [|split; [exact Es|reflexivity]].
  unfold stands_for. cbn [qt_scale qt_zp qt_value qt_bw qt_signed]. split; [|split].
  - lra.
  - eapply Forall2_map2; [|exact Va|exact Vb]. cbv beta. intros v1 k1 v2 k2 H1 H2.
    rewrite H1, H2, Es, <- Hsc, inject_Z_plus. ring.
  - rewrite <- Hsg in *. rewrite orb_diag.
    eapply Forall_map2; [|exact Ra|exact Rb]. intros. apply add_in_range; assumption.
Qed.

(** Mixed signedness: the declared width is too small (s8 + u8 reaches 127 + 255 = 382, the
    result claims 9 signed bits). *)
Theorem C16_mixed_sign_refuted :
  exists a b ka kb r, stands_for a ka /\ stands_for b kb /\ qt_bw a = 8%Z /\ qt_bw b = 8%Z
    /\ qt_scale a == qt_scale b /\ add a b = Some r
    /\ qt_bw r = 9%Z /\ qt_signed r = true
    /\ (forall ks, ~ stands_for r ks) /\ is_valid r = false.
Proof.
  exists {| qt_value := [127]; qt_scale := 1; qt_zp := 0; qt_bw := 8; qt_signed := true; qt_training := false |},
         {| qt_value := [255]; qt_scale := 1; qt_zp := 0; qt_bw := 8; qt_signed := false; qt_training := false |},
         [127%Z], [255%Z].
  eexists. split; [|split; [|split; [|split; [|split; [|split; [reflexivity|]]]]]]; try reflexivity.
  1,2: repeat split; repeat constructor; cbn; try lia; reflexivity.
  split; [reflexivity|]. split; [reflexivity|].
  match goal with |- (forall ks, ~ stands_for ?r ks) /\ _ => assert (V : is_valid r = false) by reflexivity end.
  split; [|exact V]. intros ks S. apply stands_for_valid in S; [congruence|]. vm_compute. discriminate.
Qed.

(** One-bit unsigned operands: 1 + 1 = 2 does not fit the declared single bit. *)
Theorem C16_one_bit_refuted :
  exists a b ka kb r, stands_for a ka /\ stands_for b kb /\ qt_bw a = 1%Z /\ qt_bw b = 1%Z
    /\ qt_signed a = false /\ qt_signed b = false
    /\ qt_scale a == qt_scale b /\ add a b = Some r /\ qt_bw r = 1%Z /\ qt_signed r = false
    /\ qt_value r = [2] /\ qt_scale r == 1 /\ qt_zp r == 0.
Proof.
  exists {| qt_value := [1]; qt_scale := 1; qt_zp := 0; qt_bw := 1; qt_signed := false; qt_training := false |},
         {| qt_value := [1]; qt_scale := 1; qt_zp := 0; qt_bw := 1; qt_signed := false; qt_training := false |},
         [1%Z], [1%Z].
  eexists. split; [|split; [|split; [|split; [|split; [|split; [|split; [|split; [reflexivity|]]]]]]]]; try reflexivity.
  1,2: repeat split; repeat constructor; cbn; try lia; reflexivity.
  repeat split; reflexivity.
Qed.

(** Scales below torch.allclose's absolute tolerance (1e-8): tensors whose scales differ by a
    factor 5 are accepted in evaluation mode and the sum is not a valid quantized tensor. *)
Theorem C16_tiny_scales_refuted :
  exists a b ka kb r, stands_for a ka /\ stands_for b kb /\ qt_bw a = 8%Z /\ qt_bw b = 8%Z
    /\ qt_training a = false /\ qt_training b = false
    /\ qt_scale b == 5 * qt_scale a /\ add a b = Some r /\ (forall ks, ~ stands_for r ks) /\ is_valid r = false.
Proof.
  exists {| qt_value := [1 # 1000000000]; qt_scale := 1 # 1000000000; qt_zp := 0; qt_bw := 8; qt_signed := true; qt_training := false |},
         {| qt_value := [0]; qt_scale := 5 # 1000000000; qt_zp := 0; qt_bw := 8; qt_signed := true; qt_training := false |},
         [1%Z], [0%Z].
  eexists. split; [|split; [|split; [|split; [|split; [|split; [|split; [|split; [reflexivity|]]]]]]]]; try reflexivity.
  1,2: repeat split; repeat constructor; cbn; try lia; reflexivity.
  match goal with |- (forall ks, ~ stands_for ?r ks) /\ _ => assert (V : is_valid r = false) by reflexivity end.
  split; [|exact V]. intros ks S. apply stands_for_valid in S; [congruence|]. vm_compute. discriminate.
Qed.

(** Adding a float constant keeps the integer codes and moves only the zero point. *)
Theorem C16_add_constant : forall a ka c,
  stands_for a ka -> stands_for (add_const a c) ka /\ Forall2 (fun v w => w == v + c) (qt_value a) (qt_value (add_const a c)).
Proof.
  intros a ka c (Sa & Va & Ra). split.
  - unfold stands_for, add_const; cbn [qt_scale qt_zp qt_value qt_bw qt_signed]. split; [exact Sa|split; [|exact Ra]].
    clear Ra. induction Va as [|x k l ks Hx _ IH]; cbn; constructor; [|exact IH].
    rewrite Hx. field. apply Qpos_neq0, Sa.
  - cbn. clear. induction (qt_value a); cbn; constructor; [reflexivity|assumption].
Qed.

Definition ex_c : iqt := {| qt_value := [7 # 2; - 1 # 2]; qt_scale := 1 # 2; qt_zp := 1; qt_bw := 5; qt_signed := true; qt_training := false |}.
Lemma ex_c_ok : stands_for ex_c [8; 0]%Z.
Proof. repeat split; repeat constructor; cbn; try lia; reflexivity. Qed.
Example C16_nontrivial : exists r, add ex_a ex_c = Some r /\ stands_for r [0; 3]%Z /\ qt_bw r = 6%Z.
Proof.
  destruct (C16_sum_fits ex_a ex_c _ _ ex_a_ok ex_c_ok) as (r & H & S & _); try (cbn; lia); try reflexivity.
  exists r. split; [exact H|]. split; [exact S|]. injection H as <-. reflexivity.
Qed.

(** ** C17 *)
Theorem C17_negation : forall t ks,
  stands_for t ks -> (2 <= qt_bw t)%Z -> qt_zp t == 0 ->
  (qt_signed t = true -> Forall (fun k => k <> - 2 ^ (qt_bw t - 1))%Z ks) ->
  exists r, neg t = Some r /\ stands_for r (map Z.opp ks)
    /\ Forall2 (fun v w => w == - v) (qt_value t) (qt_value r)
    /\ qt_signed r = true /\ qt_bw r = (if qt_signed t then qt_bw t else qt_bw t + 1)%Z.
Proof.
  intros t ks H Hb Hz Hm. unfold neg. rewrite (int_float_codes t ks Hb H).
  eexists. split; [reflexivity|]. destruct H as (Hs & Hv & Hr).
  assert (V : Forall2 (fun v k => v == (inject_Z k - qt_zp t) * qt_scale t)
       (map (fun k => (- inject_Z k - qt_zp t) * qt_scale t) ks) (map Z.opp ks)).
  { clear. induction ks as [|k ks IH]; cbn; constructor; [|exact IH]. rewrite inject_Z_opp. reflexivity. }
  assert (W : Forall2 (fun v w => w == - v) (qt_value t) (map (fun k => (- inject_Z k - qt_zp t) * qt_scale t) ks)).
  { clear - Hv Hz. induction Hv as [|x k l ks Hx _ IH]; cbn; constructor; [|exact IH]. rewrite Hx, Hz. ring. }
  assert (P : (2 ^ qt_bw t = 2 * 2 ^ (qt_bw t - 1))%Z) by (apply pow2Z_half; lia).
  destruct (qt_signed t) eqn:Sg; (split; [|split; [exact W|split; reflexivity]]).
  - split; [exact Hs|split; [exact V|]]. cbn [qt_signed qt_bw]. specialize (Hm eq_refl).
    apply Forall_forall. intros k Hk. apply in_map_iff in Hk. destruct Hk as (j & <- & Hj).
    rewrite Forall_forall in Hr, Hm. specialize (Hr j Hj). specialize (Hm j Hj).
    unfold in_range, range_lo, range_hi in *. lia.
  - split; [exact Hs|split; [exact V|]]. cbn [qt_signed qt_bw].
    apply Forall_forall. intros k Hk. apply in_map_iff in Hk. destruct Hk as (j & <- & Hj).
    rewrite Forall_forall in Hr. specialize (Hr j Hj).
    unfold in_range, range_lo, range_hi in *. replace (qt_bw t + 1 - 1)%Z with (qt_bw t) by lia. lia.
Qed.

Theorem C17_absolute_value : forall t ks,
  stands_for t ks -> (2 <= qt_bw t)%Z -> qt_zp t == 0 -> qt_signed t = true ->
  Forall (fun k => k <> - 2 ^ (qt_bw t - 1))%Z ks ->
  exists r, abs t = Some r /\ stands_for r (map Z.abs ks)
    /\ Forall2 (fun v w => w == Qabs v) (qt_value t) (qt_value r)
    /\ qt_signed r = false /\ qt_bw r = (qt_bw t - 1)%Z.
Proof.
  intros t ks H Hb Hz Sg Hm. unfold abs. rewrite Sg, (int_float_codes t ks Hb H).
  eexists. split; [reflexivity|]. destruct H as (Hs & Hv & Hr).
  assert (A : forall k, Qabs (inject_Z k) == inject_Z (Z.abs k)).
  { intros k. destruct (Z_lt_le_dec k 0) as [L|L].
    - rewrite Z.abs_neq by lia. apply injz_lt in L. rewrite Qabs_neg by (change 0 with (inject_Z 0); lra).
      rewrite inject_Z_opp. reflexivity.
    - rewrite Z.abs_eq by lia. apply injz_le in L. apply Qabs_pos. exact L. }
  split; [|split; [|split; reflexivity]].
  - split; [exact Hs|split]; cbn [qt_signed qt_bw qt_value qt_scale qt_zp].
    + clear - A. induction ks as [|k ks IH]; cbn [map]; constructor; [|exact IH]. rewrite A. reflexivity.
    + apply Forall_forall. intros k Hk. apply in_map_iff in Hk. destruct Hk as (j & <- & Hj).
      rewrite Forall_forall in Hr, Hm. specialize (Hr j Hj). specialize (Hm j Hj). rewrite Sg in Hr.
      unfold in_range, range_lo, range_hi in *. lia.
  - cbn [qt_value]. clear - Hv Hz Hs. induction Hv as [|x k l ks Hx _ IH]; cbn [map]; constructor; [|exact IH].
    assert (E : x == inject_Z k * qt_scale t) by (rewrite Hx, Hz; ring).
    rewrite E, Qabs_mul_pos by exact Hs. rewrite Hz. ring.
Qed.

(** The most negative integer has no counterpart: both results are invalid. *)
Theorem C17_most_negative_refuted :
  exists t ks n p, stands_for t ks /\ qt_bw t = 8%Z /\ qt_zp t == 0
    /\ neg t = Some n /\ abs t = Some p
    /\ is_valid n = false /\ is_valid p = false.
Proof.
  exists {| qt_value := [- 128 # 1]; qt_scale := 1; qt_zp := 0; qt_bw := 8; qt_signed := true; qt_training := false |},
         [-128]%Z.
  eexists _, _. split; [|split; [|split; [|split; [reflexivity|split; [reflexivity|]]]]]; try reflexivity.
  - repeat split; repeat constructor; cbn; try lia; reflexivity.
  - split; reflexivity.
Qed.

(** With a non-zero zero point the "negated" tensor denotes a different value: here the
    negation of 7 is -13 and the absolute value of -3 is -3. *)
Theorem C17_zero_point_refuted :
  exists t ks n, stands_for t ks /\ qt_bw t = 8%Z /\ neg t = Some n
    /\ qt_value t = [7] /\ Forall2 Qeq (qt_value n) [- 13 # 1].
Proof.
  exists {| qt_value := [7]; qt_scale := 1; qt_zp := 3; qt_bw := 8; qt_signed := true; qt_training := false |}, [10]%Z.
  eexists. split; [|split; [reflexivity|split; [reflexivity|split; [reflexivity|]]]].
  - repeat split; repeat constructor; cbn; try lia; reflexivity.
  - repeat constructor.
Qed.

Theorem C17_zero_point_abs_refuted :
  exists t ks n, stands_for t ks /\ qt_bw t = 8%Z /\ abs t = Some n
    /\ qt_value t = [- (3 # 1)] /\ Forall2 Qeq (qt_value n) [- 3 # 1].
Proof.
  exists {| qt_value := [- (3 # 1)]; qt_scale := 1; qt_zp := 3; qt_bw := 8; qt_signed := true; qt_training := false |}, [0]%Z.
  eexists. split; [|split; [reflexivity|split; [reflexivity|split; [reflexivity|]]]].
  - repeat split; repeat constructor; cbn; try lia; reflexivity.
  - repeat constructor.
Qed.

(** Subtraction of tensors of equal sign is correct, including the most negative integer. *)
Lemma sub_in_range sg b1 b2 k1 k2 :
  (2 <= b1)%Z -> (2 <= b2)%Z -> in_range sg false b1 k1 -> in_range sg false b2 k2 ->
  in_range true false (add_bit_width sg true b1 (if sg then b2 else b2 + 1)) (k1 - k2).
Proof.
  intros H1 H2 R1 R2. destruct sg.
  - pose proof (add_in_range true b1 b2 (-1 - k1) k2 H1 H2) as A.
    assert (B : in_range true false (add_bit_width true true b1 b2) (-1 - k1 + k2)).
    { apply A; [unfold in_range, range_lo, range_hi in *; lia|exact R2]. }
    unfold in_range, range_lo, range_hi in B |- *. lia.
  - unfold in_range in *. cbn [range_lo range_hi] in R1, R2.
    pose proof (pow2Z_half b1 ltac:(lia)) as E1.
    pose proof (pow2Z_half (b2 + 1) ltac:(lia)) as E2. replace (b2 + 1 - 1)%Z with b2 in E2 by lia.
    pose proof (pow2Z_pos b1 ltac:(lia)) as P1. pose proof (pow2Z_pos b2 ltac:(lia)) as P2.
    unfold add_bit_width. rewrite !min_int_spec, !max_int_spec. cbn [range_lo range_hi].
    replace (b2 + 1 - 1)%Z with b2 by lia.
    set (n := (2 ^ b1 - 1 + (2 ^ b2 - 1) - (0 + - 2 ^ b2))%Z).
    pose proof (Z.pow_le_mono_r 2 2 b1 ltac:(lia) H1) as Q1. pose proof (Z.pow_le_mono_r 2 2 b2 ltac:(lia) H2) as Q2.
    destruct (ceil_log2_Z n ltac:(lia)) as [A W]. set (w := ceil_log2 (inject_Z n)) in *. clearbody w.
    assert (W2 : (1 <= w)%Z). { destruct (Z.eq_dec w 0) as [->|]; [change (2 ^ 0)%Z with 1%Z in A|]; lia. }
    pose proof (pow2Z_half w W2) as Ew.
    destruct (Z_le_gt_dec b1 b2) as [L|L].
    + (* n = 2^b1 + 2*2^b2 - 2 > 2^(b2+1): w >= b2 + 2 *)
      pose proof (Z.pow_le_mono_r 2 b1 b2 ltac:(lia) L) as Q3.
      assert (b2 + 1 < w)%Z by (apply (Z.pow_lt_mono_r_iff 2); lia).
      pose proof (Z.pow_le_mono_r 2 (b2 + 1) (w - 1) ltac:(lia) ltac:(lia)). lia.
    + pose proof (Z.pow_le_mono_r 2 (b2 + 1) b1 ltac:(lia) ltac:(lia)) as Q3.
      assert (b1 < w)%Z by (apply (Z.pow_lt_mono_r_iff 2); lia).
      pose proof (Z.pow_le_mono_r 2 b1 (w - 1) ltac:(lia) ltac:(lia)). lia.
Qed.

Theorem C17_subtraction_fits : forall a b ka kb,
  stands_for a ka -> stands_for b kb -> (2 <= qt_bw a)%Z -> (2 <= qt_bw b)%Z ->
  qt_signed a = qt_signed b -> qt_scale a == qt_scale b -> qt_zp b == 0 ->
  exists r, sub a b = Some r
    /\ stands_for r (map2 Z.sub ka kb)
    /\ Forall2 Qeq (qt_value r) (map2 Qminus (qt_value a) (qt_value b)).
Proof.
  intros a b ka kb HA HB Ha Hb Hsg Hsc Hz. unfold sub, neg.
  rewrite (int_float_codes b kb Hb HB).
  destruct HA as (Sa & Va & Ra). destruct HB as (Sb & Vb & Rb).
  set (nv := map (fun k => (- inject_Z k - qt_zp b) * qt_scale b) kb).
  assert (C : forall t, qt_scale t = qt_scale b -> check_scale a t = true).
  { intros t Et. unfold check_scale, allclose. destruct (qt_training a); [reflexivity|]. apply Qle_bool_iff.
    rewrite Et. assert (E : qt_scale a - qt_scale b == 0) by lra. rewrite E.
    pose proof (Qabs_nonneg (qt_scale b)). change (Qabs 0) with 0. lra. }
  set (nb := if qt_signed b then _ else _).
  assert (Fs : qt_scale nb = qt_scale b) by (unfold nb; destruct (qt_signed b); reflexivity).
  assert (Fz : qt_zp nb = qt_zp b) by (unfold nb; destruct (qt_signed b); reflexivity).
  assert (Fv : qt_value nb = nv) by (unfold nb; destruct (qt_signed b); reflexivity).
  assert (Fg : qt_signed nb = true) by (unfold nb; destruct (qt_signed b); reflexivity).
  assert (Fb : qt_bw nb = if qt_signed b then qt_bw b else (qt_bw b + 1)%Z) by (unfold nb; destruct (qt_signed b); reflexivity).
  clearbody nb. unfold add. rewrite (C nb Fs). eexists. split; [reflexivity|].
  assert (Es : (qt_scale a + qt_scale b) / 2 == qt_scale a) by (rewrite Hsc; field).
  assert (Vn : Forall2 (fun v k => v == (- inject_Z k) * qt_scale b) nv kb).
  { unfold nv. clear - Hz. induction kb; cbn; constructor; [rewrite Hz; ring|assumption]. }
  split; [split; [|split]|]; cbn [qt_scale qt_zp qt_value qt_bw qt_signed]; rewrite ?Fs, ?Fz, ?Fv, ?Fg, ?Fb.
  - lra.
  - eapply Forall2_map2; [|exact Va|exact Vn]. cbv beta. intros v1 k1 v2 k2 H1 H2.
    rewrite H1, H2, Es, <- Hsc, inject_Z_minus, Hz. ring.
  - rewrite orb_true_r. rewrite <- Hsg in *.
    eapply Forall_map2; [|exact Ra|exact Rb]. intros. apply sub_in_range; assumption.
  - clearbody nv. clear - Va Vb Vn Hz. revert kb Vb Vn. generalize nv (qt_value b). intros nv' vb.
    revert vb nv'. induction Va as [|x k l ks Hx _ IH]; intros vb nv' kb Vb Vn.
    + constructor.
    + destruct Vb as [|y j lb kb Hy Vb]; inversion Vn as [|y' j' lb' kb' Hy' Vn']; subst; unfold map2; cbn; constructor.
      * rewrite Hy', Hy, Hz. ring.
      * apply (IH lb lb' kb Vb Vn').
Qed.

(** unsigned minus signed: declared width too small (255 - (-128) = 383 in 9 signed bits). *)
Theorem C17_mixed_subtraction_refuted :
  exists a b ka kb r, stands_for a ka /\ stands_for b kb /\ qt_bw a = 8%Z /\ qt_bw b = 8%Z
    /\ qt_scale a == qt_scale b /\ qt_zp b == 0 /\ sub a b = Some r /\ qt_bw r = 9%Z
    /\ Forall2 Qeq (qt_value r) [382 # 1] /\ is_valid r = false.
Proof.
  exists {| qt_value := [255]; qt_scale := 1; qt_zp := 0; qt_bw := 8; qt_signed := false; qt_training := false |},
         {| qt_value := [- 127 # 1]; qt_scale := 1; qt_zp := 0; qt_bw := 8; qt_signed := true; qt_training := false |},
         [255%Z], [-127]%Z.
  eexists. split; [|split; [|split; [|split; [|split; [|split; [|split; [reflexivity|]]]]]]]; try reflexivity.
  1,2: repeat split; repeat constructor; cbn; try lia; reflexivity.
  repeat split; try reflexivity. repeat constructor.
Qed.

Example C17_nontrivial : exists n p, neg ex_b = Some n /\ stands_for n [-15; -1]%Z
  /\ abs {| qt_value := [- 7 # 2; 3 # 2]; qt_scale := 1 # 2; qt_zp := 0; qt_bw := 4; qt_signed := true; qt_training := false |} = Some p
  /\ stands_for p [7; 3]%Z.
Proof.
  destruct (C17_negation ex_b _ ex_b_ok) as (n & H & S & _); try (cbn; lia); try reflexivity.
  destruct (C17_absolute_value {| qt_value := [- 7 # 2; 3 # 2]; qt_scale := 1 # 2; qt_zp := 0; qt_bw := 4; qt_signed := true; qt_training := false |} [-7; 3]%Z)
    as (p & H' & S' & _); try (cbn; lia); try reflexivity.
  - repeat split; repeat constructor; cbn; try lia; reflexivity.
  - repeat constructor; discriminate.
  - exists n, p. repeat (split; [assumption|]). assumption.
Qed.

(** ** C18 *)
Lemma cast_fits d n : fits d n -> cast d n = n.
Proof.
  destruct d; cbn [fits cast]; unfold wrap_signed; intros H.
  - change (2 ^ (8 - 1))%Z with 128%Z. change (2 ^ 8)%Z with 256%Z. rewrite Z.mod_small; lia.
  - rewrite Z.mod_small; lia.
  - change (2 ^ (32 - 1))%Z with 2147483648%Z. change (2 ^ 32)%Z with 4294967296%Z.
    change (2 ^ 31)%Z with 2147483648%Z in H. rewrite Z.mod_small; lia.
Qed.

(** The integer view of a tensor that stands for codes [ks] succeeds, is exactly [ks], and
    fits the returned dtype without wrapping. *)
Theorem C18_int_view_round_trips : forall t ks,
  stands_for t ks -> (2 <= qt_bw t)%Z -> (qt_bw t <= if qt_signed t then 32 else 31)%Z ->
  exists d, int_repr t = Some (ks, d) /\ Forall (fits d) ks
    /\ Forall2 (fun v k => v == (inject_Z k - qt_zp t) * qt_scale t) (qt_value t) ks.
Proof.
  intros t ks H Hb Hb2. unfold int_repr. rewrite (stands_for_valid t ks Hb H).
  destruct (pre_round_codes t ks H) as [-> _]. eexists. split; [|split; [|exact (proj1 (proj2 H))]].
  2:{ destruct H as (_ & _ & R). eapply Forall_impl; [|exact R]. intros k Rk.
      instantiate (1 := if (qt_bw t <=? 8)%Z && qt_signed t then Int8
             else if (qt_bw t <=? 8)%Z && negb (qt_signed t) then UInt8 else Int32).
      unfold in_range in Rk.
      destruct (qt_bw t <=? 8)%Z eqn:L.
      - apply Z.leb_le in L. destruct (qt_signed t); cbn [andb negb fits range_lo range_hi] in *.
        + pose proof (Z.pow_le_mono_r 2 (qt_bw t - 1) 7 ltac:(lia) ltac:(lia)) as P. change (2 ^ 7)%Z with 128%Z in P. lia.
        + pose proof (Z.pow_le_mono_r 2 (qt_bw t) 8 ltac:(lia) ltac:(lia)) as P. change (2 ^ 8)%Z with 256%Z in P. lia.
      - destruct (qt_signed t); cbn [andb negb fits range_lo range_hi] in *.
        + pose proof (Z.pow_le_mono_r 2 (qt_bw t - 1) 31 ltac:(lia) ltac:(lia)) as P. lia.
        + pose proof (Z.pow_le_mono_r 2 (qt_bw t) 31 ltac:(lia) ltac:(lia)) as P. lia. }
  f_equal. f_equal. destruct H as (_ & _ & R). unfold in_range in R.
  assert (M : forall d, Forall (fits d) ks -> map (cast d) ks = ks).
  { intros d F. induction F as [|k ks' Hk _ IH]; cbn; [reflexivity|]. rewrite cast_fits by exact Hk. f_equal. apply IH.
    inversion R; assumption. }
  apply M. eapply Forall_impl; [|exact R]. intros k Rk. cbv beta in Rk.
  destruct (qt_bw t <=? 8)%Z eqn:L.
  - apply Z.leb_le in L. destruct (qt_signed t); cbn [andb negb fits range_lo range_hi] in *.
    + pose proof (Z.pow_le_mono_r 2 (qt_bw t - 1) 7 ltac:(lia) ltac:(lia)) as P. change (2 ^ 7)%Z with 128%Z in P. lia.
    + pose proof (Z.pow_le_mono_r 2 (qt_bw t) 8 ltac:(lia) ltac:(lia)) as P. change (2 ^ 8)%Z with 256%Z in P. lia.
  - destruct (qt_signed t); cbn [andb negb fits range_lo range_hi] in *.
    + pose proof (Z.pow_le_mono_r 2 (qt_bw t - 1) 31 ltac:(lia) ltac:(lia)) as P. lia.
    + pose proof (Z.pow_le_mono_r 2 (qt_bw t) 31 ltac:(lia) ltac:(lia)) as P. lia.
Qed.

(** Whatever tensor passes the validity test (also one whose values are only close to the
    grid): the codes are in range and the error is below 0.2 scale; failing tensors raise. *)
Theorem C18_int_view_sound : forall t ks,
  0 < qt_scale t -> (2 <= qt_bw t)%Z -> int_float t = Some ks ->
  Forall (in_range (qt_signed t) false (qt_bw t)) ks
  /\ Forall2 (fun v k => Qabs (v - (inject_Z k - qt_zp t) * qt_scale t) < (2 # 10) * qt_scale t) (qt_value t) ks.
Proof.
  intros t ks Hs Hb H. unfold int_float in H. destruct (is_valid t) eqn:V; [|discriminate].
  injection H as <-. unfold is_valid in V. rewrite (proj2 (Z.leb_le 2 (qt_bw t)) Hb) in V.
  set (rounded := map roundZ (pre_round t)) in *.
  assert (V1 : forallb (fun p => Qlt_bool (Qabs (p - inject_Z (roundZ p))) is_valid_atol) (pre_round t) = true
     /\ Forall (in_range (qt_signed t) false (qt_bw t)) rounded).
  { destruct (qt_signed t); apply andb_true_iff in V; destruct V as [V V3]; apply andb_true_iff in V; destruct V as [V1 V2];
      (split; [exact V1|]); rewrite forallb_forall in V2, V3; apply Forall_forall; intros r Hr;
      specialize (V2 r Hr); specialize (V3 r Hr); apply Z.leb_le in V2, V3; unfold in_range, range_lo, range_hi; lia. }
  destruct V1 as [V1 R]. split; [exact R|]. clear V R. subst rounded. unfold pre_round in *.
  induction (qt_value t) as [|v l IH]; cbn [map] in *; constructor.
  - cbn [forallb] in V1. apply andb_true_iff in V1. destruct V1 as [V1 _]. apply Qlt_bool_iff in V1.
    set (p := v / qt_scale t + qt_zp t) in *. set (k := roundZ p) in *.
    assert (E : v - (inject_Z k - qt_zp t) * qt_scale t == (p - inject_Z k) * qt_scale t).
    { unfold p. field. apply Qpos_neq0, Hs. }
    rewrite E, Qabs_mul_pos by exact Hs. apply Qmult_lt_compat_r; assumption.
  - apply IH. cbn [forallb] in V1. apply andb_true_iff in V1. apply V1.
Qed.

Theorem C18_invalid_raises : forall t, is_valid t = false -> int_repr t = None /\ int_float t = None.
Proof. intros t H. unfold int_repr, int_float. rewrite H. split; reflexivity. Qed.

(** A 32-bit unsigned code does not fit the returned int32 and wraps. *)
Theorem C18_unsigned_32_refuted :
  exists t k d, stands_for t [k] /\ qt_bw t = 32%Z /\ int_repr t = Some ([k - 2 ^ 32]%Z, d).
Proof.
  exists {| qt_value := [3000000000 # 1]; qt_scale := 1; qt_zp := 0; qt_bw := 32; qt_signed := false; qt_training := false |},
         3000000000%Z, Int32.
  split; [|split; reflexivity]. repeat split; repeat constructor; cbn; try lia; reflexivity.
Qed.

(** The one-bit validity test does not bound the codes: a "valid" binary tensor whose int8
    view is wrong. *)
Theorem C18_one_bit_refuted :
  exists t d, qt_bw t = 1%Z /\ qt_scale t == 1 /\ qt_zp t == 0 /\ qt_value t = [- 1 # 1; 300 # 1]
    /\ is_valid t = true /\ int_repr t = Some ([-1; 44]%Z, d).
Proof.
  exists {| qt_value := [- 1 # 1; 300 # 1]; qt_scale := 1; qt_zp := 0; qt_bw := 1; qt_signed := true; qt_training := false |}, Int8.
  repeat split; reflexivity.
Qed.

Example C18_nontrivial : exists d, int_repr ex_a = Some ([-8; 3]%Z, d) /\ d = Int8.
Proof. exists Int8. split; reflexivity. Qed.

(** ** C19 *)
Definition same_meta (a b : iqt) : Prop :=
  qt_scale a == qt_scale b /\ qt_zp a == qt_zp b /\ qt_bw a = qt_bw b /\ qt_signed a = qt_signed b.

(** The tolerance actually applied by the library. *)
Definition close (a b : Q) : Prop := Qabs (a - b) <= (1 # 100000000) + (1 # 100000) * Qabs b.

Lemma close_refl a b : a == b -> allclose a b = true.
Proof.
  intros H. apply Qle_bool_iff. assert (E : a - b == 0) by lra. rewrite E.
  pose proof (Qabs_nonneg b). change (Qabs 0) with 0. lra.
Qed.

Lemma stands_for_meta a b ks : same_meta a b -> stands_for b ks ->
  Forall2 (fun v k => v == (inject_Z k - qt_zp a) * qt_scale a) (qt_value b) ks
  /\ Forall (in_range (qt_signed a) false (qt_bw a)) ks.
Proof.
  intros (E1 & E2 & E3 & E4) (_ & V & R). rewrite E3, E4. split; [|exact R].
  clear R. induction V as [|x k l ks Hx _ IH]; constructor; [|exact IH]. rewrite Hx, E1, E2. reflexivity.
Qed.

(** Equal metadata, evaluation mode: concatenation succeeds, keeps the metadata, and stands for
    the concatenated codes. *)
Theorem C19_cat_equal_metadata : forall first second rest kss,
  let ts := first :: second :: rest in
  Forall (fun t => qt_training t = false) ts ->
  Forall (same_meta first) ts -> Forall2 stands_for ts kss ->
  exists r, cat ts = Some r /\ same_meta first r
    /\ qt_value r = concat (map qt_value ts) /\ stands_for r (concat kss).
Proof.
  intros first second rest kss ts Ht Hm Hk.
  assert (C : forallb (fun q => check_scale first q && check_zp first q && check_bw first q && check_sign first q) (second :: rest) = true).
  { apply forallb_forall. intros q Hq. rewrite Forall_forall in Hm. destruct (Hm q (or_intror Hq)) as (E1 & E2 & E3 & E4).
    unfold check_scale, check_zp, check_bw, check_sign.
    rewrite (close_refl _ _ E1), (close_refl _ _ E2), E3, E4, (close_refl (inject_Z (qt_bw q)) _ (Qeq_refl _)), eqb_reflx.
    destruct (qt_training first); reflexivity. }
  assert (T : existsb qt_training ts = false).
  { clear - Ht. induction Ht as [|t ts Ht _ IH]; cbn; [reflexivity|]. rewrite Ht. exact IH. }
  unfold ts at 1. unfold cat. rewrite C. fold ts. rewrite T. eexists. split; [reflexivity|].
  split; [repeat split; reflexivity|]. split; [reflexivity|].
  unfold stands_for. cbn [qt_scale qt_zp qt_value qt_bw qt_signed]. split.
  - inversion Hk as [|? ? ? ? S1 _]; subst. exact (proj1 S1).
  - assert (G : forall l ks, Forall (same_meta first) l -> Forall2 stands_for l ks ->
      Forall2 (fun v k => v == (inject_Z k - qt_zp first) * qt_scale first) (concat (map qt_value l)) (concat ks)
      /\ Forall (in_range (qt_signed first) false (qt_bw first)) (concat ks)).
    { induction l as [|t l IH]; intros ks Hl Hs; inversion Hs as [|t0 k0 l0 ks0 St Sl]; subst; cbn [map concat]; [split; constructor|].
      inversion Hl as [|t0 l0 Mt Ml]; subst. destruct (IH _ Ml Sl) as [I1 I2]. destruct (stands_for_meta first t _ Mt St) as [J1 J2].
      split; [apply Forall2_app; assumption|apply Forall_app; split; assumption]. }
    apply (G ts kss Hm Hk).
Qed.

(** Evaluation mode: success implies that all metadata agree with the first tensor up to the
    tolerance of the comparison; the value is always the concatenation. *)
Theorem C19_cat_success_implies_close : forall first second rest r,
  qt_training first = false ->
  cat (first :: second :: rest) = Some r ->
  Forall (fun t => close (qt_scale first) (qt_scale t) /\ close (qt_zp first) (qt_zp t)
                   /\ close (inject_Z (qt_bw first)) (inject_Z (qt_bw t)) /\ qt_signed first = qt_signed t) (second :: rest)
  /\ qt_value r = concat (map qt_value (first :: second :: rest)).
Proof.
  intros first second rest r Ht H. unfold cat in H.
  match type of H with (if ?c then _ else _) = _ => destruct c eqn:C; [|discriminate] end.
  injection H as <-. split; [|reflexivity].
  rewrite forallb_forall in C. apply Forall_forall. intros t Hin. specialize (C t Hin).
  unfold check_scale, check_zp, check_bw, check_sign in C. rewrite Ht in C.
  apply andb_true_iff in C. destruct C as [C C4]. apply andb_true_iff in C. destruct C as [C C3].
  apply andb_true_iff in C. destruct C as [C1 C2].
  apply Qle_bool_iff in C1, C2, C3. apply eqb_prop in C4. repeat split; assumption.
Qed.

(** Different signs or bit widths (up to 2^16 bits) are rejected in every mode. *)
Theorem C19_cat_rejects_mismatch : forall first second rest,
  (Exists (fun t => qt_signed first <> qt_signed t \/ (qt_bw first <> qt_bw t /\ (0 <= qt_bw t <= 65536)%Z)) (second :: rest)) ->
  cat (first :: second :: rest) = None.
Proof.
  intros first second rest H. unfold cat.
  match goal with |- (if ?c then _ else _) = _ => destruct c eqn:C; [|reflexivity] end.
  exfalso. rewrite forallb_forall in C. apply Exists_exists in H. destruct H as (t & Hin & Ht). specialize (C t Hin).
  apply andb_true_iff in C. destruct C as [C C4]. apply andb_true_iff in C. destruct C as [_ C3].
  destruct Ht as [Ht|[Ht [Hb0 Hb]]].
  - apply Ht. apply eqb_prop, C4.
  - apply Ht. unfold check_bw, allclose in C3. apply Qle_bool_iff, Qabs_le_iff in C3.
    rewrite Qabs_pos in C3 by (apply (injz_le 0); exact Hb0). apply injz_le in Hb.
    change (inject_Z 65536) with (65536 # 1) in Hb.
    assert (qt_bw first <= qt_bw t)%Z by (apply injz_lt_succ; lra).
    assert (qt_bw t <= qt_bw first)%Z by (apply injz_lt_succ; lra). lia.
Qed.

(** "Exactly when they share the scale" fails below the absolute tolerance 1e-8. *)
Theorem C19_tiny_scales_refuted :
  exists a b ka kb r, stands_for a ka /\ stands_for b kb /\ qt_bw a = 8%Z
    /\ qt_training a = false /\ qt_training b = false
    /\ qt_scale b == 4 * qt_scale a /\ cat [b; a] = Some r /\ (forall ks, ~ stands_for r ks) /\ is_valid r = false.
Proof.
  exists {| qt_value := [1 # 1000000000]; qt_scale := 1 # 1000000000; qt_zp := 0; qt_bw := 8; qt_signed := true; qt_training := false |},
         {| qt_value := [4 # 1000000000]; qt_scale := 4 # 1000000000; qt_zp := 0; qt_bw := 8; qt_signed := true; qt_training := false |},
         [1%Z], [1%Z].
  eexists. split; [|split; [|split; [|split; [|split; [|split; [|split; [reflexivity|]]]]]]]; try reflexivity.
  1,2: repeat split; repeat constructor; cbn; try lia; reflexivity.
  match goal with |- (forall ks, ~ stands_for ?r ks) /\ _ => assert (V : is_valid r = false) by reflexivity end.
  split; [|exact V]. intros ks S. apply stands_for_valid in S; [congruence|]. vm_compute. discriminate.
Qed.

(** In training mode scale and zero point are not compared and are averaged. *)
Theorem C19_training_refuted :
  exists a b ka kb r, stands_for a ka /\ stands_for b kb /\ qt_training a = true
    /\ qt_scale a == 1 /\ qt_scale b == 2 /\ cat [a; b] = Some r /\ is_valid r = false.
Proof.
  exists {| qt_value := [1]; qt_scale := 1; qt_zp := 0; qt_bw := 8; qt_signed := true; qt_training := true |},
         {| qt_value := [2]; qt_scale := 2; qt_zp := 0; qt_bw := 8; qt_signed := true; qt_training := true |},
         [1%Z], [1%Z].
  eexists. split; [|split; [|split; [|split; [|split; [|split; [reflexivity|]]]]]]; try reflexivity.
  1,2: repeat split; repeat constructor; cbn; try lia; reflexivity.
Qed.

Example C19_nontrivial : exists r, cat [ex_a; ex_a] = Some r /\ stands_for r [-8; 3; -8; 3]%Z.
Proof.
  destruct (C19_cat_equal_metadata ex_a ex_a [] [[-8; 3]; [-8; 3]]%Z) as (r & H & _ & _ & S).
  - repeat constructor.
  - repeat constructor; reflexivity.
  - repeat constructor; try apply ex_a_ok; cbn; try lia; reflexivity.
  - exists r. split; assumption.
Qed.

Print Assumptions C15_product_fits.
Print Assumptions C15_product_rejects_zero_points.
Print Assumptions C15_quotient_in_range.
Print Assumptions C16_sum_fits.
Print Assumptions C16_mixed_sign_refuted.
Print Assumptions C16_one_bit_refuted.
Print Assumptions C16_tiny_scales_refuted.
Print Assumptions C16_add_constant.
Print Assumptions C17_negation.
Print Assumptions C17_absolute_value.
Print Assumptions C17_most_negative_refuted.
Print Assumptions C17_zero_point_refuted.
Print Assumptions C17_zero_point_abs_refuted.
Print Assumptions C17_subtraction_fits.
Print Assumptions C17_mixed_subtraction_refuted.
Print Assumptions C18_int_view_round_trips.
Print Assumptions C18_int_view_sound.
Print Assumptions C18_invalid_raises.
Print Assumptions C18_unsigned_32_refuted.
Print Assumptions C18_one_bit_refuted.
Print Assumptions C19_cat_equal_metadata.
Print Assumptions C19_cat_success_implies_close.
Print Assumptions C19_cat_rejects_mismatch.
Print Assumptions C19_tiny_scales_refuted.
Print Assumptions C19_training_refuted.
