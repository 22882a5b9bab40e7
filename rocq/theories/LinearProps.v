(** Properties C20 (declared accumulator width) and C23 (integer equivalence of linear layers). *)
From Verif Require Import QUtil Log2Q Ops OpsProofs IntQuant IntQuantProofs IntQuantProps
  QuantTensor QuantTensorProps Linear.
Open Scope Q_scope.

(** ** Specification: integer dot product *)
Fixpoint dotZ (a b : list Z) : Z :=
  match a, b with
  | x :: a', y :: b' => (x * y + dotZ a' b')%Z
  | _, _ => 0%Z
  end.

(** ** C20 *)
Lemma dot_bounds (P R : Z -> Prop) L U :
  (0 <= L)%Z -> (0 <= U)%Z ->
  (forall x w, P x -> R w -> (- L <= x * w <= U)%Z) ->
  forall xs ws n, Forall P xs -> Forall R ws -> (Z.of_nat (length xs) <= n)%Z ->
  (- (n * L) <= dotZ xs ws <= n * U)%Z.
Proof.
  intros HL HU H. induction xs as [|x xs IH]; intros ws n Hx Hw Hn; cbn [dotZ length] in *.
  - nia.
  - destruct ws as [|w ws]; [nia|].
    inversion Hx as [|? ? Px Pxs]; subst. inversion Hw as [|? ? Pw Pws]; subst.
    specialize (IH ws (n - 1)%Z Pxs Pws ltac:(lia)). specialize (H x w Px Pw). nia.
Qed.

Definition declared (I W n : Z) : Z := ceil_log2_int ((2 ^ I - 1) * (2 ^ W - 1) * n).

(** The library formulas are [declared] with n = number of products per output. *)
Lemma declared_linear I W out inch :
  max_acc_bit_width_linear I W [out; inch] = declared I W inch.
Proof. reflexivity. Qed.
Lemma declared_conv I W out inch ks :
  max_acc_bit_width_conv I W (out :: inch :: ks) = declared I W (inch * Zprod ks).
Proof. unfold max_acc_bit_width_conv, declared. cbn [nth skipn]. f_equal. unfold max_int; cbn [negb andb]. lia. Qed.

Lemma pow_ge b k : (k <= b)%Z -> (0 <= k)%Z -> (2 ^ k <= 2 ^ b)%Z.
Proof. intros. apply Z.pow_le_mono_r; lia. Qed.

Lemma declared_spec I W n : (1 <= I)%Z -> (1 <= W)%Z -> (1 <= n)%Z ->
  ((2 ^ I - 1) * (2 ^ W - 1) * n <= 2 ^ declared I W n)%Z /\ (0 <= declared I W n)%Z.
Proof.
  intros HI HW Hn. apply ceil_log2_Z.
  pose proof (pow_ge I 1 HI ltac:(lia)) as A. pose proof (pow_ge W 1 HW ltac:(lia)) as B.
  change (2 ^ 1)%Z with 2%Z in *. nia.
Qed.

Lemma signed_range_of_bound w k : (1 <= w)%Z -> (- 2 ^ (w - 1) <= k < 2 ^ (w - 1))%Z -> in_range true false w k.
Proof. intros. unfold in_range, range_lo, range_hi. lia. Qed.

Lemma declared_ge1 I W n w : (2 <= (2 ^ I - 1) * (2 ^ W - 1) * n)%Z -> ((2 ^ I - 1) * (2 ^ W - 1) * n <= 2 ^ w)%Z -> (0 <= w)%Z -> (1 <= w)%Z.
Proof. intros A B C. destruct (Z.eq_dec w 0) as [->|]; [change (2 ^ 0)%Z with 1%Z in B; lia|lia]. Qed.

(** n is an upper bound of the number of products (padding and prefixes of the summation have
    fewer); the statements therefore also cover every partial sum in order. *)
Theorem C20_signed_signed : forall I W n xs ws,
  (2 <= I)%Z -> (2 <= W)%Z -> (1 <= n)%Z -> (Z.of_nat (length xs) <= n)%Z ->
  Forall (in_range true false I) xs -> Forall (in_range true false W) ws ->
  in_range true false (declared I W n) (dotZ xs ws).
Proof.
  intros I W n xs ws HI HW Hn Hl Hx Hw.
  destruct (declared_spec I W n ltac:(lia) ltac:(lia) Hn) as [D W0]. set (w := declared I W n) in *. clearbody w.
  pose proof (pow2Z_half I ltac:(lia)) as E1. pose proof (pow2Z_half W ltac:(lia)) as E2.
  pose proof (pow_ge (I - 1) 1 ltac:(lia) ltac:(lia)) as P1. pose proof (pow_ge (W - 1) 1 ltac:(lia) ltac:(lia)) as P2.
  change (2 ^ 1)%Z with 2%Z in *.
  assert (W1 : (1 <= w)%Z) by (apply (declared_ge1 I W n); [nia|exact D|exact W0]).
  pose proof (pow2Z_half w W1) as Ew.
  assert (B : (- (n * (2 ^ (I - 1) * 2 ^ (W - 1))) <= dotZ xs ws <= n * (2 ^ (I - 1) * 2 ^ (W - 1)))%Z).
  { apply (dot_bounds (in_range true false I) (in_range true false W)); try assumption; try nia.
    intros x y Hx' Hy'. unfold in_range, range_lo, range_hi in *. nia. }
  apply signed_range_of_bound; [exact W1|]. rewrite E1, E2, Ew in D.
  set (a := (2 ^ (I - 1))%Z) in *. set (c := (2 ^ (W - 1))%Z) in *. clearbody a c.
  assert (n * (a * c) < 2 ^ (w - 1))%Z by nia. lia.
Qed.

Theorem C20_narrow_weights : forall sg I W n xs ws,
  (1 <= I)%Z -> (2 <= W)%Z -> (1 <= n)%Z -> (Z.of_nat (length xs) <= n)%Z ->
  Forall (in_range sg false I) xs -> Forall (in_range true true W) ws ->
  in_range true false (declared I W n) (dotZ xs ws).
Proof.
  intros sg I W n xs ws HI HW Hn Hl Hx Hw.
  destruct (declared_spec I W n ltac:(lia) ltac:(lia) Hn) as [D W0]. set (w := declared I W n) in *. clearbody w.
  pose proof (pow2Z_half I ltac:(lia)) as E1. pose proof (pow2Z_half W ltac:(lia)) as E2.
  pose proof (pow_ge (I - 1) 0 ltac:(lia) ltac:(lia)) as P1. pose proof (pow_ge (W - 1) 1 ltac:(lia) ltac:(lia)) as P2.
  change (2 ^ 1)%Z with 2%Z in *. change (2 ^ 0)%Z with 1%Z in *.
  assert (W1 : (1 <= w)%Z) by (apply (declared_ge1 I W n); [nia|exact D|exact W0]).
  pose proof (pow2Z_half w W1) as Ew.
  assert (B : (- (n * ((2 ^ I - 1) * (2 ^ (W - 1) - 1))) <= dotZ xs ws <= n * ((2 ^ I - 1) * (2 ^ (W - 1) - 1)))%Z).
  { apply (dot_bounds (in_range sg false I) (in_range true true W)); try assumption; try nia.
    intros x y Hx' Hy'. unfold in_range in *. destruct sg; cbn [range_lo range_hi] in *; nia. }
  apply signed_range_of_bound; [exact W1|]. rewrite E1, E2 in *. rewrite Ew in D.
  set (a := (2 ^ (I - 1))%Z) in *. set (c := (2 ^ (W - 1))%Z) in *. clearbody a c.
  assert (n * ((2 * a - 1) * (c - 1)) < 2 ^ (w - 1))%Z by nia. lia.
Qed.

Lemma odd_factor_not_pow2 m q w : (1 < m)%Z -> Z.odd m = true -> (0 <= w)%Z -> (m * q)%Z <> (2 ^ w)%Z.
Proof.
  intros Hm Ho Hw. revert q. pattern w. apply natlike_ind; [|intros x Hx IH|exact Hw].
  - intros q E. change (2 ^ 0)%Z with 1%Z in E. destruct (Z_le_gt_dec q 0); nia.
  - intros q E. rewrite Z.pow_succ_r in E by exact Hx.
    assert (Oq : Z.even q = true).
    { assert (T : Z.odd (m * q) = false) by (rewrite E, Z.odd_mul; reflexivity).
      rewrite Z.odd_mul, Ho in T. cbn in T. rewrite <- Z.negb_odd, T. reflexivity. }
    apply Z.even_spec in Oq. destruct Oq as [r ->]. apply (IH r). lia.
Qed.

Theorem C20_unsigned_unsigned : forall I W n xs ws,
  (1 <= I)%Z -> (1 <= W)%Z -> ~ (I = 1 /\ W = 1)%Z -> (1 <= n)%Z -> (Z.of_nat (length xs) <= n)%Z ->
  Forall (in_range false false I) xs -> Forall (in_range false false W) ws ->
  in_range false false (declared I W n) (dotZ xs ws).
Proof.
  intros I W n xs ws HI HW HIW Hn Hl Hx Hw.
  destruct (declared_spec I W n ltac:(lia) ltac:(lia) Hn) as [D W0]. set (w := declared I W n) in *. clearbody w.
  pose proof (pow_ge I 1 ltac:(lia) ltac:(lia)) as P1. pose proof (pow_ge W 1 ltac:(lia) ltac:(lia)) as P2.
  change (2 ^ 1)%Z with 2%Z in *.
  assert (B : (- (n * 0) <= dotZ xs ws <= n * ((2 ^ I - 1) * (2 ^ W - 1)))%Z).
  { apply (dot_bounds (in_range false false I) (in_range false false W)); try assumption; try nia.
    intros x y Hx' Hy'. unfold in_range in *. cbn [range_lo range_hi] in *; nia. }
  assert (O : forall b, (1 <= b)%Z -> Z.odd (2 ^ b - 1) = true).
  { intros b Hb. rewrite (pow2Z_half b Hb). rewrite Z.odd_sub, Z.odd_mul. reflexivity. }
  assert (N : ((2 ^ I - 1) * (2 ^ W - 1) * n <> 2 ^ w)%Z).
  { destruct (Z.eq_dec I 1) as [->|NI].
    - assert (2 <= W)%Z by lia. pose proof (pow_ge W 2 H ltac:(lia)). change (2 ^ 2)%Z with 4%Z in *.
      rewrite Z.mul_comm, Z.mul_assoc, Z.mul_comm. apply odd_factor_not_pow2; [lia|apply O; lia|exact W0].
    - assert (2 <= I)%Z by lia. pose proof (pow_ge I 2 H ltac:(lia)). change (2 ^ 2)%Z with 4%Z in *.
      rewrite <- Z.mul_assoc. apply odd_factor_not_pow2; [lia|apply O; lia|exact W0]. }
  unfold in_range. cbn [range_lo range_hi]. lia.
Qed.

(** For every combination of signs one bit more than declared is enough. *)
Theorem C20_one_more_bit_suffices : forall sg1 sg2 I W n xs ws,
  (1 <= I)%Z -> (1 <= W)%Z -> (1 <= n)%Z -> (Z.of_nat (length xs) <= n)%Z ->
  Forall (in_range sg1 false I) xs -> Forall (in_range sg2 false W) ws ->
  ~ (sg1 = true /\ sg2 = true /\ (I = 1 \/ W = 1)%Z) ->
  ~ (I = 1 /\ W = 1)%Z ->
  in_range (sg1 || sg2) false (declared I W n + 1) (dotZ xs ws).
Proof.
  intros sg1 sg2 I W n xs ws HI HW Hn Hl Hx Hw Hs HIW.
  destruct (declared_spec I W n ltac:(lia) ltac:(lia) Hn) as [D W0]. set (w := declared I W n) in *.
  pose proof (pow2Z_half I ltac:(lia)) as E1. pose proof (pow2Z_half W ltac:(lia)) as E2.
  pose proof (pow_ge (I - 1) 0 ltac:(lia) ltac:(lia)) as P1. pose proof (pow_ge (W - 1) 0 ltac:(lia) ltac:(lia)) as P2.
  change (2 ^ 0)%Z with 1%Z in *.
  pose proof (pow2Z_half (w + 1) ltac:(lia)) as Ew. replace (w + 1 - 1)%Z with w in Ew by lia.
  destruct sg1, sg2; cbn [orb].
  - assert (S := C20_signed_signed I W n xs ws ltac:(lia) ltac:(lia) Hn Hl Hx Hw). fold w in S.
    unfold in_range, range_lo, range_hi in *. replace (w + 1 - 1)%Z with w by lia.
    destruct (Z.eq_dec w 0) as [Z0|NZ]; [rewrite Z0 in *; cbn in S |- *; lia|].
    pose proof (pow2Z_half w ltac:(lia)). lia.
  - (* signed x unsigned *)
    clearbody w.
    assert (B : (- (n * (2 ^ (I - 1) * (2 ^ W - 1))) <= dotZ xs ws <= n * ((2 ^ (I - 1) - 1) * (2 ^ W - 1)))%Z).
    { apply (dot_bounds (in_range true false I) (in_range false false W)); try assumption; try nia.
      intros x y Hx' Hy'. unfold in_range in *. cbn [range_lo range_hi] in *; nia. }
    unfold in_range, range_lo, range_hi. replace (w + 1 - 1)%Z with w by lia.
    rewrite E1, E2 in *. set (a := (2 ^ (I - 1))%Z) in *. set (c := (2 ^ (W - 1))%Z) in *. clearbody a c.
    assert (n * (a * (2 * c - 1)) <= 2 ^ w)%Z by nia.
    assert (n * ((a - 1) * (2 * c - 1)) < 2 ^ w)%Z by nia. lia.
  - clearbody w.
    assert (B : (- (n * ((2 ^ I - 1) * 2 ^ (W - 1))) <= dotZ xs ws <= n * ((2 ^ I - 1) * (2 ^ (W - 1) - 1)))%Z).
    { apply (dot_bounds (in_range false false I) (in_range true false W)); try assumption; try nia.
      intros x y Hx' Hy'. unfold in_range in *. cbn [range_lo range_hi] in *; nia. }
    unfold in_range, range_lo, range_hi. replace (w + 1 - 1)%Z with w by lia.
    rewrite E1, E2 in *. set (a := (2 ^ (I - 1))%Z) in *. set (c := (2 ^ (W - 1))%Z) in *. clearbody a c.
    assert (n * ((2 * a - 1) * c) <= 2 ^ w)%Z by nia.
    assert (n * ((2 * a - 1) * (c - 1)) < 2 ^ w)%Z by nia. lia.
  - assert (S := C20_unsigned_unsigned I W n xs ws HI HW HIW Hn Hl Hx Hw). fold w in S.
    unfold in_range, range_lo, range_hi in *. lia.
Qed.

(** The functions the layers call: a linear layer with [inch] inputs, and a convolution with
    [inch] input channels per group and kernel sizes [ks].  The sign/range combinations the
    formula covers: *)
Definition covered (sgx sgw narrow : bool) (I W : Z) : Prop :=
  (sgx = true /\ sgw = true /\ 2 <= I /\ 2 <= W \/ sgw = true /\ narrow = true /\ 1 <= I /\ 2 <= W
   \/ sgx = false /\ sgw = false /\ 1 <= I /\ 1 <= W /\ ~ (I = 1 /\ W = 1))%Z.

Lemma narrow_in_full sg w k : (1 <= w)%Z -> in_range sg true w k -> in_range sg false w k.
Proof.
  unfold in_range. destruct sg; cbn [range_lo range_hi]; intros H1 H2; lia.
Qed.

Lemma declared_covers sgx sgw narrow I W n xs ws :
  covered sgx sgw narrow I W -> (1 <= n)%Z -> (Z.of_nat (length xs) <= n)%Z ->
  Forall (in_range sgx false I) xs -> Forall (in_range sgw narrow W) ws ->
  in_range (sgx || sgw) false (declared I W n) (dotZ xs ws).
Proof.
  intros [(-> & -> & HI & HW)|[(-> & -> & HI & HW)|(-> & -> & HI & HW & N)]] Hn Hl Hx Hw.
  - apply C20_signed_signed; try assumption.
    destruct narrow; [|exact Hw]. eapply Forall_impl; [|exact Hw]. intros k. apply narrow_in_full. lia.
  - rewrite orb_true_r. apply (C20_narrow_weights sgx); assumption.
  - apply C20_unsigned_unsigned; try assumption.
    destruct narrow; [|exact Hw]. eapply Forall_impl; [|exact Hw]. intros k. apply narrow_in_full. lia.
Qed.

Theorem C20_linear_layer : forall sgx sgw narrow I W out inch xs ws,
  covered sgx sgw narrow I W -> (1 <= inch)%Z -> (Z.of_nat (length xs) <= inch)%Z ->
  Forall (in_range sgx false I) xs -> Forall (in_range sgw narrow W) ws ->
  in_range (sgx || sgw) false (max_acc_bit_width_linear I W [out; inch]) (dotZ xs ws).
Proof. intros. rewrite declared_linear. eapply declared_covers; eassumption. Qed.

Theorem C20_conv_layer : forall sgx sgw narrow I W out inch ks xs ws,
  covered sgx sgw narrow I W -> (1 <= inch)%Z -> Forall (fun k => 1 <= k)%Z ks ->
  (Z.of_nat (length xs) <= inch * fold_right Z.mul 1%Z ks)%Z ->
  Forall (in_range sgx false I) xs -> Forall (in_range sgw narrow W) ws ->
  in_range (sgx || sgw) false (max_acc_bit_width_conv I W (out :: inch :: ks)) (dotZ xs ws).
Proof.
  intros sgx sgw narrow I W out inch ks xs ws Hc Hi Hk Hl Hx Hw. rewrite declared_conv.
  assert (E : Zprod ks = fold_right Z.mul 1%Z ks) by (clear; induction ks as [|k ks IH]; [reflexivity|cbn [Zprod fold_right]; rewrite IH; reflexivity]).
  assert (P : (1 <= Zprod ks)%Z) by (clear - Hk; induction Hk as [|k ks H _ IH]; cbn [Zprod]; nia).
  rewrite <- E in Hl. eapply declared_covers; try eassumption. nia.
Qed.

(** Unsigned inputs with full-range signed weights: 258 products of 255 and -128 do not fit. *)
Theorem C20_unsigned_full_range_refuted :
  exists xs ws, length xs = 258%nat /\ length ws = 258%nat
    /\ Forall (in_range false false 8) xs /\ Forall (in_range true false 8) ws
    /\ ~ in_range true false (max_acc_bit_width_linear 8 8 [1; 258]%Z) (dotZ xs ws)
    /\ ~ in_range true false (max_acc_bit_width_conv 8 8 [1; 86; 3]%Z) (dotZ xs ws).
Proof.
  exists (repeat 255%Z 258), (repeat (-128)%Z 258).
  split; [reflexivity|]. split; [reflexivity|].
  assert (A : dotZ (repeat 255%Z 258) (repeat (-128)%Z 258) = (-8421120)%Z) by (vm_compute; reflexivity).
  split; [|split; [|split]].
  - apply Forall_forall. intros x Hx. apply repeat_spec in Hx. subst. unfold in_range; cbn; lia.
  - apply Forall_forall. intros x Hx. apply repeat_spec in Hx. subst. unfold in_range; cbn; lia.
  - rewrite A. intros [L _]. vm_compute in L. apply L. reflexivity.
  - rewrite A. intros [L _]. vm_compute in L. apply L. reflexivity.
Qed.

(** Two products of one-bit unsigned operands: 1*1 + 1*1 = 2 does not fit the declared bit. *)
Theorem C20_one_bit_refuted :
  exists xs ws, Forall (in_range false false 1) xs /\ Forall (in_range false false 1) ws
    /\ length xs = 2%nat /\ length ws = 2%nat
    /\ ~ in_range false false (max_acc_bit_width_linear 1 1 [1; 2]%Z) (dotZ xs ws).
Proof.
  exists [1; 1]%Z, [1; 1]%Z. repeat split; try (repeat constructor; discriminate).
  intros [_ H]. vm_compute in H. apply H. reflexivity.
Qed.

(** Transposed convolutions: the declared width uses the number of *output* channels instead
    of input channels.  64 input channels, one output channel, kernel 1, 2-bit unsigned. *)
Theorem C20_conv_transpose_refuted :
  exists x w, length x = 64%nat /\ length w = 64%nat
    /\ Forall (fun ch => Forall (in_range false false 2) ch /\ length ch = 1%nat) x
    /\ Forall (fun o => length o = 1%nat /\ Forall (fun k => length k = 1%nat /\ Forall (in_range false false 2) k) o) w
    /\ ~ in_range false false (max_acc_bit_width_conv_transpose 2 2 [64; 1; 1]%Z [1]%Z)
         (conv_transpose1d x w 1 0 0).
Proof.
  exists (repeat [3%Z] 64), (repeat [[3%Z]] 64).
  split; [reflexivity|]. split; [reflexivity|]. split; [|split].
  - apply Forall_forall. intros c Hc. apply repeat_spec in Hc. subst. split; [|reflexivity]. repeat constructor; discriminate.
  - apply Forall_forall. intros c Hc. apply repeat_spec in Hc. subst. split; [reflexivity|].
    repeat constructor; try discriminate.
  - intros [_ H]. vm_compute in H. apply H. reflexivity.
Qed.

(** Adding a quantized bias: the extra bit is enough for signed outputs. *)
Theorem C20_bias_bit : forall w bb acc kb,
  (1 <= w)%Z -> (1 <= bb)%Z -> in_range true false w acc -> in_range true false bb kb ->
  in_range true false ((if (w <? bb)%Z then bb else w) + 1) (acc + kb).
Proof.
  intros w bb acc kb Hw Hb A B. unfold in_range, range_lo, range_hi in *.
  set (m := (if (w <? bb)%Z then bb else w)).
  assert (M : (w <= m /\ bb <= m)%Z) by (unfold m; destruct (w <? bb)%Z eqn:E; [apply Z.ltb_lt in E|apply Z.ltb_ge in E]; lia).
  pose proof (Z.pow_le_mono_r 2 (w - 1) (m - 1) ltac:(lia) ltac:(lia)).
  pose proof (Z.pow_le_mono_r 2 (bb - 1) (m - 1) ltac:(lia) ltac:(lia)).
  replace (m + 1 - 1)%Z with m by lia. pose proof (pow2Z_half m ltac:(lia)). lia.
Qed.

Example C20_nontrivial :
  in_range true false (max_acc_bit_width_linear 4 4 [1; 3]%Z) (dotZ [7; -8; 5] [-8; -8; 7])%Z
  /\ max_acc_bit_width_linear 4 4 [1; 3]%Z = 10%Z.
Proof.
  split; [|reflexivity]. rewrite declared_linear. apply C20_signed_signed; try lia; try (cbn; lia).
  all: repeat constructor; discriminate.
Qed.

(** ** C23 *)

(** A weight matrix stands for rows of codes, each row with its own positive scale. *)
Definition weight_stands (narrow : bool) (w : wqt) (kws : list (list Z)) : Prop :=
  w_zp w == 0 /\ length (w_scales w) = length (w_rows w)
  /\ Forall2 (fun p krow => 0 < snd p
        /\ Forall2 (fun v k => v == inject_Z k * snd p) (fst p) krow
        /\ Forall (in_range (w_signed w) narrow (w_bw w)) krow)
      (combine (w_rows w) (w_scales w)) kws.

Lemma dotQ_codes sx sw : forall x kx row krow,
  Forall2 (fun v k => v == inject_Z k * sx) x kx ->
  Forall2 (fun v k => v == inject_Z k * sw) row krow ->
  dotQ x row == inject_Z (dotZ kx krow) * (sw * sx).
Proof.
  intros x kx row krow Hx. revert row krow. unfold dotQ, map2.
  induction Hx as [|v k x kx Hv _ IH]; intros row krow Hr; cbn.
  - inversion Hr; subst; cbn; change (inject_Z 0) with 0; ring.
  - destruct Hr as [|u j row krow Hu Hr]; cbn; [change (inject_Z 0) with 0; ring|].
    rewrite (IH row krow Hr), Hv, Hu, inject_Z_plus, inject_Z_mult. ring.
Qed.

Lemma zp_free_codes t ks : stands_for t ks -> qt_zp t == 0 ->
  Forall2 (fun v k => v == inject_Z k * qt_scale t) (qt_value t) ks.
Proof.
  intros (_ & V & _) Z0. induction V as [|v k l ks Hv _ IH]; constructor; [|exact IH]. rewrite Hv, Z0. ring.
Qed.

Lemma allclose_list_refl l : allclose_list l l = true.
Proof.
  unfold allclose_list. induction l as [|a l IH]; cbn; [reflexivity|].
  rewrite (close_refl a a (Qeq_refl _)). exact IH.
Qed.

(** Codes of one output tensor: the specification of the integer-only computation.
    [acc] is the list of integer results, one per output channel. *)
Definition out_stands_for (r : lout) (acc : list Z) : Prop :=
  Forall2 (fun p k => fst (fst p) == (inject_Z k - snd p) * snd (fst p))
          (combine (combine (lo_value r) (lo_scale r)) (lo_zp r)) acc
  /\ length (lo_value r) = length acc /\ length (lo_scale r) = length acc /\ length (lo_zp r) = length acc.

Section Layer.
Variables (x : iqt) (w : wqt) (kx : list Z) (kws : list (list Z)) (narrow : bool).
Hypothesis Hx : stands_for x kx.
Hypothesis Zx : qt_zp x == 0.
Hypothesis Hw : weight_stands narrow w kws.

Lemma F2_length {A B} (R : A -> B -> Prop) l m : Forall2 R l m -> length l = length m.
Proof. induction 1; cbn; congruence. Qed.

Lemma layer_sx : 0 < qt_scale x. Proof. exact (proj1 Hx). Qed.

Lemma layer_len : length kws = length (w_rows w).
Proof.
  destruct Hw as (_ & L & F). apply F2_length in F. rewrite combine_length, L, Nat.min_id in F. symmetry. exact F.
Qed.

(** each raw output is the integer dot product times the product of scales *)
Lemma layer_raw : Forall2 (fun p krow => 0 < snd p /\ fst p == inject_Z (dotZ kx krow) * snd p)
   (combine (map (fun row => dotQ (qt_value x) row) (w_rows w)) (quant_output_scale x w)) kws.
Proof.
  destruct Hw as (_ & L & F). unfold quant_output_scale.
  pose proof (zp_free_codes x kx Hx Zx) as V. pose proof layer_sx as S.
  revert L F. generalize (w_rows w) (w_scales w). intros rows scales L F.
  clear Hw. revert scales kws L F.
  induction rows as [|row rows IH]; intros [|s scales] kws L F; cbn [combine map] in *; try discriminate.
  - inversion F; subst. constructor.
  - inversion F as [|? krow ? kws' (P & R & _) F']; subst. cbn [fst snd] in *. constructor.
    + cbn [fst snd]. split; [apply Qmult_lt_0_compat; assumption|]. apply dotQ_codes; assumption.
    + apply (IH scales kws'); [cbn in L; congruence|exact F'].
Qed.
End Layer.

(** No bias: the layer output is the integer matrix-vector product times s_w*s_x, with zero
    point zero and the declared scale s_w*s_x per channel. *)
Theorem C23_no_bias : forall x w kx kws narrow,
  stands_for x kx -> qt_zp x == 0 -> weight_stands narrow w kws ->
  exists r, quant_linear x w NoBias = inr r
    /\ out_stands_for r (map (dotZ kx) kws)
    /\ lo_scale r = map (fun s => s * qt_scale x) (w_scales w)
    /\ Forall (fun z => z == 0) (lo_zp r)
    /\ lo_signed r = qt_signed x || w_signed w.
Proof.
  intros x w kx kws nr Hx Zx Hw. unfold quant_linear.
  rewrite (proj2 (Qeq_bool_iff _ _) Zx), (proj2 (Qeq_bool_iff _ _) (proj1 Hw)). cbn [negb orb].
  eexists. split; [reflexivity|]. cbn [lo_value lo_scale lo_zp lo_signed bias_value].
  pose proof (layer_raw x w kx kws nr Hx Zx Hw) as R.
  pose proof (layer_len w kws nr Hw) as L. destruct Hw as (_ & Ls & _).
  split; [|split; [reflexivity|split; [|reflexivity]]].
  2:{ clear. induction (length (w_rows w)); cbn; constructor; [reflexivity|assumption]. }
  unfold out_stands_for. cbn [lo_value lo_scale lo_zp].
  assert (Lv : length (map (fun row => dotQ (qt_value x) row) (w_rows w)) = length (w_rows w)) by apply map_length.
  assert (Lq : length (quant_output_scale x w) = length (w_rows w)) by (unfold quant_output_scale; rewrite map_length; exact Ls).
  split; [|unfold map2; repeat split; rewrite ?map_length, ?combine_length, ?map_length, ?repeat_length; lia].
  revert R L Lv Lq. generalize (map (fun row => dotQ (qt_value x) row) (w_rows w)) (quant_output_scale x w) (length (w_rows w)).
  intros vals scs n R L Lv Lq. revert vals scs n R L Lv Lq. unfold map2.
  induction kws as [|krow kws IH]; intros vals scs n R L Lv Lq; cbn [length map] in *.
  - destruct vals; [|cbn in *; lia]. constructor.
  - destruct n as [|n]; [discriminate|]. destruct vals as [|v vals]; [discriminate|]. destruct scs as [|s scs]; [discriminate|].
    cbn [combine] in R. inversion R as [|? ? ? ? [P E] R']; subst. cbn [fst snd] in *.
    cbn [repeat combine map]. constructor.
    + cbn [fst snd]. rewrite E. ring.
    + apply (IH vals scs n); cbn in *; congruence.
Qed.

(** Bias quantized by the library at scale s_w*s_x: integer bias added to the integer
    accumulator; the zero point stays zero; the bias codes are in the bias range. *)
Theorem C23_quantized_bias : forall x w kx kws narrow bw b,
  stands_for x kx -> qt_zp x == 0 -> weight_stands narrow w kws -> (1 <= bw)%Z ->
  length b = length (w_rows w) ->
  exists r kb, quant_linear x w (quant_bias bw x w b) = inr r
    /\ out_stands_for r (map2 Z.add (map (dotZ kx) kws) kb)
    /\ Forall (in_range true false bw) kb
    /\ lo_scale r = map (fun s => s * qt_scale x) (w_scales w)
    /\ Forall (fun z => z == 0) (lo_zp r)
    /\ lo_bw r = (Z.max bw (max_acc_bit_width_linear (qt_bw x) (w_bw w)
                    [Z.of_nat (length (w_rows w)); Z.of_nat (length (hd [] (w_rows w)))]) + 1)%Z.
Proof.
  intros x w kx kws nr bw b Hx Zx Hw Hbw Lb. unfold quant_linear, quant_bias.
  rewrite (proj2 (Qeq_bool_iff _ _) Zx), (proj2 (Qeq_bool_iff _ _) (proj1 Hw)). cbn [negb orb].
  rewrite allclose_list_refl.
  set (kb := map2 (fun v s => code true false (float_to_intZ Round) s 0 bw v) b (quant_output_scale x w)).
  eexists _, kb. split; [reflexivity|]. cbn [lo_value lo_scale lo_zp lo_bw bias_value].
  pose proof (layer_raw x w kx kws nr Hx Zx Hw) as R.
  pose proof (layer_len w kws nr Hw) as L. destruct Hw as (_ & Ls & _).
  assert (Lv : length (map (fun row => dotQ (qt_value x) row) (w_rows w)) = length (w_rows w)) by apply map_length.
  assert (Lq : length (quant_output_scale x w) = length (w_rows w)) by (unfold quant_output_scale; rewrite map_length; exact Ls).
  split; [|split; [|split; [reflexivity|split]]].
  - unfold out_stands_for. cbn [lo_value lo_scale lo_zp].
    split; [|unfold map2, kb, map2; repeat split; rewrite ?map_length, ?combine_length, ?map_length, ?combine_length, ?repeat_length; lia].
    subst kb. revert R L Lv Lq Lb.
    generalize (map (fun row => dotQ (qt_value x) row) (w_rows w)) (quant_output_scale x w) (length (w_rows w)).
    intros vals scs n R L Lv Lq Lb. revert vals scs n b R L Lv Lq Lb. unfold map2.
    induction kws as [|krow kws IH]; intros vals scs n b R L Lv Lq Lb; cbn [length map] in *.
    + destruct vals; [|cbn in *; lia]. constructor.
    + destruct n as [|n]; [discriminate|]. destruct vals as [|v vals]; [discriminate|].
      destruct scs as [|s scs]; [discriminate|]. destruct b as [|bv b]; [discriminate|].
      cbn [combine] in R. inversion R as [|? ? ? ? [P E] R']; subst. cbn [fst snd] in *.
      cbn [repeat combine map]. constructor.
      * cbn [fst snd]. change (int_quant (cfg true false Round) s 0 bw bv) with (int_quant (cfg true false Round) s (inject_Z 0) bw bv).
        rewrite cfg_quant. rewrite E, inject_Z_plus. change (inject_Z 0) with 0. ring.
      * apply (IH vals scs n b); cbn in *; congruence.
  - unfold kb, map2. apply Forall_forall. intros k Hk. apply in_map_iff in Hk. destruct Hk as ([v s] & <- & _).
    apply code_in_range. exact Hbw.
  - clear. induction (length (w_rows w)); cbn; constructor; [reflexivity|assumption].
  - f_equal. match goal with |- (if ?a <? ?c then _ else _)%Z = _ => destruct (a <? c)%Z eqn:E; [apply Z.ltb_lt in E|apply Z.ltb_ge in E] end; lia.
Qed.

(** Float bias: it is carried entirely by the zero point, and the integers are those of the
    bias-free product. *)
Theorem C23_float_bias : forall x w kx kws narrow b,
  stands_for x kx -> qt_zp x == 0 -> weight_stands narrow w kws ->
  length b = length (w_rows w) ->
  exists r, quant_linear x w (PlainBias b) = inr r
    /\ out_stands_for r (map (dotZ kx) kws)
    /\ lo_scale r = map (fun s => s * qt_scale x) (w_scales w).
Proof.
  intros x w kx kws nr b Hx Zx Hw Lb. unfold quant_linear.
  rewrite (proj2 (Qeq_bool_iff _ _) Zx), (proj2 (Qeq_bool_iff _ _) (proj1 Hw)). cbn [negb orb].
  eexists. split; [reflexivity|]. cbn [lo_value lo_scale lo_zp lo_bw bias_value].
  pose proof (layer_raw x w kx kws nr Hx Zx Hw) as R.
  pose proof (layer_len w kws nr Hw) as L. destruct Hw as (_ & Ls & _).
  assert (Lv : length (map (fun row => dotQ (qt_value x) row) (w_rows w)) = length (w_rows w)) by apply map_length.
  assert (Lq : length (quant_output_scale x w) = length (w_rows w)) by (unfold quant_output_scale; rewrite map_length; exact Ls).
  split; [|reflexivity].
  unfold out_stands_for. cbn [lo_value lo_scale lo_zp].
  split; [|unfold map2; repeat split; rewrite ?map_length, ?combine_length, ?map_length, ?combine_length; lia].
  revert R L Lv Lq Lb.
  generalize (map (fun row => dotQ (qt_value x) row) (w_rows w)) (quant_output_scale x w) (length (w_rows w)).
  intros vals scs n R L Lv Lq Lb. revert vals scs n b R L Lv Lq Lb. unfold map2.
  induction kws as [|krow kws IH]; intros vals scs n b R L Lv Lq Lb; cbn [length map] in *.
  - destruct vals; [|cbn in *; lia]. constructor.
  - destruct n as [|n]; [discriminate|]. destruct vals as [|v vals]; [discriminate|].
    destruct scs as [|s scs]; [discriminate|]. destruct b as [|bv b]; [discriminate|].
    cbn [combine] in R. inversion R as [|? ? ? ? [P E] R']; subst. cbn [fst snd] in *.
    cbn [combine map]. constructor.
    + cbn [fst snd]. rewrite E. field. apply Qpos_neq0, P.
    + apply (IH vals scs n b); cbn in *; congruence.
Qed.

(** Asymmetric operands are returned as plain tensors, not as (wrong) quantized ones. *)
Theorem C23_zero_points_give_plain_output : forall x w b,
  ~ (qt_zp x == 0 /\ w_zp w == 0) -> exists out, quant_linear x w b = inl out.
Proof.
  intros x w b H. unfold quant_linear.
  destruct (Qeq_bool (qt_zp x) 0) eqn:E1; [|eexists; reflexivity].
  destruct (Qeq_bool (w_zp w) 0) eqn:E2; [|eexists; reflexivity].
  exfalso. apply H. split; apply Qeq_bool_iff; assumption.
Qed.

(** Finding: the sign of the bias is ignored; an unsigned layer with a negative quantized
    bias is declared unsigned although its integer is negative. *)
Theorem C23_signed_bias_refuted :
  exists x w kx kws b r acc, stands_for x kx /\ qt_zp x == 0 /\ weight_stands false w kws
    /\ quant_linear x w (quant_bias 8 x w b) = inr r
    /\ out_stands_for r [acc] /\ (acc < 0)%Z /\ lo_signed r = false.
Proof.
  exists {| qt_value := [1]; qt_scale := 1; qt_zp := 0; qt_bw := 4; qt_signed := false; qt_training := false |},
         {| w_rows := [[1]]; w_scales := [1]; w_zp := 0; w_bw := 4; w_signed := false; w_training := false |},
         [1%Z], [[1%Z]], [- (5)].
  eexists _, (-4)%Z.
  split; [|split; [reflexivity|split; [|split; [reflexivity|split; [|split; [lia|reflexivity]]]]]].
  - repeat split; repeat constructor; cbn; try lia; reflexivity.
  - repeat split; repeat constructor; cbn; try lia; reflexivity.
  - repeat split; repeat constructor.
Qed.

(** Full end-to-end statement for the standard configuration (signed or unsigned activations,
    narrow-range signed weights, integer bias): value, scale, zero point and bit width of the
    result are those of the integer computation, which fits the declared width. *)
Theorem C23_integer_equivalence_end_to_end : forall x w kx kws bw b,
  stands_for x kx -> qt_zp x == 0 -> weight_stands true w kws -> w_signed w = true ->
  (1 <= qt_bw x)%Z -> (2 <= w_bw w)%Z -> (1 <= bw)%Z ->
  length b = length (w_rows w) ->
  kx <> [] -> Forall (fun row => length row = length kx) (w_rows w) -> w_rows w <> [] ->
  exists r acc, quant_linear x w (quant_bias bw x w b) = inr r
    /\ out_stands_for r acc
    /\ Forall (in_range (lo_signed r) false (lo_bw r)) acc
    /\ Forall (fun z => z == 0) (lo_zp r).
Proof.
  intros x w kx kws bw b Hx Zx Hw Sw Hbx Hbw Hb Lb Nx Lrow Nrow.
  destruct (C23_quantized_bias x w kx kws true bw b Hx Zx Hw Hb Lb) as (r & kb & E & O & Rb & _ & Z0 & Ebw).
  exists r, (map2 Z.add (map (dotZ kx) kws) kb). split; [exact E|]. split; [exact O|]. split; [|exact Z0].
  assert (Sg : lo_signed r = true).
  { unfold quant_linear in E. cbn zeta in E.
    match type of E with (if ?c then _ else _) = _ => destruct c; [discriminate|] end.
    injection E as <-. cbn [lo_signed]. rewrite Sw. apply orb_true_r. }
  rewrite Sg, Ebw.
  assert (Lh : Z.of_nat (length (hd [] (w_rows w))) = Z.of_nat (length kx)).
  { destruct (w_rows w) as [|row rows]; [congruence|]. inversion Lrow; subst. cbn [hd]. congruence. }
  rewrite Lh, declared_linear.
  set (n := Z.of_nat (length kx)). assert (Hn : (1 <= n)%Z) by (unfold n; destruct kx; [congruence|cbn; lia]).
  set (wd := declared (qt_bw x) (w_bw w) n).
  assert (A : Forall (in_range true false wd) (map (dotZ kx) kws)).
  { apply Forall_forall. intros k Hk. apply in_map_iff in Hk. destruct Hk as (krow & <- & Hkr).
    apply (C20_narrow_weights (qt_signed x)); try assumption; try (unfold n; lia).
    - exact (proj2 (proj2 Hx)).
    - destruct Hw as (_ & _ & F). clear - F Hkr Sw. rewrite Sw in F. induction F as [|p kr ps krs (_ & _ & G) _ IH]; [destruct Hkr|].
      destruct Hkr as [<-|Hkr]; [exact G|apply IH, Hkr]. }
  assert (W1 : (1 <= wd)%Z).
  { destruct (declared_spec (qt_bw x) (w_bw w) n Hbx ltac:(lia) Hn) as [D W0]. fold wd in D, W0.
    apply (declared_ge1 (qt_bw x) (w_bw w) n); [|exact D|exact W0].
    pose proof (pow_ge (qt_bw x) 1 Hbx ltac:(lia)). pose proof (pow_ge (w_bw w) 2 Hbw ltac:(lia)).
    change (2 ^ 1)%Z with 2%Z in *. change (2 ^ 2)%Z with 4%Z in *. nia. }
  eapply Forall_map2; [|exact A|exact Rb]. intros a c Ha Hc.
  pose proof (C20_bias_bit wd bw a c W1 Hb Ha Hc) as G.
  replace (Z.max bw wd) with (if (wd <? bw)%Z then bw else wd); [exact G|].
  destruct (wd <? bw)%Z eqn:E'; [apply Z.ltb_lt in E'|apply Z.ltb_ge in E']; lia.
Qed.

Definition ex_x : iqt := {| qt_value := [1 # 1; - 3 # 2; 2]; qt_scale := 1 # 2; qt_zp := 0; qt_bw := 4; qt_signed := true; qt_training := false |}.
Definition ex_w : wqt := {| w_rows := [[1 # 4; 0; - 3 # 4]; [2; -1 # 1; 7]]; w_scales := [1 # 4; 1]; w_zp := 0; w_bw := 4; w_signed := true; w_training := false |}.
Example C23_nontrivial :
  stands_for ex_x [2; -3; 4]%Z /\ weight_stands true ex_w [[1; 0; -3]; [2; -1; 7]]%Z
  /\ exists r, quant_linear ex_x ex_w (quant_bias 8 ex_x ex_w [1 # 3; - 1 # 1]) = inr r
     /\ out_stands_for r [-7; 33]%Z /\ lo_bw r = 11%Z.
Proof.
  split; [repeat split; repeat constructor; cbn; try lia; reflexivity|].
  split; [repeat split; repeat constructor; cbn; try lia; reflexivity|].
  eexists. split; [reflexivity|]. split; [|reflexivity]. repeat split; repeat constructor.
Qed.

Print Assumptions C20_linear_layer.
Print Assumptions C20_conv_layer.
Print Assumptions C20_signed_signed.
Print Assumptions C20_narrow_weights.
Print Assumptions C20_unsigned_unsigned.
Print Assumptions C20_one_more_bit_suffices.
Print Assumptions C20_unsigned_full_range_refuted.
Print Assumptions C20_one_bit_refuted.
Print Assumptions C20_conv_transpose_refuted.
Print Assumptions C20_bias_bit.
Print Assumptions C23_no_bias.
Print Assumptions C23_quantized_bias.
Print Assumptions C23_float_bias.
Print Assumptions C23_zero_points_give_plain_output.
Print Assumptions C23_signed_bias_refuted.
Print Assumptions C23_integer_equivalence_end_to_end.
