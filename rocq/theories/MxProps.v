(** C107: the MX (microscaling) block quantizers. *)
From Verif Require Import QUtil Log2Q Ops OpsProofs IntQuant IntQuantProofs Scaling ScalingProofs
  Minifloat MinifloatProofs MinifloatProps Groupwise GroupwiseProps Mx.
Open Scope Q_scope.

(** ** Specification *)

(** [s] is the smallest power of two for which no member of the group exceeds [thr * s]. *)
Definition smallest_pow2 (thr : Q) (l : list Q) (s : Q) : Prop :=
  (exists k, s == pow2 k)
  /\ (forall x, In x l -> Qabs x <= thr * s)
  /\ (exists x, In x l /\ thr * (s / 2) < Qabs x).

(** ** Scales *)

Lemma group_abs_max_spec l : l <> [] ->
  (forall x, In x l -> Qabs x <= group_abs_max l) /\ (exists x, In x l /\ Qabs x = group_abs_max l).
Proof.
  intros H. unfold group_abs_max. destruct (abs_max_some l H) as [m E]. rewrite E. apply abs_max_spec, E.
Qed.

Lemma group_abs_max_nonneg l : 0 <= group_abs_max l.
Proof. unfold group_abs_max. destruct (abs_max l) as [m|] eqn:E; [apply (abs_max_nonneg _ _ E)|lra]. Qed.

Lemma Qdiv_le_mul a t s : 0 < t -> a / t <= s -> a <= t * s.
Proof.
  intros Ht H. assert (E : a == t * (a / t)) by (field; apply Qpos_neq0, Ht). rewrite E.
  apply Qmult_le_l; assumption.
Qed.
Lemma Qdiv_lt_mul a t s : 0 < t -> s < a / t -> t * s < a.
Proof.
  intros Ht H. assert (E : a == t * (a / t)) by (field; apply Qpos_neq0, Ht). rewrite E.
  apply Qmult_lt_l; assumption.
Qed.

Lemma min_val_pos : 0 < mx_min_val. Proof. reflexivity. Qed.

Lemma clamp_min_eq v x : 0 < v -> clamp_min_opt (Some v) x == x \/ (x < v /\ clamp_min_opt (Some v) x == v).
Proof.
  intros Hv. cbn. qcase; [left; reflexivity|]. unfold torch_max. qcase; [left; reflexivity|right; split; [exact Hc0|reflexivity]].
Qed.

Lemma weight_scale thr l : 0 < thr -> l <> [] ->
  let s := mx_weight_scale thr l in
  mx_min_val <= s /\ (forall x, In x l -> Qabs x <= thr * s)
  /\ (s == mx_min_val \/ smallest_pow2 thr l s)
  /\ ((exists x, In x l /\ thr * mx_min_val <= Qabs x) -> smallest_pow2 thr l s).
Proof.
  intros Ht Hl s. destruct (group_abs_max_spec l Hl) as [U (m & Hm & Em)].
  set (M := group_abs_max l) in *.
  assert (L : mx_min_val <= s) by (apply clamp_min_opt_min; discriminate).
  assert (M0 : 0 <= M) by apply group_abs_max_nonneg.
  pose proof min_val_pos as PV.
  destruct (Qlt_le_dec 0 M) as [P|P].
  - assert (PD : 0 < M / thr) by (apply Qdiv_pos; assumption).
    set (e := ceil_log2 (M / thr)).
    destruct (ceil_log2_spec (M / thr) PD) as [C1 C2]. fold e in C1, C2.
    assert (Es : s = clamp_min_opt (Some mx_min_val) (pow2 e)).
    { unfold s, mx_weight_scale, stats_scaling, restrict_combine. fold M. qcase; [exfalso; lra|]. reflexivity. }
    pose proof (clamp_min_opt_ge (Some mx_min_val) (pow2 e)) as G. rewrite <- Es in G.
    apply (Qdiv_le_mul _ _ _ Ht) in C1. apply (Qdiv_lt_mul _ _ _ Ht) in C2.
    assert (H2 : pow2 e == 2 * pow2 (e - 1)) by (rewrite <- pow2_succ; replace (e - 1 + 1)%Z with e by lia; reflexivity).
    assert (TG : thr * pow2 e <= thr * s) by (apply Qmult_le_l; assumption).
    assert (Sm : s == pow2 e -> smallest_pow2 thr l s).
    { intros E. split; [exists e; exact E|]. split.
      - intros x Hx. specialize (U x Hx). lra.
      - exists m. split; [exact Hm|]. rewrite Em, E, H2.
        assert (E2 : thr * (2 * pow2 (e - 1) / 2) == thr * pow2 (e - 1)) by field. rewrite E2. exact C2. }
    split; [exact L|]. split; [intros x Hx; specialize (U x Hx); lra|].
    destruct (clamp_min_eq mx_min_val (pow2 e) PV) as [E|[Lt E]]; rewrite <- Es in E.
    + split; [right|intros _]; apply Sm, E.
    + split; [left; exact E|]. intros (x & Hx & B). exfalso. specialize (U x Hx).
      assert (thr * pow2 e < thr * mx_min_val) by (apply Qmult_lt_l; assumption). lra.
  - assert (Es : s = clamp_min_opt (Some mx_min_val) 0).
    { unfold s, mx_weight_scale, stats_scaling, restrict_combine. fold M. qcase; [reflexivity|exfalso; lra]. }
    assert (E : s == mx_min_val) by (rewrite Es; vm_compute; reflexivity).
    assert (TP : 0 < thr * mx_min_val) by (apply Qmult_lt_0_compat; assumption).
    split; [exact L|]. split; [intros x Hx; specialize (U x Hx); rewrite E; lra|].
    split; [left; exact E|]. intros (x & Hx & B). specialize (U x Hx). lra.
Qed.

Lemma act_scale thr l : 0 < thr -> l <> [] ->
  let s := mx_act_scale thr l in
  exists k, (0 <= k)%Z /\ s == pow2 k
    /\ (forall x, In x l -> Qabs x <= thr * inject_Z k)
    /\ (exists x, In x l /\ thr * (inject_Z k - 1) < Qabs x).
Proof.
  intros Ht Hl s. destruct (group_abs_max_spec l Hl) as [U (m & Hm & Em)].
  pose proof (group_abs_max_nonneg l) as M0. set (M := group_abs_max l) in *.
  exists (Qceiling (M / thr)). set (k := Qceiling (M / thr)).
  pose proof (Qceiling_lb (M / thr)) as B1. pose proof (Qceiling_ub (M / thr)) as B2. fold k in B1, B2.
  assert (K0 : (0 <= k)%Z).
  { assert (0 <= M / thr) by (apply Qle_shift_div_l; [exact Ht|lra]).
    apply injz_le_inv. change (inject_Z 0) with 0. lra. }
  assert (B3 : inject_Z k - 1 < M / thr) by lra.
  apply (Qdiv_le_mul _ _ _ Ht) in B2. apply (Qdiv_lt_mul _ _ _ Ht) in B3.
  split; [exact K0|]. split.
  - unfold s, mx_act_scale, pot_forward. fold M. cbn [float_to_intZ]. unfold ceilZ. fold k.
    pose proof (pow2_ge_1 k K0) as P1.
    destruct (clamp_min_eq mx_min_val (pow2 k) min_val_pos) as [E|[E _]]; [exact E|].
    exfalso. assert (mx_min_val < 1) by reflexivity. lra.
  - split; [intros x Hx; specialize (U x Hx); lra|]. exists m. split; [exact Hm|]. rewrite Em. exact B3.
Qed.

Lemma succ_le_pow2 k : (0 <= k)%Z -> inject_Z k + 1 <= pow2 k.
Proof.
  intros H. pattern k. apply natlike_ind; [vm_compute; discriminate| |exact H].
  intros x Hx IH. unfold Z.succ. rewrite pow2_succ, inject_Z_plus. change (inject_Z 1) with 1.
  pose proof (pow2_ge_1 x Hx). lra.
Qed.

(** ** Positions *)

Lemma block_nonempty x N g ip iq p : (1 <= g)%Z -> block x N g ip iq p <> [].
Proof.
  intros Hg E. apply (f_equal (@length _)) in E. unfold block in E. rewrite map_length, seq_length in E. cbn in E. lia.
Qed.

Lemma block_self x N g ip iq p : (1 <= g)%Z -> (0 <= p < N)%Z -> In (at_ x (ip ++ p :: iq)) (block x N g ip iq p).
Proof.
  intros Hg Hp. unfold block. apply in_map_iff. exists (Z.to_nat (p mod g)).
  pose proof (Z.mod_pos_bound p g ltac:(lia)) as B. pose proof (Z.div_mod p g ltac:(lia)) as D. split.
  - rewrite Z2Nat.id by lia. replace (p / g * g + p mod g)%Z with p by lia. unfold elem.
    rewrite (proj2 (Z.ltb_lt _ _)) by lia. reflexivity.
  - apply in_seq. lia.
Qed.

Lemma block_members x N g ip iq p y : (1 <= g)%Z -> (0 <= p)%Z -> In y (block x N g ip iq p) ->
  y = 0 \/ exists p', (0 <= p' < N)%Z /\ y = at_ x (ip ++ p' :: iq).
Proof.
  intros Hg Hp H. unfold block in H. apply in_map_iff in H. destruct H as (r & <- & Hr).
  unfold elem. destruct (p / g * g + Z.of_nat r <? N)%Z eqn:E; [right|left; reflexivity].
  apply Z.ltb_lt in E. assert (0 <= p / g)%Z by (apply Z.div_pos; lia).
  eexists. split; [|reflexivity]. nia.
Qed.

(** ** Weights *)

(** Specification of the group a position belongs to: the [g] consecutive entries along the
    grouped dimension, zero beyond the end ([block], stated with C30). *)

Lemma int_threshold b : (1 <= b)%Z -> mx_int_threshold b == inject_Z (2 ^ (b - 1)).
Proof. intros H. unfold mx_int_threshold, pot_int_scaling, max_int. cbn. f_equiv. lia. Qed.

Lemma pow2b_pos b : (1 <= b)%Z -> (0 < 2 ^ (b - 1))%Z.
Proof. intros H. apply Z.pow_pos_nonneg; lia. Qed.

Lemma mx_int_code b s x : (1 <= b)%Z -> 0 < s ->
  exists c, (- 2 ^ (b - 1) <= c <= 2 ^ (b - 1) - 1)%Z /\ mx_int b s x == inject_Z c * s
    /\ c = clampZ (roundZ (x / s + inject_Z 0)) (- 2 ^ (b - 1)) (2 ^ (b - 1) - 1).
Proof.
  intros Hb Hs. unfold mx_int. change 0 with (inject_Z 0) at 1. rewrite cfg_quant.
  exists (code true false (float_to_intZ Round) s 0 b x). split.
  - apply (code_range true false roundZ s 0 b Hb).
  - split; [|reflexivity]. change (inject_Z 0) with 0. ring.
Qed.

(** Integer MX weights, for every bit width, group size and weight of any rank. The scale of
    a group is the smallest power of two (but never less than 1e-10) with which all its
    members are at most 2^(b-1) steps; each member becomes the nearest multiple of the scale
    in the signed range, at most one step away. *)
Theorem C107_int_weight : forall b g w pre N post,
  (1 <= b)%Z -> (1 <= g)%Z -> (0 <= N)%Z -> shape w = pre ++ N :: post ->
  exists value scale, mx_int_weight b g (Z.of_nat (length pre)) w = Some (value, scale)
    /\ forall ip p iq, in_box pre ip -> (0 <= p < N)%Z -> in_box post iq ->
       let s := at_ scale (ip ++ p :: iq) in
       let x := at_ w (ip ++ p :: iq) in
       let y := at_ value (ip ++ p :: iq) in
       let l := block w N g ip iq p in
       let thr := inject_Z (2 ^ (b - 1)) in
       (1 # 10000000000) <= s
       /\ (s == 1 # 10000000000 \/ smallest_pow2 thr l s)
       /\ ((exists z, In z l /\ thr * (1 # 10000000000) <= Qabs z) -> smallest_pow2 thr l s)
       /\ (exists c, (- 2 ^ (b - 1) <= c <= 2 ^ (b - 1) - 1)%Z /\ y == inject_Z c * s)
       /\ (forall c, (- 2 ^ (b - 1) <= c <= 2 ^ (b - 1) - 1)%Z -> Qabs (y - x) <= Qabs (inject_Z c * s - x))
       /\ Qabs (y - x) <= s
       /\ (x <= (thr - (1 # 2)) * s -> Qabs (y - x) <= s / 2).
Proof.
  intros b g w pre N post Hb Hg HN Es.
  destruct (C30_weight_groups (mx_weight_scale (mx_int_threshold b)) (mx_int b) g w pre N post Hg HN Es)
    as (value & scale & E & _ & _ & H).
  exists value, scale. split; [exact E|]. intros ip p iq H1 Hp H2 s x y l thr.
  destruct (H ip p iq H1 Hp H2) as [Hs Hy]. fold l s in Hs. fold l x y in Hy. rewrite <- Hs in Hy.
  pose proof (pow2b_pos b Hb) as PB. pose proof (int_threshold b Hb) as ET. fold thr in ET.
  assert (PT : 0 < thr) by (apply (injz_lt 0); exact PB).
  assert (PM : 0 < mx_int_threshold b) by (rewrite ET; exact PT).
  destruct (weight_scale (mx_int_threshold b) l PM (block_nonempty _ _ _ _ _ _ Hg)) as (W1 & W2 & W3 & W4).
  rewrite <- Hs in W1, W2, W3, W4.
  assert (SM : smallest_pow2 (mx_int_threshold b) l s -> smallest_pow2 thr l s).
  { intros (K & A & (z & Hz & B)). split; [exact K|]. split.
    - intros v Hv. specialize (A v Hv). rewrite ET in A. exact A.
    - exists z. split; [exact Hz|]. rewrite ET in B. exact B. }
  assert (PS : 0 < s) by (pose proof min_val_pos; lra).
  destruct (mx_int_code b s x Hb PS) as (c & Rc & Ec & Dc). rewrite <- Hy in Ec.
  split; [exact W1|]. split; [destruct W3 as [W3|W3]; [left; exact W3|right; apply SM, W3]|].
  split; [intros (z & Hz & B); apply SM, W4; exists z; split; [exact Hz|]; rewrite ET; exact B|].
  split; [exists c; split; assumption|].
  assert (Near : forall c', (- 2 ^ (b - 1) <= c' <= 2 ^ (b - 1) - 1)%Z -> Qabs (y - x) <= Qabs (inject_Z c' * s - x)).
  { intros c' R'. rewrite Ec.
    assert (D : forall q, Qabs (inject_Z q * s - x) == Qabs (inject_Z q - (x / s + inject_Z 0)) * s).
    { intros q. rewrite <- (grid_dist s 0 q x PS). apply Qabs_wd. change (inject_Z 0) with 0. ring. }
    rewrite !D. apply Qmult_le_compat_r; [|lra]. rewrite Dc.
    apply clamp_nearest; [|exact R']. intros n. apply roundZ_nearest. }
  split; [exact Near|].
  assert (Bx : Qabs x <= thr * s).
  { specialize (W2 x (block_self _ _ _ _ _ _ Hg Hp)). rewrite ET in W2. exact W2. }
  assert (Bq : - thr <= x / s <= thr).
  { apply Qabs_Qle_condition in Bx. split.
    - apply Qle_shift_div_l; [exact PS|lra].
    - apply Qle_shift_div_r; [exact PS|lra]. }
  set (r := roundZ (x / s)).
  pose proof (roundZ_err (x / s)) as RE. fold r in RE.
  assert (RR : (- 2 ^ (b - 1) <= r <= 2 ^ (b - 1))%Z).
  { split; [apply (rounding_ge_int _ _ _ round_rounding)|apply (rounding_le_int _ _ _ round_rounding)].
    - rewrite inject_Z_opp. apply Bq.
    - apply Bq. }
  assert (Half : forall q, Qabs (inject_Z q - x / s) <= 1 # 2 -> Qabs (inject_Z q * s - x) <= s / 2).
  { intros q Hq. assert (D : inject_Z q * s - x == (inject_Z q - x / s) * s) by (field; apply Qpos_neq0, PS).
    rewrite D, Qabs_mul_pos by exact PS.
    assert (T : s / 2 == (1 # 2) * s) by field. rewrite T. apply Qmult_le_compat_r; [exact Hq|lra]. }
  assert (HR : Qabs (inject_Z r * s - x) <= s / 2).
  { apply Half. apply Qabs_Qle_condition. lra. }
  assert (S2 : s / 2 <= s) by (apply Qle_shift_div_r; lra).
  destruct (Z_le_gt_dec r (2 ^ (b - 1) - 1)) as [Cr|Cr].
  - assert (Qabs (y - x) <= s / 2) by (eapply Qle_trans; [apply (Near r); lia|exact HR]).
    split; [lra|intros _; assumption].
  - assert (r = 2 ^ (b - 1))%Z by lia.
    specialize (Near (2 ^ (b - 1) - 1)%Z ltac:(lia)).
    assert (NB : Qabs (inject_Z (2 ^ (b - 1) - 1) - x / s) <= 1).
    { apply Qabs_Qle_condition. rewrite inject_Z_minus. change (inject_Z 1) with 1. fold thr.
      assert (inject_Z r == thr) by (rewrite H0; reflexivity). lra. }
    assert (D : inject_Z (2 ^ (b - 1) - 1) * s - x == (inject_Z (2 ^ (b - 1) - 1) - x / s) * s) by (field; apply Qpos_neq0, PS).
    rewrite D, Qabs_mul_pos in Near by exact PS.
    assert (NS : Qabs (inject_Z (2 ^ (b - 1) - 1) - x / s) * s <= 1 * s) by (apply Qmult_le_compat_r; [exact NB|lra]).
    split; [lra|]. intros HX.
    eapply Qle_trans; [apply Near|]. rewrite <- Qabs_mul_pos, <- D by exact PS. apply Half.
    apply Qabs_Qle_condition. rewrite inject_Z_minus. change (inject_Z 1) with 1. fold thr.
    assert (x / s <= thr - (1 # 2)) by (apply Qle_shift_div_r; [exact PS|lra]).
    assert (inject_Z r == thr) by (rewrite H0; reflexivity). lra.
Qed.

(** Floating point MX weights, for every saturating signed format: no member of a group
    exceeds the largest value of the format times its scale, and each becomes the nearest
    value of the format times the scale. *)
Theorem C107_float_weight : forall c eps g w pre N post,
  fmt_ok c -> fsat c = true -> fsigned c = true -> fmode c = Round ->
  0 < eps -> 4 * eps <= pow2 (1 - fbias c - fm c) ->
  (1 <= g)%Z -> (0 <= N)%Z -> shape w = pre ++ N :: post ->
  exists value scale, mx_float_weight c eps g (Z.of_nat (length pre)) w = Some (value, scale)
    /\ forall ip p iq, in_box pre ip -> (0 <= p < N)%Z -> in_box post iq ->
       let s := at_ scale (ip ++ p :: iq) in
       let x := at_ w (ip ++ p :: iq) in
       let y := at_ value (ip ++ p :: iq) in
       let l := block w N g ip iq p in
       (1 # 10000000000) <= s
       /\ (s == 1 # 10000000000 \/ smallest_pow2 (largest c) l s)
       /\ ((exists z, In z l /\ largest c * (1 # 10000000000) <= Qabs z) -> smallest_pow2 (largest c) l s)
       /\ Qabs x <= largest c * s
       /\ (exists r, minifloat (fe c) (fm c) (fbias c) r /\ Qabs r <= largest c /\ y == r * s)
       /\ (forall r, minifloat (fe c) (fm c) (fbias c) r -> Qabs r <= largest c -> Qabs (y - x) <= Qabs (r * s - x)).
Proof.
  intros c eps g w pre N post Hc Hsat Hsg Hm He He4 Hg HN Es.
  destruct (C30_weight_groups (mx_weight_scale (float_max_value c)) (mx_float c eps) g w pre N post Hg HN Es)
    as (value & scale & E & _ & _ & H).
  exists value, scale. split; [exact E|]. intros ip p iq H1 Hp H2 s x y l.
  destruct (H ip p iq H1 Hp H2) as [Hs Hy]. fold l s in Hs. fold l x y in Hy. rewrite <- Hs in Hy.
  pose proof (max_value_largest c Hc) as ET. pose proof (largest_pos c Hc) as PT.
  assert (PM : 0 < float_max_value c) by (rewrite ET; exact PT).
  destruct (weight_scale (float_max_value c) l PM (block_nonempty _ _ _ _ _ _ Hg)) as (W1 & W2 & W3 & W4).
  rewrite <- Hs in W1, W2, W3, W4.
  assert (SM : smallest_pow2 (float_max_value c) l s -> smallest_pow2 (largest c) l s).
  { intros (K & A & (z & Hz & B)). split; [exact K|]. split.
    - intros v Hv. specialize (A v Hv). rewrite ET in A. exact A.
    - exists z. split; [exact Hz|]. rewrite ET in B. exact B. }
  assert (PS : 0 < s) by (pose proof min_val_pos; lra).
  split; [exact W1|]. split; [destruct W3 as [W3|W3]; [left; exact W3|right; apply SM, W3]|].
  split; [intros (z & Hz & B); apply SM, W4; exists z; split; [exact Hz|]; rewrite ET; exact B|].
  split; [specialize (W2 x (block_self _ _ _ _ _ _ Hg Hp)); rewrite ET in W2; exact W2|].
  destruct (C28_representable c eps x s Hc Hsat He PS) as (r & Er & Mr & Br & _).
  assert (Yr : y = r * s) by (rewrite Hy; unfold mx_float; rewrite Er; reflexivity).
  split; [exists r; split; [exact Mr|split; [exact Br|rewrite Yr; reflexivity]]|].
  intros r' Mr' Br'.
  destruct (C28_nearest c eps x s r' Hc Hsat Hm PS He He4 Mr' Br' ltac:(congruence)) as (z & Ez & Dz).
  assert (Ez' : r * s = z * s) by congruence. clear Ez.
  assert (Dist : forall q, Qabs (q * s - x) == Qabs (q - x / s) * s).
  { intros q. rewrite <- Qabs_mul_pos by exact PS. apply Qabs_wd. field. apply Qpos_neq0, PS. }
  rewrite Yr, Ez', !Dist. apply Qmult_le_compat_r; [exact Dz|lra].
Qed.

(** ** Activations *)

(** Where a position gets its scale from, for a non-negative group dimension and for -1: a
    group of entries of the same tensor (and padding zeros) containing the position. *)
Lemma act_groups stat q g gd x pre N post : (1 <= g)%Z -> (1 <= N)%Z -> shape x = pre ++ N :: post ->
  (gd = Z.of_nat (length pre) \/ (gd = -1)%Z /\ post = []) ->
  exists value scale, groupwise_act stat q g gd x = Some (value, scale)
    /\ forall ip p iq, in_box pre ip -> (0 <= p < N)%Z -> in_box post iq ->
       exists l, In (at_ x (ip ++ p :: iq)) l
         /\ (forall y, In y l -> y = 0 \/ exists p', (0 <= p' < N)%Z /\ y = at_ x (ip ++ p' :: iq))
         /\ (gd <> (-1)%Z -> l = block x N g ip iq p)
         /\ at_ scale (ip ++ p :: iq) = stat l /\ at_ value (ip ++ p :: iq) = q (stat l) (at_ x (ip ++ p :: iq)).
Proof.
  intros Hg HN Es [->|[-> ->]].
  - destruct (C30_activation_groups stat q g x pre N post Hg ltac:(lia) Es) as (v & s & E & _ & _ & H).
    exists v, s. split; [exact E|]. intros ip p iq H1 Hp H2. destruct (H ip p iq H1 Hp H2) as [A B].
    exists (block x N g ip iq p). split; [apply block_self; assumption|].
    split; [intros y Hy; apply (block_members x N g ip iq p); try assumption; lia|].
    split; [intros _; reflexivity|]. split; assumption.
  - destruct (C31_last_dim_block_size stat q g x pre N Hg HN Es) as (v & s & E & _ & _ & H).
    exists v, s. split; [exact E|]. intros ip p iq H1 Hp H2. inversion H2; subst iq.
    destruct (H ip p H1 Hp) as [A B].
    set (b := ((N + g - 1) / g * g / g)%Z) in *.
    assert (Hb : (1 <= b)%Z).
    { unfold b. rewrite Z.div_mul by lia. apply Z.div_le_lower_bound; lia. }
    exists (block x N b ip [] p). split; [apply block_self; assumption|].
    split; [intros y Hy; apply (block_members x N b ip [] p); try assumption; lia|].
    split; [intros C; contradiction|]. split; assumption.
Qed.

Definition group_dim_of (gd : Z) (pre post : list Z) : Prop :=
  gd = Z.of_nat (length pre) \/ (gd = -1)%Z /\ post = [].

(** The scale of an activation group of MXInt8Act: the largest magnitude is divided by the
    threshold and its ceiling is the exponent. It covers the group and is a power of two, but
    it is at least one, and never the smallest power of two that covers the group. *)
Theorem C107_act_scale : forall b g gd x pre N post,
  (1 <= b)%Z -> (1 <= g)%Z -> (1 <= N)%Z -> shape x = pre ++ N :: post -> group_dim_of gd pre post ->
  exists value scale, mx_int_act b g gd x = Some (value, scale)
    /\ forall ip p iq, in_box pre ip -> (0 <= p < N)%Z -> in_box post iq ->
       let s := at_ scale (ip ++ p :: iq) in
       let thr := inject_Z (2 ^ (b - 1)) in
       exists l k, In (at_ x (ip ++ p :: iq)) l /\ (gd <> (-1)%Z -> l = block x N g ip iq p)
         /\ (0 <= k)%Z /\ s == pow2 k
         /\ (forall z, In z l -> Qabs z <= thr * inject_Z k) /\ (exists z, In z l /\ thr * (inject_Z k - 1) < Qabs z)
         /\ (forall z, In z l -> Qabs z <= thr * s)
         /\ ~ smallest_pow2 thr l s.
Proof.
  intros b g gd x pre N post Hb Hg HN Es Hgd.
  destruct (act_groups (mx_act_scale (mx_int_threshold b)) (mx_int b) g gd x pre N post Hg HN Es Hgd)
    as (value & scale & E & H).
  exists value, scale. split; [exact E|]. intros ip p iq H1 Hp H2 s thr.
  destruct (H ip p iq H1 Hp H2) as (l & L1 & _ & L3 & L4 & _). fold s in L4.
  pose proof (int_threshold b Hb) as ET. fold thr in ET. pose proof (pow2b_pos b Hb) as PB.
  assert (PT : 0 < thr) by (apply (injz_lt 0); exact PB).
  assert (Hl : l <> []) by (intros ->; destruct L1).
  destruct (act_scale (mx_int_threshold b) l ltac:(rewrite ET; exact PT) Hl) as (k & K0 & Ks & Ku & (z & Hz & Kl)).
  rewrite <- L4 in Ks. rewrite ET in Kl.
  assert (KU : forall v, In v l -> Qabs v <= thr * inject_Z k) by (intros v Hv; specialize (Ku v Hv); rewrite ET in Ku; exact Ku).
  exists l, k. split; [exact L1|]. split; [exact L3|]. split; [exact K0|]. split; [exact Ks|].
  split; [exact KU|]. split; [exists z; split; assumption|].
  pose proof (succ_le_pow2 k K0) as SL. split.
  - intros v Hv. specialize (KU v Hv). rewrite Ks.
    assert (thr * inject_Z k <= thr * pow2 k) by (apply Qmult_le_l; [exact PT|lra]). lra.
  - intros (_ & _ & (v & Hv & B)). specialize (KU v Hv).
    assert (C : thr * (s / 2) < thr * inject_Z k) by lra.
    apply Qmult_lt_l in C; [|exact PT]. rewrite Ks in C.
    destruct (Z.eq_dec k 0) as [->|NZ].
    + change (inject_Z 0) with 0 in C. change (pow2 0 / 2) with (1 / 2) in C. revert C. vm_compute. discriminate.
    + pose proof (succ_le_pow2 (k - 1) ltac:(lia)) as S1. rewrite inject_Z_minus in S1. change (inject_Z 1) with 1 in S1.
      assert (P2 : pow2 k == 2 * pow2 (k - 1)) by (rewrite <- pow2_succ; replace (k - 1 + 1)%Z with k by lia; reflexivity).
      rewrite P2 in C. assert (D : 2 * pow2 (k - 1) / 2 == pow2 (k - 1)) by field. rewrite D in C. lra.
Qed.

Lemma mx_int_small b s x : (1 <= b)%Z -> 0 < s -> Qabs x <= s / 2 -> mx_int b s x == 0.
Proof.
  intros Hb Hs Hx. destruct (mx_int_code b s x Hb Hs) as (c & _ & Ec & Dc). rewrite Ec.
  assert (R : roundZ (x / s + inject_Z 0) = 0%Z).
  { change (inject_Z 0) with 0. apply Qabs_Qle_condition in Hx.
    assert (- (1 # 2) <= x / s <= 1 # 2).
    { split; [apply Qle_shift_div_l|apply Qle_shift_div_r]; try exact Hs.
      - assert (- (s / 2) == - (1 # 2) * s) by field. lra.
      - assert (s / 2 == (1 # 2) * s) by field. lra. }
    apply Z.le_antisymm.
    - eapply Z.le_trans; [apply (roundZ_mono _ (1 # 2)); lra|]. vm_compute. discriminate.
    - eapply Z.le_trans; [|apply (roundZ_mono (- (1 # 2))); lra]. vm_compute. discriminate. }
  rewrite R in Dc. pose proof (pow2b_pos b Hb). rewrite clampZ_spec in Dc by lia.
  assert (c = 0%Z) by lia. subst c. rewrite H0. change (inject_Z 0) with 0. ring.
Qed.

(** A tensor whose entries are at most one in magnitude is mapped to zero by MXInt8Act (and
    by any bit width). *)
Theorem C107_int_act_small_zero : forall b g gd x pre N post,
  (1 <= b)%Z -> (1 <= g)%Z -> (1 <= N)%Z -> shape x = pre ++ N :: post -> group_dim_of gd pre post ->
  (forall idx, in_box (shape x) idx -> Qabs (at_ x idx) <= 1) ->
  exists value scale, mx_int_act b g gd x = Some (value, scale)
    /\ forall ip p iq, in_box pre ip -> (0 <= p < N)%Z -> in_box post iq -> at_ value (ip ++ p :: iq) == 0.
Proof.
  intros b g gd x pre N post Hb Hg HN Es Hgd Small.
  destruct (act_groups (mx_act_scale (mx_int_threshold b)) (mx_int b) g gd x pre N post Hg HN Es Hgd)
    as (value & scale & E & H).
  exists value, scale. split; [exact E|]. intros ip p iq H1 Hp H2.
  destruct (H ip p iq H1 Hp H2) as (l & L1 & L2 & _ & L4 & L5). rewrite L5.
  pose proof (int_threshold b Hb) as ET. pose proof (pow2b_pos b Hb) as PB.
  assert (PT : 0 < mx_int_threshold b) by (rewrite ET; apply (injz_lt 0); exact PB).
  assert (Hl : l <> []) by (intros ->; destruct L1).
  destruct (act_scale (mx_int_threshold b) l PT Hl) as (k & K0 & Ks & Ku & (z & Hz & Kl)).
  assert (PS : 0 < mx_act_scale (mx_int_threshold b) l) by (rewrite Ks; apply pow2_pos).
  apply mx_int_small; [exact Hb|exact PS|]. rewrite Ks.
  destruct (Z.eq_dec k 0) as [->|NZ].
  - specialize (Ku _ L1). change (inject_Z 0) with 0 in Ku. rewrite Qmult_0_r in Ku.
    assert (0 <= pow2 0 / 2) by (vm_compute; discriminate). lra.
  - pose proof (pow2_ge_1 (k - 1) ltac:(lia)) as G.
    assert (P2 : pow2 k == 2 * pow2 (k - 1)) by (rewrite <- pow2_succ; replace (k - 1 + 1)%Z with k by lia; reflexivity).
    assert (D : pow2 k / 2 == pow2 (k - 1)) by (rewrite P2; field). rewrite D.
    eapply Qle_trans; [apply Small; rewrite Es; apply in_box_app; assumption|exact G].
Qed.

Lemma mul128_le k : (12 <= k)%Z -> 128 * inject_Z k <= pow2 (k - 1).
Proof.
  intros H. replace k with (12 + (k - 12))%Z by lia.
  assert (D : (0 <= k - 12)%Z) by lia. set (d := (k - 12)%Z) in *. clearbody d. clear k H.
  pattern d. apply natlike_ind; [vm_compute; discriminate| |exact D].
  intros n Hn IH. unfold Z.succ. replace (12 + (n + 1) - 1)%Z with (12 + n - 1 + 1)%Z by lia.
  rewrite pow2_succ. replace (12 + (n + 1))%Z with (12 + n + 1)%Z by lia.
  rewrite inject_Z_plus. change (inject_Z 1) with 1.
  assert (1 <= inject_Z (12 + n)) by (apply (injz_le 1); lia). lra.
Qed.

(** A group with a member above 1408 = 11 * 128 in magnitude is mapped to zero entirely by
    MXInt8Act. *)
Theorem C107_int8_act_large_zero : forall g x pre N post,
  (1 <= g)%Z -> (1 <= N)%Z -> shape x = pre ++ N :: post ->
  exists value scale, mx_int_act 8 g (Z.of_nat (length pre)) x = Some (value, scale)
    /\ forall ip p iq, in_box pre ip -> (0 <= p < N)%Z -> in_box post iq ->
       (exists z, In z (block x N g ip iq p) /\ 1408 < Qabs z) -> at_ value (ip ++ p :: iq) == 0.
Proof.
  intros g x pre N post Hg HN Es.
  destruct (act_groups (mx_act_scale (mx_int_threshold 8)) (mx_int 8) g (Z.of_nat (length pre)) x pre N post Hg HN Es
              (or_introl eq_refl)) as (value & scale & E & H).
  exists value, scale. split; [exact E|]. intros ip p iq H1 Hp H2 (z & Hz & Bz).
  destruct (H ip p iq H1 Hp H2) as (l & L1 & _ & L3 & _ & L5). rewrite L5. rewrite <- (L3 ltac:(lia)) in Hz.
  assert (Hl : l <> []) by (intros ->; destruct L1).
  assert (ET : mx_int_threshold 8 == 128) by reflexivity.
  destruct (act_scale (mx_int_threshold 8) l ltac:(reflexivity) Hl) as (k & K0 & Ks & Ku & _).
  apply mx_int_small; [lia|rewrite Ks; apply pow2_pos|]. rewrite Ks.
  pose proof (Ku z Hz) as Kz. rewrite ET in Kz.
  assert (K12 : (12 <= k)%Z).
  { assert (inject_Z 11 < inject_Z k) as C by (change (inject_Z 11) with 11; lra). apply injz_lt_inv in C. lia. }
  assert (P2 : pow2 k == 2 * pow2 (k - 1)) by (rewrite <- pow2_succ; replace (k - 1 + 1)%Z with k by lia; reflexivity).
  assert (D : pow2 k / 2 == pow2 (k - 1)) by (rewrite P2; field). rewrite D.
  specialize (Ku _ L1). rewrite ET in Ku. pose proof (mul128_le k K12). lra.
Qed.

Lemma minifloat_below e m bias r : (1 <= m)%Z -> minifloat e m bias r -> Qabs r < pow2 (1 - bias - m) -> r == 0.
Proof.
  intros Hm (c & Hc & D) B.
  assert (Z0 : c = 0%Z).
  { destruct (Z.eq_dec c 0) as [->|NZ]; [reflexivity|]. exfalso.
    destruct (C29_smallest (Z.to_nat e) (Z.to_nat m) bias ltac:(lia)) as [A1 A2].
    specialize (A2 c ltac:(lia)). rewrite A1, Z2Nat.id in A2 by lia.
    assert (pow2 (1 - bias - m) <= Qabs r).
    { pose proof (pow2_pos (1 - bias - m)). destruct (Qabs_cases r) as [[? EA]|[? EA]]; rewrite EA; destruct D; lra. }
    lra. }
  subst c. assert (D0 : decode m bias 0 == 0).
  { unfold decode. rewrite Z.div_0_l, Z.mod_0_l by (apply Z.pow_nonzero; lia).
    change (0 =? 0)%Z with true. cbv iota. change (inject_Z 0) with 0. ring. }
  destruct D as [D|D]; rewrite D, D0; reflexivity.
Qed.

(** The same effect for the floating point MX activations: entries below the smallest positive
    value of the unscaled format (2^-9 for e4m3) are flushed to zero, whatever their group. *)
Theorem C107_float_act_small_zero : forall c eps g gd x pre N post,
  fmt_ok c -> fsat c = true -> fsigned c = true -> fmode c = Round ->
  0 < eps -> 4 * eps <= pow2 (1 - fbias c - fm c) ->
  (1 <= g)%Z -> (1 <= N)%Z -> shape x = pre ++ N :: post -> group_dim_of gd pre post ->
  exists value scale, mx_float_act c eps g gd x = Some (value, scale)
    /\ forall ip p iq, in_box pre ip -> (0 <= p < N)%Z -> in_box post iq ->
       Qabs (at_ x (ip ++ p :: iq)) < pow2 (1 - fbias c - fm c) -> at_ value (ip ++ p :: iq) == 0.
Proof.
  intros c eps g gd x pre N post Hc Hsat Hsg Hm He He4 Hg HN Es Hgd.
  destruct (act_groups (mx_act_scale (float_max_value c)) (mx_float c eps) g gd x pre N post Hg HN Es Hgd)
    as (value & scale & E & H).
  exists value, scale. split; [exact E|]. intros ip p iq H1 Hp H2 B.
  destruct (H ip p iq H1 Hp H2) as (l & L1 & _ & _ & _ & L5). rewrite L5.
  pose proof (max_value_largest c Hc) as ET. pose proof (largest_pos c Hc) as PT.
  assert (PM : 0 < float_max_value c) by (rewrite ET; exact PT).
  assert (Hl : l <> []) by (intros ->; destruct L1).
  destruct (act_scale (float_max_value c) l PM Hl) as (k & K0 & Ks & Ku & _).
  set (s := mx_act_scale (float_max_value c) l) in *. set (v := at_ x (ip ++ p :: iq)) in *.
  assert (PS : 0 < s) by (rewrite Ks; apply pow2_pos).
  pose proof Hc as (Hfe & Hfm & _).
  destruct (C28_representable c eps v s Hc Hsat He PS) as (r & Er & Mr & Br & _).
  assert (M0 : minifloat (fe c) (fm c) (fbias c) 0) by (apply minifloat_zero; lia).
  destruct (C28_nearest c eps v s 0 Hc Hsat Hm PS He He4 M0 ltac:(rewrite Qabs_pos; lra) ltac:(congruence)) as (y & Ey & Dy).
  assert (Ey' : r * s = y * s) by congruence. clear Ey.
  assert (Ey : r == y) by (apply (Qmult_inj_r r y s (Qpos_neq0 s PS)); rewrite Ey'; reflexivity). clear Ey'.
  unfold mx_float. rewrite Er.
  assert (AD : Qabs (v / s) == Qabs v / s).
  { unfold Qdiv. rewrite Qabs_Qmult. rewrite (Qabs_pos (/ s)); [reflexivity|].
    apply Qlt_le_weak, Qinv_lt_0_compat, PS. }
  assert (R2 : Qabs r <= 2 * (Qabs v / s)).
  { rewrite Ey. rewrite <- AD. assert (A0 : Qabs (0 - v / s) == Qabs (v / s)) by (rewrite <- (Qabs_opp (v / s)); apply Qabs_wd; ring).
    rewrite A0 in Dy.
    assert (T : y == (y - v / s) + v / s) by ring. rewrite T.
    eapply Qle_trans; [apply Qabs_triangle|]. lra. }
  assert (R0 : r == 0).
  { apply (minifloat_below (fe c) (fm c) (fbias c)); [lia|exact Mr|].
    destruct (Z.eq_dec k 0) as [->|NZ].
    - specialize (Ku _ L1). fold v in Ku. change (inject_Z 0) with 0 in Ku. rewrite Qmult_0_r in Ku.
      pose proof (Qabs_nonneg v). assert (V0 : Qabs v == 0) by lra. rewrite V0 in R2.
      assert (2 * (0 / s) == 0) by (field; apply Qpos_neq0, PS). pose proof (pow2_pos (1 - fbias c - fm c)). lra.
    - assert (S2 : 2 <= s).
      { rewrite Ks. assert (P1 : pow2 1 <= pow2 k) by (apply pow2_mono; lia). exact P1. }
      assert (Qabs v / s <= Qabs v / 2).
      { apply Qle_shift_div_r; [exact PS|]. pose proof (Qabs_nonneg v).
        assert (Qabs v / 2 * 2 <= Qabs v / 2 * s).
        { apply Qmult_le_compat_nonneg; [split|split]; try lra. apply Qle_shift_div_l; lra. }
        assert (Qabs v / 2 * 2 == Qabs v) by field. lra. }
      assert (2 * (Qabs v / 2) == Qabs v) by field. lra. }
  rewrite R0. ring.
Qed.

(** ** What does not hold *)

(** An integer MX weight equal to the power of two that sets the scale of its group is not
    represented: 1.0 becomes 127/128, a whole step away. *)
Theorem C107_int_weight_peak_refuted :
  exists w value scale, shape w = [1; 2]%Z /\ mx_int_weight 8 2 1 w = Some (value, scale)
    /\ at_ w [0; 0]%Z == 1 /\ at_ value [0; 0]%Z == 127 # 128
    /\ Qabs (at_ value [0; 0]%Z - at_ w [0; 0]%Z) == at_ scale [0; 0]%Z.
Proof.
  exists (T [1; 2]%Z (fun idx => match idx with [_; 0%Z] => 1 | _ => 1 # 4 end)). do 2 eexists.
  split; [reflexivity|]. split; [reflexivity|]. split; [reflexivity|]. split; vm_compute; reflexivity.
Qed.

(** The scale of a group of zeros is the clamp value 1e-10, which is not a power of two. *)
Theorem C107_weight_scale_pow2_refuted :
  exists w value scale, shape w = [1; 2]%Z /\ mx_int_weight 8 2 1 w = Some (value, scale)
    /\ forall k, ~ at_ scale [0; 0]%Z == pow2 k.
Proof.
  exists (T [1; 2]%Z (fun _ => 0)). do 2 eexists. split; [reflexivity|]. split; [reflexivity|].
  intros k C.
  assert (E : 1 # 10000000000 == pow2 k) by (rewrite <- C; vm_compute; reflexivity).
  assert (K1 : (-34 < k)%Z) by (apply pow2_lt_inv; rewrite <- E; vm_compute; reflexivity).
  assert (K2 : (k < -33)%Z) by (apply pow2_lt_inv; rewrite <- E; vm_compute; reflexivity).
  lia.
Qed.

(** The same group as a weight and as an activation: the scales differ by a factor of 256, the
    weight is kept to within 1/256 of its peak and the activation vanishes. *)
Theorem C107_act_like_weight_refuted :
  exists x vw sw va sa, shape x = [1; 2]%Z
    /\ mx_int_weight 8 2 1 x = Some (vw, sw) /\ mx_int_act 8 2 1 x = Some (va, sa)
    /\ at_ x [0; 0]%Z == 3 # 4 /\ at_ vw [0; 0]%Z == 3 # 4 /\ at_ va [0; 0]%Z == 0
    /\ at_ sw [0; 0]%Z == 1 # 128 /\ at_ sa [0; 0]%Z == 2.
Proof.
  exists (T [1; 2]%Z (fun idx => match idx with [_; 0%Z] => 3 # 4 | _ => 1 # 4 end)). do 4 eexists.
  split; [reflexivity|]. split; [reflexivity|]. split; [reflexivity|].
  split; [reflexivity|]. split; [vm_compute; reflexivity|]. split; [vm_compute; reflexivity|]. split; vm_compute; reflexivity.
Qed.

(** ** Examples *)

(** e4m3 of the OCP specification (float_quant_ocp.py): largest value 448. *)
Definition ocp_e4m3 : fcfg := FCfg 4 3 7 true true None (Some [[true; true; true]]) (Some 448) Round.

Lemma ocp_e4m3_ok : fmt_ok ocp_e4m3
  /\ exists v, get_max_available_float 4 3 7 (fnan ocp_e4m3) (finf ocp_e4m3) true = Some v /\ v == 448.
Proof.
  split; [|eexists; split; [vm_compute; reflexivity|reflexivity]]. split; [cbn; lia|]. split; [cbn; lia|].
  split; [|reflexivity]. exists 126%Z. split; [cbn; lia|]. left. vm_compute. reflexivity.
Qed.

Definition row5 : tens := T [2; 5]%Z (fun idx => (inject_Z (nth 0 idx 0 * 7 + nth 1 idx 0 * 3)%Z - 4) / 5).

Definition rows (o : option (tens * tens)) : list (list (Q * Q)) :=
  match o with
  | Some (v, s) => map (fun i => map (fun p => (Qred (at_ v [i; p]%Z), Qred (at_ s [i; p]%Z))) [0; 1; 4]%Z) [0; 1]%Z
  | None => []
  end.

Example C107_int_weight_example :
  shape row5 = [2]%Z ++ 5%Z :: []
  /\ rows (mx_int_weight 8 4 1 row5)
     = [[(-51 # 64, 1 # 128); (-13 # 64, 1 # 128); (51 # 32, 1 # 64)];
        [(19 # 32, 1 # 32); (19 # 16, 1 # 32); (3, 1 # 32)]].
Proof. split; [reflexivity|]. vm_compute. reflexivity. Qed.

Example C107_float_weight_example :
  fmt_ok ocp_e4m3 /\ 4 * (1 # 100000000) <= pow2 (1 - 7 - 3)
  /\ rows (mx_float_weight ocp_e4m3 (1 # 100000000) 4 1 row5)
     = [[(-13 # 16, 1 # 256); (-13 # 64, 1 # 256); (13 # 8, 1 # 256)];
        [(5 # 8, 1 # 128); (5 # 4, 1 # 128); (3, 1 # 128)]].
Proof. split; [apply ocp_e4m3_ok|]. split; [vm_compute; discriminate|]. vm_compute. reflexivity. Qed.

(** The activation of the same numbers: the scale is 2 throughout. *)
Example C107_act_example :
  group_dim_of 1 [2]%Z [] /\ group_dim_of (-1) [2]%Z []
  /\ rows (mx_int_act 8 4 1 row5) = [[(0, 2); (0, 2); (2, 2)]; [(0, 2); (2, 2); (4, 2)]].
Proof. split; [left; reflexivity|]. split; [right; split; reflexivity|]. vm_compute. reflexivity. Qed.

(** A tensor with entries in [-1, 1]. *)
Example C107_int_act_small_zero_example :
  let x := T [2; 5]%Z (fun idx => if (nth 1 idx 0 =? 3)%Z then 1 else - (2 # 3)) in
  (forall idx, in_box (shape x) idx -> Qabs (at_ x idx) <= 1)
  /\ rows (mx_int_act 8 4 (-1) x) = [[(0, 2); (0, 2); (0, 2)]; [(0, 2); (0, 2); (0, 2)]].
Proof.
  split; [|vm_compute; reflexivity]. intros idx _. cbn [at_].
  destruct (nth 1 idx 0 =? 3)%Z; vm_compute; discriminate.
Qed.

(** A group with a member above 1408. *)
Example C107_int8_act_large_zero_example :
  let x := T [2; 5]%Z (fun idx => if (nth 1 idx 0 =? 1)%Z then 1500 else 100) in
  (exists z, In z (block x 5 4 [0]%Z [] 0) /\ 1408 < Qabs z)
  /\ rows (mx_int_act 8 4 1 x) = [[(0, 4096); (0, 4096); (100, 2)]; [(0, 4096); (0, 4096); (100, 2)]].
Proof.
  split; [|vm_compute; reflexivity]. exists 1500. split; [right; left; reflexivity|reflexivity].
Qed.

Example C107_float_act_small_zero_example :
  let x := T [1; 4]%Z (fun idx => if (nth 1 idx 0 =? 1)%Z then 1 # 100 else 1 # 1000) in
  Qabs (at_ x [0; 0]%Z) < pow2 (1 - 7 - 3)
  /\ match mx_float_act ocp_e4m3 (1 # 100000000) 4 1 x with
     | Some (v, s) => at_ v [0; 0]%Z == 0 /\ at_ v [0; 1]%Z == 3 # 256 /\ at_ s [0; 0]%Z == 2
     | None => False
     end.
Proof. split; [reflexivity|]. vm_compute. repeat split. Qed.

Print Assumptions C107_int_weight.
Print Assumptions C107_float_weight.
Print Assumptions C107_act_scale.
Print Assumptions C107_int_act_small_zero.
Print Assumptions C107_int8_act_large_zero.
Print Assumptions C107_float_act_small_zero.
Print Assumptions C107_int_weight_peak_refuted.
Print Assumptions C107_weight_scale_pow2_refuted.
Print Assumptions C107_act_like_weight_refuted.
