(** Properties C10, C11, C12: statistics-based scales, zero points, power-of-two scales. *)
From Verif Require Import QUtil Log2Q Ops OpsProofs IntQuant IntQuantProofs IntQuantProps
  Scaling ScalingProofs.
Open Scope Q_scope.

(** ** C10 *)

(** The restrictions that never make the scale smaller than stats / threshold. *)
Definition upward (r : restrict) : Prop :=
  r = RestrictFP \/ r = RestrictLogFP \/ r = RestrictInt Ceil \/ r = RestrictPoT Ceil.

Lemma upward_ge r st t : upward r -> 0 <= st -> 0 < t -> st / t <= restrict_combine r st t.
Proof.
  intros Hr Hst Ht.
  destruct Hr as [->|[->|[->| ->]]]; cbn [restrict_combine]; try lra.
  - unfold float_to_int; cbn [float_to_intZ]. apply Qceiling_ub.
  - qcase.
    + assert (E : st == 0) by lra. rewrite E.
      unfold Qdiv. rewrite Qmult_0_l. lra.
    + apply f2i_log2_ceil_ge. apply Qdiv_pos; assumption.
Qed.

Lemma scale_covers r mv st t s : upward r -> 0 <= st -> 0 < t ->
  stats_scaling r mv st t = s -> ~ s == 0 -> 0 < s /\ st <= s * t.
Proof.
  intros Hr Hst Ht <- Hn. unfold stats_scaling in *.
  pose proof (upward_ge r st t Hr Hst Ht) as U.
  pose proof (clamp_min_opt_ge mv (restrict_combine r st t)) as C.
  assert (D : 0 <= st / t).
  { apply Qle_shift_div_l; [exact Ht|]. lra. }
  set (s := clamp_min_opt mv (restrict_combine r st t)) in *.
  assert (Hs : 0 < s).
  { destruct (Qlt_le_dec 0 s) as [L|L]; [exact L|]. exfalso. apply Hn. lra. }
  split; [exact Hs|].
  assert (E : st / t * t == st) by (field; apply Qpos_neq0, Ht).
  rewrite <- E at 1. apply Qmult_le_compat_r; lra.
Qed.

Definition sym_cfg (signed narrow : bool) (r : restrict) (mv : option Q) (k : int_scaling_kind) : wq_cfg :=
  {| wq_int := cfg signed narrow Round; wq_stats := StatsAbsMax; wq_restrict := r;
     wq_min_val := mv; wq_int_scaling := k; wq_zero_point := ZPZero |}.

Lemma rescaling_inv signed narrow r mv k b w y s z b' :
  rescaling_int_quant (sym_cfg signed narrow r mv k) false b w = Some (y, s, z, b') ->
  exists st, abs_max w = Some st
    /\ stats_scaling r mv st (inject_Z (wq_threshold (sym_cfg signed narrow r mv k) b)) = s
    /\ ~ s == 0 /\ z = 0 /\ b' = b
    /\ y = map (int_quant (cfg signed narrow Round) s 0 b) w.
Proof.
  unfold rescaling_int_quant, wq_scale, wq_stat, wq_zp. cbn [wq_stats wq_zero_point sym_cfg].
  destruct (abs_max w) as [st|]; [|discriminate].
  cbn [wq_restrict wq_min_val sym_cfg].
  set (S := stats_scaling _ _ _ _). destruct (Qeq_bool S 0) eqn:E; [discriminate|].
  cbn [wq_int sym_cfg]. intros H. injection H as <- <- <- <-.
  exists st. apply Qeq_bool_false in E. repeat split; auto.
Qed.

(** Signed narrow range: no element is clipped; the error is at most half a scale. *)
Theorem C10_narrow_never_clips : forall r mv b w y s z b',
  upward r -> (2 <= b)%Z ->
  rescaling_int_quant (sym_cfg true true r mv ISInt) false b w = Some (y, s, z, b') ->
  0 < s /\ z == 0 /\ b' = b
  /\ Forall2 (fun x q => Qabs (q - x) <= s * (1 # 2)
                /\ denote s 0 (range_lo true true b) <= x <= denote s 0 (range_hi true true b)) w y.
Proof.
  intros r mv b w y s z b' Hr Hb H.
  apply rescaling_inv in H. destruct H as (st & Hst & Es & Hn & -> & -> & ->).
  assert (T : wq_threshold (sym_cfg true true r mv ISInt) b = range_hi true true b).
  { unfold wq_threshold, int_scaling; cbn [wq_int_scaling sym_cfg wq_int iq_signed iq_narrow cfg].
    rewrite min_int_spec. unfold range_lo, range_hi. lia. }
  rewrite T in Es.
  assert (P : (2 <= 2 ^ (b - 1))%Z).
  { change 2%Z with (2 ^ 1)%Z at 1. apply Z.pow_le_mono_r; lia. }
  assert (Ht : 0 < inject_Z (range_hi true true b)).
  { apply (injz_lt 0). unfold range_hi. lia. }
  destruct (scale_covers _ _ _ _ _ Hr (abs_max_nonneg _ _ Hst) Ht Es Hn) as [Hs Hcov].
  split; [exact Hs|]. split; [reflexivity|]. split; [reflexivity|].
  destruct (abs_max_spec _ _ Hst) as [Hub _].
  clear Hst. induction w as [|x w IH]; cbn [map]; constructor.
  - assert (Hx : Qabs x <= st) by (apply Hub; left; reflexivity).
    assert (Hx' : - (s * inject_Z (range_hi true true b)) <= x <= s * inject_Z (range_hi true true b))
      by (apply Qabs_le_iff; lra).
    assert (Elo : inject_Z (range_lo true true b) == - inject_Z (range_hi true true b)).
    { rewrite <- inject_Z_opp. f_equiv. unfold range_lo, range_hi. lia. }
    assert (B : denote s 0 (range_lo true true b) <= x <= denote s 0 (range_hi true true b)).
    { unfold denote. rewrite Elo. change (inject_Z 0) with 0. lra. }
    split; [|exact B]. change 0 with (inject_Z 0) at 1.
    apply C03_half_step; try lia; lra.
  - apply IH. intros x0 H0. apply Hub. right. exact H0.
Qed.

(** Full signed range (default threshold 2^(b-1)) and power-of-two thresholds: the error is
    at most one scale. *)
Theorem C10_full_error_le_scale : forall narrow r mv k b w y s z b',
  upward r -> (2 <= b)%Z ->
  rescaling_int_quant (sym_cfg true narrow r mv k) false b w = Some (y, s, z, b') ->
  0 < s /\ Forall2 (fun x q => Qabs (q - x) <= s) w y.
Proof.
  intros nr r mv k b w y s z b' Hr Hb H.
  apply rescaling_inv in H. destruct H as (st & Hst & Es & Hn & -> & -> & ->).
  assert (P : (2 <= 2 ^ (b - 1))%Z).
  { change 2%Z with (2 ^ 1)%Z at 1. apply Z.pow_le_mono_r; lia. }
  assert (T : (1 <= wq_threshold (sym_cfg true nr r mv k) b <= range_hi true nr b + 1)%Z).
  { unfold wq_threshold, int_scaling, pot_int_scaling;
      cbn [wq_int_scaling sym_cfg wq_int iq_signed iq_narrow cfg].
    rewrite min_int_spec, max_int_spec. destruct k, nr; unfold range_lo, range_hi; lia. }
  set (t := wq_threshold _ _) in *.
  assert (Ht : 0 < inject_Z t) by (apply (injz_lt 0); lia).
  destruct (scale_covers _ _ _ _ _ Hr (abs_max_nonneg _ _ Hst) Ht Es Hn) as [Hs Hcov].
  split; [exact Hs|].
  destruct (abs_max_spec _ _ Hst) as [Hub _].
  clear Hst. induction w as [|x w IH]; cbn [map]; constructor.
  2:{ apply IH. intros x0 H0. apply Hub. right. exact H0. }
  assert (Hx : Qabs x <= st) by (apply Hub; left; reflexivity).
  assert (T1 : inject_Z t <= inject_Z (range_hi true nr b) + 1).
  { destruct T as [_ T]. apply injz_le in T. rewrite inject_Z_plus in T. exact T. }
  set (h := inject_Z (range_hi true nr b)) in *.
  assert (Hst' : s * inject_Z t <= s * (h + 1)).
  { rewrite !(Qmult_comm s). apply Qmult_le_compat_r; lra. }
  assert (Hx' : - (s * (h + 1)) <= x <= s * (h + 1)) by (apply Qabs_le_iff; lra).
  (* the competitor: the range end on the side of x, or an interior point *)
  assert (Hin : exists v, representable true nr b s 0 v /\ Qabs (v - x) <= s).
  { destruct (Qlt_le_dec (s * h) x) as [L|L].
    - exists (denote s 0 (range_hi true nr b)). split.
      + exists (range_hi true nr b). split; [|reflexivity]. unfold in_range, range_hi, range_lo. destruct nr; lia.
      + unfold denote. fold h. change (inject_Z 0) with 0. apply Qabs_le_iff. lra.
    - destruct (Qlt_le_dec x (- (s * h))) as [L2|L2].
      + exists (denote s 0 (- range_hi true nr b)). split.
        * exists (- range_hi true nr b)%Z. split; [|reflexivity].
          unfold in_range, range_hi, range_lo. destruct nr; lia.
        * unfold denote. rewrite inject_Z_opp. fold h. change (inject_Z 0) with 0.
          apply Qabs_le_iff. lra.
      + set (q := roundZ (x / s)).
        assert (Ex : x == x / s * s) by (field; apply Qpos_neq0, Hs).
        assert (Q1 : x / s <= h).
        { apply Qle_shift_div_r; [exact Hs|]. lra. }
        assert (Q2 : - h <= x / s).
        { apply Qle_shift_div_l; [exact Hs|]. lra. }
        assert (R1 : (q <= range_hi true nr b)%Z).
        { apply rounding_le_int; [apply round_rounding|]. exact Q1. }
        assert (R2 : (- range_hi true nr b <= q)%Z).
        { apply rounding_ge_int; [apply round_rounding|]. rewrite inject_Z_opp. exact Q2. }
        exists (denote s 0 q). split.
        * exists q. split; [|reflexivity]. unfold in_range, range_hi, range_lo in *. destruct nr; lia.
        * pose proof (roundZ_err (x / s)) as E. fold q in E.
          unfold denote. rewrite grid_dist by exact Hs.
          assert (E3 : Qabs (inject_Z q - (x / s + inject_Z 0)) == Qabs (inject_Z q - x / s)).
          { apply Qabs_wd. change (inject_Z 0) with 0. lra. }
          rewrite E3.
          assert (Qabs (inject_Z q - x / s) <= 1) by (apply Qabs_le_iff; lra).
          assert (Qabs (inject_Z q - x / s) * s <= 1 * s) by (apply Qmult_le_compat_r; lra). lra. }
  destruct Hin as (v & Hv & Hd).
  change 0 with (inject_Z 0) at 1.
  pose proof (C03_nearest true nr Round s 0 b x v Hs ltac:(lia) (or_introl eq_refl) Hv). lra.
Qed.

(** ...and the bound is attained: with the float scale of the default full-range quantizer
    the positive extremum is always clipped by exactly one scale. *)
Theorem C10_full_range_clips_positive_extremum : forall b w x,
  (2 <= b)%Z -> In x w -> 0 < x -> (forall v, In v w -> Qabs v <= x) ->
  exists y s z, rescaling_int_quant (sym_cfg true false RestrictFP None ISInt) false b w = Some (y, s, z, b)
    /\ s == x / pow2 (b - 1)
    /\ int_quant (cfg true false Round) s z b x == x - s.
Proof.
  intros b w x Hb Hin Hx Hmax.
  destruct (abs_max_some w) as [st Hst]. { destruct w; [destruct Hin|discriminate]. }
  destruct (abs_max_spec _ _ Hst) as [Hub (v & Hv & Ev)].
  assert (Est : st == x).
  { assert (Qabs x <= st) by (apply Hub, Hin). rewrite Qabs_pos in H by lra.
    assert (H2 : Qabs v <= x) by (apply Hmax, Hv). rewrite Ev in H2. lra. }
  assert (P : (1 <= 2 ^ (b - 1))%Z) by (apply pow2Z_pos; lia).
  assert (T : wq_threshold (sym_cfg true false RestrictFP None ISInt) b = (2 ^ (b - 1))%Z).
  { unfold wq_threshold, int_scaling; cbn [wq_int_scaling sym_cfg wq_int iq_signed iq_narrow cfg].
    unfold min_int; cbn [negb andb]. lia. }
  set (s := st / inject_Z (2 ^ (b - 1))).
  assert (P' : 0 < inject_Z (2 ^ (b - 1))) by (apply (injz_lt 0); lia).
  assert (Hs : 0 < s) by (apply Qdiv_pos; [lra|exact P']).
  exists (map (int_quant (cfg true false Round) s 0 b) w), s, 0.
  split; [|split].
  - unfold rescaling_int_quant, wq_scale, wq_stat; cbn [wq_stats sym_cfg]. rewrite Hst.
    rewrite T. cbn [wq_restrict wq_min_val sym_cfg]. unfold stats_scaling; cbn [restrict_combine clamp_min_opt].
    fold s. destruct (Qeq_bool s 0) eqn:E.
    + apply Qeq_bool_iff in E. exfalso. apply (Qpos_neq0 s Hs E).
    + reflexivity.
  - unfold s. rewrite Est. rewrite pow2_nonneg_Z by lia. reflexivity.
  - change 0 with (inject_Z 0) at 1. rewrite cfg_quant.
    unfold code. cbn [float_to_intZ].
    assert (Ey : x / s + inject_Z 0 == inject_Z (2 ^ (b - 1))).
    { change (inject_Z 0) with 0. unfold s. rewrite <- Est. field. split; apply Qpos_neq0; lra. }
    rewrite (roundZ_eq _ _ Ey), roundZ_int.
    rewrite clampZ_spec by (apply min_le_max; lia).
    unfold min_int, max_int; cbn [negb andb].
    replace (Z.max _ _) with (2 ^ (b - 1) - 1)%Z by lia.
    rewrite inject_Z_minus. change (inject_Z 0) with 0. change (inject_Z 1) with 1.
    assert (E2 : x == s * inject_Z (2 ^ (b - 1))).
    { unfold s. rewrite <- Est. field. apply Qpos_neq0, P'. }
    assert (E3 : (inject_Z (2 ^ (b - 1)) - 1 - 0) * s == s * inject_Z (2 ^ (b - 1)) - s) by ring. rewrite E3. lra.
Qed.

Example C10_nontrivial :
  (exists y s z, rescaling_int_quant (sym_cfg true true RestrictFP (Some (1 # 1000)) ISInt) false 3
      [3 # 1; - 1 # 3; - 5 # 4] = Some (y, s, z, 3%Z) /\ s == 1 /\ nth 2 y 0 == - 1)
  /\ (exists y s z, rescaling_int_quant (sym_cfg true false RestrictFP None ISInt) false 3
      [3 # 1; - 1 # 3; - 5 # 4] = Some (y, s, z, 3%Z) /\ s == 3 # 4 /\ nth 0 y 0 == 9 # 4).
Proof. split; eexists _, _, _; (split; [reflexivity|]; split; reflexivity). Qed.

(** ** C11 *)
Definition asym_cfg (r : restrict) (mv : option Q) : wq_cfg :=
  {| wq_int := cfg false false Round; wq_stats := StatsAbsMinMax; wq_restrict := r;
     wq_min_val := mv; wq_int_scaling := ISInt; wq_zero_point := ZPStats true |}.

(** Asymmetric quantization of a tensor that has at least one non-negative element: the
    zero point is an integer of the unsigned range and every element is reproduced
    within half a scale. *)
Theorem C11_asymmetric_covers : forall r mv b w y s z b',
  upward r -> (1 <= b)%Z -> (exists v, In v w /\ 0 <= v) ->
  rescaling_int_quant (asym_cfg r mv) false b w = Some (y, s, z, b') ->
  0 < s /\ b' = b
  /\ (exists k, in_range false false b k /\ z == inject_Z k)
  /\ Forall2 (fun x q => Qabs (q - x) <= s * (1 # 2)) w y.
Proof.
  intros r mv b w y s z b' Hr Hb (v & Hvin & Hv) H.
  unfold rescaling_int_quant, wq_scale, wq_stat, wq_zp in H.
  cbn [wq_stats wq_zero_point wq_restrict wq_min_val asym_cfg wq_int] in H.
  unfold abs_min_max, negative_min_or_zero in H.
  destruct (reduce_max w) as [mx|] eqn:Emx; [|discriminate].
  destruct (reduce_min w) as [mn|] eqn:Emn; [|discriminate].
  apply reduce_max_spec in Emx. destruct Emx as [Hmx _].
  apply reduce_min_spec in Emn. destruct Emn as [Hmn _].
  assert (T : wq_threshold (asym_cfg r mv) b = range_hi false false b).
  { unfold wq_threshold, int_scaling; cbn [wq_int_scaling asym_cfg wq_int iq_signed iq_narrow cfg].
    apply max_int_spec. }
  rewrite T in H.
  set (m := torch_min mn 0) in *. set (N := range_hi false false b) in *.
  assert (HN : (1 <= N)%Z).
  { unfold N, range_hi. pose proof (Z.pow_le_mono_r 2 1 b ltac:(lia) ltac:(lia)). lia. }
  assert (HN' : 0 < inject_Z N) by (apply (injz_lt 0); lia).
  assert (Hm0 : m <= 0) by (apply torch_min_r). assert (Hmm : m <= mn) by (apply torch_min_l).
  assert (Hmx0 : 0 <= mx) by (pose proof (Hmx v Hvin); lra).
  set (st := Qabs (mx - m)) in *.
  assert (Est : st == mx - m) by (apply Qabs_pos; lra).
  destruct (Qeq_bool (stats_scaling r mv st (inject_Z N)) 0) eqn:E0; [discriminate|].
  injection H as <- <- <- <-. apply Qeq_bool_false in E0.
  set (s := stats_scaling r mv st (inject_Z N)) in *.
  destruct (scale_covers r mv st (inject_Z N) s Hr ltac:(rewrite Est; lra) HN' eq_refl E0) as [Hs Hcov].
  rewrite Est in Hcov.
  split; [exact Hs|]. split; [reflexivity|].
  (* the zero point *)
  set (rz := - m / s).
  assert (Hrz0 : 0 <= rz). { apply Qle_shift_div_l; [exact Hs|]. lra. }
  assert (Hrz : mx / s + rz <= inject_Z N).
  { assert (E : mx / s + rz == (mx - m) / s) by (unfold rz; field; apply Qpos_neq0, Hs).
    rewrite E. apply Qle_shift_div_r; [exact Hs|]. lra. }
  assert (Hmxs : 0 <= mx / s). { apply Qle_shift_div_l; [exact Hs|]. lra. }
  set (k := roundZ rz).
  assert (Hk0 : (0 <= k)%Z) by (apply rounding_ge_int; [apply round_rounding|exact Hrz0]).
  assert (HkN : (k <= N)%Z) by (apply rounding_le_int; [apply round_rounding|lra]).
  assert (Ez : scale_shift_zero_point (cfg false false Round) true (- m) s b = inject_Z k).
  { unfold scale_shift_zero_point. cbn [iq_signed iq_narrow cfg].
    rewrite cfg_to_int. unfold code. cbn [float_to_intZ].
    assert (E1 : roundZ (- m / s + inject_Z (min_int false false b)) = k).
    { unfold k. apply roundZ_eq. unfold min_int; cbn [negb andb]. unfold rz.
      change (inject_Z (0 * b)) with 0. lra. }
    rewrite E1. f_equal. rewrite clampZ_spec by (apply min_le_max; lia).
    rewrite min_int_spec, max_int_spec. fold N. unfold range_lo. lia. }
  unfold scale_shift_zero_point in Ez. cbn [iq_signed iq_narrow cfg] in Ez. rewrite Ez. split.
  { exists k. split; [|reflexivity]. unfold in_range, range_lo. fold N. lia. }
  assert (Hall : forall x, In x w -> m <= x <= mx).
  { intros x Hx. pose proof (Hmx x Hx). pose proof (Hmn x Hx). lra. }
  pose proof (roundZ_err rz) as Ek. fold k in Ek.
  clear - Hs Hall Hb Ek Hrz.
  induction w as [|x w IH]; cbn [map]; constructor.
  - destruct (Hall x (or_introl eq_refl)) as [X1 X2].
    apply C03_half_step; [exact Hs|exact Hb| |].
    + unfold denote, range_lo. change (inject_Z 0) with 0.
      assert (E : m == - rz * s) by (unfold rz; field; apply Qpos_neq0, Hs).
      assert ((rz - inject_Z k - (1 # 2)) * s <= 0 * s) by (apply Qmult_le_compat_r; lra). lra.
    + unfold denote. fold N.
      assert (E : mx == mx / s * s) by (field; apply Qpos_neq0, Hs).
      assert (mx / s * s <= (inject_Z N - rz) * s) by (apply Qmult_le_compat_r; lra).
      assert ((inject_Z k - rz - (1 # 2)) * s <= 0 * s) by (apply Qmult_le_compat_r; lra). lra.
  - apply IH. intros v Hv. apply Hall. right. exact Hv.
Qed.

(** The guard is necessary: for an all-negative tensor the observed maximum is not extended
    to zero, the zero point saturates and all information is lost.  Here two weights that
    differ by 1 (255 scale steps) are both quantized to -1. *)
Theorem C11_all_negative_refuted :
  exists w y s z, rescaling_int_quant (asym_cfg RestrictFP (Some (1 # 10000000000))) false 8 w
                  = Some (y, s, z, 8%Z)
    /\ Forall2 (fun x q => 8 <= Qabs (q - x)) w y /\ s <= 1 # 255.
Proof.
  exists [-10 # 1; -9 # 1].
  eexists _, _, _. split; [reflexivity|].
  split; [|vm_compute; discriminate].
  constructor; [vm_compute; discriminate|]. constructor; [vm_compute; discriminate|constructor].
Qed.

Example C11_nontrivial :
  exists y s z, rescaling_int_quant (asym_cfg RestrictFP None) false 2 [- 1 # 1; 2 # 1; 1 # 2]
     = Some (y, s, z, 2%Z) /\ s == 1 /\ z == 1 /\ nth 0 y 0 == - 1 /\ nth 1 y 0 == 2 /\ nth 2 y 9 == 1.
Proof. eexists _, _, _. split; [reflexivity|]. repeat split; reflexivity. Qed.

(** ** C12 *)

(** Bracket of the restricted value around the unrestricted one, per rounding mode. *)
Definition pot_bracket (m : rmode) (t : Q) (k : Z) : Prop :=
  match m with
  | Ceil => t <= pow2 k /\ pow2 k < 2 * t
  | Floor => pow2 k <= t /\ t < 2 * pow2 k
  | Round | DPU => pow2 k * pow2 k < 2 * (t * t) /\ t * t < 2 * (pow2 k * pow2 k)
  | RoundToZero => (1 <= t -> pow2 k <= t /\ t < 2 * pow2 k /\ (0 <= k)%Z)
                   /\ (t < 1 -> t <= pow2 k /\ pow2 k < 2 * t /\ (k <= 0)%Z)
  end.

Theorem C12_power_of_two : forall m stats threshold,
  0 < stats -> 0 < threshold ->
  exists k, stats_scaling (RestrictPoT m) None stats threshold == pow2 k
            /\ pot_bracket m (stats / threshold) k.
Proof.
  intros m st th Hst Hth. set (t := st / th).
  assert (Ht : 0 < t) by (apply Qdiv_pos; assumption).
  exists (f2i_log2 m t). unfold stats_scaling; cbn [clamp_min_opt restrict_combine].
  split. { qcase; [exfalso; lra|]. reflexivity. }
  assert (RB : pow2 (round_log2 t) * pow2 (round_log2 t) < 2 * (t * t)
               /\ t * t < 2 * (pow2 (round_log2 t) * pow2 (round_log2 t))).
  { destruct (round_log2_spec_strict t Ht) as [H1 H2].
    assert (E1 : pow2 (2 * round_log2 t + 1) == 2 * (pow2 (round_log2 t) * pow2 (round_log2 t))).
    { rewrite pow2_succ. rewrite <- pow2_plus. replace (round_log2 t + round_log2 t)%Z with (2 * round_log2 t)%Z by lia. reflexivity. }
    assert (E2 : 2 * pow2 (2 * round_log2 t - 1) == pow2 (round_log2 t) * pow2 (round_log2 t)).
    { rewrite <- pow2_succ, <- pow2_plus. replace (2 * round_log2 t - 1 + 1)%Z with (round_log2 t + round_log2 t)%Z by lia. reflexivity. }
    rewrite E1 in H2. split; [lra|exact H2]. }
  assert (FB : pow2 (floor_log2 t) <= t /\ t < 2 * pow2 (floor_log2 t)).
  { rewrite <- pow2_succ. apply floor_log2_spec, Ht. }
  assert (CB : t <= pow2 (ceil_log2 t) /\ pow2 (ceil_log2 t) < 2 * t).
  { destruct (ceil_log2_spec t Ht) as [H1 H2]. split; [exact H1|].
    assert (E : 2 * pow2 (ceil_log2 t - 1) == pow2 (ceil_log2 t)).
    { rewrite <- pow2_succ. replace (ceil_log2 t - 1 + 1)%Z with (ceil_log2 t) by lia. reflexivity. }
    lra. }
  destruct m; cbn [f2i_log2 pot_bracket]; try assumption.
  unfold rtz_log2. qcase; split; intros; try (exfalso; lra).
  - repeat split; try tauto.
    assert (0 < floor_log2 t + 1)%Z.
    { apply pow2_lt_inv. rewrite pow2_0, pow2_succ. lra. } lia.
  - repeat split; try tauto.
    assert (ceil_log2 t < 1)%Z; [|lia].
    apply pow2_lt_inv. rewrite pow2_1. lra.
Qed.

(** A threshold that already is a power of two is left unchanged by every mode. *)
Theorem C12_fixes_powers_of_two : forall m k j,
  stats_scaling (RestrictPoT m) None (pow2 k) (pow2 j) == pow2 (k - j).
Proof.
  intros m k j. unfold stats_scaling; cbn [clamp_min_opt restrict_combine].
  pose proof (pow2_pos k) as Pk. pose proof (pow2_pos j) as Pj. qcase; [exfalso; lra|].
  assert (E : pow2 k / pow2 j == pow2 (k - j)).
  { unfold Z.sub. rewrite pow2_plus, pow2_opp. reflexivity. }
  set (t := pow2 k / pow2 j) in *.
  assert (Ht : 0 < t) by (rewrite E; apply pow2_pos).
  assert (F : floor_log2 t = (k - j)%Z).
  { rewrite (floor_log2_eq t _ Ht E). apply floor_log2_pow2. }
  assert (C : ceil_log2 t = (k - j)%Z).
  { unfold ceil_log2. rewrite F. qcase; [reflexivity|]. exfalso. apply Hc0. symmetry. exact E. }
  assert (R : round_log2 t = (k - j)%Z).
  { unfold round_log2. rewrite F. qcase; [reflexivity|]. exfalso.
    assert (E2 : t * t == pow2 (2 * (k - j))).
    { rewrite E, <- pow2_plus. replace (k - j + (k - j))%Z with (2 * (k - j))%Z by lia. reflexivity. }
    rewrite E2 in Hc0. apply pow2_le_inv in Hc0. lia. }
  destruct m; cbn [f2i_log2]; rewrite ?R, ?F, ?C; try reflexivity.
  unfold rtz_log2. qcase; rewrite ?F, ?C; reflexivity.
Qed.

(** The guard [scaling_min_val = None] matters: the minimum is applied after the
    power-of-two restriction, so with the default minimum 1e-10 a tiny (or all-zero)
    tensor gets a scale that is not a power of two. *)
Theorem C12_min_val_refuted :
  exists stats threshold, 0 < stats /\ 0 < threshold
    /\ forall k, ~ stats_scaling (RestrictPoT Ceil) (Some (1 # 10000000000)) stats threshold == pow2 k.
Proof.
  exists (1 # 100000000000000000000), 128. split; [reflexivity|]. split; [reflexivity|].
  intros k H.
  assert (E : stats_scaling (RestrictPoT Ceil) (Some (1 # 10000000000)) (1 # 100000000000000000000) 128
              == 1 # 10000000000) by (vm_compute; reflexivity).
  rewrite E in H. clear E.
  (* 2^-34 < 1e-10 < 2^-33 *)
  assert (L : pow2 (-34) < pow2 k) by (rewrite <- H; vm_compute; reflexivity).
  assert (U : pow2 k < pow2 (-33)) by (rewrite <- H; vm_compute; reflexivity).
  apply pow2_lt_inv in L, U. lia.
Qed.

(** What the minimum does guarantee: the scale is never below it, and it changes nothing when
    the restricted scale is already above it. *)
Theorem C12_min_val_lower_bound : forall r v stats threshold, 0 < v ->
  v <= stats_scaling r (Some v) stats threshold
  /\ (v <= stats_scaling r None stats threshold ->
      stats_scaling r (Some v) stats threshold == stats_scaling r None stats threshold).
Proof.
  intros r v st th Hv. unfold stats_scaling. cbn [clamp_min_opt]. set (x := restrict_combine r st th). clearbody x.
  unfold torch_max. destruct (Qeq_bool v 0) eqn:E; [apply Qeq_bool_iff in E; exfalso; lra|].
  destruct (Qle_bool v x) eqn:G.
  - apply Qle_bool_iff in G. split; [exact G|reflexivity].
  - split; [apply Qle_refl|]. intros H. apply Qle_bool_iff in H. congruence.
Qed.

Example C12_nontrivial :
  stats_scaling (RestrictPoT Ceil) None (5 # 1) (8 # 1) == 1
  /\ stats_scaling (RestrictPoT Floor) None (5 # 1) (8 # 1) == 1 # 2
  /\ stats_scaling (RestrictPoT Round) None (5 # 1) (8 # 1) == 1 # 2
  /\ stats_scaling (RestrictPoT Round) None (6 # 1) (8 # 1) == 1.
Proof. repeat split; reflexivity. Qed.

Print Assumptions C10_narrow_never_clips.
Print Assumptions C10_full_error_le_scale.
Print Assumptions C10_full_range_clips_positive_extremum.
Print Assumptions C11_asymmetric_covers.
Print Assumptions C11_all_negative_refuted.
Print Assumptions C12_min_val_lower_bound.
Print Assumptions C12_power_of_two.
Print Assumptions C12_fixes_powers_of_two.
Print Assumptions C12_min_val_refuted.
