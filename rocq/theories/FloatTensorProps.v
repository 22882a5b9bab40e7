(** C98: the minifloat representation carried by a FloatQuantTensor. *)
From Verif Require Import QUtil Ops OpsProofs Log2Q Minifloat MinifloatProofs MinifloatProps
  QuantTensor FloatTensor.
Open Scope Q_scope.

(** * Specification

    [minifloat e m bias r] ([MinifloatProps]) says that [r] is, up to sign, the value of a code
    with [e] exponent bits, [m] mantissa bits and exponent bias [bias].  A tensor is quantized
    in that format when its metadata say so and each element is the scale times such an [r]. *)
Definition labelled (t : fqt) (e m bias : Z) : Prop :=
  ft_exp t == inject_Z e /\ ft_man t == inject_Z m /\ ft_bias t == inject_Z bias.

Definition elem_of (e m bias : Z) (scale r : Q) (v : fval) : Prop :=
  exists q, v = Fin q /\ q == r * scale /\ minifloat e m bias r.

Definition quantized (t : fqt) (e m bias : Z) : Prop :=
  labelled t e m bias /\
  Forall (fun v => exists r, elem_of e m bias (ft_scale t) r v) (ft_value t).

(** Equality of elements, and of everything but the elements and the sign flag. *)
Definition veq (a b : fval) : Prop :=
  match a, b with
  | Fin x, Fin y => x == y
  | PInf, PInf | NInf, NInf | NaN, NaN => True
  | _, _ => False
  end.
Definition same_meta (a b : fqt) : Prop :=
  ft_scale a = ft_scale b /\ ft_zp a = ft_zp b /\ ft_exp a = ft_exp b /\ ft_man a = ft_man b
  /\ ft_bias a = ft_bias b /\ ft_saturating a = ft_saturating b /\ ft_inf a = ft_inf b
  /\ ft_nan a = ft_nan b /\ ft_training a = ft_training b.

(** * One element *)

Lemma step_exp eps t e m bias q : labelled t e m bias ->
  step eps t q = pow2 (iexp q m (1 - bias - m) eps).
Proof.
  intros (_ & Em & Eb). unfold step, float_internal_scale, iexp.
  assert (F1 : Qfloor (ft_man t) = m) by (rewrite Em; apply Qfloor_Z).
  assert (F2 : Qfloor (1 - ft_bias t - ft_man t) = (1 - bias - m)%Z).
  { transitivity (Qfloor (inject_Z (1 - bias - m))); [|apply Qfloor_Z].
    apply Qfloor_comp. rewrite Em, Eb. unfold Z.sub. rewrite !inject_Z_plus, !inject_Z_opp.
    change (inject_Z 1) with 1. ring. }
  rewrite F1, F2. reflexivity.
Qed.

(** The step computed from the scaled-down value divides the represented value. *)
Lemma step_divides eps m smin r scale q k j :
  (0 <= m)%Z -> 0 < eps -> eps < pow2 smin -> 0 < scale <= 1 ->
  (Z.abs k < 2 ^ (m + 1))%Z -> (smin <= j)%Z -> r == inject_Z k * pow2 j -> q == r * scale ->
  (iexp q m smin eps <= j)%Z.
Proof.
  intros Hm He Hs [Hc0 Hc1] Hk Hj Er Eq.
  assert (L : Qabs q <= Qabs r).
  { rewrite Eq, Qabs_Qmult, (Qabs_pos scale) by lra. pose proof (Qabs_nonneg r) as N.
    setoid_replace (Qabs r) with (Qabs r * 1) at 2 by ring. rewrite !(Qmult_comm (Qabs r)).
    apply Qmult_le_compat_r; assumption. }
  pose proof (iexp_mono q r m smin eps He L) as M.
  pose proof (iexp_lower r m smin eps He) as LO. pose proof (iexp_ge r m smin eps) as G.
  set (i := iexp r m smin eps) in *.
  destruct (Z_le_gt_dec i j) as [C|C]; [lia|exfalso].
  destruct LO as [LO|LO]; [lia|].
  pose proof (finer_bound m Hm k i j Hk ltac:(lia)) as B. rewrite <- Er in B.
  pose proof (pow2_mono smin (i - 1) ltac:(lia)). lra.
Qed.

Lemma pre_int eps t e m bias r q :
  (0 <= m)%Z -> labelled t e m bias -> 0 < eps -> eps < pow2 (1 - bias - m) ->
  0 < ft_scale t <= 1 -> q == r * ft_scale t -> minifloat e m bias r ->
  exists n, q / ft_scale t / step eps t q == inject_Z n /\ inject_Z n * step eps t q == r.
Proof.
  intros Hm HL He Hs Hc Eq Hr.
  destruct (minifloat_grid e m bias r Hm Hr) as (k & j & Hk & Hj & E).
  pose proof (step_divides eps m (1 - bias - m) r (ft_scale t) q k j Hm He Hs Hc Hk Hj E Eq) as D.
  rewrite (step_exp eps t e m bias q HL). set (i := iexp q m (1 - bias - m) eps) in *.
  pose proof (pow2_pos i) as P.
  exists (k * 2 ^ (j - i))%Z.
  assert (EN : inject_Z (k * 2 ^ (j - i)) * pow2 i == r).
  { rewrite inject_Z_mult, inj_pow by lia. rewrite <- Qmult_assoc, <- pow2_plus.
    replace (j - i + i)%Z with j by lia. symmetry. exact E. }
  split; [|exact EN].
  rewrite Eq, <- EN. field. split; lra.
Qed.

Lemma elem_ok eps t e m bias r v :
  (0 <= m)%Z -> labelled t e m bias -> 0 < eps -> eps < pow2 (1 - bias - m) ->
  0 < ft_scale t <= 1 -> elem_of e m bias (ft_scale t) r v ->
  elem_valid eps t v = true /\ minifloat_elem eps t v == r.
Proof.
  intros Hm HL He Hs Hc (q & -> & Eq & Hr).
  destruct (pre_int eps t e m bias r q Hm HL He Hs Hc Eq Hr) as (n & E1 & E2).
  unfold elem_valid, pre_round_float_value, minifloat_elem.
  set (p := q / ft_scale t / step eps t q) in *.
  assert (R : roundZ p = n) by (change (roundZ p) with (float_to_intZ Round p); rewrite (rnd_eq _ (mode_rounding Round) p (inject_Z n) E1); apply (rnd_int _ (mode_rounding Round))).
  rewrite R. split; [|exact E2].
  apply Qlt_bool_iff. setoid_replace (p - inject_Z n) with 0 by (rewrite E1; ring).
  vm_compute. reflexivity.
Qed.

Lemma minifloat_comp e m bias x y : x == y -> minifloat e m bias x -> minifloat e m bias y.
Proof. intros E (c & H & [D|D]); exists c; (split; [exact H|]); [left|right]; rewrite <- E; exact D. Qed.

Lemma minifloat_opp e m bias x : minifloat e m bias x -> minifloat e m bias (- x).
Proof.
  intros (c & H & [D|D]); exists c; (split; [exact H|]); [right|left]; rewrite D; ring.
Qed.

Lemma minifloat_abs e m bias x : minifloat e m bias x -> minifloat e m bias (Qabs x).
Proof.
  intros H. apply Qabs_case; intros _; [exact H|apply minifloat_opp, H].
Qed.

Lemma to_minifloat_ok eps t e m bias rs :
  (0 <= m)%Z -> labelled t e m bias -> 0 < eps -> eps < pow2 (1 - bias - m) ->
  0 < ft_scale t <= 1 -> ft_value t <> [] -> Forall2 (elem_of e m bias (ft_scale t)) rs (ft_value t) ->
  exists l, to_minifloat eps t = Some l /\ Forall2 Qeq l rs.
Proof.
  intros Hm HL He Hs Hc NE H.
  exists (map (minifloat_elem eps t) (ft_value t)). unfold to_minifloat, fis_valid.
  assert (V : forallb (elem_valid eps t) (ft_value t) = true).
  { apply forallb_forall. intros v Hv. clear NE.
    induction H as [|r w rs' vs Hr _ IH]; [destruct Hv|destruct Hv as [<-|Hv]; [|exact (IH Hv)]].
    exact (proj1 (elem_ok eps t e m bias r w Hm HL He Hs Hc Hr)). }
  split.
  - destruct (ft_value t) as [|v vs] eqn:E; [congruence|]. rewrite V. reflexivity.
  - clear V NE. induction H as [|r w rs' vs Hr _ IH]; cbn [map]; constructor; [|exact IH].
    exact (proj2 (elem_ok eps t e m bias r w Hm HL He Hs Hc Hr)).
Qed.

Lemma quantized_reps t e m bias : quantized t e m bias ->
  exists rs, Forall2 (elem_of e m bias (ft_scale t)) rs (ft_value t).
Proof.
  intros [_ H]. induction H as [|v vs (r & Hr) _ (rs & IH)]; [exists []; constructor|].
  exists (r :: rs). constructor; assumption.
Qed.

(** * Theorems *)

(** With a scale of at most one, the integer-like representation is recovered exactly:
    [minifloat()] succeeds and returns the representable numbers whose products with the scale
    are the elements. *)
Theorem C98_minifloat eps t e m bias :
  (0 <= m)%Z -> 0 < eps -> eps < pow2 (1 - bias - m) -> 0 < ft_scale t <= 1 ->
  ft_value t <> [] -> quantized t e m bias ->
  fis_valid eps t = Some true /\
  exists l, to_minifloat eps t = Some l /\ Forall2 (elem_of e m bias (ft_scale t)) l (ft_value t).
Proof.
  intros Hm He Hs Hc NE H. destruct (quantized_reps t e m bias H) as (rs & HR).
  destruct (to_minifloat_ok eps t e m bias rs Hm (proj1 H) He Hs Hc NE HR) as (l & E & F).
  split.
  - unfold to_minifloat in E. destruct (fis_valid eps t) as [[]|]; [reflexivity|discriminate|discriminate].
  - exists l. split; [exact E|]. clear E NE H. revert l F.
    induction HR as [|r v rs vs (q & -> & Eq & Hr) _ IH]; intros l F; inversion F; subst; constructor.
    + exists q. split; [reflexivity|]. split; [rewrite Eq; apply Qmult_comp; [symmetry; assumption|reflexivity]|].
      eapply minifloat_comp; [symmetry; eassumption|exact Hr].
    + apply IH. assumption.
Qed.

(** The output of a saturating FloatQuant, whatever the inputs, with a scale of at most one. *)
Definition quant_output (c : fcfg) (scale : Q) (training : bool) (vs : list fval) : fqt :=
  FQT vs scale 0 (inject_Z (fe c)) (inject_Z (fm c)) (inject_Z (fbias c)) (fsat c) (finf c) (fnan c)
      (fsigned c) training.

Theorem C98_quantizer c eps scale training xs vs :
  fmt_ok c -> fsat c = true -> 0 < eps -> eps < pow2 (1 - fbias c - fm c) -> 0 < scale <= 1 ->
  xs <> [] -> map (fun x => float_quant c false eps x scale) xs = map Some vs ->
  exists l, to_minifloat eps (quant_output c scale training vs) = Some l /\
    Forall2 (elem_of (fe c) (fm c) (fbias c) scale) l vs.
Proof.
  intros HF HS He Hs Hc NE E. set (t := quant_output c scale training vs).
  assert (HQ : quantized t (fe c) (fm c) (fbias c)).
  { split; [split; [|split]; reflexivity|]. cbn [t quant_output ft_value ft_scale].
    clear NE t. revert vs E. induction xs as [|x xs IH]; intros vs E; destruct vs as [|v vs]; try discriminate; constructor.
    - pose proof (f_equal (hd None) E) as E0. cbn [map hd] in E0.
      destruct (C28_representable c eps x scale HF HS He (proj1 Hc)) as (r & E' & Hr & _).
      rewrite E' in E0. injection E0 as <-. exists r, (r * scale). split; [reflexivity|split; [reflexivity|exact Hr]].
    - apply IH. exact (f_equal (@tl _) E). }
  destruct HF as (_ & Hm & _).
  destruct (C98_minifloat eps t (fe c) (fm c) (fbias c)) as (_ & l & El & F); try assumption; [lia| |].
  - cbn [t quant_output ft_value]. destruct xs, vs; try discriminate; congruence.
  - exists l. split; [exact El|exact F].
Qed.

(** Above a scale of 2^(m+1) / (2^(m+1) - 1), slightly more than one, this fails for every
    format: some representable number is never recovered. *)
Lemma top_code e m bias : (1 <= e)%Z -> (1 <= m)%Z ->
  minifloat e m bias (inject_Z (2 ^ (m + 1) - 1) * pow2 (1 - bias - m)).
Proof.
  intros He Hm. assert (P0 : (0 < 2 ^ m)%Z) by (apply Z.pow_pos_nonneg; lia).
  assert (P1 : (2 ^ (m + 1) = 2 * 2 ^ m)%Z) by (rewrite Z.pow_add_r by lia; lia).
  assert (D : ((2 ^ m + (2 ^ m - 1)) / 2 ^ m = 1)%Z).
  { symmetry. apply Z.div_unique with (r := (2 ^ m - 1)%Z); lia. }
  assert (M : ((2 ^ m + (2 ^ m - 1)) mod 2 ^ m = 2 ^ m - 1)%Z).
  { symmetry. apply Z.mod_unique with (q := 1%Z); lia. }
  exists (2 ^ m + (2 ^ m - 1))%Z. split.
  - assert (2 ^ (m + 1) <= 2 ^ (e + m))%Z by (apply Z.pow_le_mono_r; lia). lia.
  - left. unfold decode. rewrite D, M. cbn [Z.eqb].
    replace (2 ^ m + (2 ^ m - 1))%Z with (2 ^ (m + 1) - 1)%Z by lia.
    replace (1 - bias - m)%Z with (1 - bias - m)%Z by lia. reflexivity.
Qed.

Theorem C98_large_scale eps t e m bias :
  (1 <= e)%Z -> (1 <= m)%Z -> 0 < eps -> labelled t e m bias ->
  inject_Z (2 ^ (m + 1)) <= inject_Z (2 ^ (m + 1) - 1) * ft_scale t ->
  exists r, minifloat e m bias r /\
    forall l, ft_value t = [Fin (r * ft_scale t)] -> to_minifloat eps t = Some l -> ~ Forall2 Qeq l [r].
Proof.
  intros He Hm Hp HL Hs. set (smin := (1 - bias - m)%Z).
  set (r := inject_Z (2 ^ (m + 1) - 1) * pow2 smin).
  exists r. split; [apply top_code; assumption|].
  intros l EV EM F. unfold to_minifloat in EM. rewrite EV in EM.
  destruct (fis_valid eps t) as [[]|]; try discriminate. injection EM as <-. cbn [map] in F.
  inversion F as [|? ? ? ? EQ _]; subst. clear F EV. cbn [minifloat_elem] in EQ.
  rewrite (step_exp eps t e m bias _ HL) in EQ. fold smin in EQ.
  set (q := r * ft_scale t) in *. set (i := iexp q m smin eps) in *.
  set (n := roundZ (q / ft_scale t / pow2 i)) in *. clearbody n.
  assert (P0 : (0 < 2 ^ m)%Z) by (apply Z.pow_pos_nonneg; lia).
  assert (P1 : (2 ^ (m + 1) = 2 * 2 ^ m)%Z) by (rewrite Z.pow_add_r by lia; lia).
  pose proof (pow2_pos smin) as PS.
  assert (Q1 : pow2 (smin + m + 1) <= q).
  { unfold q, r. replace (smin + m + 1)%Z with (m + 1 + smin)%Z by lia. rewrite pow2_plus.
    rewrite <- (inj_pow (m + 1)) by lia.
    setoid_replace (inject_Z (2 ^ (m + 1) - 1) * pow2 smin * ft_scale t)
      with (inject_Z (2 ^ (m + 1) - 1) * ft_scale t * pow2 smin) by ring.
    apply Qmult_le_compat_r; [exact Hs|lra]. }
  assert (I : (smin < i)%Z).
  { destruct (Z_lt_le_dec smin i) as [C|C]; [exact C|exfalso].
    pose proof (iexp_upper q m smin eps Hp) as U. fold i in U.
    pose proof (pow2_mono (i + m + 1) (smin + m + 1) ltac:(lia)) as M.
    pose proof (pow2_pos (smin + m + 1)) as P.
    rewrite Qabs_pos in U by lra. lra. }
  (* n * 2^(i - smin) = 2^(m+1) - 1, even = odd *)
  assert (EI : inject_Z (n * 2 ^ (i - smin)) == inject_Z (2 ^ (m + 1) - 1)).
  { apply (Qmult_inj_r _ _ (pow2 smin)); [lra|]. fold r. rewrite <- EQ.
    rewrite inject_Z_mult, inj_pow by lia. rewrite <- Qmult_assoc, <- pow2_plus.
    replace (i - smin + smin)%Z with i by lia. reflexivity. }
  assert (EZ : (n * 2 ^ (i - smin) = 2 ^ (m + 1) - 1)%Z).
  { unfold Qeq, inject_Z in EI. cbn [Qnum Qden] in EI. lia. }
  assert (T : (2 ^ (i - smin) = 2 * 2 ^ (i - smin - 1))%Z).
  { replace (i - smin)%Z with (1 + (i - smin - 1))%Z at 1 by lia. rewrite Z.pow_add_r by lia. lia. }
  rewrite T, P1 in EZ. lia.
Qed.

(** Negation. *)
Theorem C98_neg eps t e m bias :
  (0 <= m)%Z -> 0 < eps -> eps < pow2 (1 - bias - m) -> 0 < ft_scale t <= 1 ->
  ft_value t <> [] -> ft_zp t == 0 -> ft_signed t = true -> quantized t e m bias ->
  exists t', fneg eps t = Some t' /\ same_meta t' t /\ ft_signed t' = true /\ quantized t' e m bias
    /\ Forall2 (fun v w => exists x y, v = Fin x /\ w = Fin y /\ y == - x) (ft_value t) (ft_value t').
Proof.
  intros Hm He Hs Hc NE HZ HSG H.
  destruct (C98_minifloat eps t e m bias Hm He Hs Hc NE H) as (_ & l & EL & F).
  unfold fneg. rewrite EL, HSG. eexists. split; [reflexivity|].
  split; [repeat split|]. split; [reflexivity|]. split.
  - split; [exact (proj1 H)|]. cbn [with_value ft_value ft_scale].
    apply Forall_map. clear EL NE.
    induction F as [|r v l' vs (q & -> & Eq & Hr) _ IH]; constructor; [|exact IH].
    exists (- r), ((- r - ft_zp t) * ft_scale t). split; [reflexivity|]. split; [rewrite HZ; ring|].
    apply minifloat_opp, Hr.
  - cbn [with_value ft_value]. clear EL NE.
    induction F as [|r v l' vs (q & -> & Eq & Hr) _ IH]; cbn [map]; constructor; [|exact IH].
    exists q, ((- r - ft_zp t) * ft_scale t). split; [reflexivity|]. split; [reflexivity|]. rewrite HZ, Eq. ring.
Qed.

Theorem C98_neg_unsigned eps t : ft_signed t = false -> fneg eps t = None.
Proof. intros H. unfold fneg. rewrite H. destruct (to_minifloat eps t); reflexivity. Qed.

(** Absolute value: the elements lose their sign, the format stays, the result is labelled
    unsigned; an unsigned tensor is returned as it is. *)
Theorem C98_abs eps t e m bias :
  (0 <= m)%Z -> 0 < eps -> eps < pow2 (1 - bias - m) -> 0 < ft_scale t <= 1 ->
  ft_value t <> [] -> ft_zp t == 0 -> ft_signed t = true -> quantized t e m bias ->
  exists t', fabs eps t = Some t' /\ same_meta t' t /\ ft_signed t' = false /\ quantized t' e m bias
    /\ Forall2 (fun v w => exists x y, v = Fin x /\ w = Fin y /\ y == Qabs x) (ft_value t) (ft_value t').
Proof.
  intros Hm He Hs Hc NE HZ HSG H.
  destruct (C98_minifloat eps t e m bias Hm He Hs Hc NE H) as (_ & l & EL & F).
  unfold fabs. rewrite EL, HSG. eexists. split; [reflexivity|].
  split; [repeat split|]. split; [reflexivity|]. split.
  - split; [exact (proj1 H)|]. cbn [with_value ft_value ft_scale].
    apply Forall_map. clear EL NE.
    induction F as [|r v l' vs (q & -> & Eq & Hr) _ IH]; constructor; [|exact IH].
    exists (Qabs r), ((Qabs r - ft_zp t) * ft_scale t). split; [reflexivity|]. split; [rewrite HZ; ring|].
    apply minifloat_abs, Hr.
  - cbn [with_value ft_value]. clear EL NE.
    induction F as [|r v l' vs (q & -> & Eq & Hr) _ IH]; cbn [map]; constructor; [|exact IH].
    exists q, ((Qabs r - ft_zp t) * ft_scale t). split; [reflexivity|]. split; [reflexivity|].
    rewrite HZ, Eq, Qabs_Qmult, (Qabs_pos (ft_scale t)) by lra. ring.
Qed.

Theorem C98_abs_unsigned eps t : ft_signed t = false -> fabs eps t = Some t.
Proof. intros H. unfold fabs. rewrite H. reflexivity. Qed.

(** Subtraction of a quantized tensor gives the elementwise difference, as a plain tensor;
    the left operand is unconstrained (its elements may be infinite or NaN). *)
Definition minus_is (a b c : fval) : Prop :=
  exists y, b = Fin y /\
    match a with Fin x => exists z, c = Fin z /\ z == x - y | _ => c = a end.

Inductive Forall3 {A B C} (P : A -> B -> C -> Prop) : list A -> list B -> list C -> Prop :=
| F3nil : Forall3 P [] [] []
| F3cons a b c la lb lc : P a b c -> Forall3 P la lb lc -> Forall3 P (a :: la) (b :: lb) (c :: lc).

Theorem C98_sub eps a b e m bias :
  (0 <= m)%Z -> 0 < eps -> eps < pow2 (1 - bias - m) -> 0 < ft_scale b <= 1 ->
  ft_value b <> [] -> ft_zp b == 0 -> ft_signed b = true -> quantized b e m bias ->
  length (ft_value a) = length (ft_value b) ->
  exists vs, fsub eps a b = Some (Plain vs) /\ Forall3 minus_is (ft_value a) (ft_value b) vs.
Proof.
  intros Hm He Hs Hc NE HZ HSG H HLen.
  destruct (C98_neg eps b e m bias Hm He Hs Hc NE HZ HSG H) as (nb & E & _ & _ & _ & F).
  unfold fsub. rewrite E. unfold fadd. eexists. split; [reflexivity|].
  clear E NE H. revert HLen. generalize (ft_value a). unfold map2.
  induction F as [|v w vs ws (x & y & -> & -> & Ey) _ IH]; intros [|u us] HLen; try discriminate; cbn [combine map]; constructor.
  - exists x. split; [reflexivity|]. cbn [fst snd]. destruct u; cbn [fval_add]; try reflexivity.
    eexists. split; [reflexivity|]. rewrite Ey. ring.
  - apply IH. cbn in HLen. lia.
Qed.

(** Addition gives a plain tensor of IEEE sums: NaN exactly when an operand is NaN or the two are
    opposite infinities. *)
Definition sum_is (a b c : fval) : Prop :=
  (c = NaN <-> a = NaN \/ b = NaN \/ (a = PInf /\ b = NInf) \/ (a = NInf /\ b = PInf)) /\
  (c <> NaN -> (c = PInf <-> a = PInf \/ b = PInf) /\ (c = NInf <-> a = NInf \/ b = NInf)) /\
  (forall z, c = Fin z -> exists x y, a = Fin x /\ b = Fin y /\ z == x + y).
Theorem C98_add a b : length (ft_value a) = length (ft_value b) ->
  exists vs, fadd a b = Plain vs /\ Forall3 sum_is (ft_value a) (ft_value b) vs.
Proof.
  intros HLen. unfold fadd. eexists. split; [reflexivity|]. revert HLen. unfold map2.
  generalize (ft_value a), (ft_value b). intros l. induction l as [|x l IH]; intros [|y k] HLen; try discriminate; cbn [combine map]; constructor.
  - cbn [fst snd]. unfold sum_is.
    destruct x, y; cbn [fval_add]; (split; [|split]);
      first [split; [intros K; try discriminate K; tauto|intros K; repeat destruct K as [K|K]; try discriminate; try (destruct K; discriminate); reflexivity]
            |intros N; split; (split; [intros K; try discriminate K; tauto|intros K; repeat destruct K as [K|K]; try discriminate; try congruence])
            |intros z K; try discriminate K; injection K as <-; eexists _, _; repeat split; reflexivity].
  - apply IH. cbn in HLen. lia.
Qed.

(** ** Concatenation *)

Lemma all_qt_map ts : all_qt (map QT ts) = Some ts.
Proof. induction ts as [|t ts IH]; [reflexivity|]. cbn [map all_qt]. rewrite IH. reflexivity. Qed.

Lemma fcat_many a b ts : fcat (map QT (a :: b :: ts)) =
  if forallb (cat_check a) (b :: ts) then
    let l := a :: b :: ts in let tr := existsb ft_training l in
    Some (QT {| ft_value := concat (map ft_value l);
                ft_scale := if tr then mean ft_scale l else ft_scale a;
                ft_zp := if tr then mean ft_zp l else ft_zp a;
                ft_exp := if tr then mean ft_exp l else ft_exp a;
                ft_man := if tr then mean ft_man l else ft_man a;
                ft_bias := if tr then mean ft_bias l else ft_bias a;
                ft_saturating := ft_saturating a; ft_inf := ft_inf a; ft_nan := ft_nan a;
                ft_signed := ft_signed a; ft_training := tr |})
  else None.
Proof.
  unfold fcat. cbn [map]. change (QT a :: QT b :: map QT ts) with (map QT (a :: b :: ts)).
  rewrite all_qt_map. reflexivity.
Qed.

Lemma allclose_refl x : allclose x x = true.
Proof.
  unfold allclose. apply Qle_bool_iff. setoid_replace (x - x) with 0 by ring. pose proof (Qabs_nonneg x).
  change (Qabs 0) with 0. lra.
Qed.
Lemma bits_eqb_refl a : bits_eqb a a = true.
Proof. induction a as [|[] a IH]; [reflexivity| |]; cbn; exact IH. Qed.
Lemma set_eqb_refl l : set_eqb l l = true.
Proof.
  unfold set_eqb. apply andb_true_intro. split; apply forallb_forall; intros x Hx; apply existsb_exists; exists x; (split; [exact Hx|apply bits_eqb_refl]).
Qed.

(** At inference time, tensors with one common set of metadata in which the infinities are
    listed are joined into one tensor with those metadata. *)
Theorem C98_cat t0 ts :
  (2 <= length ts)%nat ->
  (forall t, In t ts -> same_meta t t0 /\ ft_signed t = ft_signed t0) ->
  ft_training t0 = false -> ft_inf t0 <> None ->
  exists t', fcat (map QT ts) = Some (QT t') /\ same_meta t' t0 /\ ft_signed t' = ft_signed t0
    /\ ft_value t' = concat (map ft_value ts).
Proof.
  intros HLen HM HT HI. destruct ts as [|a [|b ts]]; [cbn in HLen; lia|cbn in HLen; lia|].
  rewrite fcat_many.
  assert (CK : forallb (cat_check a) (b :: ts) = true).
  { apply forallb_forall. intros x Hx.
    destruct (HM a (or_introl eq_refl)) as [(A1 & A2 & A3 & A4 & A5 & A6 & A7 & A8 & A9) A10].
    destruct (HM x (or_intror Hx)) as [(B1 & B2 & B3 & B4 & B5 & B6 & B7 & B8 & B9) B10].
    unfold cat_check, check_fscale, check_fzp, check_widths, check_bias, check_inf_nan, check_fsign.
    rewrite A1, A2, A3, A4, A5, A7, A9, A10, B1, B2, B3, B4, B5, B7, B10, HT, !allclose_refl.
    destruct (ft_inf t0) as [iv|]; [|congruence]. cbn [same_set]. rewrite set_eqb_refl.
    destruct (ft_signed t0); reflexivity. }
  rewrite CK. cbv zeta. eexists. split; [reflexivity|].
  assert (TR : existsb ft_training (a :: b :: ts) = false).
  { destruct (existsb ft_training (a :: b :: ts)) eqn:E; [|reflexivity].
    apply existsb_exists in E as (x & Hx & Tx). destruct (HM x Hx) as [(_ & _ & _ & _ & _ & _ & _ & _ & T) _]. congruence. }
  destruct (HM a (or_introl eq_refl)) as [(A1 & A2 & A3 & A4 & A5 & A6 & A7 & A8 & A9) A10].
  cbn [ft_scale ft_zp ft_exp ft_man ft_bias ft_saturating ft_inf ft_nan ft_signed ft_training ft_value].
  rewrite TR. unfold same_meta. cbn [ft_scale ft_zp ft_exp ft_man ft_bias ft_saturating ft_inf ft_nan ft_signed ft_training ft_value].
  repeat split; try assumption. symmetry. exact HT.
Qed.

(** So the joined tensor is quantized in the format when its parts are. *)
Theorem C98_cat_quantized t0 ts e m bias :
  (2 <= length ts)%nat ->
  (forall t, In t ts -> same_meta t t0 /\ ft_signed t = ft_signed t0 /\ quantized t e m bias) ->
  ft_training t0 = false -> ft_inf t0 <> None ->
  exists t', fcat (map QT ts) = Some (QT t') /\ quantized t' e m bias.
Proof.
  intros HLen HM HT HI.
  destruct (C98_cat t0 ts HLen (fun t Ht => conj (proj1 (HM t Ht)) (proj1 (proj2 (HM t Ht)))) HT HI)
    as (t' & E & (M1 & M2 & M3 & M4 & M5 & _) & _ & EV).
  exists t'. split; [exact E|]. destruct ts as [|a ts]; [cbn in HLen; lia|].
  destruct (HM a (or_introl eq_refl)) as ((A1 & A2 & A3 & A4 & A5 & _) & _ & (L & _)).
  split.
  - unfold labelled in *. rewrite M3, M4, M5, <- A3, <- A4, <- A5. exact L.
  - rewrite EV. apply Forall_concat. apply Forall_map. apply Forall_forall. intros t Ht.
    destruct (HM t Ht) as ((T1 & _) & _ & (_ & Q)). rewrite M1, <- T1. exact Q.
Qed.

(** What the checks do guarantee when [cat] succeeds on two or more FloatQuantTensors. *)
Definition same_codes (o1 o2 : option (list bits)) : Prop :=
  exists l1 l2, o1 = Some l1 /\ o2 = Some l2 /\ forall c, In c l1 <-> In c l2.
Lemma bits_eqb_eq a : forall b, bits_eqb a b = true -> a = b.
Proof.
  induction a as [|x a IH]; intros [|y b] H; try discriminate; [reflexivity|]. cbn [bits_eqb] in H.
  apply andb_true_iff in H. destruct H as [H1 H2]. apply Bool.eqb_prop in H1. rewrite H1, (IH b H2). reflexivity.
Qed.
Lemma same_set_codes o1 o2 : same_set o1 o2 = Some true -> same_codes o1 o2.
Proof.
  destruct o1 as [l1|], o2 as [l2|]; try discriminate. cbn [same_set]. intros H. injection H as H. exists l1, l2.
  split; [reflexivity|]. split; [reflexivity|]. unfold set_eqb in H. apply andb_true_iff in H. destruct H as [H1 H2].
  rewrite forallb_forall in H1, H2. intros c. split; intros I.
  - specialize (H1 c I). apply existsb_exists in H1. destruct H1 as (d & Hd & E). rewrite (bits_eqb_eq _ _ E). exact Hd.
  - specialize (H2 c I). apply existsb_exists in H2. destruct H2 as (d & Hd & E). rewrite (bits_eqb_eq _ _ E). exact Hd.
Qed.
Theorem C98_cat_checked a b ts r :
  fcat (map QT (a :: b :: ts)) = Some r ->
  forall t, In t (b :: ts) ->
    ft_inf a <> None /\ ft_inf t <> None /\ ft_signed t = ft_signed a
    /\ allclose (ft_bias a) (ft_bias t) = true
    /\ (allclose (ft_exp a) (ft_exp t) = true \/ allclose (ft_man a) (ft_man t) = true)
    /\ (ft_training a = false -> allclose (ft_scale a) (ft_scale t) = true /\ allclose (ft_zp a) (ft_zp t) = true)
    /\ (same_codes (ft_inf a) (ft_inf t) \/ same_codes (ft_nan a) (ft_nan t)).
Proof.
  rewrite fcat_many. destruct (forallb (cat_check a) (b :: ts)) eqn:CK; [|discriminate]. intros _ t Ht.
  rewrite forallb_forall in CK. specialize (CK t Ht). unfold cat_check in CK.
  rewrite !andb_true_iff in CK. destruct CK as [[[[[C1 C2] C3] C4] C5] C6].
  unfold check_fscale, check_fzp in *. unfold check_inf_nan in C5. unfold check_widths in C3. unfold check_fsign in C6.
  assert (N : ft_inf a <> None /\ ft_inf t <> None).
  { destruct (ft_inf a), (ft_inf t); cbn [same_set] in C5; split; congruence. }
  destruct N as [N1 N2]. split; [exact N1|]. split; [exact N2|].
  split; [symmetry; apply Bool.eqb_prop; exact C6|]. split; [exact C4|]. split.
  - destruct (allclose (ft_exp a) (ft_exp t)); [left; reflexivity|].
    destruct (allclose (ft_man a) (ft_man t)); [right; reflexivity|discriminate].
  - split; [intros HT; rewrite HT in C1, C2; split; assumption|].
    destruct (same_set (ft_inf a) (ft_inf t)) as [[]|] eqn:EI; [left; exact (same_set_codes _ _ EI)| |discriminate].
    destruct (same_set (ft_nan a) (ft_nan t)) as [[]|] eqn:EN; [right; exact (same_set_codes _ _ EN)|discriminate|discriminate].
Qed.

(** A format without infinities (OCP E4M3, both FNUZ formats, the MX formats) cannot be
    concatenated at all: comparing the missing lists is a TypeError. *)
Theorem C98_cat_no_inf a b ts :
  ft_inf a = None -> fcat (map QT (a :: b :: ts)) = None.
Proof.
  intros H. destruct (fcat (map QT (a :: b :: ts))) as [r|] eqn:E; [|reflexivity].
  destruct (C98_cat_checked a b ts r E b (or_introl eq_refl)) as (N & _). congruence.
Qed.

(** Any plain tensor among the arguments gives the plain concatenation of the values. *)
Theorem C98_cat_plain l vs : (2 <= length l)%nat -> In (Plain vs) l ->
  fcat l = Some (Plain (concat (map unpack l))).
Proof.
  intros HLen HIn. assert (N : all_qt l = None).
  { clear HLen. induction l as [|[t|ws] l IH]; [destruct HIn| |reflexivity].
    cbn [all_qt]. destruct HIn as [D|HIn]; [discriminate|]. rewrite (IH HIn). reflexivity. }
  destruct l as [|a [|b l]]; [cbn in HLen; lia|cbn in HLen; lia|]. unfold fcat. rewrite N. reflexivity.
Qed.

(** ** What does not hold *)

(** The tensors used below: an OCP E5M2-like format (its infinities are listed). *)
Definition e5m2_inf : option (list bits) := Some [[false; false]].
Definition e5m2_nan : option (list bits) := Some [[false; true]; [true; true]; [true; false]].
Definition e5m2_t (scale : Q) (vs : list fval) : fqt :=
  FQT vs scale 0 5 2 15 true e5m2_inf e5m2_nan true false.
Definition e4m3_t (scale : Q) (vs : list fval) : fqt :=
  FQT vs scale 0 4 3 7 true None (Some [[true; true; true]]) true false.
Definition tiny : Q := pow2 (-126).

Lemma e4m3_quantized scale ks : Forall (fun k => exists c s, (0 <= c < 128)%Z /\ snd k = Fin s /\ s == fst k * scale /\ (fst k == decode 3 7 c \/ fst k == - decode 3 7 c)) ks ->
  quantized (e4m3_t scale (map snd ks)) 4 3 7.
Proof.
  intros H. split; [repeat split|]. cbn [e4m3_t ft_value ft_scale]. apply Forall_map.
  eapply Forall_impl; [|exact H]. intros [r v] (c & s & Hc & Ev & Es & D). cbn [fst snd] in *.
  exists r, s. split; [exact Ev|]. split; [exact Es|]. exists c. split; [exact Hc|exact D].
Qed.

(** Validity and negation of a properly quantized tensor, refuted: with scale 3/2 the tensor
    is reported invalid, so [minifloat()], negation and subtraction raise. *)
Theorem C98_scale_refuted :
  exists t, quantized t 4 3 7 /\ 0 < ft_scale t /\ ft_zp t == 0 /\ ft_signed t = true /\
    fis_valid tiny t = Some false /\ to_minifloat tiny t = None /\ fneg tiny t = None /\
    fabs tiny t = None /\ fsub tiny t t = None.
Proof.
  exists (e4m3_t (3 # 2) (map snd [((15 # 8), Fin (45 # 16))])). split.
  - apply e4m3_quantized. repeat constructor. exists 63%Z, (45 # 16). repeat split; try lia. left. vm_compute. reflexivity.
  - repeat split; vm_compute; reflexivity.
Qed.

(** Worse, with scale 8 the tensor passes the validity check and negation silently returns
    another number: the element 9 = 8 * 1.125 is negated to -8, and its absolute value is 8. *)
Theorem C98_neg_refuted :
  exists t t', quantized t 4 3 7 /\ 0 < ft_scale t /\ ft_zp t == 0 /\ ft_signed t = true /\
    fis_valid tiny t = Some true /\ ft_value t = [Fin 9] /\ fneg tiny t = Some t' /\
    exists q, ft_value t' = [Fin q] /\ q == - (8).
Proof.
  exists (e4m3_t 8 (map snd [((9 # 8), Fin 9)])). eexists. split.
  - apply e4m3_quantized. repeat constructor. exists 57%Z, 9. repeat split; try lia. left. vm_compute. reflexivity.
  - split; [reflexivity|]. split; [reflexivity|]. split; [reflexivity|]. split; [vm_compute; reflexivity|].
    split; [reflexivity|]. split; [vm_compute; reflexivity|]. eexists. split; [reflexivity|]. vm_compute. reflexivity.
Qed.

(** [a - a] need not be zero. *)
Theorem C98_sub_refuted :
  exists t, quantized t 4 3 7 /\ ft_signed t = true /\
    exists q, fsub tiny t t = Some (Plain [Fin q]) /\ q == 1.
Proof.
  exists (e4m3_t 8 (map snd [((9 # 8), Fin 9)])). split.
  - apply e4m3_quantized. repeat constructor. exists 57%Z, 9. repeat split; try lia. left. vm_compute. reflexivity.
  - split; [reflexivity|]. eexists. split; [vm_compute; reflexivity|]. vm_compute. reflexivity.
Qed.

(** Tensors in different formats are joined without complaint, under the first one's label,
    when only one of the two widths differs: the second tensor's element is not of the format
    the result claims. *)
Theorem C98_cat_refuted :
  exists a b t', quantized a 5 2 15 /\ quantized b 5 3 15 /\ ft_training a = false /\ ft_training b = false /\
    fcat [QT a; QT b] = Some (QT t') /\ labelled t' 5 2 15 /\ ~ quantized t' 5 2 15.
Proof.
  exists (e5m2_t 1 [Fin 1]), (FQT [Fin (9 # 8)] 1 0 5 3 15 true e5m2_inf e5m2_nan true false). eexists.
  split; [split; [repeat split|repeat constructor; exists 1, 1; repeat split; exists 60%Z; split; [vm_compute; split; congruence|left; vm_compute; reflexivity]]|].
  split; [split; [repeat split|repeat constructor; exists (9 # 8), (9 # 8); repeat split; exists 121%Z; split; [vm_compute; split; congruence|left; vm_compute; reflexivity]]|].
  split; [reflexivity|]. split; [reflexivity|]. split; [vm_compute; reflexivity|].
  split; [repeat split|]. intros [_ H]. cbn [ft_value ft_scale] in H.
  inversion H as [|? ? _ H2]; subst. inversion H2 as [|? ? (r & q & Ev & Eq & Hr) _]; subst.
  injection Ev as <-. destruct (minifloat_grid 5 2 15 r ltac:(lia) Hr) as (k & j & Hk & Hj & E).
  assert (R : r == 9 # 8) by lra. clear Eq Hr H H2. rewrite R in E. clear R r.
  destruct (Z_le_gt_dec 0 j) as [C|C].
  - (* j >= 0: an integer *)
    rewrite <- (inj_pow j C), <- inject_Z_mult in E. unfold Qeq, inject_Z in E. cbn [Qnum Qden] in E. lia.
  - (* 9 = k * 2^(j+3) with |k| < 8 *)
    change (Z.abs k < 8)%Z in Hk.
    assert (B : pow2 j <= pow2 (-1)) by (apply pow2_mono; lia).
    assert (K : Qabs (inject_Z k) <= inject_Z 7) by (change (Qabs (inject_Z k)) with (inject_Z (Z.abs k)); apply injz_le; lia).
    destruct (Z_le_gt_dec j (-4)) as [D|D].
    + pose proof (pow2_mono j (-4) D) as B4. pose proof (pow2_pos j) as PJ.
      assert (A : Qabs (9 # 8) <= inject_Z 7 * pow2 (-4)).
      { rewrite E, Qabs_Qmult, (Qabs_pos (pow2 j)) by lra.
        apply Qle_trans with (inject_Z 7 * pow2 j); [apply Qmult_le_compat_r; [exact K|lra]|].
        rewrite !(Qmult_comm (inject_Z 7)). apply Qmult_le_compat_r; [exact B4|vm_compute; discriminate]. }
      vm_compute in A. apply A. reflexivity.
    + assert (J : j = (-1)%Z \/ j = (-2)%Z \/ j = (-3)%Z) by lia.
      destruct J as [->|[->| ->]]; unfold Qeq, inject_Z in E; vm_compute pow2 in E; cbn in E; lia.
Qed.

(** Likewise when the NaN codes agree and the infinities do not, or when one tensor saturates
    and the other does not. *)
Theorem C98_cat_special_refuted :
  exists a b t', fcat [QT a; QT b] = Some (QT t') /\ ft_training a = false /\ ft_training b = false /\
    ft_inf a = e5m2_inf /\ ft_inf b = Some [] /\ ft_saturating a = true /\ ft_saturating b = false /\
    ft_inf t' = ft_inf a /\ ft_saturating t' = true.
Proof.
  exists (e5m2_t 1 [Fin 1]), (FQT [Fin 1] 1 0 5 2 15 false (Some []) e5m2_nan true false). eexists.
  split; [vm_compute; reflexivity|]. repeat split.
Qed.

(** ** Pass-through activations *)

(** With quantization disabled, a pass-through activation keeps everything but exchanges the
    exponent and mantissa widths. *)
Theorem C98_passthrough training act t :
  exists t', float_act_disabled true training act t = QT t' /\
    ft_value t' = map act (ft_value t) /\ ft_scale t' = ft_scale t /\ ft_zp t' = ft_zp t /\
    ft_bias t' = ft_bias t /\ ft_saturating t' = ft_saturating t /\ ft_inf t' = ft_inf t /\
    ft_nan t' = ft_nan t /\ ft_signed t' = ft_signed t /\ ft_training t' = training /\
    ft_exp t' = ft_man t /\ ft_man t' = ft_exp t.
Proof. eexists. split; [reflexivity|]. repeat split. Qed.

(** Without pass-through the metadata is dropped. *)
Theorem C98_disabled training act t :
  float_act_disabled false training act t = Plain (map act (ft_value t)).
Proof. reflexivity. Qed.

(** So the format of the input is not preserved, even by the identity. *)
Theorem C98_passthrough_refuted :
  exists t t', quantized t 4 3 7 /\ float_act_disabled true false (fun v => v) t = QT t' /\
    labelled t' 3 4 7 /\ ~ quantized t' 4 3 7 /\ ~ quantized t' 3 4 7.
Proof.
  exists (e4m3_t 1 (map snd [((448 # 1), Fin 448)])). eexists. split.
  - apply e4m3_quantized. repeat constructor. exists 126%Z, 448. repeat split; try lia. left. vm_compute. reflexivity.
  - split; [reflexivity|]. split; [repeat split|]. split.
    + intros [(E & _) _]. vm_compute in E. discriminate.
    + intros [_ H]. apply Forall_inv in H. destruct H as (r & q & Ev & Eq & c & Hc & D).
      cbn [e4m3_t ft_value map snd] in Ev. injection Ev as <-. cbn [ft_scale e4m3_t] in Eq.
      assert (B : decode 4 7 c <= 2).
      { unfold decode. change (2 ^ 4)%Z with 16%Z. change (3 + 4)%Z with 7%Z in Hc. change (2 ^ 7)%Z with 128%Z in Hc.
        assert (M : (0 <= c mod 16 < 16)%Z) by (apply Z.mod_pos_bound; lia).
        assert (C : (c / 16 <= 7)%Z) by (apply Z.lt_succ_r, Z.div_lt_upper_bound; lia).
        destruct (c / 16 =? 0)%Z.
        - apply Qle_trans with (inject_Z 15 * pow2 (1 - 7 - 4)); [|vm_compute; discriminate].
          apply Qmult_le_compat_r; [apply injz_le; lia|apply Qlt_le_weak, pow2_pos].
        - apply Qle_trans with (inject_Z 31 * pow2 (7 - 7 - 4)); [|vm_compute; discriminate].
          apply Qle_trans with (inject_Z 31 * pow2 (c / 16 - 7 - 4)).
          + apply Qmult_le_compat_r; [apply injz_le; lia|apply Qlt_le_weak, pow2_pos].
          + rewrite !(Qmult_comm (inject_Z 31)). apply Qmult_le_compat_r; [apply pow2_mono; lia|vm_compute; discriminate]. }
      assert (P : 0 <= decode 4 7 c).
      { unfold decode. change (2 ^ 4)%Z with 16%Z.
        assert (M : (0 <= c mod 16 < 16)%Z) by (apply Z.mod_pos_bound; lia).
        destruct (c / 16 =? 0)%Z; apply Qmult_le_0_compat; try (apply Qlt_le_weak, pow2_pos);
          change 0 with (inject_Z 0); apply injz_le; lia. }
      destruct D as [D|D]; lra.
Qed.

(** * Examples *)

(** E4M3, scale 1/4: elements 9/32 = 1.125/4, -112 = -448/4 and 1/2048 = 2^-9/4. *)
Definition ex_t : fqt := e4m3_t (1 # 4) (map snd [((9 # 8), Fin (9 # 32)); (-448 # 1, Fin (-112)); ((1 # 512), Fin (1 # 2048))]).
Example ex_t_quantized : quantized ex_t 4 3 7 /\ 0 < ft_scale ex_t <= 1 /\ ft_value ex_t <> []
  /\ ft_zp ex_t == 0 /\ ft_signed ex_t = true.
Proof.
  split; [apply e4m3_quantized; repeat constructor|].
  - exists 57%Z, (9 # 32). repeat split; try lia. left. vm_compute. reflexivity.
  - exists 126%Z, (-112). repeat split; try lia. right. vm_compute. reflexivity.
  - exists 1%Z, (1 # 2048). repeat split; try lia. left. vm_compute. reflexivity.
  - repeat split; vm_compute; congruence.
Qed.
Example ex_tiny : 0 < tiny /\ tiny < pow2 (1 - 7 - 3).
Proof. split; vm_compute; reflexivity. Qed.
Example ex_neg : match fneg tiny ex_t with
  | Some t' => Forall2 veq (ft_value t') [Fin (-9 # 32); Fin 112; Fin (-1 # 2048)] | None => False end.
Proof. vm_compute. repeat constructor. Qed.
Example ex_abs : match fabs tiny ex_t with
  | Some t' => Forall2 veq (ft_value t') [Fin (9 # 32); Fin 112; Fin (1 # 2048)] | None => False end.
Proof. vm_compute. repeat constructor. Qed.
(** An infinite element makes the tensor invalid. *)
Example ex_inf : fis_valid tiny (e5m2_t 1 [Fin 1; PInf]) = Some false.
Proof. vm_compute. reflexivity. Qed.
(** Concatenation of two E5M2 tensors; the same with E4M3 raises. *)
Example ex_cat : exists t', fcat [QT (e5m2_t 1 [Fin 1]); QT (e5m2_t 1 [Fin (5 # 4)])] = Some (QT t')
  /\ ft_value t' = [Fin 1; Fin (5 # 4)].
Proof. eexists. split; [vm_compute; reflexivity|reflexivity]. Qed.
Example ex_cat_e4m3 : fcat [QT ex_t; QT ex_t] = None.
Proof. vm_compute. reflexivity. Qed.
Example ex_cat_hyp : (2 <= length [e5m2_t 1 [Fin 1]; e5m2_t 1 [Fin (5 # 4)]])%nat /\
  (forall t, In t [e5m2_t 1 [Fin 1]; e5m2_t 1 [Fin (5 # 4)]] -> same_meta t (e5m2_t 1 []) /\ ft_signed t = ft_signed (e5m2_t 1 [])).
Proof.
  split; [cbn; lia|]. intros t [<-|[<-|[]]]; repeat split.
Qed.
Example ex_add : fadd (e5m2_t 1 [Fin 1; PInf; PInf]) (e5m2_t 1 [Fin (5 # 4); NInf; Fin 2]) = Plain [Fin (9 # 4); NaN; PInf].
Proof. vm_compute. reflexivity. Qed.
(** The scale 3/2 is above the bound of [C98_large_scale] for three mantissa bits, 16/15. *)
Example ex_large : inject_Z (2 ^ (3 + 1)) <= inject_Z (2 ^ (3 + 1) - 1) * (3 # 2).
Proof. vm_compute. discriminate. Qed.
(** A quantizer run: 0.3 and -7 in E4M3 with scale 1/4. *)
Example ex_quantizer : exists vs,
  map (fun x => float_quant e4m3 false tiny x (1 # 4)) [(3 # 10); - (7)] = map Some vs /\
  Forall2 veq vs [Fin (5 # 16); Fin (-7)].
Proof.
  eexists [Fin _; Fin _]. split; [vm_compute; reflexivity|]. vm_compute. repeat constructor.
Qed.

Print Assumptions C98_minifloat.
Print Assumptions C98_quantizer.
Print Assumptions C98_large_scale.
Print Assumptions C98_neg.
Print Assumptions C98_neg_unsigned.
Print Assumptions C98_abs.
Print Assumptions C98_abs_unsigned.
Print Assumptions C98_sub.
Print Assumptions C98_add.
Print Assumptions C98_disabled.
Print Assumptions C98_cat.
Print Assumptions C98_cat_quantized.
Print Assumptions C98_cat_checked.
Print Assumptions C98_cat_no_inf.
Print Assumptions C98_cat_plain.
Print Assumptions C98_scale_refuted.
Print Assumptions C98_neg_refuted.
Print Assumptions C98_sub_refuted.
Print Assumptions C98_cat_refuted.
Print Assumptions C98_cat_special_refuted.
Print Assumptions C98_passthrough.
Print Assumptions C98_passthrough_refuted.
