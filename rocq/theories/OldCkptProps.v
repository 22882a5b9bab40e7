(** C114: loading checkpoints of older versions, or of running statistics. *)
From Coq Require Import Reals Lra Lia List Bool String Ascii.
From Verif Require Import StateDict StateDictProps Runtime RuntimeProps StaticScaling StaticScalingProps OldCkpt.
Import ListNotations.
Open Scope string_scope.

(** ** Statistics become a parameter *)
Lemma get_filter {V} (f : string -> bool) (d : dict V) k : get (filter (fun e => f (fst e)) d) k = if f k then get d k else None.
Proof.
  induction d as [|[a v] d IH]; cbn [filter get fst]; [destruct (f k); reflexivity|].
  destruct (f a) eqn:F; cbn [get fst]; destruct (String.eqb_spec a k) as [->|N]; rewrite ?F; try exact IH; try reflexivity.
  rewrite IH, F. reflexivity.
Qed.

(** The names are written out here as the layers create them. *)
Definition scaling_key (p s : string) : string := p ++ "fused_activation_quant_proxy.tensor_quant.scaling_impl." ++ s.

Theorem C114_statistics_to_parameter : forall r p d,
  get (convert_stats r p d) (scaling_key p "value")
    = match get d (scaling_key p "value"), get d (scaling_key p "runtime_stats.running_stats") with
      | Some v, _ => Some v
      | None, Some s => Some (pre r (Rabs s))
      | None, None => None
      end /\
  (forall s, get (convert_stats r p d) (scaling_key p ("runtime_stats" ++ s)) = None) /\
  (forall k, k <> scaling_key p "value" -> (forall s, k <> scaling_key p ("runtime_stats" ++ s)) ->
     get (convert_stats r p d) k = get d k).
Proof.
  intros r p d. unfold convert_stats. cbv zeta.
  change (p ++ running_stats_postfix) with (scaling_key p "runtime_stats.running_stats").
  change (p ++ scaling_parameter_postfix) with (scaling_key p "value").
  assert (SW : forall k, startswith k (p ++ runtime_stats_postfix) = true <-> exists s, k = scaling_key p ("runtime_stats" ++ s)).
  { intros k. rewrite startswith_iff. split; intros [s ->]; exists s; unfold scaling_key, runtime_stats_postfix; rewrite app_assoc_s; reflexivity. }
  set (d1 := match get d (scaling_key p "runtime_stats.running_stats") with Some s => _ | None => d end).
  split; [|split].
  - rewrite (get_filter (fun k => negb (startswith k (p ++ runtime_stats_postfix)))).
    destruct (startswith (scaling_key p "value") (p ++ runtime_stats_postfix)) eqn:E; cbn [negb].
    + apply SW in E. destruct E as [s E]. unfold scaling_key in E. apply app_inj_l in E. cbn in E. discriminate.
    + unfold d1. destruct (get d (scaling_key p "runtime_stats.running_stats")), (get d (scaling_key p "value")) eqn:G; try rewrite G; try reflexivity.
      apply get_set_same.
  - intros s. rewrite (get_filter (fun k => negb (startswith k (p ++ runtime_stats_postfix)))).
    rewrite (proj2 (SW _) (ex_intro _ s eq_refl)). reflexivity.
  - intros k N1 N2. rewrite (get_filter (fun k => negb (startswith k (p ++ runtime_stats_postfix)))).
    destruct (startswith k (p ++ runtime_stats_postfix)) eqn:E; cbn [negb].
    + apply SW in E. destruct E as [s E]. exfalso. exact (N2 s E).
    + unfold d1. destruct (get d (scaling_key p "runtime_stats.running_stats")), (get d (scaling_key p "value")); try reflexivity.
      apply get_set_other. congruence.
Qed.

(** The old name of the parameter; it wins over the new one. *)
Theorem C114_learned_value : forall p d,
  get (rename_learned p d) (p ++ "value") = match get d (p ++ "learned_value") with Some v => Some v | None => get d (p ++ "value") end /\
  get (rename_learned p d) (p ++ "learned_value") = None /\
  (forall k, k <> p ++ "value" -> k <> p ++ "learned_value" -> get (rename_learned p d) k = get d k).
Proof.
  intros p d. unfold rename_learned, pop. destruct (get d (p ++ "learned_value")) as [v|] eqn:G.
  - split; [apply get_set_same|]. split.
    + rewrite get_set_other by (intros E; apply app_inj_l in E; discriminate). apply get_without_same.
    + intros k N1 N2. rewrite get_set_other, get_without_other by congruence. reflexivity.
  - split; [reflexivity|]. split; [exact G|reflexivity].
Qed.

(** An activation checkpoint of the first versions: every entry under act_quant_proxy. *)
Definition old_key (p s : string) : string := p ++ "act_quant_proxy." ++ "fused_activation_quant_proxy.tensor_quant.scaling_impl." ++ s.
Definition new_key (p s : string) : string := p ++ "act_quant." ++ "fused_activation_quant_proxy.tensor_quant.scaling_impl." ++ s.

Theorem C114_old_activation : forall r p d, NoDup (keys d) ->
  (forall s, In (p ++ "act_quant_proxy" ++ s) (keys d) -> exists s', s = "." ++ s') ->
  (forall s, ~ In (p ++ "act_quant." ++ s) (keys d)) ->
  exists d', act_checkpoint r p d = Some d' /\
  get d' (new_key p "value") =
    match get d (old_key p "learned_value"), get d (old_key p "value"), get d (old_key p "runtime_stats.running_stats") with
    | Some v, _, _ => Some v
    | None, Some v, _ => Some v
    | None, None, Some s => Some (pre r (Rabs s))
    | None, None, None => None
    end.
Proof.
  intros r p d ND H1 H2.
  assert (X : forall s, In ((p ++ "act_quant_proxy") ++ s) (keys d) -> In ((p ++ "act_quant") ++ s) (keys d) -> p ++ "act_quant_proxy" = p ++ "act_quant").
  { intros s K1 K2. rewrite app_assoc_s in K1, K2. destruct (H1 s K1) as [s' ->]. exfalso. exact (H2 s' K2). }
  destruct (C50_prefix R d _ _ ND X) as (d1 & E & A & B & C). unfold act_checkpoint. rewrite E. eexists. split; [reflexivity|].
  assert (G : forall s, get d1 (p ++ "act_quant." ++ s) = get d (p ++ "act_quant_proxy." ++ s)).
  { intros s. destruct (get d (p ++ "act_quant_proxy." ++ s)) as [v|] eqn:F.
    - specialize (A ("." ++ s)). rewrite !app_assoc_s in A. cbn [append] in A, F |- *. rewrite A; [exact F|]. apply get_in. congruence.
    - destruct (get d1 (p ++ "act_quant." ++ s)) as [v|] eqn:F1; [exfalso|reflexivity].
      rewrite B in F1.
      + apply (H2 s). apply get_in. congruence.
      + intros t K. rewrite app_assoc_s in K. apply app_inj_l in K. cbn in K. discriminate.
      + intros t I K. rewrite app_assoc_s in K. apply app_inj_l in K. cbn in K. injection K as K. subst t.
        rewrite app_assoc_s in I. cbn [append] in I, F. apply get_in in I. contradiction. }
  set (q := p ++ "act_quant.") in *. set (sc := "fused_activation_quant_proxy.tensor_quant.scaling_impl.").
  replace (p ++ "act_quant." ++ scaling_impl_postfix ++ ".") with (q ++ sc) by (unfold q; rewrite app_assoc_s; reflexivity).
  assert (N : forall u, new_key p u = (q ++ sc) ++ u) by (intros u; unfold new_key, q, sc; rewrite !app_assoc_s; reflexivity).
  assert (Q : forall u, scaling_key q u = (q ++ sc) ++ u) by (intros u; unfold scaling_key, sc; rewrite !app_assoc_s; reflexivity).
  assert (G' : forall u, get d1 (scaling_key q u) = get d (old_key p u)).
  { intros u. rewrite Q, <- N. unfold new_key, old_key. apply G. }
  rewrite N. destruct (C114_learned_value (q ++ sc) (convert_stats r q d1)) as (L & _). rewrite L. clear L.
  destruct (C114_statistics_to_parameter r q d1) as (S1 & _ & S3).
  rewrite <- (Q "learned_value"), S3, G'.
  - rewrite <- (Q "value"), S1, !G'. destruct (get d (old_key p "learned_value")); [reflexivity|].
    destruct (get d (old_key p "value")); reflexivity.
  - rewrite !Q. intros K. apply app_inj_l in K. discriminate.
  - intros u K. rewrite !Q in K. apply app_inj_l in K. discriminate.
Qed.

(** With entries of both kinds the older one silently wins. *)
Theorem C114_mixed_refuted : exists d v w, v <> w /\ NoDup (keys d) /\
  get d (scaling_key "act_quant." "value") = Some v /\
  get (rename_learned (scaling_key "act_quant." "") d) (scaling_key "act_quant." "value") = Some w.
Proof.
  exists [(scaling_key "act_quant." "value", 1%R); (scaling_key "act_quant." "learned_value", 2%R)], 1%R, 2%R.
  split; [lra|]. split; [|split; reflexivity].
  constructor; [|constructor; [intros []|constructor]]. intros [H|[]]. discriminate.
Qed.

(** ** The scale is the same *)
Open Scope R_scope.

Lemma restrict_nonneg r a t : 0 < a -> 0 < t -> 0 <= restrict_fwd r (combine_thr r (pre r a) (pre r t)).
Proof.
  intros Ha Ht. rewrite <- pre_div by assumption. assert (P : 0 < a / t) by (apply Rdiv_lt_0_compat; assumption).
  destruct r; cbn [restrict_fwd pre].
  - lra.
  - left. apply exp2_pos.
  - apply IZR_le. apply roundR_ge. lra.
  - left. apply exp2_pos.
Qed.
Lemma clamp_nonneg mv x : 0 <= x -> 0 <= clamp_value mv x.
Proof. intros H. unfold clamp_value. destruct mv as [lo|]; [destruct (Rlt_dec x lo); lra|exact H]. Qed.

(** A quantizer with a parameter initialised from statistics, given a checkpoint of running
    statistics, uses the scale that the statistics gave, under every restriction and minimum. *)
Theorem C114_same_scale : forall c st p d s t, 0 < s -> 0 < t ->
  get d (scaling_key p "value") = None -> get d (scaling_key p "runtime_stats.running_stats") = Some s ->
  ps_eval c (ps_load c st (get (convert_stats (p_restrict c) p d) (scaling_key p "value"))) t
  = stats_scale (p_restrict c) (p_min c) None s t.
Proof.
  intros c st p d s t Hs Ht G1 G2. destruct (C114_statistics_to_parameter (p_restrict c) p d) as (E & _). rewrite E, G1, G2.
  cbn [ps_load]. unfold ps_eval. cbn [ps_counter ps_value]. rewrite (proj2 (Nat.leb_gt (S (p_steps c)) (p_steps c))) by lia.
  unfold learned_scale, stats_scale, restrict_clamp_scaling. cbv zeta. rewrite (Rabs_pos_eq s) by lra.
  apply Rabs_pos_eq. apply clamp_nonneg, restrict_nonneg; assumption.
Qed.

Lemma round_shift x k : (forall j, x <> IZR j + 1 / 2) -> Runtime.roundR (x - IZR k) = (Runtime.roundR x - k)%Z.
Proof.
  intros H. apply roundR_unique. rewrite minus_IZR. pose proof (roundR_near x) as N. set (n := Runtime.roundR x) in *. clearbody n.
  replace (IZR n - IZR k - (x - IZR k)) with (IZR n - x) by ring.
  destruct N as [N|N]; [exact N|exfalso]. unfold Rabs in N. destruct (Rcase_abs (IZR n - x)).
  - apply (H n). lra.
  - apply (H (n - 1)%Z). rewrite minus_IZR. lra.
Qed.

(** A ParameterScaling without minimum does so too, if with the power-of-two restriction the
    threshold is a power of two (and the statistic not the square root of an odd power of two,
    which no float is). *)
Definition keeps_scale (r : restrict) (s t : R) : Prop :=
  match r with
  | RFloat | RLogFloat => True
  | RInt => False
  | RPowerOfTwo => (exists k, t = powerRZ 2 k) /\ forall j, s * s <> powerRZ 2 (2 * j + 1)
  end.
Theorem C114_same_scale_parameter : forall r p d s t, 0 < s -> 0 < t -> keeps_scale r s t ->
  get d (scaling_key p "value") = None -> get d (scaling_key p "runtime_stats.running_stats") = Some s ->
  exists v, get (convert_stats r p d) (scaling_key p "value") = Some v /\
  param_scaling r None v (Some t) = stats_scale r None None s t.
Proof.
  intros r p d s t Hs Ht K G1 G2. destruct (C114_statistics_to_parameter r p d) as (E & _). rewrite E, G1, G2.
  eexists. split; [reflexivity|]. unfold param_scaling, stats_scale, restrict_clamp_scaling, clamp_value. cbv zeta.
  rewrite (Rabs_pos_eq s) by lra. destruct r; cbn [pre restrict_fwd combine_thr keeps_scale] in *.
  - rewrite Rabs_pos_eq by lra. reflexivity.
  - rewrite exp2_sub, !exp2_log2 by assumption. rewrite Rabs_pos_eq by lra. reflexivity.
  - contradiction.
  - destruct K as [[k ->] K]. rewrite log2_pow, roundR_IZR. rewrite round_shift.
    + rewrite minus_IZR, exp2_sub. rewrite Rabs_pos_eq by (left; apply exp2_pos). reflexivity.
    + intros j Ej. apply (K j). rewrite <- (exp2_log2 s Hs) at 1 2. rewrite Ej, <- exp2_add, <- exp2_IZR. f_equal.
      rewrite plus_IZR, mult_IZR. lra.
Qed.

(** With another threshold (here 3, the largest two-bit unsigned integer) the power-of-two scale
    changes. *)
Theorem C114_same_scale_refuted : exists s t, 0 < s /\ 0 < t /\
  stats_scale RPowerOfTwo None None s t = 1 / 2 /\
  exists v, get (convert_stats RPowerOfTwo "" [(scaling_key "" "runtime_stats.running_stats", s)]) (scaling_key "" "value") = Some v /\
  param_scaling RPowerOfTwo None v (Some t) = 1 / 4.
Proof.
  exists (5 / 4), 3. split; [lra|]. split; [lra|].
  assert (R1 : Runtime.roundR (log2R (5 / 4)) = 0%Z) by (apply round_log2_example; [lra|]; pz; lra).
  assert (R2 : Runtime.roundR (log2R 3) = 2%Z) by (apply round_log2_example; [lra|]; pz; lra).
  assert (R3 : Runtime.roundR (log2R (5 / 4 / 3)) = (-1)%Z) by (apply round_log2_example; [lra|]; pz; lra).
  split.
  - unfold stats_scale, restrict_clamp_scaling, clamp_value. cbn [pre combine_thr restrict_fwd].
    rewrite <- log2R_div by lra. rewrite R3, exp2_IZR, pm1. reflexivity.
  - eexists. split; [reflexivity|]. unfold param_scaling, restrict_clamp_scaling, clamp_value. cbn [pre restrict_fwd].
    rewrite (Rabs_pos_eq (5 / 4)) by lra. rewrite R1, R2, !exp2_IZR, p0. rewrite Rabs_pos_eq by lra. pz. lra.
Qed.

(** With a minimum, the scale can change and end below the minimum. *)
Theorem C114_minimum_refuted : exists m s t, 0 < m /\ 0 < s /\ 0 < t /\
  stats_scale RFloat (Some m) None s t = m /\
  exists v, get (convert_stats RFloat "" [(scaling_key "" "runtime_stats.running_stats", s)]) (scaling_key "" "value") = Some v /\
  param_scaling RFloat (Some m) v (Some t) < m.
Proof.
  exists (1 / 64), 1, 128. split; [lra|]. split; [lra|]. split; [lra|].
  split.
  - unfold stats_scale, restrict_clamp_scaling, clamp_value. cbn [pre combine_thr restrict_fwd].
    destruct (Rlt_dec (1 / 128) (1 / 64)); lra.
  - eexists. split; [reflexivity|]. unfold param_scaling, restrict_clamp_scaling, clamp_value. cbn [pre restrict_fwd].
    rewrite (Rabs_pos_eq 1) by lra. destruct (Rlt_dec 128 (1 / 64)); [lra|]. destruct (Rlt_dec 1 (1 / 64)); [lra|].
    rewrite Rabs_pos_eq by lra. lra.
Qed.

(** An affine rescaling of the statistics is not carried over; its entries stay in the checkpoint
    and are unexpected. *)
Theorem C114_affine_refuted : forall w s t d p, 0 <= w -> w <> 1 -> 0 < s -> 0 < t ->
  get d (scaling_key p "value") = None -> get d (scaling_key p "runtime_stats.running_stats") = Some s ->
  (exists v, get (convert_stats RFloat p d) (scaling_key p "value") = Some v /\
     param_scaling RFloat None v (Some t) <> stats_scale RFloat None (Some (w, 0)) s t) /\
  get (convert_stats RFloat p d) (scaling_key p "stats_scaling_impl.affine_rescaling.affine_weight")
    = get d (scaling_key p "stats_scaling_impl.affine_rescaling.affine_weight").
Proof.
  intros w s t d p Hw Nw Hs Ht G1 G2. destruct (C114_statistics_to_parameter RFloat p d) as (E & _ & O). split.
  - rewrite E, G1, G2. eexists. split; [reflexivity|].
    unfold param_scaling, stats_scale, restrict_clamp_scaling, clamp_value. cbn [pre restrict_fwd combine_thr].
    rewrite (Rabs_pos_eq s) by lra. rewrite (Rabs_pos_eq s) by lra.
    assert (P : 0 < s / t) by (apply Rdiv_lt_0_compat; assumption). set (x := s / t) in *. clearbody x.
    rewrite Rabs_pos_eq by nra. intros C. apply Nw. nra.
  - apply O; unfold scaling_key.
    + intros K. apply app_inj_l in K. discriminate.
    + intros u K. apply app_inj_l in K. discriminate.
Qed.

(** ** Bit widths *)
Theorem C114_bit_width : forall p d m init,
  (** a stored constant, not below the minimum *)
  (forall b, get d (p ++ "bit_width")%string = Some (IZR b) -> get d (p ++ "bit_width_offset")%string = None -> (m <= b)%Z ->
     exists o, loaded_offset false (pre RInt (IZR m)) p init d = Some o /\ learned_bit_width RInt (IZR m) o = IZR b) /\
  (** a stored offset *)
  (forall o, get d (p ++ "bit_width")%string = None -> get d (p ++ "bit_width_offset")%string = Some o ->
     loaded_offset false (pre RInt (IZR m)) p init d = Some o) /\
  (** override_pretrained_bit_width keeps the initial one; both entries raise *)
  (forall o, loaded_offset true (pre RInt (IZR m)) p init d = Some o -> o = init) /\
  (forall ov, loaded_offset ov (pre RInt (IZR m)) p init d = None <->
     get d (p ++ "bit_width")%string <> None /\ get d (p ++ "bit_width_offset")%string <> None).
Proof.
  intros p d m init. unfold loaded_offset, load_bit_width. cbv zeta.
  assert (Ne : (p ++ "bit_width")%string <> (p ++ "bit_width_offset")%string) by (intros K; apply app_inj_l in K; discriminate).
  split; [|split; [|split]].
  - intros b G1 G2 L. rewrite G1, G2. eexists. rewrite get_without_other, get_set_same by exact Ne. split; [reflexivity|].
    unfold learned_bit_width. cbn [pre restrict_fwd]. rewrite <- minus_IZR. rewrite Rabs_pos_eq by (apply IZR_le; lia).
    rewrite <- plus_IZR, roundR_IZR. f_equal. lia.
  - intros o G1 G2. rewrite G1, G2. reflexivity.
  - intros o E. destruct (get d (p ++ "bit_width")%string); [destruct (get d (p ++ "bit_width_offset")%string); [discriminate|]|];
      rewrite get_without_same in E; congruence.
  - intros ov. destruct (get d (p ++ "bit_width")%string); [destruct (get d (p ++ "bit_width_offset")%string)|].
    + split; [intros _; split; discriminate|reflexivity].
    + split; [discriminate|]. intros [_ K]. contradiction.
    + split; [discriminate|]. intros [K _]. contradiction.
Qed.

(** The constant entry is consumed, the offset is with override; no other entry changes. *)
Theorem C114_bit_width_entries : forall ov base p d d', load_bit_width ov base p d = Some d' ->
  get d' (p ++ "bit_width")%string = None /\ (ov = true -> get d' (p ++ "bit_width_offset")%string = None) /\
  forall k, k <> (p ++ "bit_width")%string -> k <> (p ++ "bit_width_offset")%string -> get d' k = get d k.
Proof.
  intros ov base p d d' E. unfold load_bit_width in E. cbv zeta in E.
  assert (Ne : (p ++ "bit_width_offset")%string <> (p ++ "bit_width")%string) by (intros K; apply app_inj_l in K; discriminate).
  set (kc := (p ++ "bit_width")%string) in *. set (ko := (p ++ "bit_width_offset")%string) in *. clearbody kc ko.
  assert (G : exists d0, get d0 kc = None /\ (forall k, k <> kc -> k <> ko -> get d0 k = get d k) /\ Some (if ov then without d0 ko else d0) = Some d').
  { destruct (get d kc) as [b|] eqn:G1.
    - destruct (get d ko); [discriminate|]. eexists. split; [|split; [|exact E]]; [apply get_without_same|].
      intros k N1 N2. rewrite get_without_other, get_set_other by congruence. reflexivity.
    - exists d. split; [exact G1|]. split; [reflexivity|exact E]. }
  destruct G as (d0 & G1 & G2 & G3). injection G3 as <-. destruct ov.
  - split; [rewrite get_without_other by congruence; exact G1|]. split; [intros _; apply get_without_same|].
    intros k N1 N2. rewrite get_without_other by congruence. apply G2; assumption.
  - split; [exact G1|]. split; [discriminate|exact G2].
Qed.

(** A constant below the minimum is reflected to above it; with a power-of-two restriction the
    constant is taken for a logarithm. *)
Theorem C114_bit_width_refuted :
  (forall p d m b init, get d (p ++ "bit_width")%string = Some (IZR b) -> get d (p ++ "bit_width_offset")%string = None -> (b < m)%Z ->
     exists o, loaded_offset false (pre RInt (IZR m)) p init d = Some o /\ learned_bit_width RInt (IZR m) o = IZR (2 * m - b)) /\
  exists o, loaded_offset false (pre RPowerOfTwo 2) "" 0 [("bit_width"%string, 8)] = Some o /\ learned_bit_width RPowerOfTwo 2 o = 256.
Proof.
  split.
  - intros p d m b init G1 G2 L. unfold loaded_offset, load_bit_width. cbv zeta. rewrite G1, G2. eexists.
    rewrite get_without_other by (intros K; apply app_inj_l in K; discriminate). rewrite get_set_same. split; [reflexivity|].
    unfold learned_bit_width. cbn [pre restrict_fwd]. rewrite <- minus_IZR. rewrite <- abs_IZR, <- plus_IZR, roundR_IZR. f_equal. lia.
  - exists (8 - log2R 2). split; [reflexivity|]. unfold learned_bit_width. cbn [pre restrict_fwd].
    assert (L2 : log2R 2 = 1) by (rewrite <- (log2_pow 1); f_equal; pz; lra).
    rewrite L2, Rabs_pos_eq by lra. replace (8 - 1 + 1) with (IZR 8) by lra. rewrite roundR_IZR, exp2_IZR. pz. lra.
Qed.

(** ** The old entry zero_hw_sentinel *)
Open Scope string_scope.
Lemma mem_iff k l : mem k l = true <-> In k l.
Proof.
  unfold mem. rewrite existsb_exists. split.
  - intros (x & I & E). apply String.eqb_eq in E. subst. exact I.
  - intros I. exists k. split; [exact I|apply String.eqb_refl].
Qed.
Definition drop_key (k : string) (l : list string) : list string := filter (fun x => negb (String.eqb x k)) l.
Lemma drop_absent k l : ~ In k l -> drop_key k l = l.
Proof.
  induction l as [|x l IH]; intros N; cbn; [reflexivity|]. destruct (String.eqb_spec x k) as [->|E]; cbn.
  - exfalso. apply N. left. reflexivity.
  - fold (drop_key k l). rewrite IH; [reflexivity|]. intros I. apply N. right. exact I.
Qed.
Lemma remove_first_ok k l : NoDup l -> In k l -> remove_first k l = Some (drop_key k l).
Proof.
  induction l as [|x l IH]; intros ND I; [destruct I|]. inversion_clear ND as [|? ? N1 N2]. cbn.
  destruct (String.eqb_spec x k) as [->|E]; cbn.
  - fold (drop_key k l). rewrite drop_absent by exact N1. reflexivity.
  - fold (drop_key k l). destruct I as [I|I]; [contradiction|]. rewrite (IH N2 I). reflexivity.
Qed.
Lemma remove_absent k l : ~ In k l -> remove_first k l = None.
Proof.
  induction l as [|x l IH]; intros N; cbn; [reflexivity|]. destruct (String.eqb_spec x k) as [->|E].
  - exfalso. apply N. left. reflexivity.
  - rewrite IH; [reflexivity|]. intros I. apply N. right. exact I.
Qed.
Lemma remove_if k l : NoDup l -> (if mem k l then remove_first k l else Some l) = Some (drop_key k l).
Proof.
  intros ND. destruct (mem k l) eqn:M.
  - apply remove_first_ok; [exact ND|]. apply mem_iff. exact M.
  - rewrite drop_absent; [reflexivity|]. intros I. apply mem_iff in I. congruence.
Qed.
Lemma drop_nodup k l : NoDup l -> NoDup (drop_key k l).
Proof. apply NoDup_filter. Qed.
Lemma drop_in k l x : In x (drop_key k l) <-> In x l /\ x <> k.
Proof.
  unfold drop_key. rewrite filter_In, negb_true_iff. split; intros [A B]; split; try exact A.
  - apply String.eqb_neq. exact B.
  - apply String.eqb_neq. exact B.
Qed.

(** The sentinel of a quantizer is accepted, and only that. *)
Theorem C114_sentinel : forall p l, NoDup l ->
  exists l', proxy_unexpected p l = Some l' /\ forall k, In k l' <-> In k l /\ k <> p ++ "zero_hw_sentinel".
Proof.
  intros p l ND. unfold proxy_unexpected. cbv zeta. rewrite remove_if by exact ND. eexists. split; [reflexivity|].
  intros k. apply drop_in.
Qed.

(** A path of module names. *)
Definition no_dot (s : string) : Prop := forall a b, s <> a ++ "." ++ b.
Lemma no_dot_cons c s : no_dot (String c s) -> c <> "."%char /\ no_dot s.
Proof.
  intros H. split.
  - intros ->. apply (H "" s). reflexivity.
  - intros a b ->. apply (H (String c a) b). reflexivity.
Qed.
Lemma split_app x s : no_dot x -> split_dot (x ++ "." ++ s) = x :: split_dot s.
Proof.
  induction x as [|c x IH]; intros H; [reflexivity|]. apply no_dot_cons in H. destruct H as [C H].
  change (String c x ++ "." ++ s) with (String c (x ++ "." ++ s)). cbn [split_dot].
  rewrite (proj2 (Ascii.eqb_neq c ".") C). rewrite IH by exact H. reflexivity.
Qed.
Lemma split_join l : l <> [] -> Forall no_dot l -> split_dot (join_dot l ++ ".") = (l ++ [""])%list.
Proof.
  induction l as [|x l IH]; intros N F; [contradiction|]. inversion_clear F as [|? ? F1 F2]. destruct l as [|y l].
  - cbn [join_dot]. change "." with ("." ++ ""). rewrite split_app by exact F1. reflexivity.
  - change (join_dot (x :: y :: l)) with (x ++ "." ++ join_dot (y :: l)). rewrite !app_assoc_s, split_app by exact F1.
    rewrite IH by (congruence || exact F2). reflexivity.
Qed.
Lemma join_app a b : a <> [] -> b <> [] -> join_dot (a ++ b)%list = join_dot a ++ "." ++ join_dot b.
Proof.
  induction a as [|x a IH]; intros Na Nb; [contradiction|]. destruct a as [|y a].
  - cbn [List.app]. destruct b as [|z b]; [contradiction|]. reflexivity.
  - change (join_dot ((x :: y :: a) ++ b)%list) with (x ++ "." ++ join_dot ((y :: a) ++ b)%list).
    rewrite IH by congruence. change (join_dot (x :: y :: a)) with (x ++ "." ++ join_dot (y :: a)). rewrite !app_assoc_s. reflexivity.
Qed.

(** The truncation quantizer of a layer inside of a model also accepts the sentinel under its
    former name. *)
Theorem C114_trunc_sentinel : forall names l, names <> [] -> Forall no_dot names -> NoDup l -> ~ In "zero_hw_sentinel" l ->
  exists l', trunc_unexpected (join_dot (names ++ ["trunc_quant"])%list ++ ".") l = Some l' /\
  forall k, In k l' <-> In k l /\ k <> join_dot (names ++ ["trunc_quant"; "zero_hw_sentinel"])%list
                             /\ k <> join_dot (names ++ ["accumulator_quant"; "zero_hw_sentinel"])%list.
Proof.
  intros names l Nn F ND Nz. set (prefix := join_dot (names ++ ["trunc_quant"])%list ++ ".").
  assert (Ep : prefix ++ zhs = join_dot (names ++ ["trunc_quant"; "zero_hw_sentinel"])%list).
  { unfold prefix. rewrite !join_app by congruence. rewrite !app_assoc_s. reflexivity. }
  assert (Eo : join_dot (but_last2 (split_dot prefix)) ++ ".accumulator_quant." ++ zhs
               = join_dot (names ++ ["accumulator_quant"; "zero_hw_sentinel"])%list).
  { unfold prefix. rewrite split_join.
    - unfold but_last2. rewrite removelast_last, removelast_last. rewrite join_app by congruence. reflexivity.
    - intros E. apply app_eq_nil in E. destruct E. congruence.
    - apply Forall_app. split; [exact F|]. constructor; [|constructor]. intros a b E.
      repeat (destruct a as [|? a]; cbn in E; [discriminate|injection E as _ E]). destruct a; discriminate. }
  unfold trunc_unexpected, proxy_unexpected. cbv zeta. rewrite remove_if by exact ND. rewrite Eo, Ep.
  assert (M : mem zhs (drop_key (join_dot (names ++ ["trunc_quant"; "zero_hw_sentinel"])%list) l) = false).
  { destruct (mem zhs _) eqn:M; [|reflexivity]. apply mem_iff, drop_in in M. destruct M as [M _]. contradiction. }
  rewrite M, remove_if by (apply drop_nodup; exact ND). eexists. split; [reflexivity|].
  intros k. rewrite drop_in, drop_in. tauto.
Qed.

(** Used on its own, the layer does not recognise the former name; and an unexpected top-level
    entry called zero_hw_sentinel raises a ValueError in every truncation quantizer. *)
Theorem C114_trunc_sentinel_refuted :
  trunc_unexpected "trunc_quant." ["accumulator_quant.zero_hw_sentinel"] = Some ["accumulator_quant.zero_hw_sentinel"] /\
  forall prefix l, prefix <> "" -> NoDup l -> In "zero_hw_sentinel" l -> trunc_unexpected prefix l = None.
Proof.
  split; [reflexivity|]. intros prefix l Np ND I. unfold trunc_unexpected, proxy_unexpected. cbv zeta.
  rewrite remove_if by exact ND.
  assert (Nk : zhs <> prefix ++ zhs).
  { intros E. apply (f_equal length) in E. rewrite app_length in E. destruct prefix; [contradiction|]. cbn [length] in E. lia. }
  assert (M : mem zhs (drop_key (prefix ++ zhs) l) = true) by (apply mem_iff, drop_in; split; assumption).
  rewrite M. rewrite remove_absent; [reflexivity|]. intros K. apply drop_in in K. destruct K as [_ K]. congruence.
Qed.

Example C114_nontrivial :
  (exists d', act_checkpoint RFloat "conv1." [("conv1.act_quant_proxy.fused_activation_quant_proxy.tensor_quant.scaling_impl.runtime_stats.running_stats", 3%R); ("conv1.weight", 4%R)] = Some d'
     /\ get d' "conv1.act_quant.fused_activation_quant_proxy.tensor_quant.scaling_impl.value" = Some (Rabs 3) /\ List.length d' = 2%nat) /\
  trunc_unexpected "net.pool.trunc_quant." ["x"; "net.pool.accumulator_quant.zero_hw_sentinel"; "net.pool.trunc_quant.zero_hw_sentinel"] = Some ["x"] /\
  keeps_scale RPowerOfTwo 3 128.
Proof.
  split; [eexists; split; [reflexivity|split; reflexivity]|]. split; [reflexivity|]. split.
  - exists 7%Z. pz. lra.
  - intros j E. assert (L1 : (2 * j + 1 <= 3 \/ 4 <= 2 * j + 1)%Z) by lia. destruct L1 as [L1|L1].
    + assert (B : (powerRZ 2 (2 * j + 1) <= powerRZ 2 3)%R).
      { rewrite <- !exp2_IZR. apply exp2_le, IZR_le. exact L1. }
      revert B. pz. lra.
    + assert (B : (powerRZ 2 4 <= powerRZ 2 (2 * j + 1))%R).
      { rewrite <- !exp2_IZR. apply exp2_le, IZR_le. exact L1. }
      revert B. pz. lra.
Qed.

Print Assumptions C114_statistics_to_parameter.
Print Assumptions C114_learned_value.
Print Assumptions C114_old_activation.
Print Assumptions C114_mixed_refuted.
Print Assumptions C114_same_scale.
Print Assumptions C114_same_scale_parameter.
Print Assumptions C114_same_scale_refuted.
Print Assumptions C114_minimum_refuted.
Print Assumptions C114_affine_refuted.
Print Assumptions C114_bit_width.
Print Assumptions C114_bit_width_entries.
Print Assumptions C114_bit_width_refuted.
Print Assumptions C114_sentinel.
Print Assumptions C114_trunc_sentinel.
Print Assumptions C114_trunc_sentinel_refuted.
