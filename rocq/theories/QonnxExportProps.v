(** C101: the nodes of a QONNX export compute what the quantizers compute. *)
From Coq Require Import Ascii String Qminmax.
From Verif Require Import QUtil Ops OpsProofs IntQuant IntQuantProofs IntQuantProps BinaryTernary
  BinaryTernaryProps Log2Q Trunc QonnxExport.
Open Scope Q_scope.

(** * Specification: what the nodes mean *)

(** The rounding attribute, whatever its case. *)
Inductive rounds (mode : string) (q : Q) (k : Z) : Prop :=
  | rounds_even : lower mode = "round"%string ->
      Qabs (inject_Z k - q) <= 1 # 2 -> (Qabs (inject_Z k - q) == 1 # 2 -> Z.even k = true) -> rounds mode q k
  | rounds_floor : lower mode = "floor"%string -> inject_Z k <= q < inject_Z k + 1 -> rounds mode q k
  | rounds_ceil : lower mode = "ceil"%string -> inject_Z k - 1 < q <= inject_Z k -> rounds mode q k
  | rounds_to_zero : lower mode = "round_to_zero"%string ->
      Qabs (inject_Z k) <= Qabs q < Qabs (inject_Z k) + 1 -> 0 <= inject_Z k * q -> rounds mode q k
  | rounds_dpu : lower mode = "dpu"%string ->
      Qabs (inject_Z k - q) <= 1 # 2 ->
      (0 <= q -> Qabs (inject_Z k - q) == 1 # 2 -> Z.even k = true) ->
      (q < 0 -> ~ q - inject_Z k == 1 # 2) -> rounds mode q k.

(** Integer range of a node. *)
Definition node_lo (signed narrow : bool) (b : Z) : Z :=
  if signed then if narrow then (1 - 2 ^ (b - 1))%Z else (- 2 ^ (b - 1))%Z else 0%Z.
Definition node_hi (signed narrow : bool) (b : Z) : Z :=
  if signed then (2 ^ (b - 1) - 1)%Z else if narrow then (2 ^ b - 2)%Z else (2 ^ b - 1)%Z.

(** Quant clips, rounds and rescales; BipolarQuant is the scaled sign; Trunc drops the least
    significant bits. *)
Definition node_out (n : node) (x y : Q) : Prop :=
  match n with
  | NQuant s zp b mode sg nr =>
      exists k, rounds mode (Qmin (Qmax (x / s + zp) (inject_Z (node_lo sg nr b))) (inject_Z (node_hi sg nr b))) k
                /\ y == (inject_Z k - zp) * s
  | NBipolar s => (0 <= x -> y == s) /\ (x < 0 -> y == - s)
  | NTrunc s zp bi bo mode =>
      exists r k, rounds "ROUND" (x / s + zp) r /\ rounds mode (inject_Z r / Qpower 2 (bi - bo)) k
                  /\ y == (inject_Z k - zp) * s
  end.

(** [e] exports the quantizer that maps [x] to [q]: same parameters, the traced values are the
    quantized ones, and so is what the node computes from [inp]. *)
Definition exports (e : option exported) (inp : list Q) (q : quant_out) : Prop :=
  let '(v, s, z, b) := q in
  exists y n, e = Some (y, n, VQ s, VQ z, VZ b) /\ Forall2 Qeq y v /\ Forall2 (node_out n) inp v.

(** The output of a node is determined. *)
Lemma even_tie (a b : Z) (q : Q) :
  Qabs (inject_Z a - q) <= 1 # 2 -> Qabs (inject_Z b - q) <= 1 # 2 -> (a < b)%Z ->
  b = (a + 1)%Z /\ Qabs (inject_Z a - q) == 1 # 2 /\ Qabs (inject_Z b - q) == 1 # 2 /\ q == inject_Z a + (1 # 2).
Proof.
  intros A B L. apply Qabs_Qle_condition in A. apply Qabs_Qle_condition in B.
  assert (E : b = (a + 1)%Z).
  { assert (inject_Z b - inject_Z a <= 1) by lra.
    assert (b - a <= 1)%Z; [|lia]. rewrite Zle_Qle. unfold Z.sub. rewrite inject_Z_plus, inject_Z_opp.
    change (inject_Z 1) with 1. lra. }
  subst b. rewrite inject_Z_plus in *. change (inject_Z 1) with 1 in *.
  assert (Q : q == inject_Z a + (1 # 2)) by lra.
  split; [reflexivity|]. split; [|split; [|exact Q]].
  - rewrite Qabs_neg; lra.
  - rewrite Qabs_pos; lra.
Qed.

Lemma rounds_unique mode q k k' : rounds mode q k -> rounds mode q k' -> k = k'.
Proof.
  assert (G : forall a b, rounds mode q a -> rounds mode q b -> ~ (a < b)%Z).
  { intros a b A B L. assert (LQ : inject_Z a + 1 <= inject_Z b).
    { change 1 with (inject_Z 1). rewrite <- inject_Z_plus, <- Zle_Qle. lia. }
    destruct A as [MA A1 A2|MA A1|MA A1|MA A1 A2|MA A1 A2 A3], B as [MB B1 B2|MB B1|MB B1|MB B1 B2|MB B1 B2 B3];
      rewrite MA in MB; try discriminate MB.
    - destruct (even_tie a b q A1 B1 L) as (-> & E1 & E2 & _).
      specialize (A2 E1). specialize (B2 E2). rewrite Z.even_add in B2. rewrite A2 in B2. discriminate B2.
    - lra.
    - lra.
    - destruct (Qlt_le_dec q 0) as [N|P].
      + assert (inject_Z b <= 0) by (destruct (Qlt_le_dec 0 (inject_Z b)); [nra|lra]).
        assert (inject_Z a <= 0) by lra.
        rewrite (Qabs_neg (inject_Z a)), (Qabs_neg q) in A1 by lra. rewrite (Qabs_neg (inject_Z b)), (Qabs_neg q) in B1 by lra. lra.
      + assert (AN : 0 <= inject_Z a).
        { destruct (Qlt_le_dec (inject_Z a) 0) as [C|C]; [|exact C]. exfalso.
          assert (q == 0) by nra. rewrite (Qabs_neg (inject_Z a)), (Qabs_pos q) in A1 by lra.
          lra. }
        assert (BN : 0 <= inject_Z b) by lra.
        rewrite (Qabs_pos (inject_Z a)), (Qabs_pos q) in A1 by lra. rewrite (Qabs_pos (inject_Z b)), (Qabs_pos q) in B1 by lra. lra.
    - destruct (even_tie a b q A1 B1 L) as (-> & E1 & E2 & E).
      destruct (Qlt_le_dec q 0) as [N|P].
      + apply (A3 N). lra.
      + specialize (A2 P E1). specialize (B2 P E2). rewrite Z.even_add in B2. rewrite A2 in B2. discriminate B2. }
  intros A B. pose proof (G _ _ A B). pose proof (G _ _ B A). lia.
Qed.

Lemma rounds_proper mode q q' k : q == q' -> rounds mode q k -> rounds mode q' k.
Proof.
  intros E [M A1 A2|M A1|M A1|M A1 A2|M A1 A2 A3].
  - apply rounds_even; [exact M| |]; rewrite <- E; assumption.
  - apply rounds_floor; [exact M|]; rewrite <- E; assumption.
  - apply rounds_ceil; [exact M|]; rewrite <- E; assumption.
  - apply rounds_to_zero; [exact M| |]; rewrite <- E; assumption.
  - apply rounds_dpu; [exact M| | |]; rewrite <- E; assumption.
Qed.

Theorem C101_node_determined : forall n x y y', node_out n x y -> node_out n x y' -> y == y'.
Proof.
  intros [s zp b mode sg nr|s|s zp bi bo mode] x y y'; cbn [node_out].
  - intros (k & R & E) (k' & R' & E'). rewrite (rounds_unique _ _ _ _ R R') in E. rewrite E, E'. reflexivity.
  - intros [A B] [A' B']. destruct (Qlt_le_dec x 0) as [L|L].
    + rewrite (B L), (B' L). reflexivity.
    + rewrite (A L), (A' L). reflexivity.
  - intros (r & k & R1 & R2 & E) (r' & k' & R1' & R2' & E').
    rewrite (rounds_unique _ _ _ _ R1' R1) in R2'.
    rewrite (rounds_unique _ _ _ _ R2 R2') in E. rewrite E, E'. reflexivity.
Qed.

(** * Proofs *)

(** The name of a plain mode. *)
Definition mode_name (m : rmode) : string :=
  match m with Round => "round" | Floor => "floor" | Ceil => "ceil" | RoundToZero => "round_to_zero" | DPU => "dpu" end%string.

Lemma solve_spec s m : solve_f2i s = Some (CMode m) <-> lower s = mode_name m.
Proof.
  unfold solve_f2i, enum_eqb.
  change (lower "ROUND") with "round"%string. change (lower "FLOOR") with "floor"%string.
  change (lower "CEIL") with "ceil"%string. change (lower "ROUND_TO_ZERO") with "round_to_zero"%string.
  change (lower "DPU") with "dpu"%string. change (lower "LEARNED_ROUND") with "learned_round"%string.
  change (lower "STOCHASTIC_ROUND") with "stochastic_round"%string.
  set (l := lower s). clearbody l.
  repeat match goal with |- context [String.eqb l ?c] => destruct (String.eqb_spec l c) as [->|?] end;
    split; intros H; try discriminate H; try (injection H as <-; reflexivity);
    try (destruct m; try discriminate H; reflexivity);
    try (destruct m; cbn [mode_name] in H; contradiction).
Qed.

Lemma mode_rounds s m q : solve_f2i s = Some (CMode m) -> rounds s q (float_to_intZ m q).
Proof.
  intros H. apply solve_spec in H. destruct m; cbn [mode_name float_to_intZ] in *.
  - destruct (roundZ_spec q) as [A B]. apply rounds_even; assumption.
  - apply rounds_floor; [exact H|]. split; [apply Qfloor_lb|apply Qfloor_ub].
  - apply rounds_ceil; [exact H|]. split; [|apply Qceiling_ub].
    pose proof (Qceiling_lb q). unfold ceilZ. lra.
  - apply rounds_to_zero; [exact H| |].
    + destruct (rtz_cases q) as [[C ->]|[C ->]].
      * assert (P : (0 <= Qfloor q)%Z) by (apply (Qfloor_mono 0 q); exact C).
        rewrite Zle_Qle in P. change (inject_Z 0) with 0 in P.
        rewrite (Qabs_pos (inject_Z _)), (Qabs_pos q) by assumption.
        pose proof (Qfloor_lb q). pose proof (Qfloor_ub q). lra.
      * assert (P : (0 <= Qfloor (- q))%Z) by (apply (Qfloor_mono 0 (- q)); lra).
        rewrite Zle_Qle in P. change (inject_Z 0) with 0 in P. rewrite inject_Z_opp.
        rewrite (Qabs_neg (- inject_Z _)), (Qabs_neg q) by lra.
        pose proof (Qfloor_lb (- q)). pose proof (Qfloor_ub (- q)). lra.
    + destruct (rtz_cases q) as [[C ->]|[C ->]].
      * assert (P : (0 <= Qfloor q)%Z) by (apply (Qfloor_mono 0 q); exact C).
        rewrite Zle_Qle in P. change (inject_Z 0) with 0 in P. nra.
      * assert (P : (0 <= Qfloor (- q))%Z) by (apply (Qfloor_mono 0 (- q)); lra).
        rewrite Zle_Qle in P. change (inject_Z 0) with 0 in P. rewrite inject_Z_opp. nra.
  - pose proof (dpu_err q) as ERR.
    apply rounds_dpu; [exact H|apply Qabs_Qle_condition; exact ERR| |].
    + intros P. destruct (dpu_cases q) as [(N & _)|(_ & ->)]; [lra|]. apply roundZ_spec.
    + intros N E. destruct (dpu_cases q) as [(_ & F & D)|([C|C] & D)]; rewrite D in E.
      * rewrite inject_Z_plus in E. change (inject_Z 1) with 1 in E. lra.
      * lra.
      * apply C. destruct (roundZ_spec q) as [_ _].
        assert (FL : Qfloor q = roundZ q).
        { apply Z.le_antisymm.
          - rewrite <- (rnd_int _ round_rounding (Qfloor q)). apply roundZ_mono, Qfloor_lb.
          - rewrite <- (Qfloor_inj (roundZ q)). apply Qfloor_mono. lra. }
        rewrite FL. exact E.
Qed.

(** Clipping before or after rounding. *)
Lemma clip_round f q lo hi : rounding f -> (lo <= hi)%Z ->
  f (Qmin (Qmax q (inject_Z lo)) (inject_Z hi)) = clampZ (f q) lo hi.
Proof.
  intros R L. pose proof L as LQ. rewrite Zle_Qle in LQ. rewrite clampZ_spec by exact L.
  destruct (Qlt_le_dec q (inject_Z lo)) as [A|A].
  - assert (E : Qmin (Qmax q (inject_Z lo)) (inject_Z hi) == inject_Z lo).
    { rewrite (Q.max_r q) by lra. apply Q.min_l. exact LQ. }
    rewrite (rnd_eq f R _ _ E), (rnd_int f R).
    pose proof (rounding_le_int f lo q R ltac:(lra)). lia.
  - destruct (Qlt_le_dec (inject_Z hi) q) as [B|B].
    + assert (E : Qmin (Qmax q (inject_Z lo)) (inject_Z hi) == inject_Z hi).
      { rewrite (Q.max_l q) by lra. apply Q.min_r. lra. }
      rewrite (rnd_eq f R _ _ E), (rnd_int f R).
      pose proof (rounding_ge_int f hi q R ltac:(lra)). lia.
    + assert (E : Qmin (Qmax q (inject_Z lo)) (inject_Z hi) == q).
      { rewrite (Q.max_l q) by lra. apply Q.min_l. lra. }
      rewrite (rnd_eq f R _ _ E).
      pose proof (rounding_le_int f hi q R B). pose proof (rounding_ge_int f lo q R A). lia.
Qed.

Lemma node_range sg nr b : (1 <= b)%Z ->
  min_int sg nr b = node_lo sg nr b /\ max_int sg nr b = node_hi sg nr b /\ (node_lo sg nr b <= 0 <= node_hi sg nr b)%Z.
Proof.
  intros H. pose proof (min_max_int sg nr b H) as M.
  assert (E1 : min_int sg nr b = node_lo sg nr b) by (destruct sg, nr; unfold min_int, node_lo; cbn [andb negb]; lia).
  assert (E2 : max_int sg nr b = node_hi sg nr b) by (destruct sg, nr; unfold max_int, node_hi; cbn [andb negb]; lia).
  rewrite E1, E2 in M. auto.
Qed.

Lemma quant_node_out sg nr m mode s z b x : (1 <= b)%Z -> solve_f2i mode = Some (CMode m) ->
  node_out (NQuant s z b mode sg nr) x (int_quant (cfg sg nr m) s z b x).
Proof.
  intros Hb HM. destruct (node_range sg nr b Hb) as (E1 & E2 & L).
  cbn [node_out]. exists (float_to_intZ m (Qmin (Qmax (x / s + z) (inject_Z (node_lo sg nr b))) (inject_Z (node_hi sg nr b)))).
  split; [apply mode_rounds, HM|].
  rewrite (clip_round _ _ _ _ (mode_rounding m)) by lia.
  unfold int_quant, to_int, cfg, float_to_int; cbn [iq_signed iq_narrow iq_f2i].
  rewrite E1, E2, clamp_injz. reflexivity.
Qed.

(** The rounding of the quantizer is named by its class in one way only: by
    [float_to_int_impl_type], or by the module [float_to_int_impl]. *)
Definition rounding_named (j : injector) (m : rmode) : Prop :=
  (inj_impl j = None /\ exists s, inj_type j = Some s /\ lower s = mode_name m)
  \/ (inj_type j = None /\ inj_impl j = Some (IMode m))
  \/ (inj_type j = None /\ inj_impl j = Some (IStoch true) /\ m = Round).

Lemma named_impl j m : rounding_named j m ->
  exists i, resolve_impl j = Some i /\ forall x, f2i_tensor i x = Some (map (float_to_int m) x).
Proof.
  intros [[HI (s & HT & L)]|[[HT HI]|(HT & HI & ->)]]; unfold resolve_impl; rewrite HI; try rewrite HT.
  - apply solve_spec in L. rewrite L. eauto.
  - eauto.
  - eexists. split; [reflexivity|]. reflexivity.
Qed.

Lemma named_mode j m : rounding_named j m ->
  exists s, rounding_mode j = Some s /\ solve_f2i s = Some (CMode m).
Proof.
  intros [[HI (s & HT & L)]|[[HT HI]|(HT & HI & ->)]]; unfold rounding_mode; rewrite HT; try rewrite HI.
  - exists s. split; [reflexivity|]. apply solve_spec, L.
  - eexists. split; [reflexivity|]. destruct m; reflexivity.
  - eexists. split; reflexivity.
Qed.

Lemma int_quant_map i m sg nr s z b x : (forall x, f2i_tensor i x = Some (map (float_to_int m) x)) ->
  int_quant_f2i i sg nr s z s z b x = Some (map (int_quant (cfg sg nr m) s z b) x).
Proof. intros H. unfold int_quant_f2i. rewrite H, !map_map. reflexivity. Qed.

Lemma Forall2_refl_map {A} (f g : A -> Q) l : (forall a, f a == g a) -> Forall2 Qeq (map f l) (map g l).
Proof. intros H. induction l; constructor; auto. Qed.
Lemma Forall2_self {A} (R : A -> A -> Prop) l : (forall a, In a l -> R a a) -> Forall2 R l l.
Proof.
  induction l as [|a l IH]; constructor; [apply H; left; reflexivity|].
  apply IH. intros b Hb. apply H. right; exact Hb.
Qed.
Lemma Forall2_map_r {A B} (R : A -> B -> Prop) (f : A -> B) l : (forall a, In a l -> R a (f a)) -> Forall2 R l (map f l).
Proof.
  induction l as [|a l IH]; constructor; [apply H; left; reflexivity|].
  apply IH. intros b Hb. apply H. right; exact Hb.
Qed.

(** The scale and zero point do not depend on the tensor. *)
Definition static (p : qproxy) (s z : Q) : Prop := (forall x, px_scale p x = s) /\ (forall x, px_zp p x = z).

(** ** Activations *)

Theorem C101_act_int : forall p m s z sg nr x,
  px_kind p = KInt -> px_enabled p = true -> inj_groupwise (px_inj p) = false ->
  (2 <= px_bw p)%Z -> static p s z -> 0 < s ->
  inj_signed (px_inj p) = Some sg -> inj_narrow (px_inj p) = Some nr -> rounding_named (px_inj p) m ->
  exists q, proxy_forward p x = Some q /\ exports (export_act p x) x q.
Proof.
  intros p m s z sg nr x HK HE HG Hb [HS HZ] Hs Hsg Hnr HR.
  destruct (named_impl _ _ HR) as (i & RI & FI). destruct (named_mode _ _ HR) as (md & RM & SM).
  assert (PF : forall t, proxy_forward p t = Some (map (int_quant (cfg sg nr m) s z (px_bw p)) t, s, z, px_bw p)).
  { intros t. unfold proxy_forward. rewrite HK. unfold int_forward. rewrite RI, Hsg, Hnr, HS, HZ.
    rewrite (int_quant_map i m) by exact FI. reflexivity. }
  eexists. split; [apply PF|]. unfold exports.
  assert (B1 : (px_bw p =? 1)%Z = false) by (apply Z.eqb_neq; lia).
  unfold export_act, prepare_act. rewrite HE, PF. unfold validate_proxy. rewrite B1, HG, Hsg, Hnr, RM.
  unfold symbolic_execution. cbn [andb negb get String.eqb Ascii.eqb Bool.eqb map snd]. rewrite B1.
  cbn [quant_fn]. rewrite SM. eexists _, _. split; [reflexivity|]. split.
  - apply Forall2_self. intros; reflexivity.
  - apply Forall2_map_r. intros a _. apply quant_node_out; [lia|exact SM].
Qed.

(** A binary activation is exported as the scaled sign. *)
Theorem C101_act_binary : forall p s z x,
  px_kind p = KBinary \/ px_kind p = KClampedBinary -> px_enabled p = true ->
  inj_groupwise (px_inj p) = false -> static p s z -> 0 < s ->
  exists q, proxy_forward p x = Some q /\ exports (export_act p x) x q.
Proof.
  intros p s z x HK HE HG [HS HZ] Hs.
  assert (PF : forall t, exists v, proxy_forward p t = Some (v, s, 0, 1%Z) /\ Forall2 (binary_level s) t v).
  { intros t. destruct HK as [HK|HK]; unfold proxy_forward; rewrite HK.
    - eexists. split.
      + unfold binary_quant. rewrite HS. reflexivity.
      + pose proof (proj1 (C13_binary (px_scale p) t)) as L. unfold value_of, binary_quant in L. rewrite HS in L. exact L.
    - eexists. split.
      + unfold clamped_binary_quant. rewrite HS. reflexivity.
      + pose proof (C13_clamped_binary_same_levels (px_scale p) t ltac:(rewrite HS; exact Hs)) as L.
        unfold value_of, clamped_binary_quant in L. rewrite HS in L. exact L. }
  destruct (PF x) as (v & PX & LV). destruct (PF sentinel) as (v0 & PS & _).
  eexists. split; [exact PX|]. unfold exports, export_act, prepare_act. rewrite HE, PS.
  unfold validate_proxy. rewrite HG. change (1 =? 1)%Z with true. change (Qeq_bool 0 0) with true.
  unfold symbolic_execution. cbn [andb negb get String.eqb Ascii.eqb Bool.eqb map snd].
  change (1 =? 1)%Z with true. cbn [binary_quant_fn].
  eexists _, _. split; [reflexivity|]. clear PX PS. split; induction LV as [|a b l l' H LV IH]; constructor; auto.
  - destruct (binary_sign_cases a) as [[P E]|[P E]]; rewrite E; destruct H as [[P' H]|[P' H]]; try lra.
  - cbn [node_out]. destruct H as [[P' H]|[P' H]]; split; intros; try assumption; lra.
Qed.

(** A ternary activation is exported as a rounding 2-bit quantizer: this is the same function
    exactly when the threshold is one half. *)
Theorem C101_act_ternary : forall p t s z m,
  px_kind p = KTernary t -> px_enabled p = true -> inj_groupwise (px_inj p) = false ->
  static p s z -> 0 < s -> 0 <= t ->
  inj_signed (px_inj p) = Some true -> inj_narrow (px_inj p) = Some true ->
  rounding_named (px_inj p) m -> m = Round ->
  ((forall x, exists q, proxy_forward p x = Some q /\ exports (export_act p x) x q) <-> t == 1 # 2).
Proof.
  intros p t s z m HK HE HG [HS HZ] Hs Ht Hsg Hnr HR ->.
  destruct (named_mode _ _ HR) as (md & RM & SM).
  assert (PF : forall u, exists v, proxy_forward p u = Some (v, s, 0, 2%Z) /\ Forall2 (ternary_level s t) u v).
  { intros u. unfold proxy_forward. rewrite HK. eexists. split.
    - unfold ternary_quant. rewrite HS. reflexivity.
    - pose proof (C13_ternary (px_scale p) t u ltac:(rewrite HS; exact Hs) Ht) as L.
      unfold value_of, ternary_quant in L. rewrite HS in L. exact L. }
  assert (EX : forall x, export_act p x =
      Some (map (int_quant (cfg true true Round) s 0 2) x, NQuant s 0 2 md true true, VQ s, VQ 0, VZ 2)).
  { intros x. destruct (PF sentinel) as (v0 & PS & _). unfold export_act, prepare_act. rewrite HE, PS.
    unfold validate_proxy. rewrite HG, Hsg, Hnr, RM. change (2 =? 1)%Z with false.
    unfold symbolic_execution. cbn [andb negb get String.eqb Ascii.eqb Bool.eqb map snd].
    change (2 =? 1)%Z with false. cbn [quant_fn]. rewrite SM. reflexivity. }
  assert (IQ : forall a, int_quant (cfg true true Round) s 0 2 a == inject_Z (clampZ (roundZ (a / s)) (-1) 1) * s).
  { intros a. unfold int_quant, to_int, cfg, float_to_int; cbn [iq_signed iq_narrow iq_f2i float_to_intZ].
    change (min_int true true 2) with (-1)%Z. change (max_int true true 2) with 1%Z. rewrite clamp_injz.
    rewrite (roundZ_eq (a / s + 0) (a / s)) by ring. ring. }
  assert (DIV : forall a c, a == (a / s) * s /\ (c < a / s -> c * s < a) /\ (a / s < c -> a < c * s) /\ (a / s <= c -> a <= c * s) /\ (c <= a / s -> c * s <= a)).
  { intros a c. assert (E : a == (a / s) * s) by (field; lra). split; [exact E|].
    generalize dependent (a / s). intros w E. repeat split; intros; rewrite E; nra. }
  split.
  - intros H.
    assert (K : forall a, exists y, ternary_level s t a y /\ y == inject_Z (clampZ (roundZ (a / s)) (-1) 1) * s).
    { intros a. destruct (H [a]) as ([[[v s'] z'] b'] & PX & X). destruct (PF [a]) as (v' & PX' & L).
      rewrite PX' in PX. injection PX as <- <- <- <-.
      unfold exports in X. destruct X as (y & n & E & Y & _). rewrite EX in E. injection E as <- <-.
      inversion L as [|? y0 ? l' L1 L2]; subst. inversion L2; subst. exists y0. split; [exact L1|].
      cbn [map] in Y. inversion Y as [|? ? ? ? Y1 _]; subst. rewrite <- Y1. apply IQ. }
    destruct (Q_dec t (1 # 2)) as [[C|C]|C]; [| |exact C]; exfalso.
    + (* t < 1/2: a between t*s and s/2 *)
      destruct (K (s * (1 # 2))) as (y & L & E).
      assert (R : roundZ (s * (1 # 2) / s) = 0%Z).
      { rewrite (roundZ_eq _ (1 # 2)) by (field; lra). reflexivity. }
      rewrite R in E. change (inject_Z (clampZ 0 (-1) 1)) with 0 in E.
      assert (Q1 : t * s < s * (1 # 2)) by nra.
      destruct L as [[P L]|[[P L]|[P L]]]; lra || nra.
    + set (a := s * ((if Qle_bool 1 t then 1 else t))).
      assert (A : (1 # 2) * s < a /\ a <= t * s /\ a <= s).
      { unfold a. destruct (Qle_bool 1 t) eqn:B.
        - apply Qle_bool_iff in B. nra.
        - apply Qle_bool_false in B. nra. }
      destruct (K a) as (y & L & E).
      assert (R : roundZ (a / s) = 1%Z).
      { assert (1 # 2 < a / s /\ a / s <= 1).
        { destruct (DIV a (1 # 2)) as (EA & _). split.
          - apply Qnot_le_lt. intros X. destruct A as (A & _). rewrite EA in A. nra.
          - apply Qnot_lt_le. intros X. destruct A as (_ & _ & A). rewrite EA in A. nra. }
        symmetry. apply round_he_unique.
        - rewrite Qabs_pos; change (inject_Z 1) with 1; lra.
        - intros X. rewrite Qabs_pos in X; change (inject_Z 1) with 1 in *; lra. }
      rewrite R in E. change (inject_Z (clampZ 1 (-1) 1)) with 1 in E.
      assert (0 < a) by nra.
      destruct L as [[P L]|[[P L]|[P L]]]; lra || nra.
  - intros T x. destruct (PF x) as (v & PX & L). eexists. split; [exact PX|]. unfold exports.
    rewrite EX. eexists _, _. split; [reflexivity|].
    assert (E : forall a y, ternary_level s t a y -> int_quant (cfg true true Round) s 0 2 a == y).
    { intros a y LV. rewrite IQ.
      assert (D : forall c, (c < a / s -> c * s < a) /\ (a / s < c -> a < c * s) /\ (a / s <= c -> a <= c * s) /\ (c <= a / s -> c * s <= a))
        by (intros c; apply (DIV a c)).
      destruct (DIV a 0) as (EA & _).
      pose proof (roundZ_spec (a / s)) as [R1 R2]. apply Qabs_Qle_condition in R1.
      set (r := roundZ (a / s)) in *. rewrite clampZ_spec by lia.
      destruct LV as [[P ->]|[[P ->]|[P ->]]].
      - rewrite T in P. assert (1 # 2 < a / s) by (apply Qnot_le_lt; intros X; rewrite EA in P; nra).
        assert (1 <= r)%Z.
        { assert (0 < inject_Z r) by lra. change 0 with (inject_Z 0) in H0. rewrite <- Zlt_Qlt in H0. lia. }
        replace (Z.max (-1) (Z.min r 1)) with 1%Z by lia. change (inject_Z 1) with 1. ring.
      - rewrite T in P. assert (a / s < - (1 # 2)) by (apply Qnot_le_lt; intros X; rewrite EA in P; nra).
        assert (r <= -1)%Z.
        { assert (inject_Z r < 0) by lra. change 0 with (inject_Z 0) in H0. rewrite <- Zlt_Qlt in H0. lia. }
        replace (Z.max (-1) (Z.min r 1)) with (-1)%Z by lia. change (inject_Z (-1)) with (- (1)). ring.
      - rewrite T in P. assert (AA : - (1 # 2) <= a / s <= 1 # 2).
        { split; apply Qnot_lt_le; intros X; rewrite EA in P; nra. }
        assert (r = 0)%Z.
        { symmetry. apply round_he_unique.
          - change (inject_Z 0) with 0. apply Qabs_Qle_condition. lra.
          - intros _. reflexivity. }
        rewrite H. replace (Z.max (-1) (Z.min 0 1)) with 0%Z by lia. change (inject_Z 0) with 0. ring. }
    clear PX. split; induction L as [|a y l l' H L IH]; constructor; auto.
    destruct (quant_node_out true true Round md s 0 2 a ltac:(lia) SM) as (k & K1 & K2).
    exists k. split; [exact K1|]. rewrite <- (E a y H). exact K2.
Qed.

(** What the activation handler refuses: group-wise quantizers, and one-bit quantizers with a
    zero point.  An activation whose quantization is disabled cannot be exported at all. *)
Theorem C101_act_rejected : forall p x,
  px_enabled p = false
  \/ inj_groupwise (px_inj p) = true
  \/ (px_kind p = KInt /\ px_bw p = 1%Z /\ ~ px_zp p sentinel == 0) ->
  export_act p x = None.
Proof.
  intros p x [HE|[HG|(HK & HB & HZ)]]; unfold export_act, prepare_act.
  - rewrite HE. reflexivity.
  - destruct (px_enabled p); [|reflexivity]. destruct (proxy_forward p sentinel) as [[[[v s] z] b]|]; [|reflexivity].
    unfold validate_proxy. rewrite HG, andb_false_r. reflexivity.
  - destruct (px_enabled p); [|reflexivity]. unfold proxy_forward. rewrite HK. unfold int_forward.
    destruct (resolve_impl (px_inj p)), (inj_signed (px_inj p)), (inj_narrow (px_inj p)); try reflexivity.
    destruct (int_quant_f2i _ _ _ _ _ _ _ _ _); [|reflexivity]. rewrite HB. unfold validate_proxy.
    change (1 =? 1)%Z with true. rewrite (proj2 (Qeq_bool_false _ _) HZ). reflexivity.
Qed.

(** ** Weights *)

(** The float-to-int module returns integers. *)
Definition integral (i : f2i_impl) : Prop :=
  match i with ICustom f => forall x, exists n, f x == inject_Z n | _ => True end.

Lemma f2i_integral i x y : integral i -> f2i_tensor i x = Some y -> Forall (fun v => exists n, v == inject_Z n) y.
Proof.
  intros HI H. destruct i as [m|[]|p|f]; cbn [f2i_tensor] in H.
  - injection H as <-. apply Forall_forall. intros v V. apply in_map_iff in V. destruct V as (a & <- & _).
    eexists. reflexivity.
  - injection H as <-. apply Forall_forall. intros v V. apply in_map_iff in V. destruct V as (a & <- & _).
    eexists. reflexivity.
  - discriminate H.
  - destruct (Nat.eqb _ _); [|discriminate H]. injection H as <-. apply Forall_forall. intros v V.
    apply in_map_iff in V. destruct V as ([a c] & <- & _). cbn [fst snd].
    exists (floorZ a + (if c then 1 else 0))%Z. rewrite inject_Z_plus. destruct c; reflexivity.
  - injection H as <-. apply Forall_forall. intros v V. apply in_map_iff in V. destruct V as (a & <- & _).
    apply HI.
Qed.

(** A value on the grid of a node is left unchanged by it. *)
Lemma requant sg nr s z b k v : (1 <= b)%Z -> 0 < s -> (node_lo sg nr b <= k <= node_hi sg nr b)%Z ->
  v == (inject_Z k - z) * s -> int_quant (cfg sg nr Round) s z b v == v.
Proof.
  intros Hb Hs HK E. destruct (node_range sg nr b Hb) as (E1 & E2 & _).
  unfold int_quant, to_int, cfg, float_to_int; cbn [iq_signed iq_narrow iq_f2i float_to_intZ].
  rewrite E1, E2, clamp_injz. rewrite (roundZ_eq _ (inject_Z k)).
  - rewrite roundZ_int, clampZ_spec by lia. replace (Z.max _ _) with k by lia. rewrite E. reflexivity.
  - rewrite E. field. lra.
Qed.

Lemma clamp_proper x x' lo hi : x == x' -> tensor_clamp x lo hi == tensor_clamp x' lo hi.
Proof.
  intros E. apply Qle_antisym; apply clamp_mono; lra.
Qed.

Lemma all_some_map {A B} (f : A -> option B) l g : (forall a, In a l -> f a = Some (g a)) -> all_some (map f l) = Some (map g l).
Proof.
  induction l as [|a l IH]; intros H; [reflexivity|]. cbn [map all_some].
  rewrite (H a) by (left; reflexivity). rewrite IH by (intros b Hb; apply H; right; exact Hb). reflexivity.
Qed.

Lemma lookup_last_in k v d : In (k, v) d -> (forall v', In (k, v') d -> v' = v) -> lookup_last k d = Some v.
Proof.
  induction d as [|[k' w] d IH]; intros HI HU; [destruct HI|]. cbn [lookup_last].
  destruct (lookup_last k d) as [w'|] eqn:L.
  - assert (In (k, w') d).
    { clear - L. induction d as [|[k0 w0] d IH]; [discriminate L|]. cbn [lookup_last] in L.
      destruct (lookup_last k d) eqn:E.
      - injection L as ->. right. apply IH. reflexivity.
      - destruct (Z.eqb_spec k k0) as [->|]; [|discriminate L]. injection L as ->. left. reflexivity. }
    rewrite (HU w') by (right; assumption). reflexivity.
  - destruct HI as [E|HI].
    + injection E as -> ->. rewrite Z.eqb_refl. reflexivity.
    + exfalso. assert (X : None = Some v) by (apply IH; [exact HI|intros v' V; apply HU; right; exact V]).
      discriminate X.
Qed.

(** Conditions under which the exported weight is the quantized one; [s] and [z] are the scale
    and zero point on every layer that shares the quantizer. *)
Definition weight_ok (p : qproxy) (s : Q) : Prop :=
  match px_kind p with
  | KInt | KDecoupled _ _ =>
      (2 <= px_bw p)%Z /\ exists i, resolve_impl (px_inj p) = Some i /\ integral i
  | KTernary t => inj_signed (px_inj p) = Some true /\ inj_narrow (px_inj p) <> None
  | KBinary | KClampedBinary => True
  end /\ 0 < s.

Theorem C101_weight : forall p ms s z m,
  static p s z -> weight_ok p s ->
  (forall m', In m' ms -> proxy_forward p (tr_weight m') <> None) ->
  (forall m1 m2, In m1 ms -> In m2 ms -> tr_ptr m1 = tr_ptr m2 -> tr_weight m1 = tr_weight m2) ->
  In m ms ->
  exists q, proxy_forward p (tr_weight m) = Some q /\ exports (export_weight p ms (tr_ptr m)) (out_value q) q.
Proof.
  intros p ms s z m [HS HZ] [HO Hs] HD HT HM.
  (* parameters common to every layer *)
  set (zz := match px_kind p with KInt | KDecoupled _ _ => z | _ => 0 end).
  set (bb := match px_kind p with KInt | KDecoupled _ _ => px_bw p | KTernary _ => 2%Z | _ => 1%Z end).
  assert (PF : forall w, proxy_forward p w <> None -> exists v, proxy_forward p w = Some (v, s, zz, bb)).
  { intros w D. unfold proxy_forward, zz, bb in *. destruct (px_kind p); cbn [fst].
    - unfold int_forward in *. destruct (resolve_impl (px_inj p)), (inj_signed (px_inj p)), (inj_narrow (px_inj p)); try (exfalso; apply D; reflexivity).
      rewrite HS, HZ in *. destruct (int_quant_f2i _ _ _ _ _ _ _ _ _); [eauto|exfalso; apply D; reflexivity].
    - unfold binary_quant. rewrite HS. cbn. eauto.
    - unfold clamped_binary_quant. rewrite HS. cbn. eauto.
    - unfold ternary_quant. rewrite HS. cbn. eauto.
    - unfold int_forward in *. destruct (resolve_impl (px_inj p)), (inj_signed (px_inj p)), (inj_narrow (px_inj p)); try (exfalso; apply D; reflexivity).
      rewrite HS, HZ in *. destruct (int_quant_f2i _ _ _ _ _ _ _ _ _); [eauto|exfalso; apply D; reflexivity]. }
  destruct (PF _ (HD m HM)) as (v & PV). exists (v, s, zz, bb). split; [exact PV|].
  (* the dictionary of values *)
  set (val := fun t => match proxy_forward p (tr_weight t) with Some q => out_value q | None => [] end).
  assert (AS : all_some (map (fun m' => match proxy_forward p (tr_weight m') with
                                        | Some q => Some (tr_ptr m', out_value q) | None => None end) ms)
               = Some (map (fun t => (tr_ptr t, val t)) ms)).
  { apply all_some_map. intros t Ht. unfold val. destruct (proxy_forward p (tr_weight t)) eqn:E; [reflexivity|].
    exfalso. apply (HD t Ht E). }
  assert (LK : lookup_last (tr_ptr m) (map (fun t => (tr_ptr t, val t)) ms) = Some v).
  { assert (VM : val m = v) by (unfold val; rewrite PV; reflexivity).
    apply lookup_last_in.
    - rewrite <- VM. apply (in_map (fun t => (tr_ptr t, val t)) ms m HM).
    - intros v' V. apply in_map_iff in V. destruct V as (t & E & Ht). injection E as E1 E2.
      rewrite <- E2, <- VM. unfold val. rewrite (HT t m Ht HM E1). reflexivity. }
  assert (B1 : (if (bb =? 1)%Z then Qeq_bool zz 0 else true) = true).
  { destruct (Z.eqb_spec bb 1) as [E|E]; [|reflexivity]. unfold bb, zz in *. unfold weight_ok in HO.
    destruct (px_kind p); try reflexivity; destruct HO as [HO _]; lia. }
  assert (PW : prepare_weight p ms = Some (map (fun t => (tr_ptr t, val t)) ms,
     [("scale", VQ s); ("zero_point", VQ zz); ("bit_width", VZ bb);
      ("narrow_range", VB (inj_narrow (px_inj p))); ("signed", VB (inj_signed (px_inj p)));
      ("rounding_mode", VS (Some "ROUND"))]%string)).
  { unfold prepare_weight. destruct ms as [|m0 ms']; [destruct HM|].
    destruct (PF _ (HD m0 ltac:(left; reflexivity))) as (v0 & P0). rewrite P0, B1, AS. reflexivity. }
  unfold exports, export_weight. rewrite PW, LK. unfold out_value; cbn [fst].
  unfold symbolic_execution. cbn [get String.eqb Ascii.eqb Bool.eqb map snd].
  clear PW LK AS B1.
  assert (INT : forall sg nr, inj_signed (px_inj p) = Some sg -> inj_narrow (px_inj p) = Some nr -> (2 <= bb)%Z ->
     Forall (fun y => exists k, (node_lo sg nr bb <= k <= node_hi sg nr bb)%Z /\ y == (inject_Z k - zz) * s) v ->
     exists y n,
      match (if (bb =? 1)%Z
         then binary_quant_fn v [VQ s; VQ zz; VZ bb; VB (inj_narrow (px_inj p)); VB (inj_signed (px_inj p)); VS (Some "ROUND"%string)]
         else quant_fn v [VQ s; VQ zz; VZ bb; VB (inj_narrow (px_inj p)); VB (inj_signed (px_inj p)); VS (Some "ROUND"%string)]) with
      | Some (y0, n0) => Some (y0, n0, VQ s, VQ zz, VZ bb) | None => None end = Some (y, n, VQ s, VQ zz, VZ bb)
      /\ Forall2 Qeq y v /\ Forall2 (node_out n) v v).
  { intros sg nr Hsg Hnr Hb HV. destruct (Z.eqb_spec bb 1) as [C|_]; [lia|]. rewrite Hsg, Hnr. cbn [quant_fn].
    change (solve_f2i "ROUND") with (Some (CMode Round)).
    assert (RQ : forall a, In a v -> int_quant (cfg sg nr Round) s zz bb a == a).
    { intros a Ha. rewrite Forall_forall in HV. destruct (HV a Ha) as (k & K1 & K2).
      apply (requant sg nr s zz bb k a); [lia|exact Hs|exact K1|exact K2]. }
    eexists _, _. split; [reflexivity|]. split.
    - clear - RQ. induction v as [|a l IH]; constructor; [apply RQ; left; reflexivity|]. apply IH. intros b B. apply RQ. right. exact B.
    - apply Forall2_self. intros a Ha.
      destruct (quant_node_out sg nr Round "ROUND" s zz bb a ltac:(lia) eq_refl) as (k & K1 & K2).
      exists k. split; [exact K1|]. rewrite <- (RQ a Ha) at 1. exact K2. }
  assert (BIN : Forall (fun y => y == s \/ y == - s) v -> bb = 1%Z ->
     exists y n,
      match (if (bb =? 1)%Z
         then binary_quant_fn v [VQ s; VQ zz; VZ bb; VB (inj_narrow (px_inj p)); VB (inj_signed (px_inj p)); VS (Some "ROUND"%string)]
         else quant_fn v [VQ s; VQ zz; VZ bb; VB (inj_narrow (px_inj p)); VB (inj_signed (px_inj p)); VS (Some "ROUND"%string)]) with
      | Some (y0, n0) => Some (y0, n0, VQ s, VQ zz, VZ bb) | None => None end = Some (y, n, VQ s, VQ zz, VZ bb)
      /\ Forall2 Qeq y v /\ Forall2 (node_out n) v v).
  { intros HV ->. change (1 =? 1)%Z with true. cbn [binary_quant_fn]. eexists _, _. split; [reflexivity|].
    rewrite Forall_forall in HV. split.
    - clear - HV Hs. induction v as [|a l IH]; constructor.
      + destruct (HV a ltac:(left; reflexivity)) as [E|E]; destruct (binary_sign_cases a) as [[P Q]|[P Q]]; rewrite Q; lra.
      + apply IH. intros b B. apply HV. right. exact B.
    - apply Forall2_self. intros a Ha. cbn [node_out]. destruct (HV a Ha); split; intros; lra. }
  unfold proxy_forward in PV. unfold weight_ok in HO. unfold zz, bb in *. destruct (px_kind p) eqn:HK.
  - destruct HO as (Hb & i & RI & II). unfold int_forward in PV. rewrite RI, HS, HZ in PV.
    destruct (inj_signed (px_inj p)) as [sg|] eqn:Hsg; [|discriminate PV]. destruct (inj_narrow (px_inj p)) as [nr|] eqn:Hnr; [|discriminate PV].
    apply (INT sg nr eq_refl eq_refl Hb). unfold int_quant_f2i in PV.
    destruct (f2i_tensor i _) as [u|] eqn:FU; [|discriminate PV]. injection PV as <-.
    pose proof (f2i_integral _ _ _ II FU) as U. rewrite Forall_forall in U. apply Forall_forall. intros y Y.
    apply in_map_iff in Y. destruct Y as (a & <- & Ha). destruct (U a Ha) as (n & N).
    destruct (node_range sg nr (px_bw p) ltac:(lia)) as (E1 & E2 & L).
    exists (clampZ n (node_lo sg nr (px_bw p)) (node_hi sg nr (px_bw p))). split.
    + rewrite clampZ_spec by lia. lia.
    + rewrite E1, E2, (clamp_proper _ _ _ _ N), clamp_injz. reflexivity.
  - apply BIN; [|reflexivity]. cbn [fst] in PV. unfold binary_quant in PV. rewrite HS in PV. cbn in PV. injection PV as <-.
    apply Forall_forall. intros y Y. apply in_map_iff in Y. destruct Y as (a & <- & _).
    destruct (binary_sign_cases a) as [[P E]|[P E]]; rewrite E; [left|right]; ring.
  - apply BIN; [|reflexivity]. unfold clamped_binary_quant in PV. rewrite HS in PV. cbn in PV. injection PV as <-.
    apply Forall_forall. intros y Y. apply in_map_iff in Y. destruct Y as (a & <- & _).
    destruct (binary_sign_cases a) as [[P E]|[P E]]; rewrite E; [left|right]; ring.
  - destruct HO as (Hsg & Hnr). destruct (inj_narrow (px_inj p)) as [nr|] eqn:EN; [|congruence].
    apply (INT true nr Hsg eq_refl ltac:(lia)). unfold ternary_quant in PV. rewrite HS in PV. cbn in PV. injection PV as <-.
    apply Forall_forall. intros y Y. apply in_map_iff in Y. destruct Y as (a & <- & _).
    assert (G : forall mask : bool, exists k, (-1 <= k <= 1)%Z /\ (if mask then 1 else 0) * inject_Z (sgnZ a) * s == (inject_Z k - 0) * s).
    { intros mask. exists (if mask then sgnZ a else 0)%Z. split.
      - destruct mask; [|lia]. destruct (sgnZ_cases a) as [[_ ->]|[[_ ->]|[_ ->]]]; lia.
      - destruct mask; [ring|change (inject_Z 0) with 0; ring]. }
    destruct (G (Qlt_bool (threshold * s) (Qabs a))) as (k & K1 & K2). exists k. split; [|exact K2].
    destruct nr; change (node_lo true true 2) with (-1)%Z || change (node_lo true false 2) with (-2)%Z;
      change (node_hi true true 2) with 1%Z || change (node_hi true false 2) with 1%Z; lia.
  - destruct HO as (Hb & i & RI & II). unfold int_forward in PV. rewrite RI, HS, HZ in PV.
    destruct (inj_signed (px_inj p)) as [sg|] eqn:Hsg; [|discriminate PV]. destruct (inj_narrow (px_inj p)) as [nr|] eqn:Hnr; [|discriminate PV].
    apply (INT sg nr eq_refl eq_refl Hb). unfold int_quant_f2i in PV.
    destruct (f2i_tensor i _) as [u|] eqn:FU; [|discriminate PV]. injection PV as <-.
    pose proof (f2i_integral _ _ _ II FU) as U. rewrite Forall_forall in U. apply Forall_forall. intros y Y.
    apply in_map_iff in Y. destruct Y as (a & <- & Ha). destruct (U a Ha) as (n & N).
    destruct (node_range sg nr (px_bw p) ltac:(lia)) as (E1 & E2 & L).
    exists (clampZ n (node_lo sg nr (px_bw p)) (node_hi sg nr (px_bw p))). split.
    + rewrite clampZ_spec by lia. lia.
    + rewrite E1, E2, (clamp_proper _ _ _ _ N), clamp_injz. reflexivity.
Qed.

(** The decoupled handlers (weight normalization, accumulator-aware quantization) export the
    same thing. *)
Theorem C101_decoupled : forall p ms ptr e,
  export_weight p ms ptr = Some e ->
  exists s z, export_decoupled p ms ptr = Some (e, s, z) /\ s = snd (fst (fst e)) /\ z = snd (fst e).
Proof.
  intros p ms ptr [[[[y n] s] z] b] H. unfold export_decoupled. rewrite H. exists s, z. repeat split; reflexivity.
Qed.

(** ** Biases *)

Theorem C101_bias : forall b m input_scale x sc z sg nr,
  px_kind (bp_px b) = KInt -> inj_groupwise (px_inj (bp_px b)) = false ->
  (2 <= px_bw (bp_px b))%Z -> (forall t, px_zp (bp_px b) t = z) ->
  inj_signed (px_inj (bp_px b)) = Some sg -> inj_narrow (px_inj (bp_px b)) = Some nr ->
  rounding_named (px_inj (bp_px b)) m ->
  bias_scale b input_scale x = Some sc -> 0 < sc ->
  (bp_requires b = true -> bp_cached b = Some sc) ->
  exists q, bias_forward b input_scale x = Some q /\ exports (export_bias b input_scale x) x q.
Proof.
  intros b m isc x sc z sg nr HK HG Hb HZ Hsg Hnr HR HB Hsc HC.
  destruct (named_impl _ _ HR) as (i & RI & FI). destruct (named_mode _ _ HR) as (md & RM & SM).
  assert (PF : forall s, proxy_forward (Px (px_inj (bp_px b)) (px_kind (bp_px b)) (px_enabled (bp_px b))
                 (fun _ => s) (px_zp (bp_px b)) (px_bw (bp_px b))) x
               = Some (map (int_quant (cfg sg nr m) s z (px_bw (bp_px b))) x, s, z, px_bw (bp_px b))).
  { intros s. unfold proxy_forward. cbn [px_kind]. rewrite HK. unfold int_forward. cbn [px_inj px_scale px_zp px_bw].
    rewrite RI, Hsg, Hnr, HZ. rewrite (int_quant_map i m) by exact FI. reflexivity. }
  eexists. split.
  - unfold bias_forward. rewrite HB. apply PF.
  - unfold exports, export_bias, prepare_bias.
    assert (BN : bias_scale b None x = Some sc).
    { unfold bias_scale in *. destruct (bp_requires b); [apply HC; reflexivity|exact HB]. }
    unfold bias_forward. rewrite BN, PF. unfold validate_proxy.
    assert (B1 : (px_bw (bp_px b) =? 1)%Z = false) by (apply Z.eqb_neq; lia). rewrite B1, HG, Hsg, Hnr, RM.
    assert (SC : (if bp_requires b then match bp_cached b with Some c => VQ c | None => VNone end else VQ sc) = VQ sc).
    { destruct (bp_requires b); [rewrite HC by reflexivity|]; reflexivity. }
    rewrite SC. unfold symbolic_bias. cbn [andb negb pop String.eqb Ascii.eqb Bool.eqb map snd].
    cbn [quant_fn]. rewrite SM. eexists _, _. split; [reflexivity|]. split.
    + apply Forall2_self. intros; reflexivity.
    + apply Forall2_map_r. intros a _. apply quant_node_out; [lia|exact SM].
Qed.

(** A bias that takes the scale of the accumulator cannot be exported before a forward pass
    has cached that scale. *)
Theorem C101_bias_needs_cache : forall b input_scale x,
  bp_requires b = true -> bp_cached b = None -> export_bias b input_scale x = None.
Proof.
  intros b isc x HR HC. unfold export_bias, prepare_bias, bias_forward, bias_scale. rewrite HR, HC. reflexivity.
Qed.

(** ** Truncation *)

Theorem C101_trunc : forall j m out_bw scale zp in_bw signed x,
  rounding_named j m -> 0 < scale ->
  exists q, trunc_forward j out_bw scale zp in_bw x = Some q
            /\ exports (export_trunc j out_bw scale zp in_bw signed x) x q.
Proof.
  intros j m ob s z ib sg x HR Hs. destruct (named_mode _ _ HR) as (md & RM & SM).
  exists (map (trunc_int_quant m s z ib ob) x, s, z, ob). split.
  - unfold trunc_forward.
    destruct HR as [[HI (t & HT & L)]|[[HT HI]|(HT & HI & ->)]]; unfold resolve_impl; rewrite HI; try rewrite HT.
    + apply solve_spec in L. rewrite L. reflexivity.
    + reflexivity.
    + reflexivity.
  - unfold exports, export_trunc. rewrite RM. cbn [map snd trunc_fn]. rewrite SM.
    eexists _, _. split; [reflexivity|]. split.
    + apply Forall2_self. intros; reflexivity.
    + apply Forall2_map_r. intros a _. cbn [node_out]. exists (roundZ (a / s + z)).
      exists (float_to_intZ m (inject_Z (roundZ (a / s + z)) / Qpower 2 (ib - ob))).
      split; [apply (mode_rounds "ROUND" Round); reflexivity|]. split; [apply mode_rounds, SM|]. reflexivity.
Qed.

(** * Findings *)

Definition class (mode : string) (signed narrow : bool) : injector :=
  Inj (Some mode) None [] (Some narrow) (Some signed) false.
Definition static_proxy (j : injector) (k : qkind) (s : Q) (b : Z) : qproxy :=
  Px j k true (fun _ => s) (fun _ => 0) b.

(** A one-bit unsigned integer activation (QuantReLU(bit_width=1)) has the levels 0 and scale;
    the exported node returns minus scale and scale. *)
Definition relu1 : qproxy := static_proxy (class "ROUND" false false) KInt 1 1.
Theorem C101_one_bit_activation_refuted : exists p x v y n,
  px_kind p = KInt /\ proxy_forward p x = Some (v, 1, 0, 1%Z)
  /\ export_act p x = Some (y, n, VQ 1, VQ 0, VZ 1)
  /\ ~ Forall2 Qeq y v /\ ~ Forall2 (node_out n) x v.
Proof.
  exists relu1, [-1; 1 # 4; 3 # 4], [0; 0; 1], [-1; 1; 1], (NBipolar 1).
  split; [reflexivity|]. split; [reflexivity|]. split; [reflexivity|]. split.
  - intros H. inversion H as [|? ? ? ? E _]; subst. discriminate E.
  - intros H. inversion H as [|? ? ? ? [_ E] _]; subst. specialize (E ltac:(reflexivity)). discriminate E.
Qed.

(** So has a one-bit signed narrow weight, whose only level is 0. *)
Theorem C101_one_bit_weight_refuted : exists p w v y n,
  px_kind p = KInt /\ proxy_forward p w = Some (v, 1, 0, 1%Z)
  /\ export_weight p [Tr 7 w] 7 = Some (y, n, VQ 1, VQ 0, VZ 1)
  /\ ~ Forall2 Qeq y v /\ ~ Forall2 (node_out n) v v.
Proof.
  exists (static_proxy (class "ROUND" true true) KInt 1 1), [1], [0], [1], (NBipolar 1).
  split; [reflexivity|]. split; [reflexivity|]. split; [reflexivity|]. split.
  - intros H. inversion H as [|? ? ? ? E _]; subst. discriminate E.
  - intros H. inversion H as [|? ? ? ? [E _] _]; subst. specialize (E ltac:(discriminate)). discriminate E.
Qed.

(** A class that sets the module [float_to_int_impl] and inherits [float_to_int_impl_type]
    quantizes with the module but is exported with the inherited name. *)
Definition conflicting : injector := Inj (Some "ROUND"%string) (Some (IMode Floor)) [] (Some false) (Some true) false.
Theorem C101_rounding_conflict_refuted : exists p x v y n,
  proxy_forward p x = Some (v, 1, 0, 8%Z) /\ export_act p x = Some (y, n, VQ 1, VQ 0, VZ 8)
  /\ ~ Forall2 Qeq y v /\ ~ Forall2 (node_out n) x v.
Proof.
  exists (static_proxy conflicting KInt 1 8), [3 # 4], [0], [1], (NQuant 1 0 8 "ROUND" true false).
  split; [reflexivity|]. split; [reflexivity|]. split.
  - intros H. inversion H as [|? ? ? ? E _]; subst. discriminate E.
  - intros H. inversion H as [|? ? ? ? E _]; subst.
    pose proof (quant_node_out true false Round "ROUND" 1 0 8 (3 # 4) ltac:(lia) eq_refl) as N.
    pose proof (C101_node_determined _ _ _ _ E N) as D. vm_compute in D. discriminate D.
Qed.

(** A layer that is called twice with inputs of different scale: the bias of the first call is
    exported with the scale of the last one. *)
Definition int_bias : bproxy := BP (static_proxy (class "ROUND" true false) KInt 1 8) true None.
Theorem C101_bias_two_calls_refuted : exists b calls s x v y n,
  In s calls /\ bias_forward b (Some s) x = Some (v, s, 0, 8%Z)
  /\ export_bias (cache_pass b calls) (Some s) x = Some (y, n, VQ (1 # 2), VQ 0, VZ 8)
  /\ ~ Forall2 Qeq y v /\ ~ Forall2 (node_out n) x v.
Proof.
  exists int_bias, [1; 1 # 2], 1, [1 # 2], [0], [1 * (1 # 2)], (NQuant (1 # 2) 0 8 "ROUND" true false).
  split; [left; reflexivity|]. split; [reflexivity|]. split; [reflexivity|]. split.
  - intros H. inversion H as [|? ? ? ? E _]; subst. discriminate E.
  - intros H. inversion H as [|? ? ? ? E _]; subst.
    pose proof (quant_node_out true false Round "ROUND" (1 # 2) 0 8 (1 # 2) ltac:(lia) eq_refl) as N.
    pose proof (C101_node_determined _ _ _ _ E N) as D. vm_compute in D. discriminate D.
Qed.

(** The rounding attribute is the string of the class, not normalized: TruncTo8bit, whose mode
    is written in lower case, is exported with "floor". *)
Theorem C101_attribute_case_refuted : exists j out_bw x y s z b mode,
  export_trunc j out_bw 1 0 10 false x = Some (y, NTrunc 1 0 10 out_bw mode, s, z, b)
  /\ ~ In mode ["ROUND"; "CEIL"; "FLOOR"; "ROUND_TO_ZERO"; "DPU"]%string.
Proof.
  exists (class "floor" false false), 8%Z, [5], [1], (VQ 1), (VQ 0), (VZ 8), "floor"%string.
  split; [reflexivity|]. intros H. repeat (destruct H as [H|H]; [discriminate H|]). exact H.
Qed.

(** * Examples: the hypotheses of the theorems are met *)

(** A signed 4-bit activation with zero point 3, named by type in lower case. *)
Definition act4 : qproxy := Px (class "floor" true false) KInt true (fun _ => 1 # 2) (fun _ => 3) 4.
Example C101_act_ex :
  exists q, proxy_forward act4 [7 # 10; -9; 100] = Some q /\ exports (export_act act4 [7 # 10; -9; 100]) [7 # 10; -9; 100] q.
Proof.
  apply (C101_act_int act4 Floor (1 # 2) 3 true false); try reflexivity.
  - cbn. lia.
  - split; reflexivity.
  - left. split; [reflexivity|]. exists "floor"%string. split; reflexivity.
Qed.
Example C101_act_ex_values :
  option_map out_value (proxy_forward act4 [7 # 10; -9; 100]) = Some [1 * (1 # 2); -11 * (1 # 2); 4 * (1 # 2)].
Proof. reflexivity. Qed.

(** A class that names the module instead of the type. *)
Definition dpu_class : injector := Inj None (Some (IMode DPU)) [] (Some true) (Some false) false.
Example C101_act_impl_ex :
  exists q, proxy_forward (static_proxy dpu_class KInt (1 # 4) 3) [1; 9] = Some q
            /\ exports (export_act (static_proxy dpu_class KInt (1 # 4) 3) [1; 9]) [1; 9] q.
Proof.
  apply (C101_act_int _ DPU (1 # 4) 0 false true); try reflexivity.
  - cbn. lia.
  - split; reflexivity.
  - right. left. split; reflexivity.
Qed.

Example C101_binary_ex :
  exists q, proxy_forward (static_proxy (class "ROUND" true true) KClampedBinary (1 # 10) 1) [3; -1; 0] = Some q
            /\ exports (export_act (static_proxy (class "ROUND" true true) KClampedBinary (1 # 10) 1) [3; -1; 0]) [3; -1; 0] q.
Proof. apply (C101_act_binary _ (1 # 10) 0); try reflexivity; [right; reflexivity|split; reflexivity]. Qed.

(** The default threshold 1/2 is exported exactly, 7/10 is not. *)
Definition tern (t : Q) : qproxy := static_proxy (class "ROUND" true true) (KTernary t) (1 # 10) 2.
Example C101_ternary_ex :
  (forall x, exists q, proxy_forward (tern (1 # 2)) x = Some q /\ exports (export_act (tern (1 # 2)) x) x q)
  /\ ~ (forall x, exists q, proxy_forward (tern (7 # 10)) x = Some q /\ exports (export_act (tern (7 # 10)) x) x q).
Proof.
  assert (N : rounding_named (class "ROUND" true true) Round) by (left; split; [reflexivity|]; exists "ROUND"%string; split; reflexivity).
  split.
  - apply (C101_act_ternary _ (1 # 2) (1 # 10) 0 Round); try reflexivity; try exact N; try (split; reflexivity). discriminate.
  - intros H. apply (C101_act_ternary _ (7 # 10) (1 # 10) 0 Round) in H; try reflexivity; try exact N; try (split; reflexivity); [|discriminate].
    discriminate H.
Qed.

(** Two layers sharing a quantizer with learned rounding. *)
Definition learned4 : qproxy :=
  static_proxy (Inj (Some "LEARNED_ROUND"%string) None [true; false] (Some true) (Some true) false) KInt (1 # 10) 4.
Example C101_weight_ex :
  exists q, proxy_forward learned4 [33 # 100; -2] = Some q
            /\ exports (export_weight learned4 [Tr 5 [1 # 100; 1]; Tr 9 [33 # 100; -2]] 9) (out_value q) q.
Proof.
  apply (C101_weight learned4 [Tr 5 [1 # 100; 1]; Tr 9 [33 # 100; -2]] (1 # 10) 0 (Tr 9 [33 # 100; -2])).
  - split; reflexivity.
  - split; [|reflexivity]. split; [cbn; lia|]. eexists. split; [reflexivity|exact I].
  - intros m' [<-|[<-|[]]]; discriminate.
  - intros m1 m2 [<-|[<-|[]]] [<-|[<-|[]]]; try reflexivity; discriminate.
  - right. left. reflexivity.
Qed.
Example C101_weight_ex_values :
  option_map out_value (proxy_forward learned4 [33 # 100; -2]) = Some [(4 - 0) * (1 # 10); (-7 - 0) * (1 # 10)].
Proof. reflexivity. Qed.

Example C101_decoupled_ex :
  exists q, proxy_forward (static_proxy (class "ROUND_TO_ZERO" true true) (KDecoupled (fun _ => 1 # 3) (fun _ => 0)) (1 # 10) 4) [1] = Some q
  /\ exports (export_weight (static_proxy (class "ROUND_TO_ZERO" true true) (KDecoupled (fun _ => 1 # 3) (fun _ => 0)) (1 # 10) 4)
                [Tr 5 [1]] 5) (out_value q) q.
Proof.
  apply (C101_weight _ [Tr 5 [1]] (1 # 10) 0 (Tr 5 [1])).
  - split; reflexivity.
  - split; [|reflexivity]. split; [cbn; lia|]. eexists. split; [reflexivity|exact I].
  - intros m' [<-|[]]; discriminate.
  - intros m1 m2 [<-|[]] [<-|[]]; reflexivity.
  - left. reflexivity.
Qed.

Example C101_bias_ex :
  exists q, bias_forward (cache_pass int_bias [1; 1 # 2]) (Some (1 # 2)) [1 # 3] = Some q
            /\ exports (export_bias (cache_pass int_bias [1; 1 # 2]) (Some (1 # 2)) [1 # 3]) [1 # 3] q.
Proof.
  apply (C101_bias _ Round (Some (1 # 2)) [1 # 3] (1 # 2) 0 true false); try reflexivity.
  - cbn. lia.
  - left. split; [reflexivity|]. exists "ROUND"%string. split; reflexivity.
Qed.

Example C101_trunc_ex :
  exists q, trunc_forward (class "floor" true false) 8 (1 # 2) 0 10 [37 # 2; -5] = Some q
            /\ exports (export_trunc (class "floor" true false) 8 (1 # 2) 0 10 true [37 # 2; -5]) [37 # 2; -5] q.
Proof.
  apply (C101_trunc _ Floor); [|reflexivity]. left. split; [reflexivity|]. exists "floor"%string. split; reflexivity.
Qed.

Print Assumptions C101_node_determined.
Print Assumptions C101_act_int.
Print Assumptions C101_act_binary.
Print Assumptions C101_act_ternary.
Print Assumptions C101_act_rejected.
Print Assumptions C101_weight.
Print Assumptions C101_decoupled.
Print Assumptions C101_bias.
Print Assumptions C101_bias_needs_cache.
Print Assumptions C101_trunc.
Print Assumptions C101_one_bit_activation_refuted.
Print Assumptions C101_one_bit_weight_refuted.
Print Assumptions C101_rounding_conflict_refuted.
Print Assumptions C101_bias_two_calls_refuted.
Print Assumptions C101_attribute_case_refuted.
