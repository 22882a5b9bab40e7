(** C112: what group-wise quantized tensors hold and what can be done with them. *)
From Coq Require Import String.
From Verif Require Import QUtil Log2Q Ops OpsProofs Minifloat QuantTensor Groupwise GroupwiseProps GroupTensor.
Open Scope Q_scope.

(** ** Indices and broadcasting *)
Lemma unflat_in_box sh n : Forall (fun d => (0 <= d)%Z) sh -> (0 <= n < prodZ sh)%Z -> in_box sh (unflat sh n).
Proof.
  intros F. revert n. induction F as [|d sh Hd F IH]; intros n Hn; cbn [unflat prodZ] in *; [constructor|].
  assert (P : (0 <= prodZ sh)%Z).
  { clear -F. induction F; cbn [prodZ]; [lia|nia]. }
  assert (P1 : (0 < prodZ sh)%Z) by nia.
  constructor.
  - split; [apply Z.div_pos; lia|]. apply Z.div_lt_upper_bound; lia.
  - apply IH. apply Z.mod_pos_bound. exact P1.
Qed.

Lemma in_indices sh idx : in_box sh idx -> In idx (indices sh).
Proof.
  intros H. unfold indices. apply in_map_iff. exists (Z.to_nat (flat sh idx)).
  pose proof (flat_bound _ _ H) as B. split.
  - rewrite Z2Nat.id by lia. apply unflat_flat. exact H.
  - apply in_seq. lia.
Qed.

Lemma indices_in sh idx : Forall (fun d => (0 <= d)%Z) sh -> In idx (indices sh) -> in_box sh idx.
Proof.
  intros F H. unfold indices in H. apply in_map_iff in H. destruct H as (n & <- & H).
  apply in_seq in H. apply unflat_in_box; [exact F|]. lia.
Qed.

Lemma map2_box sh idx : in_box sh idx -> map2 (fun d i => if (d =? 1)%Z then 0%Z else i) sh idx = idx.
Proof.
  induction 1 as [|d i sh idx Hi F IH]; cbn [map2]; [reflexivity|]. rewrite IH.
  destruct (Z.eqb_spec d 1); [|reflexivity]. f_equal. lia.
Qed.

Lemma bread_box x idx : in_box (shape x) idx -> bread x idx = at_ x idx.
Proof.
  intros H. unfold bread. rewrite <- (F2_len _ _ _ H), Nat.sub_diag. cbn [skipn].
  rewrite map2_box by exact H. reflexivity.
Qed.

Lemma bread_scalar x idx : shape x = [] -> bread x idx = at_ x [].
Proof. intros H. unfold bread. rewrite H. reflexivity. Qed.

Lemma bsh_refl a : bsh a a = Some a.
Proof. induction a as [|x a IH]; cbn [bsh]; [reflexivity|]. rewrite IH, Z.eqb_refl. reflexivity. Qed.

Lemma bsh_nil_r a : bsh a [] = Some a.
Proof. destruct a; reflexivity. Qed.

(** A second operand of the same shape, or with a single element. *)
Lemma bop_like f x y : shape y = shape x \/ shape y = [] ->
  bop f x y = Some (T (shape x) (fun idx => f (bread x idx) (bread y idx))).
Proof.
  intros H. unfold bop. destruct H as [H|H]; rewrite H.
  - rewrite bsh_refl, rev_involutive. reflexivity.
  - change (rev []) with (@nil Z). rewrite bsh_nil_r, rev_involutive. reflexivity.
Qed.

Lemma bsh_group_rev post n g pre :
  bsh (post ++ 1%Z :: n :: pre) (post ++ g :: n :: pre) = Some (post ++ g :: n :: pre).
Proof.
  induction post as [|d post IH]; cbn [app bsh].
  - rewrite bsh_refl, Z.eqb_refl. destruct (Z.eqb_spec 1 g) as [<-|E]; reflexivity.
  - rewrite IH, Z.eqb_refl. reflexivity.
Qed.

Lemma rev_group pre (n g : Z) post : rev (pre ++ n :: g :: post) = rev post ++ g :: n :: rev pre.
Proof.
  rewrite rev_app_distr. cbn [rev]. rewrite <- !app_assoc. reflexivity.
Qed.

(** ** What a group-wise tensor is *)
(** The grouped dimension [pre | n groups of g | post], for the dimension numbers the code
    accepts: a non-negative one or -1 for the last. *)
Definition grouped (t : gqt) (pre : list Z) (n g : Z) (post : list Z) : Prop :=
  shape (g_value t) = pre ++ n :: g :: post /\
  (g_dim t = Z.of_nat (List.length pre) \/ (g_dim t = (-1)%Z /\ post = [])) /\
  (1 <= g)%Z /\ Forall (fun d => (0 <= d)%Z) (pre ++ n :: post).
(** A scale or zero point: one number, or one number per group. *)
Definition per_group (m : tens) (pre : list Z) (n : Z) (post : list Z) : Prop :=
  shape m = [] \/ shape m = pre ++ n :: 1%Z :: post.
Definition of_group (m : tens) (ip : list Z) (q : Z) (iq : list Z) : Q :=
  match shape m with [] => at_ m [] | _ => at_ m (ip ++ q :: 0%Z :: iq) end.

Lemma start_pos t pre n g post : grouped t pre n g post ->
  py_pos (List.length (shape (g_value t))) (expand_start (g_dim t)) = List.length pre.
Proof.
  intros (Es & D & _). rewrite Es, app_length. cbn [List.length]. unfold expand_start, py_pos.
  destruct D as [D|[D Ep]]; rewrite D.
  - destruct (Z.eqb_spec (Z.of_nat (List.length pre)) (-1)); [lia|].
    destruct (Z.ltb_spec (Z.of_nat (List.length pre)) 0); lia.
  - subst post. cbn [List.length]. change ((-1 =? -1)%Z) with true. cbv iota. change ((-2 <? 0)%Z) with true.
    cbv iota. lia.
Qed.

Lemma expand_meta_spec t pre n g post m : grouped t pre n g post -> per_group m pre n post ->
  exists s, expand_meta t m = Some s /\ (shape s = pre ++ (n * g)%Z :: post \/ shape s = []) /\
    forall ip p iq, in_box pre ip -> (0 <= p < n * g)%Z -> in_box post iq ->
      bread s (ip ++ p :: iq) = of_group m ip (p / g)%Z iq.
Proof.
  intros Gt Pm. pose proof Gt as (Es & D & Hg & F). destruct Pm as [Pm|Pm].
  - exists m. unfold expand_meta. rewrite Pm. split; [reflexivity|]. split; [right; reflexivity|].
    intros. rewrite bread_scalar by exact Pm. unfold of_group. rewrite Pm. reflexivity.
  - unfold expand_meta. assert (Nn : exists a l, shape m = a :: l).
    { rewrite Pm. destruct pre; cbn [app]; eauto. }
    destruct Nn as (a & l & Nn). rewrite Nn. unfold texpand. rewrite Pm, Es, !rev_group, bsh_group_rev.
    rewrite <- rev_group, rev_involutive. unfold list_eqb.
    destruct (list_eq_dec Z.eq_dec (pre ++ n :: g :: post) (pre ++ n :: g :: post)) as [_|C]; [|congruence].
    cbn [obind].
    set (e := T (pre ++ n :: g :: post) (bread m)).
    assert (Ee : shape e = pre ++ n :: g :: post) by reflexivity.
    assert (Pe : py_pos (List.length (shape e)) (expand_start (g_dim t)) = List.length pre).
    { rewrite Ee, <- Es. eapply start_pos. exact Gt. }
    destruct (flatten2_spec e _ pre n g post Ee Pe) as (y & E1 & E2 & E3).
    exists y. split; [exact E1|]. split; [left; exact E2|].
    intros ip p iq H1 Hp H2. rewrite bread_box by (rewrite E2; apply in_box_app; assumption).
    rewrite E3 by (try assumption; lia).
    assert (Q1 : (0 <= p / g < n)%Z) by (split; [apply Z.div_pos; lia|apply Z.div_lt_upper_bound; lia]).
    unfold of_group. rewrite Nn. subst e. cbn [at_]. unfold bread. rewrite Pm.
    rewrite !app_length. cbn [List.length]. rewrite (F2_len _ _ _ H1), (F2_len _ _ _ H2), Nat.sub_diag.
    cbn [skipn]. f_equal.
    clear -H1 H2 Q1. induction H1 as [|d i pre ip Hi H1 IH]; cbn [app map2].
    + rewrite map2_box by exact H2. change ((1 =? 1)%Z) with true. cbv iota.
      destruct (Z.eqb_spec n 1); [|reflexivity]. f_equal. lia.
    + rewrite IH. destruct (Z.eqb_spec d 1); [|reflexivity]. f_equal. lia.
Qed.

(** Group [q] holds the positions [q*g ... q*g + g - 1] of the public tensor, and the public scale
    and zero point at a position are those of its group. *)
Theorem C112_expand : forall t pre n g post,
  grouped t pre n g post -> per_group (g_scale t) pre n post -> per_group (g_zp t) pre n post ->
  exists v s z, p_value t = Some v /\ p_scale t = Some s /\ p_zero_point t = Some z /\
    shape v = pre ++ (n * g)%Z :: post /\
    (shape s = shape v \/ shape s = []) /\ (shape z = shape v \/ shape z = []) /\
    forall ip p iq, in_box pre ip -> (0 <= p < n * g)%Z -> in_box post iq ->
      at_ v (ip ++ p :: iq) = at_ (g_value t) (ip ++ (p / g)%Z :: (p mod g)%Z :: iq) /\
      bread s (ip ++ p :: iq) = of_group (g_scale t) ip (p / g)%Z iq /\
      bread z (ip ++ p :: iq) = of_group (g_zp t) ip (p / g)%Z iq.
Proof.
  intros t pre n g post Gt Ps Pz. pose proof Gt as (Es & D & Hg & F).
  destruct (flatten2_spec (g_value t) _ pre n g post Es (start_pos _ _ _ _ _ Gt)) as (v & E1 & E2 & E3).
  destruct (expand_meta_spec t pre n g post _ Gt Ps) as (s & S1 & S2 & S3).
  destruct (expand_meta_spec t pre n g post _ Gt Pz) as (z & Z1 & Z2 & Z3).
  exists v, s, z. unfold p_value, p_scale, p_zero_point, expand. rewrite E1. cbn [obind]. rewrite S1. cbn [obind].
  rewrite Z1. cbn [obind option_map fst snd]. rewrite E2.
  do 4 (split; [reflexivity|]). split; [exact S2|]. split; [exact Z2|].
  intros ip p iq H1 Hp H2. split; [|split; [apply S3; assumption|apply Z3; assumption]].
  apply E3; try assumption; lia.
Qed.

Lemma expand_props t v s z : p_value t = Some v -> p_scale t = Some s -> p_zero_point t = Some z ->
  expand t = Some (v, s, z).
Proof.
  unfold p_value, p_scale, p_zero_point. destruct (expand t) as [[[a b] c]|]; cbn [option_map fst snd]; [|discriminate].
  intros. congruence.
Qed.

(** ** Integer codes *)
Definition lo (signed : bool) (bw : Z) : Z := if signed then (- 2 ^ (bw - 1))%Z else 0%Z.
Definition hi (signed : bool) (bw : Z) : Z := if signed then (2 ^ (bw - 1) - 1)%Z else (2 ^ bw - 1)%Z.
(** [c] is the code of element [r] of group [q]: in range, and within a fifth of a step. *)
Definition is_code (t : gqt) (bw : Z) (ip : list Z) (q r : Z) (iq : list Z) (c : Z) : Prop :=
  (lo (g_signed t) bw <= c <= hi (g_signed t) bw)%Z /\
  Qabs (at_ (g_value t) (ip ++ q :: r :: iq) / of_group (g_scale t) ip q iq + of_group (g_zp t) ip q iq - inject_Z c) < 2 # 10.

Lemma roundZ_near p c : Qabs (p - inject_Z c) < 2 # 10 -> roundZ p = c.
Proof.
  intros H. pose proof (roundZ_err p) as R.
  assert (H1 : - (2 # 10) < p - inject_Z c /\ p - inject_Z c < 2 # 10).
  { destruct (Qabs_cases (p - inject_Z c)) as [[A B]|[A B]]; lra. }
  assert (A : inject_Z (roundZ p) < inject_Z c + 1) by lra.
  assert (B : inject_Z c < inject_Z (roundZ p) + 1) by lra.
  apply injz_lt_succ in A. apply injz_lt_succ in B. lia.
Qed.

Lemma pre_spec t pre n g post :
  grouped t pre n g post -> per_group (g_scale t) pre n post -> per_group (g_zp t) pre n post ->
  exists y, g_pre_round t = Some y /\ shape y = pre ++ (n * g)%Z :: post /\
    forall ip p iq, in_box pre ip -> (0 <= p < n * g)%Z -> in_box post iq ->
      at_ y (ip ++ p :: iq) = at_ (g_value t) (ip ++ (p / g)%Z :: (p mod g)%Z :: iq)
        / of_group (g_scale t) ip (p / g)%Z iq + of_group (g_zp t) ip (p / g)%Z iq.
Proof.
  intros Gt Ps Pz. destruct (C112_expand _ _ _ _ _ Gt Ps Pz) as (v & s & z & Ev & Esc & Ez & Sv & Ss & Sz & H).
  unfold g_pre_round. rewrite (expand_props _ _ _ _ Ev Esc Ez). cbn [obind fst snd].
  rewrite (bop_like _ _ _ Ss). cbn [obind].
  rewrite bop_like by (cbn [shape]; exact Sz). eexists. split; [reflexivity|]. cbn [shape at_]. split; [exact Sv|].
  intros ip p iq H1 Hp H2. destruct (H ip p iq H1 Hp H2) as (A & B & C).
  assert (Bx : in_box (shape v) (ip ++ p :: iq)) by (rewrite Sv; apply in_box_app; assumption).
  rewrite C. rewrite bread_box by (cbn [shape]; exact Bx). cbn [at_]. rewrite B, bread_box by exact Bx.
  rewrite A. reflexivity.
Qed.

Lemma cast_id signed bw c : (2 <= bw <= 31)%Z -> (lo signed bw <= c <= hi signed bw)%Z ->
  cast (if (bw <=? 8)%Z && signed then Int8 else if (bw <=? 8)%Z && negb signed then UInt8 else Int32) c = c.
Proof.
  intros Hb Hc.
  assert (P8 : (bw <= 8 -> 2 ^ bw <= 2 ^ 8)%Z) by (intros; apply Z.pow_le_mono_r; lia).
  assert (P31 : (2 ^ bw <= 2 ^ 31)%Z) by (apply Z.pow_le_mono_r; lia).
  assert (Pm : (2 * 2 ^ (bw - 1) = 2 ^ bw)%Z).
  { rewrite <- Z.pow_succ_r by lia. f_equal. lia. }
  assert (Pp : (0 < 2 ^ (bw - 1))%Z) by (apply Z.pow_pos_nonneg; lia).
  change (2 ^ 8)%Z with 256%Z in *. change (2 ^ 31)%Z with 2147483648%Z in *.
  destruct signed; cbn [lo hi negb] in *; rewrite ?Bool.andb_true_r, ?Bool.andb_false_r; cbv iota.
  - destruct (Z.leb_spec bw 8); cbn [cast]; unfold wrap_signed.
    + change (2 ^ (8 - 1))%Z with 128%Z. change (2 ^ 8)%Z with 256%Z. rewrite Z.mod_small by lia. lia.
    + change (2 ^ (32 - 1))%Z with 2147483648%Z. change (2 ^ 32)%Z with 4294967296%Z.
      rewrite Z.mod_small by lia. lia.
  - destruct (Z.leb_spec bw 8); cbn [cast].
    + rewrite Z.mod_small by lia. reflexivity.
    + unfold wrap_signed. change (2 ^ (32 - 1))%Z with 2147483648%Z. change (2 ^ 32)%Z with 4294967296%Z.
      rewrite Z.mod_small by lia. lia.
Qed.

Lemma valid_spec t bw y : (2 <= bw)%Z -> g_pre_round t = Some y ->
  g_is_valid t bw = Some true <->
  (forall idx, In idx (indices (shape y)) ->
     (lo (g_signed t) bw <= roundZ (at_ y idx) <= hi (g_signed t) bw)%Z /\
     Qabs (at_ y idx - inject_Z (roundZ (at_ y idx))) < 2 # 10).
Proof.
  intros Hb Ey. unfold g_is_valid. rewrite Ey. cbn [obind]. destruct (Z.leb_spec 2 bw); [|lia].
  set (L := indices (shape y)). clearbody L.
  assert (G : forall (a b : Z -> bool) (ab : Z -> Prop), (forall c, a c = true /\ b c = true <-> ab c) ->
    (Some (forallb (fun p => Qlt_bool (Qabs (p - inject_Z (roundZ p))) is_valid_atol) (map (at_ y) L)
           && forallb a (map roundZ (map (at_ y) L)) && forallb b (map roundZ (map (at_ y) L))) = Some true
     <-> forall idx, In idx L -> ab (roundZ (at_ y idx)) /\ Qabs (at_ y idx - inject_Z (roundZ (at_ y idx))) < 2 # 10)).
  { intros a b ab Hab. split.
    - intros H0. assert (H1 := f_equal (fun o => match o with Some x => x | None => false end) H0). cbn beta iota in H1.
      apply Bool.andb_true_iff in H1. destruct H1 as [H1 H3]. apply Bool.andb_true_iff in H1. destruct H1 as [H1 H2].
      rewrite forallb_forall in H1, H2, H3. intros idx Hi. split.
      + apply Hab. split; [apply H2|apply H3]; rewrite map_map; apply in_map_iff; exists idx; split; auto.
      + apply Qlt_bool_iff. apply H1. apply in_map. exact Hi.
    - intros H0. f_equal. apply Bool.andb_true_iff. split; [apply Bool.andb_true_iff; split|]; apply forallb_forall; intros x Hx.
      + apply in_map_iff in Hx. destruct Hx as (i & <- & Hi). apply Qlt_bool_iff. apply H0. exact Hi.
      + rewrite map_map in Hx. apply in_map_iff in Hx. destruct Hx as (i & <- & Hi). apply (Hab _). apply H0. exact Hi.
      + rewrite map_map in Hx. apply in_map_iff in Hx. destruct Hx as (i & <- & Hi). apply (Hab _). apply H0. exact Hi. }
  destruct (g_signed t); cbn [lo hi].
  - apply (G _ _ (fun c => - 2 ^ (bw - 1) <= c <= 2 ^ (bw - 1) - 1)%Z). intros c. rewrite !Z.leb_le. lia.
  - apply (G _ _ (fun c => 0 <= c <= 2 ^ bw - 1)%Z). intros c. rewrite !Z.leb_le. lia.
Qed.

Lemma box_split pre a post idx : in_box (pre ++ a :: post) idx ->
  exists ip p iq, idx = ip ++ p :: iq /\ in_box pre ip /\ (0 <= p < a)%Z /\ in_box post iq.
Proof.
  intros H. apply Forall2_app_inv_l in H. destruct H as (ip & rest & H1 & H2 & ->).
  inversion H2 as [|? p ? iq Hp H3]; subst. exists ip, p, iq. auto.
Qed.

Lemma grouped_nonneg t pre n g post : grouped t pre n g post -> Forall (fun d => (0 <= d)%Z) (pre ++ (n * g)%Z :: post).
Proof.
  intros (_ & _ & Hg & F). apply Forall_app in F. destruct F as [F1 F2]. apply Forall_app. split; [exact F1|].
  inversion F2; subst. constructor; [nia|assumption].
Qed.

(** [int()] returns the codes, flattened like the values, in the smallest fitting dtype; and it
    raises when some element has no code. *)
Theorem C112_int : forall t bw pre n g post,
  grouped t pre n g post -> per_group (g_scale t) pre n post -> per_group (g_zp t) pre n post ->
  g_fmt t = FInt bw -> (2 <= bw <= 31)%Z ->
  (forall ip q r iq, in_box pre ip -> (0 <= q < n)%Z -> (0 <= r < g)%Z -> in_box post iq ->
     exists c, is_code t bw ip q r iq c) ->
  exists f d, g_int t = Some (pre ++ (n * g)%Z :: post, f, d) /\
    d = (if (bw <=? 8)%Z then if g_signed t then Int8 else UInt8 else Int32) /\
    forall ip q r iq c, in_box pre ip -> (0 <= q < n)%Z -> (0 <= r < g)%Z -> in_box post iq ->
      is_code t bw ip q r iq c -> f (ip ++ (q * g + r)%Z :: iq) = c.
Proof.
  intros t bw pre n g post Gt Ps Pz Ef Hb Hc. pose proof Gt as (Es & D & Hg & F).
  destruct (pre_spec _ _ _ _ _ Gt Ps Pz) as (y & Ey & Sy & Hy).
  assert (V : g_is_valid t bw = Some true).
  { apply (valid_spec t bw y); [lia|exact Ey|]. intros idx Hi. apply indices_in in Hi.
    2:{ rewrite Sy. eapply grouped_nonneg. exact Gt. }
    rewrite Sy in Hi. apply box_split in Hi. destruct Hi as (ip & p & iq & -> & H1 & Hp & H2).
    rewrite Hy by assumption.
    assert (Q1 : (0 <= p / g < n)%Z) by (split; [apply Z.div_pos; lia|apply Z.div_lt_upper_bound; lia]).
    destruct (Hc ip (p / g)%Z (p mod g)%Z iq H1 Q1 ltac:(apply Z.mod_pos_bound; lia) H2) as (c & R & N).
    rewrite (roundZ_near _ _ N). split; [exact R|exact N]. }
  unfold g_int. rewrite Ef, V. cbn [obind]. rewrite Ey. cbn [obind]. rewrite Sy.
  eexists. eexists. split; [reflexivity|]. split.
  - destruct (bw <=? 8)%Z, (g_signed t); reflexivity.
  - intros ip q r iq c H1 Hq Hr H2 (R & N). cbn beta.
    rewrite Hy by (try assumption; nia).
    assert (Dq : ((q * g + r) / g = q)%Z) by (rewrite Z.div_add_l by lia; rewrite Z.div_small by lia; lia).
    assert (Dr : ((q * g + r) mod g = r)%Z) by (rewrite Z.add_comm, Z_mod_plus_full; apply Z.mod_small; lia).
    rewrite Dq, Dr, (roundZ_near _ _ N). apply cast_id; [lia|exact R].
Qed.

Theorem C112_int_raises : forall t bw pre n g post ip q r iq,
  grouped t pre n g post -> per_group (g_scale t) pre n post -> per_group (g_zp t) pre n post ->
  g_fmt t = FInt bw -> (2 <= bw)%Z ->
  in_box pre ip -> (0 <= q < n)%Z -> (0 <= r < g)%Z -> in_box post iq ->
  (forall c, ~ is_code t bw ip q r iq c) -> g_int t = None.
Proof.
  intros t bw pre n g post ip q r iq Gt Ps Pz Ef Hb H1 Hq Hr H2 Hn. pose proof Gt as (Es & D & Hg & F).
  destruct (pre_spec _ _ _ _ _ Gt Ps Pz) as (y & Ey & Sy & Hy).
  unfold g_int. rewrite Ef. destruct (g_is_valid t bw) as [[|]|] eqn:V; [|reflexivity|reflexivity].
  exfalso. pose proof (proj1 (valid_spec t bw y ltac:(lia) Ey) V) as W.
  specialize (W (ip ++ (q * g + r)%Z :: iq)).
  assert (Hp : (0 <= q * g + r < n * g)%Z) by nia.
  rewrite Hy in W by assumption.
  assert (Dq : ((q * g + r) / g = q)%Z) by (rewrite Z.div_add_l by lia; rewrite Z.div_small by lia; lia).
  assert (Dr : ((q * g + r) mod g = r)%Z) by (rewrite Z.add_comm, Z_mod_plus_full; apply Z.mod_small; lia).
  rewrite Dq, Dr in W.
  destruct W as [W1 W2]. { apply in_indices. rewrite Sy. apply in_box_app; assumption. }
  eapply Hn. split; [exact W1|exact W2].
Qed.

(** The codes reproduce the values: exactly for values on the grid, within a fifth of a step for
    everything [int()] accepts. *)
Theorem C112_int_value : forall t bw ip q r iq c, 0 < of_group (g_scale t) ip q iq ->
  is_code t bw ip q r iq c ->
  Qabs ((inject_Z c - of_group (g_zp t) ip q iq) * of_group (g_scale t) ip q iq - at_ (g_value t) (ip ++ q :: r :: iq))
    < (2 # 10) * of_group (g_scale t) ip q iq.
Proof.
  intros t bw ip q r iq c Hs (_ & N). set (s := of_group (g_scale t) ip q iq) in *.
  set (z := of_group (g_zp t) ip q iq) in *. set (x := at_ (g_value t) _) in *. clearbody s z x.
  assert (E : (inject_Z c - z) * s - x == - ((x / s + z - inject_Z c) * s)) by (field; intro A; rewrite A in Hs; lra).
  rewrite E, Qabs_opp, (Qabs_mul_pos _ _ Hs). apply Qmult_lt_compat_r; assumption.
Qed.

(** ** Binary tensors *)
Lemma unique_const a l : Forall (eq a) l -> (List.length (unique l) <= 1)%nat.
Proof.
  induction 1 as [|b l E F IH]; cbn [unique List.length]; [lia|]. subst b.
  destruct (existsb (Z.eqb a) l) eqn:X; [exact IH|]. destruct l as [|b l].
  - cbn. lia.
  - exfalso. inversion F; subst. cbn [existsb] in X. rewrite Z.eqb_refl in X. discriminate.
Qed.

(** A one-bit tensor whose elements all have the same code is not valid. *)
Theorem C112_binary_constant_refuted : forall t pre n g post a,
  grouped t pre n g post -> per_group (g_scale t) pre n post -> per_group (g_zp t) pre n post ->
  g_fmt t = FInt 1 ->
  (forall ip q r iq, in_box pre ip -> (0 <= q < n)%Z -> (0 <= r < g)%Z -> in_box post iq ->
     at_ (g_value t) (ip ++ q :: r :: iq) / of_group (g_scale t) ip q iq + of_group (g_zp t) ip q iq == inject_Z a) ->
  g_int t = None.
Proof.
  intros t pre n g post a Gt Ps Pz Ef Ha. pose proof Gt as (Es & D & Hg & F).
  destruct (pre_spec _ _ _ _ _ Gt Ps Pz) as (y & Ey & Sy & Hy).
  assert (U : (List.length (unique (map roundZ (map (at_ y) (indices (shape y))))) <= 1)%nat).
  { apply (unique_const a). rewrite map_map. apply Forall_map. apply Forall_forall. intros idx Hi. apply indices_in in Hi.
    2:{ rewrite Sy. eapply grouped_nonneg. exact Gt. }
    rewrite Sy in Hi. apply box_split in Hi. destruct Hi as (ip & p & iq & -> & H1 & Hp & H2).
    rewrite Hy by assumption.
    assert (Q1 : (0 <= p / g < n)%Z) by (split; [apply Z.div_pos; lia|apply Z.div_lt_upper_bound; lia]).
    rewrite (roundZ_eq _ _ (Ha ip (p / g)%Z (p mod g)%Z iq H1 Q1 ltac:(apply Z.mod_pos_bound; lia) H2)).
    symmetry. apply roundZ_int. }
  unfold g_int. rewrite Ef. unfold g_is_valid. rewrite Ey. cbn [obind]. change ((2 <=? 1)%Z) with false. cbv iota.
  destruct (Nat.eqb_spec (List.length (unique (map roundZ (map (at_ y) (indices (shape y)))))) 2) as [E|E]; [lia|].
  rewrite Bool.andb_false_r. reflexivity.
Qed.

(** ** Arithmetic *)
(** Adding, multiplying or dividing gives the plain tensor of the results on the dequantized
    values, for a second operand of the same shape or a number, whatever its kind. *)
Theorem C112_arithmetic : forall t o v w,
  p_value t = Some v -> o_value o = Some w -> shape w = shape v \/ shape w = [] ->
  exists a m d, g_add t o = Some a /\ g_mul t o = Some m /\ g_div t o = Some d /\
    shape a = shape v /\ shape m = shape v /\ shape d = shape v /\
    forall idx, in_box (shape v) idx ->
      let y := if list_eqb (shape w) [] then at_ w [] else at_ w idx in
      at_ a idx = at_ v idx + y /\ at_ m idx = at_ v idx * y /\ at_ d idx = at_ v idx / y.
Proof.
  intros t o v w Ev Ew Sw. unfold g_add, g_mul, g_div, g_op. rewrite Ev, Ew. cbn [obind]. rewrite !(bop_like _ _ _ Sw).
  do 3 eexists. do 3 (split; [reflexivity|]). do 3 (split; [reflexivity|]). intros idx Hi. cbn [at_]. cbv zeta.
  rewrite (bread_box v) by exact Hi.
  assert (R : bread w idx = if list_eqb (shape w) [] then at_ w [] else at_ w idx).
  { unfold list_eqb. destruct (list_eq_dec Z.eq_dec (shape w) []) as [E|E]; [apply bread_scalar; exact E|].
    destruct Sw as [Sw|Sw]; [|congruence]. apply bread_box. rewrite Sw. exact Hi. }
  rewrite R. auto.
Qed.

Theorem C112_add_commutes : forall t u v w,
  p_value t = Some v -> p_value u = Some w -> shape w = shape v ->
  exists a b, g_add t (OGroup u) = Some a /\ g_add u (OGroup t) = Some b /\ shape a = shape b /\
    forall idx, in_box (shape v) idx -> at_ a idx == at_ b idx.
Proof.
  intros t u v w Ev Ew Sw. unfold g_add, g_op. cbn [o_value]. rewrite Ev, Ew. cbn [obind].
  rewrite (bop_like _ v w) by (left; exact Sw). rewrite (bop_like _ w v) by (left; congruence).
  do 2 eexists. split; [reflexivity|]. split; [reflexivity|]. split; [symmetry; exact Sw|].
  intros idx _. cbn [at_]. apply Qplus_comm.
Qed.

(** Subtracting a plain tensor or number works; no group-wise tensor can be negated, so
    subtracting one always raises, and so does the absolute value of a signed one. *)
Theorem C112_sub : forall t x v, p_value t = Some v -> shape x = shape v \/ shape x = [] ->
  exists d, g_sub t (OPlain x) = Some d /\ shape d = shape v /\
    forall idx, in_box (shape v) idx ->
      at_ d idx == at_ v idx - (if list_eqb (shape x) [] then at_ x [] else at_ x idx).
Proof.
  intros t x v Ev Sx. unfold g_sub. cbn [o_neg obind].
  destruct (C112_arithmetic t (OPlain (tmap Qopp x)) v (tmap Qopp x) Ev eq_refl Sx) as (a & m & d & Ea & _ & _ & Sa & _ & _ & H).
  exists a. split; [exact Ea|]. split; [exact Sa|]. intros idx Hi. destruct (H idx Hi) as [A _]. rewrite A.
  cbn [tmap shape at_]. destruct (list_eqb (shape x) []); reflexivity.
Qed.

Lemma no_minifloat t : g_minifloat t = None.
Proof.
  unfold g_minifloat. destruct (g_fmt t) as [bw|e m b]; [reflexivity|].
  unfold f_is_valid, f_pre_round, call_float_internal_scale.
  destruct (expand t) as [[[v s] z]|]; cbn [obind fst snd]; [|reflexivity].
  destruct (bop Qdiv v s); reflexivity.
Qed.

Theorem C112_negation_refuted : forall t u,
  g_minifloat t = None /\ g_neg t = None /\ g_sub u (OGroup t) = None /\
  g_abs t = (if g_signed t then None else Some t).
Proof.
  intros t u. split; [apply no_minifloat|].
  assert (N : g_neg t = None) by (unfold g_neg; rewrite no_minifloat; reflexivity).
  split; [exact N|]. split.
  - unfold g_sub. cbn [o_neg]. rewrite N. reflexivity.
  - unfold g_abs. rewrite no_minifloat. destruct (g_signed t); reflexivity.
Qed.

(** ** Torch functions, layers and caches *)
(** The functions documented to keep a quantized tensor quantized. *)
Definition keeps_quantization (name mode : string) : Prop :=
  In name ["pad"; "relu"; "relu6"; "hardtanh"; "alpha_dropout"; "dropout"; "dropout2d"; "dropout3d";
    "max_pool1d"; "max_pool2d"; "max_pool3d"; "adaptive_max_pool1d"; "adaptive_max_pool2d";
    "adaptive_max_pool3d"; "pixel_shuffle"; "pixel_unshuffle"]%string
  \/ (name = "interpolate"%string /\ (mode = "nearest"%string \/ mode = "nearest_exact"%string)).

Lemma str_in_spec s l : str_in s l = true <-> In s l.
Proof.
  unfold str_in. rewrite existsb_exists. split.
  - intros (x & H & E). apply String.eqb_eq in E. subst x. exact H.
  - intros H. exists s. split; [exact H|apply String.eqb_refl].
Qed.

Lemma handler_raises fn t : quant_invariant_handler fn t = None.
Proof.
  unfold quant_invariant_handler. destruct (p_value t) as [v|]; [cbn [obind]|reflexivity].
  destruct (fn v); reflexivity.
Qed.

(** These functions raise on every group-wise tensor. *)
Theorem C112_functions_refuted : forall name mode fn t,
  keeps_quantization name mode -> torch_function name mode fn t = None.
Proof.
  intros name mode fn t K. unfold torch_function.
  assert (M : str_in name method_fns = false).
  { destruct (str_in name method_fns) eqn:E; [|reflexivity]. apply str_in_spec in E. exfalso.
    destruct K as [K|[K _]].
    - cbn [In method_fns] in E. destruct E as [E|[E|[E|[]]]]; subst name;
        (apply str_in_spec in K; vm_compute in K; discriminate).
    - subst name. cbn [In method_fns] in E. destruct E as [E|[E|[E|[]]]]; discriminate. }
  rewrite M. destruct K as [K|[K K2]].
  - assert (I : str_in name invariant_fns = true) by (apply str_in_spec; exact K).
    rewrite I. apply handler_raises.
  - subst name. change (str_in "interpolate" invariant_fns) with false. cbv iota.
    change ("interpolate" =? "interpolate")%string with true. cbv iota.
    destruct K2 as [->| ->]; apply handler_raises.
Qed.

(** Every other function returns what it returns on the dequantized value. *)
Theorem C112_functions : forall name mode fn t v,
  ~ keeps_quantization name mode -> p_value t = Some v ->
  torch_function name mode fn t = option_map RPlain (fn v).
Proof.
  intros name mode fn t v K Ev. unfold torch_function. rewrite Ev. cbn [obind].
  destruct (str_in name method_fns); [reflexivity|].
  destruct (str_in name invariant_fns) eqn:I.
  { exfalso. apply K. left. apply str_in_spec in I. exact I. }
  destruct (String.eqb_spec name "interpolate") as [E|E]; [|reflexivity].
  destruct ((mode =? "nearest")%string || (mode =? "nearest_exact")%string) eqn:M; [|reflexivity].
  exfalso. apply K. right. split; [exact E|]. apply Bool.orb_true_iff in M. destruct M as [M|M]; apply String.eqb_eq in M; auto.
Qed.

(** No quantized layer takes a group-wise tensor as its input, and a quantizer asked to cache only
    the metadata of a group-wise tensor raises; caching it whole keeps it. *)
Theorem C112_layer_input_refuted : forall t none,
  unpack_input false false (OGroup t) = None /\ cache_io true none t = None.
Proof.
  intros t none. unfold unpack_input, cache_io. cbn [negb andb]. split.
  - destruct (p_value t); reflexivity.
  - destruct (p_value t); [cbn [obind]|reflexivity]. destruct (p_scale t); reflexivity.
Qed.

Theorem C112_cache : forall t none v s, p_value t = Some v -> p_scale t = Some s ->
  cache_io false none t = Some (GC (shape v) (Some v) t s).
Proof. intros t none v s Ev Es. unfold cache_io. rewrite Ev, Es. reflexivity. Qed.

(** ** Examples *)
(** Two rows of two groups of two, with a scale per group. *)
Definition ex_scale : tens := T [2; 2; 1]%Z (fun i => if (nth 1 i 0 =? 0)%Z then 1 # 2 else 3 # 1).
Definition ex_value : tens := T [2; 2; 2]%Z
  (fun i => (if (nth 1 i 0 =? 0)%Z then 1 # 2 else 3 # 1) * inject_Z (nth 0 i 0 + 2 * nth 1 i 0 - 3 * nth 2 i 0)%Z).
Definition ex_t (bw : Z) (gd : Z) : gqt := G ex_value ex_scale (scalar 0) 2 gd (FInt bw) true false.

Example ex_grouped : grouped (ex_t 4 1) [2]%Z 2 2 [] /\ grouped (ex_t 4 (-1)) [2]%Z 2 2 [] /\
  per_group (g_scale (ex_t 4 1)) [2]%Z 2 [] /\ per_group (g_zp (ex_t 4 1)) [2]%Z 2 [].
Proof.
  split; [|split; [|split]].
  - split; [reflexivity|]. split; [left; reflexivity|]. split; [lia|]. repeat constructor; lia.
  - split; [reflexivity|]. split; [right; split; reflexivity|]. split; [lia|]. repeat constructor; lia.
  - right. reflexivity.
  - left. reflexivity.
Qed.
Example ex_int : option_map (fun r => (fst (fst r), map (snd (fst r)) (indices [2; 4]%Z), snd r)) (g_int (ex_t 4 1))
  = Some ([2; 4]%Z, [0; -3; 2; -1; 1; -2; 3; 0]%Z, Int8).
Proof. vm_compute. reflexivity. Qed.
Example ex_int_2 : g_int (ex_t 2 1) = None.
Proof. vm_compute. reflexivity. Qed.
Example ex_add : option_map (fun a => map (fun i => Qred (at_ a i)) (indices [2; 4]%Z)) (g_add (ex_t 4 1) (OPlain (scalar 1)))
  = Some [1; -1 # 2; 7; -2; 3 # 2; 0; 10; 1].
Proof. vm_compute. reflexivity. Qed.
Example ex_relu : torch_function "relu" "" (fun x => Some x) (ex_t 4 1) = None.
Proof. vm_compute. reflexivity. Qed.
Example ex_sigmoid : exists v, torch_function "sigmoid" "" (fun x => Some x) (ex_t 4 1) = Some (RPlain v) /\ shape v = [2; 4]%Z.
Proof. eexists. split; [reflexivity|reflexivity]. Qed.
Example ex_binary : g_int (G (T [1; 1; 2]%Z (fun _ => 1)) (scalar 1) (scalar 0) 2 1 (FInt 1) false false) = None.
Proof. vm_compute. reflexivity. Qed.

Print Assumptions C112_expand.
Print Assumptions C112_int.
Print Assumptions C112_int_raises.
Print Assumptions C112_int_value.
Print Assumptions C112_binary_constant_refuted.
Print Assumptions C112_arithmetic.
Print Assumptions C112_add_commutes.
Print Assumptions C112_sub.
Print Assumptions C112_negation_refuted.
Print Assumptions C112_functions.
Print Assumptions C112_functions_refuted.
Print Assumptions C112_layer_input_refuted.
Print Assumptions C112_cache.
