(** C90: QuantMultiheadAttention computes multi-head attention. *)
From Coq Require Import List Bool String Arith Reals Lra Lia Psatz FunctionalExtensionality.
From Verif Require Import StateDict Mha MhaProofs.
Import ListNotations.
Open Scope R_scope.

(** The inputs of [forward] as (length, batch, features), and the vector of element [n] at position [i]. *)
Definition oriented (m : mha) (x : t3) : t3 := if batch_first m then swap x else x.
Definition len (m : mha) (x : t3) : nat := if batch_first m then d1 x else d0 x.
Definition batch (m : mha) (x : t3) : nat := if batch_first m then d0 x else d1 x.
Definition at_ (m : mha) (x : nat -> nat -> nat -> R) (n i : nat) : nat -> R := if batch_first m then x n i else x i n.

Theorem C90_forward : forall m q k v kp am,
  shapes m (oriented m q) (oriented m k) (oriented m v) -> mask_shapes m (len m q) (batch m q) (len m k) am kp -> mask_kinds am kp ->
  exists o w, forward m q k v kp am = Some (o, w)
  /\ (forall n l e, (n < batch m q)%nat -> (l < len m q)%nat ->
       at_ m o n l e = out_spec m (len m k) am kp (at_ m (e3 q) n) (at_ m (e3 k) n) (at_ m (e3 v) n) n l e)
  /\ (forall n l s, (n < batch m q)%nat -> (l < len m q)%nat -> (s < total m (len m k))%nat ->
       w n l s = rsum (heads m) (fun h => weight_spec m (len m k) am kp (at_ m (e3 q) n) (at_ m (e3 k) n) n h l s) / INR (heads m)).
Proof.
  intros m q k v kp am Sh Ms Mk. unfold forward, oriented, len, batch, at_ in *. destruct (batch_first m).
  - destruct (attention_ok m (swap q) (swap k) (swap v) kp am Sh Ms Mk) as (o & w & E & W & O). rewrite E. do 2 eexists. split; [reflexivity|]. split.
    + intros n l e Hn Hl. exact (O n l e Hn Hl).
    + intros n l s Hn Hl Hs. unfold mean_weights. f_equal. apply rsum_ext. intros h Hh. exact (W n h l s Hn Hh Hl Hs).
  - destruct (attention_ok m q k v kp am Sh Ms Mk) as (o & w & E & W & O). rewrite E. do 2 eexists. split; [reflexivity|]. split.
    + intros n l e Hn Hl. exact (O n l e Hn Hl).
    + intros n l s Hn Hl Hs. unfold mean_weights. f_equal. apply rsum_ext. intros h Hh. exact (W n h l s Hn Hh Hl Hs).
Qed.

(** Without a batch dimension, whatever batch_first says. *)
Definition one_row (k : kmask1) : kmask := match k with K1Bool s f => KBool 1 s (fun _ j => f j) | K1Float s f => KFloat 1 s (fun _ j => f j) end.
Theorem C90_unbatched : forall m q k v kp am,
  shapes m (unsqueeze q) (unsqueeze k) (unsqueeze v) -> mask_shapes m (c0 q) 1 (c0 k) am (option_map one_row kp) -> mask_kinds am (option_map one_row kp) ->
  exists o w, forward2 m q k v kp am = Some (o, w)
  /\ (forall l e, (l < c0 q)%nat -> o l e = out_spec m (c0 k) am (option_map one_row kp) (e2 q) (e2 k) (e2 v) 0 l e)
  /\ (forall l s, (l < c0 q)%nat -> (s < total m (c0 k))%nat ->
       w l s = rsum (heads m) (fun h => weight_spec m (c0 k) am (option_map one_row kp) (e2 q) (e2 k) 0 h l s) / INR (heads m)).
Proof.
  intros m q k v kp am Sh Ms Mk. unfold forward2. change unsqueeze_k with one_row. destruct (attention_ok m _ _ _ _ am Sh Ms Mk) as (o & w & E & W & O). rewrite E. do 2 eexists. split; [reflexivity|]. split.
  - intros l e Hl. exact (O 0%nat l e Nat.lt_0_1 Hl).
  - intros l s Hl Hs. unfold mean_weights. f_equal. apply rsum_ext. intros h Hh. exact (W 0%nat h l s Nat.lt_0_1 Hh Hl Hs).
Qed.

(** ** Weights *)
Lemma exp_nonneg a : 0 <= ext_exp a.
Proof. destruct a as [x|]; cbn; [left; apply exp_pos|lra]. Qed.
Lemma soft_den m S am kp q k n h l s : (s < total m S)%nat -> score_spec m S am kp q k n h l s <> NegInf ->
  0 < rsum (total m S) (fun s' => ext_exp (score_spec m S am kp q k n h l s')).
Proof.
  intros Hs Hf. apply Rlt_le_trans with (ext_exp (score_spec m S am kp q k n h l s)).
  - destruct (score_spec m S am kp q k n h l s); [apply exp_pos|congruence].
  - apply (rsum_ge (total m S) (fun s' => ext_exp (score_spec m S am kp q k n h l s'))); [intros; apply exp_nonneg|exact Hs].
Qed.
(** With the score and weight quantizers off and a key that is not masked, the weights are a distribution. *)
Theorem C90_weights_sum : forall m S am kp q k n h l s0, (forall x, fs m x = x) -> (forall x, fw m x = x) ->
  (s0 < total m S)%nat -> mask_term m S am kp n h l s0 <> NegInf ->
  rsum (total m S) (fun s => weight_spec m S am kp q k n h l s) = 1
  /\ forall s, (s < total m S)%nat -> 0 <= weight_spec m S am kp q k n h l s <= 1
     /\ (weight_spec m S am kp q k n h l s = 0 <-> mask_term m S am kp n h l s = NegInf).
Proof.
  intros m S am kp q k n h l s0 Fs Fw Hs Hm.
  assert (D : 0 < rsum (total m S) (fun s' => ext_exp (score_spec m S am kp q k n h l s'))).
  { apply (soft_den _ _ _ _ _ _ _ _ _ s0 Hs). unfold score_spec. rewrite Fs. destruct (mask_term m S am kp n h l s0); [discriminate|congruence]. }
  split.
  - unfold weight_spec. rewrite (rsum_ext _ _ (fun s => ext_exp (score_spec m S am kp q k n h l s) / rsum (total m S) (fun s' => ext_exp (score_spec m S am kp q k n h l s')))) by (intros; apply Fw).
    rewrite rsum_div. field. lra.
  - intros s H. unfold weight_spec. rewrite Fw. set (D' := rsum _ _) in *.
    assert (A : ext_exp (score_spec m S am kp q k n h l s) <= D') by (apply (rsum_ge (total m S) (fun s' => ext_exp (score_spec m S am kp q k n h l s'))); [intros; apply exp_nonneg|exact H]).
    pose proof (exp_nonneg (score_spec m S am kp q k n h l s)) as P. pose proof (Rinv_0_lt_compat _ D) as I. split; [split|].
    + apply Rmult_le_pos; lra.
    + apply (Rmult_le_reg_r D'); [exact D|]. unfold Rdiv. rewrite Rmult_assoc, Rinv_l by lra. lra.
    + unfold score_spec. rewrite Fs. destruct (mask_term m S am kp n h l s) as [x|]; cbn [ext_add ext_exp]; split; intros G; try discriminate; try reflexivity.
      * exfalso. unfold Rdiv in G. apply Rmult_integral in G as [G|G]; [|lra]. pose proof (exp_pos (x + rsum (hdim m) (fun d => fq m (linear (q_of m) (q l) (h * hdim m + d) / sqrt (INR (hdim m))) * fk m (keys_ext m S k s (h * hdim m + d))))). lra.
      * unfold Rdiv. lra.
Qed.
(** The key added by add_bias_kv or add_zero_attn is never masked. *)
Theorem C90_extra_key : forall m S am kp n h l, (extra_bias m + extra_zero m > 0)%nat -> (S < total m S)%nat /\ mask_term m S am kp n h l S <> NegInf.
Proof. intros. unfold total, mask_term. rewrite Nat.ltb_irrefl. split; [lia|discriminate]. Qed.

(** ** Masked keys
    When the quantizers keep minus infinity and the weight zero, keys that are masked for a query do not
    matter, nor do other queries. *)
Lemma out_masked m S am kp n l q q' k k' v v' e : fs m NegInf = NegInf -> fw m 0 = 0 -> (0 < heads m)%nat -> (heads m * hdim m = embed m)%nat -> cols (out_proj m) = embed m ->
  q l = q' l ->
  (forall h s, (h < heads m)%nat -> (s < S)%nat -> mask_term m S am kp n h l s = NegInf \/ (k s = k' s /\ v s = v' s)) ->
  out_spec m S am kp q k v n l e = out_spec m S am kp q' k' v' n l e.
Proof.
  intros Fs Fw HH HE HO Eq Hk. unfold out_spec. f_equal. apply rsum_ext. intros c Hc. f_equal. unfold context_spec.
  assert (Zd : hdim m <> 0%nat) by nia.
  assert (Hh : (c / hdim m < heads m)%nat) by (apply Nat.div_lt_upper_bound; [exact Zd|nia]). set (h := (c / hdim m)%nat) in *.
  assert (Es : forall s, score_spec m S am kp q k n h l s = score_spec m S am kp q' k' n h l s).
  { intros s. unfold score_spec. rewrite Eq. destruct (Nat.lt_ge_cases s S) as [Hs|Hs].
    - destruct (Hk h s Hh Hs) as [->|[E _]]; [reflexivity|]. do 2 f_equal. apply rsum_ext. intros d _. unfold keys_ext. apply Nat.ltb_lt in Hs. rewrite Hs, E. reflexivity.
    - do 2 f_equal. apply rsum_ext. intros d _. unfold keys_ext. apply Nat.ltb_ge in Hs. rewrite Hs. reflexivity. }
  apply rsum_ext. intros s Hs. unfold weight_spec.
  rewrite (rsum_ext _ (fun s' => ext_exp (score_spec m S am kp q k n h l s')) (fun s' => ext_exp (score_spec m S am kp q' k' n h l s'))) by (intros; rewrite Es; reflexivity).
  rewrite Es. destruct (Nat.lt_ge_cases s S) as [Hl|Hl].
  - destruct (Hk h s Hh Hl) as [Hm|[_ E]].
    + assert (Z : score_spec m S am kp q' k' n h l s = NegInf) by (unfold score_spec; rewrite Hm; exact Fs). rewrite Z. cbn [ext_exp]. unfold Rdiv. rewrite Rmult_0_l, Fw. ring.
    + unfold values_ext. apply Nat.ltb_lt in Hl. rewrite Hl, E. reflexivity.
  - unfold values_ext. apply Nat.ltb_ge in Hl. rewrite Hl. reflexivity.
Qed.
(** Two calls that agree, at element [n], on query [l] and on every key that is not masked for it. *)
Theorem C90_masked_ignored : forall m q k v q' k' v' kp am n l,
  fs m NegInf = NegInf -> fw m 0 = 0 ->
  shapes m (oriented m q) (oriented m k) (oriented m v) -> shapes m (oriented m q') (oriented m k') (oriented m v') ->
  len m q' = len m q -> batch m q' = batch m q -> len m k' = len m k ->
  mask_shapes m (len m q) (batch m q) (len m k) am kp -> mask_kinds am kp ->
  (n < batch m q)%nat -> (l < len m q)%nat ->
  at_ m (e3 q) n l = at_ m (e3 q') n l ->
  (forall h s, (h < heads m)%nat -> (s < len m k)%nat -> mask_term m (len m k) am kp n h l s = NegInf
     \/ (at_ m (e3 k) n s = at_ m (e3 k') n s /\ at_ m (e3 v) n s = at_ m (e3 v') n s)) ->
  exists o w o' w', forward m q k v kp am = Some (o, w) /\ forward m q' k' v' kp am = Some (o', w') /\ forall e, at_ m o n l e = at_ m o' n l e.
Proof.
  intros m q k v q' k' v' kp am n l Fs Fw Sh Sh' El Eb Ek Ms Mk Hn Hl Eq Hk.
  destruct (C90_forward m q k v kp am Sh Ms Mk) as (o & w & E & O & _).
  assert (Ms' : mask_shapes m (len m q') (batch m q') (len m k') am kp) by (rewrite El, Eb, Ek; exact Ms).
  destruct (C90_forward m q' k' v' kp am Sh' Ms' Mk) as (o' & w' & E' & O' & _).
  exists o, w, o', w'. split; [exact E|]. split; [exact E'|]. intros e. rewrite (O n l e Hn Hl), (O' n l e) by (rewrite ?Eb, ?El; assumption). rewrite Ek.
  destruct Sh as (HH & HE & _ & _ & _ & _ & _ & _ & _ & _ & HO & _). apply out_masked; assumption.
Qed.
(** Causal self-attention: the output at a position depends on the positions up to it. *)
Definition causal (L : nat) : amask := A2 (MBool 1 L L (fun _ l s => (l <? s)%nat)).
Theorem C90_causal : forall m x x' n l, fs m NegInf = NegInf -> fw m 0 = 0 ->
  shapes m (oriented m x) (oriented m x) (oriented m x) -> shapes m (oriented m x') (oriented m x') (oriented m x') ->
  len m x' = len m x -> batch m x' = batch m x -> (n < batch m x)%nat -> (l < len m x)%nat ->
  (forall i, (i <= l)%nat -> at_ m (e3 x) n i = at_ m (e3 x') n i) ->
  exists o w o' w', forward m x x x None (Some (causal (len m x))) = Some (o, w) /\ forward m x' x' x' None (Some (causal (len m x))) = Some (o', w')
    /\ forall e, at_ m o n l e = at_ m o' n l e.
Proof.
  intros m x x' n l Fs Fw Sh Sh' El Eb Hn Hl Hx. apply C90_masked_ignored; try assumption.
  - split; [reflexivity|exact I].
  - exact I.
  - apply Hx. lia.
  - intros h s Hh Hs. unfold mask_term. apply Nat.ltb_lt in Hs. rewrite Hs. unfold attn_term, pad_term, causal, mask_value. destruct (Nat.ltb_spec l s) as [H|H]; [left; reflexivity|right]. split; apply Hx; exact H.
Qed.
(** Elements of a batch do not interact, and padding (boolean key padding mask) does not matter. *)
Theorem C90_padding : forall m q k v q' k' v' g n, fs m NegInf = NegInf -> fw m 0 = 0 ->
  shapes m (oriented m q) (oriented m k) (oriented m v) -> shapes m (oriented m q') (oriented m k') (oriented m v') ->
  len m q' = len m q -> batch m q' = batch m q -> len m k' = len m k -> (n < batch m q)%nat ->
  (forall l, (l < len m q)%nat -> at_ m (e3 q) n l = at_ m (e3 q') n l) ->
  (forall s, (s < len m k)%nat -> g n s = true \/ (at_ m (e3 k) n s = at_ m (e3 k') n s /\ at_ m (e3 v) n s = at_ m (e3 v') n s)) ->
  exists o w o' w', forward m q k v (Some (KBool (batch m q) (len m k) g)) None = Some (o, w)
    /\ forward m q' k' v' (Some (KBool (batch m q) (len m k) g)) None = Some (o', w')
    /\ forall l e, (l < len m q)%nat -> at_ m o n l e = at_ m o' n l e.
Proof.
  intros m q k v q' k' v' g n Fs Fw Sh Sh' El Eb Ek Hn Hq Hk.
  assert (Ms : mask_shapes m (len m q) (batch m q) (len m k) None (Some (KBool (batch m q) (len m k) g))) by (split; [exact I|reflexivity]).
  assert (Ms' : mask_shapes m (len m q') (batch m q') (len m k') None (Some (KBool (batch m q) (len m k) g))) by (rewrite El, Eb, Ek; exact Ms).
  destruct (C90_forward m q k v _ None Sh Ms I) as (o & w & E & _). destruct (C90_forward m q' k' v' _ None Sh' Ms' I) as (o' & w' & E' & _).
  exists o, w, o', w'. split; [exact E|]. split; [exact E'|]. intros l e Hl.
  destruct (C90_masked_ignored m q k v q' k' v' (Some (KBool (batch m q) (len m k) g)) None n l) as (o1 & w1 & o2 & w2 & A & B & C); try assumption; try exact I.
  - apply Hq; exact Hl.
  - intros h s Hh Hs. destruct (Hk s Hs) as [G|G]; [left|right; exact G]. unfold mask_term. apply Nat.ltb_lt in Hs. rewrite Hs. cbn. rewrite G. cbn. reflexivity.
  - rewrite A in E. rewrite B in E'. injection E as <- <-. injection E' as <- <-. apply C.
Qed.

(** ** Packed and separate projections *)
Definition with_proj (m : mha) (p : proj) : mha := Mha (embed m) (heads m) p (out_proj m) (bias_kv m) (zero_attn m) (batch_first m) (fq m) (fk m) (fv m) (fs m) (fw m).
(** Two layers that differ in their projections only, with the same rows up to the embedding size. *)
Definition same_rows (E : nat) (a b : lin) : Prop := cols a = cols b /\ forall o, (o < E)%nat -> bs a o = bs b o /\ forall k, wt a o k = wt b o k.
Lemma linear_rows E a b x o : same_rows E a b -> (o < E)%nat -> linear a x o = linear b x o.
Proof. intros [C R] Ho. unfold linear. rewrite C. destruct (R o Ho) as [-> W]. f_equal. apply rsum_ext. intros k _. rewrite W. reflexivity. Qed.
Lemma out_rows m p S am kp q k v n l e : (0 < heads m)%nat -> (heads m * hdim m = embed m)%nat -> cols (out_proj m) = embed m ->
  same_rows (embed m) (q_of m) (q_of (with_proj m p)) -> same_rows (embed m) (k_of m) (k_of (with_proj m p)) -> same_rows (embed m) (v_of m) (v_of (with_proj m p)) ->
  out_spec m S am kp q k v n l e = out_spec (with_proj m p) S am kp q k v n l e.
Proof.
  intros HH HE HO Rq Rk Rv. unfold out_spec. cbn [out_proj with_proj]. f_equal. apply rsum_ext. intros c Hc. f_equal. unfold context_spec.
  change (hdim (with_proj m p)) with (hdim m). change (total (with_proj m p)) with (total m). change (fv (with_proj m p)) with (fv m).
  assert (Zd : hdim m <> 0%nat) by nia.
  assert (Hh : (c / hdim m < heads m)%nat) by (apply Nat.div_lt_upper_bound; [exact Zd|nia]). set (h := (c / hdim m)%nat) in *.
  assert (Es : forall s, score_spec m S am kp q k n h l s = score_spec (with_proj m p) S am kp q k n h l s).
  { intros s. unfold score_spec. change (hdim (with_proj m p)) with (hdim m). change (fs (with_proj m p)) with (fs m). change (fq (with_proj m p)) with (fq m). change (fk (with_proj m p)) with (fk m).
    change (mask_term (with_proj m p)) with (mask_term m). do 2 f_equal. apply rsum_ext. intros d Hd. assert (Ho : (h * hdim m + d < embed m)%nat) by nia.
    rewrite (linear_rows _ _ _ (q l) _ Rq Ho). f_equal. unfold keys_ext. rewrite (linear_rows _ _ _ (k s) _ Rk Ho). reflexivity. }
  apply rsum_ext. intros s Hs. unfold weight_spec. change (total (with_proj m p)) with (total m). change (fw (with_proj m p)) with (fw m).
  rewrite (rsum_ext _ (fun s' => ext_exp (score_spec m S am kp q k n h l s')) (fun s' => ext_exp (score_spec (with_proj m p) S am kp q k n h l s'))) by (intros; rewrite Es; reflexivity).
  rewrite Es. f_equal. f_equal. unfold values_ext. rewrite HO in Hc. rewrite (linear_rows _ _ _ (v s) _ Rv Hc). reflexivity.
Qed.
Theorem C90_packed_separate : forall m w wq wk wv x kp am,
  in_proj m = Packed w -> shapes m (oriented m x) (oriented m x) (oriented m x) ->
  same_rows (embed m) (part w 0) wq -> same_rows (embed m) (part w 1) wk -> same_rows (embed m) (part w 2) wv ->
  mask_shapes m (len m x) (batch m x) (len m x) am kp -> mask_kinds am kp ->
  exists o a o' a', forward m x x x kp am = Some (o, a) /\ forward (with_proj m (Separate wq wk wv)) x x x kp am = Some (o', a')
  /\ forall n l e, (n < batch m x)%nat -> (l < len m x)%nat -> at_ m o n l e = at_ m o' n l e.
Proof.
  intros m w wq wk wv x kp am Ep Sh Rq Rk Rv Ms Mk. set (m' := with_proj m (Separate wq wk wv)).
  assert (Q : q_of m = part w 0 /\ k_of m = part w 1 /\ v_of m = part w 2) by (unfold q_of, k_of, v_of; rewrite Ep; repeat split). destruct Q as (Q & K & V).
  assert (Sh' : shapes m' (oriented m' x) (oriented m' x) (oriented m' x)).
  { unfold shapes in *. rewrite Q, K, V in Sh. destruct Sh as (A1 & A2 & A3 & A4 & A5 & A6 & A7 & A8 & A9 & A10 & A11 & _). destruct Rq as [C1 _], Rk as [C2 _], Rv as [C3 _].
    change (oriented m' x) with (oriented m x). change (q_of m') with wq. change (k_of m') with wk. change (v_of m') with wv. rewrite <- C1, <- C2, <- C3. repeat split; assumption. }
  destruct (C90_forward m x x x kp am Sh Ms Mk) as (o & a & E & O & _). destruct (C90_forward m' x x x kp am Sh' Ms Mk) as (o' & a' & E' & O' & _).
  exists o, a, o', a'. split; [exact E|]. split; [exact E'|]. intros n l e Hn Hl. rewrite (O n l e Hn Hl). change (at_ m o') with (at_ m' o'). rewrite (O' n l e Hn Hl).
  destruct Sh as (HH & HE & _ & _ & _ & _ & _ & _ & _ & _ & HO & _). apply out_rows; try assumption; [rewrite Q|rewrite K|rewrite V]; assumption.
Qed.

(** ** What raises *)
(** Different key and value sizes raise: [forward] never says that the projections are separate. *)
Theorem C90_kdim_vdim_raises : forall m q k v kp am, d2 k <> d2 v -> forward m q k v kp am = None.
Proof.
  intros m q k v kp am H. unfold forward. apply Nat.eqb_neq in H.
  assert (A : forall q k v, (d2 k =? d2 v)%nat = false -> attention m q k v kp am = None). { intros q0 k0 v0 H0. unfold attention. rewrite H0, !andb_false_r. reflexivity. }
  destruct (batch_first m); rewrite A by exact H; reflexivity.
Qed.
(** A packed layer takes one tensor. *)
Theorem C90_packed_cross_raises : forall m w q k v kp am, in_proj m = Packed w -> ptr k <> ptr q \/ ptr v <> ptr q -> forward m q k v kp am = None.
Proof.
  intros m w q k v kp am Hw H. unfold forward.
  assert (A : forall q k v, ptr k <> ptr q \/ ptr v <> ptr q -> attention m q k v kp am = None).
  { intros q0 k0 v0 H0. unfold attention, project. rewrite Hw.
    assert (G : (ptr k0 =? ptr q0)%nat && (ptr v0 =? ptr q0)%nat = false) by (destruct H0 as [H0|H0]; apply Nat.eqb_neq in H0; rewrite H0; rewrite ?andb_false_r; reflexivity).
    rewrite G. destruct (negb _); reflexivity. }
  destruct (batch_first m); rewrite A by exact H; reflexivity.
Qed.
(** Two floating point masks raise. *)
Theorem C90_two_float_masks_raise : forall m q k v n s f a0 l b g, forward m q k v (Some (KFloat n s f)) (Some (A2 (MFloat a0 l b g))) = None
  /\ forward m q k v (Some (KFloat n s f)) (Some (A3 (MFloat a0 l b g))) = None.
Proof.
  intros.
  assert (A : forall q k v am, match am with A2 x | A3 x => match x with MFloat _ _ _ _ => True | _ => False end end -> attention m q k v (Some (KFloat n s f)) (Some am) = None).
  { intros q0 k0 v0 am Ha. unfold attention. destruct (negb _); [reflexivity|]. destruct (project m q0 k0 v0) as [p|]; [|reflexivity]. destruct (check_mask m _ _ _ _) as [a|] eqn:C; [|reflexivity].
    assert (Hf : exists a1 a2 a3 a4, a = Some (MFloat a1 a2 a3 a4)).
    { unfold check_mask in C. destruct am as [x|x]; destruct x; try contradiction; cbn [sizes3] in C; destruct (_ && _); try discriminate; injection C as <-; do 4 eexists; reflexivity. }
    destruct Hf as (a1 & a2 & a3 & a4 & ->). destruct (p 1%nat) as [S1 kp1]. destruct (bias_kv m) as [[bk bv]|], (zero_attn m); unfold merge_masks; cbn [option_map pad3 padk ksizes]; destruct (negb _); reflexivity. }
  unfold forward. destruct (batch_first m); split; rewrite A by exact I; reflexivity.
Qed.

(** ** Findings *)
(** A softmax input quantizer that returns finite values: every masked key keeps a positive weight. *)
Theorem C90_score_quant_leaks : forall m S am kp q k n h l s, (forall x, fs m x <> NegInf) -> (forall x, fw m x = x) -> (s < total m S)%nat ->
  0 < weight_spec m S am kp q k n h l s.
Proof.
  intros m S am kp q k n h l s Fs Fw Hs. unfold weight_spec. rewrite Fw.
  assert (D := soft_den m S am kp q k n h l s Hs (Fs _)). apply Rdiv_lt_0_compat; [|exact D].
  unfold score_spec. generalize (ext_add (mask_term m S am kp n h l s) (rsum (hdim m) (fun d => fq m (linear (q_of m) (q l) (h * hdim m + d) / sqrt (INR (hdim m))) * fk m (keys_ext m S k s (h * hdim m + d))))).
  intros x. specialize (Fs x). destruct (fs m x); [apply exp_pos|congruence].
Qed.

Definition id_lin (n : nat) : lin := Lin n n (fun o k => if (o =? k)%nat then 1 else 0) (fun _ => 0).
(** Whether key and value are the query is told by data pointers: a slice starting at the same address passes.
    The class token attends over a sequence; the layer attends over the class token alone. *)
Definition value_only : mha := Mha 1 1 (Packed (Lin 3 1 (fun o _ => if (o =? 2)%nat then 1 else 0) (fun _ => 0))) (id_lin 1) None false false (fun x => x) (fun x => x) (fun x => x) (fun x => x) (fun x => x).
Definition tokens (n : nat) : t3 := T3 7 n 1 1 (fun i _ _ => 2 * INR i).
Theorem C90_pointer_only : forall m w q k v, in_proj m = Packed w -> ptr k = ptr q -> ptr v = ptr q ->
  d0 k = d0 v -> d1 k = d1 v -> d2 k = d2 v -> forward m q k v None None = forward m q q q None None.
Proof.
  intros m w q k v Hw Pk Pv E0 E1 E2. unfold forward.
  assert (A : forall q k v, ptr k = ptr q -> ptr v = ptr q -> d0 k = d0 v -> d1 k = d1 v -> d2 k = d2 v -> attention m q k v None None = attention m q q q None None).
  { intros q0 k0 v0 H1 H2 H3 H4 H5. unfold attention, project, fits. rewrite Hw, H1, H2, H3, H4, H5, !Nat.eqb_refl. reflexivity. }
  destruct (batch_first m); [rewrite (A (swap q) (swap k) (swap v)) by (cbn; assumption)|rewrite (A q k v) by assumption]; reflexivity.
Qed.
Lemma value_only_score S q k n l s : score_spec value_only S None None q k n 0 l s = Fin 0.
Proof.
  unfold score_spec, mask_term. assert (E : (if (s <? S)%nat then ext_plus (attn_term value_only None n 0 l s) (pad_term None n s) else Fin 0) = Fin 0).
  { destruct (s <? S)%nat; [cbn; f_equal; lra|reflexivity]. }
  rewrite E. cbn [fs value_only ext_add]. f_equal. change (hdim value_only) with 1%nat. cbn [rsum]. cbn [fq fk value_only]. set (b := keys_ext _ _ _ _ _).
  assert (Z : linear (q_of value_only) (q l) (0 * 1 + 0) = 0) by (unfold linear, q_of, part; cbn [in_proj value_only cols rows wt bs rsum]; change (3 / 3 * 0 + (0 * 1 + 0) =? 2)%nat with false; cbn iota; ring). rewrite Z. unfold Rdiv. ring.
Qed.
Lemma value_only_out S q k v n l : out_spec value_only S None None q k v n l 0 = rsum S (fun s => v s 0%nat) / INR S.
Proof.
  unfold out_spec. cbn [out_proj value_only id_lin cols rsum wt bs Nat.eqb]. rewrite Rplus_0_l, Rmult_1_r, Rplus_0_r. unfold context_spec.
  assert (T : total value_only S = S) by (unfold total; cbn; lia). rewrite T. change (hdim value_only) with 1%nat. change (0 / 1)%nat with 0%nat.
  assert (D : rsum S (fun _ => 1) = INR S) by (induction S as [|S' IH]; [reflexivity|]; rewrite S_INR; cbn [rsum]; rewrite IH; [reflexivity|unfold total; cbn; lia]).
  rewrite <- rsum_div. apply rsum_ext. intros s Hs. unfold weight_spec. rewrite T, value_only_score.
  rewrite (rsum_ext S _ (fun _ => 1)) by (intros; rewrite value_only_score; cbn; apply exp_0). rewrite D. cbn [ext_exp fw fv value_only]. rewrite exp_0.
  unfold values_ext. apply Nat.ltb_lt in Hs. rewrite Hs.
  replace (linear (v_of value_only) (v s) 0) with (v s 0%nat) by (unfold linear, v_of, part; cbn [in_proj value_only cols rows wt bs rsum]; change (3 / 3 * 2 + 0 =? 2)%nat with true; cbn iota; ring). unfold Rdiv. ring.
Qed.
Theorem C90_same_pointer_refuted : exists m q k o w,
  e3 q = e3 k /\ ptr q = ptr k /\ (d0 q < d0 k)%nat /\ d1 q = d1 k /\ d2 q = embed m /\ d2 k = embed m
  /\ forward m q k k None None = Some (o, w)
  /\ at_ m o 0 0 0 <> out_spec m (d0 k) None None (at_ m (e3 q) 0) (at_ m (e3 k) 0) (at_ m (e3 k) 0) 0 0 0.
Proof.
  destruct (C90_forward value_only (tokens 1) (tokens 1) (tokens 1) None None) as (o & w & E & O & _).
  - repeat split; cbn; lia.
  - split; exact I.
  - exact I.
  - exists value_only, (tokens 1), (tokens 2), o, w. split; [reflexivity|]. split; [reflexivity|]. split; [cbn; lia|]. do 3 (split; [reflexivity|]).
    split; [rewrite <- E; apply (C90_pointer_only _ (Lin 3 1 (fun o _ => if (o =? 2)%nat then 1 else 0) (fun _ => 0))); reflexivity|].
    rewrite (O 0%nat 0%nat 0%nat) by (cbn; lia). rewrite !value_only_out. cbn. lra.
Qed.
(** A floating point key padding mask next to a boolean attention mask: any entry other than zero masks the key. *)
Definition as_bool (k : kmask) : kmask := match k with KBool n s f => KBool n s f | KFloat n s f => KBool n s (fun i j => nonzero (f i j)) end.
Lemma nonzero_0 : nonzero (Fin 0) = false.
Proof. cbn. destruct (Req_EM_T 0 0); [reflexivity|congruence]. Qed.
Lemma as_bool_pad k : as_bool (padk k) = padk (as_bool k).
Proof.
  destruct k as [n s f|n s f]; [reflexivity|]. cbn [padk as_bool]. f_equal. extensionality i. extensionality j. destruct (j <? s)%nat; [reflexivity|apply nonzero_0].
Qed.
Lemma merge_as_bool m N S n l s f k : merge_masks m N S (Some (MBool n l s f)) (Some k) = merge_masks m N S (Some (MBool n l s f)) (Some (as_bool k)).
Proof. destruct k; reflexivity. Qed.
Definition bool_mask (a : amask) : Prop := match a with A2 (MBool _ _ _ _) | A3 (MBool _ _ _ _) => True | _ => False end.
Theorem C90_float_padding : forall m q k v kp a, bool_mask a -> forward m q k v (Some kp) (Some a) = forward m q k v (Some (as_bool kp)) (Some a).
Proof.
  intros m q k v kp a Ha.
  assert (A : forall q k v, attention m q k v (Some kp) (Some a) = attention m q k v (Some (as_bool kp)) (Some a)).
  { intros q0 k0 v0. unfold attention. destruct (negb _); [reflexivity|]. destruct (project m q0 k0 v0) as [p|]; [|reflexivity]. destruct (check_mask m _ _ _ _) as [b|] eqn:C; [|reflexivity].
    assert (Hf : exists a1 a2 a3 a4, b = Some (MBool a1 a2 a3 a4)).
    { unfold check_mask in C. destruct a as [x|x]; destruct x; try contradiction; cbn [sizes3] in C; destruct (_ && _); try discriminate; injection C as <-; do 4 eexists; reflexivity. }
    destruct Hf as (a1 & a2 & a3 & a4 & ->). destruct (p 1%nat) as [S1 kp1].
    destruct (bias_kv m) as [[bk bv]|], (zero_attn m); cbn [option_map pad3]; rewrite merge_as_bool, ?as_bool_pad; reflexivity. }
  unfold forward. rewrite !A. reflexivity.
Qed.
(** Its entries are added to the scores in torch's layer, and in this one without an attention mask. *)
Theorem C90_float_padding_refuted : exists m q kp o w,
  shapes m q q q /\ mask_shapes m (d0 q) 1 (d0 q) (Some (A2 (MBool 1 (d0 q) (d0 q) (fun _ _ _ => false)))) (Some kp)
  /\ forward m q q q (Some kp) (Some (A2 (MBool 1 (d0 q) (d0 q) (fun _ _ _ => false)))) = Some (o, w)
  /\ mask_term m (d0 q) (Some (A2 (MBool 1 (d0 q) (d0 q) (fun _ _ _ => false)))) (Some kp) 0 0 0 1 = Fin (0 + -1) /\ w 0%nat 0%nat 1%nat = 0.
Proof.
  set (a := A2 (MBool 1 2 2 (fun _ _ _ => false))). set (kp := KFloat 1 2 (fun _ s => Fin (if (s =? 1)%nat then -1 else 0))).
  assert (Sh : shapes value_only (tokens 2) (tokens 2) (tokens 2)) by (repeat split; cbn; lia).
  destruct (C90_forward value_only (tokens 2) (tokens 2) (tokens 2) (Some (as_bool kp)) (Some a) Sh) as (o & w & E & _ & W); [split; reflexivity|exact I|].
  exists value_only, (tokens 2), kp, o, w. split; [exact Sh|]. split; [split; reflexivity|]. split; [rewrite <- E; apply C90_float_padding; exact I|]. split; [reflexivity|].
  rewrite W by (cbn; lia). cbn [heads value_only rsum].
  assert (Z : score_spec value_only 2 (Some a) (Some (as_bool kp)) (at_ value_only (e3 (tokens 2)) 0) (at_ value_only (e3 (tokens 2)) 0) 0 0 0 1 = NegInf).
  { unfold score_spec, mask_term. change (1 <? 2)%nat with true. cbn iota. unfold attn_term, a, mask_value, pad_term, kp, as_bool, nonzero. cbn [Nat.eqb]. destruct (Req_EM_T (-1) 0) as [H|H]; [lra|]. reflexivity. }
  unfold weight_spec. change (len value_only (tokens 2)) with 2%nat. rewrite Z. cbn [ext_exp fw value_only]. unfold Rdiv. ring.
Qed.

(** ** The hypotheses are met *)
Definition two_heads (bf : bool) (p : proj) : mha := Mha 4 2 p (id_lin 4) (Some (fun _ => 1, fun _ => 2)) true bf (fun x => x / 2) (fun x => x) (fun x => x) (fun x => x) (fun x => x).
Definition sample (n l : nat) : t3 := T3 1 n l 4 (fun i j k => INR (i + j * k)).
Definition triple : lin := Lin 12 4 (fun o k => INR (o * k)) (fun o => INR o).
Example C90_forward_packed : forall bf, shapes (two_heads bf (Packed triple)) (oriented (two_heads bf (Packed triple)) (sample 3 3)) (oriented (two_heads bf (Packed triple)) (sample 3 3)) (oriented (two_heads bf (Packed triple)) (sample 3 3))
  /\ mask_shapes (two_heads bf (Packed triple)) 3 3 3 (Some (causal 3)) (Some (KBool 3 3 (fun n s => (2 - n <? s)%nat))).
Proof. intros []; repeat split; cbn; lia. Qed.
Example C90_forward_cross : shapes (two_heads false (Separate (part triple 0) (Lin 4 5 (fun _ _ => 1) (fun _ => 0)) (Lin 4 5 (fun _ _ => 2) (fun _ => 0)))) (sample 2 3) (T3 2 6 3 5 (fun _ _ _ => 1)) (T3 3 6 3 5 (fun _ _ _ => 2))
  /\ mask_shapes (two_heads false (Packed triple)) 2 3 6 (Some (A3 (MFloat 6 2 6 (fun i l s => Fin (INR (i + l + s)))))) None /\ total (two_heads false (Packed triple)) 6 = 8%nat.
Proof. repeat split; cbn; lia. Qed.
Example C90_unbatched_ex : shapes (two_heads true (Packed triple)) (unsqueeze (T2 1 3 4 (fun i j => INR (i + j)))) (unsqueeze (T2 1 3 4 (fun i j => INR (i + j)))) (unsqueeze (T2 1 3 4 (fun i j => INR (i + j))))
  /\ mask_shapes (two_heads true (Packed triple)) 3 1 3 None (option_map one_row (Some (K1Float 3 (fun s => Fin (INR s))))).
Proof. repeat split; cbn; lia. Qed.
Example C90_weights_ex : (2 < total (two_heads false (Packed triple)) 3)%nat /\ mask_term (two_heads false (Packed triple)) 3 (Some (causal 3)) None 0 1 2 2 <> NegInf
  /\ mask_term (two_heads false (Packed triple)) 3 (Some (causal 3)) None 0 1 1 2 = NegInf.
Proof. repeat split; cbn; try lia; discriminate. Qed.
(** Two different sequences with the same beginning. *)
Example C90_causal_ex : forall i, (i <= 1)%nat -> at_ (two_heads false (Packed triple)) (e3 (sample 3 1)) 0 i = at_ (two_heads false (Packed triple)) (fun i j k => if (i <=? 1)%nat then INR (i + j * k) else 9) 0 i.
Proof. intros i H. apply Nat.leb_le in H. extensionality k. cbn [at_ two_heads batch_first sample e3]. unfold at_. cbn [batch_first two_heads]. rewrite H. reflexivity. Qed.
Example C90_rows_ex : same_rows 4 (part triple 1) (Lin 4 4 (fun o k => INR ((4 + o) * k)) (fun o => INR (4 + o))).
Proof. split; [reflexivity|]. intros o H. split; reflexivity. Qed.
Example C90_leak_ex : let m := Mha 1 1 (Packed (id_lin 3)) (id_lin 1) None false false (fun x => x) (fun x => x) (fun x => x) (fun x => Fin (match x with Fin r => Rmax (-8) r | NegInf => -8 end)) (fun x => x) in
  (forall x, fs m x <> NegInf) /\ mask_term m 2 (Some (causal 2)) None 0 0 0 1 = NegInf /\ 0 < weight_spec m 2 (Some (causal 2)) None (fun _ _ => 1) (fun _ _ => 1) 0 0 0 1.
Proof.
  intros m. split; [intros x; discriminate|]. split; [reflexivity|]. apply C90_score_quant_leaks; [intros x; discriminate|reflexivity|cbn; lia].
Qed.
Print Assumptions C90_forward.
Print Assumptions C90_unbatched.
Print Assumptions C90_weights_sum.
Print Assumptions C90_extra_key.
Print Assumptions C90_masked_ignored.
Print Assumptions C90_causal.
Print Assumptions C90_padding.
Print Assumptions C90_packed_separate.
Print Assumptions C90_kdim_vdim_raises.
Print Assumptions C90_packed_cross_raises.
Print Assumptions C90_two_float_masks_raise.
Print Assumptions C90_score_quant_leaks.
Print Assumptions C90_pointer_only.
Print Assumptions C90_same_pointer_refuted.
Print Assumptions C90_float_padding.
Print Assumptions C90_float_padding_refuted.
