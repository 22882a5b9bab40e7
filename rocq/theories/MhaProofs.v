(** Specification of multi-head attention and proofs about the model of QuantMultiheadAttention. *)
From Coq Require Import List Bool String Arith Reals Lra Lia Psatz.
From Verif Require Import StateDict Mha.
Import ListNotations.
Open Scope R_scope.

Lemma rsum_ext n f g : (forall i, (i < n)%nat -> f i = g i) -> rsum n f = rsum n g.
Proof. induction n as [|n IH]; intros H; [reflexivity|]. cbn [rsum]. rewrite IH, H by (intros; try apply H; lia). reflexivity. Qed.
Lemma rsum_zero n f : (forall i, (i < n)%nat -> f i = 0) -> rsum n f = 0.
Proof. induction n as [|n IH]; intros H; [reflexivity|]. cbn [rsum]. rewrite IH, H by (intros; try apply H; lia). lra. Qed.
Lemma rsum_nonneg n f : (forall i, (i < n)%nat -> 0 <= f i) -> 0 <= rsum n f.
Proof. induction n as [|n IH]; intros H; [cbn; lra|]. cbn [rsum]. pose proof (IH (fun i Hi => H i (Nat.lt_lt_succ_r _ _ Hi))). pose proof (H n (Nat.lt_succ_diag_r n)). lra. Qed.
Lemma rsum_ge n f i : (forall j, (j < n)%nat -> 0 <= f j) -> (i < n)%nat -> f i <= rsum n f.
Proof.
  induction n as [|n IH]; intros H Hi; [lia|]. cbn [rsum]. pose proof (rsum_nonneg n f (fun j Hj => H j (Nat.lt_lt_succ_r _ _ Hj))).
  destruct (Nat.eq_dec i n) as [->|Ne]; [lra|]. pose proof (IH (fun j Hj => H j (Nat.lt_lt_succ_r _ _ Hj)) ltac:(lia)). pose proof (H n (Nat.lt_succ_diag_r n)). lra.
Qed.
Lemma rsum_div n f c : rsum n (fun i => f i / c) = rsum n f / c.
Proof. induction n as [|n IH]; cbn [rsum]; [unfold Rdiv; ring|]. rewrite IH. unfold Rdiv. ring. Qed.

(** ** The specification *)
(** A linear layer on a vector. *)
Definition linear (w : lin) (x : nat -> R) (o : nat) : R := rsum (cols w) (fun k => x k * wt w o k) + bs w o.
(** The three projections of a layer. *)
Definition part (w : lin) (j : nat) : lin := Lin (rows w / 3)%nat (cols w) (fun o k => wt w (rows w / 3 * j + o)%nat k) (fun o => bs w (rows w / 3 * j + o)%nat).
Definition q_of (m : mha) : lin := match in_proj m with Packed w => part w 0 | Separate q _ _ => q end.
Definition k_of (m : mha) : lin := match in_proj m with Packed w => part w 1 | Separate _ k _ => k end.
Definition v_of (m : mha) : lin := match in_proj m with Packed w => part w 2 | Separate _ _ v => v end.
Definition extra_bias (m : mha) : nat := match bias_kv m with Some _ => 1 | None => 0 end.
Definition extra_zero (m : mha) : nat := if zero_attn m then 1 else 0.
(** The keys of a batch element: the projected ones, then the learned one, then zero. *)
Definition keys_ext (m : mha) (S : nat) (x : nat -> nat -> R) (s c : nat) : R :=
  if (s <? S)%nat then linear (k_of m) (x s) c
  else if (s <? S + extra_bias m)%nat then match bias_kv m with Some b => fst b c | None => 0 end else 0.
Definition values_ext (m : mha) (S : nat) (x : nat -> nat -> R) (s c : nat) : R :=
  if (s <? S)%nat then linear (v_of m) (x s) c
  else if (s <? S + extra_bias m)%nat then match bias_kv m with Some b => snd b c | None => 0 end else 0.
(** What the masks add to the score of key [s < S] for head [h] of element [n]. *)
Definition ext_plus (a b : ext) : ext := match a with NegInf => NegInf | Fin x => match b with Fin y => Fin (x + y) | NegInf => NegInf end end.
Definition mask_value (k : mask3) (i l s : nat) : ext := match k with MBool _ _ _ f => if f i l s then NegInf else Fin 0 | MFloat _ _ _ f => f i l s end.
Definition attn_term (m : mha) (a : option amask) (n h l s : nat) : ext :=
  match a with None => Fin 0 | Some (A2 k) => mask_value k 0 l s | Some (A3 k) => mask_value k (n * heads m + h) l s end.
Definition pad_term (k : option kmask) (n s : nat) : ext :=
  match k with None => Fin 0 | Some (KBool _ _ g) => if g n s then NegInf else Fin 0 | Some (KFloat _ _ g) => g n s end.
Definition mask_term (m : mha) (S : nat) (a : option amask) (k : option kmask) (n h l s : nat) : ext :=
  if (s <? S)%nat then ext_plus (attn_term m a n h l s) (pad_term k n s) else Fin 0.
(** Score, weight, context and output for query [l] of element [n]: q, k and v are sequences of vectors. *)
Section Spec.
Variables (m : mha) (S : nat) (a : option amask) (kp : option kmask) (q k v : nat -> nat -> R) (n : nat).
Definition total : nat := (S + extra_bias m + extra_zero m)%nat.
Definition score_spec (h l s : nat) : ext :=
  fs m (ext_add (mask_term m S a kp n h l s)
    (rsum (hdim m) (fun d => fq m (linear (q_of m) (q l) (h * hdim m + d) / sqrt (INR (hdim m))) * fk m (keys_ext m S k s (h * hdim m + d))))).
Definition weight_spec (h l s : nat) : R := fw m (ext_exp (score_spec h l s) / rsum total (fun s' => ext_exp (score_spec h l s'))).
Definition context_spec (l c : nat) : R := rsum total (fun s => weight_spec (c / hdim m) l s * fv m (values_ext m S v s c)).
Definition out_spec (l e : nat) : R := rsum (cols (out_proj m)) (fun c => context_spec l c * wt (out_proj m) e c) + bs (out_proj m) e.
End Spec.

(** ** Views *)
Lemma view_split N H D x l n h d : (n < N)%nat -> (h < H)%nat -> (d < D)%nat -> view N (D * H) (N * H) D x l (n * H + h) d = x l n (h * D + d)%nat.
Proof.
  intros Hn Hh Hd. unfold view, flat.
  set (e := (h * D + d)%nat). assert (He : (e < D * H)%nat) by (unfold e; nia).
  assert (Ei : (l * (N * H * D) + (n * H + h) * D + d = (l * N + n) * (D * H) + e)%nat) by (unfold e; nia).
  rewrite Ei. assert (Z1 : (D * H <> 0)%nat) by nia.
  assert (E1 : (((l * N + n) * (D * H) + e) / (D * H) = l * N + n)%nat) by (rewrite Nat.div_add_l by exact Z1; rewrite (Nat.div_small e) by exact He; lia).
  assert (E2 : (((l * N + n) * (D * H) + e) mod (D * H) = e)%nat) by (rewrite Nat.add_comm, Nat.mod_add by exact Z1; apply Nat.mod_small; exact He).
  rewrite E2. rewrite (Nat.mul_comm N (D * H)), <- Nat.div_div by lia. rewrite E1. f_equal.
  - rewrite Nat.div_add_l by lia. rewrite (Nat.div_small n N Hn). lia.
  - rewrite Nat.add_comm, Nat.mod_add by lia. apply Nat.mod_small; exact Hn.
Qed.
Lemma view_merge N H D x l n c : (n < N)%nat -> (c < D * H)%nat -> view (N * H) D N (D * H) x l n c = x l (n * H + c / D)%nat (c mod D)%nat.
Proof.
  intros Hn Hc. unfold view, flat. assert (Z1 : (D <> 0)%nat) by nia. assert (Zh : (H <> 0)%nat) by nia.
  set (h := (c / D)%nat). set (d := (c mod D)%nat). assert (Ec : (c = D * h + d)%nat) by (unfold h, d; apply Nat.div_mod; exact Z1).
  assert (Hd : (d < D)%nat) by (apply Nat.mod_upper_bound; exact Z1). assert (Hh : (h < H)%nat) by (apply Nat.div_lt_upper_bound; [exact Z1|exact Hc]).
  assert (Ei : (l * (N * (D * H)) + n * (D * H) + c = (l * (N * H) + (n * H + h)) * D + d)%nat) by (rewrite Ec; nia).
  rewrite Ei.
  assert (E1 : (((l * (N * H) + (n * H + h)) * D + d) / D = l * (N * H) + (n * H + h))%nat) by (rewrite Nat.div_add_l by exact Z1; rewrite (Nat.div_small d) by exact Hd; lia).
  assert (E2 : (((l * (N * H) + (n * H + h)) * D + d) mod D = d)%nat) by (rewrite Nat.add_comm, Nat.mod_add by exact Z1; apply Nat.mod_small; exact Hd).
  rewrite E2. rewrite (Nat.mul_comm (N * H) D), <- Nat.div_div by nia. rewrite E1.
  assert (Hb : (n * H + h < N * H)%nat) by nia. f_equal.
  - rewrite Nat.div_add_l by nia. rewrite (Nat.div_small (n * H + h)) by exact Hb. lia.
  - rewrite Nat.add_comm, Nat.mod_add by nia. apply Nat.mod_small; exact Hb.
Qed.
Lemma head_batch n H h : (h < H)%nat -> ((n * H + h) / H = n)%nat.
Proof. intros Hh. rewrite Nat.div_add_l by lia. rewrite Nat.div_small by exact Hh. lia. Qed.

(** ** Projections *)
Lemma apply_linear w x i b o : apply_lin w x i b o = linear w (x i b) o.
Proof. reflexivity. Qed.

(** The shapes [forward] takes (length, batch, features) and the pointers of a packed layer: one tensor. *)
Definition shapes (m : mha) (q k v : t3) : Prop :=
  (0 < heads m)%nat /\ (heads m * (embed m / heads m) = embed m)%nat /\ d2 q = embed m /\ cols (q_of m) = d2 q /\ cols (k_of m) = d2 k /\ cols (v_of m) = d2 v
  /\ d0 v = d0 k /\ d1 k = d1 q /\ d1 v = d1 k /\ d2 v = d2 k /\ cols (out_proj m) = embed m
  /\ match in_proj m with Packed w => rows w = (3 * embed m)%nat /\ k = q /\ v = q | Separate _ _ _ => True end.
Definition mask_shapes (m : mha) (L N S : nat) (a : option amask) (k : option kmask) : Prop :=
  match a with None => True | Some (A2 x) => sizes3 x = (1, L, S)%nat | Some (A3 x) => sizes3 x = (N * heads m, L, S)%nat end
  /\ match k with None => True | Some x => ksizes x = (N, S) end.
(** A floating point key padding mask comes alone. *)
Definition mask_kinds (a : option amask) (k : option kmask) : Prop := match k with Some (KFloat _ _ _) => a = None | _ => True end.

Lemma project_ok m q k v : shapes m q k v -> exists p, project m q k v = Some p
  /\ (forall i b o, snd (p 0%nat) i b o = linear (q_of m) (e3 q i b) o)
  /\ fst (p 1%nat) = d0 k /\ (forall i b o, snd (p 1%nat) i b o = linear (k_of m) (e3 k i b) o)
  /\ (forall i b o, snd (p 2%nat) i b o = linear (v_of m) (e3 v i b) o).
Proof.
  intros (_ & _ & _ & _ & _ & _ & _ & _ & _ & _ & _ & Hp). unfold project, q_of, k_of, v_of. destruct (in_proj m) as [w|wq wk wv].
  - destruct Hp as (Hr & -> & ->). rewrite Nat.eqb_refl. cbn [andb]. eexists. split; [reflexivity|]. cbn [fst snd].
    repeat split; intros; rewrite apply_linear; unfold linear, part; cbn [cols wt bs]; rewrite ?Nat.mul_0_r; reflexivity.
  - eexists. split; [reflexivity|]. cbn [fst snd]. repeat split; intros; apply apply_linear.
Qed.

Lemma check_ok m L N S a k : mask_shapes m L N S a k -> check_mask m L S N a = Some (match a with None => None | Some (A2 x) => Some x | Some (A3 x) => Some x end).
Proof.
  intros [Ha _]. unfold check_mask. destruct a as [[x|x]|]; [| |reflexivity]; rewrite Ha, !Nat.eqb_refl; reflexivity.
Qed.

(** ** Masks *)
Definition amask3 (a : option amask) : option mask3 := match a with None => None | Some (A2 x) => Some x | Some (A3 x) => Some x end.
Fixpoint iter {A} (n : nat) (f : A -> A) (x : A) : A := match n with O => x | S n => f (iter n f x) end.
Definition mval (a : option mask3) (i l s : nat) : ext :=
  match a with
  | None => Fin 0
  | Some (MBool n l' _ f) => if f (bc n i) (bc l' l) s then NegInf else Fin 0
  | Some (MFloat n l' _ f) => f (bc n i) (bc l' l) s
  end.
Definition kval (k : option kmask) (n s : nat) : ext :=
  match k with None => Fin 0 | Some (KBool _ _ g) => if g n s then NegInf else Fin 0 | Some (KFloat _ _ g) => g n s end.
Definition last3 (a : option mask3) (S : nat) : Prop := match a with None => True | Some x => snd (sizes3 x) = S end.
Definition lastk (k : option kmask) (N S : nat) : Prop := match k with None => True | Some x => ksizes x = (N, S) end.

Lemma pad3_val a S i l s : last3 a S -> last3 (option_map pad3 a) (Datatypes.S S) /\ mval (option_map pad3 a) i l s = if (s <? S)%nat then mval a i l s else Fin 0.
Proof.
  destruct a as [[n l' s' f|n l' s' f]|]; cbn [last3 sizes3 snd option_map pad3 mval]; intros H; try (subst s'; split; [reflexivity|]); try destruct (s <? S)%nat; try reflexivity.
  - split; [exact I|reflexivity].
  - split; [exact I|reflexivity].
Qed.
Lemma padk_val k N S n s : lastk k N S -> lastk (option_map padk k) N (Datatypes.S S) /\ kval (option_map padk k) n s = if (s <? S)%nat then kval k n s else Fin 0.
Proof.
  destruct k as [[n' s' g|n' s' g]|]; cbn [lastk ksizes option_map padk kval]; intros H; try (injection H as -> ->; split; [reflexivity|]); try destruct (s <? S)%nat; try reflexivity.
  - split; [exact I|reflexivity].
  - split; [exact I|reflexivity].
Qed.
Lemma pad3_iter a S i l s c : last3 a S -> last3 (iter c (option_map pad3) a) (S + c) /\ ((s < S + c)%nat -> mval (iter c (option_map pad3) a) i l s = if (s <? S)%nat then mval a i l s else Fin 0).
Proof.
  intros H. induction c as [|c [IH1 IH2]]; cbn [iter].
  - rewrite Nat.add_0_r. split; [exact H|]. intros Hs. apply Nat.ltb_lt in Hs. rewrite Hs. reflexivity.
  - destruct (pad3_val _ _ i l s IH1) as [A B]. rewrite Nat.add_succ_r. split; [exact A|]. intros Hs. rewrite B.
    destruct (Nat.ltb_spec s (S + c)) as [Hl|Hl]; [exact (IH2 Hl)|]. destruct (Nat.ltb_spec s S); [lia|reflexivity].
Qed.
Lemma padk_iter k N S n s c : lastk k N S -> lastk (iter c (option_map padk) k) N (S + c) /\ ((s < S + c)%nat -> kval (iter c (option_map padk) k) n s = if (s <? S)%nat then kval k n s else Fin 0).
Proof.
  intros H. induction c as [|c [IH1 IH2]]; cbn [iter].
  - rewrite Nat.add_0_r. split; [exact H|]. intros Hs. apply Nat.ltb_lt in Hs. rewrite Hs. reflexivity.
  - destruct (padk_val _ _ _ n s IH1) as [A B]. rewrite Nat.add_succ_r. split; [exact A|]. intros Hs. rewrite B.
    destruct (Nat.ltb_spec s (S + c)) as [Hl|Hl]; [exact (IH2 Hl)|]. destruct (Nat.ltb_spec s S); [lia|reflexivity].
Qed.
Definition kinds3 (a : option mask3) (k : option kmask) : Prop := match k with Some (KFloat _ _ _) => a = None | _ => True end.
Lemma kinds_iter a k c : kinds3 a k -> kinds3 (iter c (option_map pad3) a) (iter c (option_map padk) k).
Proof.
  intros H. induction c as [|c IH]; [exact H|]. cbn [iter]. revert IH. generalize (iter c (option_map pad3) a), (iter c (option_map padk) k). intros a' [[|]|]; cbn; try exact (fun _ => I). intros ->. reflexivity.
Qed.
Lemma merge_ok m N S a k : lastk k N S -> kinds3 a k -> exists msk, merge_masks m N S a k = Some msk
  /\ forall i l s r, (match msk with Some f => ext_add (f i l s) r | None => Fin r end) = ext_add (ext_plus (mval a i l s) (kval k (i / heads m) s)) r.
Proof.
  intros Hk Ki. unfold merge_masks. destruct k as [k|].
  - cbn [lastk] in Hk. rewrite Hk, !Nat.eqb_refl. cbn [andb negb].
    destruct a as [[n l s f|n l s f]|], k as [n' s' g|n' s' g]; try discriminate Ki; eexists; (split; [reflexivity|]); intros; cbn [mval kval].
    + destruct (f (bc n i) (bc l l0) s0), (g (i / heads m)%nat s0); cbn; try reflexivity. f_equal. lra.
    + destruct (g (i / heads m)%nat s0), (f (bc n i) (bc l l0) s0); cbn; try reflexivity. f_equal. lra.
    + destruct (g (i / heads m)%nat s); cbn; try reflexivity. f_equal. lra.
    + destruct (g (i / heads m)%nat s); cbn; try reflexivity. f_equal. lra.
  - eexists. split; [reflexivity|]. intros i l s r. cbn [kval]. destruct a as [[n l' s' f|n l' s' f]|]; cbn [mval].
    + destruct (f (bc n i) (bc l' l) s); cbn; try reflexivity. f_equal. lra.
    + destruct (f (bc n i) (bc l' l) s); cbn; try reflexivity. f_equal. lra.
    + cbn. f_equal. lra.
Qed.
Lemma merge_pad m L N S a k c : mask_shapes m L N S a k -> mask_kinds a k ->
  exists msk, merge_masks m N (S + c) (iter c (option_map pad3) (amask3 a)) (iter c (option_map padk) k) = Some msk
  /\ forall n h l s r, (n < N)%nat -> (h < heads m)%nat -> (l < L)%nat -> (s < S + c)%nat ->
     (match msk with Some f => ext_add (f (n * heads m + h)%nat l s) r | None => Fin r end) = ext_add (mask_term m S a k n h l s) r.
Proof.
  intros [Ha Hk] Ki.
  assert (L3 : last3 (amask3 a) S). { destruct a as [[x|x]|]; cbn [amask3 last3]; try rewrite Ha; try reflexivity. }
  assert (K3 : kinds3 (amask3 a) k). { unfold mask_kinds in Ki. destruct k as [[|]|]; cbn; try exact I. rewrite Ki. reflexivity. }
  destruct (padk_iter k N S 0 0 c Hk) as [Hk' _].
  destruct (merge_ok m N (S + c) _ _ Hk' (kinds_iter _ _ c K3)) as (msk & E & V). exists msk. split; [exact E|].
  intros n h l s r Hn Hh Hl Hs. rewrite V. f_equal.
  destruct (pad3_iter (amask3 a) S (n * heads m + h) l s c L3) as [_ ->]; [|exact Hs].
  rewrite (head_batch n (heads m) h Hh). destruct (padk_iter k N S n s c Hk) as [_ ->]; [|exact Hs].
  unfold mask_term. destruct (s <? S)%nat; [|cbn; f_equal; lra]. f_equal.
  unfold attn_term. destruct a as [[x|x]|]; cbn [amask3]; [| |reflexivity].
  - assert (B : bc L l = l) by (unfold bc; destruct (Nat.eqb_spec L 1); lia).
    destruct x as [n' l' s' f|n' l' s' f]; cbn [sizes3] in Ha; injection Ha as -> -> ->; cbn [mval mask_value]; rewrite B; reflexivity.
  - assert (B : bc L l = l) by (unfold bc; destruct (Nat.eqb_spec L 1); lia).
    assert (B' : bc (N * heads m) (n * heads m + h) = (n * heads m + h)%nat) by (unfold bc; destruct (Nat.eqb_spec (N * heads m) 1); [nia|reflexivity]).
    destruct x as [n' l' s' f|n' l' s' f]; cbn [sizes3] in Ha; injection Ha as -> -> ->; cbn [mval mask_value]; rewrite B, B'; reflexivity.
Qed.

(** ** The attention *)
Lemma kv_split (m : mha) N S (x : nat -> nat -> nat -> R) (b : nat -> R) lin0 (e : nat -> nat -> nat -> R) n h d s :
  (n < N)%nat -> (h < heads m)%nat -> (d < hdim m)%nat -> (heads m * hdim m = embed m)%nat ->
  (forall i b o, x i b o = linear lin0 (e i b) o) ->
  transpose01 (view N (embed m) (N * heads m) (hdim m) (cat0 S x (fun _ _ o => b o))) (n * heads m + h) s d
  = if (s <? S)%nat then linear lin0 (e s n) (h * hdim m + d) else b (h * hdim m + d)%nat.
Proof.
  intros Hn Hh Hd He Hx. unfold transpose01. rewrite <- He, (Nat.mul_comm (heads m) (hdim m)), (view_split N (heads m) (hdim m)) by assumption.
  unfold cat0. destruct (s <? S)%nat; [apply Hx|reflexivity].
Qed.
Lemma plain_split (m : mha) N (x : nat -> nat -> nat -> R) lin0 (e : nat -> nat -> nat -> R) n h d s :
  (n < N)%nat -> (h < heads m)%nat -> (d < hdim m)%nat -> (heads m * hdim m = embed m)%nat ->
  (forall i b o, x i b o = linear lin0 (e i b) o) ->
  transpose01 (view N (embed m) (N * heads m) (hdim m) x) (n * heads m + h) s d = linear lin0 (e s n) (h * hdim m + d).
Proof.
  intros Hn Hh Hd He Hx. unfold transpose01. rewrite <- He, (Nat.mul_comm (heads m) (hdim m)), (view_split N (heads m) (hdim m)) by assumption. apply Hx.
Qed.

(** The part of [attention] after the projections and masks are settled. *)
Lemma attend_ok (m : mha) N L S3 S a kp (q k v : nat -> nat -> nat -> R) (msk : option (nat -> nat -> nat -> ext)) (qh k3 v3 : nat -> nat -> nat -> R) :
  (0 < heads m)%nat -> (heads m * hdim m = embed m)%nat -> cols (out_proj m) = embed m -> S3 = total m S ->
  (forall n h l d, (n < N)%nat -> (h < heads m)%nat -> (d < hdim m)%nat -> qh (n * heads m + h)%nat l d = linear (q_of m) (q l n) (h * hdim m + d)) ->
  (forall n h s d, (n < N)%nat -> (h < heads m)%nat -> (d < hdim m)%nat -> (s < S3)%nat -> k3 (n * heads m + h)%nat s d = keys_ext m S (fun i => k i n) s (h * hdim m + d)) ->
  (forall n h s d, (n < N)%nat -> (h < heads m)%nat -> (d < hdim m)%nat -> (s < S3)%nat -> v3 (n * heads m + h)%nat s d = values_ext m S (fun i => v i n) s (h * hdim m + d)) ->
  (forall n h l s r, (n < N)%nat -> (h < heads m)%nat -> (l < L)%nat -> (s < S3)%nat ->
     (match msk with Some f => ext_add (f (n * heads m + h)%nat l s) r | None => Fin r end) = ext_add (mask_term m S a kp n h l s) r) ->
  let qs := fun i l d => fq m (qh i l d / sqrt (INR (hdim m))) in
  let ks := fun i s d => fk m (k3 i s d) in
  let dot := fun i l s => rsum (hdim m) (fun d => qs i l d * ks i s d) in
  let score := fun i l s => fs m (match msk with Some f => ext_add (f i l s) (dot i l s) | None => Fin (dot i l s) end) in
  let soft := fun i l s => ext_exp (score i l s) / rsum S3 (fun s' => ext_exp (score i l s')) in
  let w := fun i l s => fw m (soft i l s) in
  let o := fun i l d => rsum S3 (fun s => w i l s * fv m (v3 i s d)) in
  (forall n h l s, (n < N)%nat -> (h < heads m)%nat -> (l < L)%nat -> (s < S3)%nat ->
     w (n * heads m + h)%nat l s = weight_spec m S a kp (fun i => q i n) (fun i => k i n) n h l s)
  /\ forall n l e, (n < N)%nat -> (l < L)%nat ->
     apply_lin (out_proj m) (view (N * heads m) (hdim m) N (embed m) (transpose01 o)) l n e
     = out_spec m S a kp (fun i => q i n) (fun i => k i n) (fun i => v i n) n l e.
Proof.
  intros HH HE HO HS Hq Hk Hv Hm qs ks dot score soft w o.
  assert (Es : forall n h l s, (n < N)%nat -> (h < heads m)%nat -> (l < L)%nat -> (s < S3)%nat ->
            score (n * heads m + h)%nat l s = score_spec m S a kp (fun i => q i n) (fun i => k i n) n h l s).
  { intros n h l s Hn Hh Hl Hs. unfold score, score_spec. f_equal. rewrite Hm by assumption. f_equal. unfold dot. apply rsum_ext. intros d Hd. unfold qs, ks. rewrite Hq, Hk by assumption. reflexivity. }
  assert (Ew : forall n h l s, (n < N)%nat -> (h < heads m)%nat -> (l < L)%nat -> (s < S3)%nat ->
            w (n * heads m + h)%nat l s = weight_spec m S a kp (fun i => q i n) (fun i => k i n) n h l s).
  { intros n h l s Hn Hh Hl Hs. unfold w, weight_spec, soft. rewrite (Es n h l s) by assumption. rewrite <- HS.
    rewrite (rsum_ext S3 (fun s' => ext_exp (score (n * heads m + h)%nat l s')) (fun s' => ext_exp (score_spec m S a kp (fun i => q i n) (fun i => k i n) n h l s'))) by (intros s' Hs'; rewrite Es by assumption; reflexivity). reflexivity. }
  split; [exact Ew|]. intros n l e Hn Hl. unfold apply_lin, out_spec. f_equal. rewrite HO. apply rsum_ext. intros c Hc. f_equal.
  assert (Zd : hdim m <> 0%nat) by nia.
  assert (Hh : (c / hdim m < heads m)%nat) by (apply Nat.div_lt_upper_bound; [exact Zd|nia]).
  rewrite <- HE, (Nat.mul_comm (heads m) (hdim m)) in *. rewrite (view_merge N (heads m) (hdim m)) by assumption. unfold transpose01, o, context_spec. rewrite HS in *.
  apply rsum_ext. intros s Hs. rewrite Ew by assumption. rewrite (Hv n (c / hdim m)%nat s (c mod hdim m)%nat) by (try assumption; apply Nat.mod_upper_bound; exact Zd).
  do 3 f_equal. rewrite (Nat.div_mod c (hdim m) Zd) at 3. lia.
Qed.

Theorem attention_ok m q k v kp am : shapes m q k v -> mask_shapes m (d0 q) (d1 q) (d0 k) am kp -> mask_kinds am kp ->
  exists o w, attention m q k v kp am = Some (o, (total m (d0 k), w))
  /\ (forall n h l s, (n < d1 q)%nat -> (h < heads m)%nat -> (l < d0 q)%nat -> (s < total m (d0 k))%nat ->
       w (n * heads m + h)%nat l s = weight_spec m (d0 k) am kp (fun i => e3 q i n) (fun i => e3 k i n) n h l s)
  /\ (forall n l e, (n < d1 q)%nat -> (l < d0 q)%nat ->
       o l n e = out_spec m (d0 k) am kp (fun i => e3 q i n) (fun i => e3 k i n) (fun i => e3 v i n) n l e).
Proof.
  intros Sh Ms Mk. pose proof Sh as (HH & HE & Eq & Cq & Ck & Cv & E1 & E2 & E3 & E4 & HO & Hp).
  destruct (project_ok m q k v Sh) as (p & Ep & Pq & Pk0 & Pk & Pv).
  unfold attention. rewrite Ep, (check_ok _ _ _ _ _ _ Ms). fold (amask3 am).
  assert (Hf : fits m q k v = true).
  { unfold fits, q_of, k_of, v_of in *. destruct (in_proj m) as [w|wq wk wv]; cbn [part cols] in *; rewrite ?Cq, ?Ck, ?Cv, ?E2, !Nat.eqb_refl; reflexivity. }
  rewrite Hf. assert (G : (d2 q =? embed m)%nat && (hdim m * heads m =? embed m)%nat && (d0 k =? d0 v)%nat && (d1 k =? d1 v)%nat && (d2 k =? d2 v)%nat && true = true).
  { change (embed m / heads m)%nat with (hdim m) in HE. rewrite (Nat.mul_comm (hdim m)), HE, Eq, E1, E3, E4, !Nat.eqb_refl. reflexivity. }
  rewrite G. cbn [negb]. clear G Hf. destruct (p 1%nat) as [S1 kp1]. cbn [fst snd] in Pk0, Pk. subst S1.
  destruct (bias_kv m) as [[bk bv]|] eqn:Bk; destruct (zero_attn m) eqn:Z.
  - destruct (merge_pad m _ _ _ am kp 2 Ms Mk) as (msk & Em & Vm). cbn [iter] in Em. rewrite Nat.add_succ_r, Nat.add_1_r in Em. rewrite Em.
    assert (T : Datatypes.S (Datatypes.S (d0 k)) = total m (d0 k)) by (unfold total, extra_bias, extra_zero; rewrite Bk, Z; lia).
    assert (T2' : (d0 k + 2)%nat = total m (d0 k)) by lia. rewrite T2' in Vm.
    rewrite <- T. do 2 eexists. split; [reflexivity|].
    apply (attend_ok m (d1 q) (d0 q) _ (d0 k) am kp (e3 q) (e3 k) (e3 v) msk); try assumption.
    + intros. apply plain_split; assumption.
    + intros n h s d Hn Hh Hd Hs. unfold cat1. rewrite (kv_split m (d1 q) (d0 k) _ bk (k_of m) (e3 k)) by assumption. unfold keys_ext, extra_bias. rewrite Bk. cbn [fst].
      rewrite Nat.add_1_r. destruct (Nat.ltb_spec s (d0 k)), (Nat.ltb_spec s (Datatypes.S (d0 k))); try lia; reflexivity.
    + intros n h s d Hn Hh Hd Hs. unfold cat1. rewrite (kv_split m (d1 q) (d0 k) _ bv (v_of m) (e3 v)) by assumption. unfold values_ext, extra_bias. rewrite Bk. cbn [snd].
      rewrite Nat.add_1_r. destruct (Nat.ltb_spec s (d0 k)), (Nat.ltb_spec s (Datatypes.S (d0 k))); try lia; reflexivity.
    + rewrite T. exact Vm.
  - destruct (merge_pad m _ _ _ am kp 1 Ms Mk) as (msk & Em & Vm). cbn [iter] in Em. rewrite Nat.add_1_r in Em. rewrite Em.
    assert (T : Datatypes.S (d0 k) = total m (d0 k)) by (unfold total, extra_bias, extra_zero; rewrite Bk, Z; lia).
    assert (T2' : (d0 k + 1)%nat = total m (d0 k)) by lia. rewrite T2' in Vm.
    rewrite <- T. do 2 eexists. split; [reflexivity|].
    apply (attend_ok m (d1 q) (d0 q) _ (d0 k) am kp (e3 q) (e3 k) (e3 v) msk); try assumption.
    + intros. apply plain_split; assumption.
    + intros n h s d Hn Hh Hd Hs. rewrite (kv_split m (d1 q) (d0 k) _ bk (k_of m) (e3 k)) by assumption. unfold keys_ext, extra_bias. rewrite Bk. cbn [fst].
      rewrite Nat.add_1_r. destruct (Nat.ltb_spec s (d0 k)), (Nat.ltb_spec s (Datatypes.S (d0 k))); try lia; reflexivity.
    + intros n h s d Hn Hh Hd Hs. rewrite (kv_split m (d1 q) (d0 k) _ bv (v_of m) (e3 v)) by assumption. unfold values_ext, extra_bias. rewrite Bk. cbn [snd].
      rewrite Nat.add_1_r. destruct (Nat.ltb_spec s (d0 k)), (Nat.ltb_spec s (Datatypes.S (d0 k))); try lia; reflexivity.
    + rewrite T. exact Vm.
  - destruct (merge_pad m _ _ _ am kp 1 Ms Mk) as (msk & Em & Vm). cbn [iter] in Em. rewrite Nat.add_1_r in Em. rewrite Em.
    assert (T : Datatypes.S (d0 k) = total m (d0 k)) by (unfold total, extra_bias, extra_zero; rewrite Bk, Z; lia).
    assert (T2' : (d0 k + 1)%nat = total m (d0 k)) by lia. rewrite T2' in Vm.
    rewrite <- T. do 2 eexists. split; [reflexivity|].
    apply (attend_ok m (d1 q) (d0 q) _ (d0 k) am kp (e3 q) (e3 k) (e3 v) msk); try assumption.
    + intros. apply plain_split; assumption.
    + intros n h s d Hn Hh Hd Hs. unfold cat1. rewrite (plain_split m (d1 q) _ (k_of m) (e3 k)) by assumption. unfold keys_ext, extra_bias. rewrite Bk.
      rewrite Nat.add_0_r. destruct (Nat.ltb_spec s (d0 k)); reflexivity.
    + intros n h s d Hn Hh Hd Hs. unfold cat1. rewrite (plain_split m (d1 q) _ (v_of m) (e3 v)) by assumption. unfold values_ext, extra_bias. rewrite Bk.
      rewrite Nat.add_0_r. destruct (Nat.ltb_spec s (d0 k)); reflexivity.
    + rewrite T. exact Vm.
  - destruct (merge_pad m _ _ _ am kp 0 Ms Mk) as (msk & Em & Vm). cbn [iter] in Em. rewrite Nat.add_0_r in Em. rewrite Em.
    assert (T : d0 k = total m (d0 k)) by (unfold total, extra_bias, extra_zero; rewrite Bk, Z; lia).
    rewrite Nat.add_0_r in Vm.
    rewrite <- T. do 2 eexists. split; [reflexivity|].
    apply (attend_ok m (d1 q) (d0 q) _ (d0 k) am kp (e3 q) (e3 k) (e3 v) msk); try assumption.
    + intros. apply plain_split; assumption.
    + intros n h s d Hn Hh Hd Hs. rewrite (plain_split m (d1 q) _ (k_of m) (e3 k)) by assumption. unfold keys_ext. apply Nat.ltb_lt in Hs. rewrite Hs. reflexivity.
    + intros n h s d Hn Hh Hd Hs. rewrite (plain_split m (d1 q) _ (v_of m) (e3 v)) by assumption. unfold values_ext. apply Nat.ltb_lt in Hs. rewrite Hs. reflexivity.
Qed.
