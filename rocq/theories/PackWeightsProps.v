(** C116: packing integer weights into bytes. *)
From Coq Require Import ZArith List Bool Lia.
From Verif Require Import PackWeights.
Import ListNotations.
Open Scope nat_scope.

(** ** Two and four bits *)
(** Spec: the reader splits every byte into codes, lowest bits first. *)
Definition split_byte (bw : nat) (b : Z) : list Z :=
  map (fun k => ((b / 2 ^ (Z.of_nat bw * Z.of_nat k)) mod 2 ^ Z.of_nat bw)%Z) (seq 0 (8 / bw)).
Definition read_bytes (bw : nat) (l : list Z) : list Z := flat_map (split_byte bw) l.
Definition unsigned_code (bw : nat) (w : Z) : Prop := (0 <= w < 2 ^ Z.of_nat bw)%Z.

Lemma pack_shift_step bw c rest : (bw = 2 \/ bw = 4) -> length c = 8 / bw ->
  pack_shift bw (c ++ rest) = fold_left (fun acc j => Z.lor acc (shl8 (nth j c 0%Z) (bw * j))) (seq 0 (8 / bw)) 0%Z :: pack_shift bw rest.
Proof.
  intros Hb Hc. unfold pack_shift. rewrite app_length, Hc.
  replace ((8 / bw + length rest) * bw / 8) with (S (length rest * bw / 8)).
  2:{ replace ((8 / bw + length rest) * bw) with (length rest * bw + 1 * 8) by (destruct Hb as [-> | ->]; cbn [Nat.div Nat.divmod fst snd]; lia).
      rewrite Nat.div_add by lia. lia. }
  cbn [seq map]. f_equal.
  - destruct Hb as [-> | ->]; cbn in Hc |- *; repeat (destruct c as [|? c]; try discriminate); reflexivity.
  - rewrite <- seq_shift, map_map. apply map_ext. intros k. cbv zeta.
    destruct Hb as [-> | ->]; cbn in Hc; repeat (destruct c as [|? c]; try discriminate); reflexivity.
Qed.

Definition zr (n : nat) : list Z := map Z.of_nat (seq 0 n).
Lemma zr_in n w : (0 <= w < Z.of_nat n)%Z -> In w (zr n).
Proof. intros H. apply in_map_iff. exists (Z.to_nat w). split; [lia|]. apply in_seq. lia. Qed.
Definition leqb (a b : list Z) : bool := if list_eq_dec Z.eq_dec a b then true else false.
Definition pk (bw : nat) (c : list Z) : Z := fold_left (fun acc j => Z.lor acc (shl8 (nth j c 0%Z) (bw * j))) (seq 0 (8 / bw)) 0%Z.
Lemma split4 a b : unsigned_code 4 a -> unsigned_code 4 b -> split_byte 4 (pk 4 [a; b]) = [a; b].
Proof.
  intros Ha Hb.
  assert (C : forallb (fun a => forallb (fun b => leqb (split_byte 4 (pk 4 [a; b])) [a; b]) (zr 16)) (zr 16) = true) by (vm_compute; reflexivity).
  rewrite forallb_forall in C. specialize (C a (zr_in 16 a Ha)). rewrite forallb_forall in C. specialize (C b (zr_in 16 b Hb)).
  unfold leqb in C. destruct (list_eq_dec _ _ _); [assumption|discriminate].
Qed.
Lemma split2 a b c d : unsigned_code 2 a -> unsigned_code 2 b -> unsigned_code 2 c -> unsigned_code 2 d ->
  split_byte 2 (pk 2 [a; b; c; d]) = [a; b; c; d].
Proof.
  intros Ha Hb Hc Hd.
  assert (C : forallb (fun a => forallb (fun b => forallb (fun c => forallb (fun d => leqb (split_byte 2 (pk 2 [a; b; c; d])) [a; b; c; d]) (zr 4)) (zr 4)) (zr 4)) (zr 4) = true) by (vm_compute; reflexivity).
  rewrite forallb_forall in C. specialize (C a (zr_in 4 a Ha)). rewrite forallb_forall in C. specialize (C b (zr_in 4 b Hb)).
  rewrite forallb_forall in C. specialize (C c (zr_in 4 c Hc)). rewrite forallb_forall in C. specialize (C d (zr_in 4 d Hd)).
  unfold leqb in C. destruct (list_eq_dec _ _ _); [assumption|discriminate].
Qed.

(** Rows of unsigned codes that fill whole bytes are recovered. *)
Theorem C116_shift_lossless : forall g bw row, (bw = 2 \/ bw = 4) -> (length row * bw) mod 8 = 0 -> Forall (unsigned_code bw) row ->
  exists l, pack_int_weights g bw row = Some l /\ length l * 8 = length row * bw /\ read_bytes bw l = row.
Proof.
  intros g bw row Hb Hl Hf. exists (pack_shift bw row). split; [destruct Hb as [-> | ->]; reflexivity|].
  assert (Dv : length row = length row * bw / 8 * (8 / bw)).
  { pose proof (Nat.div_mod (length row * bw) 8 ltac:(lia)). destruct Hb as [-> | ->]; cbn [Nat.div Nat.divmod fst snd] in *; lia. }
  remember (length row * bw / 8) as q eqn:Eq. clear Eq Hl. revert row Hf Dv. induction q as [|q IH]; intros row Hf Dv.
  - destruct row; [|cbn in Dv; discriminate]. split; reflexivity.
  - destruct Hb as [-> | ->]; cbn [Nat.div Nat.divmod fst snd Nat.mul Nat.add] in Dv.
    + destruct row as [|a [|b [|c [|d row]]]]; try discriminate. inversion_clear Hf as [|? ? F1 X]. inversion_clear X as [|? ? F2 Y].
      inversion_clear Y as [|? ? F3 Z]. inversion_clear Z as [|? ? F4 F].
      change (a :: b :: c :: d :: row) with ([a; b; c; d] ++ row). rewrite pack_shift_step by (auto; reflexivity).
      destruct (IH row F) as [I1 I2]; [cbn in *; lia|]. split; [cbn [length app] in *; lia|].
      fold (pk 2 [a; b; c; d]). cbn [read_bytes flat_map]. rewrite split2 by assumption. f_equal. f_equal. f_equal. f_equal. exact I2.
    + destruct row as [|a [|b row]]; try discriminate. inversion_clear Hf as [|? ? F1 X]. inversion_clear X as [|? ? F2 F].
      change (a :: b :: row) with ([a; b] ++ row). rewrite pack_shift_step by (auto; reflexivity).
      destruct (IH row F) as [I1 I2]; [cbn in *; lia|]. split; [cbn [length app] in *; lia|].
      fold (pk 4 [a; b]). cbn [read_bytes flat_map]. rewrite split4 by assumption. f_equal. f_equal. exact I2.
Qed.

(** Signed codes are not: the sign bits of a negative code run over the codes after it. *)
Theorem C116_shift_signed_refuted : forall g a b, (-8 <= a < 0)%Z -> (-8 <= b < 8)%Z ->
  exists y, pack_int_weights g 4 [a; b] = Some [y] /\ split_byte 4 y = [(a + 16)%Z; 15%Z].
Proof.
  intros g a b Ha Hb. exists (pk 4 [a; b]). split; [reflexivity|].
  assert (C : forallb (fun i => forallb (fun j => leqb (split_byte 4 (pk 4 [i - 8; j - 8]%Z)) [(i - 8 + 16)%Z; 15%Z]) (zr 16)) (zr 8) = true) by (vm_compute; reflexivity).
  rewrite forallb_forall in C. specialize (C (a + 8)%Z (zr_in 8 (a + 8)%Z ltac:(lia))). rewrite forallb_forall in C. specialize (C (b + 8)%Z (zr_in 16 (b + 8)%Z ltac:(lia))).
  replace (a + 8 - 8)%Z with a in C by lia. replace (b + 8 - 8)%Z with b in C by lia.
  unfold leqb in C. destruct (list_eq_dec _ _ _); [assumption|discriminate].
Qed.

(** Codes after the last full byte are dropped without notice. *)
Theorem C116_shift_dropped_refuted : forall g bw row extra, (bw = 2 \/ bw = 4) -> (length row * bw) mod 8 = 0 -> length extra < 8 / bw ->
  pack_int_weights g bw (row ++ extra) = pack_int_weights g bw row.
Proof.
  intros g bw row extra Hb Hl He. assert (E : pack_shift bw (row ++ extra) = pack_shift bw row).
  { unfold pack_shift. rewrite app_length.
    assert (Q : (length row + length extra) * bw / 8 = length row * bw / 8).
    { apply Nat.div_exact in Hl; [|lia]. replace ((length row + length extra) * bw) with (length extra * bw + length row * bw / 8 * 8) by lia.
      rewrite Nat.div_add by lia. rewrite (Nat.div_small (length extra * bw)); [reflexivity|].
      destruct Hb as [-> | ->]; cbn [Nat.div Nat.divmod fst snd] in He; lia. }
    rewrite Q. apply map_ext_in. intros c Hc. apply in_seq in Hc. apply Nat.div_exact in Hl; [|lia]. cbv zeta.
    assert (B : forall j, j < 8 / bw -> c * (8 / bw) + j < length row).
    { intros j Hj. destruct Hb as [-> | ->]; cbn [Nat.div Nat.divmod fst snd] in *; lia. }
    assert (G : forall js acc, (forall j, In j js -> j < 8 / bw) ->
      fold_left (fun acc j => Z.lor acc (shl8 (nth (c * (8 / bw) + j) (row ++ extra) 0%Z) (bw * j))) js acc
      = fold_left (fun acc j => Z.lor acc (shl8 (nth (c * (8 / bw) + j) row 0%Z) (bw * j))) js acc).
    { induction js as [|j js IH]; intros acc Hj; [reflexivity|]. cbn [fold_left]. rewrite app_nth1 by (apply B, Hj; left; reflexivity).
      apply IH. intros k Hk. apply Hj. right. exact Hk. }
    apply G. intros j Hj. apply in_seq in Hj. lia. }
  destruct Hb as [-> | ->]; cbn [pack_int_weights]; rewrite E; reflexivity.
Qed.

(** ** Three, five and six bits *)
Definition odd_width (bw : nat) : Prop := bw = 3 \/ bw = 5 \/ bw = 6.
(** Spec: the codes in two's complement, most significant bit first. *)
Fixpoint code_bits (k : nat) (w : Z) : list bool :=
  match k with 0 => [] | S k' => Z.odd (w / 2 ^ Z.of_nat k') :: code_bits k' w end.

Lemma bits_code k w : bits k w = code_bits k w.
Proof.
  induction k as [|k IH]; cbn [bits code_bits]; [reflexivity|]. rewrite IH. f_equal. rewrite Z.testbit_odd, Z.shiftr_div_pow2 by lia. reflexivity.
Qed.
Lemma bits_mod k w : k <= 8 -> bits k (w mod 256) = bits k w.
Proof.
  induction k as [|k IH]; intros Hk; cbn [bits]; [reflexivity|]. rewrite IH by lia. f_equal.
  change 256%Z with (2 ^ 8)%Z. apply Z.mod_pow2_bits_low. lia.
Qed.
Lemma low_bits bw w : odd_width bw -> skipn (8 - bw) (unpackbits w) = code_bits bw w.
Proof.
  intros Hb. rewrite <- bits_code, <- (bits_mod bw w) by (destruct Hb as [->|[->| ->]]; lia). unfold unpackbits.
  destruct Hb as [->|[->| ->]]; reflexivity.
Qed.
Lemma bits8_byte l : length l = 8 -> bits 8 (byte l) = l.
Proof.
  intros H. do 8 (destruct l as [|? l]; [discriminate|]). destruct l; [|discriminate].
  repeat match goal with b : bool |- _ => destruct b end; reflexivity.
Qed.
Lemma repeat_add {A} (x : A) a b : repeat x (a + b) = repeat x a ++ repeat x b.
Proof. induction a; cbn; congruence. Qed.
Lemma packbits_n_bits m l : length l <= 8 * m -> flat_map (bits 8) (packbits_n m l) = l ++ repeat false (8 * m - length l).
Proof.
  revert l. induction m as [|m IH]; intros l Hl.
  - destruct l; [reflexivity|cbn in Hl; lia].
  - cbn [packbits_n]. change (flat_map (bits 8) (byte (firstn 8 (l ++ repeat false 8)) :: packbits_n m (skipn 8 l)))
      with (bits 8 (byte (firstn 8 (l ++ repeat false 8))) ++ flat_map (bits 8) (packbits_n m (skipn 8 l))).
    rewrite bits8_byte by (rewrite firstn_length, app_length, repeat_length; lia).
    rewrite IH by (rewrite skipn_length; lia). rewrite skipn_length, firstn_app, app_assoc.
    destruct (le_lt_dec 8 (length l)) as [L|L].
    + replace (8 - length l) with 0 by lia. rewrite firstn_O, app_nil_r, firstn_skipn. f_equal. f_equal. lia.
    + rewrite firstn_all2, skipn_all2 by lia. rewrite app_nil_r.
      replace (8 * S m - length l) with ((8 - length l) + (8 * m - (length l - 8))) by lia. rewrite repeat_add, <- app_assoc. f_equal. f_equal.
      assert (T : forall j k, j <= k -> firstn j (repeat false k) = repeat false j).
      { intros j k. revert j. induction k as [|k IHk]; intros [|j] Hj; cbn; try reflexivity; try lia. f_equal. apply IHk. lia. }
      apply T. lia.
Qed.
Lemma packbits_n_length m l : length (packbits_n m l) = m.
Proof. revert l. induction m; intros l; cbn; [reflexivity|]. f_equal. apply IHm. Qed.
Lemma packbits_length l : length (packbits l) = (length l + 7) / 8.
Proof. apply packbits_n_length. Qed.
Lemma packbits_app a b k : length a = 8 * k -> packbits (a ++ b) = packbits a ++ packbits b.
Proof.
  intros H. unfold packbits. rewrite app_length, H.
  replace ((8 * k + 7) / 8) with k by (rewrite (Nat.mul_comm 8 k), Nat.add_comm, Nat.div_add by lia; reflexivity).
  replace ((8 * k + length b + 7) / 8) with (k + (length b + 7) / 8).
  2:{ replace (8 * k + length b + 7) with (length b + 7 + k * 8) by lia. rewrite Nat.div_add by lia. lia. }
  revert a H. induction k as [|k IH]; intros a H.
  - destruct a; [reflexivity|discriminate].
  - cbn [Nat.add packbits_n app]. do 8 (destruct a as [|? a]; [cbn in H; lia|]). f_equal.
    apply IH. cbn [length skipn] in *. lia.
Qed.

Definition row_bits (bw : nat) (row : list Z) : list bool := flat_map (fun w => skipn (8 - bw) (unpackbits w)) row.
Lemma row_bits_app bw a b : row_bits bw (a ++ b) = row_bits bw a ++ row_bits bw b.
Proof. unfold row_bits. rewrite !flat_map_concat_map, map_app, concat_app. reflexivity. Qed.
Lemma row_bits_length bw row : odd_width bw -> length (row_bits bw row) = bw * length row.
Proof.
  intros Hb. induction row as [|w row IH]; [cbn; lia|]. change (row_bits bw (w :: row)) with (skipn (8 - bw) (unpackbits w) ++ row_bits bw row).
  rewrite app_length, IH. destruct Hb as [->|[->| ->]]; cbn [unpackbits bits skipn Nat.sub length]; lia.
Qed.
Definition elems (bw : nat) : nat := match bw with 6 => 4 | _ => 8 end.
Lemma elems_ok bw : odd_width bw -> num_packed_elems bw = elems bw /\ num_packed_bytes bw * 8 = elems bw * bw /\ 0 < num_packed_bytes bw.
Proof. intros [->|[->| ->]]; vm_compute; repeat split; lia. Qed.

Lemma pack_bits_step bw c rest : odd_width bw -> length c = elems bw ->
  pack_bits bw (c ++ rest) = match pack_bits bw rest with Some l => Some (packbits (row_bits bw c) ++ l) | None => None end.
Proof.
  intros Hb Hc. destruct (elems_ok bw Hb) as (E1 & E2 & E3). unfold pack_bits. rewrite app_length, Hc.
  assert (W : packed_width bw (elems bw + length rest) = num_packed_bytes bw + packed_width bw (length rest)).
  { unfold packed_width. cbv zeta. replace ((elems bw + length rest) * bw) with (length rest * bw + num_packed_bytes bw * 8) by lia.
    rewrite Nat.mod_add by lia. replace (length rest * bw + num_packed_bytes bw * 8 + (length rest * bw) mod 8)
      with (length rest * bw + (length rest * bw) mod 8 + num_packed_bytes bw * 8) by lia. rewrite Nat.div_add by lia. lia. }
  rewrite W. set (w := packed_width bw (length rest)). set (B := num_packed_bytes bw) in *.
  replace ((B + w + B - 1) / B) with (S ((w + B - 1) / B)).
  2:{ replace (B + w + B - 1) with (w + B - 1 + 1 * B) by lia. rewrite Nat.div_add by lia. lia. }
  cbn [pack_loop]. unfold pack_group. cbv zeta. rewrite E1. fold B. rewrite firstn_app, <- Hc, firstn_all, Nat.sub_diag, firstn_O, app_nil_r.
  fold (row_bits bw c). rewrite packbits_length, row_bits_length, Hc by exact Hb.
  replace ((bw * elems bw + 7) / 8) with B.
  2:{ replace (bw * elems bw + 7) with (7 + B * 8) by lia. rewrite Nat.div_add by lia. reflexivity. }
  rewrite (Nat.min_l B (B + w)) by lia. rewrite Nat.eqb_refl.
  rewrite <- Hc, skipn_app, skipn_all, Nat.sub_diag, skipn_O. cbn [app]. replace (B + w - B) with w by lia. reflexivity.
Qed.

Lemma chunk_ind bw (P : list Z -> Prop) : odd_width bw ->
  (forall row, length row < elems bw -> P row) -> (forall c rest, length c = elems bw -> P rest -> P (c ++ rest)) -> forall row, P row.
Proof.
  intros Hb H0 H1. assert (G : forall n row, length row <= n -> P row).
  { induction n as [|n IH]; intros row Hr.
    - apply H0. destruct Hb as [->|[->| ->]]; cbn; lia.
    - destruct (le_lt_dec (elems bw) (length row)) as [L|L]; [|apply H0; exact L].
      rewrite <- (firstn_skipn (elems bw) row). apply H1; [apply firstn_length_le; exact L|]. apply IH. rewrite skipn_length.
      assert (0 < elems bw) by (destruct Hb as [->|[->| ->]]; cbn; lia). lia. }
  intros row. apply (G (length row)). lia.
Qed.
Lemma mod_step bw (c rest : list Z) : odd_width bw -> length c = elems bw -> (length (c ++ rest) * bw) mod 8 = (length rest * bw) mod 8.
Proof.
  intros Hb Hc. destruct (elems_ok bw Hb) as (_ & E2 & _). rewrite app_length, Hc.
  replace ((elems bw + length rest) * bw) with (length rest * bw + num_packed_bytes bw * 8) by lia. apply Nat.mod_add. lia.
Qed.

Lemma pack_bits_value bw row : odd_width bw -> (length row * bw) mod 8 = 0 \/ 4 <= (length row * bw) mod 8 ->
  pack_bits bw row = Some (packbits (row_bits bw row)).
Proof.
  intros Hb. pattern row. apply (chunk_ind bw); [exact Hb| |].
  - clear row. intros row L H. destruct Hb as [->|[->| ->]]; cbn [elems] in L;
      (do 9 (destruct row as [|? row]; [first [reflexivity|exfalso; cbn in H; lia]|]); cbn in L; lia).
  - clear row. intros c rest Hc IH H. rewrite mod_step in H by assumption. rewrite pack_bits_step, IH by assumption.
    rewrite row_bits_app, (packbits_app _ _ (num_packed_bytes bw)); [reflexivity|].
    rewrite row_bits_length by exact Hb. destruct (elems_ok bw Hb) as (_ & E2 & _). lia.
Qed.

(** If the last byte is full, or lacks at most half, the bytes hold the codes one after the other,
    signed or not, followed by zeros. *)
Theorem C116_bits_lossless : forall bw row, odd_width bw -> let used := (length row * bw) mod 8 in used = 0 \/ 4 <= used ->
  exists l, pack_int_weights true bw row = Some l /\ Forall (fun b => 0 <= b < 256)%Z l /\
    flat_map (code_bits 8) l = flat_map (code_bits bw) row ++ repeat false (if used =? 0 then 0 else 8 - used).
Proof.
  intros bw row Hb used Hu. exists (packbits (row_bits bw row)).
  split; [destruct Hb as [->|[->| ->]]; cbn [pack_int_weights]; apply pack_bits_value; unfold odd_width; auto|].
  split.
  - unfold packbits. generalize ((length (row_bits bw row) + 7) / 8). intros m. generalize (row_bits bw row).
    induction m as [|m IH]; intros l; cbn [packbits_n]; constructor; [|apply IH].
    assert (L : length (firstn 8 (l ++ repeat false 8)) = 8) by (rewrite firstn_length, app_length, repeat_length; lia).
    set (x := firstn 8 (l ++ repeat false 8)) in *. clearbody x. do 8 (destruct x as [|? x]; [discriminate|]). destruct x; [|discriminate].
    repeat match goal with b : bool |- _ => destruct b end; vm_compute; split; discriminate || reflexivity.
  - assert (X : forall l, flat_map (code_bits 8) l = flat_map (bits 8) l).
    { intros l. apply flat_map_ext. intros w. symmetry. apply bits_code. }
    rewrite X. unfold packbits. pose proof (row_bits_length bw row Hb) as L.
    rewrite packbits_n_bits.
    + f_equal.
      * unfold row_bits. apply flat_map_ext. intros w. apply low_bits. exact Hb.
      * f_equal. rewrite L. subst used. rewrite (Nat.mul_comm bw). set (t := length row * bw) in *. clearbody t.
        pose proof (Nat.div_mod t 8 ltac:(lia)) as D. pose proof (Nat.mod_upper_bound t 8 ltac:(lia)) as U.
        pose proof (Nat.div_mod (t + 7) 8 ltac:(lia)) as D2. pose proof (Nat.mod_upper_bound (t + 7) 8 ltac:(lia)) as U2.
        destruct (Nat.eqb_spec (t mod 8) 0); lia.
    + rewrite L. pose proof (Nat.div_mod (bw * length row + 7) 8 ltac:(lia)) as D2.
      pose proof (Nat.mod_upper_bound (bw * length row + 7) 8 ltac:(lia)) as U2. lia.
Qed.

(** Otherwise the padding is too small.  A single three-bit code is dropped; in all other cases the
    assignment raises. *)
Theorem C116_bits_padding_refuted : forall bw row, odd_width bw -> 1 <= (length row * bw) mod 8 <= 3 ->
  (bw = 3 -> (length row) mod 8 = 1 -> exists l, pack_int_weights true bw row = Some l /\ pack_int_weights true bw (removelast row) = Some l) /\
  (bw <> 3 \/ (length row) mod 8 <> 1 -> pack_int_weights true bw row = None).
Proof.
  intros bw row Hb. assert (EP : forall r, pack_int_weights true bw r = pack_bits bw r) by (intros r; destruct Hb as [->|[->| ->]]; reflexivity).
  setoid_rewrite EP. clear EP. pattern row. apply (chunk_ind bw); [exact Hb| |].
  - clear row. intros row L H. destruct Hb as [->|[->| ->]]; cbn [elems] in L;
      (do 9 (destruct row as [|? row]; [first [exfalso; cbn in H; lia|split; [intros A B; first [discriminate|exfalso; cbn in B; lia|eexists; split; reflexivity]
          |intros [A|A]; first [exfalso; cbn in A; lia|reflexivity]]]|]); cbn in L; lia).
  - clear row. intros c rest Hc IH H. rewrite mod_step in H by assumption. destruct (IH H) as [I1 I2].
    assert (Nr : rest <> []) by (intros ->; cbn in H; lia).
    rewrite removelast_app by exact Nr. rewrite !pack_bits_step by assumption.
    assert (M : bw = 3 -> (length (c ++ rest)) mod 8 = (length rest) mod 8).
    { intros ->. rewrite app_length, Hc. cbn [elems]. replace (8 + length rest) with (length rest + 1 * 8) by lia. apply Nat.mod_add. lia. }
    split.
    + intros A B. rewrite (M A) in B. destruct (I1 A B) as (l & L1 & L2). rewrite L1, L2. eauto.
    + intros A. rewrite I2; [reflexivity|]. destruct (Nat.eq_dec bw 3) as [E|N]; [|left; exact N].
      right. destruct A as [A|A]; [contradiction|]. rewrite <- (M E). exact A.
Qed.

(** Whatever is returned consists of bytes. *)
Definition is_byte (b : Z) : Prop := (0 <= b < 256)%Z.
Lemma lor_byte a b : is_byte a -> is_byte b -> is_byte (Z.lor a b).
Proof.
  unfold is_byte. intros [A1 A2] [B1 B2]. assert (N : (0 <= Z.lor a b)%Z) by (apply Z.lor_nonneg; split; assumption).
  split; [exact N|]. destruct (Z.eq_dec (Z.lor a b) 0) as [->|Z0]; [lia|].
  change 256%Z with (2 ^ 8)%Z. apply Z.log2_lt_pow2; [lia|]. rewrite Z.log2_lor by assumption.
  assert (L : forall x, (0 <= x < 256)%Z -> (Z.log2 x < 8)%Z).
  { intros x [X1 X2]. destruct (Z.eq_dec x 0) as [->|X0]; [reflexivity|]. apply Z.log2_lt_pow2; [lia|exact X2]. }
  apply Z.max_lub_lt; apply L; lia.
Qed.
Lemma packbits_n_bytes m : forall l, Forall is_byte (packbits_n m l).
Proof.
  induction m as [|m IH]; intros l; cbn [packbits_n]; constructor; [|apply IH].
  assert (L : length (firstn 8 (l ++ repeat false 8)) = 8) by (rewrite firstn_length, app_length, repeat_length; lia).
  set (x := firstn 8 (l ++ repeat false 8)) in *. clearbody x. do 8 (destruct x as [|? x]; [discriminate|]). destruct x; [|discriminate].
  repeat match goal with b : bool |- _ => destruct b end; vm_compute; split; discriminate || reflexivity.
Qed.
Theorem C116_bytes : forall g bw row l, pack_int_weights g bw row = Some l -> Forall is_byte l.
Proof.
  intros g bw row l.
  assert (S1 : forall b, Forall is_byte (pack_shift b row)).
  { intros b. unfold pack_shift. apply Forall_forall. intros y I. apply in_map_iff in I. destruct I as (c & <- & _). cbv zeta.
    assert (G : forall js acc, is_byte acc ->
      is_byte (fold_left (fun acc j => Z.lor acc (shl8 (nth (c * (8 / b) + j) row 0%Z) (b * j))) js acc)).
    { induction js as [|j js IH]; intros acc H; [exact H|]. cbn [fold_left]. apply IH, lor_byte; [exact H|].
      unfold is_byte, shl8. apply Z.mod_pos_bound. lia. }
    apply G. unfold is_byte. lia. }
  assert (S2 : forall b l', pack_bits b row = Some l' -> Forall is_byte l').
  { intros b. unfold pack_bits. generalize (packed_width b (length row)). intros left. cbv zeta.
    generalize ((left + num_packed_bytes b - 1) / num_packed_bytes b). intros steps. clear S1. revert left row.
    induction steps as [|steps IH]; intros left row' l' E; cbn [pack_loop] in E; [injection E as <-; constructor|].
    destruct (pack_group b left row') as [p|] eqn:Ep; [|discriminate].
    destruct (pack_loop steps b _ _) as [t|] eqn:Et; [|discriminate]. injection E as <-. apply Forall_app. split.
    - unfold pack_group in Ep. cbv zeta in Ep.
      match type of Ep with context [packbits ?x] => pose proof (packbits_n_bytes ((length x + 7) / 8) x) as F; fold (packbits x) in F; set (q := packbits x) in * end.
      clearbody q. destruct (Nat.eqb _ _); [injection Ep as <-; exact F|]. destruct q as [|y [|? ?]]; try discriminate.
      injection Ep as <-. apply Forall_forall. intros z Iz. apply repeat_spec in Iz. subst z. inversion_clear F. assumption.
    - eapply IH. exact Et. }
  intros E. do 9 (destruct bw as [|bw]; [first [discriminate|injection E as <-; apply S1
    |cbn [pack_int_weights] in E; destruct g; [eapply S2; exact E|discriminate]
    |injection E as <-; apply Forall_forall; intros y I; apply in_map_iff in I; destruct I as (c & <- & _); apply Z.mod_pos_bound; lia]|]). discriminate.
Qed.

(** From Python 3.9 on these widths raise ImportError, whatever the weights. *)
Theorem C116_import_refuted : forall bw row, odd_width bw -> pack_int_weights false bw row = None.
Proof. intros bw row [->|[->| ->]]; reflexivity. Qed.

(** Other widths: eight bits are kept, the rest raises. *)
Theorem C116_other_widths : forall g row,
  (Forall (fun w => -128 <= w < 256)%Z row -> exists l, pack_int_weights g 8 row = Some l /\ length l = length row /\
     Forall2 (fun b w => b = w \/ b = w + 256)%Z l row) /\
  (forall bw, ~ In bw [2; 3; 4; 5; 6; 8] -> pack_int_weights g bw row = None).
Proof.
  intros g row. split.
  - intros F. eexists. split; [reflexivity|]. split; [apply map_length|]. induction F as [|w row H F IH]; cbn [map]; constructor; [|exact IH].
    destruct (Z_lt_le_dec w 0) as [L|L].
    + right. rewrite <- (Z.mod_small (w + 256) 256) by lia. replace (w + 256)%Z with (w + 1 * 256)%Z by lia. rewrite Z.mod_add by lia. reflexivity.
    + left. apply Z.mod_small. lia.
  - intros bw N. do 9 (destruct bw as [|bw]; [first [reflexivity|exfalso; apply N; cbn; tauto]|]). reflexivity.
Qed.

Example C116_nontrivial :
  pack_int_weights false 4 [3; 10; 15; 0]%Z = Some [163; 15]%Z /\ read_bytes 4 [163; 15]%Z = [3; 10; 15; 0]%Z /\
  pack_int_weights false 4 [-1; 3]%Z = Some [255]%Z /\
  pack_int_weights true 3 [-1; 0; 1; 2; -4; 3; 0; -2]%Z = Some [224; 168; 198]%Z /\
  pack_int_weights true 3 [-1; 0; 1; 2; -4; 3; 0; -2; 3]%Z = Some [224; 168; 198]%Z /\
  pack_int_weights true 6 [1; 2; 3]%Z = None.
Proof. vm_compute. repeat split; reflexivity. Qed.

Print Assumptions C116_shift_lossless.
Print Assumptions C116_shift_signed_refuted.
Print Assumptions C116_shift_dropped_refuted.
Print Assumptions C116_bits_lossless.
Print Assumptions C116_bits_padding_refuted.
Print Assumptions C116_bytes.
Print Assumptions C116_import_refuted.
Print Assumptions C116_other_widths.
