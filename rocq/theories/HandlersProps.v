(** C94: operations that move the elements of a quantized tensor.  C95: operations that change them. *)
From Verif Require Import QUtil Ops OpsProofs QuantTensor Handlers HandlersProofs.
Open Scope nat_scope.

(** The specification is [codes] of HandlersProofs.v: [q] has integer codes [k] when every element is
    (code - zero point) * scale, with the scale and zero point that broadcasting gives the element, and
    every code is in the range of the bit width.  [elements] lists a tensor in row-major order. *)

(** The codes are what [int()] returns. *)
Theorem C94_int q k : codes q k -> (2 <= bit_width q)%Z -> exists t, int_ q = Some t /\ shape t = shape k /\ elements t = elements k.
Proof.
  intros C B. destruct (int_codes q k C B) as (t & E & S1 & A). exists t. split; [exact E|]. pose proof C as (Sk & _). split; [congruence|]. unfold elements. rewrite S1, Sk. apply map_ext_in.
  intros i Hi. apply A. apply in_indices. exact Hi.
Qed.

(** ** Reshaping *)
(** One scale and one zero point, of no more dimensions than the result. *)
Definition per_tensor (q : qtensor) (rank : nat) : Prop :=
  scalar (scale q) /\ scalar (zero_point q) /\ length (shape (scale q)) <= rank /\ length (shape (zero_point q)) <= rank.
(** view and reshape of a per-tensor quantized tensor keep the codes in row-major order. *)
Theorem C94_view q k dims q' : codes q k -> per_tensor q (length dims) -> view dims q = Some q' ->
  exists k', codes q' k' /\ elements k' = elements k /\ elements (value q') = elements (value q) /\ length (shape (value q')) = length dims
  /\ forall j d, nth_error dims j = Some d -> d <> (-1)%Z -> nth_error (shape (value q')) j = Some (Z.to_nat d).
Proof.
  intros C (Ss & Sz & Ls & Lz) H. unfold view, reshape_t in H. destruct (infer dims (prod (shape (value q)))) as [s|] eqn:I; [|discriminate]. destruct (reshape_to s (value q)) as [v|] eqn:R; [|discriminate]. injection H as <-.
  assert (X : length s = length dims /\ forall j d, nth_error dims j = Some d -> d <> (-1)%Z -> nth_error s j = Some (Z.to_nat d)).
  { unfold infer in I. destruct (existsb _ dims); [discriminate|]. destruct (filter (fun d => (d =? -1)%Z) dims) as [|x [|]]; try discriminate.
    - injection I as <-. split; [apply map_length|]. intros j d Hj _. rewrite nth_error_map, Hj. reflexivity.
    - destruct (_ || _) in I; [discriminate|]. injection I as <-. split; [apply map_length|]. intros j d Hj N. rewrite nth_error_map, Hj. cbn [option_map]. rewrite (proj2 (Z.eqb_neq d (-1)) N). reflexivity. }
  destruct X as [Xl Xn]. rewrite <- Xl in Ls, Lz. destruct (reshape_codes q k s v C Ss Sz Ls Lz R) as (k' & Rk & Ck). exists k'. split; [exact Ck|]. split; [exact (proj2 (reshape_elements s k k' Rk))|].
  destruct (reshape_elements s (value q) v R) as [Es Ee]. cbn [set_value value]. rewrite Es. split; [exact Ee|]. split; [exact Xl|exact Xn].
Qed.
(** A shape with as many elements is accepted; a -1 stands for what is missing. *)
Theorem C94_view_succeeds q dims : (forall d, In d dims -> (0 <= d)%Z) -> prod (map Z.to_nat dims) = prod (shape (value q)) -> exists q', view dims q = Some q' /\ shape (value q') = map Z.to_nat dims.
Proof.
  intros P E. unfold view, reshape_t, infer. assert (X : forall f : Z -> bool, (forall d, (0 <= d)%Z -> f d = false) -> existsb f dims = false /\ filter f dims = []).
  { intros f Hf. clear E. induction dims as [|d dims IH]; [split; reflexivity|]. destruct (IH (fun d Hd => P d (or_intror Hd))) as [A B]. cbn [existsb filter]. rewrite (Hf d) by (apply P; left; reflexivity). split; assumption. }
  rewrite (proj1 (X (fun d => (d <? -1)%Z) ltac:(intros d Hd; apply Z.ltb_ge; lia))), (proj2 (X (fun d => (d =? -1)%Z) ltac:(intros d Hd; apply Z.eqb_neq; lia))).
  unfold reshape_to. rewrite E, Nat.eqb_refl. eexists. split; reflexivity.
Qed.
Theorem C94_flatten q k start end_ q' : codes q k -> flatten start end_ q = Some q' -> per_tensor q (length (shape (value q'))) ->
  exists k' a b, codes q' k' /\ elements k' = elements k /\ norm_dim start (length (shape (value q))) = Some a /\ norm_dim end_ (length (shape (value q))) = Some b
  /\ shape (value q') = firstn a (shape (value q)) ++ [prod (firstn (b + 1 - a) (skipn a (shape (value q))))] ++ skipn (b + 1) (shape (value q)).
Proof.
  intros C H (Ss & Sz & Ls & Lz). unfold flatten, flatten_t in H. destruct (norm_dim start _) as [a|]; [|discriminate]. destruct (norm_dim end_ _) as [b|]; [|discriminate].
  destruct (b <? a); [discriminate|]. set (s := firstn a (shape (value q)) ++ _) in *. destruct (reshape_to s (value q)) as [v|] eqn:R; [|discriminate]. injection H as <-. cbn [set_value value scale zero_point] in *.
  pose proof (proj1 (reshape_elements s _ v R)) as Sv. rewrite Sv in *. destruct (reshape_codes q k s v C Ss Sz Ls Lz R) as (k' & Rk & Ck). exists k', a, b. split; [exact Ck|]. split; [exact (proj2 (reshape_elements s k k' Rk))|]. repeat split.
Qed.

(** ** Permuting dimensions *)
(** transpose moves each code to the index with the two coordinates exchanged, for metadata of the rank
    of the tensor or with one element. *)
Definition exchanged (a b : nat) (l l' : list nat) : Prop :=
  length l' = length l /\ nth a l' 0 = nth b l 0 /\ nth b l' 0 = nth a l 0 /\ forall j, j <> a -> j <> b -> nth j l' 0 = nth j l 0.
Lemma exchanged_gather a b l : a < length l -> b < length l -> exchanged a b l (gather (map (swap a b) (seq 0 (length l))) l).
Proof.
  intros Ha Hb. assert (N : forall j, j < length l -> nth j (gather (map (swap a b) (seq 0 (length l))) l) 0 = nth (swap a b j) l 0).
  { intros j Hj. rewrite nth_gather by (rewrite map_length, seq_length; exact Hj). rewrite (nth_map _ _ 0) by (rewrite seq_length; exact Hj). rewrite seq_nth by exact Hj. reflexivity. }
  split; [rewrite gather_length, map_length, seq_length; reflexivity|]. rewrite !N by assumption. unfold swap. rewrite Nat.eqb_refl. split; [reflexivity|]. split.
  - rewrite Nat.eqb_refl. destruct (Nat.eqb_spec b a) as [->|]; reflexivity.
  - intros j Ja Jb. destruct (Nat.lt_ge_cases j (length l)) as [Hj|Hj].
    + rewrite N by exact Hj. unfold swap. rewrite (proj2 (Nat.eqb_neq j a) Ja), (proj2 (Nat.eqb_neq j b) Jb). reflexivity.
    + rewrite !nth_overflow; try reflexivity; [exact Hj|]. rewrite gather_length, map_length, seq_length. exact Hj.
Qed.
Lemma move_codes q k f p q' : codes q k -> same_rank_or_scalar q (scale q) -> same_rank_or_scalar q (zero_point q) -> permutes p (length (shape (value q))) ->
  (forall A (t : tensor A), length (shape t) = length (shape (value q)) -> f A t = Some (permute_n p t)) -> move_meta f q = Some q' ->
  codes q' (permute_n p k) /\ shape (value q') = gather p (shape (value q)).
Proof.
  intros C Rs Rz P F H. unfold move_meta in H. rewrite (F Q (value q) eq_refl) in H. cbn [permute_n shape] in H. rewrite gather_length, (proj1 P) in H.
  assert (M : forall m : tensor Q, (if length (shape (value q)) =? length (shape m) then f Q m else Some m) = Some (pmeta p (length (shape (value q))) m)).
  { intros m. unfold pmeta. destruct (Nat.eqb_spec (length (shape (value q))) (length (shape m))) as [E|]; [|reflexivity]. apply F. symmetry. exact E. }
  rewrite !M in H. injection H as <-. split; [exact (permute_codes q k p C P Rs Rz)|reflexivity].
Qed.
Theorem C94_transpose q k d0 d1 q' : codes q k -> shape (value q) <> [] -> same_rank_or_scalar q (scale q) -> same_rank_or_scalar q (zero_point q) -> transpose d0 d1 q = Some q' ->
  exists k' a b, norm_dim d0 (length (shape (value q))) = Some a /\ norm_dim d1 (length (shape (value q))) = Some b /\ codes q' k' /\ exchanged a b (shape k) (shape k')
  /\ forall i, in_shape (shape k) i -> exists i', exchanged a b i i' /\ in_shape (shape k') i' /\ at_ k' i' = at_ k i.
Proof.
  intros C N Rs Rz H. pose proof C as (Sk & _). set (n := length (shape (value q))) in *.
  assert (D : exists a b, norm_dim d0 n = Some a /\ norm_dim d1 n = Some b).
  { unfold transpose, move_meta, transpose_t in H. fold n in H. destruct (norm_dim d0 n) as [a|]; [|discriminate]. destruct (norm_dim d1 n) as [b|]; [|discriminate]. exists a, b. split; reflexivity. }
  destruct D as (a & b & Da & Db). assert (Hn : 1 <= n) by (unfold n; destruct (shape (value q)); [congruence|cbn [length]; lia]).
  pose proof (norm_dim_lt _ _ _ Da) as La. pose proof (norm_dim_lt _ _ _ Db) as Lb. assert (La' : a < n) by lia. assert (Lb' : b < n) by lia. pose proof (swap_permutes a b n La' Lb') as P.
  assert (F : forall A (t : tensor A), length (shape t) = n -> transpose_t d0 d1 t = Some (permute_n (map (swap a b) (seq 0 n)) t)).
  { intros A t E. unfold transpose_t. rewrite E. fold n. rewrite Da, Db. reflexivity. }
  destruct (move_codes q k (fun A => @transpose_t A d0 d1) _ q' C Rs Rz P F H) as [Ck _].
  exists (permute_n (map (swap a b) (seq 0 n)) k), a, b. split; [exact Da|]. split; [exact Db|]. split; [exact Ck|]. cbn [permute_n shape at_]. assert (Lk : length (shape k) = n) by (rewrite Sk; reflexivity).
  split; [rewrite <- Lk; apply exchanged_gather; lia|]. intros i Hi. pose proof (in_shape_length _ _ Hi) as Li. exists (gather (map (swap a b) (seq 0 n)) i).
  split; [rewrite <- Lk, <- Li; apply exchanged_gather; lia|]. split; [apply (gather_in _ n); [exact P|lia|exact Hi]|].
  change (at_ k (ungather (map (swap a b) (seq 0 n)) (gather (map (swap a b) (seq 0 n)) i)) = at_ k i). rewrite (ungather_gather _ n); [reflexivity|exact P|lia].
Qed.
(** permute: coordinate [j] of the result is coordinate [p j] of the argument. *)
Theorem C94_permute q k dims q' : codes q k -> same_rank_or_scalar q (scale q) -> same_rank_or_scalar q (zero_point q) -> permute dims q = Some q' ->
  exists k' p, map_opt (fun d => norm_dim d (length (shape k))) dims = Some p /\ codes q' k' /\ shape k' = gather p (shape k)
  /\ forall i, in_shape (shape k) i -> in_shape (shape k') (gather p i) /\ at_ k' (gather p i) = at_ k i.
Proof.
  intros C Rs Rz H. pose proof C as (Sk & _). rewrite Sk. set (n := length (shape (value q))) in *.
  assert (D : exists p, map_opt (fun d => norm_dim d n) dims = Some p /\ is_perm p n = true).
  { unfold permute, move_meta, permute_t in H. fold n in H. destruct (map_opt _ dims) as [p|]; [|discriminate]. destruct (is_perm p n) eqn:E; [|discriminate]. exists p. split; [reflexivity|exact E]. }
  destruct D as (p & Dp & Ip). pose proof (is_perm_ok p n Ip) as P. assert (F : forall A (t : tensor A), length (shape t) = n -> permute_t dims t = Some (permute_n p t)).
  { intros A t E. unfold permute_t. rewrite E. fold n. rewrite Dp, Ip. reflexivity. }
  destruct (move_codes q k (fun A => @permute_t A dims) _ q' C Rs Rz P F H) as [Ck _].
  exists (permute_n p k), p. split; [exact Dp|]. split; [exact Ck|]. cbn [permute_n shape at_]. rewrite Sk. split; [reflexivity|]. intros i Hi. split; [apply (gather_in p n); [exact P|reflexivity|exact Hi]|].
  change (at_ k (ungather p (gather p i)) = at_ k i). rewrite (ungather_gather p n); [reflexivity|exact P|exact (in_shape_length _ _ Hi)].
Qed.

(** ** Rearranging channels, looking up rows *)
(** Channel [c r^2 + a r + b] at (h, w) is channel [c] at (h r + a, w r + b). *)
Theorem C94_pixel_shuffle q k r q' : codes q k -> per_tensor q (length (shape (value q))) -> pixel_shuffle_handler r q = Some q' ->
  exists k' c h w, codes q' k' /\ trail 3 (shape (value q)) = [c; h; w] /\ shape k' = lead 3 (shape (value q)) ++ [c / (r * r); h * r; w * r]
  /\ forall l oc y x a b, a < r -> b < r -> at_ k' (l ++ [oc; y * r + a; x * r + b]) = at_ k (l ++ [oc * (r * r) + a * r + b; y; x]).
Proof.
  intros C (Ss & Sz & _) H. unfold pixel_shuffle_handler, quant_invariant_handler in H. destruct (pixel_shuffle_t r (value q)) as [v|] eqn:E; [|discriminate]. injection H as <-.
  destruct (shuffle_codes q k r v C Ss Sz E) as (k' & Ek & Ck). pose proof C as (Sk & _). unfold pixel_shuffle_t in Ek. rewrite Sk in Ek. destruct (trail 3 (shape (value q))) as [|c [|h [|w [|]]]]; try discriminate.
  exists k', c, h, w. split; [exact Ck|]. split; [reflexivity|]. destruct (_ || _); [discriminate|]. injection Ek as <-. split; [reflexivity|]. cbn [at_]. intros l oc y x a b Ha Hb. rewrite trail_app, lead_app by reflexivity.
  rewrite !Nat.div_add_l by lia. rewrite (Nat.div_small a r Ha), (Nat.div_small b r Hb), !Nat.add_0_r. rewrite !(Nat.add_comm (_ * r)). rewrite !Nat.mod_add by lia. rewrite (Nat.mod_small a r Ha), (Nat.mod_small b r Hb).
  reflexivity.
Qed.
Theorem C94_pixel_unshuffle q k r q' : codes q k -> per_tensor q (length (shape (value q))) -> pixel_unshuffle_handler r q = Some q' ->
  exists k' c h w, codes q' k' /\ trail 3 (shape (value q)) = [c; h; w] /\ shape k' = lead 3 (shape (value q)) ++ [c * (r * r); h / r; w / r]
  /\ forall l ic y x a b, a < r -> b < r -> at_ k' (l ++ [ic * (r * r) + a * r + b; y; x]) = at_ k (l ++ [ic; y * r + a; x * r + b]).
Proof.
  intros C (Ss & Sz & _) H. unfold pixel_unshuffle_handler, quant_invariant_handler in H. destruct (pixel_unshuffle_t r (value q)) as [v|] eqn:E; [|discriminate]. injection H as <-.
  destruct (unshuffle_codes q k r v C Ss Sz E) as (k' & Ek & Ck). pose proof C as (Sk & _). unfold pixel_unshuffle_t in Ek. rewrite Sk in Ek. destruct (trail 3 (shape (value q))) as [|c [|h [|w [|]]]]; try discriminate.
  exists k', c, h, w. split; [exact Ck|]. split; [reflexivity|]. destruct (_ || _); [discriminate|]. injection Ek as <-. split; [reflexivity|]. cbn [at_]. intros l ic y x a b Ha Hb. rewrite trail_app, lead_app by reflexivity.
  assert (R : a * r + b < r * r) by nia. replace (ic * (r * r) + a * r + b) with (a * r + b + ic * (r * r)) by lia. rewrite Nat.div_add, Nat.mod_add by nia. rewrite (Nat.div_small _ _ R), (Nat.mod_small _ _ R).
  rewrite Nat.div_add_l by lia. rewrite (Nat.div_small b r Hb). replace (a * r + b + ic * (r * r)) with (b + (a + ic * r) * r) by lia. rewrite Nat.mod_add by lia. rewrite (Nat.mod_small b r Hb), Nat.add_0_r. reflexivity.
Qed.
(** A looked-up row has the codes of the row; other than per-tensor quantizers raise. *)
Theorem C94_embedding idx q k q' : codes q k -> ~ In 0 (shape (scale q)) -> ~ In 0 (shape (zero_point q)) ->
  length (shape (scale q)) <= S (length (shape idx)) -> length (shape (zero_point q)) <= S (length (shape idx)) -> embedding_handler idx q = Some q' ->
  exists k' num dim, codes q' k' /\ shape (value q) = [num; dim] /\ shape k' = shape idx ++ [dim] /\ forall i c, at_ k' (i ++ [c]) = at_ k [at_ idx i; c].
Proof.
  intros C Ns Nz Ls Lz H. destruct (embedding_codes idx q k q' C Ns Nz Ls Lz H) as (k' & Ek & Ck). pose proof C as (Sk & _). unfold embedding_t in Ek. rewrite Sk in Ek.
  destruct (shape (value q)) as [|num [|dim [|]]]; try discriminate. destruct (forallb _ _); [|discriminate]. injection Ek as <-. eexists. exists num, dim. split; [exact Ck|]. split; [reflexivity|]. split; [reflexivity|].
  intros i c. cbn [at_]. rewrite lead_app, trail_app by reflexivity. reflexivity.
Qed.
Theorem C94_embedding_raises idx q : 1 < prod (shape (scale q)) -> embedding_handler idx q = None.
Proof. intros H. unfold embedding_handler. destruct (embedding_t idx (value q)); [|reflexivity]. rewrite (proj2 (Nat.ltb_lt _ _) H). reflexivity. Qed.

(** ** Findings: metadata that are not one number *)
Definition of_list {A} (d : A) (s : list nat) (l : list A) : tensor A := T s (fun i => nth (ravel s i) l d).
Definition view_int (q : qtensor) : option (list nat * list Z) := option_map (fun t => (shape t, elements t)) (int_ q).
(** Four rows of two, one scale per row. *)
Definition rows : qtensor := QT (of_list 0%Q [4; 2] [2; 2; 4; 8; 4; 4; 8; 4]%Q) (of_list 1%Q [4; 1] [1; 2; 1; 2]%Q) (of_list 0%Q [] [0%Q]) 8 true.
(** Reshaping keeps the scales in place: the codes are no longer those of the tensor, and nothing raises. *)
Theorem C94_reshape_refuted : exists q dims q', view dims q = Some q' /\ view_int q = Some ([4; 2], [2; 2; 2; 4; 4; 4; 4; 2]%Z) /\ view_int q' = Some ([2; 4; 1], [2; 1; 4; 4; 4; 2; 8; 2]%Z).
Proof. eexists rows, [2; 4; 1]%Z, _. split; [vm_compute; reflexivity|]. split; vm_compute; reflexivity. Qed.
(** Flattening makes the scales broadcast the other way: [int()] has another shape than the tensor. *)
Theorem C94_flatten_refuted : exists q q', flatten 0 (-1) q = Some q' /\ view_int q <> None /\ shape (value q') = [8] /\ option_map fst (view_int q') = Some [4; 8].
Proof. eexists rows, _. split; [vm_compute; reflexivity|]. split; [vm_compute; discriminate|]. split; vm_compute; reflexivity. Qed.
(** A scale of lower rank than the tensor is not transposed with it. *)
Definition columns : qtensor := QT (of_list 0%Q [2; 2] [2; 4; 6; 8]%Q) (of_list 1%Q [2] [1; 2]%Q) (of_list 0%Q [] [0%Q]) 8 true.
Theorem C94_transpose_refuted : exists q q', transpose 0 1 q = Some q' /\ view_int q = Some ([2; 2], [2; 2; 6; 4]%Z) /\ view_int q' = Some ([2; 2], [2; 3; 4; 4]%Z).
Proof. eexists columns, _. split; [vm_compute; reflexivity|]. split; vm_compute; reflexivity. Qed.
(** Pixel shuffling a per-channel tensor: four channels become one, and the four scales blow it up again. *)
Definition channels : qtensor := QT (of_list 0%Q [1; 4; 1; 1] [1; 2; 3; 4]%Q) (of_list 1%Q [1; 4; 1; 1] [1; 1; 1; 1]%Q) (of_list 0%Q [] [0%Q]) 8 true.
Theorem C94_pixel_shuffle_refuted : exists q q', pixel_shuffle_handler 2 q = Some q' /\ view_int q <> None /\ shape (value q') = [1; 1; 2; 2] /\ option_map fst (view_int q') = Some [1; 4; 2; 2].
Proof. eexists channels, _. split; [vm_compute; reflexivity|]. split; [vm_compute; discriminate|]. split; vm_compute; reflexivity. Qed.

(** ** C95: elementwise operations *)
(** The zero point of each element is an integer in range, that is, zero can be represented. *)
Definition zero_code (q : qtensor) (z : list nat -> Z) : Prop :=
  forall i, in_shape (shape (value q)) i -> (zp_at q i == inject_Z (z i))%Q /\ in_range (bit_width q) (signed q) (z i).
Theorem C95_relu q k z q' : codes q k -> zero_code q z -> relu_qt_handler q = Some q' ->
  exists k', codes q' k' /\ shape k' = shape k /\ forall i, at_ k' i = Z.max (at_ k i) (z i).
Proof.
  intros C Zc H. injection H as <-. exists (T (shape k) (fun i => Z.max (at_ k i) (z i))). split; [|split; reflexivity]. apply (tmap_codes q k relu (fun i c => Z.max c (z i)) C).
  intros i Hi. destruct C as (_ & _ & _ & H). destruct (H i Hi) as (P & R & E). destruct (Zc i Hi) as [Ez Rz]. unfold relu. destruct (Qle_bool 0 (at_ (value q) i)) eqn:B.
  - apply Qle_bool_iff in B. rewrite E, Ez in B. rewrite E. assert (L : (z i <= at_ k i)%Z).
    { apply injz_le_inv. setoid_replace 0%Q with (0 * scale_at q i)%Q in B by ring. apply Qmult_le_r in B; [|exact P]. apply (Qplus_le_l _ _ (- inject_Z (z i))). setoid_replace (inject_Z (z i) + - inject_Z (z i))%Q with 0%Q by ring. exact B. }
    rewrite Z.max_l by exact L. split; [exact R|reflexivity].
  - apply Qle_bool_false in B. rewrite E, Ez in B. assert (L : (at_ k i < z i)%Z).
    { apply injz_lt_inv. setoid_replace 0%Q with (0 * scale_at q i)%Q in B by ring. apply Qmult_lt_r in B; [|exact P]. apply (Qplus_lt_l _ _ (- inject_Z (z i))). setoid_replace (inject_Z (z i) + - inject_Z (z i))%Q with 0%Q by ring. exact B. }
    rewrite Z.max_r by lia. split; [exact Rz|]. rewrite Ez. ring.
Qed.
Definition min_code (q : qtensor) : Z := if signed q then (- 2 ^ (bit_width q - 1))%Z else 0%Z.
Definition max_code (q : qtensor) : Z := if signed q then (2 ^ (bit_width q - 1) - 1)%Z else (2 ^ bit_width q - 1)%Z.
(** A bound is representable, or out of reach. *)
Definition lower_bound (q : qtensor) (i : list nat) (lo : Q) (c : Z) : Prop :=
  in_range (bit_width q) (signed q) c /\ (lo == (inject_Z c - zp_at q i) * scale_at q i \/ c = min_code q /\ lo <= (inject_Z c - zp_at q i) * scale_at q i)%Q.
Definition upper_bound (q : qtensor) (i : list nat) (hi : Q) (c : Z) : Prop :=
  in_range (bit_width q) (signed q) c /\ (hi == (inject_Z c - zp_at q i) * scale_at q i \/ c = max_code q /\ (inject_Z c - zp_at q i) * scale_at q i <= hi)%Q.
Lemma code_bounds q c : in_range (bit_width q) (signed q) c -> (min_code q <= c <= max_code q)%Z.
Proof. unfold in_range, min_code, max_code. destruct (signed q); lia. Qed.
Lemma code_le q i a b : (0 < scale_at q i)%Q -> (a <= b)%Z <-> ((inject_Z a - zp_at q i) * scale_at q i <= (inject_Z b - zp_at q i) * scale_at q i)%Q.
Proof.
  intros P. rewrite Qmult_le_r by exact P. split; intros H.
  - apply Qplus_le_compat; [apply injz_le; exact H|apply Qle_refl].
  - apply injz_le_inv. apply (Qplus_le_l _ _ (- zp_at q i)). exact H.
Qed.
Theorem C95_hardtanh q k lo hi cl ch q' : codes q k -> (lo <= hi)%Q ->
  (forall i, in_shape (shape (value q)) i -> lower_bound q i lo (cl i) /\ upper_bound q i hi (ch i)) -> hardtanh_qt_handler lo hi q = Some q' ->
  exists k', codes q' k' /\ shape k' = shape k /\ forall i, at_ k' i = Z.min (Z.max (at_ k i) (cl i)) (Z.max (cl i) (ch i)).
Proof.
  intros C Lh B H. injection H as <-. exists (T (shape k) (fun i => Z.min (Z.max (at_ k i) (cl i)) (Z.max (cl i) (ch i)))). split; [|split; reflexivity].
  apply (tmap_codes q k (hardtanh lo hi) (fun i c => Z.min (Z.max c (cl i)) (Z.max (cl i) (ch i))) C). intros i Hi. destruct C as (_ & _ & _ & H). destruct (H i Hi) as (P & R & E). destruct (B i Hi) as [[Rl Bl] [Rh Bh]].
  pose proof (code_bounds _ _ R) as K0. pose proof (code_bounds _ _ Rl) as K1. pose proof (code_bounds _ _ Rh) as K2. split.
  { destruct (Z.min_spec (Z.max (at_ k i) (cl i)) (Z.max (cl i) (ch i))) as [[_ ->]|[_ ->]]; [destruct (Z.max_spec (at_ k i) (cl i)) as [[_ ->]|[_ ->]]|destruct (Z.max_spec (cl i) (ch i)) as [[_ ->]|[_ ->]]]; assumption. }
  assert (Ll : forall c, in_range (bit_width q) (signed q) c -> (cl i <= c)%Z -> (lo <= (inject_Z c - zp_at q i) * scale_at q i)%Q).
  { intros c Hc L. apply (code_le q i _ _ P) in L. destruct Bl as [Bl|[_ Bl]]; [rewrite Bl; exact L|eapply Qle_trans; eassumption]. }
  assert (Lu : forall c, in_range (bit_width q) (signed q) c -> (c <= ch i)%Z -> ((inject_Z c - zp_at q i) * scale_at q i <= hi)%Q).
  { intros c Hc L. apply (code_le q i _ _ P) in L. destruct Bh as [Bh|[_ Bh]]; [rewrite Bh; exact L|eapply Qle_trans; eassumption]. }
  unfold hardtanh. destruct (Qlt_bool (at_ (value q) i) lo) eqn:B1.
  - apply Qlt_bool_iff in B1. rewrite E in B1. assert (K : (at_ k i < cl i)%Z) by (apply Z.nle_gt; intros L; apply (Qlt_not_le _ _ B1); apply Ll; assumption).
    destruct Bl as [Bl|[El Bl]]; [|lia]. rewrite Z.max_r, Z.min_l by lia. exact Bl.
  - apply Qlt_bool_false in B1. rewrite E in B1. destruct (Qlt_bool hi (at_ (value q) i)) eqn:B2.
    + apply Qlt_bool_iff in B2. rewrite E in B2. assert (K : (ch i < at_ k i)%Z) by (apply Z.nle_gt; intros L; apply (Qlt_not_le _ _ B2); apply Lu; assumption).
      destruct Bh as [Bh|[Eh Bh]]; [|lia]. assert (Kl : (cl i <= ch i)%Z) by (destruct Bl as [Bl|[El _]]; [apply (code_le q i _ _ P); rewrite <- Bl, <- Bh; exact Lh|rewrite El; lia]).
      rewrite (Z.max_r (cl i)) by exact Kl. rewrite Z.min_r by lia. exact Bh.
    + apply Qlt_bool_false in B2. rewrite E in B2. assert (K1' : (cl i <= at_ k i)%Z).
      { destruct Bl as [Bl|[El _]]; [apply (code_le q i _ _ P); rewrite <- Bl; exact B1|lia]. }
      assert (K2' : (at_ k i <= ch i)%Z). { destruct Bh as [Bh|[Eh _]]; [apply (code_le q i _ _ P); rewrite <- Bh; exact B2|lia]. }
      rewrite (Z.max_l (at_ k i)) by exact K1'. rewrite (Z.max_r (cl i)) by lia. rewrite Z.min_l by exact K2'. exact E.
Qed.
(** relu6 is hardtanh with bounds 0 and 6: six has to be on the grid or out of reach. *)
Theorem C95_relu6 q k z c6 q' : codes q k -> zero_code q z -> (forall i, in_shape (shape (value q)) i -> upper_bound q i 6 (c6 i)) -> relu6_qt_handler q = Some q' ->
  exists k', codes q' k' /\ shape k' = shape k /\ forall i, at_ k' i = Z.min (Z.max (at_ k i) (z i)) (Z.max (z i) (c6 i)).
Proof.
  intros C Zc B H. apply (C95_hardtanh q k 0 6 z c6 q' C); [discriminate| |exact H]. intros i Hi. split; [|apply B; exact Hi]. destruct (Zc i Hi) as [E R]. split; [exact R|]. left. rewrite E. ring.
Qed.
(** Dropout does nothing in evaluation mode. *)
Theorem C95_dropout_eval q p keep : dropout_handler false p keep q = Some q.
Proof. destruct q. reflexivity. Qed.

(** ** Padding *)
Theorem C95_pad q k pads c kc q' : codes q k -> pad_handler pads c q = Some q' ->
  unpadded (shape (scale q)) (pads_of (length (shape (value q))) pads) -> unpadded (shape (zero_point q)) (pads_of (length (shape (value q))) pads) ->
  (forall i, in_shape (shape (value q')) i -> (0 < scale_at q i)%Q /\ in_range (bit_width q) (signed q) (kc i) /\ (c == (inject_Z (kc i) - zp_at q i) * scale_at q i)%Q) ->
  exists k', codes q' k' /\ forall i, in_shape (shape (value q')) i ->
    let src := pad_src (pads_of (length (shape (value q))) pads) i in
    if inside (shape (value q)) src then at_ k' i = at_ k (map Z.to_nat src) /\ (at_ (value q') i == at_ (value q) (map Z.to_nat src))%Q else at_ k' i = kc i /\ (at_ (value q') i == c)%Q.
Proof.
  intros C H Us Uz G. unfold pad_handler, quant_invariant_handler in H. destruct (pad_t pads c (value q)) as [v|] eqn:E; [|discriminate]. injection H as <-. cbn [set_value value] in *.
  eexists. split; [apply (pad_codes q k pads c v kc C E Us Uz); intros i Hi _; exact (G i Hi)|]. intros i Hi. cbv zeta. cbn [at_]. unfold pad_t in E. destruct (_ || _); [discriminate|]. injection E as <-. cbn [at_].
  destruct (inside _ _); split; reflexivity.
Qed.

(** ** Pooling *)
(** Position [x] is in the window of output [t]. *)
Definition in_window (n : nat) (d : pool_dim) (t x : nat) : Prop :=
  x < n /\ exists j, j < kernel d /\ Z.of_nat x = (Z.of_nat t * Z.of_nat (stride d) - Z.of_nat (padding d) + Z.of_nat j * Z.of_nat (dilation d))%Z.
Fixpoint in_windows (ns : list nat) (ds : list pool_dim) (ts xs : list nat) : Prop :=
  match ns, ds, ts, xs with
  | [], [], [], [] => True
  | n :: ns, d :: ds, t :: ts, x :: xs => in_window n d t x /\ in_windows ns ds ts xs
  | _, _, _, _ => False
  end.
Lemma window_in n d t x : In x (window n d t) <-> in_window n d t x.
Proof.
  unfold window, in_window. rewrite in_map_iff. split.
  - intros (p & <- & Hp). apply filter_In in Hp. destruct Hp as [Hp Hb]. apply andb_prop in Hb. destruct Hb as [B1 B2]. apply Z.leb_le in B1. apply Z.ltb_lt in B2. split; [lia|]. apply in_map_iff in Hp. destruct Hp as (j & <- & Hj). apply in_seq in Hj. exists j. split; [lia|]. lia.
  - intros (Hx & j & Hj & E). exists (Z.of_nat x). split; [apply Nat2Z.id|]. apply filter_In. split; [apply in_map_iff; exists j; split; [lia|apply in_seq; lia]|]. apply andb_true_intro. split; [apply Z.leb_le|apply Z.ltb_lt]; lia.
Qed.
Lemma products_windows ceil ns : forall ds ts xs, length ds = length ns -> length ts = length ns ->
  In xs (products (zipw (map (fun x => (pool_size ceil (fst x) (snd x), window (fst x) (snd x))) (combine ns ds)) ts)) <-> in_windows ns ds ts xs.
Proof.
  induction ns as [|n ns IH]; intros [|d ds] [|t ts] xs Ld Lt; try discriminate; cbn [in_windows].
  - cbn. destruct xs; split; try tauto; [intros [E|[]]; discriminate].
  - unfold zipw in *. cbn [combine map fst snd products]. rewrite in_flat_map. split.
    + intros (x & Hx & Hs). apply in_map_iff in Hs. destruct Hs as (r & <- & Hr). split; [apply window_in; exact Hx|]. apply (IH ds ts); [injection Ld as Ld; exact Ld|injection Lt as Lt; exact Lt|exact Hr].
    + destruct xs as [|x xs]; [tauto|]. intros [Hx Hr]. exists x. split; [apply window_in; exact Hx|]. apply in_map. apply (IH ds ts); [injection Ld as Ld; exact Ld|injection Lt as Lt; exact Lt|exact Hr].
Qed.
(** Max pooling of a tensor whose metadata do not vary over the pooled dimensions gives the maximum code of
    each window. *)
Theorem C95_max_pool q k ceil ds q' : codes q k -> flat_tail (length ds) (shape (scale q)) -> flat_tail (length ds) (shape (zero_point q)) ->
  Forall (fun d => dilation d = 1 \/ padding d = 0) ds -> max_pool_handler ceil ds q = Some q' ->
  exists k', codes q' k' /\ forall l t, in_shape (shape (value q')) (l ++ t) -> length t = length ds ->
    (exists x, in_windows (trail (length ds) (shape (value q))) ds t x /\ at_ k' (l ++ t) = at_ k (l ++ x))
    /\ forall x, in_windows (trail (length ds) (shape (value q))) ds t x -> (at_ k (l ++ x) <= at_ k' (l ++ t))%Z.
Proof.
  intros C Ts Tz D H. unfold max_pool_handler, quant_invariant_handler, max_pool_t in H. set (ns := trail (length ds) (shape (value q))) in *.
  set (ws := map (fun x => (pool_size ceil (fst x) (snd x), window (fst x) (snd x))) (combine ns ds)) in *.
  destruct (Nat.leb_spec (length (shape (value q))) (length ds)) as [|L]; [discriminate|]. cbn [orb] in H. destruct (forallb pool_ok ds) eqn:K; [|discriminate]. cbn [negb orb] in H.
  destruct (existsb (Nat.eqb 0) ns) eqn:Z0; [discriminate|]. cbn [orb] in H. destruct (existsb _ ws); [discriminate|]. injection H as <-. cbn [option_map set_value value] in *.
  assert (Ln : length ns = length ds) by (apply trail_length; lia). assert (Lw : length ws = length ds) by (unfold ws; rewrite map_length, combine_length; lia).
  assert (W : windows_ok ns ws).
  { clear - D K Z0 Ln. unfold windows_ok, ws. revert D K Z0 Ln. generalize ns. clear. intros ns. revert ds. induction ns as [|n ns IH]; intros [|d ds] D K Z0 Ln; try discriminate; [constructor|].
    cbn [forallb existsb] in K, Z0. apply andb_prop in K. destruct K as [K1 K2]. apply orb_false_elim in Z0. destruct Z0 as [Z1 Z2]. inversion D as [|? ? D1 D2]; subst. cbn [combine map]. constructor; [|apply IH; [exact D2|exact K2|exact Z2|injection Ln as Ln; exact Ln]].
    cbn [fst snd]. intros i Hi. apply (window_ok ceil n d i); [destruct n; [discriminate|lia]|exact K1|exact D1|exact Hi]. }
  exists (pool_t Z.max 0%Z ws k). split; [apply pool_codes; try rewrite Lw; try assumption; lia|].
  intros l t Hi Lt. cbn [pool_t shape at_] in *. rewrite Lw in *. rewrite (lead_app (length ds) l t Lt), (trail_app (length ds) l t Lt).
  destruct (in_shape_split (length ds) _ _ _ ltac:(rewrite map_length; exact Lw) Hi) as [_ Ht]. rewrite (trail_app (length ds) l t Lt) in Ht. destruct (windows_in _ _ W t Ht) as [N _].
  destruct (maxl_in (map (fun src => at_ k (l ++ src)) (products (zipw ws t)))) as [M1 M2]; [intros E; apply map_eq_nil in E; congruence|]. split.
  - apply in_map_iff in M1. destruct M1 as (x & E & Hx). exists x. split; [apply (products_windows ceil ns ds t x); [lia|lia|exact Hx]|]. symmetry. exact E.
  - intros x Hx. apply M2. apply (in_map (fun src => at_ k (l ++ src))). apply (products_windows ceil ns ds t x); [lia|lia|exact Hx].
Qed.
(** Adaptive max pooling: output [t] of [out] covers the positions that overlap [t n / out, (t+1) n / out). *)
Definition overlaps (n out t x : nat) : Prop := x * out < (t + 1) * n /\ t * n < (x + 1) * out.
Fixpoint all_overlap (ns outs ts xs : list nat) : Prop :=
  match ns, outs, ts, xs with
  | [], [], [], [] => True
  | n :: ns, o :: outs, t :: ts, x :: xs => overlaps n o t x /\ all_overlap ns outs ts xs
  | _, _, _, _ => False
  end.
Lemma adaptive_in n out t x : 1 <= out -> In x (adaptive n out t) <-> overlaps n out t x.
Proof.
  intros Ho. unfold adaptive, overlaps. set (a := t * n / out). set (b := (t * n + n + out - 1) / out).
  assert (A : out * a <= t * n < out * a + out) by (unfold a; pose proof (Nat.div_mod (t * n) out ltac:(lia)); pose proof (Nat.mod_upper_bound (t * n) out ltac:(lia)); lia).
  assert (B : out * b <= t * n + n + out - 1 < out * b + out) by (unfold b; pose proof (Nat.div_mod (t * n + n + out - 1) out ltac:(lia)); pose proof (Nat.mod_upper_bound (t * n + n + out - 1) out ltac:(lia)); lia).
  rewrite in_seq. split; intros [H1 H2].
  - assert (x < b) by lia. split; nia.
  - assert (a <= x) by nia. assert (x < b) by nia. lia.
Qed.
Lemma products_adaptive ns : forall outs ts xs, Forall (fun o => 1 <= o) outs -> length outs = length ns -> length ts = length ns ->
  In xs (products (zipw (map (fun x => (snd x, adaptive (fst x) (snd x))) (combine ns outs)) ts)) <-> all_overlap ns outs ts xs.
Proof.
  induction ns as [|n ns IH]; intros [|d ds] [|t ts] xs F Ld Lt; try discriminate; cbn [all_overlap].
  - cbn. destruct xs; split; try tauto; [intros [E|[]]; discriminate].
  - inversion F as [|? ? F1 F2]; subst. unfold zipw in *. cbn [combine map fst snd products]. rewrite in_flat_map. split.
    + intros (x & Hx & Hs). apply in_map_iff in Hs. destruct Hs as (r & <- & Hr). split; [apply adaptive_in; [exact F1|exact Hx]|]. apply (IH ds ts); [exact F2|injection Ld as Ld; exact Ld|injection Lt as Lt; exact Lt|exact Hr].
    + destruct xs as [|x xs]; [tauto|]. intros [Hx Hr]. exists x. split; [apply adaptive_in; [exact F1|exact Hx]|]. apply in_map. apply (IH ds ts); [exact F2|injection Ld as Ld; exact Ld|injection Lt as Lt; exact Lt|exact Hr].
Qed.
Lemma existsb_zero l : existsb (Nat.eqb 0) l = false -> Forall (fun x => 1 <= x) l.
Proof. induction l as [|x l IH]; intros H; [constructor|]. cbn [existsb] in H. apply orb_false_elim in H. destruct H as [H1 H2]. constructor; [destruct x; [discriminate|lia]|exact (IH H2)]. Qed.
Theorem C95_adaptive_max_pool q k outs q' : codes q k -> flat_tail (length outs) (shape (scale q)) -> flat_tail (length outs) (shape (zero_point q)) -> adaptive_max_pool_handler outs q = Some q' ->
  exists k', codes q' k' /\ shape k' = lead (length outs) (shape k) ++ outs /\ forall l t, in_shape (shape (value q')) (l ++ t) -> length t = length outs ->
    (exists x, all_overlap (trail (length outs) (shape (value q))) outs t x /\ at_ k' (l ++ t) = at_ k (l ++ x))
    /\ forall x, all_overlap (trail (length outs) (shape (value q))) outs t x -> (at_ k (l ++ x) <= at_ k' (l ++ t))%Z.
Proof.
  intros C Ts Tz H. pose proof C as (Sk & _). unfold adaptive_max_pool_handler, quant_invariant_handler, adaptive_max_pool_t in H. set (ns := trail (length outs) (shape (value q))) in *.
  set (ws := map (fun x => (snd x, adaptive (fst x) (snd x))) (combine ns outs)) in *.
  destruct (Nat.leb_spec (length (shape (value q))) (length outs)) as [|L]; [discriminate|]. cbn [orb] in H. destruct (existsb (Nat.eqb 0) outs) eqn:Z1; [discriminate|]. destruct (existsb (Nat.eqb 0) ns) eqn:Z0; [discriminate|]. cbn [orb] in H. injection H as <-. cbn [option_map set_value value] in *.
  apply existsb_zero in Z0. apply existsb_zero in Z1. assert (Ln : length ns = length outs) by (apply trail_length; lia). assert (Lw : length ws = length outs) by (unfold ws; rewrite map_length, combine_length; lia).
  assert (Mf : map fst ws = outs). { unfold ws. clear - Ln. rewrite map_map. cbn [fst]. revert Ln. generalize ns. clear. intros ns. revert outs. induction ns as [|n ns IH]; intros [|o outs] L; try discriminate; [reflexivity|]. cbn [combine map snd]. f_equal. apply IH. injection L as L. exact L. }
  assert (W : windows_ok ns ws).
  { clear - Z0 Z1 Ln. unfold windows_ok, ws. revert Z0 Z1 Ln. generalize ns. clear. intros ns. revert outs. induction ns as [|n ns IH]; intros [|d ds] Z0 Z1 Ln; try discriminate; [constructor|].
    inversion Z0; inversion Z1; subst. cbn [combine map]. constructor; [|apply IH; [assumption|assumption|injection Ln as Ln; exact Ln]]. cbn [fst snd]. intros i Hi. apply adaptive_ok; assumption. }
  exists (pool_t Z.max 0%Z ws k). split; [apply pool_codes; try rewrite Lw; try assumption; lia|]. split; [cbn [pool_t shape]; rewrite Lw, Mf; reflexivity|].
  intros l t Hi Lt. cbn [pool_t shape at_] in *. rewrite Lw in *. rewrite (lead_app (length outs) l t Lt), (trail_app (length outs) l t Lt).
  destruct (in_shape_split (length outs) _ _ _ ltac:(rewrite map_length; exact Lw) Hi) as [_ Ht]. rewrite (trail_app (length outs) l t Lt) in Ht. destruct (windows_in _ _ W t Ht) as [N _].
  destruct (maxl_in (map (fun src => at_ k (l ++ src)) (products (zipw ws t)))) as [M1 M2]; [intros E; apply map_eq_nil in E; congruence|]. split.
  - apply in_map_iff in M1. destruct M1 as (x & E & Hx). exists x. split; [apply (products_adaptive ns outs t x Z1); [lia|lia|exact Hx]|]. symmetry. exact E.
  - intros x Hx. apply M2. apply (in_map (fun src => at_ k (l ++ src))). apply (products_adaptive ns outs t x Z1); [lia|lia|exact Hx].
Qed.

(** ** Interpolation *)
(** Nearest interpolation copies codes. *)
Theorem C95_interpolate_nearest q k ds : codes q k -> length ds <= length (shape (value q)) -> Forall (fun n => 1 <= n) (trail (length ds) (shape (value q))) ->
  flat_tail (length ds) (shape (scale q)) -> flat_tail (length ds) (shape (zero_point q)) ->
  exists q' k', interpolate_handler (Nearest ds) q = inl q' /\ upsample (Nearest ds) q = Some q' /\ codes q' k' /\ shape k' = lead (length ds) (shape k) ++ map fst ds
  /\ forall l t, length t = length ds -> at_ k' (l ++ t) = at_ k (l ++ map (fun x => nearest (fst (fst x)) (snd (snd (fst x))) (snd x)) (combine (combine (trail (length ds) (shape k)) ds) t)).
Proof.
  intros C L P Ts Tz. exists (set_value q (nearest_t ds (value q))), (nearest_t ds k). split; [reflexivity|]. split; [reflexivity|]. split; [apply nearest_codes; assumption|]. split; [reflexivity|].
  intros l t Lt. cbn [nearest_t at_]. rewrite (lead_app _ l t Lt), (trail_app _ l t Lt). reflexivity.
Qed.
(** Every other mode returns the interpolated values as a plain tensor, without metadata. *)
Theorem C95_interpolate_other outs w q :
  exists v, interpolate_handler (Weighted outs w) q = inr v /\ shape v = lead (length outs) (shape (value q)) ++ outs
  /\ forall l t, length t = length outs -> at_ v (l ++ t) = fold_right (fun x a => fst x * at_ (value q) (l ++ snd x) + a)%Q 0%Q (w t).
Proof.
  eexists. split; [reflexivity|]. split; [reflexivity|]. intros l t Lt. cbn [interpolate_v interp_t at_]. rewrite (lead_app _ l t Lt), (trail_app _ l t Lt). reflexivity.
Qed.
(** Upsampling by weights that are non-negative and sum to one (linear, bilinear, trilinear, area): the
    result is on the grid, within half a step of the interpolated value. *)
Definition convex (outs : list nat) (weights : list nat -> list (Q * list nat)) (dims : list nat) : Prop :=
  forall t, in_shape outs t -> (forall x, In x (weights t) -> (0 <= fst x)%Q /\ in_shape dims (snd x)) /\ (fold_right (fun x a => fst x + a) 0 (weights t) == 1)%Q.
Theorem C95_upsample q k outs w z : codes q k -> length outs <= length (shape (value q)) -> convex outs w (trail (length outs) (shape (value q))) ->
  flat_tail (length outs) (shape (scale q)) -> flat_tail (length outs) (shape (zero_point q)) ->
  (forall i, in_shape (lead (length outs) (shape (value q)) ++ outs) i -> (zp_at q i == inject_Z (z i))%Q) ->
  (forall i, in_shape (lead (length outs) (shape (value q)) ++ outs) i -> (0 < scale_at q i)%Q) ->
  exists q' k', upsample (Weighted outs w) q = Some q' /\ codes q' k' /\ shape k' = lead (length outs) (shape (value q)) ++ outs
  /\ forall i, in_shape (shape k') i -> (Qabs (at_ (value q') i - at_ (interp_t outs w (value q)) i) <= scale_at q i / 2)%Q.
Proof.
  intros C L Cv Ts Tz Hz Ps. pose proof C as (Sk & Fs & Fz & H). set (n := length outs) in *. set (s' := lead n (shape (value q)) ++ outs) in *. set (y := interp_t outs w (value q)).
  assert (Fs' : fits (shape (scale q)) s') by (apply fits_flat; try assumption; reflexivity). assert (Fz' : fits (shape (zero_point q)) s') by (apply fits_flat; try assumption; reflexivity).
  assert (Ls : length s' = length (shape (value q))) by (unfold s'; rewrite app_length, lead_length; fold n; lia).
  assert (U : exists v, upsample (Weighted outs w) q = Some (set_value q v) /\ shape v = s' /\ forall i, in_shape s' i -> at_ v i = (inject_Z (roundZ (at_ y i / scale_at q i)) * scale_at q i)%Q).
  { unfold upsample. cbv zeta. cbn [interpolate_v]. fold y. unfold binop. change (shape y) with s'. rewrite (bshape_fits _ _ Fs'). cbn [tmap shape]. rewrite (bshape_fits _ _ Fs'). cbn [option_map]. eexists. split; [reflexivity|]. split; [reflexivity|].
    intros i Hi. cbn [at_ tmap shape]. rewrite !(bidx_self _ i Hi). reflexivity. }
  destruct U as (v & Uv & Sv & Av). exists (set_value q v), (T s' (fun i => (roundZ (at_ y i / scale_at q i) + z i)%Z)). split; [exact Uv|].
  assert (Bd : forall i, in_shape s' i -> (inject_Z (min_code q) - inject_Z (z i) <= at_ y i / scale_at q i <= inject_Z (max_code q) - inject_Z (z i))%Q).
  { intros i Hi. destruct (in_shape_split n _ _ i eq_refl Hi) as [Hl Ht]. destruct (Cv _ Ht) as [W1 W2].
    assert (Vb : forall x, In x (w (trail n i)) -> (0 <= fst x /\ (inject_Z (min_code q) - inject_Z (z i)) * scale_at q i <= at_ (value q) (lead n i ++ snd x) <= (inject_Z (max_code q) - inject_Z (z i)) * scale_at q i)%Q).
    { intros x Hx. destruct (W1 x Hx) as [X1 X2]. split; [exact X1|]. assert (Hin : in_shape (shape (value q)) (lead n i ++ snd x)) by (rewrite <- (lead_trail n (shape (value q))); apply in_shape_app; assumption).
      destruct (H _ Hin) as (_ & R & E). assert (Li : length i = length (shape (value q))) by (rewrite (in_shape_length _ _ Hi); exact Ls). assert (Lx : length (snd x) = n) by (rewrite (in_shape_length _ _ X2); apply trail_length; exact L).
      unfold scale_at, zp_at in E. rewrite (bidx_lead _ (shape (value q)) n i (snd x) Ts Fs L Li Lx), (bidx_lead _ (shape (value q)) n i (snd x) Tz Fz L Li Lx) in E.
      fold (scale_at q i) (zp_at q i) in E. pose proof (code_bounds _ _ R) as [R1 R2]. rewrite E, (Hz i Hi). split; (apply Qmult_le_compat_r; [apply Qplus_le_compat; [apply injz_le; assumption|apply Qle_refl]|apply Qlt_le_weak; exact (Ps i Hi)]). }
    pose proof (weighted_bounds (w (trail n i)) (fun p => at_ (value q) (lead n i ++ p)) _ _ Vb) as B. cbv zeta in B. rewrite W2, !Qmult_1_r in B. change (fold_right _ 0%Q (w (trail n i))) with (at_ y i) in B. destruct B as [B1 B2]. pose proof (Ps i Hi) as P.
    split; [apply Qle_shift_div_l; assumption|apply Qle_shift_div_r; assumption]. }
  split.
  - unfold codes, set_value, scale_at, zp_at. cbn [value scale zero_point bit_width signed shape at_]. rewrite Sv. split; [reflexivity|]. split; [exact Fs'|]. split; [exact Fz'|]. intros i Hi. fold (scale_at q i) (zp_at q i).
    split; [exact (Ps i Hi)|]. split.
    + destruct (Bd i Hi) as [B1 B2]. rewrite <- inject_Z_minus in B1, B2. apply roundZ_mono in B1. apply roundZ_mono in B2. rewrite roundZ_int in B1, B2. unfold in_range, min_code, max_code in *. destruct (signed q); lia.
    + rewrite (Av i Hi), (Hz i Hi). rewrite inject_Z_plus. ring.
  - split; [reflexivity|]. cbn [shape]. intros i Hi. cbn [set_value value]. rewrite (Av i Hi). pose proof (Ps i Hi) as P. fold y. pose proof (roundZ_err (at_ y i / scale_at q i)) as [E1 E2]. apply Qabs_le_iff.
    setoid_replace (inject_Z (roundZ (at_ y i / scale_at q i)) * scale_at q i - at_ y i)%Q with ((inject_Z (roundZ (at_ y i / scale_at q i)) - at_ y i / scale_at q i) * scale_at q i)%Q by (field; apply Qpos_neq0; exact P).
    setoid_replace (- (scale_at q i / 2))%Q with (- (1 # 2) * scale_at q i)%Q by (field). setoid_replace (scale_at q i / 2)%Q with ((1 # 2) * scale_at q i)%Q by field.
    split; apply Qmult_le_compat_r; try assumption; apply Qlt_le_weak; exact P.
Qed.

(** ** Findings *)
Definition scalar_q (s : Q) (z : Q) (bw : Z) (sg : bool) (sh : list nat) (l : list Q) : qtensor := QT (of_list 0%Q sh l) (of_list 1%Q [] [s]) (of_list 0%Q [] [z]) bw sg.
(** relu6 and hardtanh clip to values that are not on the grid. *)
Theorem C95_relu6_refuted : exists q q', is_valid q = Some true /\ relu6_qt_handler q = Some q' /\ elements (value q') = [0; 4; 6]%Q /\ is_valid q' = Some false.
Proof. eexists (scalar_q 4 0 8 true [3] [-4; 4; 12]%Q), _. split; [vm_compute; reflexivity|]. split; [reflexivity|]. split; vm_compute; reflexivity. Qed.
Theorem C95_hardtanh_refuted : exists q q', is_valid q = Some true /\ hardtanh_qt_handler (-1) 1 q = Some q' /\ is_valid q' = Some false.
Proof. eexists (scalar_q (2 # 3) 0 8 true [2] [-(2 # 3); 4 # 3]%Q), _. split; [vm_compute; reflexivity|]. split; [reflexivity|]. vm_compute; reflexivity. Qed.
(** relu after adding a plain constant, which only moves the zero point (C16): zero is off the grid. *)
Theorem C95_relu_refuted : exists q q', is_valid q = Some true /\ relu_qt_handler q = Some q' /\ is_valid q' = Some false.
Proof. eexists (scalar_q 1 (1 # 2) 8 true [2] [-(1 # 2); 3 # 2]%Q), _. split; [vm_compute; reflexivity|]. split; [reflexivity|]. vm_compute; reflexivity. Qed.
(** Dropout in training mode scales the values and keeps the scale: the codes leave the range. *)
Theorem C95_dropout_refuted : exists q q', is_valid q = Some true /\ dropout_handler true (1 # 2) (fun _ => true) q = Some q' /\ is_valid q' = Some false.
Proof. eexists (scalar_q 1 0 4 true [2] [7; -3]%Q), _. split; [vm_compute; reflexivity|]. split; [reflexivity|]. vm_compute; reflexivity. Qed.
(** Padding with a value that is not on the grid, and padding the channels of a per-channel tensor. *)
Theorem C95_pad_refuted : exists q q', is_valid q = Some true /\ pad_handler [(1, 0)]%Z (1 # 2) q = Some q' /\ is_valid q' = Some false.
Proof. eexists (scalar_q 1 0 8 true [2] [7; -3]%Q), _. split; [vm_compute; reflexivity|]. split; [reflexivity|]. vm_compute; reflexivity. Qed.
Theorem C95_pad_channels_refuted : exists q q', is_valid q = Some true /\ pad_handler [(0, 0); (1, 0)]%Z 0 q = Some q' /\ is_valid q' = None.
Proof. eexists rows, _. split; [vm_compute; reflexivity|]. split; [reflexivity|]. vm_compute; reflexivity. Qed.
(** Bicubic weights overshoot: the code leaves the range. *)
Definition cubic (t : list nat) : list (Q * list nat) := [((-3 # 32)%Q, [0]); ((19 # 32)%Q, [1]); ((19 # 32)%Q, [2]); ((-3 # 32)%Q, [3])].
Theorem C95_upsample_cubic_refuted : exists q q', is_valid q = Some true /\ (fold_right (fun x a => fst x + a) 0 (cubic [0%nat]) == 1)%Q /\ upsample (Weighted [1] cubic) q = Some q' /\ is_valid q' = Some false.
Proof. eexists (scalar_q 1 0 4 true [1; 4] [-8; 7; 7; -8]%Q), _. split; [vm_compute; reflexivity|]. split; [reflexivity|]. split; [reflexivity|]. vm_compute; reflexivity. Qed.
(** With a zero point that is no integer the rounding is off the grid. *)
Definition linear (t : list nat) : list (Q * list nat) := [((1 # 2)%Q, [0]); ((1 # 2)%Q, [1])].
Theorem C95_upsample_zero_point_refuted : exists q q', is_valid q = Some true /\ upsample (Weighted [1] linear) q = Some q' /\ is_valid q' = Some false.
Proof. eexists (scalar_q 1 (1 # 2) 8 true [1; 2] [-(1 # 2); 3 # 2]%Q), _. split; [vm_compute; reflexivity|]. split; [reflexivity|]. vm_compute; reflexivity. Qed.

(** ** Instances *)
Definition img : qtensor := QT (of_list 0%Q [1; 2; 2; 2] [1; -1; 2; 3; 4; 0; -2; 6]%Q) (of_list 1%Q [1; 2; 1; 1] [1; 2]%Q) (of_list 0%Q [] [0%Q]) 8 true.
Definition img_codes : tensor Z := of_list 0%Z [1; 2; 2; 2] [1; -1; 2; 3; 2; 0; -1; 3]%Z.
Lemma check_codes q k : shape k = shape (value q) -> fits (shape (scale q)) (shape (value q)) -> fits (shape (zero_point q)) (shape (value q)) ->
  forallb (fun i => Qlt_bool 0 (scale_at q i) && (if signed q then (- 2 ^ (bit_width q - 1) <=? at_ k i) && (at_ k i <=? 2 ^ (bit_width q - 1) - 1) else (0 <=? at_ k i) && (at_ k i <=? 2 ^ bit_width q - 1))%Z
     && Qeq_bool (at_ (value q) i) ((inject_Z (at_ k i) - zp_at q i) * scale_at q i)) (indices (shape (value q))) = true -> codes q k.
Proof.
  intros S1 F1 F2 H. split; [exact S1|]. split; [exact F1|]. split; [exact F2|]. rewrite forallb_forall in H. intros i Hi. apply in_indices in Hi. specialize (H i Hi). apply andb_prop in H. destruct H as [H H3]. apply andb_prop in H. destruct H as [H1 H2].
  split; [apply Qlt_bool_iff; exact H1|]. split; [|apply Qeq_bool_iff; exact H3]. unfold in_range. destruct (signed q); apply andb_prop in H2; destruct H2 as [H2 H4]; apply Z.leb_le in H2; apply Z.leb_le in H4; split; assumption.
Qed.
Example C94_ex_codes : codes img img_codes.
Proof. apply check_codes; [reflexivity|split; [cbn; lia|repeat constructor; tauto]|split; [cbn; lia|constructor]|vm_compute; reflexivity]. Qed.
Example C94_ex_int : view_int img = Some ([1; 2; 2; 2], elements img_codes).
Proof. vm_compute. reflexivity. Qed.
Example C94_ex_transpose : same_rank_or_scalar img (scale img) /\ same_rank_or_scalar img (zero_point img)
  /\ option_map view_int (transpose 1 (-1) img) = Some (Some ([1; 2; 2; 2], [1; 2; 2; -1; -1; 0; 3; 3]%Z)).
Proof. split; [left; reflexivity|]. split; [right; constructor|]. vm_compute. reflexivity. Qed.
Example C94_ex_permute : option_map view_int (permute [0; 2; 3; 1]%Z img) = Some (Some ([1; 2; 2; 2], [1; 2; -1; 0; 2; -1; 3; 3]%Z)).
Proof. vm_compute. reflexivity. Qed.
Definition vec : qtensor := scalar_q (1 # 2) 3 4 false [2; 3] [0; 1 # 2; 3; -(1 # 2); -(3 # 2); 6]%Q.
Definition vec_codes : tensor Z := of_list 0%Z [2; 3] [3; 4; 9; 2; 0; 15]%Z.
Example C94_ex_vec : codes vec vec_codes /\ per_tensor vec 1.
Proof. split; [apply check_codes; [reflexivity|split; [cbn; lia|constructor]|split; [cbn; lia|constructor]|vm_compute; reflexivity]|]. repeat split; try constructor; cbn; lia. Qed.
Example C94_ex_view : option_map view_int (view [3; -1]%Z vec) = Some (Some ([3; 2], [3; 4; 9; 2; 0; 15]%Z)) /\ option_map view_int (flatten 0 (-1) vec) = Some (Some ([6], [3; 4; 9; 2; 0; 15]%Z)).
Proof. split; vm_compute; reflexivity. Qed.
Example C94_ex_embedding : option_map view_int (embedding_handler (of_list 0 [2] [1; 1]) vec) = Some (Some ([2; 3], [2; 0; 15; 2; 0; 15]%Z)).
Proof. vm_compute. reflexivity. Qed.
Example C94_ex_shuffle : option_map view_int (pixel_shuffle_handler 2 (scalar_q 1 0 8 true [1; 4; 1; 1] [1; 2; 3; 4]%Q)) = Some (Some ([1; 1; 2; 2], [1; 2; 3; 4]%Z)).
Proof. vm_compute. reflexivity. Qed.
Example C95_ex_relu : zero_code vec (fun _ => 3%Z) /\ option_map view_int (relu_qt_handler vec) = Some (Some ([2; 3], [3; 4; 9; 3; 3; 15]%Z)).
Proof. split; [|vm_compute; reflexivity]. intros i Hi. split; [reflexivity|]. split; vm_compute; discriminate. Qed.
Example C95_ex_relu6 : (forall i, upper_bound vec i 6 15) /\ option_map view_int (relu6_qt_handler vec) = Some (Some ([2; 3], [3; 4; 9; 3; 3; 15]%Z)).
Proof. split; [|vm_compute; reflexivity]. intros i. split; [split; vm_compute; discriminate|]. left. reflexivity. Qed.
Example C95_ex_hardtanh : (forall i, lower_bound vec i (-1) 1 /\ upper_bound vec i 10 15) /\ option_map view_int (hardtanh_qt_handler (-1) 10 vec) = Some (Some ([2; 3], [3; 4; 9; 2; 1; 15]%Z)).
Proof. split; [|vm_compute; reflexivity]. intros i. split; (split; [split; vm_compute; discriminate|]); [left; reflexivity|right; split; [reflexivity|vm_compute; discriminate]]. Qed.
Example C95_ex_pad : unpadded (shape (scale img)) (pads_of 4 [(1, 0); (0, 1)]%Z)
  /\ option_map view_int (pad_handler [(1, 0); (0, 1)]%Z 0 img) = Some (Some ([1; 2; 3; 3], [0; 1; -1; 0; 2; 3; 0; 0; 0; 0; 2; 0; 0; -1; 3; 0; 0; 0]%Z)).
Proof. split; [repeat constructor; first [left; reflexivity|right; reflexivity]|vm_compute; reflexivity]. Qed.
Example C95_ex_pool : flat_tail 2 (shape (scale img)) /\ option_map view_int (max_pool_handler false [PD 2 1 1 1; PD 2 2 0 1] img) = Some (Some ([1; 2; 3; 1], [1; 3; 3; 2; 3; 3]%Z))
  /\ option_map view_int (adaptive_max_pool_handler [1; 1] img) = Some (Some ([1; 2; 1; 1], [3; 3]%Z)).
Proof. split; [repeat constructor|]. split; vm_compute; reflexivity. Qed.
Example C95_ex_nearest : option_map view_int (upsample (Nearest [(1, 1%Q); (4, (1 # 2)%Q)]) img) = Some (Some ([1; 2; 1; 4], [1; 1; -1; -1; 2; 2; 0; 0]%Z)).
Proof. vm_compute. reflexivity. Qed.
Example C95_ex_linear : convex [1] linear [2] /\ option_map view_int (upsample (Weighted [1] linear) (scalar_q 1 0 8 true [1; 2] [1; 4]%Q)) = Some (Some ([1; 1], [2]%Z)).
Proof.
  split; [|vm_compute; reflexivity]. intros t Ht. split; [|reflexivity]. intros x [<-|[<-|[]]]; (split; [vm_compute; discriminate|repeat constructor]).
Qed.

Print Assumptions C94_int.
Print Assumptions C94_view.
Print Assumptions C94_view_succeeds.
Print Assumptions C94_flatten.
Print Assumptions C94_transpose.
Print Assumptions C94_permute.
Print Assumptions C94_pixel_shuffle.
Print Assumptions C94_pixel_unshuffle.
Print Assumptions C94_embedding.
Print Assumptions C94_embedding_raises.
Print Assumptions C95_relu.
Print Assumptions C95_hardtanh.
Print Assumptions C95_relu6.
Print Assumptions C95_pad.
Print Assumptions C95_max_pool.
Print Assumptions C95_adaptive_max_pool.
Print Assumptions C95_interpolate_nearest.
Print Assumptions C95_interpolate_other.
Print Assumptions C95_upsample.
