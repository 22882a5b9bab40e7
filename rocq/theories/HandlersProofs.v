(** Specification and lemmas for the operations of Handlers.v. *)
From Coq Require Import Permutation.
From Verif Require Import QUtil Ops OpsProofs QuantTensor QuantTensorProps Handlers.
Open Scope nat_scope.

(** ** Specification *)
Definition in_shape (s idx : list nat) : Prop := Forall2 lt idx s.
(** Metadata of shape [m] broadcast to the shape [s] of the values. *)
Definition fits (m s : list nat) : Prop := length m <= length s /\ Forall2 (fun a b => a = 1 \/ a = b) m (skipn (length s - length m) s).
Definition in_range (bw : Z) (sg : bool) (k : Z) : Prop :=
  (if sg then - 2 ^ (bw - 1) <= k <= 2 ^ (bw - 1) - 1 else 0 <= k <= 2 ^ bw - 1)%Z.
(** The scale and the zero point of the element at index [i]. *)
Definition scale_at (q : qtensor) (i : list nat) : Q := at_ (scale q) (bidx (shape (scale q)) i).
Definition zp_at (q : qtensor) (i : list nat) : Q := at_ (zero_point q) (bidx (shape (zero_point q)) i).
(** [codes q k]: [q] is the quantized tensor with integer codes [k]. *)
Definition codes (q : qtensor) (k : tensor Z) : Prop :=
  shape k = shape (value q) /\ fits (shape (scale q)) (shape (value q)) /\ fits (shape (zero_point q)) (shape (value q))
  /\ forall i, in_shape (shape (value q)) i ->
       (0 < scale_at q i)%Q /\ in_range (bit_width q) (signed q) (at_ k i) /\ (at_ (value q) i == (inject_Z (at_ k i) - zp_at q i) * scale_at q i)%Q.
Definition scalar (m : tensor Q) : Prop := Forall (fun d => d = 1) (shape m).

(** ** Lists *)
Lemma combine_app {A B} (a1 a2 : list A) (b1 b2 : list B) : length a1 = length b1 -> combine (a1 ++ a2) (b1 ++ b2) = combine a1 b1 ++ combine a2 b2.
Proof. revert b1. induction a1 as [|x a1 IH]; intros [|y b1] H; try discriminate; [reflexivity|]. cbn [app combine]. f_equal. apply IH. injection H as H. exact H. Qed.
Lemma in_shape_length s i : in_shape s i -> length i = length s.
Proof. induction 1; cbn [length]; congruence. Qed.
Lemma Forall2_nth {A B} (P : A -> B -> Prop) l1 l2 da db : length l1 = length l2 -> (forall n, n < length l1 -> P (nth n l1 da) (nth n l2 db)) -> Forall2 P l1 l2.
Proof.
  revert l2. induction l1 as [|x l1 IH]; intros [|y l2] L H; try discriminate; [constructor|]. constructor; [exact (H 0 ltac:(cbn; lia))|].
  apply IH; [injection L as L; exact L|]. intros n Hn. exact (H (S n) ltac:(cbn; lia)).
Qed.
Lemma Forall2_nth_inv {A B} (P : A -> B -> Prop) l1 l2 da db : Forall2 P l1 l2 -> forall n, n < length l1 -> P (nth n l1 da) (nth n l2 db).
Proof. induction 1 as [|x y l1 l2 H F IH]; intros n Hn; cbn [length] in Hn; [lia|]. destruct n; [exact H|]. apply IH. lia. Qed.
Lemma Forall2_app_split {A B} (P : A -> B -> Prop) l1 l2 r1 r2 : length l1 = length r1 -> Forall2 P (l1 ++ l2) (r1 ++ r2) -> Forall2 P l1 r1 /\ Forall2 P l2 r2.
Proof.
  revert r1. induction l1 as [|x l1 IH]; intros [|y r1] L H; try discriminate; [split; [constructor|exact H]|]. cbn [app] in H. inversion H; subst.
  destruct (IH r1) as [A1 A2]; [injection L as L; exact L|assumption|]. split; [constructor; assumption|exact A2].
Qed.
Lemma lead_trail {A} n (l : list A) : lead n l ++ trail n l = l.
Proof. apply firstn_skipn. Qed.
Lemma lead_length {A} n (l : list A) : length (lead n l) = length l - n.
Proof. unfold lead. rewrite firstn_length. lia. Qed.
Lemma trail_length {A} n (l : list A) : n <= length l -> length (trail n l) = n.
Proof. intros H. unfold trail. rewrite skipn_length. lia. Qed.
Lemma lead_app {A} n (a b : list A) : length b = n -> lead n (a ++ b) = a.
Proof. intros <-. unfold lead. rewrite app_length. replace (length a + length b - length b) with (length a) by lia. rewrite firstn_app, Nat.sub_diag, firstn_all. cbn [firstn]. apply app_nil_r. Qed.
Lemma trail_app {A} n (a b : list A) : length b = n -> trail n (a ++ b) = b.
Proof. intros <-. unfold trail. rewrite app_length. replace (length a + length b - length b) with (length a) by lia. rewrite skipn_app, Nat.sub_diag, skipn_all. reflexivity. Qed.

(** ** Indices *)
Lemma in_indices s i : In i (indices s) <-> in_shape s i.
Proof.
  revert i. induction s as [|n s IH]; intros i; cbn [indices]; [split; [intros [<-|[]]; constructor|intros H; inversion H; left; reflexivity]|].
  rewrite in_flat_map. split.
  - intros (x & Hx & Hi). apply in_map_iff in Hi. destruct Hi as (r & <- & Hr). apply in_seq in Hx. constructor; [lia|]. apply IH. exact Hr.
  - intros H. inversion H as [|x n' r s' Hx Hr]; subst. exists x. split; [apply in_seq; lia|]. apply in_map. apply IH. exact Hr.
Qed.
Lemma bidx_self s i : in_shape s i -> bidx s i = i.
Proof.
  intros H. unfold bidx. rewrite (in_shape_length s i H), Nat.sub_diag. cbn [skipn]. induction H as [|x n i s Hx H IH]; [reflexivity|]. cbn [combine map fst snd]. f_equal; [|exact IH].
  destruct (Nat.eqb_spec n 1); lia.
Qed.
Lemma bidx_scalar m i : Forall (fun d => d = 1) m -> length m <= length i -> bidx m i = repeat 0 (length m).
Proof.
  intros F L. unfold bidx. assert (L' : length m <= length (skipn (length i - length m) i)) by (rewrite skipn_length; lia). revert L'. generalize (skipn (length i - length m) i).
  clear L. induction F as [|x m -> F IH]; intros l L; [reflexivity|]. destruct l as [|y l]; cbn [length] in L; [lia|]. cbn [combine map fst snd Nat.eqb length repeat]. f_equal. apply IH. lia.
Qed.
Lemma fits_scalar m s : Forall (fun d => d = 1) m -> length m <= length s -> fits m s.
Proof.
  intros F L. split; [exact L|]. assert (L' : length m = length (skipn (length s - length m) s)) by (rewrite skipn_length; lia). revert L'. generalize (skipn (length s - length m) s).
  clear L. induction F as [|x m -> F IH]; intros [|y l] L; try discriminate; constructor; [left; reflexivity|]. apply IH. injection L as L. exact L.
Qed.
Lemma bidx_app m l a : length a <= length m -> length m <= length l + length a -> bidx m (l ++ a) = bidx (lead (length a) m) l ++ bidx (trail (length a) m) a.
Proof.
  intros H1 H2. unfold bidx. rewrite app_length. rewrite <- (lead_trail (length a) m) at 1 2. rewrite app_length, lead_length, trail_length by exact H1.
  replace (length l + length a - (length m - length a + length a)) with (length l - (length m - length a)) by lia.
  rewrite skipn_app. replace (length l - (length m - length a) - length l) with 0 by lia. rewrite Nat.sub_diag. cbn [skipn].
  rewrite combine_app by (rewrite lead_length, skipn_length; lia). apply map_app.
Qed.
(** Metadata that do not vary along the last [n] dimensions. *)
Definition flat_tail (n : nat) (m : list nat) : Prop := Forall (fun d => d = 1) (trail n m).
Lemma bidx_flat m l a b n : flat_tail n m -> length a = n -> length b = n -> length m <= length l + n -> bidx m (l ++ a) = bidx m (l ++ b).
Proof.
  intros F La Lb L. destruct (Nat.le_gt_cases n (length m)) as [H|H].
  - rewrite (bidx_app m l a), (bidx_app m l b) by lia. rewrite La, Lb. f_equal. unfold flat_tail in F. rewrite !bidx_scalar; try reflexivity; try exact F; rewrite trail_length by lia; lia.
  - unfold flat_tail, trail in F. replace (length m - n) with 0 in F by lia. cbn [skipn] in F. rewrite !bidx_scalar; try reflexivity; try exact F; rewrite app_length; lia.
Qed.
Lemma fits_flat m s new n : flat_tail n m -> fits m s -> length new = n -> n <= length s -> fits m (lead n s ++ new).
Proof.
  intros F [L H] Ln Ls. split; [rewrite app_length, lead_length; lia|]. rewrite app_length, lead_length, Ln. replace (length s - n + n) with (length s) by lia.
  destruct (Nat.le_gt_cases n (length m)) as [Hn|Hn].
  - rewrite <- (lead_trail n s) in H at 2. rewrite skipn_app, lead_length in H. rewrite <- (lead_trail n m) in H at 1.
    replace (length s - length m - (length s - n)) with 0 in H by lia. cbn [skipn] in H. apply Forall2_app_split in H; [|rewrite lead_length, skipn_length, lead_length; lia].
    destruct H as [H1 _]. rewrite <- (lead_trail n m) at 1. rewrite skipn_app, lead_length. replace (length s - length m - (length s - n)) with 0 by lia. cbn [skipn]. apply Forall2_app; [exact H1|].
    unfold flat_tail in F. clear - F Ln Hn. assert (Lt : length (trail n m) = length new) by (rewrite trail_length; lia). revert F Lt. generalize (trail n m). intros l F. clear - F. revert new. induction F as [|x l -> F IH].
    + intros [|y new] Lt; [constructor|discriminate].
    + intros [|y new] Lt; [discriminate|]. constructor; [left; reflexivity|]. apply IH. injection Lt as Lt. exact Lt.
  - unfold flat_tail, trail in F. replace (length m - n) with 0 in F by lia. cbn [skipn] in F.
    pose proof (fits_scalar m (lead n s ++ new) F ltac:(rewrite app_length, lead_length; lia)) as [_ G]. rewrite app_length, lead_length, Ln in G. replace (length s - n + n) with (length s) in G by lia. exact G.
Qed.

(** ** Moving elements *)
Definition agree (m : tensor Q) (s s' : list nat) (src : list nat -> list nat) : Prop :=
  fits (shape m) s' /\ forall i, in_shape s' i -> bidx (shape m) i = bidx (shape m) (src i).
Lemma select_codes q k s' src v' :
  codes q k -> shape v' = s' -> (forall i, in_shape s' i -> in_shape (shape (value q)) (src i) /\ (at_ v' i == at_ (value q) (src i))%Q) ->
  agree (scale q) (shape (value q)) s' src -> agree (zero_point q) (shape (value q)) s' src ->
  codes (set_value q v') (T s' (fun i => at_ k (src i))).
Proof.
  intros (Sk & Fs & Fz & H) Sv Hsrc [As Bs] [Az Bz]. unfold codes, set_value, scale_at, zp_at. cbn [value scale zero_point bit_width signed shape at_]. rewrite Sv.
  split; [reflexivity|]. split; [exact As|]. split; [exact Az|]. intros i Hi. destruct (Hsrc i Hi) as [Ri Ei]. rewrite (Bs i Hi), (Bz i Hi). destruct (H (src i) Ri) as (P & R & E).
  split; [exact P|]. split; [exact R|]. rewrite Ei. exact E.
Qed.
Lemma agree_scalar m s s' src : scalar m -> length (shape m) <= length s' -> (forall i, in_shape s' i -> length (shape m) <= length (src i)) -> agree m s s' src.
Proof.
  intros F L H. split; [apply fits_scalar; assumption|]. intros i Hi. rewrite !bidx_scalar; try reflexivity; try exact F; [apply H; exact Hi|]. rewrite (in_shape_length _ _ Hi). exact L.
Qed.

(** ** The integer view *)
Lemma bzip_fits b : forall a, length b <= length a -> Forall2 (fun x y => x = 1 \/ x = y) b (firstn (length b) a) -> bzip a b = Some a.
Proof.
  induction b as [|y b IH]; intros a L H; [destruct a; reflexivity|]. destruct a as [|x a]; cbn [length] in L; [lia|]. cbn [length firstn] in H. inversion H as [|? ? ? ? E F]; subst. cbn [bzip].
  rewrite (IH a) by (try exact F; lia). destruct (Nat.eqb_spec x y) as [->|N]; [reflexivity|]. destruct E as [->| ->]; [|congruence]. destruct (Nat.eqb_spec x 1) as [->|N1]; [congruence|]. reflexivity.
Qed.
Lemma Forall2_rev {A B} (P : A -> B -> Prop) l1 l2 : Forall2 P l1 l2 -> Forall2 P (rev l1) (rev l2).
Proof. induction 1 as [|x y l1 l2 H F IH]; [constructor|]. cbn [rev]. apply Forall2_app; [exact IH|repeat constructor; exact H]. Qed.
Lemma bshape_fits s m : fits m s -> bshape s m = Some s.
Proof.
  intros [L F]. unfold bshape. rewrite bzip_fits; [cbn [option_map]; rewrite rev_involutive; reflexivity|rewrite !rev_length; exact L|].
  rewrite rev_length, firstn_rev. apply Forall2_rev. exact F.
Qed.
Definition pre_at (q : qtensor) (i : list nat) : Q := (at_ (value q) i / scale_at q i + zp_at q i)%Q.
Lemma pre_round_fits q : fits (shape (scale q)) (shape (value q)) -> fits (shape (zero_point q)) (shape (value q)) ->
  exists p, pre_round q = Some p /\ shape p = shape (value q) /\ forall i, in_shape (shape (value q)) i -> at_ p i = pre_at q i.
Proof.
  intros Fs Fz. unfold pre_round, binop. rewrite (bshape_fits _ _ Fs). cbn [shape]. rewrite (bshape_fits _ _ Fz). eexists. split; [reflexivity|]. split; [reflexivity|]. cbn [at_].
  intros i Hi. rewrite !(bidx_self _ i Hi). reflexivity.
Qed.
Lemma pre_at_code q k i : codes q k -> in_shape (shape (value q)) i -> (pre_at q i == inject_Z (at_ k i))%Q.
Proof.
  intros (_ & _ & _ & H) Hi. destruct (H i Hi) as (P & _ & E). unfold pre_at. rewrite E. field. intros C. rewrite C in P. exact (Qlt_irrefl 0 P).
Qed.
Lemma int_codes q k : codes q k -> (2 <= bit_width q)%Z ->
  exists t, int_ q = Some t /\ shape t = shape (value q) /\ forall i, in_shape (shape (value q)) i -> at_ t i = at_ k i.
Proof.
  intros C B. pose proof C as (Sk & Fs & Fz & H). destruct (pre_round_fits q Fs Fz) as (p & Ep & Sp & Ap).
  assert (R : forall i, in_shape (shape (value q)) i -> (at_ p i == inject_Z (at_ k i))%Q) by (intros i Hi; rewrite (Ap i Hi); apply (pre_at_code q k i C Hi)).
  assert (Rz : forall i, in_shape (shape (value q)) i -> roundZ (at_ p i) = at_ k i) by (intros i Hi; rewrite (roundZ_eq _ _ (R i Hi)); apply roundZ_int).
  assert (V : is_valid q = Some true).
  { unfold is_valid. rewrite Ep. f_equal. unfold QuantTensor.is_valid, QuantTensor.pre_round. cbn [qt_value qt_scale qt_zp qt_bw qt_signed].
    rewrite (proj2 (Z.leb_le 2 (bit_width q)) B). rewrite Sp.
    assert (P1 : forall i, in_shape (shape (value q)) i -> (at_ p i / 1 + 0 == inject_Z (at_ k i))%Q) by (intros i Hi; rewrite (R i Hi); field).
    assert (P2 : forall i, in_shape (shape (value q)) i -> roundZ (at_ p i / 1 + 0)%Q = at_ k i) by (intros i Hi; rewrite (roundZ_eq _ _ (P1 i Hi)); apply roundZ_int).
    rewrite !map_map. assert (I1 : forallb (fun p => Qlt_bool (Qabs (p - inject_Z (roundZ p))) is_valid_atol) (map (fun x => at_ p x / 1 + 0)%Q (indices (shape (value q)))) = true).
    { apply forallb_forall. intros x Hx. apply in_map_iff in Hx. destruct Hx as (i & <- & Hi). apply in_indices in Hi. rewrite (P2 i Hi), (P1 i Hi). apply Qlt_bool_iff.
      setoid_replace (inject_Z (at_ k i) - inject_Z (at_ k i))%Q with 0%Q by ring. reflexivity. }
    rewrite I1. assert (G : forall f : Z -> bool, (forall i, in_shape (shape (value q)) i -> f (at_ k i) = true) -> forallb f (map (fun x => roundZ (at_ p x / 1 + 0)%Q) (indices (shape (value q)))) = true).
    { intros f Hf. apply forallb_forall. intros x Hx. apply in_map_iff in Hx. destruct Hx as (i & <- & Hi). apply in_indices in Hi. rewrite (P2 i Hi). apply Hf. exact Hi. }
    destruct (signed q) eqn:Sg; rewrite !G; try reflexivity; intros i Hi; destruct (H i Hi) as (_ & Hr & _); unfold in_range in Hr; try rewrite Sg in Hr; apply Z.leb_le; lia. }
  unfold int_. rewrite V, Ep. eexists. split; [reflexivity|]. cbn [shape at_]. split; [exact Sp|exact Rz].
Qed.

(** ** Reshaping *)
Lemma ravel_lt s i : in_shape s i -> ravel s i < prod s.
Proof. induction 1 as [|x n i s Hx H IH]; cbn [ravel prod fold_right]; [lia|]. fold (prod s). nia. Qed.
Lemma unravel_in s : forall k, k < prod s -> in_shape s (unravel s k).
Proof.
  induction s as [|n s IH]; intros k Hk; [constructor|]. cbn [unravel]. cbn [prod fold_right] in Hk. fold (prod s) in Hk. assert (P : prod s <> 0) by (intros E; rewrite E in Hk; lia).
  constructor; [apply Nat.div_lt_upper_bound; [exact P|lia]|]. apply IH. apply Nat.mod_upper_bound. exact P.
Qed.
Lemma unravel_ravel s i : in_shape s i -> unravel s (ravel s i) = i.
Proof.
  induction 1 as [|x n i s Hx H IH]; [reflexivity|]. cbn [ravel unravel]. pose proof (ravel_lt s i H) as R. f_equal.
  - rewrite Nat.div_add_l by lia. rewrite Nat.div_small by exact R. lia.
  - rewrite Nat.add_comm, Nat.mod_add by lia. rewrite Nat.mod_small by exact R. exact IH.
Qed.
Lemma seq_shift_by b m : seq b m = map (fun x => b + x) (seq 0 m).
Proof.
  rewrite <- (Nat.add_0_r b) at 1. generalize 0. induction m as [|m IHm]; intros c; [reflexivity|]. cbn [seq map]. f_equal. rewrite <- (IHm (S c)). f_equal. lia.
Qed.
Lemma ravel_indices s : map (ravel s) (indices s) = seq 0 (prod s).
Proof.
  induction s as [|n s IH]; [reflexivity|]. cbn [indices]. assert (G : forall a, map (ravel (n :: s)) (flat_map (fun i => map (cons i) (indices s)) (seq a n)) = seq (a * prod s) (n * prod s)); [|exact (G 0)].
  induction n as [|n IHn]; intros a; [reflexivity|]. cbn [seq flat_map]. rewrite map_app, map_map. cbn [ravel].
  replace (map (fun x => a * prod s + ravel s x) (indices s)) with (seq (a * prod s) (prod s)).
  - cbn [Nat.mul]. rewrite seq_app. f_equal. replace (a * prod s + prod s) with (S a * prod s) by lia. rewrite <- (IHn (S a)). apply map_ext. intros [|x l]; reflexivity.
  - rewrite <- (map_map (ravel s) (fun x => a * prod s + x)), IH. apply seq_shift_by.
Qed.
Lemma indices_unravel s : map (unravel s) (seq 0 (prod s)) = indices s.
Proof.
  rewrite <- ravel_indices, map_map. rewrite <- (map_id (indices s)) at 2. apply map_ext_in. intros i Hi. apply unravel_ravel. apply in_indices. exact Hi.
Qed.
(** Reshaping keeps the elements in row-major order. *)
Definition elements {A} (t : tensor A) : list A := map (at_ t) (indices (shape t)).
Lemma reshape_elements {A} s (t t' : tensor A) : reshape_to s t = Some t' -> shape t' = s /\ elements t' = elements t.
Proof.
  unfold reshape_to. destruct (Nat.eqb_spec (prod s) (prod (shape t))) as [E|]; [|discriminate]. intros H. injection H as <-. split; [reflexivity|]. unfold elements. cbn [shape at_].
  rewrite <- (indices_unravel (shape t)), map_map, <- E, <- ravel_indices, map_map. reflexivity.
Qed.
Lemma reshape_codes q k s v' : codes q k -> scalar (scale q) -> scalar (zero_point q) -> length (shape (scale q)) <= length s -> length (shape (zero_point q)) <= length s ->
  reshape_to s (value q) = Some v' -> exists k', reshape_to s k = Some k' /\ codes (set_value q v') k'.
Proof.
  intros C Ss Sz Ls Lz H. pose proof C as (Sk & Fs & Fz & _). unfold reshape_to in *. rewrite Sk. destruct (Nat.eqb_spec (prod s) (prod (shape (value q)))) as [E|]; [|discriminate]. injection H as <-.
  eexists. split; [reflexivity|]. apply (select_codes q k s (fun i => unravel (shape (value q)) (ravel s i))); try exact C; try reflexivity.
  - cbn [at_]. intros i Hi. split; [|reflexivity]. apply unravel_in. rewrite <- E. apply ravel_lt. exact Hi.
  - apply agree_scalar; [exact Ss|exact Ls|]. intros i Hi. rewrite (in_shape_length (shape (value q)) (unravel (shape (value q)) (ravel s i))); [exact (proj1 Fs)|]. apply unravel_in. rewrite <- E. apply ravel_lt. exact Hi.
  - apply agree_scalar; [exact Sz|exact Lz|]. intros i Hi. rewrite (in_shape_length (shape (value q)) (unravel (shape (value q)) (ravel s i))); [exact (proj1 Fz)|]. apply unravel_in. rewrite <- E. apply ravel_lt. exact Hi.
Qed.

(** ** Permuting dimensions *)
Definition permutes (p : list nat) (n : nat) : Prop := length p = n /\ forall j, j < n -> In j p.
Lemma is_perm_ok p n : is_perm p n = true -> permutes p n.
Proof.
  unfold is_perm. intros H. apply andb_prop in H. destruct H as [L F]. apply Nat.eqb_eq in L. split; [exact L|]. intros j Hj. rewrite forallb_forall in F.
  specialize (F j ltac:(apply in_seq; lia)). apply existsb_exists in F. destruct F as (x & Hx & E). apply Nat.eqb_eq in E. subst. exact Hx.
Qed.
Lemma permutes_nodup p n : permutes p n -> NoDup p.
Proof. intros [L H]. apply (@NoDup_incl_NoDup nat (seq 0 n)); [apply seq_NoDup|rewrite seq_length; lia|]. intros x Hx. apply H. apply in_seq in Hx. lia. Qed.
Lemma permutes_lt p n x : permutes p n -> In x p -> x < n.
Proof.
  intros [L H] Hx. assert (I : incl p (seq 0 n)); [|apply I in Hx; apply in_seq in Hx; lia]. apply NoDup_length_incl; [apply seq_NoDup|rewrite seq_length; lia|]. intros y Hy. apply H. apply in_seq in Hy. lia.
Qed.
Lemma index_of_spec j p : In j p -> index_of j p < length p /\ nth (index_of j p) p 0 = j.
Proof.
  induction p as [|x p IH]; [intros []|]. cbn [index_of length nth]. destruct (Nat.eqb_spec x j) as [->|N]; [intros _; split; [lia|reflexivity]|].
  intros [E|H]; [contradiction|]. destruct (IH H) as [A B]. split; [lia|exact B].
Qed.
Lemma index_of_nth p : NoDup p -> forall i, i < length p -> index_of (nth i p 0) p = i.
Proof.
  induction 1 as [|x p NI ND IH]; intros i Hi; cbn [length] in Hi; [lia|]. destruct i as [|i]; cbn [nth index_of]; [rewrite Nat.eqb_refl; reflexivity|].
  destruct (Nat.eqb_spec x (nth i p 0)) as [E|N]; [exfalso; apply NI; rewrite E; apply nth_In; lia|]. f_equal. apply IH. lia.
Qed.
Lemma nth_map {A B} (f : A -> B) l d d' n : n < length l -> nth n (map f l) d' = f (nth n l d).
Proof. intros H. rewrite (nth_indep _ d' (f d)) by (rewrite map_length; exact H). apply map_nth. Qed.
Definition ungather (p i : list nat) : list nat := map (fun j => nth (index_of j p) i 0) (seq 0 (length p)).
Lemma ungather_length p i : length (ungather p i) = length p.
Proof. unfold ungather. rewrite map_length, seq_length. reflexivity. Qed.
Lemma gather_length p l : length (gather p l) = length p.
Proof. apply map_length. Qed.
Lemma nth_ungather p i j : j < length p -> nth j (ungather p i) 0 = nth (index_of j p) i 0.
Proof. intros H. unfold ungather. rewrite (nth_map _ _ 0) by (rewrite seq_length; exact H). rewrite seq_nth by exact H. reflexivity. Qed.
Lemma nth_gather p l j : j < length p -> nth j (gather p l) 0 = nth (nth j p 0) l 0.
Proof. intros H. unfold gather. rewrite (nth_map _ _ 0) by exact H. reflexivity. Qed.
Lemma nth_gather_index p n l j : permutes p n -> j < n -> nth (index_of j p) (gather p l) 0 = nth j l 0.
Proof. intros P Hj. destruct (index_of_spec j p (proj2 P j Hj)) as [A B]. rewrite nth_gather by exact A. rewrite B. reflexivity. Qed.
Lemma ungather_gather p n l : permutes p n -> length l = n -> ungather p (gather p l) = l.
Proof.
  intros P L. pose proof P as [Lp _]. apply (nth_ext _ _ 0 0); [rewrite ungather_length; lia|]. rewrite ungather_length. intros j Hj. rewrite nth_ungather by exact Hj. apply (nth_gather_index p n); [exact P|lia].
Qed.
Lemma gather_in p n s i : permutes p n -> length s = n -> in_shape s i -> in_shape (gather p s) (gather p i).
Proof.
  intros P L H. pose proof (in_shape_length s i H) as Li. apply (Forall2_nth _ _ _ 0 0); [rewrite !gather_length; reflexivity|]. rewrite gather_length. intros j Hj. rewrite !nth_gather by exact Hj.
  apply (Forall2_nth_inv _ _ _ 0 0 H). rewrite Li, L. apply (permutes_lt p n _ P). apply nth_In. exact Hj.
Qed.
Lemma ungather_in p n s i : permutes p n -> length s = n -> in_shape (gather p s) i -> in_shape s (ungather p i).
Proof.
  intros P L H. pose proof P as [Lp _]. pose proof (in_shape_length _ _ H) as Li. rewrite gather_length in Li. apply (Forall2_nth _ _ _ 0 0); [rewrite ungather_length; lia|]. rewrite ungather_length. intros j Hj.
  rewrite nth_ungather by exact Hj. rewrite <- (nth_gather_index p n s j P) by lia. apply (Forall2_nth_inv _ _ _ 0 0 H). rewrite Li. apply index_of_spec. apply P. lia.
Qed.
Lemma bidx_length m i : length m <= length i -> length (bidx m i) = length m.
Proof. intros H. unfold bidx. rewrite map_length, combine_length, skipn_length. lia. Qed.
Lemma nth_bidx m i j : length m = length i -> j < length m -> nth j (bidx m i) 0 = if nth j m 0 =? 1 then 0 else nth j i 0.
Proof.
  intros L Hj. unfold bidx. rewrite L, Nat.sub_diag. cbn [skipn]. rewrite (nth_map _ _ (0, 0)) by (rewrite combine_length; lia). rewrite combine_nth by exact L. reflexivity.
Qed.
Lemma bidx_permute p n m i : permutes p n -> length m = n -> length i = n -> ungather p (bidx (gather p m) i) = bidx m (ungather p i).
Proof.
  intros P Lm Li. pose proof P as [Lp _]. apply (nth_ext _ _ 0 0); [rewrite ungather_length, bidx_length; rewrite ?ungather_length; lia|]. rewrite ungather_length. intros j Hj.
  rewrite nth_ungather by exact Hj. destruct (index_of_spec j p (proj2 P j ltac:(lia))) as [A B]. rewrite nth_bidx by (rewrite gather_length; lia). rewrite nth_bidx by (rewrite ?ungather_length; lia).
  rewrite (nth_gather_index p n) by (try exact P; lia). rewrite nth_ungather by exact Hj. reflexivity.
Qed.
Lemma fits_permute p n m s : permutes p n -> length m = n -> length s = n -> fits m s -> fits (gather p m) (gather p s).
Proof.
  intros P Lm Ls [_ F]. rewrite Lm, Ls, Nat.sub_diag in F. cbn [skipn] in F. split; [rewrite !gather_length; lia|]. rewrite !gather_length, Nat.sub_diag. cbn [skipn].
  apply (Forall2_nth _ _ _ 0 0); [rewrite !gather_length; reflexivity|]. rewrite gather_length. intros j Hj. rewrite !nth_gather by exact Hj. apply (Forall2_nth_inv _ _ _ 0 0 F). rewrite Lm.
  apply (permutes_lt p n _ P). apply nth_In. exact Hj.
Qed.
Definition pmeta (p : list nat) (n : nat) (m : tensor Q) : tensor Q := if n =? length (shape m) then permute_n p m else m.
Definition same_rank_or_scalar (q : qtensor) (m : tensor Q) : Prop := length (shape m) = length (shape (value q)) \/ scalar m.
Lemma pmeta_ok p q m : permutes p (length (shape (value q))) -> same_rank_or_scalar q m -> fits (shape m) (shape (value q)) ->
  fits (shape (pmeta p (length (shape (value q))) m)) (gather p (shape (value q)))
  /\ forall i, in_shape (gather p (shape (value q))) i -> at_ (pmeta p (length (shape (value q))) m) (bidx (shape (pmeta p (length (shape (value q))) m)) i) = at_ m (bidx (shape m) (ungather p i)).
Proof.
  intros P R F. set (n := length (shape (value q))) in *. unfold pmeta. destruct (Nat.eqb_spec n (length (shape m))) as [E|N].
  - split; [apply (fits_permute p n); try reflexivity; try exact F; try exact P; symmetry; exact E|]. intros i Hi. cbn [permute_n shape at_]. fold (ungather p (bidx (gather p (shape m)) i)).
    rewrite (bidx_permute p n); [reflexivity|exact P|symmetry; exact E|]. rewrite (in_shape_length _ _ Hi), gather_length. exact (proj1 P).
  - destruct R as [R|R]; [symmetry in R; contradiction|]. pose proof P as [Lp _]. pose proof (proj1 F) as L. fold n in L. split; [apply fits_scalar; [exact R|rewrite gather_length; lia]|].
    intros i Hi. rewrite !bidx_scalar; try reflexivity; try exact R; [rewrite ungather_length; lia|]. rewrite (in_shape_length _ _ Hi), gather_length. lia.
Qed.
Lemma permute_codes q k p : codes q k -> permutes p (length (shape (value q))) -> same_rank_or_scalar q (scale q) -> same_rank_or_scalar q (zero_point q) ->
  codes (QT (permute_n p (value q)) (pmeta p (length (shape (value q))) (scale q)) (pmeta p (length (shape (value q))) (zero_point q)) (bit_width q) (signed q)) (permute_n p k).
Proof.
  intros (Sk & Fs & Fz & H) P Rs Rz. destruct (pmeta_ok p q _ P Rs Fs) as [As Bs]. destruct (pmeta_ok p q _ P Rz Fz) as [Az Bz].
  unfold codes, scale_at, zp_at. cbn [value scale zero_point bit_width signed]. cbn [permute_n shape at_]. rewrite Sk. split; [reflexivity|]. split; [exact As|]. split; [exact Az|].
  intros i Hi. rewrite (Bs i Hi), (Bz i Hi). fold (ungather p i). apply (H (ungather p i)). apply (ungather_in p _ _ _ P eq_refl Hi).
Qed.
Lemma swap_permutes a b n : a < n -> b < n -> permutes (map (swap a b) (seq 0 n)) n.
Proof.
  intros Ha Hb. split; [rewrite map_length, seq_length; reflexivity|]. intros j Hj. apply in_map_iff. exists (swap a b j). unfold swap. split.
  - destruct (Nat.eqb_spec j a) as [->|N1]; [destruct (Nat.eqb_spec b a) as [->|]; [reflexivity|rewrite Nat.eqb_refl; reflexivity]|].
    destruct (Nat.eqb_spec j b) as [->|N2]; [rewrite Nat.eqb_refl; reflexivity|]. rewrite (proj2 (Nat.eqb_neq j a) N1), (proj2 (Nat.eqb_neq j b) N2). reflexivity.
  - apply in_seq. destruct (j =? a); [lia|]. destruct (j =? b); lia.
Qed.
Lemma norm_dim_lt d n a : norm_dim d n = Some a -> a < Nat.max n 1.
Proof.
  unfold norm_dim. destruct (_ && _) eqn:E; [|discriminate]. intros H. injection H as <-. apply andb_prop in E. destruct E as [E1 E2]. apply Z.leb_le in E1. apply Z.ltb_lt in E2. destruct (Z.ltb_spec d 0); lia.
Qed.

(** ** Elementwise operations *)
Lemma tmap_codes q k f g : codes q k ->
  (forall i, in_shape (shape (value q)) i -> in_range (bit_width q) (signed q) (g i (at_ k i)) /\ (f (at_ (value q) i) == (inject_Z (g i (at_ k i)) - zp_at q i) * scale_at q i)%Q) ->
  codes (set_value q (tmap f (value q))) (T (shape k) (fun i => g i (at_ k i))).
Proof.
  intros (Sk & Fs & Fz & H) G. unfold codes, scale_at, zp_at, set_value, tmap. cbn [value scale zero_point bit_width signed shape at_]. split; [exact Sk|]. split; [exact Fs|]. split; [exact Fz|].
  intros i Hi. destruct (H i Hi) as (P & _ & _). destruct (G i Hi) as [G1 G2]. split; [exact P|]. split; assumption.
Qed.

(** ** Padding *)
Lemma inside_in s : forall src, length src = length s -> inside s src = true -> in_shape s (map Z.to_nat src).
Proof.
  induction s as [|n s IH]; intros [|x src] L H; try discriminate; [constructor|]. unfold inside in H. cbn [combine forallb fst snd] in H. apply andb_prop in H. destruct H as [H1 H2].
  apply andb_prop in H1. destruct H1 as [H0 H1]. apply Z.leb_le in H0. apply Z.ltb_lt in H1. cbn [map]. constructor; [lia|]. apply IH; [injection L as L; exact L|exact H2].
Qed.
Lemma pads_length r pads : length pads <= r -> length (pads_of r pads) = r.
Proof. intros H. unfold pads_of. rewrite app_length, repeat_length, rev_length. lia. Qed.
(** Metadata that do not vary along padded dimensions. *)
Definition unpadded (m : list nat) (ps : list (Z * Z)) : Prop := Forall2 (fun d p => d = 1 \/ p = (0, 0)%Z) m (skipn (length ps - length m) ps).
Lemma skipn_map {A B} (f : A -> B) n l : skipn n (map f l) = map f (skipn n l).
Proof. revert l. induction n as [|n IH]; intros [|x l]; try reflexivity. apply IH. Qed.
Lemma skipn_combine {A B} n (a : list A) (b : list B) : skipn n (combine a b) = combine (skipn n a) (skipn n b).
Proof. revert a b. induction n as [|n IH]; intros [|x a] [|y b]; try reflexivity; cbn [skipn combine]; [destruct (skipn n a); reflexivity|apply IH]. Qed.
Lemma bidx_pad m ps i : unpadded m ps -> length i = length ps -> length m <= length ps -> bidx m (map Z.to_nat (pad_src ps i)) = bidx m i.
Proof.
  intros U L Lm. unfold bidx, pad_src. rewrite !map_length, combine_length, L, Nat.min_id. rewrite map_map, skipn_map, skipn_combine. unfold unpadded in U.
  assert (Li : length (skipn (length ps - length m) i) = length m) by (rewrite skipn_length; lia). revert U Li. generalize (skipn (length ps - length m) ps), (skipn (length ps - length m) i). clear.
  intros ps i U. revert i. induction U as [|d p m ps E U IH]; intros [|x i] L; try discriminate; [reflexivity|]. cbn [combine map fst snd]. f_equal; [|apply IH; injection L as L; exact L].
  destruct (Nat.eqb_spec d 1); [reflexivity|]. destruct E as [E| ->]; [contradiction|]. cbn [fst]. lia.
Qed.
Definition pad_size (x : nat * (Z * Z)) : Z := (Z.of_nat (fst x) + fst (snd x) + snd (snd x))%Z.
Lemma fits_pad m s ps : unpadded m ps -> length s = length ps -> fits m s -> fits m (map (fun x => Z.to_nat (pad_size x)) (combine s ps)).
Proof.
  intros U L [Lm F]. assert (E : length (map (fun x => Z.to_nat (pad_size x)) (combine s ps)) = length s) by (rewrite map_length, combine_length; lia). split; [lia|]. rewrite E, skipn_map, skipn_combine.
  unfold unpadded in U. rewrite <- L in U. revert F U. generalize (skipn (length s - length m) s), (skipn (length s - length m) ps). clear. intros s ps F. revert ps.
  induction F as [|d x m s E F IH]; intros ps U; inversion U as [|? p ? ps' Ep U']; subst; [constructor|]. cbn [combine map]. constructor; [|apply IH; exact U'].
  destruct Ep as [-> | ->]; [left; reflexivity|]. destruct E as [->| ->]; [left; reflexivity|]. right. unfold pad_size. cbn [fst snd]. lia.
Qed.
Lemma pad_codes q k pads c v' kc : codes q k -> pad_t pads c (value q) = Some v' ->
  unpadded (shape (scale q)) (pads_of (length (shape (value q))) pads) -> unpadded (shape (zero_point q)) (pads_of (length (shape (value q))) pads) ->
  (forall i, in_shape (shape v') i -> inside (shape (value q)) (pad_src (pads_of (length (shape (value q))) pads) i) = false ->
     (0 < scale_at q i)%Q /\ in_range (bit_width q) (signed q) (kc i) /\ (c == (inject_Z (kc i) - zp_at q i) * scale_at q i)%Q) ->
  codes (set_value q v') (T (shape v') (fun i => let src := pad_src (pads_of (length (shape (value q))) pads) i in if inside (shape (value q)) src then at_ k (map Z.to_nat src) else kc i)).
Proof.
  intros (Sk & Fs & Fz & H) E Us Uz G. unfold pad_t in E. set (ps := pads_of (length (shape (value q))) pads) in *. fold pad_size in E.
  destruct (Nat.ltb_spec (length (shape (value q))) (length pads)) as [|L]; [discriminate|]. cbn [orb] in E.
  destruct (existsb _ (combine (shape (value q)) ps)); [discriminate|]. injection E as <-. cbn [shape] in *.
  assert (Lp : length ps = length (shape (value q))) by (apply pads_length; exact L).
  unfold codes, set_value, scale_at, zp_at. cbn [value scale zero_point bit_width signed shape at_]. split; [reflexivity|]. split; [apply fits_pad; [exact Us|symmetry; exact Lp|exact Fs]|]. split; [apply fits_pad; [exact Uz|symmetry; exact Lp|exact Fz]|].
  intros i Hi. cbv zeta. assert (Li : length i = length ps) by (rewrite (in_shape_length _ _ Hi), map_length, combine_length; lia).
  destruct (inside (shape (value q)) (pad_src ps i)) eqn:I.
  - assert (R : in_shape (shape (value q)) (map Z.to_nat (pad_src ps i))) by (apply inside_in; [unfold pad_src; rewrite map_length, combine_length; lia|exact I]).
    destruct (H _ R) as (P & Rg & Ev). unfold scale_at, zp_at in *. rewrite (bidx_pad _ ps i Us Li) in P, Ev by (rewrite Lp; exact (proj1 Fs)). rewrite (bidx_pad _ ps i Uz Li) in Ev by (rewrite Lp; exact (proj1 Fz)).
    split; [exact P|]. split; [exact Rg|exact Ev].
  - exact (G i Hi I).
Qed.

(** ** Pooling *)
Lemma in_products ls : forall src, In src (products ls) <-> Forall2 (fun x l => In x l) src ls.
Proof.
  induction ls as [|l ls IH]; intros src; cbn [products]; [split; [intros [<-|[]]; constructor|intros H; inversion H; left; reflexivity]|]. rewrite in_flat_map. split.
  - intros (x & Hx & Hs). apply in_map_iff in Hs. destruct Hs as (r & <- & Hr). constructor; [exact Hx|apply IH; exact Hr].
  - intros H. inversion H as [|x ? r ? Hx Hr]; subst. exists x. split; [exact Hx|]. apply in_map. apply IH. exact Hr.
Qed.
Lemma maxl_affine {A} (f : A -> Q) (g : A -> Z) (z s : Q) (l : list A) : (0 < s)%Q -> l <> [] -> (forall x, In x l -> (f x == (inject_Z (g x) - z) * s)%Q) ->
  (maxl Qmaxb 0 (map f l) == (inject_Z (maxl Z.max 0%Z (map g l)) - z) * s)%Q.
Proof.
  intros Ps N H. destruct l as [|x l]; [congruence|]. cbn [map maxl]. clear N.
  assert (G : forall a b, (a == (inject_Z b - z) * s)%Q -> (fold_left Qmaxb (map f l) a == (inject_Z (fold_left Z.max (map g l) b) - z) * s)%Q); [|apply G; apply H; left; reflexivity].
  assert (H' : forall y, In y l -> (f y == (inject_Z (g y) - z) * s)%Q) by (intros y Hy; apply H; right; exact Hy). clear H. induction l as [|y l IH]; intros a b E; [exact E|]. cbn [map fold_left].
  apply IH; [intros w Hw; apply H'; right; exact Hw|]. pose proof (H' y (or_introl eq_refl)) as Ey. unfold Qmaxb. destruct (Qle_bool a (f y)) eqn:C.
  - apply Qle_bool_iff in C. rewrite Ey, E in C. apply Qmult_le_r in C; [|exact Ps]. assert (C' : (b <= g y)%Z) by (apply injz_le_inv; apply (Qplus_le_l _ _ (- z)); exact C). rewrite Z.max_r by exact C'. exact Ey.
  - apply Qle_bool_false in C. rewrite Ey, E in C. apply Qmult_lt_r in C; [|exact Ps]. assert (C' : (g y < b)%Z) by (apply injz_lt_inv; apply (Qplus_lt_l _ _ (- z)); exact C). rewrite Z.max_l by lia. exact E.
Qed.
Lemma maxl_in (l : list Z) : l <> [] -> In (maxl Z.max 0%Z l) l /\ forall x, In x l -> (x <= maxl Z.max 0 l)%Z.
Proof.
  destruct l as [|x l]; [congruence|]. intros _. cbn [maxl]. assert (G : forall l a, (a <= fold_left Z.max l a)%Z /\ (forall y, In y l -> (y <= fold_left Z.max l a)%Z) /\ (fold_left Z.max l a = a \/ In (fold_left Z.max l a) l)).
  { clear. induction l as [|y l IH]; intros a; cbn [fold_left]; [split; [lia|split; [intros y []|left; reflexivity]]|]. destruct (IH (Z.max a y)) as (A & B & C). split; [lia|]. split.
    - intros w [<-|Hw]; [lia|apply B; exact Hw].
    - destruct C as [C|C]; [|right; right; exact C]. destruct (Z.max_spec a y) as [[_ E]|[_ E]]; rewrite E in C |- *; [right; left; symmetry; exact C|left; exact C]. }
  destruct (G l x) as (A & B & C). split; [destruct C as [->|C]; [left; reflexivity|right; exact C]|]. intros y [<-|Hy]; [exact A|exact (B y Hy)].
Qed.
Definition windows_ok (s : list nat) (ws : list (nat * (nat -> list nat))) : Prop :=
  Forall2 (fun d w => forall i, i < fst w -> snd w i <> [] /\ forall x, In x (snd w i) -> x < d) s ws.
Lemma windows_in s ws : windows_ok s ws -> forall i, in_shape (map fst ws) i ->
  products (zipw ws i) <> [] /\ forall src, In src (products (zipw ws i)) -> in_shape s src.
Proof.
  induction 1 as [|d w s ws Hw F IH]; intros i Hi; inversion Hi as [|x n r ns Hx Hr]; subst; [split; [discriminate|intros src [<-|[]]; constructor]|].
  destruct (Hw x Hx) as [N B]. destruct (IH r Hr) as [N' B']. unfold zipw in *. cbn [combine map fst snd products]. split.
  - destruct (snd w x) as [|y l]; [congruence|]. cbn [flat_map]. destruct (products _) as [|p ps]; [congruence|]. discriminate.
  - intros src Hs. apply in_flat_map in Hs. destruct Hs as (y & Hy & Hs). apply in_map_iff in Hs. destruct Hs as (r' & <- & Hr'). constructor; [apply B; exact Hy|apply B'; exact Hr'].
Qed.
Lemma in_shape_app s1 s2 i1 i2 : in_shape s1 i1 -> in_shape s2 i2 -> in_shape (s1 ++ s2) (i1 ++ i2).
Proof. apply Forall2_app. Qed.
Lemma in_shape_split n s1 s2 i : length s2 = n -> in_shape (s1 ++ s2) i -> in_shape s1 (lead n i) /\ in_shape s2 (trail n i).
Proof.
  intros L H. pose proof (in_shape_length _ _ H) as Li. rewrite app_length in Li. rewrite <- (lead_trail n i) in H. apply Forall2_app_split in H; [exact H|]. rewrite lead_length. lia.
Qed.
Lemma bidx_lead m s n i src : flat_tail n m -> fits m s -> n <= length s -> length i = length s -> length src = n -> bidx m (lead n i ++ src) = bidx m i.
Proof.
  intros F [L _] Ln Li Ls. rewrite <- (lead_trail n i) at 2. apply (bidx_flat m _ _ _ n); [exact F|exact Ls|apply trail_length; lia|rewrite lead_length; lia].
Qed.
Lemma pool_codes q k ws : codes q k -> length ws <= length (shape (value q)) -> windows_ok (trail (length ws) (shape (value q))) ws ->
  flat_tail (length ws) (shape (scale q)) -> flat_tail (length ws) (shape (zero_point q)) ->
  codes (set_value q (pool_t Qmaxb 0%Q ws (value q))) (pool_t Z.max 0%Z ws k).
Proof.
  intros (Sk & Fs & Fz & H) L W Ts Tz. set (n := length ws) in *. unfold codes, set_value, scale_at, zp_at. cbn [value scale zero_point bit_width signed]. cbn [pool_t shape at_]. fold n. rewrite Sk.
  assert (Ln : length (map fst ws) = n) by apply map_length. split; [reflexivity|]. split; [apply fits_flat; assumption|]. split; [apply fits_flat; assumption|].
  intros i Hi. destruct (in_shape_split n _ _ i Ln Hi) as [Hl Ht]. destruct (windows_in _ _ W _ Ht) as [N B]. assert (Li : length i = length (shape (value q))) by (rewrite (in_shape_length _ _ Hi), app_length, lead_length; lia).
  assert (G : forall src, In src (products (zipw ws (trail n i))) -> in_shape (shape (value q)) (lead n i ++ src) /\ length src = n).
  { intros src Hs. pose proof (B src Hs) as Hb. split; [rewrite <- (lead_trail n (shape (value q))); apply in_shape_app; assumption|]. rewrite (in_shape_length _ _ Hb). apply trail_length. exact L. }
  assert (E : forall src, In src (products (zipw ws (trail n i))) -> (0 < at_ (scale q) (bidx (shape (scale q)) i))%Q /\ in_range (bit_width q) (signed q) (at_ k (lead n i ++ src))
     /\ (at_ (value q) (lead n i ++ src) == (inject_Z (at_ k (lead n i ++ src)) - at_ (zero_point q) (bidx (shape (zero_point q)) i)) * at_ (scale q) (bidx (shape (scale q)) i))%Q).
  { intros src Hs. destruct (G src Hs) as [G1 G2]. destruct (H _ G1) as (P & R & V). unfold scale_at, zp_at in *. rewrite (bidx_lead _ (shape (value q)) n i src Ts Fs L Li G2) in P, V. rewrite (bidx_lead _ (shape (value q)) n i src Tz Fz L Li G2) in V. repeat split; assumption. }
  assert (P : (0 < at_ (scale q) (bidx (shape (scale q)) i))%Q) by (destruct (products (zipw ws (trail n i))) as [|p ps]; [congruence|]; exact (proj1 (E p (or_introl eq_refl)))).
  split; [exact P|]. split.
  - destruct (maxl_in (map (fun src => at_ k (lead n i ++ src)) (products (zipw ws (trail n i))))) as [M _]; [intros C; apply map_eq_nil in C; congruence|]. apply in_map_iff in M. destruct M as (src & <- & Hs). apply E. exact Hs.
  - apply maxl_affine; [exact P|exact N|]. intros src Hs. apply E. exact Hs.
Qed.
Lemma window_ok ceil n d i : 1 <= n -> pool_ok d = true -> dilation d = 1 \/ padding d = 0 -> i < pool_size ceil n d -> window n d i <> [] /\ forall x, In x (window n d i) -> x < n.
Proof.
  intros N1 K D Hi. assert (K' : 1 <= kernel d /\ 1 <= stride d /\ 1 <= dilation d /\ 2 * padding d <= kernel d) by (unfold pool_ok in K; apply andb_prop in K; destruct K as [K K4]; apply andb_prop in K; destruct K as [K K3]; apply andb_prop in K; destruct K as [K1 K2]; repeat split; apply Nat.leb_le; assumption).
  clear K. destruct K' as (K1 & K2 & K3 & K4). split.
  2: { intros x Hx. unfold window in Hx. apply in_map_iff in Hx. destruct Hx as (p & <- & Hp). apply filter_In in Hp. destruct Hp as [_ Hp]. apply andb_prop in Hp. destruct Hp as [P1 P2]. apply Z.leb_le in P1. apply Z.ltb_lt in P2. lia. }
  assert (S1 : (Z.of_nat (i * stride d) - Z.of_nat (padding d) < Z.of_nat n)%Z).
  { unfold pool_size in Hi. set (span := (Z.of_nat n + 2 * Z.of_nat (padding d) - Z.of_nat (dilation d) * (Z.of_nat (kernel d) - 1) - 1)%Z) in *.
    set (out := ((span + (if ceil then Z.of_nat (stride d) - 1 else 0)) / Z.of_nat (stride d) + 1)%Z) in *. rewrite Nat2Z.inj_mul. destruct ceil; cbn [andb] in Hi.
    - destruct (Z.leb_spec (Z.of_nat n + Z.of_nat (padding d)) ((out - 1) * Z.of_nat (stride d))) as [C|C].
      + assert (Io : (Z.of_nat i <= out - 2)%Z) by lia. assert (O : ((out - 1) * Z.of_nat (stride d) <= span + (Z.of_nat (stride d) - 1))%Z).
        { replace (out - 1)%Z with ((span + (Z.of_nat (stride d) - 1)) / Z.of_nat (stride d))%Z by (unfold out; lia). rewrite Z.mul_comm. apply Z.mul_div_le. lia. }
        assert (O2 : ((out - 2) * Z.of_nat (stride d) <= span - 1)%Z) by nia. assert (Hs : (span <= Z.of_nat n + Z.of_nat (padding d))%Z) by (unfold span; nia). nia.
      + assert (Io : (Z.of_nat i <= out - 1)%Z) by lia. nia.
    - assert (Io : (Z.of_nat i <= out - 1)%Z) by lia. assert (O : ((out - 1) * Z.of_nat (stride d) <= span)%Z).
      { replace (out - 1)%Z with (span / Z.of_nat (stride d))%Z by (unfold out; rewrite Z.add_0_r; lia). rewrite Z.mul_comm. apply Z.mul_div_le. lia. }
      assert (Hs : (span < Z.of_nat n + Z.of_nat (padding d))%Z) by (unfold span; nia). nia. }
  set (st := (Z.of_nat (i * stride d) - Z.of_nat (padding d))%Z) in *.
  assert (X : exists j, j < kernel d /\ (0 <= st + Z.of_nat (j * dilation d) < Z.of_nat n)%Z).
  { destruct D as [D|D].
    - rewrite D. destruct (Z.leb_spec 0 st) as [C|C]; [exists 0; cbn [Nat.mul]; lia|]. exists (Z.to_nat (- st)). rewrite Nat.mul_1_r. unfold st in *. split; nia.
    - exists 0. unfold st in *. rewrite D in *. lia. }
  destruct X as (j & Hj & Hr). intros E. assert (I : In (Z.to_nat (st + Z.of_nat (j * dilation d))) (window n d i)); [|rewrite E in I; exact I].
  unfold window. apply in_map_iff. eexists. split; [reflexivity|]. apply filter_In. split; [apply in_map_iff; exists j; split; [unfold st; reflexivity|apply in_seq; lia]|]. apply andb_true_intro. split; [apply Z.leb_le|apply Z.ltb_lt]; lia.
Qed.
Lemma adaptive_ok n out i : 1 <= n -> i < out -> adaptive n out i <> [] /\ forall x, In x (adaptive n out i) -> x < n.
Proof.
  intros N Hi. unfold adaptive. set (a := i * n / out). set (b := (i * n + n + out - 1) / out). assert (A : out * a <= i * n < out * a + out) by (unfold a; pose proof (Nat.div_mod (i * n) out ltac:(lia)); pose proof (Nat.mod_upper_bound (i * n) out ltac:(lia)); lia).
  assert (B : out * b <= i * n + n + out - 1 < out * b + out) by (unfold b; pose proof (Nat.div_mod (i * n + n + out - 1) out ltac:(lia)); pose proof (Nat.mod_upper_bound (i * n + n + out - 1) out ltac:(lia)); lia).
  assert (C : a < b) by nia. assert (D : b <= n) by nia. split; [destruct (b - a) eqn:E; [lia|discriminate]|]. intros x Hx. apply in_seq in Hx. lia.
Qed.

(** ** Nearest interpolation, pixel shuffling, embedding *)
Lemma agree_lead m s n new src : flat_tail n (shape m) -> fits (shape m) s -> n <= length s -> length new = n ->
  (forall i, in_shape (lead n s ++ new) i -> length (src i) = n) -> agree m s (lead n s ++ new) (fun i => lead n i ++ src i).
Proof.
  intros F Fm L Ln Hs. split; [apply fits_flat; assumption|]. intros i Hi. symmetry. apply (bidx_lead _ s n); try assumption; [rewrite (in_shape_length _ _ Hi), app_length, lead_length; lia|apply Hs; exact Hi].
Qed.
Lemma nearest_lt n r i : 1 <= n -> nearest n r i < n.
Proof. intros H. unfold nearest. lia. Qed.
Lemma nearest_codes q k ds : codes q k -> length ds <= length (shape (value q)) -> Forall (fun n => 1 <= n) (trail (length ds) (shape (value q))) ->
  flat_tail (length ds) (shape (scale q)) -> flat_tail (length ds) (shape (zero_point q)) -> codes (set_value q (nearest_t ds (value q))) (nearest_t ds k).
Proof.
  intros C L Pos Ts Tz. pose proof C as (Sk & Fs & Fz & _). set (n := length ds) in *. unfold nearest_t at 2. fold n. rewrite Sk. assert (Lt : length (trail n (shape (value q))) = n) by (apply trail_length; exact L).
  set (src := fun i => map (fun x : nat * (nat * Q) * nat => nearest (fst (fst x)) (snd (snd (fst x))) (snd x)) (combine (combine (trail n (shape (value q))) ds) (trail n i))).
  assert (Hl : forall i, in_shape (lead n (shape (value q)) ++ map fst ds) i -> length (src i) = n).
  { intros i Hi. unfold src. rewrite map_length, !combine_length, Lt, trail_length; [unfold n; lia|]. rewrite (in_shape_length _ _ Hi), app_length, map_length. fold n. lia. }
  apply (select_codes q k _ (fun i => lead n i ++ src i)); [exact C|reflexivity| |apply agree_lead; try assumption; apply map_length|apply agree_lead; try assumption; apply map_length].
  intros i Hi. split; [|reflexivity]. destruct (in_shape_split n _ _ i (map_length _ _) Hi) as [Hi1 Hi2]. rewrite <- (lead_trail n (shape (value q))). apply in_shape_app; [exact Hi1|].
  pose proof (Hl i Hi) as Ls. revert Pos Ls. unfold src. rewrite <- Lt at 4. pose proof (in_shape_length _ _ Hi2) as L2. rewrite map_length in L2. assert (L3 : length ds = length (trail n (shape (value q)))) by (rewrite Lt; reflexivity).
  revert L3 L2. generalize (trail n (shape (value q))), (trail n i). clear. intros s i L3 L2 Pos _. revert ds i L3 L2. induction Pos as [|d s Hd P IH]; intros [|w ds] [|x i] L3 L2; try discriminate; [constructor|].
  cbn [combine map fst snd]. constructor; [apply nearest_lt; exact Hd|]. apply IH; [injection L3 as L3; exact L3|injection L2 as L2; exact L2].
Qed.
Lemma three {A} (l : list A) : length l = 3 -> exists a b c, l = [a; b; c].
Proof. destruct l as [|a [|b [|c [|d l]]]]; intros H; try discriminate. exists a, b, c. reflexivity. Qed.
Lemma shuffle_src_in r c h w oc oh ow : r <> 0 -> c mod (r * r) = 0 -> in_shape [c / (r * r); h * r; w * r] [oc; oh; ow] ->
  in_shape [c; h; w] [oc * (r * r) + (oh mod r) * r + ow mod r; oh / r; ow / r].
Proof.
  intros R M H. inversion H as [|? ? ? ? H1 H']; subst. inversion H' as [|? ? ? ? H2 H'']; subst. inversion H'' as [|? ? ? ? H3 _]; subst.
  pose proof (Nat.mod_upper_bound oh r R). pose proof (Nat.mod_upper_bound ow r R). pose proof (Nat.div_mod c (r * r) ltac:(nia)) as D. rewrite M in D.
  repeat constructor; [nia|apply Nat.div_lt_upper_bound; lia|apply Nat.div_lt_upper_bound; lia].
Qed.
Lemma unshuffle_src_in r c h w oc oh ow : r <> 0 -> h mod r = 0 -> w mod r = 0 -> in_shape [c * (r * r); h / r; w / r] [oc; oh; ow] ->
  in_shape [c; h; w] [oc / (r * r); oh * r + (oc mod (r * r)) / r; ow * r + oc mod r].
Proof.
  intros R Mh Mw H. inversion H as [|? ? ? ? H1 H']; subst. inversion H' as [|? ? ? ? H2 H'']; subst. inversion H'' as [|? ? ? ? H3 _]; subst.
  pose proof (Nat.mod_upper_bound oc r R). pose proof (Nat.mod_upper_bound oc (r * r) ltac:(nia)). pose proof (Nat.div_mod h r R) as D1. pose proof (Nat.div_mod w r R) as D2. rewrite Mh in D1. rewrite Mw in D2.
  assert (oc mod (r * r) / r < r) by (apply Nat.div_lt_upper_bound; lia). repeat constructor; [apply Nat.div_lt_upper_bound; nia|nia|nia].
Qed.
Lemma shuffle_codes q k r v' : codes q k -> scalar (scale q) -> scalar (zero_point q) -> pixel_shuffle_t r (value q) = Some v' ->
  exists k', pixel_shuffle_t r k = Some k' /\ codes (set_value q v') k'.
Proof.
  intros C Ss Sz H. pose proof C as (Sk & Fs & Fz & _). unfold pixel_shuffle_t in *. rewrite Sk. destruct (trail 3 (shape (value q))) as [|c [|h [|w [|]]]] eqn:E; try discriminate.
  destruct (Nat.eqb_spec r 0) as [|R]; [discriminate|]. cbn [orb] in *. destruct (Nat.eqb_spec (c mod (r * r)) 0) as [M|]; [|discriminate]. cbn [negb] in *. injection H as <-.
  assert (Ls : 3 <= length (shape (value q))) by (assert (X : length (trail 3 (shape (value q))) = 3) by (rewrite E; reflexivity); unfold trail in X; rewrite skipn_length in X; lia).
  eexists. split; [reflexivity|]. set (s' := lead 3 (shape (value q)) ++ [c / (r * r); h * r; w * r]).
  set (src := fun i => match trail 3 i with [oc; oh; ow] => lead 3 i ++ [oc * (r * r) + (oh mod r) * r + ow mod r; oh / r; ow / r] | _ => i end).
  assert (Hin : forall i, in_shape s' i -> in_shape (shape (value q)) (src i)).
  { intros i Hi. destruct (in_shape_split 3 (lead 3 (shape (value q))) [c / (r * r); h * r; w * r] i eq_refl Hi) as [H1 H2]. unfold src. pose proof (in_shape_length _ _ H2) as L3. destruct (three _ L3) as (oc & oh & ow & E3). rewrite E3 in *.
    rewrite <- (lead_trail 3 (shape (value q))), E. apply in_shape_app; [exact H1|]. apply shuffle_src_in; assumption. }
  assert (Lm : forall m, fits m (shape (value q)) -> length m <= length s') by (intros m [F _]; unfold s'; rewrite app_length, lead_length; cbn [length]; lia).
  assert (X : codes (set_value q (T s' (fun i => at_ (value q) (src i)))) (T s' (fun i => at_ k (src i)))).
  { apply (select_codes q k s' src); [exact C|reflexivity|intros i Hi; split; [apply Hin; exact Hi|reflexivity]| |];
    (apply agree_scalar; [assumption|apply Lm; assumption|intros i Hi; rewrite (in_shape_length _ _ (Hin i Hi)); first [exact (proj1 Fs)|exact (proj1 Fz)]]). }
  destruct X as (X1 & X2 & X3 & X4). split; [reflexivity|]. split; [exact X2|]. split; [exact X3|]. intros i Hi. destruct (X4 i Hi) as (Y1 & Y2 & Y3). unfold src in Y2, Y3. cbn [set_value value at_] in Y2, Y3 |- *.
  destruct (in_shape_split 3 (lead 3 (shape (value q))) [c / (r * r); h * r; w * r] i eq_refl Hi) as [H1 H2]. destruct (three _ (in_shape_length _ _ H2)) as (oc & oh & ow & E3). rewrite E3 in *. split; [exact Y1|]. split; [exact Y2|exact Y3].
Qed.
Lemma unshuffle_codes q k r v' : codes q k -> scalar (scale q) -> scalar (zero_point q) -> pixel_unshuffle_t r (value q) = Some v' ->
  exists k', pixel_unshuffle_t r k = Some k' /\ codes (set_value q v') k'.
Proof.
  intros C Ss Sz H. pose proof C as (Sk & Fs & Fz & _). unfold pixel_unshuffle_t in *. rewrite Sk. destruct (trail 3 (shape (value q))) as [|c [|h [|w [|]]]] eqn:E; try discriminate.
  destruct (Nat.eqb_spec r 0) as [|R]; [discriminate|]. cbn [orb] in *. destruct (Nat.eqb_spec (h mod r) 0) as [Mh|]; [|discriminate]. destruct (Nat.eqb_spec (w mod r) 0) as [Mw|]; [|discriminate]. cbn [negb orb] in *. injection H as <-.
  assert (Ls : 3 <= length (shape (value q))) by (assert (X : length (trail 3 (shape (value q))) = 3) by (rewrite E; reflexivity); unfold trail in X; rewrite skipn_length in X; lia).
  eexists. split; [reflexivity|]. set (s' := lead 3 (shape (value q)) ++ [c * (r * r); h / r; w / r]).
  set (src := fun i => match trail 3 i with [oc; oh; ow] => lead 3 i ++ [oc / (r * r); oh * r + (oc mod (r * r)) / r; ow * r + oc mod r] | _ => i end).
  assert (Hin : forall i, in_shape s' i -> in_shape (shape (value q)) (src i)).
  { intros i Hi. destruct (in_shape_split 3 (lead 3 (shape (value q))) [c * (r * r); h / r; w / r] i eq_refl Hi) as [H1 H2]. unfold src. pose proof (in_shape_length _ _ H2) as L3. destruct (three _ L3) as (oc & oh & ow & E3). rewrite E3 in *.
    rewrite <- (lead_trail 3 (shape (value q))), E. apply in_shape_app; [exact H1|]. apply unshuffle_src_in; assumption. }
  assert (Lm : forall m, fits m (shape (value q)) -> length m <= length s') by (intros m [F _]; unfold s'; rewrite app_length, lead_length; cbn [length]; lia).
  assert (X : codes (set_value q (T s' (fun i => at_ (value q) (src i)))) (T s' (fun i => at_ k (src i)))).
  { apply (select_codes q k s' src); [exact C|reflexivity|intros i Hi; split; [apply Hin; exact Hi|reflexivity]| |];
    (apply agree_scalar; [assumption|apply Lm; assumption|intros i Hi; rewrite (in_shape_length _ _ (Hin i Hi)); first [exact (proj1 Fs)|exact (proj1 Fz)]]). }
  destruct X as (X1 & X2 & X3 & X4). split; [reflexivity|]. split; [exact X2|]. split; [exact X3|]. intros i Hi. destruct (X4 i Hi) as (Y1 & Y2 & Y3). unfold src in Y2, Y3. cbn [set_value value at_] in Y2, Y3 |- *.
  destruct (in_shape_split 3 (lead 3 (shape (value q))) [c * (r * r); h / r; w / r] i eq_refl Hi) as [H1 H2]. destruct (three _ (in_shape_length _ _ H2)) as (oc & oh & ow & E3). rewrite E3 in *. split; [exact Y1|]. split; [exact Y2|exact Y3].
Qed.
Lemma prod_scalar s : prod s <= 1 -> ~ In 0 s -> Forall (fun d => d = 1) s.
Proof.
  induction s as [|x s IH]; intros H N; [constructor|]. cbn [prod fold_right] in H. fold (prod s) in H. assert (x <> 0) by (intros ->; apply N; left; reflexivity). assert (N' : ~ In 0 s) by (intros I; apply N; right; exact I).
  assert (P : 1 <= prod s). { clear - N'. induction s as [|y s IH]; cbn [prod fold_right]; [lia|]. fold (prod s). assert (y <> 0) by (intros ->; apply N'; left; reflexivity). assert (1 <= prod s) by (apply IH; intros I; apply N'; right; exact I). nia. }
  constructor; [nia|]. apply IH; [nia|exact N'].
Qed.
Lemma embedding_codes idx q k q' : codes q k -> ~ In 0 (shape (scale q)) -> ~ In 0 (shape (zero_point q)) ->
  length (shape (scale q)) <= S (length (shape idx)) -> length (shape (zero_point q)) <= S (length (shape idx)) ->
  embedding_handler idx q = Some q' -> exists k', embedding_t idx k = Some k' /\ codes q' k'.
Proof.
  intros C Ns Nz Ls Lz H. pose proof C as (Sk & Fs & Fz & _). unfold embedding_handler in H. destruct (embedding_t idx (value q)) as [v|] eqn:E; [|discriminate].
  destruct (Nat.ltb_spec 1 (prod (shape (scale q)))) as [|Ps]; [discriminate|]. destruct (Nat.ltb_spec 1 (prod (shape (zero_point q)))) as [|Pz]; [discriminate|]. cbn [orb] in H. injection H as <-.
  unfold embedding_t in *. rewrite Sk. destruct (shape (value q)) as [|num [|dim [|]]] eqn:Sv; try discriminate. destruct (forallb _ (indices (shape idx))) eqn:B; [|discriminate]. injection E as <-. eexists. split; [reflexivity|].
  assert (Hin : forall i, in_shape (shape idx ++ [dim]) i -> in_shape (shape (value q)) (at_ idx (lead 1 i) :: trail 1 i)).
  { intros i Hi. destruct (in_shape_split 1 (shape idx) [dim] i eq_refl Hi) as [H1 H2]. rewrite Sv. constructor; [|exact H2]. rewrite forallb_forall in B. apply Nat.ltb_lt. apply B. apply in_indices. exact H1. }
  apply (select_codes q k _ (fun i => at_ idx (lead 1 i) :: trail 1 i)); [exact C|reflexivity|intros i Hi; split; [apply Hin; exact Hi|reflexivity]| |].
  - apply agree_scalar; [apply prod_scalar; assumption|rewrite app_length; cbn [length]; lia|]. intros i Hi. rewrite (in_shape_length _ _ (Hin i Hi)), Sv. exact (proj1 Fs).
  - apply agree_scalar; [apply prod_scalar; assumption|rewrite app_length; cbn [length]; lia|]. intros i Hi. rewrite (in_shape_length _ _ (Hin i Hi)), Sv. exact (proj1 Fz).
Qed.

(** ** Weighted interpolation *)
Lemma weighted_bounds {A} (l : list (Q * A)) (f : A -> Q) lo hi : (forall x, In x l -> (0 <= fst x /\ lo <= f (snd x) <= hi)%Q) ->
  (let w := fold_right (fun x a => fst x + a)%Q 0%Q l in lo * w <= fold_right (fun x a => fst x * f (snd x) + a)%Q 0%Q l <= hi * w)%Q.
Proof.
  induction l as [|[c x] l IH]; intros H; cbn [fold_right fst snd]; [split; rewrite Qmult_0_r; apply Qle_refl|]. destruct (H (c, x) (or_introl eq_refl)) as (H1 & H2 & H3). cbn [fst snd] in *.
  destruct (IH (fun y Hy => H y (or_intror Hy))) as [I1 I2]. split.
  - setoid_replace (lo * (c + fold_right (fun x a => fst x + a) 0 l))%Q with (c * lo + lo * fold_right (fun x a => fst x + a) 0 l)%Q by ring. apply Qplus_le_compat; [|exact I1].
    rewrite (Qmult_comm c lo), (Qmult_comm c (f x)). apply Qmult_le_compat_r; assumption.
  - setoid_replace (hi * (c + fold_right (fun x a => fst x + a) 0 l))%Q with (c * hi + hi * fold_right (fun x a => fst x + a) 0 l)%Q by ring. apply Qplus_le_compat; [|exact I2].
    rewrite (Qmult_comm c hi), (Qmult_comm c (f x)). apply Qmult_le_compat_r; assumption.
Qed.
