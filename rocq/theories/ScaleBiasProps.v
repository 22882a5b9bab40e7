(** Property C109: the layers standing in for a batch norm. *)
From Coq Require Import Reals List Bool Arith Lia Lra.
From Verif Require Import SliceWeight ScaleBias.
Import ListNotations.
Open Scope R_scope.

(** ** Specification *)

(** torch.nn.BatchNorm in evaluation mode on one value. *)
Definition bn_eval (mean var weight bias eps x : R) : R := (x - mean) / sqrt (var + eps) * weight + bias.

(** The checkpoint of a batch norm over [n] channels whose variances are usable. *)
Definition bn_checkpoint (n : nat) (eps : R) (mean var weight bias : list R) : Prop :=
  length mean = n /\ length var = n /\ length weight = n /\ length bias = n
  /\ forall c, (c < n)%nat -> 0 < nth c var 0 + eps.

(** ** Lemmas *)
Lemma mul_add_spec eps : forall n mean var weight bias, bn_checkpoint n eps mean var weight bias ->
  exists ms bs, mul_add mean var eps weight bias = Some (ms, bs) /\ length ms = n /\ length bs = n /\
    forall c x, (c < n)%nat -> x * nth c ms 0 + nth c bs 0 = bn_eval (nth c mean 0) (nth c var 0) (nth c weight 0) (nth c bias 0) eps x.
Proof.
  induction n as [|n IH]; intros mean var weight bias (A & B & C & D & P).
  - destruct mean, var, weight, bias; try discriminate. exists [], []. repeat split; auto. intros; lia.
  - destruct mean as [|m mean], var as [|v var], weight as [|w weight], bias as [|b bias]; try discriminate.
    destruct (IH mean var weight bias) as (ms & bs & E & L1 & L2 & H).
    { cbn in A, B, C, D. repeat split; try lia. intros c Hc. apply (P (S c)). lia. }
    cbn [mul_add]. rewrite E. do 2 eexists. split; [reflexivity|]. cbn [length]. split; [lia|]. split; [lia|].
    intros [|c] x Hc; cbn [nth].
    + unfold bn_eval. pose proof (P 0%nat ltac:(lia)) as Q. cbn in Q. apply sqrt_lt_R0 in Q. field. lra.
    + apply H. lia.
Qed.

Lemma bcast4 N C H W : bshape [N; C; H; W] [1%nat; C; 1%nat; 1%nat] = Some [N; C; H; W].
Proof.
  unfold bshape. cbn [length Nat.max pad_ones Nat.sub repeat app zip_dims].
  repeat (match goal with |- context [Nat.eqb ?a ?b] => destruct (Nat.eqb_spec a b); subst; try lia; try congruence end); reflexivity.
Qed.

Lemma iop_same f a b sh : rshape a = sh -> bshape sh (rshape b) = Some sh ->
  iop f a b = Some (RT sh (fun idx => f (rat a (bindex sh idx)) (rat b (bindex (rshape b) idx)))).
Proof.
  intros E B. unfold iop, bop. rewrite E, B. cbn [rshape]. destruct (list_eq_dec Nat.eq_dec sh sh); [reflexivity|congruence].
Qed.

Lemma bindex4 C n c h w : (c < C)%nat -> nth 1 (bindex [1%nat; C; 1%nat; 1%nat] [n; c; h; w]) 0%nat = c.
Proof. intros H. unfold bindex. cbn. destruct (Nat.eqb_spec C 1); lia. Qed.

Lemma forward4 wq bq l b C N H W x : sb_shape l = shape_4d -> sb_bias l = Some b ->
  length (wq (sb_weight l)) = C -> length (bq b) = C -> rshape x = [N; C; H; W] ->
  exists y, quant_scale_bias_forward wq bq l x = Some y /\ rshape y = [N; C; H; W] /\
    forall n c h w, (n < N)%nat -> (c < C)%nat -> (h < H)%nat -> (w < W)%nat ->
      rat y [n; c; h; w] = rat x [n; c; h; w] * nth c (wq (sb_weight l)) 0 + nth c (bq b) 0.
Proof.
  intros S4 Eb Lw Lb Sx. unfold quant_scale_bias_forward, bop. rewrite Eb, S4.
  change (rshape (view_vec shape_4d (wq (sb_weight l)))) with [1%nat; length (wq (sb_weight l)); 1%nat; 1%nat].
  rewrite Sx, Lw, bcast4.
  rewrite (iop_same Rplus _ (view_vec shape_4d (bq b)) [N; C; H; W]); [|reflexivity|].
  2:{ change (rshape (view_vec shape_4d (bq b))) with [1%nat; length (bq b); 1%nat; 1%nat]. rewrite Lb. apply bcast4. }
  eexists. split; [reflexivity|]. split; [reflexivity|].
  intros n c h w Hn Hc Hh Hw. cbn [rat].
  change (rshape (view_vec shape_4d (bq b))) with [1%nat; length (bq b); 1%nat; 1%nat]. rewrite Lb.
  unfold view_vec. cbn [rat rt_pos shape_4d].
  assert (I : bindex [N; C; H; W] [n; c; h; w] = [n; c; h; w]).
  { unfold bindex. cbn. destruct (Nat.eqb_spec N 1), (Nat.eqb_spec C 1), (Nat.eqb_spec H 1), (Nat.eqb_spec W 1); repeat f_equal; lia. }
  rewrite I, I. rewrite !(bindex4 C n c h w Hc). reflexivity.
Qed.

Lemma load_bn_path ig st n eps bn mean var w b : bl_eps bn = eps -> bn_checkpoint n eps mean var w b ->
  exists ms bs, load_bn ig st bn (Ck (Some w) (Some b) (Some mean) (Some var) true) =
      (BL (SB ms (Some bs) (sb_shape (bl_sb bn))) eps, if st && negb ig then Raised else Returned)
    /\ length ms = n /\ length bs = n /\
    forall c x, (c < n)%nat -> x * nth c ms 0 + nth c bs 0 = bn_eval (nth c mean 0) (nth c var 0) (nth c w 0) (nth c b 0) eps x.
Proof.
  intros Ee Ok. destruct (mul_add_spec eps n mean var w b Ok) as (ms & bs & E & L1 & L2 & V).
  exists ms, bs. split; [|auto]. unfold load_bn. cbn [k_mean k_var k_bias k_weight k_tracked]. rewrite Ee, E. rewrite orb_false_r. reflexivity.
Qed.

(** ** Theorems *)

(** BatchNorm2dToQuantScaleBias, whatever it was built for, after loading the checkpoint of a
    batch norm over C channels: on every N x C x H x W input it returns a tensor of that shape,
    off the batch norm's value by at most |x| times the error of the weight quantizer plus that
    of the bias quantizer. *)
Theorem C109_bn2d : forall ig st n0 eps C N H W mean var wt bs wq bq ew eb x,
  bn_checkpoint C eps mean var wt bs -> rshape x = [N; C; H; W] ->
  (forall v, length (wq v) = length v) -> (forall v, length (bq v) = length v) ->
  (forall v c, Rabs (nth c (wq v) 0 - nth c v 0) <= ew) -> (forall v c, Rabs (nth c (bq v) 0 - nth c v 0) <= eb) ->
  let l := fst (load_bn ig st (bn2d_init n0 eps) (Ck (Some wt) (Some bs) (Some mean) (Some var) true)) in
  exists y, quant_scale_bias_forward wq bq (bl_sb l) x = Some y /\ rshape y = [N; C; H; W] /\
    forall n c h w, (n < N)%nat -> (c < C)%nat -> (h < H)%nat -> (w < W)%nat ->
      Rabs (rat y [n; c; h; w] - bn_eval (nth c mean 0) (nth c var 0) (nth c wt 0) (nth c bs 0) eps (rat x [n; c; h; w]))
        <= Rabs (rat x [n; c; h; w]) * ew + eb.
Proof.
  intros ig st n0 eps C N H W mean var wt bs wq bq ew eb x Ok Sx Lw Lb Ew Eb l.
  destruct (load_bn_path ig st C eps (bn2d_init n0 eps) mean var wt bs eq_refl Ok) as (ms & bb & E & L1 & L2 & V).
  unfold l. rewrite E. cbn [fst bl_sb].
  destruct (forward4 wq bq (SB ms (Some bb) (sb_shape (bl_sb (bn2d_init n0 eps)))) bb C N H W x) as (y & Ey & Sy & Vy);
    cbn [sb_shape sb_bias sb_weight]; auto; [now rewrite Lw|now rewrite Lb|].
  exists y. split; [exact Ey|]. split; [exact Sy|]. intros n c h w Hn Hc Hh Hw.
  rewrite Vy by assumption. rewrite <- (V c (rat x [n; c; h; w]) Hc). cbn [sb_weight].
  pose proof (Ew ms c) as A. pose proof (Eb bb c) as B. set (X := rat x [n; c; h; w]).
  replace (X * nth c (wq ms) 0 + nth c (bq bb) 0 - (X * nth c ms 0 + nth c bb 0))
    with (X * (nth c (wq ms) 0 - nth c ms 0) + (nth c (bq bb) 0 - nth c bb 0)) by ring.
  eapply Rle_trans; [apply Rabs_triang|]. rewrite Rabs_mult.
  apply Rplus_le_compat; [|exact B]. apply Rmult_le_compat_l; [apply Rabs_pos|exact A].
Qed.

(** Unquantized, it is the batch norm. *)
Theorem C109_bn2d_exact : forall ig st n0 eps C N H W mean var wt bs x,
  bn_checkpoint C eps mean var wt bs -> rshape x = [N; C; H; W] ->
  let l := fst (load_bn ig st (bn2d_init n0 eps) (Ck (Some wt) (Some bs) (Some mean) (Some var) true)) in
  exists y, quant_scale_bias_forward (fun v => v) (fun v => v) (bl_sb l) x = Some y /\ rshape y = [N; C; H; W] /\
    forall n c h w, (n < N)%nat -> (c < C)%nat -> (h < H)%nat -> (w < W)%nat ->
      rat y [n; c; h; w] = bn_eval (nth c mean 0) (nth c var 0) (nth c wt 0) (nth c bs 0) eps (rat x [n; c; h; w]).
Proof.
  intros ig st n0 eps C N H W mean var wt bs x Ok Sx l.
  destruct (C109_bn2d ig st n0 eps C N H W mean var wt bs (fun v => v) (fun v => v) 0 0 x) as (y & A & B & V); auto;
    try (intros; rewrite Rminus_diag_eq, Rabs_R0; [lra|reflexivity]).
  exists y. split; [exact A|]. split; [exact B|]. intros n c h w Hn Hc Hh Hw. specialize (V n c h w Hn Hc Hh Hw).
  rewrite Rmult_0_r, Rplus_0_r in V. apply Rminus_diag_uniq. destruct (Req_dec (rat y [n; c; h; w] - bn_eval (nth c mean 0) (nth c var 0) (nth c wt 0) (nth c bs 0) eps (rat x [n; c; h; w])) 0) as [e|e]; auto.
  apply Rabs_pos_lt in e. lra.
Qed.

(** When a load returns. The checkpoint of a batch norm is always applied and then, in strict
    mode, refused as missing weight and bias, unless missing keys are ignored. *)
Theorem C109_bn_checkpoint_returns : forall ig st n0 eps C mean var wt bs,
  bn_checkpoint C eps mean var wt bs ->
  (snd (load_bn ig st (bn2d_init n0 eps) (Ck (Some wt) (Some bs) (Some mean) (Some var) true)) = Returned <-> st = false \/ ig = true).
Proof.
  intros ig st n0 eps C mean var wt bs Ok.
  destruct (load_bn_path ig st C eps (bn2d_init n0 eps) mean var wt bs eq_refl Ok) as (ms & bb & E & _). rewrite E. cbn [snd].
  destruct st, ig; cbn; split; auto; try discriminate. intros [A|A]; discriminate.
Qed.

(** A checkpoint of the layer itself is loaded exactly, and strictly. *)
Theorem C109_own_checkpoint : forall ig st n0 eps w b, length w = n0 -> length b = n0 -> forall tracked,
  load_bn ig st (bn2d_init n0 eps) (Ck (Some w) (Some b) None None tracked) = (BL (SB w (Some b) shape_4d) eps, Returned).
Proof.
  intros ig st n0 eps w b Lw Lb tr. unfold load_bn. cbn [k_mean k_var k_weight k_bias bn2d_init bl_sb quant_scale_bias_init scale_bias_init sb_weight sb_bias sb_shape bl_eps copy_entry].
  rewrite !repeat_length, Lw, Lb, Nat.eqb_refl. cbn. rewrite andb_false_r. reflexivity.
Qed.

(** BatchNorm1dToQuantScaleBias with C channels on an N x C x L input never returns a tensor of
    that shape: it raises unless N = C, N = 1 or C = 1, and then returns one dimension more.
    With N = C entry (a, c, l) is scaled by the parameters of channel a instead of c. *)
Theorem C109_bn1d_3d : forall wq bq C N L eps w b x, rshape x = [N; C; L] -> length (wq w) = C -> length (bq b) = C ->
  let l := SB w (Some b) (sb_shape (bl_sb (bn1d_init C eps))) in
  match quant_scale_bias_forward wq bq l x with
  | None => (N <> C /\ N <> 1 /\ C <> 1)%nat
  | Some y => (N = C \/ N = 1 \/ C = 1)%nat /\ (exists M, rshape y = [1%nat; M; C; L] /\ (M = N \/ M = C)) /\
      (N = C -> forall a c t, (a < C)%nat -> (c < C)%nat -> (t < L)%nat ->
         rat y [0%nat; a; c; t] = rat x [a; c; t] * nth a (wq w) 0 + nth a (bq b) 0)
  end.
Proof.
  intros wq bq C N L eps w b x Sx Lw Lb l. unfold quant_scale_bias_forward, bop.
  change (sb_shape l) with shape_4d. cbn [sb_bias sb_weight l].
  change (rshape (view_vec shape_4d (wq w))) with [1%nat; length (wq w); 1%nat; 1%nat]. rewrite Sx, Lw.
  assert (BS : forall M, bshape [1%nat; M; C; L] [1%nat; C; 1%nat; 1%nat] = (if Nat.eqb M C then Some [1%nat; M; C; L] else if Nat.eqb M 1 then Some [1%nat; C; C; L] else if Nat.eqb C 1 then Some [1%nat; M; C; L] else None)).
  { intros M. unfold bshape. cbn [length Nat.max pad_ones Nat.sub repeat app zip_dims].
    destruct (Nat.eqb_spec L 1), (Nat.eqb_spec C 1), (Nat.eqb_spec M C), (Nat.eqb_spec M 1); subst; cbn; try reflexivity; try lia. }
  assert (B3 : bshape [N; C; L] [1%nat; C; 1%nat; 1%nat] = bshape [1%nat; N; C; L] [1%nat; C; 1%nat; 1%nat]) by reflexivity.
  rewrite B3, BS. clear B3.
  assert (LB : rshape (view_vec shape_4d (bq b)) = [1%nat; C; 1%nat; 1%nat]) by (unfold view_vec; cbn; now rewrite Lb).
  assert (BB : forall M, (M = C \/ C = 1%nat) -> bshape [1%nat; M; C; L] [1%nat; C; 1%nat; 1%nat] = Some [1%nat; M; C; L]).
  { intros M H. rewrite BS. destruct (Nat.eqb_spec M C); auto. destruct H as [H|H]; [contradiction|]. rewrite H.
    destruct (Nat.eqb_spec M 1); [lia|reflexivity]. }
  destruct (Nat.eqb_spec N C) as [e|Nc].
  - subst N. rewrite (iop_same Rplus _ _ [1%nat; C; C; L]); [|reflexivity|rewrite LB; apply BB; now left].
    split; [auto|]. split; [exists C; auto|]. intros _ a c t Ha Hc Ht. cbn [rat]. rewrite LB. unfold view_vec. cbn [rat rt_pos shape_4d].
    assert (I : bindex [1%nat; C; C; L] [0%nat; a; c; t] = [0%nat; a; c; t]).
    { unfold bindex. cbn. destruct (Nat.eqb_spec C 1), (Nat.eqb_spec L 1); repeat f_equal; lia. }
    assert (I3 : bindex [C; C; L] [0%nat; a; c; t] = [a; c; t]).
    { unfold bindex. cbn. destruct (Nat.eqb_spec C 1), (Nat.eqb_spec L 1); repeat f_equal; lia. }
    rewrite I, I3, (bindex4 C 0 a c t Ha). reflexivity.
  - destruct (Nat.eqb_spec N 1) as [e1|N1].
    + rewrite (iop_same Rplus _ _ [1%nat; C; C; L]); [|reflexivity|rewrite LB; apply BB; now left].
      split; [auto|]. split; [exists C; auto|]. intros; lia.
    + destruct (Nat.eqb_spec C 1) as [c1|C1].
      * rewrite (iop_same Rplus _ _ [1%nat; N; C; L]); [|reflexivity|rewrite LB; apply BB; now right].
        split; [auto|]. split; [exists N; auto|]. intros; lia.
      * auto.
Qed.

(** On an N x C input it returns a 1 x C x N x C tensor of all products. *)
Theorem C109_bn1d_2d : forall wq bq C N eps w b x, rshape x = [N; C] -> length (wq w) = C -> length (bq b) = C ->
  let l := SB w (Some b) (sb_shape (bl_sb (bn1d_init C eps))) in
  exists y, quant_scale_bias_forward wq bq l x = Some y /\ rshape y = [1%nat; C; N; C] /\
    forall k n c, (k < C)%nat -> (n < N)%nat -> (c < C)%nat -> rat y [0%nat; k; n; c] = rat x [n; c] * nth k (wq w) 0 + nth k (bq b) 0.
Proof.
  intros wq bq C N eps w b x Sx Lw Lb l. unfold quant_scale_bias_forward, bop.
  change (sb_shape l) with shape_4d. cbn [sb_bias sb_weight l].
  change (rshape (view_vec shape_4d (wq w))) with [1%nat; length (wq w); 1%nat; 1%nat]. rewrite Sx, Lw.
  assert (BS : bshape [N; C] [1%nat; C; 1%nat; 1%nat] = Some [1%nat; C; N; C]).
  { unfold bshape. cbn [length Nat.max pad_ones Nat.sub repeat app zip_dims].
    clear. destruct C as [|[|C]], N as [|[|N]]; reflexivity. }
  rewrite BS.
  assert (LB : rshape (view_vec shape_4d (bq b)) = [1%nat; C; 1%nat; 1%nat]) by (unfold view_vec; cbn; now rewrite Lb).
  rewrite (iop_same Rplus _ _ [1%nat; C; N; C]); [|reflexivity|rewrite LB; apply bcast4].
  eexists. split; [reflexivity|]. split; [reflexivity|]. intros k n c Hk Hn Hc. cbn [rat]. rewrite LB. unfold view_vec. cbn [rat rt_pos shape_4d].
  assert (I : bindex [1%nat; C; N; C] [0%nat; k; n; c] = [0%nat; k; n; c]).
  { unfold bindex. cbn. destruct (Nat.eqb_spec C 1), (Nat.eqb_spec N 1); repeat f_equal; lia. }
  assert (I2 : bindex [N; C] [0%nat; k; n; c] = [n; c]).
  { unfold bindex. cbn. destruct (Nat.eqb_spec C 1), (Nat.eqb_spec N 1); repeat f_equal; lia. }
  rewrite I, I2, (bindex4 C 0 k n c Hk). reflexivity.
Qed.

(** QuantScaleBias without a bias cannot be called; the plain ScaleBias with a bias over two or
    more features cannot either. *)
Theorem C109_uncallable : forall wq bq n r x,
  quant_scale_bias_forward wq bq (quant_scale_bias_init n false r) x = None /\
  ((2 <= n)%nat -> forall r', scale_bias_forward (scale_bias_init n true r') x = None).
Proof.
  intros wq bq n r x. split; [reflexivity|]. intros H r'. unfold scale_bias_forward. destruct (bop _ _ _); auto.
  cbn. destruct n as [|[|n]]; try lia. reflexivity.
Qed.

(** The plain layer over one feature, or without a bias, does compute x * w (+ b). *)
Theorem C109_scale_bias : forall w b N H W x, rshape x = [N; 1%nat; H; W] ->
  exists y, scale_bias_forward (SB [w] (Some [b]) shape_4d) x = Some y /\ rshape y = [N; 1%nat; H; W] /\
    forall n h k, (n < N)%nat -> (h < H)%nat -> (k < W)%nat -> rat y [n; 0%nat; h; k] = rat x [n; 0%nat; h; k] * w + b.
Proof.
  intros w b N H W x Sx. unfold scale_bias_forward, bop. cbn [sb_shape sb_weight sb_bias].
  change (rshape (view_vec shape_4d [w])) with [1%nat; 1%nat; 1%nat; 1%nat]. rewrite Sx, bcast4.
  assert (I : forall n h k, (n < N)%nat -> (h < H)%nat -> (k < W)%nat -> bindex [N; 1%nat; H; W] [n; 0%nat; h; k] = [n; 0%nat; h; k]).
  { intros n h k Hn Hh Hk. unfold bindex. cbn. destruct (Nat.eqb_spec N 1), (Nat.eqb_spec H 1), (Nat.eqb_spec W 1); repeat f_equal; lia. }
  destruct (Req_EM_T b 0) as [->|Nb].
  - eexists. split; [reflexivity|]. split; [reflexivity|]. intros n h k Hn Hh Hk. cbn [rat]. rewrite I by assumption. cbn. ring.
  - rewrite (iop_same Rplus _ _ [N; 1%nat; H; W]); [|reflexivity|apply bcast4].
    eexists. split; [reflexivity|]. split; [reflexivity|]. intros n h k Hn Hh Hk. cbn [rat]. rewrite !I by assumption. cbn. ring.
Qed.

(** ** Expectations that fail *)

(** The checkpoint of a batch norm over a different number of channels is accepted. *)
Theorem C109_wrong_size_accepted_refuted : exists mean var wt bs l',
  load_bn true true (bn2d_init 3 (/ 100000)) (Ck (Some wt) (Some bs) (Some mean) (Some var) true) = (l', Returned)
  /\ length (sb_weight (bl_sb l')) = 2%nat.
Proof. exists [0; 0], [1; 1], [1; 1], [0; 0]. eexists. cbn. split; reflexivity. Qed.

(** Checkpoints from before num_batches_tracked existed, and of batch norms without affine
    parameters, raise; the former after the layer was changed. *)
Theorem C109_old_checkpoint_refuted :
  (exists mean var wt bs, let r := load_bn true false (bn2d_init 1 0) (Ck (Some wt) (Some bs) (Some mean) (Some var) false) in
     snd r = Raised /\ sb_weight (bl_sb (fst r)) <> sb_weight (bl_sb (bn2d_init 1 0)))
  /\ exists mean var, snd (load_bn true false (bn2d_init 1 0) (Ck None None (Some mean) (Some var) true)) = Raised.
Proof.
  split.
  - exists [0], [1], [5], [0]. cbn. split; [reflexivity|]. rewrite Rplus_0_r, sqrt_1. intro H. injection H as H. lra.
  - exists [0], [1]. reflexivity.
Qed.

(** ** Examples *)
Example C109_ex_checkpoint : bn_checkpoint 2 1 [1; 2] [3; 8] [4; 6] [5; -5]
  /\ bn_eval 1 3 4 5 1 7 = 17.
Proof.
  split.
  - repeat split. intros [|[|c]] H; cbn; try lra. lia.
  - unfold bn_eval. replace (3 + 1) with (2 * 2) by lra. rewrite sqrt_square by lra. lra.
Qed.
Definition x24 : rten := RT [1%nat; 2%nat; 1%nat; 1%nat] (fun idx => if Nat.eqb (nth 1 idx 0%nat) 0 then 7 else 8).
Example C109_ex_bn2d :
  let l := fst (load_bn true true (bn2d_init 2 1) (Ck (Some [4; 6]) (Some [5; -5]) (Some [1; 2]) (Some [3; 8]) true)) in
  exists y, quant_scale_bias_forward (fun v => v) (fun v => v) (bl_sb l) x24 = Some y /\ rat y [0%nat; 0%nat; 0%nat; 0%nat] = 17.
Proof.
  destruct (C109_bn2d_exact true true 2 1 2 1 1 1 [1; 2] [3; 8] [4; 6] [5; -5] x24) as (y & A & B & V); [apply C109_ex_checkpoint|reflexivity|].
  exists y. split; [exact A|]. rewrite V by lia. cbn. apply C109_ex_checkpoint.
Qed.
Example C109_ex_bn1d : quant_scale_bias_forward (fun v => v) (fun v => v) (SB [1; 2] (Some [0; 0]) shape_4d) (RT [3%nat; 2%nat; 5%nat] (fun _ => 1)) = None
  /\ exists y, quant_scale_bias_forward (fun v => v) (fun v => v) (SB [1; 2] (Some [0; 0]) shape_4d) (RT [2%nat; 2%nat; 5%nat] (fun _ => 1)) = Some y
     /\ rshape y = [1%nat; 2%nat; 2%nat; 5%nat].
Proof. split; [reflexivity|]. eexists. split; [cbn; unfold iop, bop; cbn; reflexivity|reflexivity]. Qed.
Example C109_ex_quantizer : let q := map (fun r => r + / 10) in
  (forall v, length (q v) = length v) /\ forall v c, Rabs (nth c (q v) 0 - nth c v 0) <= / 10.
Proof.
  split; [intros; apply map_length|]. intros v. induction v as [|r v IH]; intros [|c]; cbn [map nth]; [..|apply IH];
    unfold Rabs; destruct (Rcase_abs _); lra.
Qed.

Print Assumptions C109_bn2d.
Print Assumptions C109_bn2d_exact.
Print Assumptions C109_bn_checkpoint_returns.
Print Assumptions C109_own_checkpoint.
Print Assumptions C109_bn1d_3d.
Print Assumptions C109_bn1d_2d.
Print Assumptions C109_uncallable.
Print Assumptions C109_scale_bias.
Print Assumptions C109_wrong_size_accepted_refuted.
Print Assumptions C109_old_checkpoint_refuted.
