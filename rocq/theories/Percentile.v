(** Model of the percentile statistics: src/brevitas/core/stats/stats_op.py [AbsPercentile],
    [NegativePercentileOrZero], [PercentileInterval], src/brevitas/utils/torch_utils.py
    [kthvalue], and the activation quantizer that combines them
    (src/brevitas/quant/base.py [ShiftedParamFromPercentileUintQuant],
    [ParamFromRuntimePercentileIntervalScaling]).

    Values and percentages are rationals; the rank arithmetic in double precision is in
    PercentileRank.v. *)
From Verif Require Import QUtil Log2Q Ops IntQuant Scaling.
Open Scope Q_scope.

(** torch.kthvalue (external behaviour assumed): the k-th smallest element, k counted from 1;
    raises when k is out of range. *)
Fixpoint insert (x : Q) (l : list Q) : list Q :=
  match l with
  | [] => [x]
  | y :: l' => if Qle_bool x y then x :: y :: l' else y :: insert x l'
  end.
Definition sort (l : list Q) : list Q := fold_right insert [] l.

(** utils/torch_utils.py L55-85 [kthvalue]: the casts for half precision types are exact and
    keep the order. *)
Definition kthvalue (l : list Q) (k : Z) : option Q :=
  if ((1 <=? k) && (k <=? Z.of_nat (length l)))%Z then nth_error (sort l) (Z.to_nat (k - 1)) else None.

Definition numel (l : list Q) : Q := inject_Z (Z.of_nat (length l)).

(** stats_op.py L71, L79: int(math.floor(.01 * q * n + 0.5)). *)
Definition rank_high (q n : Q) : Z := Qfloor ((1 # 100) * q * n + (1 # 2)).
(** stats_op.py L105, L113: int(math.ceil(.01 * q * n)). *)
Definition rank_low (q n : Q) : Z := Qceiling ((1 # 100) * q * n).

(** stats_op.py L66-73 [AbsPercentile.forward] with stats_reduce_dim None. *)
Definition abs_percentile (q : Q) (x : list Q) : option Q := kthvalue (map Qabs x) (rank_high q (numel x)).

(** stats_op.py L100-115 [NegativePercentileOrZero.forward]. *)
Definition negative_percentile_or_zero (q : Q) (x : list Q) : option Q :=
  match kthvalue x (rank_low q (numel x)) with Some v => Some (torch_min v 0) | None => None end.

(** stats_op.py L140-146, L157-161 [PercentileInterval.forward]. *)
Definition percentile_interval (low_q high_q : Q) (x : list Q) : option Q :=
  match kthvalue x (rank_low low_q (numel x)), kthvalue x (rank_high high_q (numel x)) with
  | Some low_result, Some high_result => Some (Qabs (high_result - torch_min low_result 0))
  | _, _ => None
  end.

(** A two dimensional input. *)
Record mat := M { rows : nat; cols : nat; ent : nat -> nat -> Q }.
Definition size (x : mat) (d : nat) : nat := match d with O => rows x | _ => cols x end.
(** The values along dimension [d] at position [i] of the other one. *)
Definition along (x : mat) (d i : nat) : list Q :=
  map (fun j => match d with O => ent x j i | _ => ent x i j end) (seq 0 (size x d)).
(** torch.narrow(x, dim, 0, 1).numel(). *)
Definition narrow_numel (x : mat) (dim : nat) : nat := match dim with O => cols x | _ => rows x end.
Definition other (d : nat) : nat := match d with O => 1%nat | _ => O end.
Fixpoint all_some {A} (l : list (option A)) : option (list A) :=
  match l with
  | [] => Some []
  | Some a :: l' => match all_some l' with Some m => Some (a :: m) | None => None end
  | None :: _ => None
  end.
(** kthvalue over dimension [d]. *)
Definition kthvalue_dim (x : mat) (k : Z) (d : nat) : option (list Q) :=
  all_some (map (fun i => kthvalue (along x d i) k) (seq 0 (size x (other d)))).

Definition mat_abs (x : mat) : mat := M (rows x) (cols x) (fun i j => Qabs (ent x i j)).

(** stats_op.py L74-81 [AbsPercentile.forward] with stats_reduce_dim [d]. *)
Definition abs_percentile_dim (q : Q) (d : nat) (x : mat) : option (list Q) :=
  let k := rank_high q (inject_Z (Z.of_nat (narrow_numel x (other d)))) in
  kthvalue_dim (mat_abs x) k d.

(** stats_op.py L107-117 [NegativePercentileOrZero.forward] with stats_reduce_dim [d]. *)
Definition negative_percentile_dim (q : Q) (d : nat) (x : mat) : option (list Q) :=
  let k := rank_low q (inject_Z (Z.of_nat (narrow_numel x (other d)))) in
  match kthvalue_dim x k d with Some l => Some (map (fun v => torch_min v 0) l) | None => None end.

(** stats_op.py L147-161 [PercentileInterval.forward] with stats_reduce_dim [d]. *)
Fixpoint map2 {A B C} (f : A -> B -> C) (l : list A) (m : list B) : list C :=
  match l, m with a :: l', b :: m' => f a b :: map2 f l' m' | _, _ => [] end.
Definition percentile_interval_dim (low_q high_q : Q) (d : nat) (x : mat) : option (list Q) :=
  let n := inject_Z (Z.of_nat (narrow_numel x (other d))) in
  match kthvalue_dim x (rank_low low_q n) d, kthvalue_dim x (rank_high high_q n) d with
  | Some lo, Some hi => Some (map2 (fun l h => Qabs (h - torch_min l 0)) lo hi)
  | _, _ => None
  end.

(** quant/base.py L216-230 [ShiftedParamFromPercentileUintQuant] with L149-159
    [ParamFromRuntimePercentileIntervalScaling] after calibration on the batch [x]: unsigned
    integer quantizer whose scale is the percentile interval divided by 2^b - 1 (restricted
    and clamped as in Scaling.v) and whose zero point is the quantized |low percentile|
    (core/zero_point.py L143-154).  Returns the scale and the zero point. *)
Definition percentile_calibrate (r : restrict) (mv : option Q) (low_q high_q : Q) (b : Z) (x : list Q) : option (Q * Q) :=
  match percentile_interval low_q high_q x, negative_percentile_or_zero low_q x with
  | Some st, Some lo =>
      let c := cfg false false Round in
      let s := stats_scaling r mv st (inject_Z (int_scaling false false b)) in
      if Qeq_bool s 0 then None else Some (s, scale_shift_zero_point c true (Qabs lo) s b)
  | _, _ => None
  end.
