(** Model of the mean-squared-error search of core/stats/stats_op.py L439-568
    ([_set_local_loss_mode], [_set_observer_mode], [_restore_observer_mode], [MSE]) and of the
    parts of the half-quadratic optimisers (L571-760) the properties talk about.

    Real arithmetic; losses may be infinite or NaN.  A tensor of candidates (one per channel) is
    an index function.  Every operation of the two searches other than [evaluate_loss] is
    elementwise.  The proxy is a function of the module flags it sees and of the candidate: that a
    quantizer call can also change its own buffers is not modelled here. *)
From Coq Require Import ZArith Reals List Bool Arith.
From Verif Require Import Ste.
Import ListNotations.
Local Open Scope R_scope.

(** ** Floating-point losses *)

Inductive fl := Fin (r : R) | PInf | NaN.

Definition flt (a b : fl) : bool :=
  match a, b with
  | Fin x, Fin y => if Rlt_dec x y then true else false
  | Fin _, PInf => true
  | _, _ => false
  end.
Definition fle (a b : fl) : bool :=
  match a, b with
  | Fin x, Fin y => if Rle_dec x y then true else false
  | Fin _, PInf => true
  | PInf, PInf => true
  | _, _ => false
  end.
Definition fge (a b : fl) : bool := fle b a.
Definition fne (a b : fl) : bool :=
  match a, b with
  | Fin x, Fin y => if Req_EM_T x y then false else true
  | PInf, PInf => false
  | _, _ => true
  end.
(** torch.min(a, b) elementwise: NaN is propagated. *)
Definition fmin (a b : fl) : fl :=
  match a, b with
  | NaN, _ => NaN
  | _, NaN => NaN
  | Fin x, Fin y => Fin (Rmin x y)
  | Fin x, PInf => Fin x
  | PInf, b => b
  end.

Definition vec := nat -> R.
(** torch.where *)
Definition vwhere (c : nat -> bool) (a b : vec) : vec := fun j => if c j then a j else b j.

(** ** Flags *)

(** A sub-module of the proxy: its [local_loss_mode] and [observer_only] attributes, where it has
    them. *)
Record md := Md { ll : option bool; ob : option bool }.

(** The [MSE] module and the proxy it lives in; the module itself is one of [mods].
    [prev] is the [previous_observer_mode] dictionary (per module, in [modules()] order, where
    every module occurs once). *)
Record mst := Mst { mods : list md; prev : list (option bool); candidate : option vec }.

(** L439-442 *)
Definition set_local_loss_mode (e : bool) (s : mst) : mst :=
  Mst (map (fun m => Md (match ll m with Some _ => Some e | None => None end) (ob m)) (mods s))
      (prev s) (candidate s).

(** L445-449 *)
Definition set_observer_mode (e : bool) (s : mst) : mst :=
  Mst (map (fun m => Md (ll m) (match ob m with Some _ => Some e | None => None end)) (mods s))
      (map ob (mods s)) (candidate s).

(** L452-455 *)
Fixpoint restore (ms : list md) (p : list (option bool)) : list md :=
  match ms, p with
  | m :: ms', o :: p' => Md (ll m) (match ob m with Some _ => o | None => None end) :: restore ms' p'
  | _, _ => ms
  end.
Definition restore_observer_mode (s : mst) : mst :=
  Mst (restore (mods s) (prev s)) (prev s) (candidate s).

Section Search.
(** [proxy_forward] followed by [mse_loss_fn] (L487-495): the loss per channel of the fixed input,
    given the flags and the candidate the quantizer will read. *)
Variable quant_loss : list md -> vec -> nat -> fl.
(** [mse_iters] *)
Variable num : nat.

(** L497-507 *)
Definition evaluate_loss (s : mst) (cand : vec) : mst * (nat -> fl) :=
  let s := Mst (mods s) (prev s) (Some cand) in
  let s := set_local_loss_mode true s in
  let s := set_observer_mode false s in
  let loss := quant_loss (mods s) cand in
  let s := set_local_loss_mode false s in
  let s := restore_observer_mode s in
  (s, loss).

(** L512-516, loop body for [i], [i+1], ... ([steps] iterations). *)
Fixpoint grid_loop (steps i : nat) (s : mst) (xl : vec) (best_loss : nat -> fl) (best : vec)
  : mst * vec :=
  match steps with
  | O => (s, best)
  | S k =>
      let cand := fun j => xl j * INR i in
      let '(s, loss) := evaluate_loss s cand in
      let best := vwhere (fun j => flt (loss j) (best_loss j)) cand best in
      let best_loss := fun j => fmin (loss j) (best_loss j) in
      grid_loop k (S i) s xl best_loss best
  end.

(** L509-517 *)
Definition mse_grid_search (s : mst) (xl : vec) : mst * vec :=
  grid_loop (num - 1) 2 s xl (fun _ => PInf) xl.

(** L521-528 [fib_seq]: the entry at index k. *)
Fixpoint fib_pair (n : nat) : nat * nat :=
  match n with O => (0, 1)%nat | S k => let '(a, b) := fib_pair k in (b, (a + b)%nat) end.
Definition fib (n : nat) : nat := fst (fib_pair n).

(** L535-542, [steps] iterations from index [i]; [last] is [torch.where(f1 <= f2, x1, x2)] of the
    previous iteration. *)
Fixpoint fib_loop (steps i : nat) (s : mst) (xl xr L0 Li last : vec) : mst * vec :=
  match steps with
  | O => (s, last)
  | S k =>
      let c := fun j => if Rgt_dec (Li j) (L0 j / 2) then true else false in
      let x1 := vwhere c (fun j => xr j - Li j) (fun j => xl j + Li j) in
      let x2 := vwhere c (fun j => xl j + Li j) (fun j => xr j - Li j) in
      let '(s, f1) := evaluate_loss s x1 in
      let '(s, f2) := evaluate_loss s x2 in
      let xr := vwhere (fun j => fle (f1 j) (f2 j)) x2 xr in
      let xl := vwhere (fun j => fge (f1 j) (f2 j)) x1 xl in
      let r := INR (fib (num - i)) / INR (fib (num - (i - 2))) in
      let Li := fun j => r * (if fne (f1 j) (f2 j) then L0 j else xr j - xl j) in
      let L0 := fun j => xr j - xl j in
      fib_loop k (S i) s xl xr L0 Li (vwhere (fun j => fle (f1 j) (f2 j)) x1 x2)
  end.

(** L519-543; with fewer than two iterations f1 is unbound (None). *)
Definition mse_fib_search (s : mst) (xl xr : vec) : option (mst * vec) :=
  if (num <? 2)%nat then None
  else
    let L0 := fun j => xr j - xl j in
    let Li := fun j => INR (fib (num - 2)) / INR (fib num) * L0 j in
    Some (fib_loop (num - 1) 2 s xl xr L0 Li xl).

Inductive search_method := Grid | Fibonacci.

(** L545-557 [mse_search]; [init] is [mse_init_op] of the viewed input. *)
Definition mse_search (method : search_method) (s : mst) (init : vec) : option (mst * vec) :=
  let base := fun j => init j / INR num in
  match (match method with
         | Grid => Some (mse_grid_search s base)
         | Fibonacci => mse_fib_search s base init
         end) with
  | None => None
  | Some (s, best) => Some (Mst (mods s) (prev s) (Some best), best)
  end.

(** L559-568 [forward]; [own] is the module's own local-loss flag. *)
Definition mse_forward (method : search_method) (own : bool) (s : mst) (init : vec)
  : option (mst * vec) :=
  if negb own then mse_search method s init
  else match candidate s with
       | None => Some (Mst (mods s) (prev s) (Some init), init)
       | Some c => Some (s, c)
       end.

End Search.

(** ** Half-quadratic optimisers *)

Section Hqo.
Variable A : Type.               (* candidates *)
Variable loss : A -> fl.         (* L627-630: quantize with the candidate, mean absolute error *)

(** L617-654 (scale) and L715-748 (zero point) [parameter_search]; [next beta c] is the closed-form
    update, [kappa] the growth of beta.  Returns the best candidate and the final beta. *)
Fixpoint hqo_loop (next : R -> A -> A) (kappa : R) (iters : nat) (beta : R) (c : A)
    (best_loss : fl) (best : A) : A * R :=
  match iters with
  | O => (best, beta)
  | S k =>
      let l := loss c in
      let best := if flt l best_loss then c else best in
      if fge l best_loss then (best, beta)
      else hqo_loop next kappa k (beta * kappa) (next beta c) (fmin l best_loss) best
  end.
Definition hqo_search (next : R -> A -> A) (kappa : R) (iters : nat) (beta : R) (init : A) : A * R :=
  hqo_loop next kappa iters beta init PInf init.
End Hqo.

(** L656-666 [HalfQuadraticOptimizerScale.optimize]: beta is a local copy, the attribute keeps its
    value.  L750-760 [HalfQuadraticOptimizerZeroPoint.optimize]: [self.beta] itself is multiplied
    (L747).  Both as functions from the attribute to (best candidate, attribute afterwards). *)
Definition hqo_scale_optimize {A} (loss : A -> fl) next kappa iters (beta : R) (init : A) : A * R :=
  (fst (hqo_search A loss next kappa iters beta init), beta).
Definition hqo_zero_point_optimize {A} (loss : A -> fl) next kappa iters (beta : R) (init : A) : A * R :=
  hqo_search A loss next kappa iters beta init.

(** One element of the scale update (L636-646 before the median): [v] is the dequantized value,
    [w] the shrunk error W_e. *)
Definition hqo_scale_ratio (x w v scale zp : R) : R :=
  let num := x - w in
  let den := (roundR (v / scale) - zp) in
  num / den.

(** One element of the zero-point update (L727-741): opposite sign, scaled. *)
Definition hqo_zero_point_value (x w v scale zp : R) : R :=
  let qt_int := v / scale + zp in
  (x - w) - qt_int * scale.

(** L801-806 [shrink_lp_op] for lp_norm = 1. *)
Definition shrink_l1 (x beta : R) : R :=
  (if Rlt_dec 0 x then 1 else if Rlt_dec x 0 then -1 else 0) * Rmax (Rabs x - 1 / beta) 0.
