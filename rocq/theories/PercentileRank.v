(** The ranks of src/brevitas/core/stats/stats_op.py L71, L79, L105, L113, L141-143, L152-154
    evaluated in Python's double precision: every product and sum is the exact result rounded
    to nearest even (Flocq; overflow does not occur for percentages and tensor sizes). *)
From Coq Require Import Reals ZArith.
From Flocq Require Import Core.
Open Scope R_scope.

Definition rnd : R -> R := round radix2 (FLT_exp (-1074) 53) ZnearestE.
(** .01 * q * n *)
Definition frac (q : R) (n : Z) : R := rnd (rnd (rnd (/ 100) * q) * IZR n).
(** int(math.floor(.01 * q * n + 0.5)) *)
Definition rank_high_fl (q : R) (n : Z) : Z := Zfloor (rnd (frac q n + / 2)).
(** int(math.ceil(.01 * q * n)) *)
Definition rank_low_fl (q : R) (n : Z) : Z := Zceil (frac q n).
