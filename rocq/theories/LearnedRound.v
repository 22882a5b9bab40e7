(** Model of learned and stochastic rounding:
    src/brevitas/core/function_wrapper/{learned_round,stochastic_round}.py and the initialisation
    in src/brevitas_examples/imagenet_classification/ptq/learned_round_utils.py.
    One element at a time, real arithmetic.  The tensor slicer (whole tensor outside
    sub-layer optimisation) is not modelled. *)
From Coq Require Import ZArith Reals Lra.
From Verif Require Import Ste.
Local Open Scope R_scope.

Definition sigmoid (x : R) : R := / (1 + exp (- x)).

(** learned_round.py L18-35 [LearnedRoundHardSigmoid]. *)
Definition hard_sigmoid (zeta gamma x : R) : R :=
  let p := sigmoid x in
  let p := p * (zeta - gamma) + gamma in
  torch_clamp p 0 1.

(** learned_round.py L38-52 [LearnedRoundSigmoid]. *)
Definition temp_sigmoid (temperature x : R) : R := sigmoid (x / temperature).

(** learned_round.py L79-85 [p_forward]; [impl] is the learned_round_impl. *)
Definition p_forward (impl : R -> R) (training : bool) (value : R) : R :=
  if training then impl value else if Rlt_dec 0 value then 1 else 0.

(** learned_round.py L73-77 [LearnedRoundSte.forward]. *)
Definition learned_round (impl : R -> R) (training : bool) (value x : R) : R :=
  let p := p_forward impl training value in
  floorR x + p.

(** learned_round_utils.py L138-150 [insert_learned_round_quantizer]: the initial value for a
    weight [w] with scale [s]. *)
Definition learned_round_init (zeta gamma w s : R) : R :=
  let floor_weight := floorR (w / s) in
  let delta := w / s - floor_weight in
  - ln ((zeta - gamma) / (delta - gamma) - 1).

(** torch.bernoulli(p): one if a uniform draw from [0, 1) is below p. *)
Definition bernoulli (p u : R) : bool := if Rlt_dec u p then true else false.

(** stochastic_round.py L9-26. *)
Definition stochastic_round (u x : R) : R :=
  let floor_x := floorR x in
  let x_diff := Rabs (x - floor_x) in
  let prob := bernoulli x_diff u in
  if prob then floor_x + 1 else floor_x.

(** stochastic_round.py L43-47 [StochasticRoundSte.forward]. *)
Definition stochastic_round_ste (deterministic_inference training : bool) (u x : R) : R :=
  if andb deterministic_inference (negb training) then roundR x else stochastic_round u x.
