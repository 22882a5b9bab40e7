(** Model of src/brevitas/nn/hadamard_classifier.py [HadamardClassifier].

    Real arithmetic. The input is a matrix with one row per sample (further leading dimensions
    are flattened); scale, zero point and bit width of a quantized input are per tensor and the
    bit width is a whole number. dtype, device and tracing are left out, and so is the rounding
    of [math.log(..., 2)], which can only enlarge the matrix ([C110_size]). *)
From Coq Require Import Reals List Bool Arith ZArith Lia.
Import ListNotations.
Open Scope R_scope.

(** scipy.linalg.hadamard(2 ** k): repeated doubling [[H, H], [H, -H]]. *)
Fixpoint hadamard (k : nat) : list (list Z) :=
  match k with
  | O => [[1%Z]]
  | S k' => map (fun r => r ++ r) (hadamard k') ++ map (fun r => r ++ map Z.opp r) (hadamard k')
  end.

(** hadamard_classifier.py L33-35 and L50: the buffer of size 2 ** k cut to
    [:out_channels, :in_channels]. *)
Definition proj_of (k n_in n_out : nat) : list (list Z) := map (firstn n_in) (firstn n_out (hadamard k)).
Definition size_exponent (n_in n_out : nat) : nat := Nat.log2_up (Nat.max n_in n_out).

(** L24-41 [__init__]; [hc_scale] is a buffer or a Parameter. *)
Record classifier := HC { hc_in : nat; hc_out : nat; hc_scale : R; hc_return_qt : bool }.
Definition hadamard_init (n_in n_out : nat) (return_qt : bool) : classifier :=
  HC n_in n_out (1 / sqrt (INR n_out)) return_qt.
Definition hc_proj (l : classifier) : list (list Z) := proj_of (size_exponent (hc_in l) (hc_out l)) (hc_in l) (hc_out l).
Definition hc_eps : R := / 100000000.

Fixpoint rsum (l : list R) : R := match l with [] => 0 | x :: l' => x + rsum l' end.
Fixpoint dotz (h : list Z) (x : list R) : R :=
  match h, x with
  | a :: h', b :: x' => IZR a * b + dotz h' x'
  | _, _ => 0
  end.

(** [value.norm(p='fro', keepdim=True)]: over the whole tensor. *)
Definition fro (v : list (list R)) : R := sqrt (rsum (map (fun r => rsum (map (fun x => x * x) r)) v)).

(** What the layer can be called with. *)
Inductive input :=
| Plain (v : list (list R))
| IntQ (v : list (list R)) (scale zero_point : R) (bit_width : Z)
| FloatQ (v : list (list R)).

Record intqt := IQ { q_value : list (list R); q_scale : R; q_zp : R; q_bw : Z; q_signed : bool }.

(** L68-72 [max_output_bit_width]. *)
Definition max_output_bit_width (l : classifier) (bw : Z) : Z := Z.log2_up ((2 ^ bw - 1) * Z.of_nat (hc_in l)).

(** L43-66 [forward]. None for any exception: a plain Tensor has no [.value]; without
    return_quant_tensor the test of L55 is [False.any()]; other inputs leave the scale None,
    which [IntQuantTensor] refuses; rows of another length do not fit the matrix. *)
Definition forward (l : classifier) (inp : input) : option intqt :=
  match inp with
  | Plain _ => None
  | FloatQ _ => None
  | IntQ v s zp bw =>
      let norm := fro v + hc_eps in
      if forallb (fun r => Nat.eqb (length r) (hc_in l)) v then
        if hc_return_qt l then
          if Req_EM_T zp 0 then
            Some (IQ (map (fun r => map (fun h => - hc_scale l * dotz h (map (fun x => x / norm) r)) (hc_proj l)) v)
                     (s * hc_scale l / norm) zp (max_output_bit_width l bw) true)
          else None
        else None
      else None
  end.

(** L74-78 [state_dict] and L80-87 [_load_from_state_dict] inside a strict [load_state_dict]:
    [proj] is neither written nor required. *)
Definition state_dict (l : classifier) : R := hc_scale l.
Definition load_state_dict (l : classifier) (scale : R) : classifier := HC (hc_in l) (hc_out l) scale (hc_return_qt l).
