(** Model of the packing of integer weights into bytes:
    src/brevitas_examples/llm/llm_quant/export.py [LinearWeightBlockQuantHandler.pack_int_weights].

    One row of the weight matrix (the code treats rows alike); an int8 or uint8 element is given by
    its code, a packed one by its byte (0 to 255).  An exception is [None]. *)
From Coq Require Import ZArith List Bool.
Import ListNotations.
Open Scope nat_scope.

(** ** Two and four bits: L158-171.  [shl8]: torch's shift on eight-bit integers wraps around. *)
Definition shl8 (w : Z) (s : nat) : Z := ((w * 2 ^ Z.of_nat s) mod 256)%Z.
Definition pack_shift (bit_width : nat) (row : list Z) : list Z :=
  map (fun column =>
         let i := column * (8 / bit_width) in
         fold_left (fun acc j => Z.lor acc (shl8 (nth (i + j) row 0%Z) (bit_width * j))) (seq 0 (8 / bit_width)) 0%Z)
      (seq 0 (length row * bit_width / 8)).

(** ** Three, five and six bits: L173-206 *)
(** numpy.unpackbits on one byte (most significant bit first), and numpy.packbits (zeros fill the
    last byte). *)
Fixpoint bits (k : nat) (z : Z) : list bool :=
  match k with 0 => [] | S k' => Z.testbit z (Z.of_nat k') :: bits k' z end.
Definition unpackbits (w : Z) : list bool := bits 8 (w mod 256).
Definition byte (l : list bool) : Z := fold_left (fun acc b => (2 * acc + Z.b2z b)%Z) l 0%Z.
Fixpoint packbits_n (m : nat) (l : list bool) : list Z :=
  match m with 0 => [] | S m' => byte (firstn 8 (l ++ repeat false 8)) :: packbits_n m' (skipn 8 l) end.
Definition packbits (l : list bool) : list Z := packbits_n ((length l + 7) / 8) l.

Definition num_packed_bits (bw : nat) : nat := bw * 8 / Nat.gcd bw 8.
Definition num_packed_bytes (bw : nat) : nat := num_packed_bits bw / 8.
Definition num_packed_elems (bw : nat) : nat := num_packed_bits bw / bw.

(** L197-204 on one group of columns: [left] columns of the result are left.  The in-place
    disjunction needs equal widths, or one column that is broadcast. *)
Definition pack_group (bw left : nat) (row : list Z) : option (list Z) :=
  let unpacked := flat_map (fun w => skipn (8 - bw) (unpackbits w)) (firstn (num_packed_elems bw) row) in
  let packed := packbits unpacked in
  let width := Nat.min (num_packed_bytes bw) left in
  if Nat.eqb (length packed) width then Some packed
  else match packed with [b] => Some (repeat b width) | _ => None end.
Fixpoint pack_loop (steps bw left : nat) (row : list Z) : option (list Z) :=
  match steps with
  | 0 => Some []
  | S steps' =>
      match pack_group bw left row with
      | None => None
      | Some p => match pack_loop steps' bw (left - num_packed_bytes bw) (skipn (num_packed_elems bw) row) with
                  | None => None
                  | Some l => Some (p ++ l)
                  end
      end
  end.
Definition packed_width (bw n : nat) : nat :=
  let padding := (n * bw) mod 8 in (n * bw + padding) / 8.
Definition pack_bits (bw : nat) (row : list Z) : option (list Z) :=
  let width := packed_width bw (length row) in
  pack_loop ((width + num_packed_bytes bw - 1) / num_packed_bytes bw) bw width row.

(** L154-208.  [fractions_gcd]: fractions.gcd can be imported (L186), that is, Python is older
    than 3.9. *)
Definition pack_int_weights (fractions_gcd : bool) (bit_width : nat) (row : list Z) : option (list Z) :=
  match bit_width with
  | 8 => Some (map (fun w => w mod 256)%Z row)
  | 4 | 2 => Some (pack_shift bit_width row)
  | 3 | 5 | 6 => if fractions_gcd then pack_bits bit_width row else None
  | _ => None
  end.
