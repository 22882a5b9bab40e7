(** Model of the initialisation of accumulator-aware quantizers by Euclidean projection:
    src/brevitas_examples/imagenet_classification/a2q/ep_init.py.

    Exact rational arithmetic.  A vector is a list; a raised exception is [None]. *)
From Coq Require Import List Bool.
From Verif Require Import QUtil Ops QuantTensor A2Q.
Import ListNotations.
Open Scope Q_scope.

(** numpy's sort, reversed (L36), and cumsum (L37). *)
Fixpoint insert (x : Q) (l : list Q) : list Q :=
  match l with [] => [x] | y :: l' => if Qle_bool x y then x :: l else y :: insert x l' end.
Fixpoint sort (l : list Q) : list Q := match l with [] => [] | x :: l' => insert x (sort l') end.
Fixpoint cumsum (acc : Q) (l : list Q) : list Q := match l with [] => [] | x :: l' => (acc + x) :: cumsum (acc + x) l' end.
Fixpoint minimum (x : Q) (l : list Q) : Q := match l with [] => x | y :: l' => torch_min x (minimum y l') end.

(** L25-42 [_euclidean_projection_onto_positive_simplex].  The minimum of an empty vector
    raises; so does the index -1 into an empty list of indices. *)
Definition last_index (l : list nat) : option nat := match l with [] => None | x :: l' => Some (last l' x) end.
Definition simplex (vec : list Q) (radius : Q) : option (list Q) :=
  if Qle_bool radius 0 then None else
  match vec with
  | [] => None
  | x :: vec' =>
      if Qlt_bool (minimum x vec') 0 then None else
      let n_elems := length vec in
      if Qle_bool (Qsum vec) radius then Some vec else
      let u := rev (sort vec) in
      let cumsum_u := cumsum 0 u in
      let holds i := Qlt_bool (nth i cumsum_u 0 - radius) (nth i u 0 * inject_Z (Z.of_nat i + 1)) in
      match last_index (filter holds (seq 0 n_elems)) with
      | None => None
      | Some rho =>
          let theta := (nth rho cumsum_u 0 - radius) / inject_Z (Z.of_nat rho + 1) in
          Some (map (fun v => torch_max (v - theta) 0) vec)
      end
  end.

(** L45-52 [euclidean_projection_onto_l1_ball]. *)
Definition l1_ball (vec : list Q) (radius : Q) : option (list Q) :=
  if Qle_bool radius 0 then None else
  let vec_dir := map (fun x => inject_Z (sgnZ x)) vec in
  obind (simplex (map Qabs vec) radius) (fun vec_mag =>
  Some (map (fun p => fst p * snd p) (combine vec_dir vec_mag))).

(** L55-72 [l1_proj_matrix_per_channel]; the matrix as a list of rows. *)
Inductive radius_t := PerTensor (r : Q) | PerChannel (l : list Q).
Fixpoint rows (ws : list (list Q)) (rs : list Q) : option (list (list Q)) :=
  match ws, rs with
  | [], _ => Some []
  | w :: ws', r :: rs' => obind (l1_ball w r) (fun v => obind (rows ws' rs') (fun vs => Some (v :: vs)))
  | _ :: _, [] => None
  end.
Definition l1_proj_matrix_per_channel (ws : list (list Q)) (radius : radius_t) : option (list (list Q)) :=
  match radius with
  | PerTensor r => rows ws (map (fun _ => r) ws)
  | PerChannel l => if Nat.eqb (length l) (length ws) then rows ws l else None
  end.

(** L75-131 [apply_ep_init] on one output channel of one layer: the hook (L85-106) caps the stored
    norm of every accumulator-aware layer, given without restriction as by the default
    quantizers; the weights are projected for these classes only (L121-126).  [s]: the scale, [T]:
    the bound [calc_max_l1_norm], [v]: the stored norm, [w]: the weights the quantizer received. *)
Inductive layer_class := LConv1d | LConv2d | LLinear | LConvTranspose2d.
Definition projected (c : layer_class) : bool := match c with LConv2d | LLinear => true | _ => false end.
Definition ep_channel (c : layer_class) (T s v : Q) (w : list Q) : option (list Q * Q) :=
  let z := s * T in
  let v' := if Qle_bool v z then v else z in
  if projected c then obind (l1_ball w z) (fun w' => Some (w', v')) else Some (w, v').
