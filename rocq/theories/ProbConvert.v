(** Conversions of probability vectors and the axes of a list of them. *)
From Coq Require Import Reals.
From Verif Require Import ZLib Csum DFT NumPy Index Basis Operator StateList VolumeBasis.
Local Open Scope nat_scope.

(** probability_vector/conversion.py:36-54 [convert_probability_vector_to_basis]: the data are
    converted as amplitudes.  The data are float64; the model applies when no axis object of the
    basis is used again in the target (convert_real in Basis.v has the other case). *)
Definition convert_probability_vector_to_basis (same : basis -> basis -> bool) (b0 : basis) (p : nat -> R) (b1 : basis)
  : option (nat -> C) :=
  match convert same b0 b1 with Some F => Some (F (fun k => RtoC (p k))) | None => None end.

(** 57-80 [convert_probability_vector_list_to_basis]: the data in rows, each converted along the
    last axis, flattened. [total] is the number of entries of the data. *)
Definition convert_probability_vector_list_to_basis (same : basis -> basis -> bool) (n : nat) (b0 : basis) (total : nat)
  (p : nat -> R) (b1 : basis) : option (nat -> C) :=
  if total =? n * bsize b0 then
    match convert same b0 b1 with
    | Some F => Some (fun t => F (fun k => RtoC (p (t / bsize b1 * bsize b0 + k))) (t mod bsize b1))
    | None => None
    end
  else None.

(** 83-101 [convert_probability_vector_to_position_basis], 104-122
    [convert_probability_vector_to_momentum_basis]; the forms are new objects. *)
Definition convert_probability_vector_to_position_basis (same : basis -> basis -> bool) (axes : list length_axis) (p : nat -> R)
  : option (list length_axis * (nat -> C)) :=
  match stacked_basis_as_fundamental_position_basis axes with
  | Some q => match convert_probability_vector_to_basis same (stacked axes) p (stacked q) with
              | Some r => Some (q, r) | None => None end
  | None => None
  end.
Definition convert_probability_vector_to_momentum_basis (same : basis -> basis -> bool) (axes : list length_axis) (p : nat -> R)
  : option (list length_axis * (nat -> C)) :=
  match stacked_basis_as_fundamental_momentum_basis axes with
  | Some q => match convert_probability_vector_to_basis same (stacked axes) p (stacked q) with
              | Some r => Some (q, r) | None => None end
  | None => None
  end.

(** numpy indexing by integers and [slice(None)]: the shape of the result; IndexError for too many
    indices or an index out of range. *)
Fixpoint index_shape (shape : list nat) (sl : list (option nat)) : option (list nat) :=
  match sl, shape with
  | [], _ => Some shape
  | None :: sl, n :: shape => match index_shape shape sl with Some r => Some (n :: r) | None => None end
  | Some i :: sl, n :: shape => if i <? n then index_shape shape sl else None
  | _ :: _, [] => None
  end.

(** probability_vector/probability_vector.py:99-130 [get_probability_along_axis]: [shape0] is the
    shape of the list basis, [n1] the number of states; [axes] and [idx] hold natural numbers.
    The data have the two-dimensional shape (product of shape0, n1), while the slice is built for
    one axis per axis of the list; IndexError and the ValueErrors of transpose and of reshape are
    [None].  The result is the final shape of the basis and the data. *)
Definition get_probability_along_axis (shape0 : list nat) (n1 : nat) (p : nat -> R) (axes : list nat) (idx : option (list nat))
  : option (list nat * (list nat * (nat -> R))) :=
  let ndim := length shape0 in
  let idx := match idx with None => repeat 0 (ndim - 2) | Some i => i end in
  let final := map (fun i => nth i shape0 0) (filter (fun i => existsb (Nat.eqb i) axes) (seq 0 ndim)) in
  let sl := slice_ignoring_axes idx (axes ++ [ndim]) in
  let perm := get_position_in_sorted (axes ++ [ndim]) in
  let data2 := [nprod shape0; n1] in
  match index_shape data2 sl with
  | Some sh =>
      if length perm =? length sh then
        let tsh := map (fun m => nth m sh 0) perm in
        let total := nprod tsh in
        if (0 <? nprod final) && (total mod nprod final =? 0) then
          Some (final ++ [n1], (final ++ [total / nprod final],
            fun t => get_data_in_axes (fun i => p (ravel data2 i)) (axes ++ [ndim]) idx (unravel tsh t)))
        else None
      else None
  | None => None
  end.
