(** Model of stacked_basis/brillouin_zone.py.

    A basis with volume enters through its shape, its lattice vectors ([delta a c]:
    component c of lattice vector a) and what [np.linalg.inv] returned for the two
    matrices it is called on.  Distances are exact reals.  Coordinates are integer stacked
    indices; the vectorised functions act on each point separately, so they are modelled
    for one point (arrays of points: the same function mapped over the array). *)
From Coq Require Import Reals ZArith List Arith.
From Verif Require Import ZLib Csum NumPy Index Lattice Hamiltonian.
Import ListNotations.
Local Open Scope R_scope.

(** basis/util.py:343-351 [get_k_points_at_index] of a stacked index:
    [np.tensordot(dk_stacked, nk_points, axes=(0, 0))], component [c]. *)
Definition k_point_at_index (nd : nat) (inv : nat -> nat -> R) (idx : list Z) : nat -> R :=
  tensordot00 nd (dk_stacked inv) (fun a => IZR (nth a idx 0%Z)).

(** basis/util.py:149-152 [dx] and 416-420 [dx_stacked]: lattice vector a over n_a. *)
Definition dx_stacked (shape : list nat) (delta : nat -> nat -> R) (a c : nat) : R :=
  delta a c / INR (nth a shape 0%nat).

(** 89-113 [get_bragg_point_basis]: its shape, (2 n_bands + 1) along every axis; its
    lattice vectors are [dx_stacked]. *)
Definition bragg_point_shape (shape : list nat) (n_bands : nat) : list nat :=
  map (fun _ => (2 * n_bands + 1)%nat) shape.

(** 116-138 [get_all_brag_point_index]: stacked index of every bragg point. *)
Definition all_bragg_point_index (shape : list nat) (n_bands : nat) : list (list Z) :=
  let width := bragg_point_shape shape n_bands in
  map (fun i => map (fun a => (Z.of_nat (nth a shape 0%nat) * stacked_nk_points width a i)%Z)
                    (seq 0 (length shape)))
      (seq 0 (nprod width)).

(** 141-159 [get_all_brag_point]: the fundamental momenta of the bragg point basis.
    [binv] is the inverse of its lattice vectors. *)
Definition all_bragg_point (shape : list nat) (binv : nat -> nat -> R) (n_bands : nat) : list (nat -> R) :=
  let width := bragg_point_shape shape n_bands in
  map (fun i c => fundamental_stacked_k_points width binv c i) (seq 0 (nprod width)).

(** 53-86 [fold_point_in_bragg_plane]: components 0, 1 and 2 only; a missing component
    raises IndexError. *)
Definition fold_point_in_bragg_plane (bragg_point coordinate : list Z) : option (list Z) :=
  match bragg_point, coordinate with
  | b0 :: b1 :: b2 :: _, c0 :: c1 :: c2 :: _ => Some [(c0 - b0)%Z; (c1 - b1)%Z; (c2 - b2)%Z]
  | _, _ => None
  end.

(** 178-201 [get_bragg_plane_distance]. *)
Definition bragg_plane_distance (nd : nat) (bragg_point point : nat -> R) : R :=
  let bragg_point_norm := norm nd bragg_point in
  rsum (fun c => bragg_point c / bragg_point_norm * point c) nd - bragg_point_norm / 2.

(** [np.min] of a non-empty list of reals (ValueError for an empty one). *)
Fixpoint rmin (l : list R) : option R :=
  match l with
  | [] => None
  | x :: l' => match rmin l' with None => Some x | Some y => Some (Rmin x y) end
  end.

(** 204-207 [_get_decrement_tolerance]. *)
Definition decrement_tolerance (nd : nat) (inv : nat -> nat -> R) : option R :=
  option_map (fun m => m * / 100000) (rmin (map (fun a => norm nd (dk_stacked inv a)) (seq 0 nd))).

(** The loop at 248-254 and 314-320: [i] is the number of the next bragg point, [closest]
    and [distance] what has been recorded so far. *)
Fixpoint closest_bragg_point (nd : nat) (tolerance : R) (point : nat -> R) (bragg_points : list (nat -> R))
    (i closest : nat) (distance : R) : nat :=
  match bragg_points with
  | [] => closest
  | bragg_point :: rest =>
      let new_distance := bragg_plane_distance nd bragg_point point in
      if Rlt_dec tolerance new_distance then
        if Rlt_dec new_distance distance
        then closest_bragg_point nd tolerance point rest (S i) i new_distance
        else closest_bragg_point nd tolerance point rest (S i) closest distance
      else closest_bragg_point nd tolerance point rest (S i) closest distance
  end.

(** 290-335 [decrement_brillouin_zone].  The last loop calls [fold_point_in_bragg_plane]
    once for every bragg point (also when no coordinate is folded by it) and writes the
    three components back into the rows of [out]: any number of axes other than three
    raises.  Exactly one iteration acts on a given point.  A coordinate with the wrong number
    of components makes [np.tensordot] raise. *)
Definition decrement_brillouin_zone (shape : list nat) (inv binv : nat -> nat -> R) (coordinate : list Z)
    : option (list Z) :=
  let nd := length shape in
  match decrement_tolerance nd inv with
  | None => None
  | Some tolerance =>
    if negb (length coordinate =? nd)%nat then None else
      let point := k_point_at_index nd inv coordinate in
      let closest := closest_bragg_point nd tolerance point (tl (all_bragg_point shape binv 1)) 1 0 (norm nd point) in
      match nth_error (all_bragg_point_index shape 1) closest with
      | None => None
      | Some bragg_point =>
          match fold_point_in_bragg_plane bragg_point coordinate with
          | None => None
          | Some folded => if (length folded =? length coordinate)%nat then Some folded else None
          end
      end
  end.

(** 224-273 [decrement_brillouin_zone_3d]: the same steps, returning the first three rows. *)
Definition decrement_brillouin_zone_3d (shape : list nat) (inv binv : nat -> nat -> R) (coordinate : list Z)
    : option (list Z) :=
  match decrement_brillouin_zone shape inv binv coordinate with
  | Some (c0 :: c1 :: c2 :: _) => Some [c0; c1; c2]
  | _ => None
  end.
