(** Model of the real-valued wrapping functions of stacked_basis/util.py and
    operator/build.py.  Exact real arithmetic.  No proofs here. *)
From Coq Require Import Reals.
From Verif Require Import ZLib Csum.
Local Open Scope R_scope.

(** [np.mod] / [np.remainder] with a positive modulus: x - floor(x/m)*m. *)
Definition rmod (x m : R) : R := x - IZR (Int_part (x / m)) * m.

(** stacked_basis/util.py:229-230 [_wrap_distance]. *)
Definition wrap_distance (d len origin : R) : R :=
  rmod (d - origin + len / 2) len + origin - len / 2.

(** [np.tensordot(m, p, axes=(0, 0))] for a matrix and a vector:
    out[a] = sum_c m[c][a] p[c]. *)
Definition tensordot00 (nd : nat) (m : nat -> nat -> R) (p : nat -> R) : nat -> R :=
  fun a => rsum (fun c => m c a * p c) nd.

(** stacked_basis/util.py:307-348 [wrap_x_point_around_origin] for one point.
    [delta a c] is component c of lattice vector a (delta_x_stacked); [inv] is
    what [np.linalg.inv(delta_x_stacked)] returned. *)
Definition wrap_x_point_around_origin (nd : nat) (delta inv : nat -> nat -> R)
    (point : nat -> R) (origin : option (nat -> R)) : nat -> R :=
  let origin := match origin with None => fun _ => 0 | Some o => o end in
  let distance_along_axes := tensordot00 nd inv point in
  let origin_along_axes := tensordot00 nd inv origin in
  let wrapped := fun a => wrap_distance (distance_along_axes a) 1 (origin_along_axes a) in
  tensordot00 nd delta wrapped.

(** operator/build.py:41-47 [_wrap_displacements]. *)
Definition wrap_displacements (d max : R) : R := rmod (d + max) (2 * max) - max.

(** Euclidean length, [np.linalg.norm] of a vector. *)
Definition norm (nd : nat) (v : nat -> R) : R := sqrt (rsum (fun c => v c * v c) nd).

(** basis/util.py:161-164 [x_points] of a 1-D position basis with
    [delta_x = [len]] and n points: point i sits at (len / n) * i. *)
Definition x_point_1d (len : R) (n i : nat) : R := len / INR n * INR i.

(** operator/build.py:50-68 [get_displacements_x] for a basis with one spatial
    component ([delta_x = [len]]). *)
Definition displacements_x (len : R) (n : nat) (origin : R) (i : nat) : R :=
  wrap_displacements (x_point_1d len n i - origin) (norm 1 (fun _ => len) / 2).

(** basis/util.py [x_points_stacked]: component [axis] of the point with stacked
    index [idx]: sum_a idx[a]/n_a * delta[a][axis]. *)
Definition x_point_stacked (nd : nat) (delta : nat -> nat -> R) (shape idx : nat -> nat)
    (axis : nat) : R :=
  rsum (fun a => INR (idx a) / INR (shape a) * delta a axis) nd.

(** operator/build.py:71-83 [_get_displacements_x_along_axis] at the point with
    stacked index [idx]. *)
Definition displacements_x_along_axis (nd : nat) (delta : nat -> nat -> R)
    (shape idx : nat -> nat) (origin : R) (axis : nat) : R :=
  wrap_displacements (x_point_stacked nd delta shape idx axis - origin)
    (norm nd (delta axis) / 2).

(** operator/build.py:176-190 [_get_displacements_matrix_x_along_axis]. *)
Definition displacements_matrix_x_along_axis (nd : nat) (delta : nat -> nat -> R)
    (shape idx idx' : nat -> nat) (origin : R) (axis : nat) : R :=
  wrap_displacements
    (x_point_stacked nd delta shape idx axis - x_point_stacked nd delta shape idx' axis - origin)
    (norm nd (delta axis) / 2).

(** operator/build.py:150-173 [get_displacements_matrix_x] for a basis with one
    spatial component.  [x_points] has shape (1, n) (basis/util.py:161-164), so
    [x_points[:, np.newaxis] - x_points[np.newaxis, :]] broadcasts (1,1,n) with
    (1,1,n): entry (0,0,k) is x_k - x_k.  Returned: the shape of the array
    before any reshape, and its entries. *)
Definition displacements_matrix_x_shape (n : nat) : list nat := [1; 1; n]%nat.
Definition displacements_matrix_x (len : R) (n : nat) (origin : R) (k : nat) : R :=
  let max_distance := norm 1 (fun _ => len) / 2 in
  rmod (x_point_1d len n k - x_point_1d len n k - origin + len) max_distance - max_distance.
