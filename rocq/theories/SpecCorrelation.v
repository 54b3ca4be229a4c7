(** Vocabulary for the statements about kernels built from a correlation function. *)
From Coq Require Import Reals.
From Verif Require Import ZLib Csum Lattice.
Local Open Scope R_scope.

(** Component [c] of the position of the grid point with index [x]: x_a / n_a along lattice
    vector a. *)
Definition grid_point (delta : nat -> nat -> R) (shape x : list nat) (c : nat) : R :=
  rsum (fun a => INR (nth a x 0%nat) / INR (nth a shape 0%nat) * delta a c) (length shape).

(** [r] is the distance between the grid points [x] and [y] of the periodic cell: the smallest
    distance between [x] and any periodic image of [y]. *)
Definition image_distance (delta : nat -> nat -> R) (shape x y : list nat) (z : nat -> Z) : R :=
  norm (length shape) (fun c => grid_point delta shape x c - grid_point delta shape y c
                                + rsum (fun a => IZR (z a) * delta a c) (length shape)).
Definition periodic_distance (delta : nat -> nat -> R) (shape x y : list nat) (r : R) : Prop :=
  (exists z, r = image_distance delta shape x y z) /\
  forall z, r <= image_distance delta shape x y z.

(** Lattice vector a points along coordinate a. *)
Definition aligned (nd : nat) (delta : nat -> nat -> R) : Prop :=
  forall a c, (a < nd)%nat -> (c < nd)%nat -> (delta a c <> 0 <-> a = c).

(** [L] is the length of the shortest of [nd] lattice vectors. *)
Definition shortest (nd : nat) (delta : nat -> nat -> R) (L : R) : Prop :=
  (exists a, (a < nd)%nat /\ L = norm nd (delta a)) /\
  forall a, (a < nd)%nat -> L <= norm nd (delta a).
