(** Vocabulary for lines along paths. *)
From Coq Require Import Reals List ZArith.
From Verif Require Import ZLib Csum NumPy Spec SpecPaths VolumeBasis SpecVolumeBasis.
Import ListNotations.

(** [full] is the point of the grid that the integers [point] are repeats of. *)
Definition repeat_of (shape : list nat) (point : nat -> Z) (full : list nat) : Prop :=
  in_shape full shape /\ forall a, (a < length shape)%nat -> Zcong (Z.of_nat (nth a shape 0%nat)) (point a) (Z.of_nat (nth a full 0%nat)).

(** [full] has coordinate [i] along axis [a] and the coordinates of [other] along the others. *)
Definition moved_along (a i : nat) (other full : list nat) : Prop :=
  length full = length other /\ nth a full 0%nat = i /\ forall b, b <> a -> nth b full 0%nat = nth b other 0%nat.

(** [x] are the lengths of a path of [n] points up to each point: sums of distances between
    successive points of the grid or, wrapped, of the lengths of steps that differ from the
    path's by whole repeats and are at most half the cell along every axis. *)
Local Open Scope R_scope.
Definition drawn_at (axes : list length_axis) (n : nat) (path : nat -> nat -> Z) (wrap : bool) (x : nat -> R) : Prop :=
  let nd := length axes in let F := fundamental_shape axes in
  if wrap then
    exists s : nat -> nat -> Z,
      (forall a j, (a < nd)%nat -> (- Z.of_nat (nth a F 0%nat) <= 2 * s a j < Z.of_nat (nth a F 0%nat))%Z /\
         exists k : Z, s a j = (path a j - path a (S j) + k * Z.of_nat (nth a F 0%nat))%Z) /\
      forall i, (i < n)%nat -> x i = rsum (fun j => distance nd (lattice_point F (lattice_of axes) (fun a => s a j)) (fun _ => 0)) i
  else forall i, (i < n)%nat -> x i =
    rsum (fun j => distance nd (lattice_point F (lattice_of axes) (fun a => path a j)) (lattice_point F (lattice_of axes) (fun a => path a (S j)))) i.
