(** What a site of a surface is: points of the plane, taken up to vectors of the lattice. *)
From Coq Require Import Reals ZArith String List.
Import ListNotations.
Local Open Scope R_scope.

Definition plane_point := (R * R)%type.

(** The point with coordinates [(x, y)] in the lattice vectors [a0], [a1]. *)
Definition at_coordinates (a0 a1 : plane_point) (x y : R) : plane_point :=
  (x * fst a0 + y * fst a1, x * snd a0 + y * snd a1).

(** Position of a point of the grid of [n0] by [n1] points of the cell. *)
Definition grid_position (a0 a1 : plane_point) (shape p : Z * Z) : plane_point :=
  at_coordinates a0 a1 (IZR (fst p) / IZR (fst shape)) (IZR (snd p) / IZR (snd shape)).

(** Two points are the same site when they differ by a vector of the lattice. *)
Definition same_site (a0 a1 p q : plane_point) : Prop :=
  exists m0 m1 : Z, fst p = fst q + fst (at_coordinates a0 a1 (IZR m0) (IZR m1)) /\ snd p = snd q + snd (at_coordinates a0 a1 (IZR m0) (IZR m1)).

(** Rotation about [c] by the angle with the given cosine and sine. *)
Definition turn (co si : R) (c p : plane_point) : plane_point :=
  (fst c + co * (fst p - fst c) - si * (snd p - snd c), snd c + si * (fst p - fst c) + co * (snd p - snd c)).

Definition third_turn := turn (cos (2 * PI / 3)) (sin (2 * PI / 3)).
Definition quarter_turn := turn (cos (PI / 2)) (sin (PI / 2)).
Definition half_turn := turn (cos PI) (sin PI).
Definition middle (p q : plane_point) : plane_point := ((fst p + fst q) / 2, (snd p + snd q) / 2).
Definition plane_distance (p q : plane_point) : R := sqrt ((fst p - fst q) ^ 2 + (snd p - snd q) ^ 2).

(** The lattice of a (111) surface, with vectors of length [a] at sixty degrees, and that of a
    (100) surface. *)
Definition hex0 (a : R) : plane_point := (a, 0).
Definition hex1 (a : R) : plane_point := (a / 2, a * sqrt 3 / 2).
Definition square0 (a : R) : plane_point := (a, 0).
Definition square1 (a : R) : plane_point := (0, a).

(** The site a dictionary gives for a name. *)
Fixpoint site_named (name : string) (sites : list (string * (Z * Z))) : option (Z * Z) :=
  match sites with
  | [] => None
  | (s, p) :: sites => if String.eqb s name then Some p else site_named name sites
  end.
