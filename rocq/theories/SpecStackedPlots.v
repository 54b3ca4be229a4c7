(** Vocabulary for points drawn in a plane. *)
From Coq Require Import Reals ZArith List.
From Verif Require Import ZLib Csum NumPy SpecReal SpecHamiltonian SpecBrillouin.
Import ListNotations.
Local Open Scope R_scope.

(** Neither of two vectors is a multiple of the other. *)
Definition independent (nd : nat) (u v : nat -> R) : Prop :=
  forall x y : R, (forall c, (c < nd)%nat -> x * u c + y * v c = 0) -> x = 0 /\ y = 0.

(** Orthogonal unit vectors spanning the same plane as [u] and [v]: the first along [u], the
    second on the side of [v]. *)
Definition frame (nd : nat) (u v e0 e1 : nat -> R) : Prop :=
  dot nd e0 e0 = 1 /\ dot nd e1 e1 = 1 /\ dot nd e0 e1 = 0 /\
  exists x y z : R, 0 < x /\ 0 < z /\
    forall c, (c < nd)%nat -> u c = x * e0 c /\ v c = y * e0 c + z * e1 c.

(** Where a point is drawn. *)
Definition drawn (nd : nat) (e0 e1 p : nat -> R) : R * R := (dot nd e0 p, dot nd e1 p).

(** The vector of the reciprocal lattice for axis [a]. *)
Definition reciprocal (shape : list nat) (q : list Z -> nat -> R) (a : nat) : nat -> R :=
  q (lattice_index shape (map (fun b => if Nat.eqb a b then 1%Z else 0%Z) (seq 0 3))).

(** The integer indices of the momenta of a grid, in the range of the discrete Fourier transform. *)
Definition fourier_index (shape : list nat) (g : list Z) : Prop :=
  length g = length shape /\
  forall a, (a < length shape)%nat -> (- Z.of_nat (nth a shape 0%nat) <= 2 * nth a g 0 < Z.of_nat (nth a shape 0%nat))%Z.

(** An index for the same momentum up to reciprocal lattice vectors with coefficients of at most
    [k], not further from the origin. *)
Definition folded (k : Z) (shape : list nat) (q : list Z -> nat -> R) (g idx : list Z) : Prop :=
  length idx = 3%nat /\
  (forall a, (a < 3)%nat -> exists z, (Z.abs z <= k)%Z /\ nth a idx 0%Z = (nth a g 0 + Z.of_nat (nth a shape 0%nat) * z)%Z) /\
  length2 (q idx) <= length2 (q g).
