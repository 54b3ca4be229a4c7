(** Vocabulary for the statements about Brillouin zones. *)
From Coq Require Import Reals ZArith List.
From Verif Require Import ZLib Csum SpecReal SpecHamiltonian.
Import ListNotations.
Local Open Scope R_scope.

(** A three dimensional crystal: grid points per lattice vector, the lattice vectors, and
    the momentum of every integer index: its phase advances by 2 pi idx_a along lattice
    vector a.  Momenta whose indices differ by multiples of the grid shape agree on the
    grid. *)
Definition momentum_of (delta : nat -> nat -> R) (idx : list Z) (q : nat -> R) : Prop :=
  forall a, (a < 3)%nat -> dot 3 q (delta a) = 2 * PI * IZR (nth a idx 0%Z).

Definition crystal (shape : list nat) (delta : nat -> nat -> R) (q : list Z -> nat -> R) : Prop :=
  length shape = 3%nat /\ Forall (fun n => (0 < n)%nat) shape /\
  forall idx, momentum_of delta idx (q idx).

(** What [np.linalg.inv] returns for the lattice vectors and for the grid spacings. *)
Definition inverses (shape : list nat) (delta inv binv : nat -> nat -> R) : Prop :=
  is_inverse 3 delta inv /\ is_inverse 3 (fun a c => delta a c / INR (nth a shape 0%nat)) binv.

(** Squared length of a momentum. *)
Definition length2 (v : nat -> R) : R := dot 3 v v.

(** The index of reciprocal lattice vector [m], and an index moved back by it. *)
Definition lattice_index (shape : list nat) (m : list Z) : list Z :=
  map (fun a => (Z.of_nat (nth a shape 0%nat) * nth a m 0%Z)%Z) (seq 0 3).
Definition moved_back (shape : list nat) (idx m : list Z) : list Z :=
  map (fun a => (nth a idx 0%Z - Z.of_nat (nth a shape 0%nat) * nth a m 0%Z)%Z) (seq 0 3).

(** How far the momentum lies beyond the plane halfway to lattice vector [m]. *)
Definition beyond (shape : list nat) (q : list Z -> nat -> R) (idx m : list Z) : R :=
  (length2 (q idx) - length2 (q (moved_back shape idx m))) / (2 * sqrt (length2 (q (lattice_index shape m)))).

(** The 26 lattice vectors with coefficients -1, 0 or 1, in the order 0, 1, -1 per axis. *)
Definition neighbour (m : list Z) : Prop :=
  length m = 3%nat /\ Forall (fun z => (-1 <= z <= 1)%Z) m /\ m <> [0; 0; 0]%Z.
Definition rank (m : list Z) : Z :=
  (9 * (nth 0 m 0 mod 3) + 3 * (nth 1 m 0 mod 3) + nth 2 m 0 mod 3)%Z.

(** [t] is a hundred thousandth of the shortest grid spacing in momentum. *)
Definition tolerance (q : list Z -> nat -> R) (t : R) : Prop :=
  let steps := map (fun e => sqrt (length2 (q e))) [[1; 0; 0]; [0; 1; 0]; [0; 0; 1]]%Z in
  In (100000 * t) steps /\ Forall (fun s => 100000 * t <= s) steps.

(** Exactly [c] reciprocal lattice points are nearer to the momentum than the origin is:
    the momentum lies in zone c + 1. *)
Definition crossed (shape : list nat) (q : list Z -> nat -> R) (idx : list Z) (c : nat) : Prop :=
  exists L : list (list Z), NoDup L /\ length L = c /\
    forall m, In m L <-> length m = 3%nat /\ length2 (q (moved_back shape idx m)) < length2 (q idx).

(** One application of [f], repeated. *)
Fixpoint repeated {A} (f : A -> option A) (n : nat) (x : A) : option A :=
  match n with O => Some x | S n' => match f x with None => None | Some y => repeated f n' y end end.
