(** Small vocabulary for projections and paths. *)
From Coq Require Import Reals.
From Verif Require Import ZLib Csum SpecHamiltonian.
Local Open Scope R_scope.

(** The sum of the products of the entries of two lists. *)
Fixpoint list_dot (p q : list R) : R :=
  match p, q with
  | a :: p, b :: q => a * b + list_dot p q
  | _, _ => 0
  end.

(** Vector [j] is a combination of the vectors before it. *)
Definition depends_on_earlier (nd : nat) (v : nat -> nat -> R) (j : nat) : Prop :=
  exists k : nat -> R, forall c, (c < nd)%nat -> v j c = rsum (fun i => k i * v i c) j.

(** Component [c] of the grid point with integer coordinates [z] (one per axis). *)
Definition lattice_point (shape : list nat) (delta : nat -> nat -> R) (z : nat -> Z) (c : nat) : R :=
  rsum (fun a => IZR (z a) / INR (nth a shape 0%nat) * delta a c) (length shape).

(** Euclidean distance. *)
Definition distance (nd : nat) (p q : nat -> R) : R := sqrt (rsum (fun c => (p c - q c) ^ 2) nd).
