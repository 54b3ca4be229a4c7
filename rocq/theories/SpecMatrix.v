(** Vocabulary for matrices (functions of row and column). *)
From Coq Require Import Reals.
From Verif Require Import ZLib Csum.
Local Open Scope R_scope.
Local Open Scope C_scope.

(** The first [n] rows (of length [m]) are orthonormal; the first [m] columns (of
    length [n]) are orthonormal. *)
Definition orthonormal_rows (n m : nat) (V : nat -> nat -> C) : Prop :=
  forall i j, (i < n)%nat -> (j < n)%nat -> csum (fun x => V i x * Cconj (V j x)) m = cdelta i j.
Definition orthonormal_columns (n m : nat) (V : nat -> nat -> C) : Prop :=
  forall i j, (i < m)%nat -> (j < m)%nat -> csum (fun x => Cconj (V x i) * V x j) n = cdelta i j.
Definition unitary (n : nat) (V : nat -> nat -> C) : Prop := orthonormal_rows n n V /\ orthonormal_columns n n V.

(** x^dagger M x is real and not negative for every x. *)
Definition positive_semidefinite (n : nat) (M : nat -> nat -> C) : Prop :=
  forall x : nat -> C, exists t : R, (0 <= t)%R /\
    csum (fun p => csum (fun q => Cconj (x p) * M p q * x q) n) n = RtoC t.

(** Squared norm of the difference of two vectors. *)
Definition distance2 (n : nat) (u v : nat -> C) : R := rsum (fun k => Cnorm2 (u k - v k)) n.
