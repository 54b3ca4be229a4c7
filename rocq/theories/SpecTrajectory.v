(** Small vocabulary for averages over pairs of times. *)
From Coq Require Import Reals.
From Verif Require Import ZLib Csum.
Local Open Scope R_scope.

(** The mean over the pairs of times [d] apart. *)
Definition pair_mean (n : nat) (f : nat -> nat -> R) (d : nat) : R := rsum (fun i => f i (i + d)%nat) (n - d) / INR (n - d).
