(** Bases whose states are combinations of those of another basis. *)
From Coq Require Import Reals.
From Verif Require Import ZLib Csum DFT NumPy Basis SpecBasis.
Local Open Scope C_scope.

(** Every state of [b] is a combination of the states of [a]. *)
Definition states_within (b a : basis) : Prop :=
  forall k, (k < bsize b)%nat -> exists c : nat -> C, forall x, (x < bfund a)%nat ->
    bstate b k x = csum (fun p => c p * bstate a p x) (bsize a).
