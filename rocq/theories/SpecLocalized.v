(** Small vocabulary for choosing among combinations of states. *)
From Coq Require Import Reals.
From Verif Require Import ZLib Csum DFT NumPy Spec Basis SpecBasis Operator StateList SpecStateList.
Local Open Scope R_scope.
Local Open Scope C_scope.

(** The sum of the squared norms of the states. *)
Definition total_norm (s : state_list) : R :=
  rsum (fun k => rsum (fun x => Cnorm2 (state_of s k x)) (bsize (sbasis s))) (bsize (slist s)).

(** The sum of |psi_k><psi_k| over the states, entry [x], [y]. *)
Definition sum_outer (s : state_list) (x y : nat) : C :=
  csum (fun k => state_of s k x * Cconj (state_of s k y)) (bsize (slist s)).

(** Squared norm of a function on [n] points. *)
Definition norm2 (n : nat) (f : nat -> C) : R := rsum (fun x => Cnorm2 (f x)) n.
