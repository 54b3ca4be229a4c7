(** Vocabulary for occupations. *)
From Coq Require Import Reals.
From Verif Require Import ZLib Csum.
Local Open Scope R_scope.

(** [e] is the least of the first [n] energies. *)
Definition lowest (n : nat) (E : nat -> R) (e : R) : Prop := (forall j, (j < n)%nat -> e <= E j) /\ exists j, (j < n)%nat /\ E j = e.

(** The expectation <x| A |x>. *)
Definition expectation_of (n : nat) (A : nat -> nat -> C) (x : nat -> C) : C :=
  csum (fun k => Cmult (Cconj (x k)) (csum (fun l => Cmult (A k l) (x l)) n)) n.
