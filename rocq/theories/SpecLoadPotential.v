(** Vocabulary for potentials read from files. *)
From Coq Require Import Reals List.
From Verif Require Import LoadPotential.
Import ListNotations.

(** Nested lists with the lengths [shape], of numbers.  An empty list has no lengths below it. *)
Fixpoint rectangular (shape : list nat) (j : json) : Prop :=
  match shape, j with
  | [], JNumber _ => True
  | n :: shape, JList l => length l = n /\ (n = 0 -> shape = []) /\ forall x, In x l -> rectangular shape x
  | _, _ => False
  end.

(** The number at the end of a list of indices. *)
Fixpoint number_at (j : json) (idx : list nat) : option R :=
  match idx, j with
  | [], JNumber x => Some x
  | i :: idx, JList l => match nth_error l i with Some x => number_at x idx | None => None end
  | _, _ => None
  end.
