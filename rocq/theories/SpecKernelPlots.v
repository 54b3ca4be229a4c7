(** What the plots of kernels should show. *)
From Coq Require Import Reals List.
Import ListNotations.
Local Open Scope R_scope.

(** The sum of the numbers of a list. *)
Definition list_sum (l : list R) : R := fold_right Rplus 0 l.

(** [s] is the smallest sum of [t] out of the [n] numbers [f]. *)
Definition is_smallest_sum (n : nat) (f : nat -> R) (t : nat) (s : R) : Prop :=
  (exists l, length l = t /\ NoDup l /\ (forall a, In a l -> (a < n)%nat) /\ s = list_sum (map f l)) /\
  forall l, length l = t -> NoDup l -> (forall a, In a l -> (a < n)%nat) -> s <= list_sum (map f l).
