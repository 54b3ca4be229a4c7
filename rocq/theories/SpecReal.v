(** Vocabulary about real matrices used in statements. *)
From Coq Require Import Reals.
From Verif Require Import ZLib Csum.
Local Open Scope R_scope.

Definition rdelta (i j : nat) : R := if Nat.eqb i j then 1 else 0.

(** Matrix inverse, both sides. *)
Definition is_inverse (nd : nat) (delta inv : nat -> nat -> R) : Prop :=
  (forall a b, (a < nd)%nat -> (b < nd)%nat ->
     rsum (fun c => delta a c * inv c b) nd = rdelta a b) /\
  (forall a b, (a < nd)%nat -> (b < nd)%nat ->
     rsum (fun c => inv a c * delta c b) nd = rdelta a b).
