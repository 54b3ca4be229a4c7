(** Vocabulary for bases of eigenstates (C104). *)
From Coq Require Import Reals List ZArith Lia.
Import ListNotations.

(** The states numbered [lo] to [hi] of [n], or all of them. *)
Definition selects (n : nat) (subset : option (Z * Z)) (lo hi : nat) : Prop :=
  subset = Some (Z.of_nat lo, Z.of_nat hi) \/ (subset = None /\ lo = 0 /\ S hi = n).
