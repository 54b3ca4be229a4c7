(** Vocabulary for the statements about sampled noise. *)
From Coq Require Import Reals.
From Verif Require Import ZLib Csum NumPy Spec Basis Operator SpecOperator Kernel SpecKernel.
Local Open Scope R_scope.
Local Open Scope C_scope.

(** An expectation value over draws [d : D]: linear on the functions [P] that have one. *)
Definition expectation {D : Type} (P : (D -> C) -> Prop) (E : (D -> C) -> C) : Prop :=
  (forall f g, (forall d, f d = g d) -> P f -> P g /\ E g = E f) /\
  (forall f g, P f -> P g -> P (fun d => f d + g d) /\ E (fun d => f d + g d) = E f + E g) /\
  (forall c f, P f -> P (fun d => c * f d) /\ E (fun d => c * f d) = c * E f).

(** The mean of [f] is [v]. *)
Definition mean {D} (P : (D -> C) -> Prop) (E : (D -> C) -> C) (f : D -> C) (v : C) : Prop := P f /\ E f = v.

(** 1 if both indices agree and 0 otherwise. *)
Definition both (s s' j j' : nat) : C := if (Nat.eqb s s' && Nat.eqb j j')%bool then 1 else 0.

(** The two arrays of random numbers, [n] samples of [m] numbers each: every number has
    variance one, and different numbers are uncorrelated. *)
Definition uncorrelated {D} (P : (D -> C) -> Prop) (E : (D -> C) -> C) (re im : D -> nat -> nat -> R) (n m : nat) : Prop :=
  forall s s' j j', (s < n)%nat -> (s' < n)%nat -> (j < m)%nat -> (j' < m)%nat ->
    mean P E (fun d => RtoC (re d s j * re d s' j')) (both s s' j j') /\
    mean P E (fun d => RtoC (im d s j * im d s' j')) (both s s' j j') /\
    mean P E (fun d => RtoC (re d s j * im d s' j')) 0.

(** sum_a |lambda_a| conj(L_a[i]) L_a[j], and the same for full operators. *)
Definition modulus_kernel_of (o : noise_operators) (i j : nat) : C :=
  csum (fun a => RtoC (Cmod (eigenvalue o a)) * Cconj (diag_entry (nops o) a i) * diag_entry (nops o) a j) (noise_count o).
Definition modulus_full_kernel_of (o : noise_operators) (i j k l : nat) : C :=
  csum (fun a => RtoC (Cmod (eigenvalue o a)) * Cconj (list_entry (nops o) a j i) * list_entry (nops o) a k l) (noise_count o).

Definition nonnegative_eigenvalues (o : noise_operators) : Prop :=
  forall a, (a < noise_count o)%nat -> exists r, (0 <= r)%R /\ eigenvalue o a = RtoC r.
