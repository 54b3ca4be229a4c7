(** Entries of operators, independent of the shape of the stored array. *)
From Coq Require Import Reals.
From Verif Require Import ZLib Csum DFT NumPy Basis SpecBasis Operator.
Local Open Scope R_scope.
Local Open Scope C_scope.

(** Entry (i, j) of an operator and entry (i, j) of operator m of a list. *)
Definition op_entry (o : operator) (i j : nat) : C :=
  aflat (odata o) (i * bsize (ocol o) + j)%nat.
Definition list_entry (L : operator_list) (m i j : nat) : C :=
  aflat (ldata L) ((m * bsize (lrow L) + i) * bsize (lcol L) + j)%nat.
(** Diagonal operators store one value per state. *)
Definition diag_entry (L : operator_list) (m i : nat) : C :=
  aflat (ldata L) (m * bsize (lrow L) + i)%nat.

(** The data array has one element per entry. *)
Definition op_wf (o : operator) : Prop :=
  nprod (ashape (odata o)) = (bsize (orow o) * bsize (ocol o))%nat.
Definition list_wf (L : operator_list) : Prop :=
  nprod (ashape (ldata L)) = (bsize (lbasis L) * bsize (lrow L) * bsize (lcol L))%nat.
Definition diag_list_wf (L : operator_list) : Prop :=
  bsize (lrow L) = bsize (lcol L) /\
  nprod (ashape (ldata L)) = (bsize (lbasis L) * bsize (lrow L))%nat.

(** Square operators of size [n]. *)
Definition square (n : nat) (o : operator) : Prop :=
  op_wf o /\ bsize (orow o) = n /\ bsize (ocol o) = n.

(** Equality of matrices of size n x n. *)
Definition mat_eq (n : nat) (A B : nat -> nat -> C) : Prop :=
  forall i j, (i < n)%nat -> (j < n)%nat -> A i j = B i j.

Definition hermitian (n : nat) (A : nat -> nat -> C) : Prop := mat_eq n A (adjoint A).
Definition anti_hermitian (n : nat) (A : nat -> nat -> C) : Prop :=
  mat_eq n A (fun i j => - adjoint A i j).

Definition diagonal_matrix (d : nat -> C) : nat -> nat -> C := fun i j => d i * cdelta i j.

(** [W] is the two-sided inverse of [V]. *)
Definition inverse_matrices (n : nat) (V W : nat -> nat -> C) : Prop :=
  mat_eq n (matmul n V W) cdelta /\ mat_eq n (matmul n W V) cdelta.

(** Column k of [V] is an eigenvector of [A] with eigenvalue [lam k], and the
    columns are invertible: what np.linalg.eig and np.linalg.inv promise for a
    diagonalisable matrix. *)
Definition diagonalises (n : nat) (A : nat -> nat -> C) (lam : nat -> C) (V W : nat -> nat -> C) : Prop :=
  inverse_matrices n V W /\
  forall k i, (k < n)%nat -> (i < n)%nat -> csum (fun j => A i j * V j k) n = lam k * V i k.
