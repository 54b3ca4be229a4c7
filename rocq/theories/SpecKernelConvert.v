(** What a noise kernel is in another basis. *)
From Coq Require Import Reals.
From Verif Require Import ZLib Csum DFT NumPy Basis SpecBasis.
Local Open Scope R_scope.
Local Open Scope C_scope.

(** The matrix elements of the operators |b0_s><b1_t| in the bases [row], [col]. *)
Definition unit_operator (b0 b1 row col : basis) (s t k l : nat) : C :=
  overlap row b0 k s * overlap b1 col t l.

(** The kernel K = sum K[p,q,s,t] conj(|q><p|) (x) |s><t| written in the new bases:
    the first pair of indices is (column, row) and conjugate, the second (row, column). *)
Definition kernel_in_basis (b0 b1 row col : basis) (K : nat -> nat -> nat -> nat -> C)
    (i j k l : nat) : C :=
  csum (fun p => csum (fun q => csum (fun s => csum (fun t =>
    Cconj (unit_operator b0 b1 row col q p j i) * K p q s t * unit_operator b0 b1 row col s t k l)
    (bsize b1)) (bsize b0)) (bsize b0)) (bsize b1).

(** The same for a kernel which is diagonal in both pairs. *)
Definition diagonal_kernel_in_basis (b0 b1 row col : basis) (K : nat -> nat -> C) (i j k l : nat) : C :=
  csum (fun p => csum (fun s =>
    Cconj (unit_operator b0 b1 row col p p j i) * K p s * unit_operator b0 b1 row col s s k l)
    (bsize b0)) (bsize b0).

(** The kernel as a quadratic form on operators, sum conj(x[j,i]) K[i,j,k,l] x[k,l], and kernels
    for which it is real and never negative. *)
Definition kernel_value (r c : nat) (K : nat -> nat -> nat -> nat -> C) (x : nat -> nat -> C) : C :=
  csum (fun i => csum (fun j => csum (fun k => csum (fun l => Cconj (x j i) * K i j k l * x k l) c) r) r) c.
Definition positive_kernel (r c : nat) (K : nat -> nat -> nat -> nat -> C) : Prop :=
  forall x, exists v, (0 <= v)%R /\ kernel_value r c K x = RtoC v.
