(** Vocabulary for the stochastic Schroedinger equation. *)
From Coq Require Import Reals List.
From Verif Require Import ZLib Csum DFT NumPy.
Local Open Scope R_scope.
Local Open Scope C_scope.

(** L psi, the adjoint of L applied to psi, and the expectation value of L. *)
Definition act (n : nat) (L : nat -> nat -> C) (psi : nat -> C) (r : nat) : C := csum (fun c => L r c * psi c) n.
Definition act_adjoint (n : nat) (L : nat -> nat -> C) (psi : nat -> C) (r : nat) : C := csum (fun c => Cconj (L c r) * psi c) n.
Definition expectation (n : nat) (L : nat -> nat -> C) (psi : nat -> C) : C := csum (fun r => Cconj (psi r) * act n L psi r) n.

(** One Euler step of length [h] of the stochastic Schroedinger equation with Hamiltonian [H]
    (in units of hbar), collapse operators [Ls] and standard noise [xi]. *)
Fixpoint collapse_terms (n : nat) (Ls : list (nat -> nat -> C)) (h : R) (xi : nat -> C) (psi : nat -> C) (r : nat) : C :=
  match Ls with
  | nil => 0
  | cons L Ls =>
      let e := expectation n L psi in
      RtoC h * (Cconj e * act n L psi r - RtoC (/ 2) * act_adjoint n L (act n L psi) r - RtoC (/ 2) * Cconj e * e * psi r)
      + RtoC (sqrt h) * xi 0%nat * (act n L psi r - e * psi r)
      + collapse_terms n Ls h (fun k => xi (S k)) psi r
  end.
Definition euler_step (n : nat) (H : nat -> nat -> C) (Ls : list (nat -> nat -> C)) (h : R) (xi : nat -> C) (psi : nat -> C) (r : nat) : C :=
  psi r - RtoC h * Ci * act n H psi r + collapse_terms n Ls h xi psi r.

(** The step of the equation for a Hamiltonian in units of energy and collapse operators
    whose squares are energies. *)
Definition physical_step (hbar : R) (n : nat) (H : nat -> nat -> C) (Ls : list (nat -> nat -> C)) (h : R) (xi psi : nat -> C) (r : nat) : C :=
  euler_step n (fun a b => H a b / RtoC hbar) (map (fun L a b => L a b / RtoC (sqrt hbar)) Ls) h xi psi r.
