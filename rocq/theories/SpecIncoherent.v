(** Vocabulary for the statements about probabilities and scattering in simulations. *)
From Coq Require Import Reals.
From Verif Require Import ZLib Csum DFT NumPy Basis SpecBasis Operator SpecOperator Dynamics SpecDynamics Incoherent.
Local Open Scope R_scope.
Local Open Scope C_scope.

(** Entry (i, j) of a stored n x n matrix. *)
Definition held_entry (n : nat) (m : held) (i j : nat) : C := aflat (hdata m) (i * n + j)%nat.

(** [mx] is the matrix of the rate equation of the rates [m] between the [n] states of the
    basis [b], as stored by get_tunnelling_m_matrix. *)
Definition rate_matrix (n : nat) (m : operator) (b : site_basis) (mx : held) : Prop :=
  sb_n b = n /\ hbasis mx = Stacked [b; b] /\
  exists M A', get_tunnelling_m_matrix m = Some (M, A') /\ hdata mx = odata M.

(** A diagonal operator on [b]: the pair of bases, one number for every state. *)
Definition diagonal_on (b : site_basis) (d : held) : Prop :=
  hbasis d = Stacked [b; b] /\ ashape (hdata d) = [sb_n b].
