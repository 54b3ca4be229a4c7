(** Vocabulary for the statements about oscillator states. *)
From Coq Require Import Reals.
From Coquelicot Require Import Coquelicot.
Local Open Scope R_scope.

(** The physicists' Hermite polynomials. *)
Definition is_hermite (h : nat -> R -> R) : Prop :=
  forall x, h 0%nat x = 1 /\ h 1%nat x = 2 * x /\
    forall n, h (S (S n)) x = 2 * x * h (S n) x - 2 * INR (S n) * h n x.

(** [psi] solves the time independent Schrodinger equation on the line. *)
Definition solves_schrodinger (hbar mass : R) (V : R -> R) (E : R) (psi : R -> R) : Prop :=
  exists psi1 psi2 : R -> R, (forall x, is_derive psi x (psi1 x)) /\ (forall x, is_derive psi1 x (psi2 x)) /\
    forall x, - (hbar ^ 2 / (2 * mass)) * psi2 x + V x * psi x = E * psi x.

(** The integral over the whole line converges to [l]. *)
Definition line_integral (f : R -> R) (l : R) : Prop :=
  is_RInt_gen f (Rbar_locally m_infty) (Rbar_locally p_infty) l.
