(** Specification of the interpolation of a state vector (C103). *)
From Coq Require Import Reals List ZArith Arith Lia.
From Verif Require Import ZLib Csum DFT NumPy Spec SpecBasis IndexSum Basis SpecWavepacket SpecFourier.
Import ListNotations.
Local Open Scope R_scope.
Local Open Scope C_scope.

(** The axes named by [axes] get [m] points, the others are kept. *)
Definition given_points (m : nat) (axes : list Z) (resize : nat -> option nat) : Prop :=
  (forall k, In (Z.of_nat k) axes -> resize k = Some m) /\ (forall k, ~ In (Z.of_nat k) axes -> resize k = None).

(** Value at point [y] of the new grid of the trigonometric interpolant of [psi], given on the
    grid of shape [ns]. *)
Definition interpolant (resize : nat -> option nat) (ns : list nat) (psi : list nat -> C) (y : list nat) : C :=
  isum ns (fun x => psi x * axes_product (keep resize resample) 0 ns y x).
