(** Small vocabulary for the observables of states. *)
From Coq Require Import Reals.
From Verif Require Import ZLib Csum DFT NumPy Index Basis SpecBasis SpecWavepacket StateList SpecStateList.
Local Open Scope R_scope.
Local Open Scope C_scope.

(** Probability of state [i] of the list at point [x] of the fundamental grid. *)
Definition density (s : state_list) (i x : nat) : R := Cnorm2 (amplitude (sbasis s) (state_of s i) x).

(** Probability of momentum [p]: the overlap with the plane wave, squared. *)
Definition momentum_density (shape : list nat) (s : state_list) (i p : nat) : R :=
  Cnorm2 (csum (fun x => Cconj (bstate (momenta shape) p x) * amplitude (sbasis s) (state_of s i) x) (nprod shape)).

(** The squared norm of a state. *)
Definition squared_norm (s : state_list) (i : nat) : R := rsum (fun k => Cnorm2 (state_of s i k)) (bsize (sbasis s)).

(** The grid point [x] moved by [shift] points along every axis, with the ends joined. *)
Fixpoint move (shape shift x : list nat) : list nat :=
  match shape, shift, x with
  | n :: shape, t :: shift, i :: x => ((i + t) mod n)%nat :: move shape shift x
  | _, _, _ => []
  end.

(** The phase of grid point [x] in full turns: the sum over the axes of d x / n. *)
Fixpoint turns (shape : list nat) (direction : list Z) (x : list nat) : R :=
  match shape, direction, x with
  | n :: shape, d :: direction, i :: x => (IZR d * INR i / INR n + turns shape direction x)%R
  | _, _, _ => 0%R
  end.

(** The mean of exp (2 pi i turns) over the probabilities of a state. *)
Definition mean_phase (shape : list nat) (direction : list Z) (s : state_list) (i : nat) : C :=
  csum (fun x => RtoC (density s i x) * cis (2 * PI * turns shape direction (unravel shape x))) (nprod shape).
