(** Vocabulary for symmetries of the energies. *)
From Coq Require Import Reals.
From Verif Require Import ZLib Csum DFT NumPy Basis SpecBasis.

(** Axes of plane waves: all of them, or the lowest ones. *)
Definition plane_wave_axis (c : basis) : Prop :=
  match c with BFundT n => (0 < n)%nat | BTrans n N => (0 < n <= N)%nat | _ => False end.
