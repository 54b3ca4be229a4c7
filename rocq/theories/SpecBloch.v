(** Vocabulary for the statements about BlochBasis. *)
From Coq Require Import Reals.
From Verif Require Import ZLib Csum DFT NumPy Spec Basis SpecBasis Operator SpecWavepacket.
Local Open Scope R_scope.
Local Open Scope C_scope.

(** Value at the point [x] of the supercell (stacked indices) of Bloch state [r] = band * number of samples +
    sample: a wave with the momentum of the sample times the function of the unit cell with the
    coefficients of row [r] of the data. *)
Definition bloch_wave (ls : list nat) (saxes : list basis) (d : ndarray) (r : nat) (x : list nat) : C :=
  let ss := map bfund saxes in
  isqrt (nprod ls) *
  plane (supercell ls ss) (sample_freqs ls (unravel ls (r mod nprod ls))) (map Z.of_nat x) *
  amplitude (BTuple saxes) (row (bsize (BTuple saxes)) (aflat d) r) (ravel ss (in_cell ss x)).

(** The wavefunctions of the [nb] bands are orthonormal at every sample. *)
Definition bands_orthonormal (nb : nat) (ls : list nat) (saxes : list basis) (d : ndarray) : Prop :=
  forall b b' s, (b < nb)%nat -> (b' < nb)%nat -> (s < nprod ls)%nat ->
    inner_product (bsize (BTuple saxes))
      (row (bsize (BTuple saxes)) (aflat d) (b * nprod ls + s))
      (row (bsize (BTuple saxes)) (aflat d) (b' * nprod ls + s)) = cdelta b b'.
