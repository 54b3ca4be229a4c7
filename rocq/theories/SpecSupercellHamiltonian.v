(** Vocabulary for the statement that Bloch waves of a cell are states of the supercell. *)
From Coq Require Import Reals.
From Verif Require Import ZLib Csum DFT NumPy Spec Basis SpecBasis SpecWavepacket SpecLocalize.
Local Open Scope R_scope.
Local Open Scope C_scope.

(** Lattice vector a of the supercell is (number of samples along axis a) times lattice
    vector a of the cell. *)
Definition enlarged (ls : list nat) (delta delta' : nat -> nat -> R) : Prop :=
  forall a c, (a < length ls)%nat -> (c < length ls)%nat -> delta' a c = (INR (nth a ls 0%nat) * delta a c)%R.

(** The function with coefficients [data'] in the basis [axes'] of the supercell repeats the
    function with coefficients [data] in the basis [saxes] of the cell. *)
Definition repeats (ls : list nat) (saxes : list basis) (data : nat -> C) (axes' : list basis) (data' : nat -> C) : Prop :=
  let ss := map bfund saxes in let F := supercell ls ss in
  forall x, in_shape x F ->
    amplitude (BTuple axes') data' (ravel F x) = amplitude (BTuple saxes) data (ravel ss (in_cell ss x)).

(** The coefficients [v] in the basis [axes'] of the supercell describe the Bloch wave of
    sample [s] with the cell-periodic part [u]. *)
Definition bloch_wave_of (ls : list nat) (saxes : list basis) (s : list nat) (u : nat -> C) (axes' : list basis) (v : nat -> C) : Prop :=
  let ss := map bfund saxes in let F := supercell ls ss in
  forall x, in_shape x F ->
    amplitude (BTuple axes') v (ravel F x) =
    isqrt (nprod ls) * plane F (sample_freqs ls s) (map Z.of_nat x) * amplitude (BTuple saxes) u (ravel ss (in_cell ss x)).

(** The state has no component with frequency - n / 2 along an axis with an even number n of
    points, the one frequency whose negative is not on the grid.  Nothing is asked of axes
    with an odd number of points. *)
Definition below_edge (saxes : list basis) (u : nat -> C) : Prop :=
  let ss := map bfund saxes in
  forall k a, in_shape k ss -> (a < length ss)%nat -> (2 * nth a k 0 = nth a ss 0)%nat ->
    inner_product (nprod ss) (bstate (momenta ss) (ravel ss k)) (amplitude (BTuple saxes) u) = 0.

(** The Bloch fraction of a sample: frequency / number of samples along every axis. *)
Definition bloch_fraction (ls s : list nat) : nat -> R := fun a => nth a (fractions ls s) 0%R.
