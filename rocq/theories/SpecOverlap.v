(** Vocabulary for the statements about overlaps. *)
From Coq Require Import Reals Permutation.
From Verif Require Import ZLib Csum DFT NumPy Spec SpecReal Basis SpecBasis Operator SpecWavepacket Lattice.
Local Open Scope R_scope.
Local Open Scope C_scope.

(** Value at the point [x] of the supercell of the state a wavepacket stands for: the
    average over the samples of the Bloch waves. *)
Definition unfurled_value (ls : list nat) (saxes : list basis) (d : nat -> C) (x : nat) : C :=
  let ss := map bfund saxes in
  let x := unravel (supercell ls ss) x in
  RtoC (/ INR (nprod ls)) * csum (fun s =>
    plane (supercell ls ss) (sample_freqs ls (unravel ls s)) (map Z.of_nat x) *
    amplitude (BTuple saxes) (row (bsize (BTuple saxes)) d s) (ravel ss (in_cell ss x))) (nprod ls).

(** Entry (j, i) at point [x] of flat data (point, state, state). *)
Definition overlap_at (n : nat) (d : nat -> C) (x j i : nat) : C := d ((x * n + j) * n + i)%nat.

(** The point [x] moved back by [s] along the first axis, with periodic boundary. *)
Definition moved_back (shape : list nat) (s : Z) (x : nat) : nat :=
  match shape, unravel shape x with
  | n :: rest, x0 :: xs => ravel shape (Z.to_nat ((Z.of_nat x0 - s) mod Z.of_nat n) :: xs)
  | _, _ => x
  end.

(** The wave vector with integer components [m] in the reciprocal lattice of the vectors
    [delta]: the vector whose product with lattice vector [a] is 2 pi m_a. *)
Definition reciprocal (nd : nat) (delta : nat -> nat -> R) (m : nat -> Z) (k : nat -> R) : Prop :=
  forall a, (a < nd)%nat -> rsum (fun c => delta a c * k c)%R nd = (2 * PI * IZR (m a))%R.

(** Sum of the data against the waves e^(2 pi i m.x). *)
Definition wave_sum (shape : list nat) (data : nat -> C) (m : nat -> Z) : C :=
  csum (fun j => data j * plane shape (map m (seq 0 (length shape))) (map Z.of_nat (unravel shape j))) (nprod shape).

(** The index of the momentum state of frequency -m. *)
Definition opposite_index (shape : list nat) (m : nat -> Z) : list nat :=
  map (fun a => Z.to_nat ((- m a) mod Z.of_nat (nth a shape 0%nat))) (seq 0 (length shape)).

(** What np.argsort returns for the values [f] on [n] points. *)
Definition argsort_ok (n : nat) (f : nat -> R) (order : list nat) : Prop :=
  Permutation (seq 0 n) order /\ forall i j, (i <= j < n)%nat -> (f (nth i order 0%nat) <= f (nth j order 0%nat))%R.

(** Mean of |f|^2 over [m] equally spaced angles. *)
Definition circle_mean (f : R * R -> C) (q : R) (m : nat) : R :=
  (rsum (fun j => Cnorm2 (f (q * cos (2 * PI * INR j / INR m), q * sin (2 * PI * INR j / INR m)))) m / INR m)%R.
