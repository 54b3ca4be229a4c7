(** Vocabulary for plots of the energies of bands. *)
From Coq Require Import Reals.
From Verif Require Import ZLib Csum DFT NumPy Basis SpecBasis Lattice Hamiltonian SpecReal SpecReduce SpecStateList Paths SpecPaths VolumeBasis SpecVolumeBasis SpecPlots Plots Operator.
Local Open Scope R_scope.

(** The bands that are drawn: those asked for, or all of [nb]. *)
Definition drawn_bands (nb : nat) (bands : option (list nat)) : list nat := match bands with None => seq 0 nb | Some l => l end.

(** The crystal momentum of the sample with index [full] of the grid [ls] of samples: signed
    fractions of the reciprocal lattice vectors, which are [2 pi] times the columns of [inv]. *)
Definition sample_vector (ls : list nat) (inv : nat -> nat -> R) (full : list nat) (c : nat) : R :=
  rsum (fun a => IZR (freq (nth a ls 0%nat) (nth a full 0%nat)) / INR (nth a ls 0%nat) * (2 * PI * inv c a)) (length ls).

(** The lattice site with coefficients [full]. *)
Definition site (axes : list length_axis) (full : list nat) (c : nat) : R :=
  rsum (fun a => INR (nth a full 0%nat) * lattice_of axes a c) (length axes).

(** The Fourier transform, at lattice site [full], of the [nprod ls] energies [E] of a band. *)
Definition at_site (axes : list length_axis) (ls : list nat) (inv : nat -> nat -> R) (E : nat -> C) (full : list nat) : C :=
  Cmult (isqrt (nprod ls))
    (csum (fun s => Cmult (E s) (cis (rsum (fun c => sample_vector ls inv (unravel ls s) c * site axes full c) (length axes)))) (nprod ls)).

(** The line of [n] values [V] along axis [a] of the grid [ls], the others at the place of the
    largest modulus: point [i] is the one with index [order i], drawn where [X] says; one more
    point, [step] after the last, has the first value again. *)
Definition line_through_largest (ls : list nat) (a : nat) (order : nat -> nat) (V : list nat -> C) (X : list nat -> R) (step : R)
    (m : plot_measure) (line : list (R * R)) : Prop :=
  let n := nth a ls 0%nat in
  exists top, in_shape top ls /\ (forall other, in_shape other ls -> Cmod (V other) <= Cmod (V top)) /\
    length line = S n /\
    (forall i full, (i < n)%nat -> at_axes (length ls) [a] [order i] (remaining 0%nat [a] top) full ->
       in_shape full ls /\ line_x line i = X full /\ shows m (V full) (line_y line i)) /\
    (forall i, (i < n)%nat -> line_x line (S i) - line_x line i = step) /\
    line_y line n = line_y line 0 /\
    (m = PAngle -> forall i, (S i < n)%nat -> Rabs (line_y line (S i) - line_y line i) <= PI).

(** A grid [ls] of samples of the lattice of [axes]; [inv] is the inverse of the lattice vectors and
    [inv'] that of the lattice vectors of the basis of the samples. *)
Definition sampled (axes : list length_axis) (ls : list nat) (inv inv' : nat -> nat -> R) : Prop :=
  let nd := length axes in
  in_space nd axes /\ length ls = nd /\ Forall (fun n => (0 < n)%nat) ls /\
  is_inverse nd (lattice_of axes) inv /\ is_inverse nd (fun a c => lattice_of axes a c * INR (nth a ls 0%nat)) inv'.

(** States and energies of [nb] bands at [ns] samples, the states in an orthonormal basis. *)
Definition has_bands (axes : list length_axis) (nb ns : nat) (data ev : ndarray) : Prop :=
  bwf (stacked axes) /\ explicit_orthonormal (stacked axes) /\
  nprod (ashape data) = (nb * ns * bsize (stacked axes))%nat /\ nprod (ashape ev) = (nb * ns)%nat.

(** The site one lattice vector of axis [a] away. *)
Definition next_site (nd a : nat) : list nat := map (fun i => if (i =? a)%nat then 1%nat else 0%nat) (seq 0 nd).
