(** Vocabulary for plots. *)
From Coq Require Import Reals.
From Verif Require Import ZLib Csum DFT NumPy Basis SpecBasis SpecWavepacket Lattice Hamiltonian Paths VolumeBasis SpecVolumeBasis Plots.
Local Open Scope R_scope.

(** The value [y] shows the number [z]: its real part, imaginary part, modulus, or a phase. *)
Definition shows (m : plot_measure) (z : C) (y : R) : Prop :=
  match m with
  | PReal => y = fst z
  | PImag => y = snd z
  | PAbs => y = Cmod z
  | PAngle => z = Cmult (RtoC (Cmod z)) (cis y)
  end.

(** Point [i] of a line. *)
Definition line_x (line : list (R * R)) (i : nat) : R := fst (nth i line (0, 0)).
Definition line_y (line : list (R * R)) (i : nat) : R := snd (nth i line (0, 0)).

(** Position of point [p] along the direction of vector [v]. *)
Definition along (nd : nat) (v p : nat -> R) : R := rsum (fun c => v c * p c) nd / sqrt (rsum (fun c => v c ^ 2) nd).

(** The index, in the order of the momenta of a basis, of the momentum in place [i] of all [n]
    momenta in ascending order, -(n/2) first. *)
Definition ascending (n i : nat) : nat := Z.to_nat ((Z.of_nat i - Z.of_nat (n / 2)) mod Z.of_nat n).

(** The colour limits hold the [n0] times [n1] values; the upper is the largest of them, the
    lower zero for moduli and otherwise the smallest. *)
Definition limits_fit (m : plot_measure) (n0 n1 : nat) (value : nat -> nat -> R) (lim : R * R) : Prop :=
  (forall i j, (i < n0)%nat -> (j < n1)%nat -> fst lim <= value i j <= snd lim) /\
  (exists i j, (i < n0)%nat /\ (j < n1)%nat /\ value i j = snd lim) /\
  (m = PAbs -> fst lim = 0) /\
  (m <> PAbs -> exists i j, (i < n0)%nat /\ (j < n1)%nat /\ value i j = fst lim).

(** The wave with wave vector [j] at point [x] of the grid of a basis, and its share in the
    state with vector [data]. *)
Definition lattice_wave (axes : list length_axis) (inv : nat -> nat -> R) (j x : nat) : C :=
  Cmult (isqrt (nprod (fundamental_shape axes))) (cis (k_dot_x (fundamental_shape axes) (lattice_of axes) inv j x)).
Definition momentum_amplitude (axes : list length_axis) (inv : nat -> nat -> R) (data : nat -> C) (j : nat) : C :=
  inner_product (nprod (fundamental_shape axes)) (lattice_wave axes inv j) (amplitude (stacked axes) data).
