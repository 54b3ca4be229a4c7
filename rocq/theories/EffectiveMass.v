(** Model of the effective masses of bands and of their occupations (wavepacket/plot.py). *)
From Coq Require Import Reals.
From Verif Require Import ZLib Csum DFT NumPy Index Lattice Basis Operator Wavepacket Hamiltonian Localize Dynamics Fourier VolumeBasis WaveLists.
Local Open Scope nat_scope.

(** wavepacket/plot.py:441-449 [_get_free_energy], for one band and a lattice vector of length
    [delta]. *)
Definition free_energy (delta : R) (band : nat) : option R := rdiv (4 * PI * (2 * INR band + 1))%R (delta ^ 3)%R.

(** The index [*tuple(1 if i == axis else 0 for i in range(ndim))] of 483 and 637, flattened; an
    index out of range raises.  A negative axis is equal to no [i]. *)
Definition neighbour_index (shape : list nat) (axis : Z) : option nat :=
  let idx := map (fun i => if (Z.of_nat i =? axis)%Z then 1 else 0) (seq 0 (length shape)) in
  if forallb (fun p => fst p <? snd p) (combine idx shape) then Some (ravel shape idx) else None.

(** 485-494 and 639-645, the mass of one band from the modulus of its component: [n] is the number
    of samples.  numpy gives infinity with a warning for a component of zero: [None]. *)
Definition effective_mass (hbar delta : R) (n band : nat) (actual : R) : option R :=
  let norm := (sqrt (INR n) * delta / (2 * PI) * (hbar ^ 2 / 2))%R in
  obind (free_energy delta band) (fun free => rdiv (norm * free)%R actual).

(** [np.linalg.norm(basis.delta_x_stacked[axis])]. *)
Definition axis_length (axes : list length_axis) (axis : Z) : option R :=
  match norm_axis (length axes) axis with
  | Some a => Some (norm (length axes) (fun c => nth c (nth a (map la_delta axes) []) 0%R))
  | None => None
  end.

(** 452-494 [get_wavepacket_transformed_energy_effective_mass]: [nb] bands, [laxes] the axes of the
    basis of the samples, [axes] those of the states.  The outer [None] is an exception. *)
Definition get_wavepacket_transformed_energy_effective_mass (same : basis -> basis -> bool) (hbar : R) (nb : nat) (laxes : list basis)
  (axes : list length_axis) (data eigenvalue : ndarray) (axis : Z) : option (nat -> option R) :=
  let shape := map bfund laxes in
  match convert_wavepacket_with_eigenvalues_to_basis same nb (BTuple laxes) (stacked axes) (Some (BTuple (map BFund shape))) None data eigenvalue with
  | Some (_, e) =>
      match neighbour_index shape axis, axis_length axes axis with
      | Some k, Some delta => Some (fun b => effective_mass hbar delta (bsize (BTuple laxes)) b (Cmod (at2 e b k)))
      | _, _ => None
      end
  | None => None
  end.

(** 598-645 [get_wavepacket_localized_effective_mass] for samples of shape [ls]: the data of the
    full Hamiltonian of the Wannier states, read with the shape (band, sample, band, sample) of its
    basis, at band [i] of the first cell and band [i] of the neighbouring cell.  The construction of
    the Wannier states, whose values are not used, is left out. *)
Definition get_wavepacket_localized_effective_mass (hbar : R) (nb : nat) (ls : list nat) (axes : list length_axis) (op energies : ndarray) (axis : Z)
  : option (nat -> option R) :=
  let ns := nprod ls in
  match full_wannier_hamiltonian nb nb ls op energies with
  | Some h =>
      match neighbour_index ls axis, axis_length axes axis with
      | Some k, Some delta => Some (fun i => effective_mass hbar delta ns i (Cmod (aflat h (((i * ns + 0) * nb + i) * ns + k))))
      | _, _ => None
      end
  | None => None
  end.

(** 1090-1109 [get_wavepacket_band_occupation]: energies of shape (bands, samples); [kT] is the
    product of temperature and Boltzmann constant.  The eigenvalues are real. *)
Definition get_wavepacket_band_occupation (nb ns : nat) (kT : R) (energy : nat -> R) : option (nat -> option R) :=
  let weight b s := (exp (- energy (b * ns + s)%nat / kT))%R in
  if Req_EM_T kT 0 then None
  else Some (fun b => rdiv (rsum (weight b) ns) (rsum (fun b => rsum (weight b) ns) nb)).

(** state_vector/plot.py:854-872 [get_average_band_energy]: the mean over the samples, which are
    at least one. *)
Definition get_average_band_energy (nb ns : nat) (h : nat -> C) (b : nat) : option R :=
  rdiv (rsum (fun s => fst (h (b * ns + s))) ns) (INR ns).

(** wavepacket/plot.py:183-194 [_get_projected_bloch_phases]: [fraction i s] is component [i] of the
    Bloch fractions of sample [s], [inv] the inverse of the matrix of lattice vectors. *)
Definition get_projected_bloch_phases (nd : nat) (inv : nat -> nat -> R) (fraction : nat -> nat -> R) (direction : nat -> R) (s : nat) : option R :=
  let phase c := rsum (fun i => fraction i s * dk_stacked inv i c)%R nd in
  rdiv (rsum (fun c => phase c * direction c)%R nd) (norm nd direction).
