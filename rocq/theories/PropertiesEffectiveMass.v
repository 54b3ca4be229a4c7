(** The effective masses of bands (C118). *)
From Coq Require Import Reals ZArith List.
From Verif Require Import ZLib Csum DFT NumPy Index Lattice Basis SpecBasis Operator Dynamics VolumeBasis SpecVolumeBasis
  EffectiveMass SpecEffectiveMass EffectiveMassProofs EffectiveMassFacts EffectiveMassFacts2.
Import ListNotations.
Local Open Scope R_scope.
Local Open Scope C_scope.

(** The cells and samples of the examples meet the hypotheses. *)
Example C118_chain_case :
  identity_test (fun _ _ => false) /\ bwf (stacked [ex_chain]) /\ explicit_orthonormal (stacked [ex_chain]) /\ norm 1 (lattice_of [ex_chain] 0) <> 0%R.
Proof. exact ex_chain_ok. Qed.

(** get_wavepacket_transformed_energy_effective_mass: the mass of band b along axis a is
    hbar^2 (2 b + 1) / (delta^2 |E_b|), for the Fourier component of the energies of the band that
    belongs to a step to the next cell; it is infinite exactly if this component is zero. *)
Theorem C118_mass_of_band :
  forall same hbar nb ls axes data ev a (E : nat -> nat -> R), identity_test same -> Forall (fun n => (0 < n)%nat) ls -> (a < length ls)%nat ->
  length axes = length ls -> (2 <= nth a ls 0)%nat -> bwf (stacked axes) -> explicit_orthonormal (stacked axes) ->
  nprod (ashape data) = (nb * nprod ls * bsize (stacked axes))%nat -> nprod (ashape ev) = (nb * nprod ls)%nat ->
  norm (length axes) (lattice_of axes a) <> 0%R ->
  (forall b s, (b < nb)%nat -> (s < nprod ls)%nat -> aflat ev (b * nprod ls + s)%nat = RtoC (E b s)) ->
  exists M, get_wavepacket_transformed_energy_effective_mass same hbar nb (map BFundT ls) axes data ev (Z.of_nat a) = Some M /\
    forall b, (b < nb)%nat ->
      M b = rdiv (hbar ^ 2 * (2 * INR b + 1))%R (norm (length axes) (lattice_of axes a) ^ 2 * Cmod (neighbour_component ls a (E b)))%R.
Proof. exact transformed_mass. Qed.
Print Assumptions C118_mass_of_band.

(** An axis with a single sample raises. *)
Theorem C118_single_sample_raises :
  forall same hbar nb ls axes data ev a, (a < length ls)%nat -> (nth a ls 0 < 2)%nat ->
  get_wavepacket_transformed_energy_effective_mass same hbar nb (map BFundT ls) axes data ev (Z.of_nat a) = None.
Proof. exact short_axis. Qed.
Print Assumptions C118_single_sample_raises.

(** The bands that [free_band] numbers are those of a free particle: they are the squares of all
    wave numbers that differ from k by lattice vectors, each once, in ascending order. *)
Theorem C118_free_bands :
  forall delta k, (0 < delta)%R -> (Rabs k <= PI / delta)%R ->
  exists g : nat -> Z, (forall z, exists N, g N = z) /\ (forall N N', g N = g N' -> N = N') /\
    (forall N, free_band delta N k = (k + 2 * PI * IZR (g N) / delta) ^ 2)%R /\
    (forall N, (free_band delta N k <= free_band delta (S N) k)%R).
Proof. exact free_bands. Qed.
Print Assumptions C118_free_bands.

(** Every band of a free particle of mass m has the mass m up to the sampling: for an even number n
    of samples it is m (sin (pi / n) / (pi / n))^2, and for every n it is at least
    m (1 - (pi / n)^2 / 3) and at most m / cos (pi / n). *)
Theorem C118_free_particle :
  forall same hbar nb n la data ev, identity_test same -> hbar <> 0%R -> (2 <= n)%nat -> bwf (stacked [la]) -> explicit_orthonormal (stacked [la]) ->
  nprod (ashape data) = (nb * n * bsize (stacked [la]))%nat -> nprod (ashape ev) = (nb * n)%nat -> norm 1 (lattice_of [la] 0) <> 0%R ->
  let delta := norm 1 (lattice_of [la] 0) in
  forall m, (0 < m)%R ->
  (forall b s, (b < nb)%nat -> (s < n)%nat -> aflat ev (b * n + s)%nat = RtoC (hbar ^ 2 / (2 * m) * free_band delta b (sample_momentum delta n s))) ->
  exists M, get_wavepacket_transformed_energy_effective_mass same hbar nb [BFundT n] [la] data ev 0 = Some M /\
    forall b, (b < nb)%nat -> exists x, M b = Some x /\
      (Nat.Even n -> x = m * (sin (PI / INR n) / (PI / INR n)) ^ 2)%R /\
      (m * (1 - (PI / INR n) ^ 2 / 3) <= x)%R /\ (x * cos (PI / INR n) <= m)%R.
Proof. exact free_mass. Qed.
Print Assumptions C118_free_particle.

(** For a chain with hopping J_b between neighbouring cells the mass of band b is 2 (2 b + 1) times
    hbar^2 / (2 |J_b| delta^2), the mass by the curvature of the band at its centre: the effective
    mass is not the one by curvature. *)
Theorem C118_hopping_chain :
  forall same hbar nb n la data ev, identity_test same -> (2 <= n)%nat -> bwf (stacked [la]) -> explicit_orthonormal (stacked [la]) ->
  nprod (ashape data) = (nb * n * bsize (stacked [la]))%nat -> nprod (ashape ev) = (nb * n)%nat -> norm 1 (lattice_of [la] 0) <> 0%R ->
  let delta := norm 1 (lattice_of [la] 0) in
  forall e0 J : nat -> R, (3 <= n)%nat -> (forall b, (b < nb)%nat -> J b <> 0%R) ->
  (forall b s, (b < nb)%nat -> (s < n)%nat -> aflat ev (b * n + s)%nat = RtoC (e0 b - 2 * J b * cos (sample_momentum delta n s * delta))) ->
  exists M, get_wavepacket_transformed_energy_effective_mass same hbar nb [BFundT n] [la] data ev 0 = Some M /\
    forall b, (b < nb)%nat -> M b = Some (2 * (2 * INR b + 1) * (hbar ^ 2 / (2 * Rabs (J b) * delta ^ 2)))%R.
Proof. exact hopping_mass. Qed.
Print Assumptions C118_hopping_chain.

(** An axis counted from the end takes the length of its lattice vector but the mean of the
    energies: the result depends on the zero of energy. *)
Theorem C118_negative_axis :
  forall same hbar nb ls axes data ev a (E : nat -> nat -> R), identity_test same -> Forall (fun n => (0 < n)%nat) ls -> (a < length ls)%nat ->
  length axes = length ls -> bwf (stacked axes) -> explicit_orthonormal (stacked axes) ->
  nprod (ashape data) = (nb * nprod ls * bsize (stacked axes))%nat -> nprod (ashape ev) = (nb * nprod ls)%nat ->
  norm (length axes) (lattice_of axes a) <> 0%R ->
  (forall b s, (b < nb)%nat -> (s < nprod ls)%nat -> aflat ev (b * nprod ls + s)%nat = RtoC (E b s)) ->
  exists M, get_wavepacket_transformed_energy_effective_mass same hbar nb (map BFundT ls) axes data ev (Z.of_nat a - Z.of_nat (length ls)) = Some M /\
    forall b, (b < nb)%nat ->
      M b = rdiv (hbar ^ 2 * (2 * INR b + 1))%R (norm (length axes) (lattice_of axes a) ^ 2 * Rabs (rsum (E b) (nprod ls) / INR (nprod ls)))%R.
Proof. exact negative_mass. Qed.
Print Assumptions C118_negative_axis.

(** get_wavepacket_localized_effective_mass: for one band and an operator of unit modulus the mass
    is the square root of the number of samples times the mass above. *)
Theorem C118_localized_one_band :
  forall hbar ls axes op energies a (E : nat -> R), Forall (fun n => (0 < n)%nat) ls -> (a < length ls)%nat -> length axes = length ls ->
  (2 <= nth a ls 0)%nat -> norm (length axes) (lattice_of axes a) <> 0%R ->
  nprod (ashape op) = nprod ls -> nprod (ashape energies) = nprod ls ->
  (forall s, (s < nprod ls)%nat -> aflat op s * Cconj (aflat op s) = 1) ->
  (forall s, (s < nprod ls)%nat -> aflat energies s = RtoC (E s)) ->
  exists M, get_wavepacket_localized_effective_mass hbar 1 ls axes op energies (Z.of_nat a) = Some M /\
    M 0%nat = rdiv (sqrt (INR (nprod ls)) * hbar ^ 2)%R (norm (length axes) (lattice_of axes a) ^ 2 * Cmod (neighbour_component ls a E))%R.
Proof. exact localized_mass. Qed.
Print Assumptions C118_localized_one_band.

(** For two bands at two samples and the identity as operator every mass is infinite, whatever the
    energies: elements between different bands of one cell are read. *)
Theorem C118_localized_two_bands_refuted :
  forall hbar axes energies, ashape energies = [4]%nat -> length axes = 1%nat -> norm 1 (lattice_of axes 0) <> 0%R ->
  exists M, get_wavepacket_localized_effective_mass hbar 2 [2%nat] axes {| ashape := [8]%nat; aflat := fun t => cdelta ((t / 2) mod 2) (t mod 2) |} energies 0 = Some M /\ M 0%nat = None /\ M 1%nat = None.
Proof. exact swapped_order. Qed.
Print Assumptions C118_localized_two_bands_refuted.
