(** Properties of plots of the energies of bands (C125). *)
From Coq Require Import Reals ZArith List.
From Coquelicot Require Import Coquelicot.
From Verif Require Import ZLib Csum DFT NumPy Index Basis SpecBasis Lattice SpecReal Operator Hamiltonian Paths SpecPaths SpecReduce SpecStateList StateList VolumeBasis SpecVolumeBasis VolumeBasisFacts
  SpecWaveLists Plots SpecPlots Localize EffectiveMass SpecEffectiveMass EnergyPlots SpecEnergyPlots SpecKernel KernelFacts EnergyPlotsProofs3 EnergyPlotsFacts EffectiveMassFacts2.
Import ListNotations.
Local Open Scope R_scope.

(** ** C125 *)

(** Two bands at three by two samples of a skew lattice, and two bands of a free particle. *)
Example ex_C125_skew : identity_test (fun _ _ => false) /\ sampled ex_skew [3; 2]%nat ex_skew_inverse skew_sample_inverse /\
  has_bands ex_skew 2 (nprod [3; 2]%nat) {| ashape := [12; 4]%nat; aflat := fun i => RtoC (INR i) |} {| ashape := [2; 6]%nat; aflat := fun i => RtoC (INR i) |} /\
  Forall (fun b => (b < 2)%nat) (drawn_bands 2 (Some [1; 0]%nat)) /\ in_shape [] (remaining 0%nat [1; 0]%nat [3; 2]%nat).
Proof. split; [exact ex_is_identity|]. split; [exact skew_sampled|]. split; [exact skew_bands|]. split; repeat constructor. Qed.
Example ex_C125_planes : sampled cube3 [1; 1; 2]%nat cube3_inverse cube3_sample_inverse /\ in_shape [1]%nat (remaining 0%nat [0; 1]%nat [1; 1; 2]%nat).
Proof. split; [exact cube3_sampled|repeat constructor]. Qed.
Example ex_C125_free : sampled [chain1] [4%nat] (fun _ _ => / 2) (fun _ _ => / 8) /\
  has_bands [chain1] 2 4 {| ashape := [8; 1]%nat; aflat := fun _ => RtoC 1 |} (chain1_energies 1) /\
  forall b s, (b < 2)%nat -> (s < 4)%nat -> aflat (chain1_energies 1) (b * 4 + s)%nat =
    RtoC (1 ^ 2 / (2 * 1) * free_band (norm 1 (lattice_of [chain1] 0)) b (sample_momentum (norm 1 (lattice_of [chain1] 0)) 4 s)).
Proof. exact (conj chain1_sampled (chain1_bands 1)). Qed.
Example ex_C125_uneven : is_argsort some_argsort /\ is_inverse 2 (lattice_of ex_skew) ex_skew_inverse.
Proof. split; [exact some_argsort_ok|]. exact (proj2 (proj2 (proj2 ex_skew_ok))). Qed.

(** Energies against momentum: for each drawn band, in the order asked for, the line along the
    axis through the sample with the largest energy; the point of a sample is at its crystal
    momentum along the reciprocal lattice vector of the axis. *)
Theorem C125_momentum_lines : forall same axes ls inv inv' nb data ev,
  identity_test same -> sampled axes ls inv inv' -> has_bands axes nb (nprod ls) data ev -> (0 < nb)%nat ->
  forall bands a m, Forall (fun b => (b < nb)%nat) (drawn_bands nb bands) -> (a < length axes)%nat -> (2 <= nth a ls 0)%nat ->
  exists lines, plot_wavepacket_eigenvalues_1d_k same nb (map BFundT ls) axes inv' data ev a bands m = Some lines /\
    Forall2 (fun b line => line_through_largest ls a (ascending (nth a ls 0%nat)) (fun full => band_value (nprod ls) (aflat ev) b (ravel ls full))
      (fun full => along (length axes) (fun c => 2 * PI * inv c a) (sample_vector ls inv full)) (sqrt (rsum (fun c => (2 * PI * inv c a) ^ 2) (length axes)) / INR (nth a ls 0%nat)) m line)
      (drawn_bands nb bands) lines.
Proof. exact fact_k. Qed.
Print Assumptions C125_momentum_lines.

(** Energies against position: the same with the Fourier transform of the energies at the lattice
    sites, at their positions along the lattice vector of the axis. *)
Theorem C125_position_lines : forall same axes ls inv inv' nb data ev,
  identity_test same -> sampled axes ls inv inv' -> has_bands axes nb (nprod ls) data ev -> (0 < nb)%nat ->
  forall bands a m, Forall (fun b => (b < nb)%nat) (drawn_bands nb bands) -> (a < length axes)%nat -> (2 <= nth a ls 0)%nat ->
  exists lines, plot_wavepacket_eigenvalues_1d_x same nb (map BFundT ls) axes data ev a bands m = Some lines /\
    Forall2 (fun b line => line_through_largest ls a (fun i => i) (at_site axes ls inv (band_value (nprod ls) (aflat ev) b))
      (fun full => along (length axes) (lattice_of axes a) (site axes full)) (sqrt (rsum (fun c => lattice_of axes a c ^ 2) (length axes))) m line)
      (drawn_bands nb bands) lines.
Proof. exact fact_x. Qed.
Print Assumptions C125_position_lines.

(** A mesh shows the energy of each sample in the plane, drawn at the true distances of the crystal
    momenta; without an index it is the plane through the largest energy. *)
Theorem C125_mesh : forall same axes ls inv inv' (ev : ndarray),
  identity_test same -> sampled axes ls inv inv' -> nprod (ashape ev) = nprod ls ->
  forall a b m, (a < length axes)%nat -> (b < length axes)%nat -> a <> b ->
  (forall idx, in_shape idx (remaining 0%nat [a; b] ls) ->
    let place i j full := in_shape full ls /\ at_axes (length axes) [a; b] [ascending (nth a ls 0%nat) i; ascending (nth b ls 0%nat) j] idx full in
    exists me, plot_wavepacket_eigenvalues_2d_k same ls axes inv' ev a b (Some idx) m = Some me /\
      (forall i j full, (i < nth a ls 0)%nat -> (j < nth b ls 0)%nat -> place i j full -> shows m (aflat ev (ravel ls full)) (mesh_value me i j)) /\
      (forall i j i' j' full full', (i < nth a ls 0)%nat -> (j < nth b ls 0)%nat -> (i' < nth a ls 0)%nat -> (j' < nth b ls 0)%nat ->
         place i j full -> place i' j' full' ->
         sqrt ((fst (mesh_at me i j) - fst (mesh_at me i' j')) ^ 2 + (snd (mesh_at me i j) - snd (mesh_at me i' j')) ^ 2) =
         distance (length axes) (sample_vector ls inv full) (sample_vector ls inv full')) /\
      (forall i j, (S i < nth a ls 0)%nat -> (j < nth b ls 0)%nat ->
         fst (mesh_at me (S i) j) - fst (mesh_at me i j) = sqrt (rsum (fun c => (2 * PI * inv c a) ^ 2) (length axes)) / INR (nth a ls 0%nat) /\ snd (mesh_at me (S i) j) = snd (mesh_at me i j)) /\
      (forall i j, (i < nth a ls 0)%nat -> (S j < nth b ls 0)%nat -> snd (mesh_at me i j) < snd (mesh_at me i (S j))) /\
      limits_fit m (nth a ls 0%nat) (nth b ls 0%nat) (mesh_value me) (mesh_lim me)) /\
  exists top, in_shape top ls /\ (forall other, in_shape other ls -> Cmod (aflat ev (ravel ls other)) <= Cmod (aflat ev (ravel ls top))) /\
    in_shape (remaining 0%nat [a; b] top) (remaining 0%nat [a; b] ls) /\
    plot_wavepacket_eigenvalues_2d_k same ls axes inv' ev a b None m = plot_wavepacket_eigenvalues_2d_k same ls axes inv' ev a b (Some (remaining 0%nat [a; b] top)) m.
Proof. exact fact_mesh. Qed.
Print Assumptions C125_mesh.

(** The samples in a plane are drawn at two components of their crystal momenta; without an index
    every sample is drawn, whatever its place along other axes. *)
Theorem C125_samples : forall axes ls inv inv',
  sampled axes ls inv inv' -> forall a b, (a < length axes)%nat -> (b < length axes)%nat -> a <> b ->
  (forall idx, in_shape idx (remaining 0%nat [a; b] ls) ->
     exists L, NoDup L /\ (forall full, In full L <-> in_shape full ls /\ remaining 0%nat [a; b] full = idx) /\
       plot_wavepacket_sample_frequencies ls inv' (a, b) (Some idx) = Some (map (fun full => (sample_vector ls inv full a, sample_vector ls inv full b)) L)) /\
  (exists L, NoDup L /\ (forall full, In full L <-> in_shape full ls) /\
     plot_wavepacket_sample_frequencies ls inv' (a, b) None = Some (map (fun full => (sample_vector ls inv full a, sample_vector ls inv full b)) L)).
Proof. exact fact_samples. Qed.
Print Assumptions C125_samples.

(** Without an index, not only the plane at zero is drawn. *)
Theorem C125_default_plane_refuted : ~ (forall axes ls inv inv' a b, sampled axes ls inv inv' -> (a < length axes)%nat -> (b < length axes)%nat -> a <> b ->
  plot_wavepacket_sample_frequencies ls inv' (a, b) None = plot_wavepacket_sample_frequencies ls inv' (a, b) (Some (map (fun _ => 0%nat) (remaining 0%nat [a; b] ls)))).
Proof. exact default_plane_refuted. Qed.
Print Assumptions C125_default_plane_refuted.

(** Samples in any places: every band in the order of the momenta along the reciprocal lattice
    vector of the axis, each sample once. *)
Theorem C125_uneven_lines : forall argsort nd (D inv : nat -> nat -> R) nb ns (fraction : nat -> nat -> R) (ev : ndarray),
  is_argsort argsort -> is_inverse nd D inv -> nprod (ashape ev) = (nb * ns)%nat ->
  forall bands a m, Forall (fun b => (b < nb)%nat) (drawn_bands nb bands) -> (a < nd)%nat ->
    exists order lines, (forall i, (i < ns)%nat -> (order i < ns)%nat) /\ (forall i j, (i < ns)%nat -> (j < ns)%nat -> order i = order j -> i = j) /\
      plot_uneven_wavepacket_eigenvalues_1d_k argsort nd inv nb ns fraction ev a bands m = Some lines /\
      Forall2 (fun b line => length line = ns /\
        (forall i, (i < ns)%nat -> line_x line i = along nd (fun c => 2 * PI * inv c a) (fun c => rsum (fun k => fraction k (order i) * (2 * PI * inv c k)) nd) /\ shows m (band_value ns (aflat ev) b (order i)) (line_y line i)) /\
        (forall i j, (i <= j < ns)%nat -> line_x line i <= line_x line j) /\
        (m = PAngle -> forall i, (S i < ns)%nat -> Rabs (line_y line (S i) - line_y line i) <= PI)) (drawn_bands nb bands) lines.
Proof. exact uneven. Qed.
Print Assumptions C125_uneven_lines.

(** Against the band: the Fourier transform of its energies at the site one lattice vector away, and
    with a mass the line of a free particle. *)
Theorem C125_components : forall same hbar axes ls inv inv' nb data ev,
  identity_test same -> sampled axes ls inv inv' -> has_bands axes nb (nprod ls) data ev ->
  forall bands a m (free : option R), Forall (fun b => (b < nb)%nat) (drawn_bands nb bands) -> (a < length axes)%nat -> (2 <= nth a ls 0)%nat ->
  (forall mass, free = Some mass -> mass <> 0) ->
  exists line, plot_wavepacket_transformed_energy_1d same hbar nb (map BFundT ls) axes data ev free (Z.of_nat a) bands m =
      Some (line, option_map (fun mass => map (fun b => (INR b, sqrt (INR (nprod ls)) * (hbar ^ 2 * (2 * INR b + 1) / (mass * norm (length axes) (lattice_of axes a) ^ 2)))) (drawn_bands nb bands)) free) /\
    length line = length (drawn_bands nb bands) /\
    (forall i, (i < length (drawn_bands nb bands))%nat -> let b := nth i (drawn_bands nb bands) 0%nat in
       line_x line i = INR b /\ shows m (at_site axes ls inv (band_value (nprod ls) (aflat ev) b) (next_site (length axes) a)) (line_y line i)).
Proof. exact fact_components. Qed.
Print Assumptions C125_components.

(** The height of that line is the modulus of the transform of the band of a free particle over the
    first zone, in the normalisation of the samples. *)
Theorem C125_free_integral : forall hbar mass delta b ns,
  0 < delta -> 0 < mass -> (0 < ns)%nat ->
  exists I, is_RInt (fun k => hbar ^ 2 / (2 * mass) * free_band delta b k * cos (k * delta)) (- (PI / delta)) (PI / delta) I /\
    is_RInt (fun k => hbar ^ 2 / (2 * mass) * free_band delta b k * sin (k * delta)) (- (PI / delta)) (PI / delta) 0 /\
    sqrt (INR ns) * (hbar ^ 2 * (2 * INR b + 1) / (mass * delta ^ 2)) = sqrt (INR ns) * (delta / (2 * PI) * Rabs I).
Proof. exact fact_integral. Qed.
Print Assumptions C125_free_integral.

(** For the bands of a free particle in one dimension the line is above that of the free particle by
    a known factor, which tends to one with the number of samples. *)
Theorem C125_free_particle : forall same hbar la n inv inv' nb data ev mass,
  identity_test same -> hbar <> 0 -> 0 < mass -> (2 <= n)%nat -> sampled [la] [n] inv inv' -> has_bands [la] nb n data ev ->
  let delta := norm 1 (lattice_of [la] 0) in
  (forall b s, (b < nb)%nat -> (s < n)%nat -> aflat ev (b * n + s)%nat = RtoC (hbar ^ 2 / (2 * mass) * free_band delta b (sample_momentum delta n s))) ->
  forall bands, Forall (fun b => (b < nb)%nat) (drawn_bands nb bands) ->
  exists line free, plot_wavepacket_transformed_energy_1d same hbar nb [BFundT n] [la] data ev (Some mass) 0 bands PAbs = Some (line, Some free) /\
    length line = length (drawn_bands nb bands) /\ length free = length (drawn_bands nb bands) /\
    forall i, (i < length (drawn_bands nb bands))%nat -> line_x line i = line_x free i /\
      (Nat.Even n -> line_y free i = line_y line i * (sin (PI / INR n) / (PI / INR n)) ^ 2) /\
      line_y line i * (1 - (PI / INR n) ^ 2 / 3) <= line_y free i /\ line_y free i * cos (PI / INR n) <= line_y line i.
Proof. exact fact_free. Qed.
Print Assumptions C125_free_particle.

(** A band out of range is refused, and so is an axis with a single sample. *)
Theorem C125_raise : forall same hbar nb ls axes inv' data ev free a bands m,
  length ls = length axes -> (a < length axes)%nat ->
  (~ Forall (fun b => (b < nb)%nat) (drawn_bands nb bands) ->
     plot_wavepacket_eigenvalues_1d_k same nb (map BFundT ls) axes inv' data ev a bands m = None /\
     plot_wavepacket_eigenvalues_1d_x same nb (map BFundT ls) axes data ev a bands m = None /\
     plot_wavepacket_transformed_energy_1d same hbar nb (map BFundT ls) axes data ev free (Z.of_nat a) bands m = None) /\
  ((nth a ls 0 < 2)%nat -> plot_wavepacket_transformed_energy_1d same hbar nb (map BFundT ls) axes data ev free (Z.of_nat a) bands m = None).
Proof. exact fact_raise. Qed.
Print Assumptions C125_raise.
