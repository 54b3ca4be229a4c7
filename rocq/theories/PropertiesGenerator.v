(** Properties of the compiled Hamiltonian generator (C71), of the Hamiltonian in plane waves
    and explicit z states (C72) and of the compiled wavefunctions (C73). *)
From Coq Require Import Reals List ZArith Arith Lia Lra.
From Verif Require Import ZLib Csum DFT NumPy Spec SpecReal Basis SpecBasis Operator SpecOperator Wavepacket SpecWavepacket Hamiltonian SpecHamiltonian
  Localize SpecLocalize Oscillator Generator SpecGenerator GeneratorProofs GeneratorProofs2 GeneratorProofs3 GeneratorProofs6 GeneratorFacts GeneratorFacts2.
Import ListNotations.
Local Open Scope R_scope.
Local Open Scope C_scope.

(** ** C71 *)

(** A potential that varies along z, its Fourier coefficients and two orthonormal complex z states. *)
Example ex_spike :
  fourier_coefficients 1 1 2 spike (fun _ _ z => spike z) /\ spike 0 <> spike 1 /\
  forall a b, (a < 2)%nat -> (b < 2)%nat -> inner_product 2 (twisted a) (twisted b) = cdelta a b.
Proof. split; [exact spike_coefficients|]. split; [intros H; injection H; lra|]. exact twisted_orthonormal. Qed.

(** Every potential has Fourier coefficients. *)
Theorem C71_coefficients_exist : forall n0 n1 nz V, (0 < n0)%nat -> (0 < n1)%nat -> exists ft, fourier_coefficients n0 n1 nz V ft.
Proof. intros n0 n1 nz V H0 H1. eexists. exact (ifft2_coefficients n0 n1 nz V H0 H1). Qed.
Print Assumptions C71_coefficients_exist.

(** Oscillator states: the matrix of the potential between plane waves times oscillator
    states (at most 21), for every potential, spacing and offset of the grid. *)
Theorem C71_oscillator_elements : forall hbar n0 n1 nz r0 r1 m V ft dz mass omega z_offset,
  (0 < n0)%nat -> (0 < n1)%nat -> (0 <= dz)%R -> (0 < hbar)%R -> (0 < mass)%R -> (0 < omega)%R -> (m <= 21)%nat ->
  fourier_coefficients n0 n1 nz V ft ->
  exists rows, calculate_off_diagonal_energies hbar (to_list3 n0 n1 nz ft) r0 r1 m dz mass omega z_offset = Some rows /\
    has_shape (r0 * (r1 * m)) (r0 * (r1 * m)) rows /\
    forall i j, (i < r0 * (r1 * m))%nat -> (j < r0 * (r1 * m))%nat ->
      entry rows i j = potential_element (slab_basis n0 n1 nz r0 r1 m
        (fun k z => RtoC (sqrt dz * calculate_sho_wavefunction hbar (dz * INR z + z_offset) omega mass k))) V i j.
Proof. exact energies1_python. Qed.
Print Assumptions C71_oscillator_elements.

(** Explicit z states: the matrix of the potential between plane waves times the complex
    conjugates of the z states. *)
Theorem C71_explicit_elements : forall n0 n1 nz r0 r1 m V ft eig, (0 < n0)%nat -> (0 < n1)%nat -> fourier_coefficients n0 n1 nz V ft ->
  exists rows, calculate_off_diagonal_energies2 (to_list3 n0 n1 nz ft) (to_list2 m nz eig) r0 r1 m = Some rows /\
    has_shape (r0 * (r1 * m)) (r0 * (r1 * m)) rows /\
    forall i j, (i < r0 * (r1 * m))%nat -> (j < r0 * (r1 * m))%nat ->
      entry rows i j = potential_element (slab_basis n0 n1 nz r0 r1 m (fun k z => Cconj (eig k z))) V i j.
Proof. exact energies2_fourier. Qed.
Print Assumptions C71_explicit_elements.

(** So for real z states it is the matrix of the potential in that basis. *)
Theorem C71_real_states : forall n0 n1 nz r0 r1 m V ft eig, (0 < n0)%nat -> (0 < n1)%nat -> fourier_coefficients n0 n1 nz V ft ->
  (forall k z, (k < m)%nat -> (z < nz)%nat -> snd (eig k z) = 0%R) ->
  exists rows, calculate_off_diagonal_energies2 (to_list3 n0 n1 nz ft) (to_list2 m nz eig) r0 r1 m = Some rows /\
    forall i j, (i < r0 * (r1 * m))%nat -> (j < r0 * (r1 * m))%nat ->
      entry rows i j = potential_element (slab_basis n0 n1 nz r0 r1 m eig) V i j.
Proof. exact energies2_real. Qed.
Print Assumptions C71_real_states.

(** Not for complex ones, even orthonormal. *)
Theorem C71_complex_states_refuted : exists V ft eig rows,
  fourier_coefficients 1 1 2 V ft /\
  (forall a b, (a < 2)%nat -> (b < 2)%nat -> inner_product 2 (eig a) (eig b) = cdelta a b) /\
  calculate_off_diagonal_energies2 (to_list3 1 1 2 ft) (to_list2 2 2 eig) 1 1 2 = Some rows /\
  entry rows 0 1 <> potential_element (slab_basis 1 1 2 1 1 2 eig) V 0 1.
Proof.
  destruct twisted_refutes as [rows [E K]]. exists spike, (fun _ _ z => spike z), twisted, rows.
  split; [exact spike_coefficients|]. split; [exact twisted_orthonormal|]. split; [exact E|exact K].
Qed.
Print Assumptions C71_complex_states_refuted.

(** The matrix of a real potential is Hermitian whatever the z states. *)
Theorem C71_hermitian : forall n0 n1 nz r0 r1 m V ft eig rows, (0 < n0)%nat -> (0 < n1)%nat -> fourier_coefficients n0 n1 nz V ft ->
  (forall x, (x < n0 * (n1 * nz))%nat -> snd (V x) = 0%R) ->
  calculate_off_diagonal_energies2 (to_list3 n0 n1 nz ft) (to_list2 m nz eig) r0 r1 m = Some rows ->
  hermitian (r0 * (r1 * m)) (entry rows).
Proof. exact energies2_hermitian. Qed.
Print Assumptions C71_hermitian.

(** ** C72 *)

(** A cubic cell with two points along z, a diagonaliser and real z states. *)
Example ex_explicit_z :
  perpendicular_axis unit3 /\ is_inverse 2 unit3 unit3 /\ is_inverse 1 (fun _ _ => unit3 2%nat 2%nat) (fun _ _ => 1%R) /\
  exists eigh H vecs, eigh_ok eigh /\
    explicit_z_hamiltonian no_test eigh 1 1 1 2 unit3 (fun _ _ => 1%R) spike no_fraction 1 1 flat 1 2 = Some H /\
    orow H = slab_basis 1 1 2 1 1 2 vecs /\ (forall k z, (k < 2)%nat -> (z < 2)%nat -> snd (vecs k z) = 0%R).
Proof. split; [exact unit3_perpendicular|]. split; [exact unit3_inverse2|]. split; [exact unit3_inverse1|]. exact two_real. Qed.

(** The Hamiltonian is built whenever the potential has enough points.  The z states of its
    basis are the lowest eigenstates of the one-dimensional Hamiltonian of the configuration;
    its elements are the kinetic energy and the potential of the configuration in that basis,
    plus the rest of the potential between the complex conjugates of the z states. *)
Theorem C72_elements :
  forall same eigh hbar mass n0 n1 nz r0 r1 m delta inv2 inv1 data config f,
    identity_test same -> eigh_ok eigh -> (0 < r0)%nat -> (0 < r1)%nat -> (0 < n0)%nat -> (0 < n1)%nat ->
    (2 * (r0 - 1) <= n0)%nat -> (2 * (r1 - 1) <= n1)%nat -> (0 < m <= nz)%nat ->
    perpendicular_axis delta -> is_inverse 2 delta inv2 -> is_inverse 1 (fun _ _ => delta 2%nat 2%nat) inv1 ->
    (forall z, (z < nz)%nat -> snd (config z) = 0%R) ->
    let N := (r0 * (r1 * m))%nat in
    (exists q, waves [n0; n1; nz] delta (Some f) q) /\
    exists H Hz vecs e, let B := slab_basis n0 n1 nz r0 r1 m vecs in
      explicit_z_hamiltonian same eigh hbar n0 n1 nz inv2 inv1 data f r0 r1 config mass m = Some H /\
      square N H /\ orow H = B /\ ocol H = B /\ explicit_orthonormal B /\
      total_surface_hamiltonian same hbar [BFund nz] inv1 config mass (Some (fun _ => f 2%nat)) = Some Hz /\
      (forall k x, (k < m)%nat -> (x < nz)%nat -> csum (fun y => op_entry Hz x y * vecs k y) nz = RtoC (e k) * vecs k x) /\
      (forall E, ascending_spectrum nz (op_entry Hz) E -> forall k, (k < m)%nat -> e k = E k) /\
      forall q, waves [n0; n1; nz] delta (Some f) q -> forall i j, (i < N)%nat -> (j < N)%nat ->
        op_entry H i j =
          kinetic_element hbar mass [n0; n1; nz] B q i j +
          potential_element B (fun x => config (x mod nz)%nat) i j +
          potential_element (slab_basis n0 n1 nz r0 r1 m (fun k z => Cconj (vecs k z))) (fun x => data x - config (x mod nz)%nat) i j.
Proof.
  intros same eigh hbar mass n0 n1 nz r0 r1 m delta inv2 inv1 data config f Hs He H0 H1 P0 P1 G0 G1 Hm Hp Hi2 Hi1 Hc N. split.
  - exact (explicit_z_waves n0 n1 nz delta inv2 inv1 f P0 P1 ltac:(lia) Hp Hi2 Hi1).
  - exact (explicit_z_built same eigh hbar mass n0 n1 nz r0 r1 m delta inv2 inv1 data config f Hs He H0 H1 P0 P1 G0 G1 Hm Hp Hi2 Hi1 Hc).
Qed.
Print Assumptions C72_elements.

(** When the z states are real, it is the Hamiltonian of the whole potential in its basis:
    the choice of the configuration only selects the basis. *)
Theorem C72_real_states :
  forall same eigh hbar mass n0 n1 nz r0 r1 m delta inv2 inv1 data config f,
    identity_test same -> eigh_ok eigh -> (0 < r0)%nat -> (0 < r1)%nat -> (0 < n0)%nat -> (0 < n1)%nat ->
    (2 * (r0 - 1) <= n0)%nat -> (2 * (r1 - 1) <= n1)%nat -> (0 < m <= nz)%nat ->
    perpendicular_axis delta -> is_inverse 2 delta inv2 -> is_inverse 1 (fun _ _ => delta 2%nat 2%nat) inv1 ->
    (forall z, (z < nz)%nat -> snd (config z) = 0%R) ->
    forall H vecs q,
      explicit_z_hamiltonian same eigh hbar n0 n1 nz inv2 inv1 data f r0 r1 config mass m = Some H ->
      orow H = slab_basis n0 n1 nz r0 r1 m vecs -> (forall k z, (k < m)%nat -> (z < nz)%nat -> snd (vecs k z) = 0%R) ->
      waves [n0; n1; nz] delta (Some f) q -> forall i j, (i < r0 * (r1 * m))%nat -> (j < r0 * (r1 * m))%nat ->
      op_entry H i j = kinetic_element hbar mass [n0; n1; nz] (orow H) q i j + potential_element (orow H) data i j.
Proof. exact explicit_z_real. Qed.
Print Assumptions C72_real_states.

(** In general it is not: eigenvectors are only defined up to a phase, and for some of
    them the matrix does not belong to the basis it is returned with. *)
Theorem C72_complex_states_refuted : exists same eigh H,
  identity_test same /\ eigh_ok eigh /\
  explicit_z_hamiltonian same eigh 1 1 1 2 unit3 (fun _ _ => 1%R) spike no_fraction 1 1 flat 1 2 = Some H /\
  forall q, waves [1; 1; 2]%nat unit3 (Some no_fraction) q ->
    op_entry H 0 1 <> kinetic_element 1 1 [1; 1; 2]%nat (orow H) q 0 1 + potential_element (orow H) spike 0 1.
Proof.
  destruct two_refutes as [eigh [H [A [B K]]]]. exists no_test, eigh, H.
  split; [exact no_test_identity|]. split; [exact A|]. split; [exact B|exact K].
Qed.
Print Assumptions C72_complex_states_refuted.

(** For real potentials it is always Hermitian. *)
Theorem C72_hermitian :
  forall same eigh hbar mass n0 n1 nz r0 r1 m delta inv2 inv1 data config f,
    identity_test same -> eigh_ok eigh -> (0 < r0)%nat -> (0 < r1)%nat -> (0 < n0)%nat -> (0 < n1)%nat ->
    (2 * (r0 - 1) <= n0)%nat -> (2 * (r1 - 1) <= n1)%nat -> (0 < m <= nz)%nat ->
    perpendicular_axis delta -> is_inverse 2 delta inv2 -> is_inverse 1 (fun _ _ => delta 2%nat 2%nat) inv1 ->
    (forall z, (z < nz)%nat -> snd (config z) = 0%R) ->
    forall H, explicit_z_hamiltonian same eigh hbar n0 n1 nz inv2 inv1 data f r0 r1 config mass m = Some H ->
      (forall x, (x < n0 * (n1 * nz))%nat -> snd (data x) = 0%R) -> hermitian (r0 * (r1 * m)) (op_entry H).
Proof. exact explicit_z_hermitian. Qed.
Print Assumptions C72_hermitian.

(** Too few points for the requested number of plane waves is an error. *)
Theorem C72_too_few_points : forall same eigh hbar n0 n1 nz inv2 inv1 data f r0 r1 config mass m,
  (n0 < 2 * (r0 - 1) \/ n1 < 2 * (r1 - 1))%nat ->
  explicit_z_hamiltonian same eigh hbar n0 n1 nz inv2 inv1 data f r0 r1 config mass m = None.
Proof. exact explicit_z_size. Qed.
Print Assumptions C72_too_few_points.

(** ** C73 *)

(** Skew lattice vectors, and the wave vectors of the three plane waves along the first. *)
Example ex_skew_waves :
  (fst (1, 1)%R * snd (0, 2)%R - snd (1, 1)%R * fst (0, 2)%R)%R <> 0%R /\
  forall i, (i < 3 * (1 * 1))%nat ->
     dot2 ((2 * PI * IZR (freq 3 i))%R, 0%R) (1, 1)%R = (2 * PI * IZR (freq 3 (nth 0 (unravel [3; 1; 1]%nat i) 0%nat)))%R /\
     dot2 ((2 * PI * IZR (freq 3 i))%R, 0%R) (0, 2)%R = (2 * PI * IZR (freq 1 (nth 1 (unravel [3; 1; 1]%nat i) 0%nat)))%R.
Proof.
  split; [cbn [fst snd]; lra|]. intros i Hi. destruct i as [|[|[|i]]]; [| | |lia]; unfold dot2; cbn [fst snd];
    [change (nth 0 (unravel [3; 1; 1]%nat 0) 0%nat) with 0%nat; change (nth 1 (unravel [3; 1; 1]%nat 0) 0%nat) with 0%nat
    |change (nth 0 (unravel [3; 1; 1]%nat 1) 0%nat) with 1%nat; change (nth 1 (unravel [3; 1; 1]%nat 1) 0%nat) with 0%nat
    |change (nth 0 (unravel [3; 1; 1]%nat 2) 0%nat) with 2%nat; change (nth 1 (unravel [3; 1; 1]%nat 2) 0%nat) with 0%nat];
    change (freq 1 0) with 0%Z; split; ring.
Qed.

(** The value at a point is the sum over the states of the grid of coefficient times
    oscillator state times plane wave with the wave vector of the slot, shifted by k. *)
Theorem C73_plane_waves : forall hbar r0 r1 r2 d0 d1 mass omega kx ky vec K x y z, (fst d0 * snd d1 - snd d0 * fst d1)%R <> 0%R ->
  (forall i, (i < r0 * (r1 * r2))%nat ->
     dot2 (K i) d0 = (2 * PI * IZR (freq r0 (nth 0 (unravel [r0; r1; r2] i) 0%nat)))%R /\
     dot2 (K i) d1 = (2 * PI * IZR (freq r1 (nth 1 (unravel [r0; r1; r2] i) 0%nat)))%R) ->
  get_eigenstate_wavefunction hbar r0 r1 r2 d0 d1 mass omega kx ky (map vec (seq 0 (r0 * (r1 * r2)))) (x, y, z) =
  csum (fun i => vec i * RtoC (rust_sho_wavefunction hbar z omega mass (nth 2 (unravel [r0; r1; r2] i) 0%nat)) *
                 cis (dot2 (K i) (x, y) + dot2 (kx, ky) (x, y))) (r0 * (r1 * r2)).
Proof. exact wavefunction_waves. Qed.
Print Assumptions C73_plane_waves.

(** Bloch's theorem: moving by a lattice vector multiplies the function by exp(i k.d), for
    every list of coefficients (also shorter or longer than the grid). *)
Theorem C73_bloch : forall hbar r0 r1 r2 d0 d1 mass omega kx ky vec x y z, (fst d0 * snd d1 - snd d0 * fst d1)%R <> 0%R ->
  forall d, d = d0 \/ d = d1 ->
  get_eigenstate_wavefunction hbar r0 r1 r2 d0 d1 mass omega kx ky vec ((x + fst d)%R, (y + snd d)%R, z) =
  cis (dot2 (kx, ky) d) * get_eigenstate_wavefunction hbar r0 r1 r2 d0 d1 mass omega kx ky vec (x, y, z).
Proof.
  intros hbar r0 r1 r2 d0 d1 mass omega kx ky vec x y z HD d [->| ->].
  - exact (wavefunction_bloch hbar r0 r1 r2 d0 d1 mass omega kx ky vec x y z true HD).
  - exact (wavefunction_bloch hbar r0 r1 r2 d0 d1 mass omega kx ky vec x y z false HD).
Qed.
Print Assumptions C73_bloch.
