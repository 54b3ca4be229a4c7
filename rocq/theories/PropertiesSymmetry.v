(** C135 and C136: energies at opposite Bloch fractions and of moved potentials.
    Each theorem is closed by the proof of the named lemma. *)
From Coq Require Import Reals.
From Verif Require Import ZLib Csum DFT NumPy Basis SpecBasis Operator SpecOperator SpecMatrix Localize SpecLocalize Spectral3 EigenBasis
  SpecReal Lattice SpecWavepacket Hamiltonian SpecHamiltonian HamiltonianFacts SpecSeed SpecSymmetry SymmetryProofs SymmetryProofs2 SymmetryFacts.
Local Open Scope R_scope.

(** ** C135 *)

(** With an odd number of plane waves along every axis, a real potential has the same energies
    at a Bloch fraction and at its opposite. *)
Theorem C135_opposite_fractions :
  forall same hbar mass axes delta inv, identity_test same -> Forall plane_wave_axis axes -> is_inverse (length axes) delta inv ->
  forall eigh data frac frac', eigh_ok eigh -> Forall Nat.Odd (map bsize axes) -> real_valued (BTuple axes) data ->
  (forall a, (a < length axes)%nat -> fraction frac' a = - fraction frac a) ->
  exists H H', total_surface_hamiltonian same hbar axes inv data mass frac = Some H /\
    total_surface_hamiltonian same hbar axes inv data mass frac' = Some H' /\
  forall lo hi, (lo <= hi)%nat -> (hi < bsize (BTuple axes))%nat -> exists e v e' v',
    eigenstates_hermitian eigh H (Some (Z.of_nat lo, Z.of_nat hi)) = Some ((hi - lo + 1)%nat, e, v) /\
    eigenstates_hermitian eigh H' (Some (Z.of_nat lo, Z.of_nat hi)) = Some ((hi - lo + 1)%nat, e', v') /\
    forall k, (k < hi - lo + 1)%nat -> e' k = e k.
Proof. exact reversed_energies. Qed.
Print Assumptions C135_opposite_fractions.

(** With an even number it fails: the higher energy of a free particle described by two plane
    waves is larger at minus a quarter than at a quarter. *)
Theorem C135_even_refuted :
  forall same eigh, identity_test same -> eigh_ok eigh ->
  exists H H' e v e' v',
    total_surface_hamiltonian same 1 [BFundT 2] (fun _ _ => 1) (fun _ => RtoC 0) (/ 2) (Some (fun _ => / 4)) = Some H /\
    total_surface_hamiltonian same 1 [BFundT 2] (fun _ _ => 1) (fun _ => RtoC 0) (/ 2) (Some (fun _ => - / 4)) = Some H' /\
    eigenstates_hermitian eigh H (Some (1, 1)%Z) = Some (1%nat, e, v) /\
    eigenstates_hermitian eigh H' (Some (1, 1)%Z) = Some (1%nat, e', v') /\ e 0%nat < e' 0%nat.
Proof. exact even_differs. Qed.
Print Assumptions C135_even_refuted.

(** The cosine potential in three plane waves on five points; plane waves cut off along one axis
    and not along the other. *)
Example C135_case : Forall plane_wave_axis cos_axes /\ is_inverse (length cos_axes) (fun _ _ => 1) (fun _ _ => 1) /\
  Forall Nat.Odd (map bsize cos_axes) /\ real_valued (BTuple cos_axes) cos_data /\
  amplitude (BTuple cos_axes) cos_data 0 <> amplitude (BTuple cos_axes) cos_data 1 /\
  Forall plane_wave_axis [BTrans 3 4; BFundT 5] /\ Forall Nat.Odd (map bsize [BTrans 3 4; BFundT 5]).
Proof. exact ex_cos_odd. Qed.
Example C135_eigh_case : exists eigh, eigh_ok eigh.
Proof. exact eigh_exists. Qed.

(** ** C136 *)

(** Moving a real potential by points of the grid, across the periodic boundary, changes no
    energy at any Bloch fraction. *)
Theorem C136_moved_potential :
  forall same hbar mass axes delta inv c eigh data data' frac, identity_test same -> Forall plane_wave_axis axes ->
  is_inverse (length axes) delta inv -> length c = length axes -> eigh_ok eigh -> real_valued (BTuple axes) data ->
  let N := map bfund axes in
  (forall x, in_shape x N -> amplitude (BTuple axes) data' (ravel N x) = amplitude (BTuple axes) data (ravel N (displaced N c x))) ->
  exists H H', total_surface_hamiltonian same hbar axes inv data mass frac = Some H /\
    total_surface_hamiltonian same hbar axes inv data' mass frac = Some H' /\
  forall lo hi, (lo <= hi)%nat -> (hi < bsize (BTuple axes))%nat -> exists e v e' v',
    eigenstates_hermitian eigh H (Some (Z.of_nat lo, Z.of_nat hi)) = Some ((hi - lo + 1)%nat, e, v) /\
    eigenstates_hermitian eigh H' (Some (Z.of_nat lo, Z.of_nat hi)) = Some ((hi - lo + 1)%nat, e', v') /\
    forall k, (k < hi - lo + 1)%nat -> e' k = e k.
Proof. exact moved_potential. Qed.
Print Assumptions C136_moved_potential.

(** The cosine potential moved by two points. *)
Example C136_case : Forall plane_wave_axis cos_axes /\ real_valued (BTuple cos_axes) cos_data /\
  forall x, in_shape x (map bfund cos_axes) ->
    amplitude (BTuple cos_axes) cos_moved (ravel (map bfund cos_axes) x) =
    amplitude (BTuple cos_axes) cos_data (ravel (map bfund cos_axes) (displaced (map bfund cos_axes) [2%Z] x)).
Proof. exact ex_cos_moved. Qed.
