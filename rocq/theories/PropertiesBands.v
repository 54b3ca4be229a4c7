(** Energies at nearby Bloch fractions (C141). *)
From Coq Require Import Reals.
From Verif Require Import ZLib Csum DFT NumPy SpecReal Basis SpecBasis Operator SpecOperator Wavepacket SpecWavepacket Hamiltonian SpecHamiltonian
  Localize SpecLocalize EigenBasis SpecSymmetry HamiltonianFacts SymmetryFacts BandContinuity.
Local Open Scope R_scope.

(** Between two Bloch fractions no energy changes by more than the largest change of the kinetic
    energy of a plane wave of the grid. *)
Theorem C141_bound :
  forall same hbar mass axes delta inv data, identity_test same -> bwf (BTuple axes) -> explicit_orthonormal (BTuple axes) ->
  is_inverse (length axes) delta inv -> real_valued (BTuple axes) data ->
  let kinetic (q : nat -> nat -> R) k := hbar * hbar * dot (length axes) (q k) (q k) / (2 * mass) in
  forall eigh f f' q q' d, eigh_ok eigh -> waves (map bfund axes) delta f q -> waves (map bfund axes) delta f' q' ->
  (forall k, (k < nprod (map bfund axes))%nat -> Rabs (kinetic q' k - kinetic q k) <= d) ->
  exists H H', total_surface_hamiltonian same hbar axes inv data mass f = Some H /\
  total_surface_hamiltonian same hbar axes inv data mass f' = Some H' /\
  forall lo hi, (lo <= hi)%nat -> (hi < bsize (BTuple axes))%nat -> exists e v e' v',
    eigenstates_hermitian eigh H (Some (Z.of_nat lo, Z.of_nat hi)) = Some ((hi - lo + 1)%nat, e, v) /\
    eigenstates_hermitian eigh H' (Some (Z.of_nat lo, Z.of_nat hi)) = Some ((hi - lo + 1)%nat, e', v') /\
    forall k, (k < hi - lo + 1)%nat -> Rabs (e' k - e k) <= d.
Proof. exact bands_bound. Qed.
Print Assumptions C141_bound.

(** So every band is continuous: near any Bloch fraction the energies change by at most a constant
    times the largest change of a component of the fraction. *)
Theorem C141_continuous :
  forall same hbar mass axes delta inv data, identity_test same -> bwf (BTuple axes) -> explicit_orthonormal (BTuple axes) ->
  is_inverse (length axes) delta inv -> real_valued (BTuple axes) data ->
  forall eigh f, eigh_ok eigh -> 0 < mass ->
  exists H K, total_surface_hamiltonian same hbar axes inv data mass (Some f) = Some H /\ 0 <= K /\
  forall f' eta, 0 <= eta <= 1 -> (forall a, (a < length axes)%nat -> Rabs (f' a - f a) <= eta) ->
  exists H', total_surface_hamiltonian same hbar axes inv data mass (Some f') = Some H' /\
  forall lo hi, (lo <= hi)%nat -> (hi < bsize (BTuple axes))%nat -> exists e v e' v',
    eigenstates_hermitian eigh H (Some (Z.of_nat lo, Z.of_nat hi)) = Some ((hi - lo + 1)%nat, e, v) /\
    eigenstates_hermitian eigh H' (Some (Z.of_nat lo, Z.of_nat hi)) = Some ((hi - lo + 1)%nat, e', v') /\
    forall k, (k < hi - lo + 1)%nat -> Rabs (e' k - e k) <= K * eta.
Proof. exact continuous_bands. Qed.
Print Assumptions C141_continuous.

(** Three plane waves on five points in a cosine potential. *)
Example C141_case : bwf (BTuple cos_axes) /\ explicit_orthonormal (BTuple cos_axes) /\
  is_inverse (length cos_axes) (fun _ _ => 1) (fun _ _ => 1) /\ real_valued (BTuple cos_axes) cos_data /\
  forall f, exists q, waves (map bfund cos_axes) (fun _ _ => 1) f q.
Proof.
  split; [cbn; lia|]. split; [cbn; auto|]. split; [exact (proj1 (proj2 ex_cos_odd))|]. split; [exact cos_real|].
  intros f. exact (cos_grid_waves f).
Qed.
