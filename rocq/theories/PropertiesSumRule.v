(** C137: the sum of all energies, and energies of shifted, normalised and scaled potentials.
    Each theorem is closed by the proof of the named lemma. *)
From Coq Require Import Reals.
From Verif Require Import ZLib Csum NumPy Basis SpecBasis Operator SpecOperator SpecMatrix Localize SpecLocalize EigenBasis
  SpecReal Lattice SpecWavepacket Hamiltonian SpecHamiltonian HamiltonianFacts SpecSymmetry SumRuleProofs SymmetryFacts.
Local Open Scope R_scope.

(** The energies of all states of a plane-wave basis add up to the kinetic energies of its plane
    waves and, for every state, the mean of the potential over the grid. *)
Theorem C137_sum :
  forall same hbar mass axes delta inv, identity_test same -> Forall plane_wave_axis axes -> is_inverse (length axes) delta inv ->
  forall eigh data frac Q, eigh_ok eigh -> real_valued (BTuple axes) data -> waves (map bsize axes) delta frac Q ->
  exists H e v, total_surface_hamiltonian same hbar axes inv data mass frac = Some H /\
    eigenstates_hermitian eigh H None = Some (bsize (BTuple axes), e, v) /\
    rsum e (bsize (BTuple axes)) = rsum (fun i => hbar * hbar * dot (length axes) (Q i) (Q i) / (2 * mass)) (bsize (BTuple axes)) +
      INR (bsize (BTuple axes)) / INR (nprod (map bfund axes)) *
        rsum (fun x => fst (amplitude (BTuple axes) data x)) (nprod (map bfund axes)).
Proof. exact energy_sum. Qed.
Print Assumptions C137_sum.
Example C137_sum_case : Forall plane_wave_axis cos_axes /\ is_inverse (length cos_axes) (fun _ _ => 1) (fun _ _ => 1) /\
  Forall Nat.Odd (map bsize cos_axes) /\ real_valued (BTuple cos_axes) cos_data /\
  amplitude (BTuple cos_axes) cos_data 0 <> amplitude (BTuple cos_axes) cos_data 1 /\
  Forall plane_wave_axis [BTrans 3 4; BFundT 5] /\ Forall Nat.Odd (map bsize [BTrans 3 4; BFundT 5]).
Proof. exact ex_cos_odd. Qed.
Example C137_waves_case : exists Q, waves (map bsize cos_axes) (fun _ _ => 1) (Some (fun _ => / 4)) Q.
Proof. exact ex_cos_waves. Qed.

(** Adding a constant to the potential adds it to every energy. *)
Theorem C137_shifted :
  forall same eigh hbar mass axes delta inv frac data data' c, identity_test same -> eigh_ok eigh ->
  bwf (BTuple axes) -> explicit_orthonormal (BTuple axes) -> is_inverse (length axes) delta inv ->
  real_valued (BTuple axes) data -> 0 < mass ->
  (forall x, (x < nprod (map bfund axes))%nat -> amplitude (BTuple axes) data' x = Cplus (amplitude (BTuple axes) data x) (RtoC c)) ->
  exists H H', total_surface_hamiltonian same hbar axes inv data mass frac = Some H /\
    total_surface_hamiltonian same hbar axes inv data' mass frac = Some H' /\
  forall lo hi, (lo <= hi)%nat -> (hi < bsize (BTuple axes))%nat -> exists e v e' v',
    eigenstates_hermitian eigh H (Some (Z.of_nat lo, Z.of_nat hi)) = Some ((hi - lo + 1)%nat, e, v) /\
    eigenstates_hermitian eigh H' (Some (Z.of_nat lo, Z.of_nat hi)) = Some ((hi - lo + 1)%nat, e', v') /\
    forall k, (k < hi - lo + 1)%nat -> e' k = e k + c.
Proof. exact shifted_energies. Qed.
Print Assumptions C137_shifted.

(** Normalising a potential on the points of the grid lowers every energy by its smallest value. *)
Theorem C137_normalized :
  forall same eigh hbar mass N delta inv frac data data', identity_test same -> eigh_ok eigh ->
  Forall (fun m => (0 < m)%nat) N -> is_inverse (length N) delta inv ->
  (forall x, (x < nprod N)%nat -> snd (data x) = 0) -> 0 < mass -> normalize_potential (nprod N) data = Some data' ->
  exists x0, (x0 < nprod N)%nat /\ (forall x, (x < nprod N)%nat -> fst (data x0) <= fst (data x)) /\
  exists H H', total_surface_hamiltonian same hbar (map BFund N) inv data mass frac = Some H /\
    total_surface_hamiltonian same hbar (map BFund N) inv data' mass frac = Some H' /\
  forall lo hi, (lo <= hi)%nat -> (hi < nprod N)%nat -> exists e v e' v',
    eigenstates_hermitian eigh H (Some (Z.of_nat lo, Z.of_nat hi)) = Some ((hi - lo + 1)%nat, e, v) /\
    eigenstates_hermitian eigh H' (Some (Z.of_nat lo, Z.of_nat hi)) = Some ((hi - lo + 1)%nat, e', v') /\
    forall k, (k < hi - lo + 1)%nat -> e' k = e k - fst (data x0).
Proof. exact normalized_energies. Qed.
Print Assumptions C137_normalized.
(** Six points, with values that differ; C137_normalized's data also meet C137_shifted. *)
Example C137_normalized_case : (forall x, snd (ramp x) = 0) /\ exists w, normalize_potential 6 ramp = Some w /\ w 0%nat <> w 1%nat.
Proof. exact ex_ramp. Qed.

(** Multiplying the potential by a positive factor and dividing the mass by it multiplies every
    energy by it. *)
Theorem C137_scaled :
  forall same eigh hbar mass axes delta inv frac data data' s, identity_test same -> eigh_ok eigh ->
  bwf (BTuple axes) -> explicit_orthonormal (BTuple axes) -> is_inverse (length axes) delta inv ->
  real_valued (BTuple axes) data -> 0 < mass -> 0 < s ->
  (forall x, (x < nprod (map bfund axes))%nat -> amplitude (BTuple axes) data' x = Cmult (RtoC s) (amplitude (BTuple axes) data x)) ->
  exists H H', total_surface_hamiltonian same hbar axes inv data mass frac = Some H /\
    total_surface_hamiltonian same hbar axes inv data' (mass / s) frac = Some H' /\
  forall lo hi, (lo <= hi)%nat -> (hi < bsize (BTuple axes))%nat -> exists e v e' v',
    eigenstates_hermitian eigh H (Some (Z.of_nat lo, Z.of_nat hi)) = Some ((hi - lo + 1)%nat, e, v) /\
    eigenstates_hermitian eigh H' (Some (Z.of_nat lo, Z.of_nat hi)) = Some ((hi - lo + 1)%nat, e', v') /\
    forall k, (k < hi - lo + 1)%nat -> e' k = s * e k.
Proof. exact scaled_energies. Qed.
Print Assumptions C137_scaled.
(** Three times the cosine potential. *)
Example C137_scaled_case : forall x, (x < 5)%nat ->
  amplitude (BTuple cos_axes) (fun t => Cmult (RtoC 3) (cos_data t)) x = Cmult (RtoC 3) (amplitude (BTuple cos_axes) cos_data x).
Proof. exact ex_cos_scaled. Qed.
