(** Evolution in scaled and shifted potentials, and overlaps at opposite times (C144). *)
From Coq Require Import Reals.
From Verif Require Import ZLib Csum DFT NumPy SpecReal Basis SpecBasis Operator SpecOperator Wavepacket SpecWavepacket Hamiltonian SpecHamiltonian
  SpecMatrix Localize SpecLocalize EigenBasis SpecEigenBasis HamiltonianFacts Dynamics SupercellDynamics ReversalProofs2 ReversalFacts2.
Local Open Scope R_scope.

(** A real potential multiplied by [r] and raised by [c], for a mass divided by [r], gives the
    states of [r] times the time, turned by a common phase; probability densities are the same. *)
Theorem C144_scaled_and_shifted :
  forall same eigh hbar mass axes delta inv frac data data' r c, identity_test same -> eigh_ok eigh ->
  bwf (BTuple axes) -> explicit_orthonormal (BTuple axes) -> is_inverse (length axes) delta inv ->
  let B := BTuple axes in
  (0 < bsize B)%nat -> hbar <> 0 -> mass <> 0 -> r <> 0 -> real_valued B data ->
  (forall x, (x < bfund B)%nat -> amplitude B data' x = Cplus (Cmult (RtoC r) (amplitude B data x)) (RtoC c)) ->
  exists H H', total_surface_hamiltonian same hbar axes inv data mass frac = Some H /\
    total_surface_hamiltonian same hbar axes inv data' (mass / r) frac = Some H' /\
  forall psi nt times times', (forall k, (k < nt)%nat -> times k = r * times' k) ->
  exists out out', solve_schrodinger_equation_decomposition eigh hbar psi nt times H = Some out /\
    solve_schrodinger_equation_decomposition eigh hbar psi nt times' H' = Some out' /\
    ashape out = [nt; bsize B] /\ ashape out' = [nt; bsize B] /\
    forall k, (k < nt)%nat ->
      (forall i, (i < bsize B)%nat -> at2 out' k i = (cexp (- Ci * RtoC c * RtoC (times' k) / RtoC hbar) * at2 out k i)%C) /\
      forall x, (x < bfund B)%nat -> Cnorm2 (amplitude B (at2 out' k) x) = Cnorm2 (amplitude B (at2 out k) x).
Proof. exact affine_evolution. Qed.
Print Assumptions C144_scaled_and_shifted.
Example C144_affine_case : bwf (BTuple cos_axes) /\ explicit_orthonormal (BTuple cos_axes) /\ (0 < bsize (BTuple cos_axes))%nat /\
  is_inverse (length cos_axes) (fun _ _ => 1) (fun _ _ => 1) /\ real_valued (BTuple cos_axes) cos_data /\
  amplitude (BTuple cos_axes) cos_data 0 <> amplitude (BTuple cos_axes) cos_data 1 /\
  forall x, (x < bfund (BTuple cos_axes))%nat ->
    amplitude (BTuple cos_axes) cos_affine x = Cplus (Cmult (RtoC 2) (amplitude (BTuple cos_axes) cos_data x)) (RtoC 3).
Proof. exact ex_affine. Qed.

(** The amplitude for going from one state to another in a time is that between the first state
    and the second one evolved for the opposite time. *)
Theorem C144_overlaps :
  forall eigh n H hbar, eigh_ok eigh -> (0 < n)%nat -> square n H -> hermitian n (op_entry H) -> hbar <> 0 ->
  forall psi phi nt times times', (forall k, (k < nt)%nat -> times' k = - times k) ->
  exists out out', solve_schrodinger_equation_decomposition eigh hbar psi nt times H = Some out /\
    solve_schrodinger_equation_decomposition eigh hbar phi nt times' H = Some out' /\ ashape out = [nt; n] /\ ashape out' = [nt; n] /\
    forall k, (k < nt)%nat -> inner_product n (at2 out' k) psi = inner_product n phi (at2 out k).
Proof. exact overlap_reversed. Qed.
Print Assumptions C144_overlaps.
Example C144_two_level : square 2 coupled /\ hermitian 2 (op_entry coupled).
Proof. exact (conj (proj1 coupled_state) (proj1 (proj2 coupled_state))). Qed.
