(** Energies bound expectation values, and the lowest energy is concave in the potential (C142). *)
From Coq Require Import Reals.
From Verif Require Import ZLib Csum DFT NumPy SpecReal Basis SpecBasis Operator SpecOperator Wavepacket SpecWavepacket Hamiltonian SpecHamiltonian
  Localize SpecLocalize EigenBasis SpecSymmetry HamiltonianFacts SymmetryFacts Variational.
Local Open Scope R_scope.
Local Open Scope C_scope.

(** The expectation value of a Hermitian operator is real and lies between the lowest and the
    highest eigenvalue times the squared norm of the state; both are attained. *)
Theorem C142_expectation_values :
  forall same eigh b h psi, identity_test same -> eigh_ok eigh -> bwf b -> explicit_orthonormal b -> op_wf h ->
  orow h = b -> ocol h = b -> hermitian (bsize b) (op_entry h) ->
  exists e v x, eigenstates_hermitian eigh h None = Some (bsize b, e, v) /\ calculate_expectation same h b psi = Some (RtoC x) /\
    (e 0%nat * rsum (fun i => Cnorm2 (psi i)) (bsize b) <= x <= e (bsize b - 1)%nat * rsum (fun i => Cnorm2 (psi i)) (bsize b))%R /\
    exists low high, rsum (fun i => Cnorm2 (low i)) (bsize b) = 1%R /\ rsum (fun i => Cnorm2 (high i)) (bsize b) = 1%R /\
      calculate_expectation same h b low = Some (RtoC (e 0%nat)) /\ calculate_expectation same h b high = Some (RtoC (e (bsize b - 1)%nat)).
Proof. exact expectation_bounds. Qed.
Print Assumptions C142_expectation_values.
(** Two coupled levels. *)
Example C142_two_level : bwf (BFund 2) /\ explicit_orthonormal (BFund 2) /\ op_wf level_pair /\ orow level_pair = BFund 2 /\ ocol level_pair = BFund 2 /\
  hermitian 2 (op_entry level_pair) /\ op_entry level_pair 0 1 <> 0.
Proof. exact level_pair_ok. Qed.

(** In a mixture of two potentials the lowest energy is not below the mixture of the lowest
    energies, and the highest not above the mixture of the highest. *)
Theorem C142_concave :
  forall same hbar mass axes delta inv frac, identity_test same -> bwf (BTuple axes) -> explicit_orthonormal (BTuple axes) ->
  is_inverse (length axes) delta inv -> let B := BTuple axes in
  forall eigh data data1 data2 t, eigh_ok eigh -> real_valued B data1 -> real_valued B data2 -> (0 <= t <= 1)%R ->
  (forall x, (x < bfund B)%nat -> amplitude B data x = RtoC t * amplitude B data1 x + RtoC (1 - t) * amplitude B data2 x) ->
  exists H H1 H2 e v e1 v1 e2 v2, total_surface_hamiltonian same hbar axes inv data mass frac = Some H /\
    total_surface_hamiltonian same hbar axes inv data1 mass frac = Some H1 /\
    total_surface_hamiltonian same hbar axes inv data2 mass frac = Some H2 /\
    eigenstates_hermitian eigh H None = Some (bsize B, e, v) /\ eigenstates_hermitian eigh H1 None = Some (bsize B, e1, v1) /\
    eigenstates_hermitian eigh H2 None = Some (bsize B, e2, v2) /\
    (t * e1 0%nat + (1 - t) * e2 0%nat <= e 0%nat)%R /\
    (e (bsize B - 1)%nat <= t * e1 (bsize B - 1)%nat + (1 - t) * e2 (bsize B - 1)%nat)%R.
Proof. exact concave_energies. Qed.
Print Assumptions C142_concave.
(** A quarter of the cosine potential and three quarters of its double. *)
Example C142_concave_case : bwf (BTuple cos_axes) /\ explicit_orthonormal (BTuple cos_axes) /\
  is_inverse (length cos_axes) (fun _ _ => 1%R) (fun _ _ => 1%R) /\ real_valued (BTuple cos_axes) cos_data /\
  real_valued (BTuple cos_axes) (fun k => RtoC 2 * cos_data k) /\
  forall x, (x < bfund (BTuple cos_axes))%nat -> amplitude (BTuple cos_axes) (fun k => RtoC (7 / 4) * cos_data k) x =
    RtoC (1 / 4) * amplitude (BTuple cos_axes) cos_data x + RtoC (1 - 1 / 4) * amplitude (BTuple cos_axes) (fun k => RtoC 2 * cos_data k) x.
Proof.
  split; [cbn; lia|]. split; [cbn; auto|]. split; [exact (proj1 (proj2 ex_cos_odd))|]. split; [exact cos_real|]. exact cos_mixture.
Qed.
