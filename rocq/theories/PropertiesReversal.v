(** Reversed and moved evolution (C143). *)
From Coq Require Import Reals.
From Verif Require Import ZLib Csum DFT NumPy SpecReal Basis SpecBasis Operator SpecOperator Wavepacket SpecWavepacket Hamiltonian SpecHamiltonian
  Localize SpecLocalize EigenBasis SpecSymmetry HamiltonianFacts SpecSeed Dynamics ReversalProofs ReversalFacts.
Local Open Scope R_scope.

(** A state with complex-conjugate amplitudes, evolved for the opposite times at the opposite
    Bloch fraction, keeps complex-conjugate amplitudes. *)
Theorem C143_reversed_time :
  forall same hbar mass axes delta inv, identity_test same -> Forall plane_wave_axis axes -> is_inverse (length axes) delta inv -> hbar <> 0 ->
  let B := BTuple axes in
  forall eigh data frac frac', eigh_ok eigh -> Forall Nat.Odd (map bsize axes) -> real_valued B data ->
  (forall a, (a < length axes)%nat -> fraction frac' a = - fraction frac a) ->
  exists H H', total_surface_hamiltonian same hbar axes inv data mass frac = Some H /\
    total_surface_hamiltonian same hbar axes inv data mass frac' = Some H' /\
  forall psi psi' nt times times', (forall x, (x < bfund B)%nat -> amplitude B psi' x = Cconj (amplitude B psi x)) ->
    (forall k, (k < nt)%nat -> times' k = - times k) ->
  exists out out', solve_schrodinger_equation_decomposition eigh hbar psi nt times H = Some out /\
    solve_schrodinger_equation_decomposition eigh hbar psi' nt times' H' = Some out' /\
    ashape out = [nt; bsize B] /\ ashape out' = [nt; bsize B] /\
    forall k x, (k < nt)%nat -> (x < bfund B)%nat -> amplitude B (at2 out' k) x = Cconj (amplitude B (at2 out k) x).
Proof. exact reversed_evolution. Qed.
Print Assumptions C143_reversed_time.

(** A state moved by points of the grid, evolved in the potential moved by the same points, is
    the moved evolved state. *)
Theorem C143_moved_state :
  forall same hbar mass axes delta inv, identity_test same -> Forall plane_wave_axis axes -> is_inverse (length axes) delta inv -> hbar <> 0 ->
  let B := BTuple axes in
  forall c eigh data data' frac, length c = length axes -> eigh_ok eigh -> real_valued B data ->
  let N := map bfund axes in
  (forall x, in_shape x N -> amplitude B data' (ravel N x) = amplitude B data (ravel N (displaced N c x))) ->
  exists H H', total_surface_hamiltonian same hbar axes inv data mass frac = Some H /\
    total_surface_hamiltonian same hbar axes inv data' mass frac = Some H' /\
  forall psi psi' nt times,
    (forall x, in_shape x N -> amplitude B psi' (ravel N x) = amplitude B psi (ravel N (displaced N c x))) ->
  exists out out', solve_schrodinger_equation_decomposition eigh hbar psi nt times H = Some out /\
    solve_schrodinger_equation_decomposition eigh hbar psi' nt times H' = Some out' /\
    ashape out = [nt; bsize B] /\ ashape out' = [nt; bsize B] /\
    forall k x, (k < nt)%nat -> in_shape x N -> amplitude B (at2 out' k) (ravel N x) = amplitude B (at2 out k) (ravel N (displaced N c x)).
Proof. exact moved_evolution. Qed.
Print Assumptions C143_moved_state.

(** The cosine potential at a quarter and minus a quarter and a state whose amplitudes are not
    real; the potential moved by two points is in C136_case. *)
Example C143_case : Forall plane_wave_axis cos_axes /\ is_inverse (length cos_axes) (fun _ _ => 1) (fun _ _ => 1) /\
  Forall Nat.Odd (map bsize cos_axes) /\ real_valued (BTuple cos_axes) cos_data /\
  (forall a, (a < length cos_axes)%nat -> fraction (Some (fun _ => - / 4)) a = - fraction (Some (fun _ => / 4)) a) /\
  let psi (t : nat) : C := if (t =? 0)%nat then Ci else RtoC 0 in
  amplitude (BTuple cos_axes) psi 0 <> Cconj (amplitude (BTuple cos_axes) psi 0) /\
  (exists psi', forall x, (x < bfund (BTuple cos_axes))%nat -> amplitude (BTuple cos_axes) psi' x = Cconj (amplitude (BTuple cos_axes) psi x)) /\
  exists psi', forall x, in_shape x (map bfund cos_axes) -> amplitude (BTuple cos_axes) psi' (ravel (map bfund cos_axes) x) =
    amplitude (BTuple cos_axes) psi (ravel (map bfund cos_axes) (displaced (map bfund cos_axes) [2%Z] x)).
Proof. exact ex_reversal. Qed.
