(** Properties of Bloch waves as states of the supercell (C129): Hamiltonians, generated
    wavepackets and the Hamiltonian in the Bloch basis fit together. *)
From Coq Require Import Reals Psatz.
From Verif Require Import ZLib Csum DFT NumPy Spec SpecReal Basis SpecBasis Operator SpecOperator Wavepacket SpecWavepacket
  Hamiltonian SpecHamiltonian Localize SpecLocalize BlochEnergies SpecSupercellHamiltonian SupercellProofs4 SupercellProofs5 SupercellFacts SupercellFacts2
  HamiltonianFacts Spectral3.
Local Open Scope R_scope.
Local Open Scope C_scope.

(** Three points per cell, two samples, any potential: a repeated potential and an enlarged
    lattice exist. *)
Example C129_case : forall data,
  Forall (fun n => (0 < n)%nat) [2%nat] /\ length [2%nat] = length [BFundT 3] /\ bwf (BTuple [BFundT 3]) /\
  explicit_orthonormal (BTuple [BFundT 3]) /\ bsize (BTuple [BFundT 3]) = bfund (BTuple [BFundT 3]) /\
  Forall Nat.Odd (map bfund [BFundT 3]) /\ is_inverse 1 (fun _ _ => 1%R) (fun _ _ => 1%R) /\
  (exists data', repeats [2%nat] [BFundT 3] data (map BFundT (supercell [2%nat] (map bfund [BFundT 3]))) data') /\
  exists delta' inv', enlarged [2%nat] (fun _ _ => 1%R) delta' /\ is_inverse 1 delta' inv'.
Proof.
  intros data. split; [repeat constructor|]. split; [reflexivity|]. split; [cbn; lia|]. split; [cbn; tauto|]. split; [reflexivity|].
  split; [repeat constructor; exists 1%nat; reflexivity|]. split; [exact unit_inverse|]. split.
  - apply repeats_exist; [repeat constructor|reflexivity|cbn; lia].
  - exact (enlarged_exist [2%nat] _ _ ltac:(repeat constructor) unit_inverse).
Qed.

(** The Hamiltonian of the supercell with the repeated potential, between two Bloch states:
    nothing between different samples, and within a sample the Hamiltonian of the cell at
    the Bloch fraction of the sample. *)
Theorem C129_elements_between_bloch_states :
  forall same, identity_test same ->
  forall ls saxes, Forall (fun n => (0 < n)%nat) ls -> length ls = length saxes -> bwf (BTuple saxes) ->
  explicit_orthonormal (BTuple saxes) ->
  let F := supercell ls (map bfund saxes) in let N := bsize (BTuple saxes) in
  forall delta inv delta' inv', is_inverse (length saxes) delta inv -> is_inverse (length saxes) delta' inv' ->
  enlarged ls delta delta' ->
  forall hbar mass data data', repeats ls saxes data (map BFundT F) data' ->
  forall nb d out b s b' s' H H', nprod (ashape d) = (nb * nprod ls * N)%nat ->
    get_bloch_states same (BFund nb) (map BFundT ls) saxes d = Some out ->
    (b < nb)%nat -> (b' < nb)%nat -> in_shape s ls -> in_shape s' ls ->
    below_edge saxes (row N (aflat d) (b' * nprod ls + ravel ls s')) ->
    total_surface_hamiltonian same hbar saxes inv data mass (Some (bloch_fraction ls s')) = Some H ->
    total_surface_hamiltonian same hbar (map BFundT F) inv' data' mass None = Some H' ->
    matrix_element (nprod F) (row (nprod F) (aflat out) (b * nprod ls + ravel ls s)) (op_entry H')
      (row (nprod F) (aflat out) (b' * nprod ls + ravel ls s')) =
    cdelta (ravel ls s) (ravel ls s') *
    matrix_element N (row N (aflat d) (b * nprod ls + ravel ls s)) (op_entry H) (row N (aflat d) (b' * nprod ls + ravel ls s')).
Proof. exact states_elements. Qed.
Print Assumptions C129_elements_between_bloch_states.

(** In a basis with as many states as points: eigenstates of the cell at a sample become
    eigenstates of the supercell with the same eigenvalue. *)
Theorem C129_eigenstates_of_the_supercell :
  forall same, identity_test same ->
  forall ls saxes, Forall (fun n => (0 < n)%nat) ls -> length ls = length saxes -> bwf (BTuple saxes) ->
  explicit_orthonormal (BTuple saxes) ->
  let F := supercell ls (map bfund saxes) in let N := bsize (BTuple saxes) in
  forall delta inv delta' inv', is_inverse (length saxes) delta inv -> is_inverse (length saxes) delta' inv' ->
  enlarged ls delta delta' ->
  forall hbar mass data data', repeats ls saxes data (map BFundT F) data' ->
  forall nb d out b s H H' lam, N = bfund (BTuple saxes) -> nprod (ashape d) = (nb * nprod ls * N)%nat ->
    get_bloch_states same (BFund nb) (map BFundT ls) saxes d = Some out -> (b < nb)%nat -> in_shape s ls ->
    below_edge saxes (row N (aflat d) (b * nprod ls + ravel ls s)) ->
    total_surface_hamiltonian same hbar saxes inv data mass (Some (bloch_fraction ls s)) = Some H ->
    total_surface_hamiltonian same hbar (map BFundT F) inv' data' mass None = Some H' ->
    eigenvector N (op_entry H) lam (row N (aflat d) (b * nprod ls + ravel ls s)) ->
    eigenvector (nprod F) (op_entry H') lam (row (nprod F) (aflat out) (b * nprod ls + ravel ls s)).
Proof. exact states_eigen. Qed.
Print Assumptions C129_eigenstates_of_the_supercell.

(** With an odd number of points along every axis nothing is asked of the states. *)
Theorem C129_odd_numbers_of_points :
  forall saxes u, Forall Nat.Odd (map bfund saxes) -> below_edge saxes u.
Proof. exact odd_below_edge. Qed.
Print Assumptions C129_odd_numbers_of_points.

(** Nor with truncated plane waves, which leave the edge out. *)
Theorem C129_truncated_plane_waves :
  forall saxes u, bwf (BTuple saxes) ->
  Forall (fun b => Nat.Odd (bfund b) \/ exists n N, b = BTrans n N /\ (n < N)%nat) saxes -> below_edge saxes u.
Proof. exact truncated_below_edge. Qed.
Print Assumptions C129_truncated_plane_waves.
Example C129_truncated_case : bwf (BTuple [BTrans 3 4; BFundT 5]) /\
  Forall (fun b => Nat.Odd (bfund b) \/ exists n N, b = BTrans n N /\ (n < N)%nat) [BTrans 3 4; BFundT 5].
Proof.
  split; [cbn; lia|]. constructor; [right; exists 3%nat, 4%nat; split; [reflexivity|lia]|]. constructor; [left; exists 2%nat; reflexivity|constructor].
Qed.

(** From the Hamiltonian of the cell to the supercell: diagonalising at every sample and
    forming the Bloch states gives orthonormal eigenstates of the supercell, with the
    eigenvalues stored in the wavepacket. *)
Theorem C129_generated_wavepackets :
  forall same, identity_test same ->
  forall ls saxes, Forall (fun n => (0 < n)%nat) ls -> length ls = length saxes -> bwf (BTuple saxes) ->
  explicit_orthonormal (BTuple saxes) ->
  let F := supercell ls (map bfund saxes) in let N := bsize (BTuple saxes) in
  forall delta inv delta' inv', is_inverse (length saxes) delta inv -> is_inverse (length saxes) delta' inv' ->
  enlarged ls delta delta' ->
  forall hbar mass data data', repeats ls saxes data (map BFundT F) data' ->
  forall eigh nb step offset ham H', eigh_ok eigh -> N = bfund (BTuple saxes) -> Forall Nat.Odd (map bfund saxes) ->
    real_valued (BTuple saxes) data ->
    (forall s, in_shape s ls -> exists H,
      total_surface_hamiltonian same hbar saxes inv data mass (Some (bloch_fraction ls s)) = Some H /\
      forall i j, ham (fractions ls s) i j = op_entry H i j) ->
    total_surface_hamiltonian same hbar (map BFundT F) inv' data' mass None = Some H' ->
    (0 < nb)%nat -> (0 < step)%nat -> (offset + step * (nb - 1) < N)%nat ->
    exists vectors energies out,
      generate_wavepacket same eigh (map BFundT ls) N ham nb (Z.of_nat step) (Z.of_nat offset) = Some (vectors, energies) /\
      get_bloch_states same (BFund nb) (map BFundT ls) saxes vectors = Some out /\
      nprod (ashape vectors) = (nb * nprod ls * N)%nat /\ nprod (ashape energies) = (nb * nprod ls)%nat /\
      (forall r, (r < nb * nprod ls)%nat -> exists e : R, aflat energies r = RtoC e /\
        eigenvector (nprod F) (op_entry H') (RtoC e) (row (nprod F) (aflat out) r)) /\
      forall r r', (r < nb * nprod ls)%nat -> (r' < nb * nprod ls)%nat ->
        inner_product (nprod F) (row (nprod F) (aflat out) r) (row (nprod F) (aflat out) r') = cdelta r r'.
Proof. exact generated. Qed.
Print Assumptions C129_generated_wavepackets.

(** With all bands, the energy of every state of the supercell under the Bloch Hamiltonian
    of the generated wavepacket is its energy under the Hamiltonian of the supercell. *)
Theorem C129_bloch_hamiltonian_of_all_bands :
  forall same, identity_test same ->
  forall ls saxes, Forall (fun n => (0 < n)%nat) ls -> length ls = length saxes -> bwf (BTuple saxes) ->
  explicit_orthonormal (BTuple saxes) ->
  let F := supercell ls (map bfund saxes) in let N := bsize (BTuple saxes) in
  forall delta inv delta' inv', is_inverse (length saxes) delta inv -> is_inverse (length saxes) delta' inv' ->
  enlarged ls delta delta' ->
  forall hbar mass data data', repeats ls saxes data (map BFundT F) data' ->
  forall eigh ham H', eigh_ok eigh -> N = bfund (BTuple saxes) -> Forall Nat.Odd (map bfund saxes) ->
    real_valued (BTuple saxes) data ->
    (forall s, in_shape s ls -> exists H,
      total_surface_hamiltonian same hbar saxes inv data mass (Some (bloch_fraction ls s)) = Some H /\
      forall i j, ham (fractions ls s) i j = op_entry H i j) ->
    total_surface_hamiltonian same hbar (map BFundT F) inv' data' mass None = Some H' ->
    exists vectors energies,
      generate_wavepacket same eigh (map BFundT ls) N ham N 1 0 = Some (vectors, energies) /\
      forall v, bloch_energy same N ls saxes vectors energies (momenta F) v = Some (matrix_element (nprod F) v (op_entry H') v).
Proof. exact all_bands. Qed.
Print Assumptions C129_bloch_hamiltonian_of_all_bands.
Example C129_eigh_exists : exists eigh, eigh_ok eigh.
Proof. exact eigh_exists. Qed.

(** With an even number of points the eigenvalues of the cell need not be those of the
    supercell: two points, two samples, no potential. *)
Theorem C129_even_points_refuted :
  forall same, identity_test same -> exists H H' u U,
  total_surface_hamiltonian same 1 [BFundT 2] (fun _ _ => 1%R) (fun _ => 0) (1 / 2) (Some (bloch_fraction [2%nat] [1%nat])) = Some H /\
  total_surface_hamiltonian same 1 [BFundT 4] (fun _ _ => (1 / 2)%R) (fun _ => 0) (1 / 2) None = Some H' /\
  bloch_wave_of [2%nat] [BFundT 2] [1%nat] u [BFundT 4] U /\
  eigenvector 2 (op_entry H) (RtoC (9 * PI ^ 2)) u /\ eigenvector 4 (op_entry H') (RtoC (PI ^ 2)) U.
Proof. exact edge_wave. Qed.
Print Assumptions C129_even_points_refuted.
