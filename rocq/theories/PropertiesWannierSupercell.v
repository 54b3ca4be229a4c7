(** Properties of the Wannier Hamiltonian as the Hamiltonian of the supercell (C130). *)
From Coq Require Import Reals Psatz.
From Verif Require Import ZLib Csum DFT NumPy Spec SpecReal Basis SpecBasis Operator SpecOperator Wavepacket SpecWavepacket SpecMatrix
  Hamiltonian SpecHamiltonian Localize SpecLocalize WannierBasis SpecSupercellHamiltonian SpecWannierSupercell SupercellFacts HamiltonianFacts Spectral3
  LocalizeFacts2 WannierSupercell3.
Local Open Scope R_scope.
Local Open Scope C_scope.

(** Three points per cell, two samples, any potential, the identity as operator of
    localisation. *)
Example C130_case : forall data,
  Forall (fun n => (0 < n)%nat) [2%nat] /\ length [2%nat] = length [BFundT 3] /\ bwf (BTuple [BFundT 3]) /\
  explicit_orthonormal (BTuple [BFundT 3]) /\ map bsize [BFundT 3] = map bfund [BFundT 3] /\
  Forall Nat.Odd (map bfund [BFundT 3]) /\ is_inverse 1 (fun _ _ => 1%R) (fun _ _ => 1%R) /\
  (exists data', repeats [2%nat] [BFundT 3] data (map BFundT (supercell [2%nat] (map bfund [BFundT 3]))) data') /\
  (exists delta' inv', enlarged [2%nat] (fun _ _ => 1%R) delta' /\ is_inverse 1 delta' inv') /\
  nprod (ashape ex_identity) = (nprod [2%nat] * bsize (BTuple [BFundT 3]) * bsize (BTuple [BFundT 3]))%nat /\
  forall s, unitary 3 (at_sample 3 3 ex_identity s).
Proof.
  intros data. split; [repeat constructor|]. split; [reflexivity|]. split; [cbn; lia|]. split; [cbn; tauto|]. split; [reflexivity|].
  split; [repeat constructor; exists 1%nat; reflexivity|]. split; [exact unit_inverse|]. split.
  - apply repeats_exist; [repeat constructor|reflexivity|cbn; lia].
  - split; [exact (enlarged_exist [2%nat] _ _ ltac:(repeat constructor) unit_inverse)|]. split; [reflexivity|exact ex_identity_unitary].
Qed.

(** The Hamiltonians of the cell and of the supercell exist for every basis and potential. *)
Example C130_hamiltonians_exist : forall same, identity_test same ->
  forall ls saxes, Forall (fun n => (0 < n)%nat) ls -> length ls = length saxes -> bwf (BTuple saxes) -> explicit_orthonormal (BTuple saxes) ->
  let F := supercell ls (map bfund saxes) in
  forall delta inv delta' inv', is_inverse (length saxes) delta inv -> is_inverse (length saxes) delta' inv' ->
  forall hbar mass data data', exists ham H',
    (forall s, in_shape s ls -> exists H,
      total_surface_hamiltonian same hbar saxes inv data mass (Some (bloch_fraction ls s)) = Some H /\
      forall i j, ham (fractions ls s) i j = op_entry H i j) /\
    total_surface_hamiltonian same hbar (map BFundT F) inv' data' mass None = Some H'.
Proof. exact hamiltonians_exist. Qed.

(** From the potential to the Wannier Hamiltonian.  Entry (R, k; R', l) is the element of the
    Hamiltonian of the supercell between the Wannier state (l, R') on the left and (k, R) on the
    right, whatever the operator of localisation; if its columns are orthonormal at every sample
    the components of a Bloch state along the Wannier states are an eigenvector, with the
    energy of the band. *)
Theorem C130_wannier_hamiltonian_of_the_supercell :
  forall same, identity_test same ->
  forall ls saxes, Forall (fun n => (0 < n)%nat) ls -> length ls = length saxes -> bwf (BTuple saxes) ->
  explicit_orthonormal (BTuple saxes) ->
  let F := supercell ls (map bfund saxes) in let N := bsize (BTuple saxes) in let ns := nprod ls in
  forall delta inv delta' inv', is_inverse (length saxes) delta inv -> is_inverse (length saxes) delta' inv' ->
  enlarged ls delta delta' ->
  forall hbar mass data data', repeats ls saxes data (map BFundT F) data' ->
  forall eigh ham H', eigh_ok eigh -> map bsize saxes = map bfund saxes -> Forall Nat.Odd (map bfund saxes) ->
    real_valued (BTuple saxes) data ->
    (forall s, in_shape s ls -> exists H,
      total_surface_hamiltonian same hbar saxes inv data mass (Some (bloch_fraction ls s)) = Some H /\
      forall i j, ham (fractions ls s) i j = op_entry H i j) ->
    total_surface_hamiltonian same hbar (map BFundT F) inv' data' mass None = Some H' ->
  forall nb step offset, (0 < nb)%nat -> (0 < step)%nat -> (offset + step * (nb - 1) < N)%nat ->
    exists vectors energies st,
      generate_wavepacket same eigh (map BFundT ls) N ham nb (Z.of_nat step) (Z.of_nat offset) = Some (vectors, energies) /\
      get_bloch_states same (BFund nb) (map BFundT ls) saxes vectors = Some st /\
      nprod (ashape vectors) = (nb * ns * N)%nat /\ nprod (ashape energies) = (nb * ns)%nat /\
      (forall r, (r < nb * ns)%nat -> exists e : R, aflat energies r = RtoC e /\
        eigenvector (nprod F) (op_entry H') (RtoC e) (row (nprod F) (aflat st) r)) /\
      (forall r r', (r < nb * ns)%nat -> (r' < nb * ns)%nat ->
        inner_product (nprod F) (row (nprod F) (aflat st) r) (row (nprod F) (aflat st) r') = cdelta r r') /\
      forall nw op, (0 < nw)%nat -> nprod (ashape op) = (ns * nw * nb)%nat ->
      exists out Hm, wannier_states same nw nb (map BFundT ls) saxes op vectors = Some out /\
        full_wannier_hamiltonian nw nb ls op energies = Some Hm /\ ashape Hm = [(ns * nw * ns * nw)%nat] /\
        (forall R k R' l, (R < ns)%nat -> (k < nw)%nat -> (R' < ns)%nat -> (l < nw)%nat ->
          aflat Hm (((R * nw + k) * ns + R') * nw + l) =
          matrix_element (nprod F) (plane_coefficients F (row (nprod F) (aflat out) (l * ns + R'))) (op_entry H')
            (plane_coefficients F (row (nprod F) (aflat out) (k * ns + R)))) /\
        ((forall s, (s < ns)%nat -> orthonormal_columns nw nb (at_sample nw nb op s)) ->
         let component r a := inner_product (nprod F) (amplitude (momenta F) (row (nprod F) (aflat st) r))
           (row (nprod F) (aflat out) (a mod nw * ns + a / nw)) in
         (forall r, (r < nb * ns)%nat -> eigenvector (ns * nw) (as_matrix (ns * nw) Hm) (aflat energies r) (component r)) /\
         forall r r', (r < nb * ns)%nat -> (r' < nb * ns)%nat -> inner_product (ns * nw) (component r) (component r') = cdelta r r').
Proof. exact generated_wannier. Qed.
Print Assumptions C130_wannier_hamiltonian_of_the_supercell.

(** With all bands and an operator of localisation that is unitary at every sample the Wannier
    Hamiltonian has exactly the eigenvalues of the Hamiltonian of the supercell. *)
Theorem C130_same_eigenvalues :
  forall same, identity_test same ->
  forall ls saxes, Forall (fun n => (0 < n)%nat) ls -> length ls = length saxes -> bwf (BTuple saxes) ->
  explicit_orthonormal (BTuple saxes) ->
  let F := supercell ls (map bfund saxes) in let N := bsize (BTuple saxes) in let ns := nprod ls in
  forall delta inv delta' inv', is_inverse (length saxes) delta inv -> is_inverse (length saxes) delta' inv' ->
  enlarged ls delta delta' ->
  forall hbar mass data data', repeats ls saxes data (map BFundT F) data' ->
  forall eigh ham H', eigh_ok eigh -> map bsize saxes = map bfund saxes -> Forall Nat.Odd (map bfund saxes) ->
    real_valued (BTuple saxes) data ->
    (forall s, in_shape s ls -> exists H,
      total_surface_hamiltonian same hbar saxes inv data mass (Some (bloch_fraction ls s)) = Some H /\
      forall i j, ham (fractions ls s) i j = op_entry H i j) ->
    total_surface_hamiltonian same hbar (map BFundT F) inv' data' mass None = Some H' ->
  exists vectors energies,
    generate_wavepacket same eigh (map BFundT ls) N ham N 1 0 = Some (vectors, energies) /\ nprod (ashape vectors) = (N * ns * N)%nat /\
    forall op, nprod (ashape op) = (ns * N * N)%nat -> (forall s, (s < ns)%nat -> unitary N (at_sample N N op s)) ->
    exists Hm, full_wannier_hamiltonian N N ls op energies = Some Hm /\
    forall lam, (exists u, eigenvector (nprod F) (op_entry H') lam u) <-> (exists y, eigenvector (ns * N) (as_matrix (ns * N) Hm) lam y).
Proof. exact same_spectrum. Qed.
Print Assumptions C130_same_eigenvalues.

(** So with the operator of localisation of the tight binding states, in one and two
    dimensions. *)
Theorem C130_tight_binding_states :
  forall same, identity_test same ->
  forall ls saxes, Forall (fun n => (0 < n)%nat) ls -> length ls = length saxes -> bwf (BTuple saxes) ->
  explicit_orthonormal (BTuple saxes) ->
  let F := supercell ls (map bfund saxes) in let N := bsize (BTuple saxes) in let ns := nprod ls in
  forall delta inv delta' inv', is_inverse (length saxes) delta inv -> is_inverse (length saxes) delta' inv' ->
  enlarged ls delta delta' ->
  forall hbar mass data data', repeats ls saxes data (map BFundT F) data' ->
  forall eigh ham H', eigh_ok eigh -> map bsize saxes = map bfund saxes -> Forall Nat.Odd (map bfund saxes) ->
    real_valued (BTuple saxes) data ->
    (forall s, in_shape s ls -> exists H,
      total_surface_hamiltonian same hbar saxes inv data mass (Some (bloch_fraction ls s)) = Some H /\
      forall i j, ham (fractions ls s) i j = op_entry H i j) ->
    total_surface_hamiltonian same hbar (map BFundT F) inv' data' mass None = Some H' ->
  forall svd, svd_ok svd -> length saxes = 1%nat \/ length saxes = 2%nat ->
    exists vectors energies op Hm,
      generate_wavepacket same eigh (map BFundT ls) N ham N 1 0 = Some (vectors, energies) /\
      tight_binding_operator same svd (BFund N) (map BFundT ls) saxes vectors = Some op /\
      full_wannier_hamiltonian N N ls op energies = Some Hm /\
      forall lam, (exists u, eigenvector (nprod F) (op_entry H') lam u) <-> (exists y, eigenvector (ns * N) (as_matrix (ns * N) Hm) lam y).
Proof. exact tight_binding_spectrum. Qed.
Print Assumptions C130_tight_binding_states.
Example C130_solvers_exist : (exists eigh, eigh_ok eigh) /\ exists svd, svd_ok svd.
Proof. split; [exact eigh_exists|exact svd_exists]. Qed.
