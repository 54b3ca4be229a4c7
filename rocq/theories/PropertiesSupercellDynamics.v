(** Properties of the evolution of states of the supercell through Bloch states (C131). *)
From Coq Require Import Reals Psatz.
From Verif Require Import ZLib Csum DFT NumPy Spec SpecReal Basis SpecBasis Operator SpecOperator Wavepacket SpecWavepacket SpecMatrix
  Hamiltonian SpecHamiltonian Localize SpecLocalize BlochBasis Dynamics SpecSupercellHamiltonian SupercellFacts HamiltonianFacts Spectral3
  WannierSupercell3 SupercellDynamics.
Local Open Scope R_scope.
Local Open Scope C_scope.

(** The component of the evolved state along an eigenvector of the Hamiltonian is turned by
    exp(-i e t / hbar), and an eigenvector itself is only turned. *)
Theorem C131_components_along_eigenvectors :
  forall eigh n h hbar e b, eigh_ok eigh -> (0 < n)%nat -> square n h -> hermitian n (op_entry h) -> hbar <> 0%R ->
  (forall i, (i < n)%nat -> csum (fun j => op_entry h i j * b j) n = RtoC e * b i) ->
  forall psi nt times, exists out, solve_schrodinger_equation_decomposition eigh hbar psi nt times h = Some out /\ ashape out = [nt; n] /\
    forall s, (s < nt)%nat ->
      inner_product n b (at2 out s) = cexp (- Ci * RtoC e * RtoC (times s) / RtoC hbar) * inner_product n b psi /\
      ((forall x, (x < n)%nat -> psi x = b x) -> forall x, (x < n)%nat -> at2 out s x = cexp (- Ci * RtoC e * RtoC (times s) / RtoC hbar) * b x).
Proof. exact evolved_component. Qed.
Print Assumptions C131_components_along_eigenvectors.
Example C131_two_level : square 2 coupled /\ hermitian 2 (op_entry coupled) /\
  (forall i, (i < 2)%nat -> csum (fun j => op_entry coupled i j * (fun j => match j with 0%nat => Ci | _ => RtoC 1 end) j) 2 =
    RtoC 2%R * (fun j => match j with 0%nat => Ci | _ => RtoC 1 end) i).
Proof. exact coupled_state. Qed.

(** Three points per cell, two samples, any potential. *)
Example C131_case : forall data,
  Forall (fun n => (0 < n)%nat) [2%nat] /\ length [2%nat] = length [BFundT 3] /\ bwf (BTuple [BFundT 3]) /\
  explicit_orthonormal (BTuple [BFundT 3]) /\ bsize (BTuple [BFundT 3]) = bfund (BTuple [BFundT 3]) /\
  Forall Nat.Odd (map bfund [BFundT 3]) /\ is_inverse 1 (fun _ _ => 1%R) (fun _ _ => 1%R) /\
  (exists data', repeats [2%nat] [BFundT 3] data (map BFundT (supercell [2%nat] (map bfund [BFundT 3]))) data') /\
  (exists delta' inv', enlarged [2%nat] (fun _ _ => 1%R) delta' /\ is_inverse 1 delta' inv') /\
  exists eigh, eigh_ok eigh.
Proof.
  intros data. split; [repeat constructor|]. split; [reflexivity|]. split; [cbn; lia|]. split; [cbn; tauto|]. split; [reflexivity|].
  split; [repeat constructor; exists 1%nat; reflexivity|]. split; [exact unit_inverse|]. split.
  - apply repeats_exist; [repeat constructor|reflexivity|cbn; lia].
  - split; [exact (enlarged_exist [2%nat] _ _ ltac:(repeat constructor) unit_inverse)|exact eigh_exists].
Qed.
Example C131_hamiltonians_exist : forall same, identity_test same ->
  forall ls saxes, Forall (fun n => (0 < n)%nat) ls -> length ls = length saxes -> bwf (BTuple saxes) -> explicit_orthonormal (BTuple saxes) ->
  let F := supercell ls (map bfund saxes) in
  forall delta inv delta' inv', is_inverse (length saxes) delta inv -> is_inverse (length saxes) delta' inv' ->
  forall hbar mass data data', exists ham H',
    (forall s, in_shape s ls -> exists H,
      total_surface_hamiltonian same hbar saxes inv data mass (Some (bloch_fraction ls s)) = Some H /\
      forall i j, ham (fractions ls s) i j = op_entry H i j) /\
    total_surface_hamiltonian same hbar (map BFundT F) inv' data' mass None = Some H'.
Proof. exact hamiltonians_exist. Qed.

(** Evolving a state of the supercell in the basis of the Bloch states of a generated
    wavepacket, with its energies as diagonal Hamiltonian, gives at every time the components
    along the Bloch states of the evolution under the Hamiltonian of the supercell, for any
    selection of bands; with all bands the evolved state is the sum of the Bloch states with
    these components. *)
Theorem C131_evolution_through_bloch_states :
  forall same, identity_test same ->
  forall ls saxes, Forall (fun n => (0 < n)%nat) ls -> length ls = length saxes -> bwf (BTuple saxes) ->
  explicit_orthonormal (BTuple saxes) ->
  let F := supercell ls (map bfund saxes) in let N := bsize (BTuple saxes) in
  forall delta inv delta' inv', is_inverse (length saxes) delta inv -> is_inverse (length saxes) delta' inv' ->
  enlarged ls delta delta' ->
  forall hbar mass data data', repeats ls saxes data (map BFundT F) data' ->
  forall eigh eigh' nb step offset ham H', eigh_ok eigh -> eigh_ok eigh' ->
    N = bfund (BTuple saxes) -> Forall Nat.Odd (map bfund saxes) -> real_valued (BTuple saxes) data ->
    (forall s, in_shape s ls -> exists H,
      total_surface_hamiltonian same hbar saxes inv data mass (Some (bloch_fraction ls s)) = Some H /\
      forall i j, ham (fractions ls s) i j = op_entry H i j) ->
    total_surface_hamiltonian same hbar (map BFundT F) inv' data' mass None = Some H' ->
    (0 < nb)%nat -> (0 < step)%nat -> (offset + step * (nb - 1) < N)%nat -> hbar <> 0%R ->
    exists vectors energies st,
      generate_wavepacket same eigh (map BFundT ls) N ham nb (Z.of_nat step) (Z.of_nat offset) = Some (vectors, energies) /\
      get_bloch_states same (BFund nb) (map BFundT ls) saxes vectors = Some st /\
      forall psi nt times, exists full part,
        solve_schrodinger_equation_decomposition eigh' hbar psi nt times H' = Some full /\ ashape full = [nt; nprod F] /\
        solve_schrodinger_equation_diagonal same hbar (momenta F) psi nt times (explicit_bloch_basis nb ls saxes st) (aflat energies) = Some part /\
        ashape part = [nt; (nb * nprod ls)%nat] /\
        (forall s r, (s < nt)%nat -> (r < nb * nprod ls)%nat ->
          at2 part s r = inner_product (nprod F) (row (nprod F) (aflat st) r) (at2 full s)) /\
        (nb = N -> forall s x, (s < nt)%nat -> (x < nprod F)%nat ->
          at2 full s x = csum (fun r => at2 part s r * row (nprod F) (aflat st) r x) (nb * nprod ls)).
Proof. exact evolved. Qed.
Print Assumptions C131_evolution_through_bloch_states.
