(** Properties of expectation values along solutions of the Schrodinger equation (C132). *)
From Coq Require Import Reals Psatz.
From Verif Require Import ZLib Csum DFT NumPy Basis SpecBasis Operator SpecOperator SpecMatrix Localize SpecLocalize SpecHamiltonian Dynamics SpecDynamics
  Spectral3 SupercellDynamics ConservedProofs.
Local Open Scope R_scope.
Local Open Scope C_scope.

(** Two levels with a complex coupling, and an operator that commutes with the Hamiltonian. *)
Example C132_case : bwf (BFund 2) /\ explicit_orthonormal (BFund 2) /\ op_wf coupled /\ orow coupled = BFund 2 /\ ocol coupled = BFund 2 /\
  hermitian (bsize (BFund 2)) (op_entry coupled) /\ op_wf exchange /\ orow exchange = BFund 2 /\ ocol exchange = BFund 2 /\
  forall i j, (i < 2)%nat -> (j < 2)%nat -> matmul 2 (op_entry coupled) (op_entry exchange) i j = matmul 2 (op_entry exchange) (op_entry coupled) i j.
Proof. exact exchange_commutes. Qed.
Example C132_solver_exists : exists eigh, eigh_ok eigh.
Proof. exact eigh_exists. Qed.

(** The expectation value of an operator changes at the rate i / hbar times the expectation
    value of the commutator of the Hamiltonian with it. *)
Theorem C132_rate_of_change :
  forall same, identity_test same ->
  forall eigh b h hbar, eigh_ok eigh -> bwf b -> explicit_orthonormal b -> op_wf h -> orow h = b -> ocol h = b ->
  hermitian (bsize b) (op_entry h) -> hbar <> 0%R ->
  exists U : (nat -> C) -> R -> nat -> C,
    (forall psi nt times, exists out, solve_schrodinger_equation_decomposition eigh hbar psi nt times h = Some out /\
       ashape out = [nt; bsize b] /\ forall s x, (s < nt)%nat -> (x < bsize b)%nat -> at2 out s x = U psi (times s) x) /\
    (forall psi x, (x < bsize b)%nat -> U psi 0%R x = psi x) /\
    forall a psi, op_wf a -> orow a = b -> ocol a = b -> exists p x c, get_commutator h a = Some p /\
      (forall t, calculate_expectation same a b (U psi t) = Some (x t)) /\
      (forall t, calculate_expectation same p b (U psi t) = Some (c t)) /\
      forall t, cderivative x t (Ci / RtoC hbar * c t).
Proof. exact ehrenfest. Qed.
Print Assumptions C132_rate_of_change.

(** So operators that commute with the Hamiltonian keep their expectation value. *)
Theorem C132_commuting_operators :
  forall same, identity_test same ->
  forall eigh b h hbar, eigh_ok eigh -> bwf b -> explicit_orthonormal b -> op_wf h -> orow h = b -> ocol h = b ->
  hermitian (bsize b) (op_entry h) -> hbar <> 0%R ->
  forall a psi nt times, op_wf a -> orow a = b -> ocol a = b ->
    (forall i j, (i < bsize b)%nat -> (j < bsize b)%nat ->
      matmul (bsize b) (op_entry h) (op_entry a) i j = matmul (bsize b) (op_entry a) (op_entry h) i j) ->
    exists out x, solve_schrodinger_equation_decomposition eigh hbar psi nt times h = Some out /\ ashape out = [nt; bsize b] /\
      calculate_expectation same a b psi = Some x /\
      forall s, (s < nt)%nat -> calculate_expectation same a b (at2 out s) = Some x.
Proof. exact conserved. Qed.
Print Assumptions C132_commuting_operators.

(** In particular the energy. *)
Theorem C132_energy :
  forall same, identity_test same ->
  forall eigh b h hbar, eigh_ok eigh -> bwf b -> explicit_orthonormal b -> op_wf h -> orow h = b -> ocol h = b ->
  hermitian (bsize b) (op_entry h) -> hbar <> 0%R ->
  forall psi nt times, exists out x, solve_schrodinger_equation_decomposition eigh hbar psi nt times h = Some out /\
      calculate_expectation same h b psi = Some x /\ forall s, (s < nt)%nat -> calculate_expectation same h b (at2 out s) = Some x.
Proof. exact energy_conserved. Qed.
Print Assumptions C132_energy.

(** And the occupation of every eigenvector of the Hamiltonian. *)
Theorem C132_occupations :
  forall eigh n h hbar e b, eigh_ok eigh -> (0 < n)%nat -> square n h -> hermitian n (op_entry h) -> hbar <> 0%R ->
  (forall i, (i < n)%nat -> csum (fun j => op_entry h i j * b j) n = RtoC e * b i) ->
  forall psi nt times, exists out, solve_schrodinger_equation_decomposition eigh hbar psi nt times h = Some out /\
    forall s, (s < nt)%nat -> Cnorm2 (inner_product n b (at2 out s)) = Cnorm2 (inner_product n b psi).
Proof. exact occupation_conserved. Qed.
Print Assumptions C132_occupations.
