(** A simulation of two sites, used as an example. *)
From Coq Require Import Reals Psatz.
From Coquelicot Require Import Coquelicot.
From Verif Require Import ZLib Csum DFT NumPy Basis SpecBasis Operator SpecOperator Reduce
  SpecHamiltonian Dynamics SpecDynamics DynamicsProofs DynamicsProofs3 DynamicsFacts Incoherent SpecIncoherent IncoherentProofs.
Local Open Scope R_scope.
Local Open Scope C_scope.

(** A cell repeated twice along its first axis, with one band a quarter of the way along. *)
Definition chain_bands : bands :=
  {| band_count := 1; band_location := fun _ _ => (/ 4)%R; band_cell := fun a c => if Nat.eqb a c then 1%R else 0%R |}.
Definition chain_basis : site_basis := Stacked [Axis 2; Axis 1; Bands chain_bands].
Definition chain_start : held :=
  {| hbasis := Stacked [chain_basis; chain_basis]; hdata := {| ashape := [2%nat]; aflat := fun t => cdelta 0 t |} |}.

Lemma chain_matrix : exists mx, rate_matrix 2 two_rates chain_basis mx /\ eig_diagonalises two_eig 2 (held_entry 2 mx).
Proof.
  destruct (m_matrix_spec two_rates 2 two_square) as [M [A' [E [[WM [RM CM]] _]]]].
  exists {| hbasis := Stacked [chain_basis; chain_basis]; hdata := odata M |}. split.
  - split; [reflexivity|]. split; [reflexivity|]. exists M, A'. split; [exact E|reflexivity].
  - intros B HB. apply (two_diagonalised M A' E). intros i j Hi Hj. rewrite (HB i j Hi Hj).
    unfold held_entry, op_entry. cbn [hdata]. rewrite CM. reflexivity.
Qed.
Lemma chain_start_ok : diagonal_on chain_basis chain_start /\ distribution 2 (aflat (hdata chain_start)).
Proof.
  split; [split; reflexivity|]. split.
  - intros i Hi. cbn. unfold cdelta. destruct (Nat.eqb 0 i); cbn; lra.
  - cbn. ring.
Qed.
