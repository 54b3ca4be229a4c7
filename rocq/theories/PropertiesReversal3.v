(** With an even number of plane waves time reversal fails (C143). *)
From Coq Require Import Reals.
From Verif Require Import ZLib Csum DFT NumPy SpecReal Basis SpecBasis Operator SpecOperator Wavepacket SpecWavepacket Hamiltonian SpecHamiltonian
  Localize SpecLocalize EigenBasis Dynamics ReversalFacts3.
Local Open Scope R_scope.

(** Two plane waves without a potential, at a quarter and minus a quarter: the second one has real
    amplitudes, but evolved for opposite times the amplitudes are not complex conjugates. *)
Theorem C143_even_refuted :
  forall same eigh, identity_test same -> eigh_ok eigh ->
  let B := BTuple [BFundT 2] in let psi (k : nat) : C := if (k =? 1)%nat then RtoC 1 else RtoC 0 in
  exists H H' out out' t,
    total_surface_hamiltonian same 1 [BFundT 2] (fun _ _ => 1) (fun _ => RtoC 0) (/ 2) (Some (fun _ => / 4)) = Some H /\
    total_surface_hamiltonian same 1 [BFundT 2] (fun _ _ => 1) (fun _ => RtoC 0) (/ 2) (Some (fun _ => - / 4)) = Some H' /\
    real_valued B psi /\
    solve_schrodinger_equation_decomposition eigh 1 psi 1 (fun _ => t) H = Some out /\
    solve_schrodinger_equation_decomposition eigh 1 psi 1 (fun _ => - t) H' = Some out' /\
    amplitude B (at2 out' 0) 0 <> Cconj (amplitude B (at2 out 0) 0).
Proof. exact even_reversal. Qed.
Print Assumptions C143_even_refuted.
