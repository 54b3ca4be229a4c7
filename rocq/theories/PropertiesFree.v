(** Energies and evolution in a constant potential (C140). *)
From Coq Require Import Reals.
From Verif Require Import ZLib Csum DFT NumPy SpecReal Basis SpecBasis Operator SpecOperator Wavepacket SpecWavepacket Hamiltonian SpecHamiltonian
  Localize SpecLocalize EigenBasis SpecSymmetry Dynamics HamiltonianFacts SymmetryFacts FreeParticle.
Local Open Scope R_scope.
Local Open Scope C_scope.

(** In a constant potential the Hamiltonian is diagonal in the plane waves.  The energies are the
    constant plus the kinetic energies of the plane waves of the basis at the Bloch fraction, each
    once, in ascending order, and evolution only turns the component of every plane wave. *)
Theorem C140_free_particle :
  forall same hbar mass axes delta inv, identity_test same -> Forall plane_wave_axis axes -> is_inverse (length axes) delta inv ->
  forall eigh data c frac Q, eigh_ok eigh ->
  (forall x, (x < bfund (BTuple axes))%nat -> amplitude (BTuple axes) data x = RtoC c) -> waves (map bsize axes) delta frac Q ->
  let n := bsize (BTuple axes) in
  let level i := (c + hbar * hbar * dot (length axes) (Q i) (Q i) / (2 * mass))%R in
  exists H e v, total_surface_hamiltonian same hbar axes inv data mass frac = Some H /\
    (forall i j, (i < n)%nat -> (j < n)%nat -> op_entry H i j = RtoC (level i) * cdelta i j) /\
    eigenstates_hermitian eigh H None = Some (n, e, v) /\
    (forall k l, (k <= l)%nat -> (l < n)%nat -> (e k <= e l)%R) /\
    (exists p : nat -> nat, (forall k, (k < n)%nat -> (p k < n)%nat) /\
      (forall k l, (k < n)%nat -> (l < n)%nat -> p k = p l -> k = l) /\ forall k, (k < n)%nat -> e k = level (p k)) /\
    (hbar <> 0%R -> forall psi nt times, exists out,
      solve_schrodinger_equation_decomposition eigh hbar psi nt times H = Some out /\ ashape out = [nt; n] /\
      forall s i, (s < nt)%nat -> (i < n)%nat ->
        at2 out s i = cexp (- Ci * RtoC (level i) * RtoC (times s) / RtoC hbar) * psi i).
Proof. exact free_particle. Qed.
Print Assumptions C140_free_particle.
(** Three plane waves on five points, at a quarter of the Brillouin zone. *)
Example C140_case : Forall plane_wave_axis cos_axes /\ is_inverse (length cos_axes) (fun _ _ => 1%R) (fun _ _ => 1%R) /\
  (forall c x, (x < bfund (BTuple cos_axes))%nat -> amplitude (BTuple cos_axes) (flat_data c) x = RtoC c) /\
  exists Q, waves (map bsize cos_axes) (fun _ _ => 1%R) (Some (fun _ => / 4)%R) Q.
Proof.
  split; [exact (proj1 ex_cos_odd)|]. split; [exact (proj1 (proj2 ex_cos_odd))|]. split; [exact flat_constant|exact ex_cos_waves].
Qed.
