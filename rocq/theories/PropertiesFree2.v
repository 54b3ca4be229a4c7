(** Energies in a potential between two values (C140). *)
From Coq Require Import Reals.
From Verif Require Import ZLib Csum DFT NumPy SpecReal Basis SpecBasis Operator SpecOperator Wavepacket SpecWavepacket Hamiltonian SpecHamiltonian
  Localize SpecLocalize EigenBasis SpecSymmetry HamiltonianFacts SymmetryFacts FreeParticle2.
Local Open Scope R_scope.

(** If a real potential lies between two values on the grid, every energy lies between the two
    values above the kinetic energy with the same number in ascending order. *)
Theorem C140_between_levels :
  forall same hbar mass axes delta inv, identity_test same -> Forall plane_wave_axis axes -> is_inverse (length axes) delta inv ->
  forall eigh data lo hi frac Q, eigh_ok eigh -> real_valued (BTuple axes) data -> 0 < mass ->
  (forall x, (x < bfund (BTuple axes))%nat -> lo <= fst (amplitude (BTuple axes) data x) <= hi) -> waves (map bsize axes) delta frac Q ->
  let n := bsize (BTuple axes) in
  let kinetic i := hbar * hbar * dot (length axes) (Q i) (Q i) / (2 * mass) in
  exists H e v, total_surface_hamiltonian same hbar axes inv data mass frac = Some H /\
    eigenstates_hermitian eigh H None = Some (n, e, v) /\
    exists p : nat -> nat, (forall k, (k < n)%nat -> (p k < n)%nat) /\
      (forall k l, (k < n)%nat -> (l < n)%nat -> p k = p l -> k = l) /\
      (forall k l, (k <= l)%nat -> (l < n)%nat -> kinetic (p k) <= kinetic (p l)) /\
      forall k, (k < n)%nat -> lo + kinetic (p k) <= e k <= hi + kinetic (p k).
Proof. exact between_levels. Qed.
Print Assumptions C140_between_levels.
(** Three plane waves on five points; a cosine between -1 and 1. *)
Example C140_between_case : Forall plane_wave_axis cos_axes /\ is_inverse (length cos_axes) (fun _ _ => 1) (fun _ _ => 1) /\
  real_valued (BTuple cos_axes) cos_data /\
  (forall x, (x < bfund (BTuple cos_axes))%nat -> -1 <= fst (amplitude (BTuple cos_axes) cos_data x) <= 1) /\
  exists Q, waves (map bsize cos_axes) (fun _ _ => 1) (Some (fun _ => / 4)) Q.
Proof.
  split; [exact (proj1 ex_cos_odd)|]. split; [exact (proj1 (proj2 ex_cos_odd))|]. split; [exact cos_real|]. split; [exact cos_between|exact ex_cos_waves].
Qed.
