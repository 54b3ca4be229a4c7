(** Properties of potentials and Hamiltonians: matrix elements, Hermiticity and spectrum
    (C33), continuous potentials (C34), truncation (C35), normalisation (C36), derivatives (C65). *)
From Coq Require Import Reals Psatz.
From Coquelicot Require Import Coquelicot.
From Verif Require Import ZLib Csum DFT NumPy Spec SpecReal Basis SpecBasis Operator SpecOperator Wavepacket SpecWavepacket
  Hamiltonian SpecHamiltonian HamiltonianProofs2 HamiltonianProofs3 HamiltonianProofs4 HamiltonianFacts.
Local Open Scope R_scope.
Local Open Scope C_scope.

(** A real, non-constant potential on an axis with three plane waves and five points, and
    two axes with skew lattice vectors. *)
Example ex_cos_potential :
  identity_test (fun _ _ => false) /\ bwf (BTuple cos_axes) /\ explicit_orthonormal (BTuple cos_axes) /\
  is_inverse (length cos_axes) (fun _ _ => 1%R) (fun _ _ => 1%R) /\ real_valued (BTuple cos_axes) cos_data /\
  amplitude (BTuple cos_axes) cos_data 0 <> amplitude (BTuple cos_axes) cos_data 1 /\ Forall Nat.Odd (map bfund cos_axes).
Proof.
  split; [intros a b H; discriminate|]. split; [cbn; lia|]. split; [cbn; tauto|]. split; [exact unit_inverse|].
  split; [exact cos_real|]. split; [exact cos_nonconstant|]. repeat constructor. exists 2%nat. reflexivity.
Qed.
Example ex_skew_axes :
  bwf (BTuple skew_axes) /\ explicit_orthonormal (BTuple skew_axes) /\ is_inverse (length skew_axes) skew skew_inv.
Proof. split; [cbn; lia|]. split; [cbn; tauto|]. exact skew_inverse. Qed.
(** Slot (4, 1) of the grid 5 x 2 has frequencies -1 and -1: its wave vector is
    (-pi, -pi / 3) for those lattice vectors. *)
Example ex_wave_vector :
  wave_vector [5%nat; 2%nat] skew [4%nat; 1%nat] (fun _ => 0%R) (fun c => match c with 0%nat => - PI | _ => - PI / 3 end)%R.
Proof.
  intros a Ha. destruct a as [|[|a]]; [| |simpl in Ha; lia]; unfold dot, skew; cbn [length rsum nth].
  - change (freq 5 4) with (-1)%Z. field.
  - change (freq 2 1) with (-1)%Z. field.
Qed.

(** ** C33 *)

(** The Hamiltonian is always built; its elements are the potential between the two states
    plus the free energy of every wave vector between them. *)
Theorem C33_hamiltonian_elements :
  forall same axes delta inv hbar mass frac data,
    identity_test same -> bwf (BTuple axes) -> explicit_orthonormal (BTuple axes) ->
    is_inverse (length axes) delta inv ->
    let B := BTuple axes in let n := bsize B in let shape := map bfund axes in let N := nprod shape in
    (exists q, waves shape delta frac q) /\
    exists H, total_surface_hamiltonian same hbar axes inv data mass frac = Some H /\ square n H /\
      orow H = B /\ ocol H = B /\
      forall q, waves shape delta frac q ->
      forall i j, (i < n)%nat -> (j < n)%nat ->
        op_entry H i j =
          csum (fun x => Cconj (bstate B i x) * amplitude B data x * bstate B j x) N +
          csum (fun k => overlap B (momenta shape) i k *
                         RtoC (hbar * hbar * dot (length axes) (q k) (q k) / (2 * mass)) * overlap (momenta shape) B k j) N.
Proof.
  intros same axes delta inv hbar mass frac data Hs Hw Ho Hi. split.
  - eexists. apply (waves_exist (map bfund axes) delta inv frac). rewrite map_length. exact Hi.
  - exact (hamiltonian_elements same Hs axes Hw Ho delta inv Hi hbar mass frac data).
Qed.
Print Assumptions C33_hamiltonian_elements.

(** Kinetic energy: diagonal in the momentum basis with the free energies of the wave
    vectors, which are not negative and vanish only for the wave vector zero. *)
Theorem C33_kinetic_energies :
  forall axes delta inv hbar mass frac, is_inverse (length axes) delta inv ->
    let shape := map bfund axes in let T := hamiltonian_from_mass hbar axes inv mass frac in
    orow T = momenta shape /\ ocol T = momenta shape /\ ashape (odata T) = [nprod shape] /\
    forall q, waves shape delta frac q -> forall k, (k < nprod shape)%nat ->
      aflat (odata T) k = RtoC (hbar * hbar * dot (length axes) (q k) (q k) / (2 * mass)) /\
      ((0 < mass)%R -> (0 <= fst (aflat (odata T) k))%R /\
         (hbar <> 0%R -> (fst (aflat (odata T) k) = 0%R <-> forall c, (c < length axes)%nat -> q k c = 0%R))).
Proof. intros axes delta inv hbar mass frac Hi. exact (kinetic_diagonal axes delta inv Hi hbar mass frac). Qed.
Print Assumptions C33_kinetic_energies.

(** A real potential gives a Hermitian Hamiltonian, for every Bloch fraction. *)
Theorem C33_hermitian :
  forall same axes delta inv hbar mass frac data H,
    identity_test same -> bwf (BTuple axes) -> explicit_orthonormal (BTuple axes) ->
    is_inverse (length axes) delta inv -> real_valued (BTuple axes) data ->
    total_surface_hamiltonian same hbar axes inv data mass frac = Some H ->
    hermitian (bsize (BTuple axes)) (op_entry H).
Proof.
  intros same axes delta inv hbar mass frac data H Hs Hw Ho Hi.
  exact (hamiltonian_hermitian same Hs axes Hw Ho delta inv Hi hbar mass frac data H).
Qed.
Print Assumptions C33_hermitian.

(** The energy of a state: the potential weighted with its density plus the free energies
    weighted with its momentum distribution. *)
Theorem C33_energy_of_state :
  forall same axes delta inv hbar mass frac data H q u,
    identity_test same -> bwf (BTuple axes) -> explicit_orthonormal (BTuple axes) ->
    is_inverse (length axes) delta inv ->
    total_surface_hamiltonian same hbar axes inv data mass frac = Some H ->
    let B := BTuple axes in let shape := map bfund axes in let N := nprod shape in
    waves shape delta frac q ->
    matrix_element (bsize B) u (op_entry H) u =
      csum (fun x => amplitude B data x * RtoC (Cnorm2 (amplitude B u x))) N +
      csum (fun k => RtoC (hbar * hbar * dot (length axes) (q k) (q k) / (2 * mass)) *
                     RtoC (Cnorm2 (inner_product N (bstate (momenta shape) k) (amplitude B u)))) N.
Proof.
  intros same axes delta inv hbar mass frac data H q u Hs Hw Ho Hi.
  exact (energy_expectation same Hs axes Hw Ho delta inv Hi hbar mass frac data H q u).
Qed.
Print Assumptions C33_energy_of_state.

(** No eigenvalue lies below the smallest value of a real potential, and all are real. *)
Theorem C33_eigenvalues_above_potential :
  forall same axes delta inv hbar mass frac data H u lam (v0 : R),
    identity_test same -> bwf (BTuple axes) -> explicit_orthonormal (BTuple axes) ->
    is_inverse (length axes) delta inv -> real_valued (BTuple axes) data -> (0 < mass)%R ->
    (forall x, (x < nprod (map bfund axes))%nat -> (v0 <= fst (amplitude (BTuple axes) data x))%R) ->
    total_surface_hamiltonian same hbar axes inv data mass frac = Some H ->
    eigenvector (bsize (BTuple axes)) (op_entry H) lam u -> snd lam = 0%R /\ (v0 <= fst lam)%R.
Proof.
  intros same axes delta inv hbar mass frac data H u lam v0 Hs Hw Ho Hi.
  exact (spectrum_lower_bound same Hs axes Hw Ho delta inv Hi hbar mass frac data H u lam v0).
Qed.
Print Assumptions C33_eigenvalues_above_potential.

(** Raising the potential by a constant raises the Hamiltonian by that constant. *)
Theorem C33_constant_shift :
  forall same axes delta inv hbar mass frac data data' H H' (c : C),
    identity_test same -> bwf (BTuple axes) -> explicit_orthonormal (BTuple axes) ->
    is_inverse (length axes) delta inv ->
    (forall x, (x < nprod (map bfund axes))%nat ->
       amplitude (BTuple axes) data' x = amplitude (BTuple axes) data x + c) ->
    total_surface_hamiltonian same hbar axes inv data mass frac = Some H ->
    total_surface_hamiltonian same hbar axes inv data' mass frac = Some H' ->
    forall i j, (i < bsize (BTuple axes))%nat -> (j < bsize (BTuple axes))%nat ->
      op_entry H' i j = op_entry H i j + c * cdelta i j.
Proof.
  intros same axes delta inv hbar mass frac data data' H H' c Hs Hw Ho Hi.
  exact (potential_shift same Hs axes Hw Ho delta inv Hi hbar mass frac data data' H H' c).
Qed.
Print Assumptions C33_constant_shift.

(** Without a potential, in a complete basis, every plane wave is an eigenstate with its
    free energy. *)
Theorem C33_free_particle :
  forall same axes delta inv hbar mass frac data H q k,
    identity_test same -> bwf (BTuple axes) -> explicit_orthonormal (BTuple axes) ->
    is_inverse (length axes) delta inv -> complete (BTuple axes) ->
    let shape := map bfund axes in
    (forall x, (x < nprod shape)%nat -> amplitude (BTuple axes) data x = 0) ->
    total_surface_hamiltonian same hbar axes inv data mass frac = Some H ->
    waves shape delta frac q -> (k < nprod shape)%nat ->
    eigenvector (bsize (BTuple axes)) (op_entry H)
      (RtoC (hbar * hbar * dot (length axes) (q k) (q k) / (2 * mass)))
      (fun i => overlap (BTuple axes) (momenta shape) i k).
Proof.
  intros same axes delta inv hbar mass frac data H q k Hs Hw Ho Hi.
  exact (free_particle same Hs axes Hw Ho delta inv Hi hbar mass frac data H q k).
Qed.
Print Assumptions C33_free_particle.

(** ** C34 *)

(** The continuous function always exists and passes through every grid value. *)
Theorem C34_continuous_potential_on_grid :
  forall same axes delta inv data,
    identity_test same -> bwf (BTuple axes) -> explicit_orthonormal (BTuple axes) ->
    is_inverse (length axes) delta inv ->
    exists f, get_continuous_potential same axes inv data = Some f /\
      forall idx x, in_shape idx (map bfund axes) -> grid_point (map bfund axes) delta idx x ->
        f x = amplitude (BTuple axes) data (ravel (map bfund axes) idx).
Proof.
  intros same axes delta inv data Hs Hw Ho Hi.
  destruct (continuous_total same Hs axes Hw Ho inv data) as [f Hf]. exists f. split; [exact Hf|].
  intros idx x. exact (continuous_grid same Hs axes Hw Ho delta inv Hi data f idx x Hf).
Qed.
Print Assumptions C34_continuous_potential_on_grid.

(** It is unchanged by translation along any lattice vector. *)
Theorem C34_continuous_potential_periodic :
  forall same axes delta inv data f a x x',
    identity_test same -> bwf (BTuple axes) -> explicit_orthonormal (BTuple axes) ->
    is_inverse (length axes) delta inv -> get_continuous_potential same axes inv data = Some f ->
    (a < length axes)%nat -> translated (length axes) delta a x x' -> f x' = f x.
Proof.
  intros same axes delta inv data f a x x' Hs Hw Ho Hi.
  exact (continuous_periodic same Hs axes Hw Ho delta inv Hi data f a x x').
Qed.
Print Assumptions C34_continuous_potential_periodic.

(** With an odd number of points on every axis it is real for a real potential. *)
Theorem C34_continuous_potential_real_odd :
  forall same axes delta inv data f x,
    identity_test same -> bwf (BTuple axes) -> explicit_orthonormal (BTuple axes) ->
    is_inverse (length axes) delta inv -> get_continuous_potential same axes inv data = Some f ->
    Forall Nat.Odd (map bfund axes) -> real_valued (BTuple axes) data -> snd (f x) = 0%R.
Proof.
  intros same axes delta inv data f x Hs Hw Ho Hi.
  exact (continuous_real same Hs axes Hw Ho delta inv Hi data f x).
Qed.
Print Assumptions C34_continuous_potential_real_odd.

(** With an even number of points it is not: two points, one lattice vector of length 1. *)
Theorem C34_continuous_potential_even_refuted :
  forall same, identity_test same ->
  exists data f, get_continuous_potential same [BFund 2] (fun _ _ => 1%R) data = Some f /\
    real_valued (BTuple [BFund 2]) data /\ f (fun _ => 1 / 4)%R = - Ci.
Proof. exact continuous_even. Qed.
Print Assumptions C34_continuous_potential_even_refuted.

(** ** C65 *)

(** The function of the derivative potential is the partial derivative of the function of
    the potential, along the component that the (possibly negative) axis number names. *)
Theorem C65_derivative_of_potential :
  forall same axes delta inv data f axis c,
    identity_test same -> bwf (BTuple axes) -> explicit_orthonormal (BTuple axes) ->
    is_inverse (length axes) delta inv -> get_continuous_potential same axes inv data = Some f ->
    (c < length axes)%nat -> (axis = Z.of_nat c \/ axis = Z.of_nat c - Z.of_nat (length axes))%Z ->
    exists d g, get_potential_derivative same axes inv data axis = Some d /\
      get_continuous_potential same (map BFundT (map bfund axes)) inv (aflat d) = Some g /\
      forall x, cderivative (fun t => f (moved x c t)) (x c) (g x).
Proof.
  intros same axes delta inv data f axis c Hs Hw Ho Hi Hf Hc Ha.
  assert (Hp : python_index (length axes) axis = Some c) by (apply OperatorProofs2.python_index_spec; split; assumption).
  destruct (get_potential_derivative same axes inv data axis) as [d|] eqn:Ed.
  - destruct (derivative_spec same Hs axes Hw Ho delta inv Hi data axis c f d Hf Hp Ed) as [g G]. exists d, g. split; [reflexivity|exact G].
  - apply (derivative_raises same Hs axes Hw Ho) in Ed. congruence.
Qed.
Print Assumptions C65_derivative_of_potential.

(** Any other axis number raises. *)
Theorem C65_derivative_axis_out_of_range :
  forall same axes (inv : nat -> nat -> R) data axis,
    identity_test same -> bwf (BTuple axes) -> explicit_orthonormal (BTuple axes) ->
    (get_potential_derivative same axes inv data axis = None <->
     (axis < - Z.of_nat (length axes) \/ Z.of_nat (length axes) <= axis)%Z).
Proof.
  intros same axes inv data axis Hs Hw Ho.
  rewrite (derivative_raises same Hs axes Hw Ho inv data axis). exact (python_index_none (length axes) axis).
Qed.
Print Assumptions C65_derivative_axis_out_of_range.

(** ** C35 *)

Local Open Scope R_scope.
(** Truncation with the default power is undone exactly, wherever it is defined. *)
Theorem C35_undo_truncation_first_power :
  forall cutoff offset E, 0 < cutoff -> - offset - cutoff < E ->
  exists d, truncate_potential cutoff 1 offset E = Some d /\ undo_truncate_potential cutoff 1 offset d = Some E.
Proof. exact undo_first. Qed.
Print Assumptions C35_undo_truncation_first_power.

(** With any higher power it is undone at two energies only. *)
Theorem C35_undo_truncation_higher_powers :
  forall cutoff offset n E d, 0 < cutoff -> (2 <= n)%nat -> - offset <= E ->
    truncate_potential cutoff n offset E = Some d ->
    (undo_truncate_potential cutoff n offset d = Some E <->
     (E + offset) / cutoff = 0 \/ 1 + ((E + offset) / cutoff) ^ n = exp 1).
Proof.
  intros cutoff offset n E d Hc Hn HE HT.
  exact (undo_truncate_iff cutoff offset n Hc (PeanoNat.Nat.le_trans 1 2 n (le_S 1 1 (le_n 1)) Hn) E d Hn HE HT).
Qed.
Print Assumptions C35_undo_truncation_higher_powers.

(** Truncation keeps the order of energies, never raises one, and changes an energy by at
    most the fraction y^n / (1 + y^n), y = (E + offset) / cutoff. *)
Theorem C35_truncation_shape :
  forall cutoff offset n, 0 < cutoff -> (1 <= n)%nat ->
    (forall E, - offset <= E -> exists d, truncate_potential cutoff n offset E = Some d) /\
    (forall E E' d d', - offset <= E -> E < E' -> truncate_potential cutoff n offset E = Some d ->
       truncate_potential cutoff n offset E' = Some d' -> d < d') /\
    (forall E d, - offset <= E -> truncate_potential cutoff n offset E = Some d ->
       d <= E /\ (E + offset) / (1 + ((E + offset) / cutoff) ^ n) <= d + offset).
Proof.
  intros cutoff offset n Hc Hn. split; [|split].
  - intros E HE. destruct (truncate_spec cutoff offset n Hc Hn E HE) as [L [T _]]. eexists. exact T.
  - exact (truncate_monotone cutoff offset n Hc Hn).
  - exact (truncate_bounds cutoff offset n Hc Hn).
Qed.
Print Assumptions C35_truncation_shape.

Theorem C35_power_zero_raises :
  forall cutoff offset E, truncate_potential cutoff 0 offset E = None /\ undo_truncate_potential cutoff 0 offset E = None.
Proof. exact truncate_zero. Qed.
Print Assumptions C35_power_zero_raises.

(** Cutoff 2, offset 1: energy -2 lies below the offset but above - offset - cutoff. *)
Example ex_truncation : 0 < 2 /\ - 1 - 2 < -2 /\ (2 <= 3)%nat /\ - 1 <= 5.
Proof. split; [lra|]. split; [lra|]. split; [lia|lra]. Qed.

(** ** C36 *)

(** The smallest value becomes zero (complex numbers ordered by real part, then imaginary
    part), differences are unchanged, and normalising again changes nothing.  Only an
    empty potential raises. *)
Theorem C36_normalize_potential :
  forall n (v : nat -> C),
    (normalize_potential n v = None <-> n = 0%nat) /\
    forall w, normalize_potential n v = Some w ->
      (exists i, (i < n)%nat /\ w i = RtoC 0) /\
      (forall i, (i < n)%nat -> 0 < fst (w i) \/ (fst (w i) = 0 /\ 0 <= snd (w i))) /\
      (forall i j, (w i - w j = v i - v j)%C) /\
      exists w', normalize_potential n w = Some w' /\ forall i, (i < n)%nat -> w' i = w i.
Proof.
  intros n v. split; [exact (normalize_raises n v)|]. intros w Hw.
  destruct (normalize_spec n v w Hw) as [A [B D]]. split; [exact A|]. split; [|split].
  - intros i Hi. exact (proj1 (clt_false (w i) (RtoC 0)) (B i Hi)).
  - exact D.
  - exact (normalize_idempotent n v w Hw).
Qed.
Print Assumptions C36_normalize_potential.
Example ex_normalize : exists w, normalize_potential 3 (fun i => (INR i - 1, 2)) = Some w.
Proof. eexists. reflexivity. Qed.
