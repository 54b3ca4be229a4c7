(** Properties of the elements of a potential with an oscillator subtracted (C121). *)
From Coq Require Import Reals List ZArith Arith Lia Lra.
From Verif Require Import ZLib Csum DFT NumPy Spec Lattice Basis SpecBasis SpecOperator Oscillator Generator SpecGenerator ShoSubtracted ShoSubtractedProofs ShoSubtractedFacts.
Import ListNotations.
Local Open Scope R_scope.
Local Open Scope C_scope.

(** A cell with two points along z, one oscillator state and a potential that is not harmonic. *)
Example C121_case : (0 < 2)%R /\ (2 * 1 <= 1 + 2)%nat /\
  (let delta c := if (c =? 2)%nat then 2%R else 0%R in delta 0%nat = 0%R /\ delta 1%nat = 0%R /\ delta 2%nat = 2%R) /\
  fst (tail_data 0) <> fst (tail_data 1).
Proof. cbn. repeat split; try lra; try lia. Qed.

(** Every element, for an axis along +z of length [L], at most 21 oscillator states and enough
    points along the other axes: the potential less the oscillator's, between plane waves times
    oscillator states, all at the same heights above the origin. *)
Theorem C121_elements : forall hbar mass omega L n0 n1 nz r0 r1 m (data : nat -> C) (delta origin : nat -> R),
  (0 < n0)%nat -> (0 < n1)%nat -> (0 < nz)%nat -> (0 < hbar)%R -> (0 < mass)%R -> (0 < omega)%R -> (m <= 21)%nat ->
  (2 * r0 <= n0 + 2)%nat -> (2 * r1 <= n1 + 2)%nat ->
  (0 < L)%R -> delta 0%nat = 0%R -> delta 1%nat = 0%R -> delta 2%nat = L ->
  let z k := (L / INR nz * INR k + origin 2%nat)%R in
  exists rows, sho_off_diagonal_energies_fast hbar n0 n1 nz data mass omega delta origin r0 r1 m = Some rows /\
    has_shape (r0 * (r1 * m)) (r0 * (r1 * m)) rows /\
    forall i j, (i < r0 * (r1 * m))%nat -> (j < r0 * (r1 * m))%nat ->
      entry rows i j = potential_element (slab_basis n0 n1 nz r0 r1 m
          (fun k p => RtoC (sqrt (L / INR nz) * calculate_sho_wavefunction hbar (z p) omega mass k)))
        (fun x => RtoC (fst (data x) - / 2 * mass * omega ^ 2 * z (x mod nz)%nat ^ 2)) i j.
Proof. exact along_elements. Qed.
Print Assumptions C121_elements.

(** They are the elements in the oscillator states of the package's own basis. *)
Theorem C121_own_basis : forall hbar mass omega L n0 n1 nz r0 r1 m (data : nat -> C) (delta origin : nat -> R),
  (0 < n0)%nat -> (0 < n1)%nat -> (0 < nz)%nat -> (0 < hbar)%R -> (0 < mass)%R -> (0 < omega)%R -> (m <= 21)%nat ->
  (2 * r0 <= n0 + 2)%nat -> (2 * r1 <= n1 + 2)%nat ->
  (0 < L)%R -> delta 0%nat = 0%R -> delta 1%nat = 0%R -> delta 2%nat = L ->
  forall rows, sho_off_diagonal_energies_fast hbar n0 n1 nz data mass omega delta origin r0 r1 m = Some rows ->
  forall i j, (i < r0 * (r1 * m))%nat -> (j < r0 * (r1 * m))%nat ->
    entry rows i j = potential_element (slab_basis n0 n1 nz r0 r1 m (fun k p => RtoC (infinite_sho_vector hbar omega mass 3 delta nz origin k p)))
      (fun x => RtoC (fst (data x) - sho_config_potential omega mass 3 delta nz origin (x mod nz))) i j.
Proof. exact along_basis. Qed.
Print Assumptions C121_own_basis.

(** Not for an axis that points along -z: the oscillator subtracted is centred elsewhere than
    the oscillator states. *)
Theorem C121_downward_axis_refuted : exists (data : nat -> C) (delta origin : nat -> R) rows,
  delta 0%nat = 0%R /\ delta 1%nat = 0%R /\ (delta 2%nat < 0)%R /\
  sho_off_diagonal_energies_fast 1 1 1 2 data 1 1 delta origin 1 1 1 = Some rows /\
  entry rows 0 0 <> potential_element (slab_basis 1 1 2 1 1 1 (fun k p => RtoC (infinite_sho_vector 1 1 1 3 delta 2 origin k p)))
      (fun x => RtoC (fst (data x) - sho_config_potential 1 1 3 delta 2 origin (x mod 2))) 0 0.
Proof.
  destruct down_refuted as [rows [E K]]. exists tail_data, down, up1, rows. split; [reflexivity|]. split; [reflexivity|].
  split; [cbn; lra|]. split; [exact E|exact K].
Qed.
Print Assumptions C121_downward_axis_refuted.

(** Nothing is left of the oscillator's own potential. *)
Theorem C121_harmonic : forall hbar mass omega L n0 n1 nz r0 r1 m (data : nat -> C) (delta origin : nat -> R),
  (0 < n0)%nat -> (0 < n1)%nat -> (0 < nz)%nat -> (0 < hbar)%R -> (0 < mass)%R -> (0 < omega)%R -> (m <= 21)%nat ->
  (2 * r0 <= n0 + 2)%nat -> (2 * r1 <= n1 + 2)%nat ->
  (0 < L)%R -> delta 0%nat = 0%R -> delta 1%nat = 0%R -> delta 2%nat = L ->
  forall rows,
  (forall x, (x < n0 * (n1 * nz))%nat -> fst (data x) = (/ 2 * mass * omega ^ 2 * (L / INR nz * INR (x mod nz) + origin 2%nat) ^ 2)%R) ->
  sho_off_diagonal_energies_fast hbar n0 n1 nz data mass omega delta origin r0 r1 m = Some rows ->
  forall i j, (i < r0 * (r1 * m))%nat -> (j < r0 * (r1 * m))%nat -> entry rows i j = 0.
Proof. exact along_harmonic. Qed.
Print Assumptions C121_harmonic.

(** The matrix is Hermitian, whatever the direction of the axis. *)
Theorem C121_hermitian : forall hbar mass omega n0 n1 nz r0 r1 m (data : nat -> C) (delta origin : nat -> R),
  (0 < n0)%nat -> (0 < n1)%nat -> (0 < hbar)%R -> (0 < mass)%R -> (0 < omega)%R -> (m <= 21)%nat ->
  (2 * r0 <= n0 + 2)%nat -> (2 * r1 <= n1 + 2)%nat ->
  forall rows, sho_off_diagonal_energies_fast hbar n0 n1 nz data mass omega delta origin r0 r1 m = Some rows ->
  hermitian (r0 * (r1 * m)) (entry rows).
Proof. exact sub_hermitian. Qed.
Print Assumptions C121_hermitian.

(** The transform of a potential that is the same at opposite points of the cell is real. *)
Theorem C121_symmetric_transform : forall n0 n1 nz (data : nat -> C) mass omega (delta origin : nat -> R),
  (forall x0 x1 z, (x0 < n0)%nat -> (x1 < n1)%nat -> (z < nz)%nat ->
     data (ravel [n0; n1; nz] [(n0 - x0) mod n0; (n1 - x1) mod n1; z]%nat) = data (ravel [n0; n1; nz] [x0; x1; z])) ->
  forall k0 k1 z, (z < nz)%nat -> snd (get_sho_ft_potential n0 n1 nz data mass omega delta origin k0 k1 z) = 0%R.
Proof. exact sub_ft_real. Qed.
Print Assumptions C121_symmetric_transform.

(** Too few points along either axis are refused. *)
Theorem C121_resolution : forall hbar mass omega n0 n1 nz r0 r1 m (data : nat -> C) (delta origin : nat -> R),
  (n0 + 2 < 2 * r0 \/ n1 + 2 < 2 * r1)%nat ->
  sho_off_diagonal_energies_fast hbar n0 n1 nz data mass omega delta origin r0 r1 m = None.
Proof.
  intros. unfold sho_off_diagonal_energies_fast. destruct (sho_resolution_ok n0 n1 r0 r1) eqn:E; [|reflexivity].
  apply resolution_iff in E. lia.
Qed.
Print Assumptions C121_resolution.
