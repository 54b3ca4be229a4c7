(** Proofs about the compiled Hamiltonian generator: Fourier coefficients, wavefunctions. *)
From Coq Require Import Reals List ZArith Arith Lia Lra Bool.
From Verif Require Import ZLib Csum DFT NumPy Spec Index IndexProofs Lattice Basis SpecBasis BasisProofs BasisProofs2 Operator SpecOperator
  Wavepacket Hamiltonian HamiltonianProofs2 Localize Oscillator Generator SpecGenerator GeneratorProofs GeneratorProofs2 KernelProofs3.
Import ListNotations.
Local Open Scope R_scope.
Local Open Scope C_scope.

Lemma fourier_unique n0 n1 nz V ft : (0 < n0)%nat -> (0 < n1)%nat -> fourier_coefficients n0 n1 nz V ft ->
  forall k0 k1 z, (k0 < n0)%nat -> (k1 < n1)%nat -> (z < nz)%nat ->
    ft k0 k1 z = ifft2 n0 n1 (fun x0 x1 z => V (ravel [n0; n1; nz] [x0; x1; z])) k0 k1 z.
Proof.
  intros H0 H1 HF k0 k1 z Hk0 Hk1 Hz. symmetry.
  assert (N0 : RtoC (INR n0) <> 0) by (apply RtoC_INR_neq0; lia).
  assert (N1 : RtoC (INR n1) <> 0) by (apply RtoC_INR_neq0; lia).
  unfold ifft2.
  transitivity (RtoC (/ (INR n0 * INR n1)) * csum (fun x0 => csum (fun x1 => csum (fun l0 => csum (fun l1 =>
     ft l0 l1 z * (omega n0 ((Z.of_nat k0 - Z.of_nat l0) * Z.of_nat x0) * omega n1 ((Z.of_nat k1 - Z.of_nat l1) * Z.of_nat x1))) n1) n0) n1) n0).
  { f_equal. apply csum_ext. intros x0 Hx0. apply csum_ext. intros x1 Hx1. rewrite HF by assumption.
    rewrite <- !csum_scal_r. apply csum_ext. intros l0 _. rewrite <- !csum_scal_r. apply csum_ext. intros l1 _.
    replace ((Z.of_nat k0 - Z.of_nat l0) * Z.of_nat x0)%Z with (Z.of_nat k0 * Z.of_nat x0 + - (Z.of_nat l0 * Z.of_nat x0))%Z by ring.
    replace ((Z.of_nat k1 - Z.of_nat l1) * Z.of_nat x1)%Z with (Z.of_nat k1 * Z.of_nat x1 + - (Z.of_nat l1 * Z.of_nat x1))%Z by ring.
    rewrite !omega_add. ring. }
  transitivity (RtoC (/ (INR n0 * INR n1)) * csum (fun l0 => csum (fun l1 => ft l0 l1 z *
     (csum (fun x0 => omega n0 ((Z.of_nat k0 - Z.of_nat l0) * Z.of_nat x0)) n0 * csum (fun x1 => omega n1 ((Z.of_nat k1 - Z.of_nat l1) * Z.of_nat x1)) n1)) n1) n0).
  { f_equal. etransitivity. { apply csum_ext. intros x0 _. etransitivity; [apply csum_swap|]. apply csum_ext. intros l0 _. apply csum_swap. }
    etransitivity; [apply csum_swap|]. apply csum_ext. intros l0 _.
    etransitivity; [apply csum_swap|]. apply csum_ext. intros l1 _.
    rewrite LinAlg.csum_mult. rewrite <- csum_scal_l. apply csum_ext. intros x0 _. rewrite <- csum_scal_l. apply csum_ext. intros x1 _. reflexivity. }
  rewrite (csum_single _ n0 k0 Hk0).
  2:{ intros l0 Hl0 Hne. apply csum_zero_ext. intros l1 Hl1. rewrite (omega_sum_neq n0 (Z.of_nat k0 - Z.of_nat l0)) by (first [assumption|apply diff_not_cong; auto]). ring. }
  rewrite (csum_single _ n1 k1 Hk1).
  2:{ intros l1 Hl1 Hne. rewrite (omega_sum_neq n1 (Z.of_nat k1 - Z.of_nat l1)) by (first [assumption|apply diff_not_cong; auto]). ring. }
  rewrite !Z.sub_diag. rewrite !omega_sum_0 by (try assumption; exists 0%Z; lia).
  rewrite Rinv_mult, RtoC_mult, !RtoC_inv by (apply not_0_INR; lia). field. split; assumption.
Qed.

Lemma to_list3_ext {A} l n m (f g : nat -> nat -> nat -> A) :
  (forall i j k, (i < l)%nat -> (j < n)%nat -> (k < m)%nat -> f i j k = g i j k) -> to_list3 l n m f = to_list3 l n m g.
Proof.
  intros H. unfold to_list3, to_list2. apply map_ext_in. intros i Hi. apply in_seq in Hi. apply map_ext_in. intros j Hj. apply in_seq in Hj.
  apply map_ext_in. intros k Hk. apply in_seq in Hk. apply H; lia.
Qed.

Lemma fourier_list n0 n1 nz V ft : (0 < n0)%nat -> (0 < n1)%nat -> fourier_coefficients n0 n1 nz V ft ->
  to_list3 n0 n1 nz ft = to_list3 n0 n1 nz (ifft2 n0 n1 (fun x0 x1 z => V (ravel [n0; n1; nz] [x0; x1; z]))).
Proof. intros H0 H1 HF. apply to_list3_ext. intros. apply (fourier_unique n0 n1 nz V ft); assumption. Qed.

Lemma energies2_fourier n0 n1 nz r0 r1 m V ft eig : (0 < n0)%nat -> (0 < n1)%nat -> fourier_coefficients n0 n1 nz V ft ->
  exists rows, calculate_off_diagonal_energies2 (to_list3 n0 n1 nz ft) (to_list2 m nz eig) r0 r1 m = Some rows /\
    has_shape (r0 * (r1 * m)) (r0 * (r1 * m)) rows /\
    forall i j, (i < r0 * (r1 * m))%nat -> (j < r0 * (r1 * m))%nat ->
      entry rows i j = potential_element (slab_basis n0 n1 nz r0 r1 m (fun k z => Cconj (eig k z))) V i j.
Proof.
  intros H0 H1 HF. rewrite (fourier_list n0 n1 nz V ft H0 H1 HF). apply energies2_elements; assumption.
Qed.

Lemma energies2_real n0 n1 nz r0 r1 m V ft eig : (0 < n0)%nat -> (0 < n1)%nat -> fourier_coefficients n0 n1 nz V ft ->
  (forall k z, (k < m)%nat -> (z < nz)%nat -> snd (eig k z) = 0%R) ->
  exists rows, calculate_off_diagonal_energies2 (to_list3 n0 n1 nz ft) (to_list2 m nz eig) r0 r1 m = Some rows /\
    forall i j, (i < r0 * (r1 * m))%nat -> (j < r0 * (r1 * m))%nat ->
      entry rows i j = potential_element (slab_basis n0 n1 nz r0 r1 m eig) V i j.
Proof.
  intros H0 H1 HF HR. destruct (energies2_fourier n0 n1 nz r0 r1 m V ft eig H0 H1 HF) as [rows [E [_ K]]]. exists rows. split; [exact E|].
  intros i j Hi Hj. rewrite K by assumption. eapply potential_element_ext; try eassumption; [reflexivity|].
  intros k z Hk Hz. apply Cconj_real. apply HR; assumption.
Qed.

Lemma energies2_hermitian n0 n1 nz r0 r1 m V ft eig rows : (0 < n0)%nat -> (0 < n1)%nat -> fourier_coefficients n0 n1 nz V ft ->
  (forall x, (x < n0 * (n1 * nz))%nat -> snd (V x) = 0%R) ->
  calculate_off_diagonal_energies2 (to_list3 n0 n1 nz ft) (to_list2 m nz eig) r0 r1 m = Some rows ->
  hermitian (r0 * (r1 * m)) (entry rows).
Proof.
  intros H0 H1 HF HV E i j Hi Hj. destruct (energies2_fourier n0 n1 nz r0 r1 m V ft eig H0 H1 HF) as [rows' [E' [_ K]]].
  rewrite E' in E. injection E as ->. unfold adjoint. rewrite !K by assumption. apply potential_element_hermitian.
  intros x Hx. apply HV. cbn [bfund slab_basis map nprod] in Hx. rewrite Nat.mul_1_r in Hx. exact Hx.
Qed.

Lemma energies1_fourier hbar n0 n1 nz r0 r1 m V ft dz mass omega z_offset : (0 < n0)%nat -> (0 < n1)%nat -> (0 <= dz)%R -> fourier_coefficients n0 n1 nz V ft ->
  exists rows, calculate_off_diagonal_energies hbar (to_list3 n0 n1 nz ft) r0 r1 m dz mass omega z_offset = Some rows /\
    has_shape (r0 * (r1 * m)) (r0 * (r1 * m)) rows /\
    forall i j, (i < r0 * (r1 * m))%nat -> (j < r0 * (r1 * m))%nat ->
      entry rows i j = potential_element (slab_basis n0 n1 nz r0 r1 m
        (fun k z => RtoC (sqrt dz * rust_sho_wavefunction hbar (dz * INR z + z_offset) omega mass k))) V i j.
Proof.
  intros H0 H1 Hdz HF. rewrite (fourier_list n0 n1 nz V ft H0 H1 HF). apply energies1_elements; assumption.
Qed.

(** ** Wavefunctions *)

Lemma combine_map_seq {A B} (f : nat -> A) (g : nat -> B) n : combine (map f (seq 0 n)) (map g (seq 0 n)) = map (fun i => (f i, g i)) (seq 0 n).
Proof. generalize 0%nat. induction n as [|n IH]; intros a; [reflexivity|]. cbn [seq map combine]. rewrite IH. reflexivity. Qed.

Lemma fold_right_csum {A} (f : A -> C) (g : nat -> A) n : forall a,
  fold_right (fun p acc => f p + acc) (RtoC 0) (map g (seq a n)) = csum (fun i => f (g (a + i)%nat)) n.
Proof.
  induction n as [|n IH]; intros a; [reflexivity|]. rewrite csum_S_head. cbn [seq map fold_right]. rewrite IH, Nat.add_0_r. f_equal.
  apply csum_ext. intros i _. rewrite Nat.add_succ_r. reflexivity.
Qed.

Lemma wavefunction_sum hbar r0 r1 r2 d0 d1 mass omega kx ky vec point :
  get_eigenstate_wavefunction hbar r0 r1 r2 d0 d1 mass omega kx ky (map vec (seq 0 (r0 * (r1 * r2)))) point
  = csum (fun i => vec i * eigenstate_term hbar d0 d1 mass omega kx ky point (coordinate r0 r1 r2 i)) (r0 * (r1 * r2)).
Proof.
  unfold get_eigenstate_wavefunction. rewrite coordinates_spec, combine_map_seq.
  exact (fold_right_csum (fun p => fst p * eigenstate_term hbar d0 d1 mass omega kx ky point (snd p)) (fun i => (vec i, coordinate r0 r1 r2 i)) (r0 * (r1 * r2)) 0%nat).
Qed.
