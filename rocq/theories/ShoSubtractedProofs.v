From Coq Require Import Reals List ZArith Arith Lia Lra.
From Verif Require Import ZLib Csum DFT NumPy Index Lattice LatticeProofs Basis Operator Spec SpecOperator Oscillator Generator SpecBasis SpecGenerator GeneratorProofs GeneratorProofs2 GeneratorProofs3 GeneratorProofs4 GeneratorProofs6 GeneratorFacts ShoSubtracted.
Import ListNotations.
Local Open Scope R_scope.
Local Open Scope C_scope.

(** The potential left, on the flat grid. *)
Definition left_over (nz : nat) (data : nat -> C) (mass omega : R) (delta origin : nat -> R) (x : nat) : C :=
  RtoC (fst (data x) - / 2 * mass * omega ^ 2 * (calculate_x_distances 3 delta nz origin (x mod nz)) ^ 2)%R.

Lemma ravel3_mod n0 n1 nz x0 x1 z : (z < nz)%nat -> (ravel [n0; n1; nz] [x0; x1; z] mod nz)%nat = z.
Proof.
  intros Hz. cbn [ravel nprod]. rewrite !Nat.mul_1_r, Nat.add_0_r.
  replace (x0 * (n1 * nz) + (x1 * nz + z))%nat with (z + (x0 * n1 + x1) * nz)%nat by nia.
  rewrite Nat.mod_add by lia. apply Nat.mod_small, Hz.
Qed.

Lemma dz_nonneg delta nz : (0 <= sho_dz delta nz)%R.
Proof. apply sqrt_pos. Qed.

Lemma sub_ft_coefficients n0 n1 nz data mass omega delta origin : (0 < n0)%nat -> (0 < n1)%nat ->
  fourier_coefficients n0 n1 nz (left_over nz data mass omega delta origin) (get_sho_ft_potential n0 n1 nz data mass omega delta origin).
Proof.
  intros H0 H1. pose proof (ifft2_coefficients n0 n1 nz (left_over nz data mass omega delta origin) H0 H1) as F.
  intros x0 x1 z Hx0 Hx1 Hz. rewrite (F x0 x1 z Hx0 Hx1 Hz).
  apply csum_ext. intros k0 _. apply csum_ext. intros k1 _. f_equal. f_equal. unfold get_sho_ft_potential, ifft2.
  f_equal. apply csum_ext. intros y0 _. apply csum_ext. intros y1 _. f_equal.
  unfold left_over, get_sho_subtracted_points, sho_points, get_sho_potential, Rsqr. rewrite ravel3_mod by exact Hz.
  apply (f_equal RtoC). ring.
Qed.

Lemma resolution_iff n0 n1 r0 r1 : sho_resolution_ok n0 n1 r0 r1 = true <-> (2 * r0 <= n0 + 2)%nat /\ (2 * r1 <= n1 + 2)%nat.
Proof.
  unfold sho_resolution_ok. rewrite Bool.negb_true_iff, Bool.orb_false_iff, !Z.ltb_ge. lia.
Qed.

Section Elements.
Variables (hbar mass omega : R) (n0 n1 nz r0 r1 m : nat) (data : nat -> C) (delta origin : nat -> R).
Hypothesis (H0 : (0 < n0)%nat) (H1 : (0 < n1)%nat) (Hh : (0 < hbar)%R) (Hm : (0 < mass)%R) (Ho : (0 < omega)%R) (M : (m <= 21)%nat)
  (G0 : (2 * r0 <= n0 + 2)%nat) (G1 : (2 * r1 <= n1 + 2)%nat).

Lemma sub_elements :
  exists rows, sho_off_diagonal_energies_fast hbar n0 n1 nz data mass omega delta origin r0 r1 m = Some rows /\
    has_shape (r0 * (r1 * m)) (r0 * (r1 * m)) rows /\
    forall i j, (i < r0 * (r1 * m))%nat -> (j < r0 * (r1 * m))%nat ->
      entry rows i j = potential_element (slab_basis n0 n1 nz r0 r1 m
        (fun k z => RtoC (sqrt (sho_dz delta nz) * calculate_sho_wavefunction hbar (sho_dz delta nz * INR z + origin 2%nat) omega mass k)))
        (left_over nz data mass omega delta origin) i j.
Proof using H0 H1 Hh Hm Ho M G0 G1.
  unfold sho_off_diagonal_energies_fast.
  replace (sho_resolution_ok n0 n1 r0 r1) with true by (symmetry; apply resolution_iff; split; assumption).
  apply energies1_python; try assumption; [apply dz_nonneg|apply sub_ft_coefficients; assumption].
Qed.

Lemma sub_hermitian rows : sho_off_diagonal_energies_fast hbar n0 n1 nz data mass omega delta origin r0 r1 m = Some rows ->
  hermitian (r0 * (r1 * m)) (entry rows).
Proof using H0 H1 Hh Hm Ho M G0 G1.
  intros E i j Hi Hj. destruct sub_elements as [rows' [E' [_ K]]]. rewrite E' in E. injection E as ->.
  unfold adjoint. rewrite !K by assumption. apply potential_element_hermitian. intros x _. reflexivity.
Qed.
End Elements.

(** Along +z *)
Lemma norm_along L : (0 < L)%R -> forall v : nat -> R, v 0%nat = 0%R -> v 1%nat = 0%R -> v 2%nat = L -> norm 3 v = L.
Proof.
  intros HL v A0 A1 A2. unfold norm, rsum. cbn. rewrite A0, A1, A2. replace (0 + 0 * 0 + 0 * 0 + L * L)%R with (L * L)%R by ring. apply sqrt_square. lra.
Qed.

Lemma dz_along L delta nz : (0 < nz)%nat -> (0 < L)%R -> delta 0%nat = 0%R -> delta 1%nat = 0%R -> delta 2%nat = L -> sho_dz delta nz = (L / INR nz)%R.
Proof.
  intros N HL A0 A1 A2. assert (0 < INR nz)%R by (apply lt_0_INR; lia). apply norm_along; [apply Rdiv_lt_0_compat; assumption| | |];
    rewrite ?A0, ?A1, ?A2; try reflexivity; unfold Rdiv; apply Rmult_0_l.
Qed.

Lemma dist_along L delta nz origin z : (0 < nz)%nat -> (0 < L)%R -> delta 0%nat = 0%R -> delta 1%nat = 0%R -> delta 2%nat = L ->
  calculate_x_distances 3 delta nz origin z = (L / INR nz * INR z + origin 2%nat)%R.
Proof.
  intros N HL A0 A1 A2. assert (INR nz <> 0)%R by (apply not_0_INR; lia). unfold calculate_x_distances.
  rewrite (norm_along L HL delta A0 A1 A2). unfold rsum. cbn. rewrite A0, A1, A2. field. split; lra.
Qed.

(** Transforms of potentials with inversion symmetry *)
Definition opposite (n x : nat) : nat := ((n - x) mod n)%nat.

Lemma opposite_bound n x : (x < n)%nat -> (opposite n x < n)%nat.
Proof. intros H. apply Nat.mod_upper_bound. lia. Qed.

Lemma opposite_twice n x : (x < n)%nat -> opposite n (opposite n x) = x.
Proof.
  intros H. unfold opposite. destruct (Nat.eq_dec x 0) as [->|N].
  - rewrite Nat.sub_0_r, Nat.mod_same, Nat.sub_0_r, Nat.mod_same by lia. reflexivity.
  - rewrite (Nat.mod_small (n - x)) by lia. rewrite Nat.mod_small by lia. lia.
Qed.

Lemma csum_opposite f n : csum (fun x => f (opposite n x)) n = csum f n.
Proof. apply (csum_bij f n n (opposite n) (opposite n)); intros i Hi; (split; [apply opposite_bound|apply opposite_twice]); exact Hi. Qed.

Lemma omega_opposite n k x : (x < n)%nat -> omega n (Z.of_nat k * Z.of_nat (opposite n x)) = omega n (- (Z.of_nat k * Z.of_nat x)).
Proof.
  intros H. apply omega_cong; [lia|]. unfold opposite. destruct (Nat.eq_dec x 0) as [->|N].
  - rewrite Nat.sub_0_r, Nat.mod_same by lia. exists 0%Z. lia.
  - rewrite Nat.mod_small by lia. exists (Z.of_nat k). lia.
Qed.

Lemma sub_ft_real n0 n1 nz data mass omega delta origin :
  (forall x0 x1 z, (x0 < n0)%nat -> (x1 < n1)%nat -> (z < nz)%nat ->
     data (ravel [n0; n1; nz] [opposite n0 x0; opposite n1 x1; z]) = data (ravel [n0; n1; nz] [x0; x1; z])) ->
  forall k0 k1 z, (z < nz)%nat -> snd (get_sho_ft_potential n0 n1 nz data mass omega delta origin k0 k1 z) = 0%R.
Proof.
  intros Hs k0 k1 z Hz. set (f := get_sho_ft_potential n0 n1 nz data mass omega delta origin k0 k1 z).
  assert (E : Cconj f = f).
  { unfold f, get_sho_ft_potential, ifft2. rewrite Cconj_mult, Cconj_RtoC. f_equal. rewrite Cconj_csum.
    rewrite <- (csum_opposite (fun x0 => csum _ n1)). apply csum_ext. intros x0 Hx0. rewrite Cconj_csum.
    rewrite <- (csum_opposite (fun x1 => _ * _)). apply csum_ext. intros x1 Hx1.
    rewrite !Cconj_mult, Cconj_RtoC, !omega_conj, !omega_opposite by assumption. f_equal.
    unfold get_sho_subtracted_points, sho_points. rewrite Hs by assumption. reflexivity. }
  clearbody f. destruct f as [a b]. injection E as E. cbn. lra.
Qed.
