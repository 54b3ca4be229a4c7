(** Proofs about the compiled Hamiltonian generator: elements of the potential. *)
From Coq Require Import Reals List ZArith Arith Lia Lra Bool.
From Verif Require Import ZLib Csum DFT NumPy Spec Index IndexProofs Lattice Basis SpecBasis BasisProofs BasisProofs2 Operator SpecOperator
  Wavepacket Hamiltonian HamiltonianProofs2 Localize Oscillator Generator SpecGenerator GeneratorProofs KernelProofs3.
Import ListNotations.
Local Open Scope R_scope.
Local Open Scope C_scope.

Lemma csum3 (f : nat -> C) a b c : csum f (nprod [a; b; c]) =
  csum (fun x0 => csum (fun x1 => csum (fun z => f (ravel [a; b; c] [x0; x1; z])) c) b) a.
Proof.
  cbn [nprod]. rewrite !Nat.mul_1_r. rewrite csum_mul. apply csum_ext. intros x0 _. rewrite csum_mul.
  apply csum_ext. intros x1 _. apply csum_ext. intros z _. f_equal. cbn [ravel nprod]. lia.
Qed.

Lemma ravel3 a b c x0 x1 z : (x0 < a)%nat -> (x1 < b)%nat -> (z < c)%nat -> in_shape [x0; x1; z] [a; b; c].
Proof. intros. repeat constructor; assumption. Qed.

Lemma slab_state n0 n1 nz r0 r1 m vecs i x0 x1 z : (x0 < n0)%nat -> (x1 < n1)%nat -> (z < nz)%nat ->
  bstate (slab_basis n0 n1 nz r0 r1 m vecs) i (ravel [n0; n1; nz] [x0; x1; z])
  = plane_wave n0 (freq r0 (i / (r1 * m))) x0 * (plane_wave n1 (freq r1 (i mod (r1 * m) / m)) x1 * vecs (i mod (r1 * m) mod m)%nat z).
Proof.
  intros H0 H1 Hz. pose proof (unravel_ravel [n0; n1; nz] [x0; x1; z] (ravel3 _ _ _ _ _ _ H0 H1 Hz)) as U.
  set (x := ravel [n0; n1; nz] [x0; x1; z]) in *.
  cbn [unravel nprod] in U. rewrite !Nat.mul_1_r in U. 
  rewrite Nat.div_1_r in U. assert (U0 := f_equal (fun l => nth 0 l 0%nat) U). assert (U1 := f_equal (fun l => nth 1 l 0%nat) U). assert (U2 := f_equal (fun l => nth 2 l 0%nat) U). cbn [nth] in U0, U1, U2. clear U.
  unfold slab_basis. cbn [bstate map product_states bsize bfund fst snd nprod].
  rewrite !Nat.mul_1_r. rewrite U0, U1. rewrite !Nat.div_1_r. rewrite U2. rewrite Cmult_1_r. do 2 f_equal.
  rewrite (csum_single _ nz z Hz).
  - unfold cdelta. rewrite Nat.eqb_refl. ring.
  - intros j Hj Hne. unfold cdelta. destruct (Nat.eqb_spec j z); [contradiction|ring].
Qed.

Lemma wave_product N a b x : (0 < N)%nat -> Cconj (plane_wave N a x) * plane_wave N b x
  = RtoC (/ INR N) * omega N (Z.of_nat (slot N (b - a)) * Z.of_nat x).
Proof.
  intros HN. unfold plane_wave.
  assert (Hc : Cconj (isqrt N) = isqrt N) by (unfold isqrt; apply Cconj_RtoC).
  rewrite Cconj_mult, Hc, omega_conj.
  assert (Hi : isqrt N * isqrt N = RtoC (/ INR N)).
  { pose proof (isqrt_sqr N HN) as E. assert (HR : RtoC (INR N) <> 0) by (apply RtoC_INR_neq0; lia).
    transitivity (isqrt N * isqrt N * RtoC (INR N) * / RtoC (INR N)); [field; exact HR|]. rewrite E, Cmult_1_l.
    rewrite RtoC_inv by (apply not_0_INR; lia). reflexivity. }
  transitivity (isqrt N * isqrt N * (omega N (- (a * Z.of_nat x)) * omega N (b * Z.of_nat x))); [ring|].
  rewrite Hi, <- omega_add. f_equal. apply omega_cong; [exact HN|].
  destruct (slot_cong N (b - a) HN) as [q Hq].
  replace (- (a * Z.of_nat x) + b * Z.of_nat x)%Z with ((b - a) * Z.of_nat x)%Z by ring.
  exists (- q * Z.of_nat x)%Z. nia.
Qed.

Section Elements.
  Variables n0 n1 nz r0 r1 m : nat.
  Hypothesis Hn0 : (0 < n0)%nat.
  Hypothesis Hn1 : (0 < n1)%nat.
  Variable V : nat -> C.

  Definition d0 (i j : nat) : nat := slot n0 (freq r0 (j / (r1 * m)) - freq r0 (i / (r1 * m))).
  Definition d1 (i j : nat) : nat := slot n1 (freq r1 (j mod (r1 * m) / m) - freq r1 (i mod (r1 * m) / m)).
  Definition zi (i : nat) : nat := (i mod (r1 * m) mod m)%nat.

  Lemma potential_element_slab vecs i j : potential_element (slab_basis n0 n1 nz r0 r1 m vecs) V i j
    = csum (fun z => ifft2 n0 n1 (fun x0 x1 z => V (ravel [n0; n1; nz] [x0; x1; z])) (d0 i j) (d1 i j) z
                     * Cconj (vecs (zi i) z) * vecs (zi j) z) nz.
  Proof using Hn0 Hn1.
    unfold potential_element. replace (bfund (slab_basis n0 n1 nz r0 r1 m vecs)) with (nprod [n0; n1; nz]) by reflexivity.
    rewrite csum3.
    transitivity (csum (fun x0 => csum (fun x1 => csum (fun z =>
       RtoC (/ (INR n0 * INR n1)) * (V (ravel [n0; n1; nz] [x0; x1; z]) * (omega n0 (Z.of_nat (d0 i j) * Z.of_nat x0) * omega n1 (Z.of_nat (d1 i j) * Z.of_nat x1)))
        * Cconj (vecs (zi i) z) * vecs (zi j) z) nz) n1) n0).
    - apply csum_ext. intros x0 H0. apply csum_ext. intros x1 H1. apply csum_ext. intros z Hz.
      rewrite !slab_state by assumption. rewrite !Cconj_mult.
      assert (W0 := wave_product n0 (freq r0 (i / (r1 * m))) (freq r0 (j / (r1 * m))) x0 Hn0).
      assert (W1 := wave_product n1 (freq r1 (i mod (r1 * m) / m)) (freq r1 (j mod (r1 * m) / m)) x1 Hn1).
      fold (d0 i j) in W0. fold (d1 i j) in W1. fold (zi i) (zi j).
      set (a := Cconj (plane_wave n0 (freq r0 (i / (r1 * m))) x0)) in *. set (b := plane_wave n0 (freq r0 (j / (r1 * m))) x0) in *.
      set (a' := Cconj (plane_wave n1 (freq r1 (i mod (r1 * m) / m)) x1)) in *. set (b' := plane_wave n1 (freq r1 (j mod (r1 * m) / m)) x1) in *.
      transitivity ((a * b) * (a' * b') * V (ravel [n0; n1; nz] [x0; x1; z]) * (Cconj (vecs (zi i) z) * vecs (zi j) z)); [ring|].
      rewrite W0, W1. rewrite Rinv_mult. rewrite RtoC_mult. ring.
    - etransitivity.
      { apply csum_ext. intros x0 _. apply csum_swap. }
      etransitivity; [apply csum_swap|]. apply csum_ext. intros z _. unfold ifft2.
      rewrite <- !csum_scal_l, <- !csum_scal_r. apply csum_ext. intros x0 _.
      rewrite <- !csum_scal_l, <- !csum_scal_r. apply csum_ext. intros x1 _. reflexivity.
  Qed.

  (** Rows returned by the generator. *)
  Lemma entry_to_list2 N f i j : (i < N)%nat -> (j < N)%nat -> entry (to_list2 N N f) i j = f i j.
  Proof using.
    intros Hi Hj. unfold entry, to_list2. rewrite nth_map_seq' by exact Hi. rewrite nth_map_seq' by exact Hj. reflexivity.
  Qed.
  Lemma shape_to_list2 N M f : has_shape N M (to_list2 N M f).
  Proof using.
    split; [unfold to_list2; rewrite map_length, seq_length; reflexivity|].
    apply Forall_forall. intros r Hr. apply in_map_iff in Hr. destruct Hr as [k [<- _]]. rewrite map_length, seq_length. reflexivity.
  Qed.

  Lemma energies2_elements eig :
    exists rows, calculate_off_diagonal_energies2
        (to_list3 n0 n1 nz (ifft2 n0 n1 (fun x0 x1 z => V (ravel [n0; n1; nz] [x0; x1; z])))) (to_list2 m nz eig) r0 r1 m = Some rows /\
      has_shape (r0 * (r1 * m)) (r0 * (r1 * m)) rows /\
      forall i j, (i < r0 * (r1 * m))%nat -> (j < r0 * (r1 * m))%nat ->
        entry rows i j = potential_element (slab_basis n0 n1 nz r0 r1 m (fun k z => Cconj (eig k z))) V i j.
  Proof using Hn0 Hn1.
    eexists. split; [apply energies2_spec; assumption|]. split; [apply shape_to_list2|].
    intros i j Hi Hj. rewrite entry_to_list2 by assumption. rewrite potential_element_slab.
    unfold out, coordinate. apply csum_ext. intros z _. rewrite Cconj_conj. reflexivity.
  Qed.

  Lemma energies1_elements hbar dz mass omega z_offset : (0 <= dz)%R ->
    exists rows, calculate_off_diagonal_energies hbar
        (to_list3 n0 n1 nz (ifft2 n0 n1 (fun x0 x1 z => V (ravel [n0; n1; nz] [x0; x1; z])))) r0 r1 m dz mass omega z_offset = Some rows /\
      has_shape (r0 * (r1 * m)) (r0 * (r1 * m)) rows /\
      forall i j, (i < r0 * (r1 * m))%nat -> (j < r0 * (r1 * m))%nat ->
        entry rows i j = potential_element (slab_basis n0 n1 nz r0 r1 m
          (fun k z => RtoC (sqrt dz * rust_sho_wavefunction hbar (dz * INR z + z_offset) omega mass k))) V i j.
  Proof using Hn0 Hn1.
    intros Hdz.
    eexists. split; [apply energies1_spec; assumption|]. split; [apply shape_to_list2|].
    intros i j Hi Hj. rewrite entry_to_list2 by assumption. rewrite potential_element_slab.
    unfold out, coordinate. rewrite <- csum_scal_r. apply csum_ext. intros z _. rewrite Cconj_RtoC.
    rewrite !RtoC_mult. fold (d0 i j) (d1 i j) (zi i) (zi j). assert (Ed : RtoC dz = RtoC (sqrt dz) * RtoC (sqrt dz)) by (rewrite <- RtoC_mult, sqrt_sqrt by exact Hdz; reflexivity).
    rewrite Ed. ring.
  Qed.
End Elements.

Lemma potential_element_hermitian b V : (forall x, (x < bfund b)%nat -> snd (V x) = 0%R) ->
  forall i j, potential_element b V i j = Cconj (potential_element b V j i).
Proof.
  intros HV i j. unfold potential_element. rewrite Cconj_csum. apply csum_ext. intros x Hx.
  rewrite !Cconj_mult, Cconj_conj, (Cconj_real _ (HV x Hx)). ring.
Qed.

Lemma potential_element_ext b n0 n1 nz r0 r1 m vecs vecs' V i j : b = slab_basis n0 n1 nz r0 r1 m vecs ->
  (0 < n0)%nat -> (0 < n1)%nat -> (i < r0 * (r1 * m))%nat -> (j < r0 * (r1 * m))%nat ->
  (forall k z, (k < m)%nat -> (z < nz)%nat -> vecs k z = vecs' k z) ->
  potential_element b V i j = potential_element (slab_basis n0 n1 nz r0 r1 m vecs') V i j.
Proof.
  intros -> H0 H1 Hi Hj E. rewrite !potential_element_slab by assumption. apply csum_ext. intros z Hz.
  pose proof (coordinate_z r0 r1 m i Hi) as Zi. pose proof (coordinate_z r0 r1 m j Hj) as Zj. cbn [coordinate snd] in Zi, Zj.
  unfold zi. rewrite !E by assumption. reflexivity.
Qed.

Lemma diff_not_cong N x y : (x < N)%nat -> (y < N)%nat -> y <> x -> ~ Zcong (Z.of_nat N) (Z.of_nat y - Z.of_nat x) 0.
Proof.
  intros Hx Hy Hne [q Hq]. assert (q = 0 \/ q <= -1 \/ 1 <= q)%Z as [->|[L|L]] by lia; nia.
Qed.

(** The transform used. *)
Lemma ifft2_coefficients n0 n1 nz V : (0 < n0)%nat -> (0 < n1)%nat ->
  fourier_coefficients n0 n1 nz V (ifft2 n0 n1 (fun x0 x1 z => V (ravel [n0; n1; nz] [x0; x1; z]))).
Proof.
  intros H0 H1 x0 x1 z Hx0 Hx1 Hz. symmetry.
  assert (N0 : RtoC (INR n0) <> 0) by (apply RtoC_INR_neq0; lia).
  assert (N1 : RtoC (INR n1) <> 0) by (apply RtoC_INR_neq0; lia).
  set (v := fun x0 x1 => V (ravel [n0; n1; nz] [x0; x1; z])).
  transitivity (csum (fun k0 => csum (fun k1 => csum (fun y0 => csum (fun y1 =>
     RtoC (/ (INR n0 * INR n1)) * v y0 y1 * (omega n0 ((Z.of_nat y0 - Z.of_nat x0) * Z.of_nat k0) * omega n1 ((Z.of_nat y1 - Z.of_nat x1) * Z.of_nat k1))) n1) n0) n1) n0).
  { apply csum_ext. intros k0 _. apply csum_ext. intros k1 _. unfold ifft2.
    rewrite <- csum_scal_l, <- !csum_scal_r. apply csum_ext. intros y0 _. rewrite <- csum_scal_l, <- !csum_scal_r. apply csum_ext. intros y1 _.
    fold (v y0 y1). replace ((Z.of_nat y0 - Z.of_nat x0) * Z.of_nat k0)%Z with (Z.of_nat k0 * Z.of_nat y0 + - (Z.of_nat k0 * Z.of_nat x0))%Z by ring.
    replace ((Z.of_nat y1 - Z.of_nat x1) * Z.of_nat k1)%Z with (Z.of_nat k1 * Z.of_nat y1 + - (Z.of_nat k1 * Z.of_nat x1))%Z by ring.
    rewrite !omega_add. ring. }
  transitivity (csum (fun y0 => csum (fun y1 => RtoC (/ (INR n0 * INR n1)) * v y0 y1 *
     (csum (fun k0 => omega n0 ((Z.of_nat y0 - Z.of_nat x0) * Z.of_nat k0)) n0 * csum (fun k1 => omega n1 ((Z.of_nat y1 - Z.of_nat x1) * Z.of_nat k1)) n1)) n1) n0).
  { etransitivity. { apply csum_ext. intros k0 _. etransitivity; [apply csum_swap|]. apply csum_ext. intros y0 _. apply csum_swap. }
    etransitivity; [apply csum_swap|]. apply csum_ext. intros y0 _.
    etransitivity; [apply csum_swap|]. apply csum_ext. intros y1 _.
    rewrite LinAlg.csum_mult. rewrite <- csum_scal_l. apply csum_ext. intros k0 _. rewrite <- csum_scal_l. apply csum_ext. intros k1 _. reflexivity. }
  rewrite (csum_single _ n0 x0 Hx0).
  2:{ intros y0 Hy0 Hne. apply csum_zero_ext. intros y1 Hy1. rewrite (omega_sum_neq n0 (Z.of_nat y0 - Z.of_nat x0)) by (first [assumption|apply diff_not_cong; assumption]). ring. }
  rewrite (csum_single _ n1 x1 Hx1).
  2:{ intros y1 Hy1 Hne. rewrite (omega_sum_neq n1 (Z.of_nat y1 - Z.of_nat x1)) by (first [assumption|apply diff_not_cong; assumption]). ring. }
  rewrite !Z.sub_diag. rewrite !omega_sum_0 by (try assumption; exists 0%Z; lia).
  unfold v. rewrite Rinv_mult, RtoC_mult, !RtoC_inv by (apply not_0_INR; lia). field. split; assumption.
Qed.
