(** Consequences and concrete facts about the Hamiltonian generator. *)
From Coq Require Import Reals List ZArith Arith Lia Lra Bool.
From Verif Require Import ZLib Csum DFT NumPy Spec SpecReal Index IndexProofs Lattice Basis SpecBasis BasisProofs BasisProofs2 BasisProofs3 Operator SpecOperator OperatorProofs
  SpecMatrix Wavepacket SpecWavepacket Hamiltonian SpecHamiltonian HamiltonianProofs HamiltonianProofs2 Localize SpecLocalize LocalizeProofs3 Oscillator OscillatorProofs2
  Spectral3 Generator SpecGenerator GeneratorProofs GeneratorProofs2 GeneratorProofs3 GeneratorProofs4 GeneratorProofs5 GeneratorProofs6 KernelProofs3.
Import ListNotations.
Local Open Scope R_scope.
Local Open Scope C_scope.

(** ** Off diagonal energies *)

Lemma energies1_python hbar n0 n1 nz r0 r1 m V ft dz mass omega z_offset :
  (0 < n0)%nat -> (0 < n1)%nat -> (0 <= dz)%R -> (0 < hbar)%R -> (0 < mass)%R -> (0 < omega)%R -> (m <= 21)%nat ->
  fourier_coefficients n0 n1 nz V ft ->
  exists rows, calculate_off_diagonal_energies hbar (to_list3 n0 n1 nz ft) r0 r1 m dz mass omega z_offset = Some rows /\
    has_shape (r0 * (r1 * m)) (r0 * (r1 * m)) rows /\
    forall i j, (i < r0 * (r1 * m))%nat -> (j < r0 * (r1 * m))%nat ->
      entry rows i j = potential_element (slab_basis n0 n1 nz r0 r1 m
        (fun k z => RtoC (sqrt dz * calculate_sho_wavefunction hbar (dz * INR z + z_offset) omega mass k))) V i j.
Proof.
  intros H0 H1 Hdz Hh Hma Hom Hm HF. destruct (energies1_fourier hbar n0 n1 nz r0 r1 m V ft dz mass omega z_offset H0 H1 Hdz HF) as [rows [E [S K]]].
  exists rows. split; [exact E|]. split; [exact S|]. intros i j Hi Hj. rewrite K by assumption. eapply potential_element_ext; try eassumption; [reflexivity|].
  intros k z Hk _. cbn beta. rewrite rust_python by (try assumption; lia). reflexivity.
Qed.

(** Complex z states: orthonormal, but the entry is the conjugate of the element. *)
Definition twisted (k z : nat) : C :=
  match k, z with
  | 0%nat, 0%nat => RtoC (3 / 5) | 0%nat, _ => RtoC (4 / 5)
  | _, 0%nat => Ci * RtoC (4 / 5) | _, _ => Ci * RtoC (- (3 / 5))
  end.
Definition spike (x : nat) : C := match x with 0%nat => RtoC 25 | _ => RtoC 0 end.

Lemma twisted_orthonormal : forall a b, (a < 2)%nat -> (b < 2)%nat -> inner_product 2 (twisted a) (twisted b) = cdelta a b.
Proof.
  intros a b Ha Hb. destruct a as [|[|a]]; [| |lia]; destruct b as [|[|b]]; try lia; unfold inner_product, twisted, cdelta; cbn [csum Nat.eqb];
    unfold Ci, RtoC, Cconj, Cplus, Cmult; cbn [fst snd]; f_equal; field.
Qed.

Lemma spike_coefficients : fourier_coefficients 1 1 2 spike (fun _ _ z => spike z).
Proof.
  intros x0 x1 z H0 H1 Hz. replace x0 with 0%nat by lia. replace x1 with 0%nat by lia. cbn [csum ravel nprod Nat.mul Nat.add].
  rewrite Nat.mul_1_r, Nat.add_0_r. change (- (Z.of_nat 0 * Z.of_nat 0))%Z with 0%Z. rewrite omega_0. ring.
Qed.

Lemma spike_element vecs : potential_element (slab_basis 1 1 2 1 1 2 vecs) spike 0 1 = RtoC 25 * (Cconj (vecs 0%nat 0%nat) * vecs 1%nat 0%nat).
Proof.
  unfold potential_element. change (bfund (slab_basis 1 1 2 1 1 2 vecs)) with (nprod [1%nat; 1%nat; 2%nat]). rewrite csum3. cbn [csum].
  rewrite !slab_state by lia. change (0 mod (1 * 2) mod 2)%nat with 0%nat. change (1 mod (1 * 2) mod 2)%nat with 1%nat.
  change (ravel [1%nat; 1%nat; 2%nat] [0%nat; 0%nat; 0%nat]) with 0%nat. change (ravel [1%nat; 1%nat; 2%nat] [0%nat; 0%nat; 1%nat]) with 1%nat.
  cbn [spike].
  assert (P : forall r k, plane_wave 1 (freq r k) 0 = 1).
  { intros r k. unfold plane_wave. change (Z.of_nat 0) with 0%Z. rewrite Z.mul_0_r, omega_0. unfold isqrt. cbn [INR]. rewrite sqrt_1. 
    unfold RtoC, Cmult; cbn [fst snd]. f_equal; field. }
  rewrite !P, !Cconj_mult. rewrite !Cconj_RtoC. ring.
Qed.

Lemma twisted_refutes : exists rows,
  calculate_off_diagonal_energies2 (to_list3 1 1 2 (fun _ _ z => spike z)) (to_list2 2 2 twisted) 1 1 2 = Some rows /\
  entry rows 0 1 <> potential_element (slab_basis 1 1 2 1 1 2 twisted) spike 0 1.
Proof.
  destruct (energies2_fourier 1 1 2 1 1 2 spike (fun _ _ z => spike z) twisted ltac:(lia) ltac:(lia) spike_coefficients) as [rows [E [_ K]]].
  exists rows. split; [exact E|]. rewrite K by lia. rewrite !spike_element. cbn [twisted].
  unfold Ci, RtoC, Cconj, Cplus, Cmult; cbn [fst snd]. intros X. injection X. lra.
Qed.

(** ** Wavefunctions *)

Lemma cross_wave d0 d1 (K : R * R) a b : (fst d0 * snd d1 - snd d0 * fst d1)%R <> 0%R ->
  dot2 K d0 = (2 * PI * a)%R -> dot2 K d1 = (2 * PI * b)%R ->
  fst K = (a * fst (dkx0 d0 d1) + b * fst (dkx1 d0 d1))%R /\ snd K = (a * snd (dkx0 d0 d1) + b * snd (dkx1 d0 d1))%R.
Proof.
  intros HD E0 E1. unfold dkx0, dkx1, dk_prefactor, dot2 in *. cbn [fst snd].
  assert (A : (fst K * (fst d0 * snd d1 - snd d0 * fst d1) = 2 * PI * a * snd d1 - 2 * PI * b * snd d0)%R) by (rewrite <- E0, <- E1; ring).
  assert (B : (snd K * (fst d0 * snd d1 - snd d0 * fst d1) = - (2 * PI * a) * fst d1 + 2 * PI * b * fst d0)%R) by (rewrite <- E0, <- E1; ring).
  split; [apply (Rmult_eq_reg_r (fst d0 * snd d1 - snd d0 * fst d1)); [rewrite A|exact HD]|
          apply (Rmult_eq_reg_r (fst d0 * snd d1 - snd d0 * fst d1)); [rewrite B|exact HD]]; field; exact HD.
Qed.

Lemma wavefunction_waves hbar r0 r1 r2 d0 d1 mass omega kx ky vec K x y z : (fst d0 * snd d1 - snd d0 * fst d1)%R <> 0%R ->
  (forall i, (i < r0 * (r1 * r2))%nat ->
     dot2 (K i) d0 = (2 * PI * IZR (freq r0 (nth 0 (unravel [r0; r1; r2] i) 0%nat)))%R /\
     dot2 (K i) d1 = (2 * PI * IZR (freq r1 (nth 1 (unravel [r0; r1; r2] i) 0%nat)))%R) ->
  get_eigenstate_wavefunction hbar r0 r1 r2 d0 d1 mass omega kx ky (map vec (seq 0 (r0 * (r1 * r2)))) (x, y, z) =
  csum (fun i => vec i * RtoC (rust_sho_wavefunction hbar z omega mass (nth 2 (unravel [r0; r1; r2] i) 0%nat)) *
                 cis (dot2 (K i) (x, y) + dot2 (kx, ky) (x, y))) (r0 * (r1 * r2)).
Proof.
  intros HD HK. rewrite wavefunction_sum. apply csum_ext. intros i Hi. destruct (HK i Hi) as [E0 E1]. rewrite unravel3 in *. cbn [nth] in *.
  destruct (cross_wave d0 d1 (K i) _ _ HD E0 E1) as [A B]. unfold eigenstate_term, coordinate.
  rewrite <- Cmult_assoc. f_equal. f_equal. f_equal. unfold dot2. cbn [fst snd]. rewrite A, B. ring.
Qed.

Lemma dk_reciprocal d0 d1 : (fst d0 * snd d1 - snd d0 * fst d1)%R <> 0%R ->
  dot2 (dkx0 d0 d1) d0 = (2 * PI)%R /\ dot2 (dkx0 d0 d1) d1 = 0%R /\ dot2 (dkx1 d0 d1) d0 = 0%R /\ dot2 (dkx1 d0 d1) d1 = (2 * PI)%R.
Proof. intros HD. unfold dot2, dkx0, dkx1, dk_prefactor. cbn [fst snd]. repeat split; field; exact HD. Qed.

(** Translation by a lattice vector multiplies the function by the Bloch phase. *)
Lemma wavefunction_bloch hbar r0 r1 r2 d0 d1 mass omega kx ky vec x y z (t : bool) : (fst d0 * snd d1 - snd d0 * fst d1)%R <> 0%R ->
  let d := if t then d0 else d1 in
  get_eigenstate_wavefunction hbar r0 r1 r2 d0 d1 mass omega kx ky vec ((x + fst d)%R, (y + snd d)%R, z) =
  cis (dot2 (kx, ky) d) * get_eigenstate_wavefunction hbar r0 r1 r2 d0 d1 mass omega kx ky vec (x, y, z).
Proof.
  intros HD d. unfold get_eigenstate_wavefunction. generalize (combine vec (coordinates r0 r1 r2)) as l.
  induction l as [|[c [[a b] nz]] l IH]; cbn [fold_right]; [ring|]. rewrite IH. rewrite Cmult_plus_distr_l. f_equal. cbn [fst snd]. unfold eigenstate_term.
  destruct (dk_reciprocal d0 d1 HD) as [E1 [E2 [E3 E4]]]. unfold dot2 in *. cbn [fst snd].
  set (A := (IZR a * fst (dkx0 d0 d1) + IZR b * fst (dkx1 d0 d1) + kx)%R). set (B := (IZR a * snd (dkx0 d0 d1) + IZR b * snd (dkx1 d0 d1) + ky)%R).
  assert (S : (A * (x + fst d) + B * (y + snd d))%R = ((A * x + B * y) + ((kx * fst d + ky * snd d) + 2 * PI * IZR (if t then a else b)))%R).
  { unfold A, B, d. destruct t.
    - replace (2 * PI * IZR a)%R with (IZR a * (2 * PI))%R by ring. rewrite <- E1.
      transitivity ((IZR a * fst (dkx0 d0 d1) + IZR b * fst (dkx1 d0 d1) + kx) * x + (IZR a * snd (dkx0 d0 d1) + IZR b * snd (dkx1 d0 d1) + ky) * y
        + (kx * fst d0 + ky * snd d0 + IZR a * (fst (dkx0 d0 d1) * fst d0 + snd (dkx0 d0 d1) * snd d0)) + IZR b * (fst (dkx1 d0 d1) * fst d0 + snd (dkx1 d0 d1) * snd d0))%R; [ring|].
      rewrite E3. ring.
    - replace (2 * PI * IZR b)%R with (IZR b * (2 * PI))%R by ring. rewrite <- E4.
      transitivity ((IZR a * fst (dkx0 d0 d1) + IZR b * fst (dkx1 d0 d1) + kx) * x + (IZR a * snd (dkx0 d0 d1) + IZR b * snd (dkx1 d0 d1) + ky) * y
        + (kx * fst d1 + ky * snd d1 + IZR b * (fst (dkx1 d0 d1) * fst d1 + snd (dkx1 d0 d1) * snd d1)) + IZR a * (fst (dkx0 d0 d1) * fst d1 + snd (dkx0 d0 d1) * snd d1))%R; [ring|].
      rewrite E2. ring. }
  rewrite S, !cis_plus, cis_2PI_Z. ring.
Qed.
