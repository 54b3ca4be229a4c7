(** Concrete cases meeting the hypotheses of the theorems about potentials and Hamiltonians. *)
From Coq Require Import Reals Psatz.
From Verif Require Import ZLib Csum DFT NumPy Spec IndexProofs SpecReal Lattice LatticeProofs
  Basis SpecBasis BasisProofs BasisProofs2 Operator SpecOperator Wavepacket SpecWavepacket WavepacketProofs2
  Hamiltonian SpecHamiltonian HamiltonianProofs HamiltonianProofs2 HamiltonianProofs3 HamiltonianProofs4.
Local Open Scope R_scope.
Local Open Scope C_scope.

(** One axis with three plane waves on five points: the potential 2 cos / sqrt 5. *)
Definition cos_axes : list basis := [BTrans 3 5].
Definition cos_data (k : nat) : C := match k with 0%nat => 0 | _ => 1 end.
(** Two axes with skew lattice vectors (2, 0) and (1, 3). *)
Definition skew (a c : nat) : R :=
  match a, c with 0%nat, 0%nat => 2 | 0%nat, _ => 0 | _, 0%nat => 1 | _, _ => 3 end%R.
Definition skew_inv (a c : nat) : R :=
  match a, c with 0%nat, 0%nat => / 2 | 0%nat, _ => 0 | _, 0%nat => - / 6 | _, _ => / 3 end%R.
Definition skew_axes : list basis := [BTrans 3 5; BFundT 2].

Lemma unit_inverse : is_inverse 1 (fun _ _ => 1%R) (fun _ _ => 1%R).
Proof. split; intros a b Ha Hb; assert (a = 0%nat) by lia; assert (b = 0%nat) by lia; subst; unfold rdelta; simpl; ring. Qed.

Lemma skew_inverse : is_inverse 2 skew skew_inv.
Proof.
  split; intros a b Ha Hb; destruct a as [|[|a]]; try lia; destruct b as [|[|b]]; try lia;
    unfold rdelta, skew, skew_inv; simpl; field.
Qed.

Lemma cos_real : real_valued (BTuple cos_axes) cos_data.
Proof.
  intros x Hx. unfold amplitude. change (bsize (BTuple cos_axes)) with 3%nat.
  cbn [csum cos_data]. change (bfund (BTuple cos_axes)) with 5%nat in Hx.
  assert (E : forall k, (k < 3)%nat -> bstate (BTuple cos_axes) k x = plane_wave 5 (freq 3 k) x).
  { intros k Hk. cbn [bstate cos_axes map product_states fst snd bsize bfund nprod].
    rewrite !Nat.div_1_r. ring. }
  rewrite !E by lia. change (freq 3 1) with 1%Z. change (freq 3 2) with (-1)%Z. unfold plane_wave.
  replace (-1 * Z.of_nat x)%Z with (- (1 * Z.of_nat x))%Z by lia. rewrite <- omega_conj.
  destruct (omega 5 (1 * Z.of_nat x)) as [p q]. unfold isqrt. simpl. ring.
Qed.

Lemma cos_nonconstant : amplitude (BTuple cos_axes) cos_data 0 <> amplitude (BTuple cos_axes) cos_data 1.
Proof.
  intros H. apply (f_equal (fun z => z * RtoC (sqrt 5))) in H.
  assert (E : forall k x, bstate (BTuple cos_axes) k x = plane_wave 5 (freq 3 k) x).
  { intros k x. cbn [bstate cos_axes map product_states fst snd bsize bfund nprod]. rewrite !Nat.div_1_r. ring. }
  assert (A : forall x, amplitude (BTuple cos_axes) cos_data x * RtoC (sqrt 5) = RtoC (2 * cos (2 * PI * INR x / 5))).
  { intros x. unfold amplitude. change (bsize (BTuple cos_axes)) with 3%nat. cbn [csum cos_data]. rewrite !E.
    change (freq 3 1) with 1%Z. change (freq 3 2) with (-1)%Z. unfold plane_wave.
    replace (-1 * Z.of_nat x)%Z with (- (1 * Z.of_nat x))%Z by lia. rewrite <- omega_conj.
    unfold omega, isqrt, cis. rewrite Z.mul_1_l, <- INR_IZR_INZ. replace (INR 5) with 5%R by (simpl; ring).
    assert (S : sqrt 5 <> 0%R) by (apply Rgt_not_eq, sqrt_lt_R0; lra).
    unfold Cmult, Cplus, Cconj, RtoC. simpl. f_equal; field; assumption. }
  rewrite !A in H. apply RtoC_inj in H. simpl in H.
  replace (2 * PI * 0 / 5)%R with 0%R in H by field. rewrite cos_0 in H.
  assert (cos (2 * PI * 1 / 5) < 1)%R.
  { assert (P := PI_RGT_0). replace (2 * PI * 1 / 5)%R with (2 * PI / 5)%R by field.
    rewrite <- cos_0. apply cos_decreasing_1; lra. }
  lra.
Qed.
