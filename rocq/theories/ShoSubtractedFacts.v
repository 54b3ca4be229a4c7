From Coq Require Import Reals List ZArith Arith Lia Lra.
From Verif Require Import ZLib Csum DFT NumPy Index Lattice LatticeProofs Basis Operator Spec SpecOperator Oscillator Generator SpecBasis SpecGenerator GeneratorProofs GeneratorProofs2 GeneratorProofs3 GeneratorProofs4 GeneratorProofs6 GeneratorFacts ShoSubtracted ShoSubtractedProofs.
Import ListNotations.
Local Open Scope R_scope.
Local Open Scope C_scope.

Lemma element_ext b V W i j : (forall x, (x < bfund b)%nat -> V x = W x) -> potential_element b V i j = potential_element b W i j.
Proof. intros H. apply csum_ext. intros x Hx. rewrite H by exact Hx. reflexivity. Qed.

Lemma slab_state_ext n0 n1 nz r0 r1 m s t a x : (forall k p, s k p = t k p) ->
  bstate (slab_basis n0 n1 nz r0 r1 m s) a x = bstate (slab_basis n0 n1 nz r0 r1 m t) a x.
Proof.
  intros H. unfold slab_basis. cbn [bstate map product_states]. f_equal. f_equal. f_equal.
  apply csum_ext. intros p _. rewrite H. reflexivity.
Qed.

Section Along.
Variables (hbar mass omega L : R) (n0 n1 nz r0 r1 m : nat) (data : nat -> C) (delta origin : nat -> R).
Hypothesis (H0 : (0 < n0)%nat) (H1 : (0 < n1)%nat) (Nz : (0 < nz)%nat) (Hh : (0 < hbar)%R) (Hm : (0 < mass)%R) (Ho : (0 < omega)%R) (M : (m <= 21)%nat)
  (G0 : (2 * r0 <= n0 + 2)%nat) (G1 : (2 * r1 <= n1 + 2)%nat)
  (HL : (0 < L)%R) (A0 : delta 0%nat = 0%R) (A1 : delta 1%nat = 0%R) (A2 : delta 2%nat = L).
Notation N := (r0 * (r1 * m))%nat.

Lemma along_elements :
  let z k := (L / INR nz * INR k + origin 2%nat)%R in
  exists rows, sho_off_diagonal_energies_fast hbar n0 n1 nz data mass omega delta origin r0 r1 m = Some rows /\
    has_shape N N rows /\
    forall i j, (i < N)%nat -> (j < N)%nat ->
      entry rows i j = potential_element (slab_basis n0 n1 nz r0 r1 m
          (fun k p => RtoC (sqrt (L / INR nz) * calculate_sho_wavefunction hbar (z p) omega mass k)))
        (fun x => RtoC (fst (data x) - / 2 * mass * omega ^ 2 * z (x mod nz)%nat ^ 2)) i j.
Proof using H0 H1 Nz Hh Hm Ho M G0 G1 HL A0 A1 A2.
  intros z. destruct (sub_elements hbar mass omega n0 n1 nz r0 r1 m data delta origin H0 H1 Hh Hm Ho M G0 G1) as [rows [E [S1 K]]].
  exists rows. split; [exact E|]. split; [exact S1|]. intros i j Hi Hj. rewrite K by assumption.
  rewrite (dz_along L delta nz Nz HL A0 A1 A2). apply element_ext. intros x _. unfold left_over.
  rewrite (dist_along L) by assumption. reflexivity.
Qed.

Lemma along_basis rows : sho_off_diagonal_energies_fast hbar n0 n1 nz data mass omega delta origin r0 r1 m = Some rows ->
  forall i j, (i < N)%nat -> (j < N)%nat ->
    entry rows i j = potential_element (slab_basis n0 n1 nz r0 r1 m (fun k p => RtoC (infinite_sho_vector hbar omega mass 3 delta nz origin k p)))
      (fun x => RtoC (fst (data x) - sho_config_potential omega mass 3 delta nz origin (x mod nz))) i j.
Proof using H0 H1 Nz Hh Hm Ho M G0 G1 HL A0 A1 A2.
  intros E i j Hi Hj. destruct along_elements as [rows' [E' [_ K]]]. rewrite E' in E. injection E as ->. rewrite K by assumption.
  transitivity (potential_element (slab_basis n0 n1 nz r0 r1 m (fun k p => RtoC (infinite_sho_vector hbar omega mass 3 delta nz origin k p)))
    (fun x => RtoC (fst (data x) - / 2 * mass * omega ^ 2 * (L / INR nz * INR (x mod nz) + origin 2%nat) ^ 2)) i j).
  - unfold potential_element. cbn [bfund slab_basis]. apply csum_ext. intros x _.
    assert (B : forall a, bstate (slab_basis n0 n1 nz r0 r1 m (fun k p => RtoC (sqrt (L / INR nz) * calculate_sho_wavefunction hbar (L / INR nz * INR p + origin 2%nat) omega mass k))) a x =
              bstate (slab_basis n0 n1 nz r0 r1 m (fun k p => RtoC (infinite_sho_vector hbar omega mass 3 delta nz origin k p))) a x).
    { intros a. apply slab_state_ext. intros k p. apply (f_equal RtoC). unfold infinite_sho_vector.
      change (norm 3 (fun c => delta c / INR nz)%R) with (sho_dz delta nz). rewrite (dz_along L delta nz Nz HL A0 A1 A2).
      rewrite (dist_along L) by assumption. apply Rmult_comm. }
    rewrite !B. reflexivity.
  - apply element_ext. intros x _. unfold sho_config_potential. rewrite (dist_along L) by assumption. reflexivity.
Qed.

Lemma along_harmonic rows :
  (forall x, (x < n0 * (n1 * nz))%nat -> fst (data x) = (/ 2 * mass * omega ^ 2 * (L / INR nz * INR (x mod nz) + origin 2%nat) ^ 2)%R) ->
  sho_off_diagonal_energies_fast hbar n0 n1 nz data mass omega delta origin r0 r1 m = Some rows ->
  forall i j, (i < N)%nat -> (j < N)%nat -> entry rows i j = 0.
Proof using H0 H1 Nz Hh Hm Ho M G0 G1 HL A0 A1 A2.
  intros HV E i j Hi Hj. destruct along_elements as [rows' [E' [_ K]]]. rewrite E' in E. injection E as ->. rewrite K by assumption.
  unfold potential_element. apply csum_zero_ext. intros x Hx. cbn [bfund slab_basis map nprod] in Hx. rewrite Nat.mul_1_r in Hx.
  rewrite HV by exact Hx. rewrite Rminus_diag_eq by reflexivity. ring.
Qed.
End Along.

(** ** An axis along -z *)
Definition down (c : nat) : R := if (c =? 2)%nat then (-2)%R else 0%R.
Definition up1 (c : nat) : R := if (c =? 2)%nat then 1%R else 0%R.
Definition tail_data (x : nat) : C := match x with O => RtoC (1 / 2)%R | _ => 1 end.

Lemma norm_down : norm 3 down = 2%R.
Proof. unfold norm, rsum, down. cbn. replace (0 + 0 * 0 + 0 * 0 + -2 * -2)%R with (2 * 2)%R by ring. apply sqrt_square. lra. Qed.

Lemma dist_down z : calculate_x_distances 3 down 2 up1 z = (INR z - 1)%R.
Proof. unfold calculate_x_distances. rewrite norm_down. unfold rsum, down, up1. cbn. field. Qed.

Lemma dz_down : sho_dz down 2 = 1%R.
Proof. transitivity (sqrt 1); [|apply sqrt_1]. apply (f_equal sqrt). unfold rsum, down. cbn. field. Qed.

Lemma element_two s V : potential_element (slab_basis 1 1 2 1 1 1 s) V 0 0 = Cconj (s 0%nat 0%nat) * V 0%nat * s 0%nat 0%nat + Cconj (s 0%nat 1%nat) * V 1%nat * s 0%nat 1%nat.
Proof.
  assert (B : forall x, (x < 2)%nat -> bstate (slab_basis 1 1 2 1 1 1 s) 0 x = s 0%nat x).
  { intros x Hx. unfold slab_basis. cbn [bstate map product_states nprod fst snd bsize bfund].
    assert (W : forall k y, plane_wave 1 (freq 1 k) y = 1).
    { intros k y. unfold plane_wave, isqrt. replace (omega 1 (freq 1 k * Z.of_nat y)) with (RtoC 1).
      - change (INR 1) with 1%R. rewrite sqrt_1, Rinv_1. ring.
      - symmetry. rewrite (omega_cong 1 _ 0) by (lia || (exists (freq 1 k * Z.of_nat y)%Z; lia)). apply omega_0. }
    rewrite !W. rewrite (csum_single _ 2 x Hx).
    - assert (x = 0 \/ x = 1)%nat as [->| ->] by lia; cbn; ring.
    - intros j Hj Nj. assert (x = 0 \/ x = 1)%nat as [->| ->] by lia; assert (j = 0 \/ j = 1)%nat as [->| ->] by lia; cbn; try (exfalso; lia); ring. }
  unfold potential_element. cbn [bfund slab_basis map nprod]. cbn [csum Nat.mul Nat.add]. rewrite !B by lia. ring.
Qed.

Lemma down_refuted : exists rows,
  sho_off_diagonal_energies_fast 1 1 1 2 tail_data 1 1 down up1 1 1 1 = Some rows /\
  entry rows 0 0 <> potential_element (slab_basis 1 1 2 1 1 1 (fun k p => RtoC (infinite_sho_vector 1 1 1 3 down 2 up1 k p)))
      (fun x => RtoC (fst (tail_data x) - sho_config_potential 1 1 3 down 2 up1 (x mod 2))) 0 0.
Proof.
  destruct (sub_elements 1 1 1 1 1 2 1 1 1 tail_data down up1 ltac:(lia) ltac:(lia) ltac:(lra) ltac:(lra) ltac:(lra) ltac:(lia) ltac:(lia) ltac:(lia)) as [rows [E [_ K]]].
  exists rows. split; [exact E|]. rewrite K by (cbn; lia). rewrite !element_two.
  unfold left_over, infinite_sho_vector, sho_config_potential. change (norm 3 (fun c => down c / INR 2)%R) with (sho_dz down 2). rewrite dz_down, !dist_down.
  unfold calculate_sho_wavefunction. replace (1 * 1 / 1)%R with 1%R by field. rewrite sqrt_1. set (c := sqrt _).
  assert (Pc : (0 < c)%R).
  { apply sqrt_lt_R0. cbn. assert (P := sqrt_lt_R0 PI PI_RGT_0). rewrite Rmult_1_l. replace (1 / 1)%R with 1%R by field. apply Rdiv_lt_0_compat; lra. }
  clearbody c. intros F. apply (f_equal fst) in F. cbn in F.
  repeat match type of F with context[exp ?a] =>
    match a with context[Rsqr] => let v := fresh in let e := fresh in remember (exp a) as v eqn:e end end.
  unfold Rsqr in *.
  repeat match goal with
  | e : ?v = exp ?a |- _ => first
     [ replace a with 0%R in e by field; rewrite exp_0 in e; subst v
     | replace a with (-2)%R in e by field; subst v
     | replace a with (- (1 / 2))%R in e by field; subst v ]
  end.
  pose proof (exp_increasing (-2) 0 ltac:(lra)) as X. rewrite exp_0 in X. pose proof (exp_pos (-2)) as Y.
  assert (c * c * (exp (-2) * exp (-2)) = c * c)%R by lra.
  assert (Q : (0 < c * c)%R) by (apply Rmult_lt_0_compat; exact Pc).
  assert (D : (exp (-2) * exp (-2) < 1)%R) by (clear - X Y; nra).
  pose proof (Rmult_lt_compat_l _ _ _ Q D). lra.
Qed.
