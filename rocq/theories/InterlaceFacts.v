(** A concrete case for energies in nested bases. *)
From Coq Require Import Reals Psatz.
From Verif Require Import ZLib Csum DFT NumPy Basis SpecBasis BasisProofs2 Operator SpecOperator SpecMatrix OperatorProofs Localize SpecLocalize
  Spectral3 SpecInterlace InterlaceProofs2 EigenBasisFacts
  SpecReal Lattice LatticeProofs SpecWavepacket SpecHamiltonian HamiltonianFacts.
Local Open Scope R_scope.
Local Open Scope C_scope.

(** The hop between two plane waves, restricted to one of them. *)
Definition both : basis := BTuple [BTrans 2 2].
Definition one : basis := BTuple [BTrans 1 2].
Lemma ex_one : op_wf hop /\ hermitian (bsize (orow hop)) (op_entry hop) /\ bwf (orow hop) /\ explicit_orthonormal (orow hop) /\
  bwf both /\ explicit_orthonormal both /\ bwf one /\ explicit_orthonormal one /\
  compatible (orow hop) both /\ compatible (orow hop) one /\ compatible both one /\ states_within one both /\ states_within one (orow hop) /\
  bsize one = 1%nat /\ bsize both = 2%nat.
Proof.
  destruct ex_hop_ok as [W [B [O1 [H _]]]].
  assert (P : forall x y, (forall l, x <> BTuple l) -> bfund x = bfund y -> compatible x y).
  { intros x y N E. apply compatible_other; [|exact E]. intros la lb [K _]. exact (N la K). }
  assert (Q : forall x y, (forall l, x <> BTuple l) -> bfund x = bfund y -> compatible (BTuple [x]) (BTuple [y])).
  { intros x y N E. apply compatible_stacked; [cbn; rewrite E; reflexivity|]. constructor; [apply P; assumption|constructor]. }
  repeat (split; [first [exact W | exact H | exact B | exact O1 | cbn; intuition lia | apply Q; [discriminate|reflexivity]]|]).
  split; [apply (within_momenta [((1, 2), 2)]%nat); repeat constructor|].
  split; [|split; reflexivity].
  apply within_complete; [reflexivity|]. apply full_complete; cbn; intuition lia.
Qed.

(** The cosine potential of [HamiltonianFacts], given in all five plane waves of the grid. *)
Definition all_axes : list basis := [BTrans 5 5].
Definition all_data (k : nat) : C := if ((k =? 1) || (k =? 4))%nat%bool then 1 else 0.
Lemma axis_state n k x : bstate (BTuple [BTrans n 5]) k x = plane_wave 5 (freq n k) x.
Proof. cbn [bstate map product_states fst snd bsize bfund nprod]. rewrite !Nat.div_1_r. ring. Qed.
Lemma all_same x : amplitude (BTuple cos_axes) cos_data x = amplitude (BTuple all_axes) all_data x.
Proof.
  unfold amplitude. change (bsize (BTuple cos_axes)) with 3%nat. change (bsize (BTuple all_axes)) with 5%nat.
  unfold cos_axes, all_axes. cbn [csum]. rewrite !axis_state. change (freq 3 2) with (freq 5 4). change (freq 3 1) with (freq 5 1).
  unfold cos_data, all_data. cbn [Nat.eqb orb]. ring.
Qed.
Lemma cos_bound x : (Rabs (fst (amplitude (BTuple cos_axes) cos_data x) - fst (amplitude (BTuple cos_axes) (fun _ => 0) x)) <= 2)%R.
Proof.
  unfold amplitude. change (bsize (BTuple cos_axes)) with 3%nat. unfold cos_axes. cbn [csum]. rewrite !axis_state. unfold cos_data.
  change (freq 3 1) with 1%Z. change (freq 3 2) with (-1)%Z. unfold plane_wave, isqrt, omega, cis. cbn [fst snd Cplus Cmult RtoC].
  set (p := cos (2 * PI * IZR (1 * Z.of_nat x) / INR 5)). set (q := cos (2 * PI * IZR (-1 * Z.of_nat x) / INR 5)).
  assert (B1 : (-1 <= p <= 1)%R) by (unfold p; apply COS_bound). assert (B2 : (-1 <= q <= 1)%R) by (unfold q; apply COS_bound).
  assert (S5 : (1 < sqrt (INR 5))%R) by (rewrite <- sqrt_1 at 1; apply sqrt_lt_1; cbn; lra).
  assert (I5 : (0 < / sqrt (INR 5) < 1)%R).
  { split; [apply Rinv_0_lt_compat; lra|]. rewrite <- Rinv_1. apply Rinv_lt_contravar; lra. }
  set (s := (/ sqrt (INR 5))%R) in *.
  match goal with |- (Rabs ?X <= 2)%R => replace X with (s * p + s * q)%R by ring end.
  apply Rabs_le. nra.
Qed.
Lemma ex_cos_nested : bwf (BTuple all_axes) /\ explicit_orthonormal (BTuple all_axes) /\ bwf (BTuple cos_axes) /\ explicit_orthonormal (BTuple cos_axes) /\
  is_inverse (length all_axes) (fun _ _ => 1%R) (fun _ _ => 1%R) /\ map bfund cos_axes = map bfund all_axes /\
  states_within (BTuple cos_axes) (BTuple all_axes) /\ real_valued (BTuple all_axes) all_data /\ real_valued (BTuple cos_axes) cos_data /\
  (forall x, amplitude (BTuple cos_axes) cos_data x = amplitude (BTuple all_axes) all_data x) /\
  bsize (BTuple cos_axes) = 3%nat /\ bsize (BTuple all_axes) = 5%nat.
Proof.
  split; [cbn; lia|]. split; [cbn; tauto|]. split; [cbn; lia|]. split; [cbn; tauto|]. split; [exact unit_inverse|]. split; [reflexivity|].
  split; [apply (within_momenta [((3, 5), 5)]%nat); constructor; [cbn; lia|constructor]|].
  split; [intros x Hx; rewrite <- all_same; apply cos_real; exact Hx|]. split; [exact cos_real|]. split; [exact all_same|]. split; reflexivity.
Qed.
Lemma ex_cos_zero : real_valued (BTuple cos_axes) cos_data /\ real_valued (BTuple cos_axes) (fun _ => 0) /\
  forall x, (Rabs (fst (amplitude (BTuple cos_axes) cos_data x) - fst (amplitude (BTuple cos_axes) (fun _ => 0) x)) <= 2)%R.
Proof.
  split; [exact cos_real|]. split; [|exact cos_bound]. intros x _. unfold amplitude. rewrite csum_zero_ext; [reflexivity|]. intros. ring.
Qed.
