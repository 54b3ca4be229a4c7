(** Cases for C143. *)
From Coq Require Import Reals Psatz.
From Verif Require Import ZLib Csum DFT NumPy Spec SpecReal Index IndexProofs Lattice LatticeProofs Basis SpecBasis BasisProofs BasisProofs2 BasisProofs3 Operator SpecOperator
  OperatorProofs Wavepacket SpecWavepacket Hamiltonian SpecHamiltonian HamiltonianProofs3
  SpecSeed SeedProofs SpecSymmetry SymmetryProofs SymmetryProofs2 HamiltonianFacts SymmetryFacts.
Local Open Scope R_scope.
Local Open Scope C_scope.

Lemma conjugate_exists axes psi : Forall plane_wave_axis axes -> Forall Nat.Odd (map bsize axes) ->
  exists psi', forall x, (x < bfund (BTuple axes))%nat -> amplitude (BTuple axes) psi' x = Cconj (amplitude (BTuple axes) psi x).
Proof.
  intros HP Ho. exists (fun t => Cconj (psi (opposite axes t))). intros x Hx. unfold amplitude. rewrite Cconj_csum.
  rewrite <- (csum_bij (fun k => Cconj (psi (opposite axes k)) * bstate (BTuple axes) k x) _ _ (opposite axes) (opposite axes)) by exact (opposite_spec axes).
  apply csum_ext. intros k Hk. rewrite (proj2 (opposite_spec axes k Hk)), (opposite_state axes HP k x Ho Hk Hx), Cconj_mult. reflexivity.
Qed.

Lemma moved_exists axes c psi : Forall plane_wave_axis axes -> length c = length axes ->
  let N := map bfund axes in
  exists psi', forall x, in_shape x N -> amplitude (BTuple axes) psi' (ravel N x) = amplitude (BTuple axes) psi (ravel N (displaced N c x)).
Proof.
  intros HP Lc N. exists (fun t => plane N (sample_freqs (map bsize axes) (unravel (map bsize axes) t)) (map Z.opp c) * psi t).
  intros x Hx. unfold amplitude. apply csum_ext. intros t Lt.
  assert (K := moved_state axes HP c Lc t (ravel N x) Lt (ravel_lt N x Hx)). change (map bfund axes) with N in K. unfold N in *. rewrite unravel_ravel in K by exact Hx. rewrite K. ring.
Qed.

(** One plane wave of the three: its amplitudes are not real. *)
Lemma ex_reversal : Forall plane_wave_axis cos_axes /\ is_inverse (length cos_axes) (fun _ _ => 1%R) (fun _ _ => 1%R) /\
  Forall Nat.Odd (map bsize cos_axes) /\ real_valued (BTuple cos_axes) cos_data /\
  (forall a, (a < length cos_axes)%nat -> fraction (Some (fun _ => (- / 4)%R)) a = (- fraction (Some (fun _ => / 4)%R) a)%R) /\
  let psi (t : nat) : C := if (t =? 0)%nat then Ci else 0 in
  amplitude (BTuple cos_axes) psi 0 <> Cconj (amplitude (BTuple cos_axes) psi 0) /\
  (exists psi', forall x, (x < bfund (BTuple cos_axes))%nat -> amplitude (BTuple cos_axes) psi' x = Cconj (amplitude (BTuple cos_axes) psi x)) /\
  exists psi', forall x, in_shape x (map bfund cos_axes) -> amplitude (BTuple cos_axes) psi' (ravel (map bfund cos_axes) x) =
    amplitude (BTuple cos_axes) psi (ravel (map bfund cos_axes) (displaced (map bfund cos_axes) [2%Z] x)).
Proof.
  destruct ex_cos_odd as [HP [Hi [Ho [Hr _]]]]. split; [exact HP|]. split; [exact Hi|]. split; [exact Ho|]. split; [exact Hr|].
  split; [intros; reflexivity|]. intros psi. split; [|split; [exact (conjugate_exists cos_axes psi HP Ho)|exact (moved_exists cos_axes [2%Z] psi HP eq_refl)]].
  assert (E : amplitude (BTuple cos_axes) psi 0 = Ci * bstate (BTuple cos_axes) 0 0).
  { unfold amplitude. change (bsize (BTuple cos_axes)) with 3%nat. unfold csum, psi. simpl Nat.eqb. cbv iota. ring. }
  assert (W : bstate (BTuple cos_axes) 0 0 = plane_wave 5 (freq 3 0) 0).
  { cbn [bstate cos_axes map product_states fst snd bsize bfund nprod]. rewrite !Nat.div_1_r. ring. }
  rewrite E, W. change (freq 3 0) with 0%Z. unfold plane_wave. change (0 * Z.of_nat 0)%Z with 0%Z. rewrite omega_0. intros K.
  assert (S : (0 < / sqrt (INR 5))%R) by (apply Rinv_0_lt_compat, sqrt_lt_R0; simpl; lra).
  apply (f_equal snd) in K. unfold isqrt in K. cbn [Cmult Cconj Ci RtoC fst snd] in K. cbn [Cmult Cconj fst snd] in K. simpl in K. simpl in S. nra.
Qed.
