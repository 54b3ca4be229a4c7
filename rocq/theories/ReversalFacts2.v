(** Cases for C144. *)
From Coq Require Import Reals Psatz.
From Verif Require Import ZLib Csum DFT NumPy Spec SpecReal Index Basis SpecBasis BasisProofs Operator SpecOperator
  OperatorProofs Wavepacket SpecWavepacket Hamiltonian SpecHamiltonian SpecSymmetry SymmetryProofs HamiltonianFacts SymmetryFacts FreeParticle.
Local Open Scope R_scope.
Local Open Scope C_scope.

(** Twice the cosine potential plus three, at half the mass. *)
Definition cos_affine (k : nat) : C := RtoC 2 * cos_data k + flat_data 3 k.
Lemma ex_affine : bwf (BTuple cos_axes) /\ explicit_orthonormal (BTuple cos_axes) /\ (0 < bsize (BTuple cos_axes))%nat /\
  is_inverse (length cos_axes) (fun _ _ => 1%R) (fun _ _ => 1%R) /\ real_valued (BTuple cos_axes) cos_data /\
  amplitude (BTuple cos_axes) cos_data 0 <> amplitude (BTuple cos_axes) cos_data 1 /\
  forall x, (x < bfund (BTuple cos_axes))%nat ->
    amplitude (BTuple cos_axes) cos_affine x = RtoC 2 * amplitude (BTuple cos_axes) cos_data x + RtoC 3.
Proof.
  destruct ex_cos_odd as [HP [Hi [_ [Hr [Hn _]]]]]. destruct (axes_wf cos_axes HP) as [Wb Ob].
  repeat (split; [first [assumption|cbn; lia]|]). intros x Hx. rewrite <- (flat_constant 3 x Hx).
  unfold amplitude. rewrite <- csum_scal_l, <- csum_plus. apply csum_ext. intros. unfold cos_affine. ring.
Qed.
