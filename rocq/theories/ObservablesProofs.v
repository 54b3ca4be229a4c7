(** Expectation values of operators that are diagonal in the positions or the momenta. *)
From Coq Require Import Reals Lra Lia.
From Verif Require Import ZLib Csum DFT NumPy Index Spec Basis SpecBasis BasisProofs BasisProofs2 BasisProofs3 BasisFacts Operator SpecOperator
  OperatorProofs OperatorProofs2 Wavepacket SpecWavepacket WavepacketProofs WavepacketProofs2 Hamiltonian HamiltonianProofs StateList SpecStateList StateListProofs
  LinAlg Observables SpecObservables.
Local Open Scope R_scope.
Local Open Scope C_scope.

Section Diagonal.
  Variable same : basis -> basis -> bool.
  Hypothesis Hs : identity_test same.
  Variables D B : basis.
  Hypothesis WD : bwf D.
  Hypothesis OD : explicit_orthonormal D.
  Hypothesis WB : bwf B.
  Hypothesis OB : explicit_orthonormal B.
  Hypothesis CD : compatible D B.

  Lemma diagonal_convert d : ashape d = [bsize D] ->
    exists r, convert_diagonal_operator_to_basis same {| orow := D; ocol := D; odata := d |} B B = Some r /\
      op_wf r /\ orow r = B /\ ocol r = B /\
      forall i j, (i < bsize B)%nat -> (j < bsize B)%nat ->
        op_entry r i j = csum (fun k => overlap B D i k * aflat d k * overlap D B k j) (bsize D).
  Proof using Hs WD OD WB OB CD.
    intros Sd. unfold convert_diagonal_operator_to_basis, as_operator. cbn [odata orow ocol]. unfold np_diag. rewrite Sd.
    set (o := {| orow := D; ocol := D; odata := _ |}).
    assert (Wo : op_wf o).
    { unfold op_wf, o. cbn [odata orow ocol ashape array2]. cbn [nprod]. ring. }
    destruct (convert_operator_spec same o B B Wo CD CD) as [F [r [HF [Hr [Wr [Rr [Cr Er]]]]]]].
    exists r. split; [exact Hr|]. split; [assumption|]. split; [assumption|]. split; [assumption|]. intros i j Hi Hj.
    rewrite Er by assumption.
    rewrite (convert_matrix_sum same Hs D B D B F WD WB WD WB OD OD HF _ i j Hi Hj).
    apply csum_ext. intros x Hx.
    rewrite (csum_ext _ (fun y => cdelta x y * (overlap B D i x * aflat d x * overlap D B y j))).
    { rewrite csum_delta_l by assumption. reflexivity. }
    intros y Hy. unfold op_entry, o. cbn [odata ocol]. rewrite (array2_flat (bsize D) (bsize D)) by assumption.
    destruct (Nat.eqb_spec x y) as [->|Hne]; [rewrite cdelta_refl|rewrite cdelta_neq by assumption]; ring.
  Qed.

  Lemma expectation_list_self o s : sbasis s = B -> well_formed_list s -> op_wf o -> orow o = B -> ocol o = B ->
    exists f, calculate_expectation_list same o s = Some (slist s, f) /\
      forall i, f i = matrix_element (bsize B) (state_of s i) (op_entry o) (state_of s i).
  Proof using Hs WB OB.
    intros Eb Ws Wo Ro Co.
    destruct (convert_self_op same Hs B WB OB o Wo Ro Co) as (r & Hr & Wr & Rr & Cr & Er).
    unfold calculate_expectation_list. rewrite Eb, Hr. unfold as_matrix. rewrite (reshape_some (sdata s)).
    2: { unfold well_formed_list in Ws. rewrite Ws. cbn [nprod]. ring. }
    rewrite (op_reshape r Wr). eexists. split; [reflexivity|].
    intros i. cbn beta. unfold matrix_element, inner_product. apply csum_ext. intros j Hj.
    rewrite <- csum_scal_l. apply csum_ext. intros k Hk. rewrite <- Er by assumption.
    unfold at2, state_of, row, op_entry. cbn [ashape aflat]. rewrite Eb. cbn [nth]. ring.
  Qed.

  Lemma expectation_list_diagonal d s o : ashape d = [bsize D] -> sbasis s = B -> well_formed_list s ->
    convert_diagonal_operator_to_basis same {| orow := D; ocol := D; odata := d |} B B = Some o ->
    exists f, calculate_expectation_list same o s = Some (slist s, f) /\
      forall i, f i = csum (fun k => aflat d k * RtoC (Cnorm2 (csum (fun j => overlap D B k j * state_of s i j) (bsize B)))) (bsize D).
  Proof using Hs WD OD WB OB CD.
    intros Sd Eb Ws Ho. destruct (diagonal_convert d Sd) as (r & Hr & Wr & Rr & Cr & Er).
    rewrite Ho in Hr. injection Hr as ->.
    destruct (expectation_list_self r s Eb Ws Wr Rr Cr) as (f & Hf & Ef). exists f. split; [exact Hf|].
    intros i. rewrite Ef. unfold matrix_element, inner_product.
    set (v := state_of s i). set (n := bsize B).
    assert (FE : bfund D = bfund B) by (destruct (proj2 (convert_some_iff same D B) CD) as [F HF]; exact (convert_some_fund _ _ _ _ HF)).
    rewrite (csum_ext _ (fun j => csum (fun k => csum (fun l => Cconj (v j) * overlap B D j k * aflat d k * overlap D B k l * v l) n) (bsize D))).
    2: { intros j Hj. rewrite csum_swap, <- csum_scal_l. apply csum_ext. intros l Hl. rewrite Er by assumption.
         rewrite <- csum_scal_r, <- csum_scal_l. apply csum_ext. intros k Hk. ring. }
    rewrite csum_swap. apply csum_ext. intros k Hk.
    rewrite <- Cconj_mult_self, Cconj_csum, LinAlg.csum_mult.
    rewrite <- csum_scal_l. apply csum_ext. intros j Hj. rewrite <- csum_scal_l. apply csum_ext. intros l Hl.
    rewrite Cconj_mult, overlap_conj by (symmetry; exact FE). ring.
  Qed.
End Diagonal.
