(** Operators that are not square have no eigenstates; bases of the results of arithmetic. *)
From Coq Require Import Reals Psatz.
From Verif Require Import ZLib Csum NumPy Basis SpecBasis Operator SpecOperator OperatorProofs Localize EigenBasis.
Local Open Scope R_scope.

Lemma hermitian_not_square eigh o subset : bsize (orow o) <> bsize (ocol o) -> eigenstates_hermitian eigh o subset = None.
Proof.
  intros H. unfold eigenstates_hermitian. destruct (reshape _ _); [|reflexivity].
  destruct (Nat.eqb_spec (bsize (orow o)) (bsize (ocol o))); [contradiction|reflexivity].
Qed.
Lemma eigen_not_square eig o : bsize (orow o) <> bsize (ocol o) -> calculate_eigenvectors eig o = None.
Proof.
  intros H. unfold calculate_eigenvectors. destruct (reshape _ _); [|reflexivity].
  destruct (Nat.eqb_spec (bsize (orow o)) (bsize (ocol o))); [contradiction|reflexivity].
Qed.
Lemma not_square eigh eig o : bsize (orow o) <> bsize (ocol o) ->
  (forall subset, eigenstates_hermitian eigh o subset = None) /\ calculate_eigenvectors eig o = None.
Proof. intros H. split; [intros subset; apply hermitian_not_square; exact H|apply eigen_not_square; exact H]. Qed.

Lemma arithmetic_bases a b p c : (add_operator a b = Some p \/ subtract_operator a b = Some p \/ p = scale_operator c a) ->
  orow p = orow a /\ ocol p = ocol a.
Proof.
  unfold add_operator, subtract_operator. intros [H|[H| ->]]; [| |split; reflexivity];
    destruct (broadcast_op _ _ _); try discriminate; injection H as <-; split; reflexivity.
Qed.
Lemma commutator_bases l r p : (get_commutator l r = Some p \/ get_anti_commutator l r = Some p) -> orow p = orow l /\ ocol p = ocol r.
Proof.
  assert (K : forall x, matmul_operator l r = Some x -> orow x = orow l /\ ocol x = ocol r).
  { intros x. unfold matmul_operator. destruct (reshape _ _); [|discriminate]. destruct (reshape _ _); [|discriminate].
    destruct (_ =? _); [|discriminate]. intros H. injection H as <-. split; reflexivity. }
  unfold get_commutator, get_anti_commutator. intros [H|H];
    destruct (matmul_operator l r) as [x|] eqn:E; try discriminate; destruct (matmul_operator r l) as [y|]; try discriminate;
    destruct (K x eq_refl) as [K1 K2];
    destruct (arithmetic_bases x y p (RtoC 0)) as [P1 P2]; try tauto; rewrite P1, P2; split; assumption.
Qed.
Lemma function_bases o f lam V W V' E lam' : orow (apply_function_to_operator o f lam V W) = orow o /\ ocol (apply_function_to_operator o f lam V W) = ocol o /\
  orow (exp_operator o V' E lam') = orow o /\ ocol (exp_operator o V' E lam') = orow o.
Proof. repeat split; reflexivity. Qed.
