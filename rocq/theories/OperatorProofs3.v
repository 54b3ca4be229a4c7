From Coq Require Import Reals Psatz Setoid Morphisms.
From Verif Require Import ZLib Csum DFT NumPy IndexProofs Basis SpecBasis BasisProofs BasisProofs2 BasisProofs3 Operator SpecOperator OperatorProofs OperatorProofs2.
Local Open Scope R_scope.
Local Open Scope C_scope.

(** ** Matrices up to equality of entries *)

#[global] Instance mat_eq_equiv n : Equivalence (mat_eq n).
Proof.
  split.
  - intros A i j _ _. reflexivity.
  - intros A B H i j Hi Hj. symmetry. auto.
  - intros A B D H1 H2 i j Hi Hj. rewrite H1, H2 by assumption. reflexivity.
Qed.

#[global] Instance matmul_proper n : Proper (mat_eq n ==> mat_eq n ==> mat_eq n) (matmul n).
Proof. intros A A' HA B B' HB i j Hi Hj. apply matmul_ext; intros; auto. Qed.

#[global] Instance adjoint_proper n : Proper (mat_eq n ==> mat_eq n) adjoint.
Proof. intros A A' HA i j Hi Hj. unfold adjoint. rewrite HA by assumption. reflexivity. Qed.

Lemma mul_assoc n A B D : mat_eq n (matmul n (matmul n A B) D) (matmul n A (matmul n B D)).
Proof. intros i j _ _. apply matmul_assoc. Qed.
Lemma mul_id_l n A : mat_eq n (matmul n cdelta A) A.
Proof. intros i j Hi _. apply matmul_delta_l. assumption. Qed.
Lemma mul_id_r n A : mat_eq n (matmul n A cdelta) A.
Proof. intros i j _ Hj. apply matmul_delta_r. assumption. Qed.
Lemma adjoint_mul n A B : mat_eq n (adjoint (matmul n A B)) (matmul n (adjoint B) (adjoint A)).
Proof. intros i j _ _. symmetry. apply matmul_adjoint. Qed.
Lemma adjoint_id n : mat_eq n (adjoint cdelta) cdelta.
Proof. intros i j _ _. unfold adjoint. rewrite Cconj_cdelta, cdelta_sym. reflexivity. Qed.
Lemma adjoint_adjoint n A : mat_eq n (adjoint (adjoint A)) A.
Proof. intros i j _ _. unfold adjoint. apply Cconj_conj. Qed.
Lemma mul_diag n d A i j : (i < n)%nat -> matmul n (diagonal_matrix d) A i j = d i * A i j.
Proof.
  intros Hi. unfold matmul, diagonal_matrix.
  rewrite (csum_ext _ (fun k => cdelta i k * (d i * A k j))) by (intros; ring).
  apply (csum_delta_l (fun k => d i * A k j)). assumption.
Qed.
Lemma mul_diag_r n d A i j : (j < n)%nat -> matmul n A (diagonal_matrix d) i j = A i j * d j.
Proof.
  intros Hj. unfold matmul, diagonal_matrix.
  rewrite (csum_ext _ (fun k => (A i k * d k) * cdelta k j)) by (intros; ring).
  apply (csum_delta_r' (fun k => A i k * d k)). assumption.
Qed.

Lemma inverse_unique n V W W' : inverse_matrices n V W -> inverse_matrices n V W' -> mat_eq n W W'.
Proof.
  intros [_ H2] [H1' _]. rewrite <- (mul_id_r n W), <- H1', <- mul_assoc, H2. apply mul_id_l.
Qed.

Lemma inverse_adjoint n V W : inverse_matrices n V W -> inverse_matrices n (adjoint W) (adjoint V).
Proof.
  intros [H1 H2]. split; rewrite <- adjoint_mul; [rewrite H1|rewrite H2]; apply adjoint_id.
Qed.

Lemma inverse_transpose n V W : inverse_matrices n V W ->
  inverse_matrices n (fun i j => V j i) (fun i j => W j i).
Proof.
  intros [H1 H2]. split; intros i j Hi Hj.
  - rewrite cdelta_sym, <- (H2 j i Hj Hi). unfold matmul. apply csum_ext; intros; ring.
  - rewrite cdelta_sym, <- (H1 j i Hj Hi). unfold matmul. apply csum_ext; intros; ring.
Qed.

(** ** Functions of matrices *)

Definition fmat (n : nat) (f : C -> C) (lam : nat -> C) (V W : nat -> nat -> C) : nat -> nat -> C :=
  fun a b => csum (fun k => f (lam k) * V a k * W k b) n.

Lemma fmat_mul n f lam V W : mat_eq n (fmat n f lam V W)
  (matmul n V (matmul n (diagonal_matrix (fun k => f (lam k))) W)).
Proof.
  intros a b Ha Hb. unfold fmat. unfold matmul at 1. apply csum_ext; intros k Hk.
  rewrite mul_diag by assumption. ring.
Qed.

Lemma diagonalises_mul n A lam V W : diagonalises n A lam V W ->
  mat_eq n (matmul n A V) (matmul n V (diagonal_matrix lam)).
Proof.
  intros [_ H] i k Hi Hk. rewrite mul_diag_r by assumption. unfold matmul. rewrite H by assumption. ring.
Qed.

Lemma diagonalises_eq n A lam V W : diagonalises n A lam V W ->
  mat_eq n A (matmul n V (matmul n (diagonal_matrix lam) W)).
Proof.
  intros H. rewrite <- (mul_id_r n A). rewrite <- (proj1 (proj1 H)).
  rewrite <- mul_assoc, (diagonalises_mul n A lam V W H), mul_assoc. reflexivity.
Qed.

Lemma diagonalises_left n A lam V W : diagonalises n A lam V W ->
  mat_eq n (matmul n W A) (matmul n (diagonal_matrix lam) W).
Proof.
  intros H. rewrite (diagonalises_eq n A lam V W H). rewrite <- mul_assoc, (proj2 (proj1 H)). apply mul_id_l.
Qed.

(** The result does not depend on the eigenvectors. *)
Lemma fmat_unique n A f lam V W lam' V' W' :
  diagonalises n A lam V W -> diagonalises n A lam' V' W' ->
  mat_eq n (fmat n f lam V W) (fmat n f lam' V' W').
Proof.
  intros H H'. set (X := matmul n W' V).
  assert (E : forall i k, (i < n)%nat -> (k < n)%nat -> lam' i * X i k = X i k * lam k).
  { intros i k Hi Hk. rewrite <- (mul_diag n lam' X) by assumption. rewrite <- (mul_diag_r n lam X) by assumption.
    revert i k Hi Hk. change (mat_eq n (matmul n (diagonal_matrix lam') X) (matmul n X (diagonal_matrix lam))).
    unfold X. rewrite <- mul_assoc, <- (diagonalises_left n A lam' V' W' H').
    rewrite !mul_assoc, (diagonalises_mul n A lam V W H). reflexivity. }
  assert (EX : mat_eq n (matmul n X (diagonal_matrix (fun k => f (lam k))))
                        (matmul n (diagonal_matrix (fun k => f (lam' k))) X)).
  { intros i k Hi Hk. rewrite mul_diag, mul_diag_r by assumption.
    destruct (Ceq_dec (X i k) 0) as [->|Hx]; [ring|].
    assert (L : lam' i = lam k).
    { specialize (E i k Hi Hk). replace (lam' i) with (lam' i * X i k / X i k) by (field; assumption).
      rewrite E. field. assumption. }
    rewrite L. ring. }
  rewrite !fmat_mul.
  rewrite <- (mul_id_l n (matmul n V _)), <- (proj1 (proj1 H')).
  rewrite !mul_assoc. rewrite <- (mul_assoc n W' V). fold X.
  rewrite <- (mul_assoc n X), EX. unfold X. rewrite !mul_assoc.
  rewrite (proj1 (proj1 H)), mul_id_r. reflexivity.
Qed.

Lemma fmat_product n f g lam V W : inverse_matrices n V W ->
  mat_eq n (matmul n (fmat n f lam V W) (fmat n g lam V W)) (fmat n (fun z => f z * g z) lam V W).
Proof.
  intros [H1 H2]. rewrite !fmat_mul. rewrite !mul_assoc. rewrite <- (mul_assoc n W V), H2, mul_id_l.
  rewrite <- (mul_assoc n (diagonal_matrix _) (diagonal_matrix _)).
  assert (E : mat_eq n (matmul n (diagonal_matrix (fun k => f (lam k))) (diagonal_matrix (fun k => g (lam k))))
                       (diagonal_matrix (fun k => f (lam k) * g (lam k)))).
  { intros i j Hi Hj. rewrite mul_diag by assumption. unfold diagonal_matrix. ring. }
  rewrite E. reflexivity.
Qed.

Lemma fmat_ext n f g lam V W : (forall k, (k < n)%nat -> f (lam k) = g (lam k)) ->
  mat_eq n (fmat n f lam V W) (fmat n g lam V W).
Proof. intros H i j Hi Hj. unfold fmat. apply csum_ext; intros k Hk. rewrite H by assumption. reflexivity. Qed.

Lemma fmat_one n lam V W : inverse_matrices n V W -> mat_eq n (fmat n (fun _ => 1) lam V W) cdelta.
Proof.
  intros [H1 _] i j Hi Hj. rewrite <- H1 by assumption. unfold fmat, matmul. apply csum_ext; intros; ring.
Qed.

Lemma fmat_id n A lam V W : diagonalises n A lam V W -> mat_eq n (fmat n (fun z => z) lam V W) A.
Proof. intros H. rewrite fmat_mul. symmetry. apply diagonalises_eq. assumption. Qed.

Lemma fmat_adjoint n f lam V W : mat_eq n (adjoint (fmat n f lam V W))
  (fmat n (fun z => Cconj (f (Cconj z))) (fun k => Cconj (lam k)) (adjoint W) (adjoint V)).
Proof.
  intros i j Hi Hj. unfold adjoint at 1. unfold fmat. rewrite Cconj_csum. apply csum_ext; intros k Hk.
  rewrite !Cconj_mult, !Cconj_conj. unfold adjoint. ring.
Qed.

Lemma diagonalises_adjoint n A lam V W : diagonalises n A lam V W ->
  diagonalises n (adjoint A) (fun k => Cconj (lam k)) (adjoint W) (adjoint V).
Proof.
  intros H. split; [apply inverse_adjoint; apply H|]. intros k i Hk Hi.
  assert (E := diagonalises_left n A lam V W H k i Hk Hi). rewrite mul_diag in E by assumption.
  apply (f_equal Cconj) in E. unfold matmul in E. rewrite Cconj_csum, Cconj_mult in E.
  unfold adjoint. rewrite <- E. apply csum_ext; intros j Hj. rewrite Cconj_mult. ring.
Qed.

Lemma diagonalises_opp n A lam V W : diagonalises n A lam V W ->
  diagonalises n (fun i j => - A i j) (fun k => - lam k) V W.
Proof.
  intros [H1 H2]. split; [assumption|]. intros k i Hk Hi.
  rewrite (csum_ext _ (fun j => - (A i j * V j k))) by (intros; ring). rewrite csum_opp, H2 by assumption. ring.
Qed.

Lemma diagonalises_ext n A B lam V W : mat_eq n A B -> diagonalises n A lam V W -> diagonalises n B lam V W.
Proof.
  intros E [H1 H2]. split; [assumption|]. intros k i Hk Hi. rewrite <- H2 by assumption.
  apply csum_ext; intros j Hj. rewrite E by assumption. reflexivity.
Qed.

(** ** The exponential *)

Lemma cexp_opp z : cexp z * cexp (- z) = 1.
Proof.
  destruct z as [x y]. unfold cexp. simpl.
  replace (RtoC (exp x) * cis y * (RtoC (exp (- x)) * cis (- y))) with
    ((RtoC (exp x) * RtoC (exp (- x))) * (cis y * cis (- y))) by ring.
  rewrite <- RtoC_mult, <- exp_plus, <- cis_plus, !Rplus_opp_r, exp_0, cis_0. ring.
Qed.

Lemma cexp_conj z : Cconj (cexp (Cconj z)) = cexp z.
Proof.
  destruct z as [x y]. unfold cexp. simpl. rewrite Cconj_mult, Cconj_RtoC. f_equal.
  unfold cis, Cconj. simpl. rewrite sin_neg, cos_neg. f_equal. lra.
Qed.

Lemma cexp_plus z w : cexp (z + w) = cexp z * cexp w.
Proof.
  destruct z as [x y], w as [x' y']. unfold cexp. simpl. rewrite exp_plus, cis_plus, RtoC_mult. ring.
Qed.

(** ** The model functions *)

Lemma apply_function_entry o f lam V W i j : bsize (ocol o) = bsize (orow o) -> (j < bsize (orow o))%nat ->
  op_entry (apply_function_to_operator o f lam V W) i j = fmat (bsize (orow o)) f lam V W i j.
Proof.
  intros E Hj. unfold op_entry. cbn [ocol odata apply_function_to_operator]. rewrite E.
  etransitivity; [apply (array2_flat (bsize (orow o))); assumption|]. reflexivity.
Qed.

Lemma from_eigenstates_entry b E Einv lam i k : (k < bsize b)%nat ->
  op_entry (operator_from_eigenstates b E Einv lam) i k =
  fmat (bsize b) (fun z => z) lam (fun i j => E j i) (fun j k => Einv k j) i k.
Proof.
  intros Hk. unfold op_entry. cbn [ocol odata operator_from_eigenstates ravel_array].
  etransitivity; [apply (array2_flat (bsize b)); assumption|]. unfold fmat. apply csum_ext; intros; ring.
Qed.

Lemma from_eigenstates_spec b A E Einv lam : inverse_matrices (bsize b) E Einv ->
  (forall j i, (j < bsize b)%nat -> (i < bsize b)%nat ->
     csum (fun k => A i k * E j k) (bsize b) = lam j * E j i) ->
  mat_eq (bsize b) (op_entry (operator_from_eigenstates b E Einv lam)) A.
Proof.
  intros HI HE i k Hi Hk. rewrite from_eigenstates_entry by assumption.
  apply (fmat_id (bsize b) A lam (fun i j => E j i) (fun j k => Einv k j)); [|assumption|assumption].
  split; [apply inverse_transpose; assumption|]. intros. apply HE; assumption.
Qed.

Lemma from_eigenstates_eigen b E Einv lam : inverse_matrices (bsize b) E Einv ->
  forall j i, (j < bsize b)%nat -> (i < bsize b)%nat ->
    csum (fun k => op_entry (operator_from_eigenstates b E Einv lam) i k * E j k) (bsize b) = lam j * E j i.
Proof.
  intros HI j i Hj Hi. set (n := bsize b) in *.
  set (V := fun i j => E j i). set (W := fun j k => Einv k j).
  assert (IV : inverse_matrices n V W) by (apply inverse_transpose; assumption).
  assert (M : mat_eq n (matmul n (fmat n (fun z => z) lam V W) V) (matmul n V (diagonal_matrix lam))).
  { rewrite fmat_mul, !mul_assoc, (proj2 IV), mul_id_r. reflexivity. }
  specialize (M i j Hi Hj). rewrite mul_diag_r in M by assumption.
  transitivity (V i j * lam j); [|unfold V; ring]. rewrite <- M. unfold matmul.
  apply csum_ext; intros k Hk. rewrite from_eigenstates_entry by assumption. reflexivity.
Qed.

(** Eigenstates of a complete orthonormal set: the expectation is the eigenvalue. *)
Lemma expectation_spec same o b state : identity_test same -> op_wf o -> orow o = b -> ocol o = b ->
  bwf b -> explicit_orthonormal b ->
  calculate_expectation same o b state = Some (matrix_element (bsize b) state (op_entry o) state).
Proof.
  intros Hs W R1 C1 Hb Ob. unfold calculate_expectation.
  destruct (convert_self_op same Hs b Hb Ob o W R1 C1) as [c [Hc [Wc [C2 [C3 C4]]]]]. rewrite Hc.
  rewrite op_reshape by assumption. f_equal. unfold matrix_element, inner_product.
  apply csum_ext; intros i Hi. rewrite <- csum_scal_l. apply csum_ext; intros j Hj.
  rewrite <- C4 by assumption. unfold at2, op_entry. cbn [ashape aflat nth]. ring.
Qed.

Lemma from_eigenstates_expectation same b E Einv lam k : identity_test same -> bwf b -> explicit_orthonormal b ->
  inverse_matrices (bsize b) E Einv -> (k < bsize b)%nat ->
  inner_product (bsize b) (E k) (E k) = 1 ->
  calculate_expectation same (operator_from_eigenstates b E Einv lam) b (E k) = Some (lam k).
Proof.
  intros Hs Hb Ob HI Hk Hn. rewrite expectation_spec; try assumption; try reflexivity.
  2:{ unfold op_wf. simpl. lia. }
  f_equal. unfold matrix_element, inner_product.
  rewrite (csum_ext _ (fun i => lam k * (Cconj (E k i) * E k i))).
  - rewrite csum_scal_l. fold (inner_product (bsize b) (E k) (E k)). rewrite Hn. ring.
  - intros i Hi. rewrite from_eigenstates_eigen by assumption. ring.
Qed.

(** The expectation value does not depend on the basis of state and operator. *)
Lemma expectation_basis same o a b f state : identity_test same -> op_wf o -> orow o = a -> ocol o = a ->
  bwf a -> bwf b -> explicit_orthonormal a -> explicit_orthonormal b -> complete b ->
  convert same a b = Some f ->
  calculate_expectation same o b (f state) = calculate_expectation same o a state.
Proof.
  intros Hs W R1 C1 Ha Hb Oa Ob Cb Hf.
  rewrite (expectation_spec same o a) by assumption.
  unfold calculate_expectation.
  assert (Hc : compatible a b) by (apply (convert_some_iff same); eexists; eassumption).
  destruct (convert_operator_spec same o b b W) as [F [r [HF [Hr [Wr [E2 [E3 E4]]]]]]]; [congruence|congruence|].
  rewrite Hr, op_reshape by assumption. f_equal.
  rewrite R1, C1 in HF.
  rewrite <- (convert_matrix_element same Hs a b Ha Hb Oa Cb F HF f (op_entry o) state state Hf).
  unfold matrix_element, inner_product.
  apply csum_ext; intros i Hi. rewrite <- csum_scal_l. apply csum_ext; intros j Hj.
  rewrite <- E4 by assumption. unfold at2, op_entry. cbn [ashape aflat nth]. ring.
Qed.

(** exp_operator *)
Lemma exp_operator_entry o V Einv lam i k : bsize (ocol o) = bsize (orow o) -> (k < bsize (orow o))%nat ->
  op_entry (exp_operator o V Einv lam) i k = fmat (bsize (orow o)) cexp lam V (fun j k => Einv k j) i k.
Proof. intros E Hk. unfold exp_operator. rewrite from_eigenstates_entry by assumption. reflexivity. Qed.

Lemma exp_operator_inverse o V Einv lam n : bsize (orow o) = n -> bsize (ocol o) = n ->
  inverse_matrices n (fun j i => V i j) Einv ->
  mat_eq n (matmul n (op_entry (exp_operator o V Einv lam)) (op_entry (exp_operator o V Einv (fun k => - lam k)))) cdelta.
Proof.
  intros R1 C1 HI. apply inverse_transpose in HI.
  assert (E : forall l, mat_eq n (op_entry (exp_operator o V Einv l)) (fmat n cexp l V (fun j k => Einv k j))).
  { intros l i j Hi Hj. rewrite exp_operator_entry by lia. rewrite R1. reflexivity. }
  rewrite !E.
  assert (E2 : mat_eq n (fmat n cexp (fun k => - lam k) V (fun j k => Einv k j))
                        (fmat n (fun z => cexp (- z)) lam V (fun j k => Einv k j))).
  { intros i j _ _. reflexivity. }
  rewrite E2, fmat_product by exact HI.
  rewrite (fmat_ext n _ (fun _ => 1)) by (intros; apply cexp_opp). apply fmat_one. exact HI.
Qed.

Lemma fmat_exp_unitary n A lam V W : diagonalises n A lam V W -> anti_hermitian n A ->
  mat_eq n (matmul n (adjoint (fmat n cexp lam V W)) (fmat n cexp lam V W)) cdelta.
Proof.
  intros HD HA. rewrite fmat_adjoint.
  assert (HAd : diagonalises n (fun i j => - A i j) (fun k => Cconj (lam k)) (adjoint W) (adjoint V)).
  { apply (diagonalises_ext n (adjoint A)); [|apply diagonalises_adjoint; assumption].
    intros i j Hi Hj. rewrite (HA i j) by assumption. ring. }
  assert (E1 : mat_eq n (fmat n (fun z => Cconj (cexp (Cconj z))) (fun k => Cconj (lam k)) (adjoint W) (adjoint V))
                        (fmat n cexp (fun k => Cconj (lam k)) (adjoint W) (adjoint V))).
  { apply fmat_ext. intros. apply cexp_conj. }
  rewrite E1, (fmat_unique n _ cexp _ _ _ _ _ _ HAd (diagonalises_opp n A lam V W HD)).
  assert (E2 : mat_eq n (fmat n cexp (fun k => - lam k) V W) (fmat n (fun z => cexp (- z)) lam V W)).
  { intros i j _ _. reflexivity. }
  rewrite E2, fmat_product by apply HD.
  rewrite (fmat_ext n _ (fun _ => 1)); [apply fmat_one; apply HD|].
  intros. rewrite Cmult_comm. apply cexp_opp.
Qed.

Lemma exp_operator_unique n o V Einv lam V' Einv' lam' : square n o ->
  diagonalises n (op_entry o) lam V (fun j k => Einv k j) ->
  diagonalises n (op_entry o) lam' V' (fun j k => Einv' k j) ->
  mat_eq n (op_entry (exp_operator o V Einv lam)) (op_entry (exp_operator o V' Einv' lam')).
Proof.
  intros [W [R1 C1]] H H' i j Hi Hj. rewrite !exp_operator_entry by lia. rewrite R1.
  apply (fmat_unique n (op_entry o)); assumption.
Qed.

Lemma exp_operator_unitary n o V Einv lam : square n o ->
  diagonalises n (op_entry o) lam V (fun j k => Einv k j) -> anti_hermitian n (op_entry o) ->
  let X := op_entry (exp_operator o V Einv lam) in
  mat_eq n (matmul n (adjoint X) X) cdelta.
Proof.
  intros [W [R1 C1]] H HA X.
  assert (E : mat_eq n X (fmat n cexp lam V (fun j k => Einv k j))).
  { intros i j Hi Hj. unfold X. rewrite exp_operator_entry by lia. rewrite R1. reflexivity. }
  rewrite E. apply (fmat_exp_unitary n (op_entry o)); assumption.
Qed.

Lemma apply_function_unique n o f lam V W lam' V' W' : square n o ->
  diagonalises n (op_entry o) lam V W -> diagonalises n (op_entry o) lam' V' W' ->
  mat_eq n (op_entry (apply_function_to_operator o f lam V W)) (op_entry (apply_function_to_operator o f lam' V' W')).
Proof.
  intros [Wf [R1 C1]] H H' i j Hi Hj. rewrite !apply_function_entry by lia. rewrite R1.
  apply (fmat_unique n (op_entry o)); assumption.
Qed.

Lemma apply_function_homomorphism n o f g lam V W : square n o -> inverse_matrices n V W ->
  mat_eq n (matmul n (op_entry (apply_function_to_operator o f lam V W))
                     (op_entry (apply_function_to_operator o g lam V W)))
           (op_entry (apply_function_to_operator o (fun z => f z * g z) lam V W)).
Proof.
  intros [Wf [R1 C1]] H.
  assert (E : forall h, mat_eq n (op_entry (apply_function_to_operator o h lam V W)) (fmat n h lam V W)).
  { intros h i j Hi Hj. rewrite apply_function_entry by lia. rewrite R1. reflexivity. }
  rewrite !E. apply fmat_product. assumption.
Qed.

Lemma apply_function_id n o lam V W : square n o -> diagonalises n (op_entry o) lam V W ->
  mat_eq n (op_entry (apply_function_to_operator o (fun z => z) lam V W)) (op_entry o).
Proof.
  intros [Wf [R1 C1]] H i j Hi Hj. rewrite apply_function_entry by lia. rewrite R1.
  apply (fmat_id n (op_entry o)); assumption.
Qed.

Lemma apply_function_eigenvectors n o f lam V W : square n o -> inverse_matrices n V W ->
  forall k i, (k < n)%nat -> (i < n)%nat ->
    csum (fun j => op_entry (apply_function_to_operator o f lam V W) i j * V j k) n = f (lam k) * V i k.
Proof.
  intros [Wf [R1 C1]] H k i Hk Hi.
  assert (E : mat_eq n (matmul n (fmat n f lam V W) V) (matmul n V (diagonal_matrix (fun k => f (lam k))))).
  { rewrite fmat_mul, !mul_assoc, (proj2 H), mul_id_r. reflexivity. }
  specialize (E i k Hi Hk). rewrite mul_diag_r in E by assumption.
  transitivity (V i k * f (lam k)); [|ring]. rewrite <- E. unfold matmul. apply csum_ext; intros j Hj.
  rewrite apply_function_entry by lia. rewrite R1. reflexivity.
Qed.

(** apply_operator_to_state *)
Lemma Cmod_sqr z : Cmod (z * z) = Cnorm2 z.
Proof.
  rewrite Cmod_mult. unfold Cmod. rewrite sqrt_sqrt; [|nra].
  unfold Cnorm2. ring.
Qed.

Lemma rsum_scal_r (f : nat -> R) c n : rsum (fun i => (f i * c)%R) n = (rsum f n * c)%R.
Proof. induction n as [|n IH]; simpl; [ring|]. rewrite IH. ring. Qed.

Lemma apply_operator_to_state_spec same o b state f : op_wf o -> convert same b (ocol o) = Some f ->
  exists d e, apply_operator_to_state same o b state = Some (d, e) /\
    let w := fun i => csum (fun k => op_entry o i k * f state k) (bsize (ocol o)) in
    (0 <= e)%R /\ (e * e = rsum (fun i => Cnorm2 (w i)) (bsize (orow o)))%R /\
    (e <> 0%R -> (forall i, RtoC e * d i = w i) /\ rsum (fun i => Cnorm2 (d i)) (bsize (orow o)) = 1%R).
Proof.
  intros W Hf. unfold apply_operator_to_state. rewrite Hf.
  rewrite op_reshape by assumption.
  set (w := fun i => csum (fun k => op_entry o i k * f state k) (bsize (ocol o))).
  do 2 eexists. split; [reflexivity|]. cbv zeta.
  match goal with |- context [sqrt ?s] => set (s0 := s) end.
  assert (E : s0 = rsum (fun i => Cnorm2 (w i)) (bsize (orow o))).
  { apply rsum_ext; intros i Hi. rewrite Cmod_sqr. reflexivity. }
  assert (Hs : (0 <= s0)%R) by (rewrite E; apply rsum_nonneg; intros; apply Cnorm2_nonneg).
  split; [apply sqrt_pos|]. split; [rewrite sqrt_sqrt by assumption; exact E|].
  intros Hne.
  assert (Hc : RtoC (sqrt s0) <> 0) by (intros H; apply Hne; apply RtoC_inj; exact H).
  split.
  - intros i. fold (w i). change (RtoC (sqrt s0) * (w i / RtoC (sqrt s0)) = w i). field. exact Hc.
  - transitivity (rsum (fun i => (Cnorm2 (w i) * / s0)%R) (bsize (orow o))).
    + apply rsum_ext; intros i Hi. change (Cnorm2 (w i / RtoC (sqrt s0)) = (Cnorm2 (w i) * / s0)%R).
      unfold Cdiv. rewrite <- RtoC_inv by assumption. rewrite Cnorm2_mult. f_equal.
      unfold Cnorm2. simpl. rewrite Rmult_0_l, Rplus_0_r, <- Rinv_mult by assumption.
      rewrite sqrt_sqrt by assumption. reflexivity.
    + rewrite rsum_scal_r, <- E. apply Rinv_r. intros H. apply Hne. rewrite H. apply sqrt_0.
Qed.
