(** Properties of operators and lists of operators (C16-C18, C51, C52). *)
From Coq Require Import Reals Psatz.
From Verif Require Import ZLib Csum DFT NumPy Spec Basis SpecBasis Operator SpecOperator OperatorProofs OperatorProofs2 OperatorProofs3 OperatorFacts.
Local Open Scope R_scope.
Local Open Scope C_scope.

(** ** Example operators: [ex_x] and [ex_z] are Pauli matrices, [ex_list] holds both, and
    [ex_diag] is a list of two diagonal operators (see OperatorFacts). *)

Example ex_square : square 2 ex_x /\ square 2 ex_z /\ square 2 ex_ix.
Proof. repeat split. Qed.
Example ex_hermitian : hermitian 2 (op_entry ex_x) /\ hermitian 2 (op_entry ex_z) /\ anti_hermitian 2 (op_entry ex_ix).
Proof. exact ex_hermitian_fact. Qed.
Example ex_commutator : exists p, get_commutator ex_x ex_z = Some p /\ op_entry p 0 1 = - (2) /\ op_entry p 1 0 = 2.
Proof. exact ex_commutator_fact. Qed.
Example ex_diagonalises :
  diagonalises 2 (op_entry ex_x) (fun k => if Nat.eqb k 0 then 1 else - (1)) ex_V ex_W /\
  diagonalises 2 (op_entry ex_ix) (fun k => if Nat.eqb k 0 then Ci else - Ci) ex_V ex_W.
Proof. exact ex_diagonalises_fact. Qed.

(** ** C16 *)

Theorem C16_diagonal_as_full :
  forall L, diag_list_wf L -> (0 < bsize (lrow L))%nat ->
  exists F, diagonal_operator_list_as_full L = Some F /\ list_wf F /\
    lbasis F = lbasis L /\ lrow F = lrow L /\ lcol F = lcol L /\
    forall m i j, (m < bsize (lbasis L))%nat -> (i < bsize (lrow L))%nat -> (j < bsize (lrow L))%nat ->
      list_entry F m i j = if Nat.eqb i j then diag_entry L m i else 0.
Proof. exact diagonal_as_full_spec. Qed.
Print Assumptions C16_diagonal_as_full.

Theorem C16_full_as_diagonal :
  forall L, list_wf L -> bsize (lrow L) = bsize (lcol L) -> (0 < bsize (lrow L))%nat ->
  exists D, operator_list_as_diagonal L = Some D /\ diag_list_wf D /\
    lbasis D = lbasis L /\ lrow D = lrow L /\ lcol D = lcol L /\
    forall m i, (m < bsize (lbasis L))%nat -> (i < bsize (lrow L))%nat ->
      diag_entry D m i = list_entry L m i i.
Proof. exact as_diagonal_spec. Qed.
Print Assumptions C16_full_as_diagonal.

Theorem C16_round_trip :
  forall L F, diag_list_wf L -> (0 < bsize (lrow L))%nat -> diagonal_operator_list_as_full L = Some F ->
  exists D, operator_list_as_diagonal F = Some D /\
    lbasis D = lbasis L /\ lrow D = lrow L /\ lcol D = lcol L /\
    forall m i, (m < bsize (lbasis L))%nat -> (i < bsize (lrow L))%nat -> diag_entry D m i = diag_entry L m i.
Proof. exact diagonal_round_trip. Qed.
Print Assumptions C16_round_trip.

Theorem C16_single_operator_round_trip :
  forall o n, ashape (odata o) = [n] -> bsize (orow o) = n -> bsize (ocol o) = n ->
  exists f d, as_operator o = Some f /\ as_diagonal_operator f = Some d /\
    (forall i j, (i < n)%nat -> (j < n)%nat ->
       op_entry f i j = if Nat.eqb i j then aflat (odata o) i else 0) /\
    ashape (odata d) = [n] /\ forall i, (i < n)%nat -> aflat (odata d) i = aflat (odata o) i.
Proof. exact as_operator_round_trip. Qed.
Print Assumptions C16_single_operator_round_trip.

(** select_operator takes a python index: k or k - length for operator k, and raises
    outside. *)
Theorem C16_select_operator :
  forall L idx k, list_wf L -> (k < bsize (lbasis L))%nat ->
  (idx = Z.of_nat k \/ idx = Z.of_nat k - Z.of_nat (bsize (lbasis L)))%Z ->
  exists o, select_operator L idx = Some o /\ op_wf o /\ orow o = lrow L /\ ocol o = lcol L /\
    forall i j, op_entry o i j = list_entry L k i j.
Proof. exact select_operator_index. Qed.
Print Assumptions C16_select_operator.

Theorem C16_select_operator_raises :
  forall L idx, list_wf L ->
  (select_operator L idx = None <->
   ~ (- Z.of_nat (bsize (lbasis L)) <= idx < Z.of_nat (bsize (lbasis L)))%Z).
Proof. exact select_operator_raises. Qed.
Print Assumptions C16_select_operator_raises.

Theorem C16_into_iter :
  forall L, list_wf L ->
  exists l, operator_list_into_iter L = Some l /\ length l = bsize (lbasis L) /\
    forall m d, (m < bsize (lbasis L))%nat ->
      let o := nth m l d in
      op_wf o /\ orow o = lrow L /\ ocol o = lcol L /\ forall i j, op_entry o i j = list_entry L m i j.
Proof. exact into_iter_spec. Qed.
Print Assumptions C16_into_iter.

Theorem C16_from_iter :
  forall (l : list operator) o s, hd_error l = Some o ->
  (forall x, In x l -> ashape (odata x) = s /\ orow x = orow o /\ ocol x = ocol o /\ op_wf x) ->
  exists L, operator_list_from_iter l = Some L /\ bsize (lbasis L) = length l /\ list_wf L /\
    lrow L = orow o /\ lcol L = ocol o /\
    forall m i j x, nth_error l m = Some x -> (i < bsize (orow o))%nat -> (j < bsize (ocol o))%nat ->
      list_entry L m i j = op_entry x i j.
Proof. exact from_iter_spec. Qed.
Print Assumptions C16_from_iter.

Example C16_case : diag_list_wf ex_diag /\ (0 < bsize (lrow ex_diag))%nat /\ list_wf ex_list /\
  bsize (lbasis ex_list) = 2%nat /\ list_entry ex_list 1 1 1 = - (1) /\ diag_entry ex_diag 1 1 = 4.
Proof. exact ex_lists_fact. Qed.

(** ** C17 *)

Theorem C17_commutator_entries :
  forall n a b, square n a -> square n b ->
  exists p, get_commutator a b = Some p /\ orow p = orow a /\ ocol p = ocol b /\ square n p /\
    forall i j, (i < n)%nat -> (j < n)%nat ->
      op_entry p i j = csum (fun k => op_entry a i k * op_entry b k j) n
                       - csum (fun k => op_entry b i k * op_entry a k j) n.
Proof. exact commutator_spec. Qed.
Print Assumptions C17_commutator_entries.

Theorem C17_anti_commutator_entries :
  forall n a b, square n a -> square n b ->
  exists p, get_anti_commutator a b = Some p /\ orow p = orow a /\ ocol p = ocol b /\ square n p /\
    forall i j, (i < n)%nat -> (j < n)%nat ->
      op_entry p i j = csum (fun k => op_entry a i k * op_entry b k j) n
                       + csum (fun k => op_entry b i k * op_entry a k j) n.
Proof. exact anti_commutator_spec. Qed.
Print Assumptions C17_anti_commutator_entries.

Theorem C17_antisymmetric :
  forall n a b p q, square n a -> square n b ->
  get_commutator a b = Some p -> get_commutator b a = Some q ->
  mat_eq n (op_entry p) (fun i j => - op_entry q i j).
Proof. exact commutator_antisym. Qed.
Print Assumptions C17_antisymmetric.

Theorem C17_jacobi :
  forall n a b c ab bc ca x y z, square n a -> square n b -> square n c ->
  get_commutator b c = Some bc -> get_commutator c a = Some ca -> get_commutator a b = Some ab ->
  get_commutator a bc = Some x -> get_commutator b ca = Some y -> get_commutator c ab = Some z ->
  forall i j, (i < n)%nat -> (j < n)%nat -> op_entry x i j + op_entry y i j + op_entry z i j = 0.
Proof. exact commutator_jacobi. Qed.
Print Assumptions C17_jacobi.

Theorem C17_linear :
  forall n (u v : C) a b c s p q r, square n a -> square n b -> square n c ->
  ashape (odata a) = ashape (odata b) ->
  add_operator (scale_operator u a) (scale_operator v b) = Some s ->
  get_commutator s c = Some p -> get_commutator a c = Some q -> get_commutator b c = Some r ->
  mat_eq n (op_entry p) (fun i j => u * op_entry q i j + v * op_entry r i j).
Proof. exact commutator_linear. Qed.
Print Assumptions C17_linear.

Theorem C17_commutator_anti_hermitian :
  forall n a b p, square n a -> square n b ->
  hermitian n (op_entry a) -> hermitian n (op_entry b) -> get_commutator a b = Some p ->
  anti_hermitian n (op_entry p).
Proof. exact commutator_hermitian. Qed.
Print Assumptions C17_commutator_anti_hermitian.

Theorem C17_anti_commutator_hermitian :
  forall n a b p, square n a -> square n b ->
  hermitian n (op_entry a) -> hermitian n (op_entry b) -> get_anti_commutator a b = Some p ->
  hermitian n (op_entry p).
Proof. exact anti_commutator_hermitian. Qed.
Print Assumptions C17_anti_commutator_hermitian.

(** The list version: the operators of the list are first expressed in the basis of the
    single operator ([F] is that conversion, see C14). *)
Theorem C17_commutator_list :
  forall same b l r, identity_test same -> bwf b -> explicit_orthonormal b ->
  op_wf l -> orow l = b -> ocol l = b ->
  list_wf r -> compatible (lrow r) b -> compatible (lcol r) b ->
  exists F p, convert_matrix same (lrow r) b (lcol r) b = Some F /\
    get_commutator_operator_list same l r = Some p /\ list_wf p /\
    lbasis p = lbasis r /\ lrow p = b /\ lcol p = b /\
    ashape (ldata p) = [(bsize (lbasis r) * (bsize b * bsize b))%nat] /\
    forall m i j, (m < bsize (lbasis r))%nat -> (i < bsize b)%nat -> (j < bsize b)%nat ->
      list_entry p m i j = matmul (bsize b) (op_entry l) (F (list_entry r m)) i j
                           - matmul (bsize b) (F (list_entry r m)) (op_entry l) i j.
Proof. exact (fun same b l r Hs Hw Ho => commutator_list_spec same Hs b Hw Ho l r). Qed.
Print Assumptions C17_commutator_list.

Theorem C17_commutator_diagonal_list :
  forall same b l r, identity_test same -> bwf b -> explicit_orthonormal b ->
  op_wf l -> orow l = b -> ocol l = b ->
  diag_list_wf r -> lrow r = b -> lcol r = b ->
  exists p, get_commutator_diagonal_operator_list same l r = Some p /\ list_wf p /\
    lbasis p = lbasis r /\ lrow p = b /\ lcol p = b /\
    ashape (ldata p) = [(bsize (lbasis r) * (bsize b * bsize b))%nat] /\
    forall m i j, (m < bsize (lbasis r))%nat -> (i < bsize b)%nat -> (j < bsize b)%nat ->
      list_entry p m i j = matmul (bsize b) (op_entry l) (diagonal_matrix (diag_entry r m)) i j
                           - matmul (bsize b) (diagonal_matrix (diag_entry r m)) (op_entry l) i j.
Proof. exact (fun same b l r Hs Hw Ho => commutator_diagonal_list_spec same Hs b Hw Ho l r). Qed.
Print Assumptions C17_commutator_diagonal_list.

(** Unlike the version for full lists, the diagonal version does not convert the list: it
    raises when the sizes differ. *)
Theorem C17_commutator_diagonal_list_raises :
  forall same l r, (0 < bsize (orow l))%nat -> bsize (ocol l) <> bsize (lrow r) ->
  get_commutator_diagonal_operator_list same l r = None.
Proof. exact commutator_diagonal_list_raises. Qed.
Print Assumptions C17_commutator_diagonal_list_raises.

(** ** C18 *)

Theorem C18_rebuilds_operator :
  forall b A E Einv lam, inverse_matrices (bsize b) E Einv ->
  (forall j i, (j < bsize b)%nat -> (i < bsize b)%nat ->
     csum (fun k => A i k * E j k) (bsize b) = lam j * E j i) ->
  mat_eq (bsize b) (op_entry (operator_from_eigenstates b E Einv lam)) A.
Proof. exact from_eigenstates_spec. Qed.
Print Assumptions C18_rebuilds_operator.

(** For any invertible set of states the result has these states as eigenvectors. *)
Theorem C18_has_eigenstates :
  forall b E Einv lam, inverse_matrices (bsize b) E Einv ->
  forall j i, (j < bsize b)%nat -> (i < bsize b)%nat ->
    csum (fun k => op_entry (operator_from_eigenstates b E Einv lam) i k * E j k) (bsize b) = lam j * E j i.
Proof. exact from_eigenstates_eigen. Qed.
Print Assumptions C18_has_eigenstates.

Theorem C18_expectation_is_eigenvalue :
  forall same b E Einv lam k, identity_test same -> bwf b -> explicit_orthonormal b ->
  inverse_matrices (bsize b) E Einv -> (k < bsize b)%nat ->
  inner_product (bsize b) (E k) (E k) = 1 ->
  calculate_expectation same (operator_from_eigenstates b E Einv lam) b (E k) = Some (lam k).
Proof. exact from_eigenstates_expectation. Qed.
Print Assumptions C18_expectation_is_eigenvalue.

Theorem C18_expectation_value :
  forall same o b state, identity_test same -> op_wf o -> orow o = b -> ocol o = b ->
  bwf b -> explicit_orthonormal b ->
  calculate_expectation same o b state =
  Some (csum (fun i => Cconj (state i) * csum (fun j => op_entry o i j * state j) (bsize b)) (bsize b)).
Proof. exact expectation_spec. Qed.
Print Assumptions C18_expectation_value.

Theorem C18_expectation_basis_independent :
  forall same o a b f state, identity_test same -> op_wf o -> orow o = a -> ocol o = a ->
  bwf a -> bwf b -> explicit_orthonormal a -> explicit_orthonormal b -> complete b ->
  convert same a b = Some f ->
  calculate_expectation same o b (f state) = calculate_expectation same o a state.
Proof. exact expectation_basis. Qed.
Print Assumptions C18_expectation_basis_independent.

Theorem C18_expectation_diagonal :
  forall same o d b state f, identity_test same -> bwf b -> bwf (orow o) ->
  convert same b (orow o) = Some f -> ashape (odata o) = [bsize (orow o)] -> ocol o = orow o ->
  explicit_orthonormal (orow o) ->
  as_operator o = Some d ->
  calculate_expectation_diagonal same o b state = calculate_expectation same d (orow o) (f state).
Proof. exact expectation_diagonal_spec. Qed.
Print Assumptions C18_expectation_diagonal.

Example C18_case : inverse_matrices 2 ex_E ex_Einv /\ bsize (BFundT 2) = 2%nat /\
  (forall j i, (j < 2)%nat -> (i < 2)%nat ->
     csum (fun k => op_entry ex_x i k * ex_E j k) 2 = (if Nat.eqb j 0 then 1 else - (1)) * ex_E j i).
Proof. exact ex_eigenstates_fact. Qed.

(** ** C51: functions of operators *)

Theorem C51_function_independent_of_decomposition :
  forall n o f lam V W lam' V' W', square n o ->
  diagonalises n (op_entry o) lam V W -> diagonalises n (op_entry o) lam' V' W' ->
  mat_eq n (op_entry (apply_function_to_operator o f lam V W))
           (op_entry (apply_function_to_operator o f lam' V' W')).
Proof. exact apply_function_unique. Qed.
Print Assumptions C51_function_independent_of_decomposition.

Theorem C51_function_eigenvectors :
  forall n o f lam V W, square n o -> inverse_matrices n V W ->
  forall k i, (k < n)%nat -> (i < n)%nat ->
    csum (fun j => op_entry (apply_function_to_operator o f lam V W) i j * V j k) n = f (lam k) * V i k.
Proof. exact apply_function_eigenvectors. Qed.
Print Assumptions C51_function_eigenvectors.

Theorem C51_function_product :
  forall n o f g lam V W, square n o -> inverse_matrices n V W ->
  mat_eq n (matmul n (op_entry (apply_function_to_operator o f lam V W))
                     (op_entry (apply_function_to_operator o g lam V W)))
           (op_entry (apply_function_to_operator o (fun z => f z * g z) lam V W)).
Proof. exact apply_function_homomorphism. Qed.
Print Assumptions C51_function_product.

Theorem C51_function_identity :
  forall n o lam V W, square n o -> diagonalises n (op_entry o) lam V W ->
  mat_eq n (op_entry (apply_function_to_operator o (fun z => z) lam V W)) (op_entry o).
Proof. exact apply_function_id. Qed.
Print Assumptions C51_function_identity.

(** exp_operator: the eigenvectors are the columns of [V]; [Einv] is the inverse of the
    matrix whose rows they are. *)
Theorem C51_exp_independent_of_decomposition :
  forall n o V Einv lam V' Einv' lam', square n o ->
  diagonalises n (op_entry o) lam V (fun j k => Einv k j) ->
  diagonalises n (op_entry o) lam' V' (fun j k => Einv' k j) ->
  mat_eq n (op_entry (exp_operator o V Einv lam)) (op_entry (exp_operator o V' Einv' lam')).
Proof. exact exp_operator_unique. Qed.
Print Assumptions C51_exp_independent_of_decomposition.

Theorem C51_exp_inverse :
  forall n o m V Einv lam V' Einv' lam', square n o -> square n m ->
  diagonalises n (op_entry o) lam V (fun j k => Einv k j) ->
  diagonalises n (op_entry m) lam' V' (fun j k => Einv' k j) ->
  mat_eq n (op_entry m) (fun i j => - op_entry o i j) ->
  mat_eq n (matmul n (op_entry (exp_operator o V Einv lam)) (op_entry (exp_operator m V' Einv' lam'))) cdelta.
Proof. exact exp_operator_inverse_opp. Qed.
Print Assumptions C51_exp_inverse.

Theorem C51_exp_unitary :
  forall n o V Einv lam, square n o ->
  diagonalises n (op_entry o) lam V (fun j k => Einv k j) -> anti_hermitian n (op_entry o) ->
  let X := op_entry (exp_operator o V Einv lam) in
  mat_eq n (matmul n (adjoint X) X) cdelta.
Proof. exact exp_operator_unitary. Qed.
Print Assumptions C51_exp_unitary.

(** ** C52: arithmetic of stored arrays *)

Theorem C52_add_operator :
  forall n a b, square n a -> square n b -> ashape (odata a) = ashape (odata b) ->
  exists p, add_operator a b = Some p /\ square n p /\ orow p = orow a /\ ocol p = ocol a /\
    forall i j, (i < n)%nat -> (j < n)%nat -> op_entry p i j = op_entry a i j + op_entry b i j.
Proof. exact add_operator_spec. Qed.
Print Assumptions C52_add_operator.

Theorem C52_matmul_operator :
  forall l r, op_wf l -> op_wf r -> bsize (ocol l) = bsize (orow r) ->
  exists p, matmul_operator l r = Some p /\ orow p = orow l /\ ocol p = ocol r /\
    ashape (odata p) = [bsize (orow l); bsize (ocol r)] /\
    forall i j, (j < bsize (ocol r))%nat ->
      op_entry p i j = csum (fun k => op_entry l i k * op_entry r k j) (bsize (ocol l)).
Proof. exact matmul_operator_spec. Qed.
Print Assumptions C52_matmul_operator.

(** A product cannot be added to an operator with flat data (finding). *)
Theorem C52_product_plus_flat_raises :
  forall n l r p o, (1 < n)%nat -> square n l -> square n r -> matmul_operator l r = Some p ->
  ashape (odata o) = [(n * n)%nat] -> add_operator p o = None /\ add_operator o p = None.
Proof. exact product_plus_flat_raises. Qed.
Print Assumptions C52_product_plus_flat_raises.

Theorem C52_apply_operator_to_state :
  forall same o b state f, op_wf o -> convert same b (ocol o) = Some f ->
  exists d (e : R), apply_operator_to_state same o b state = Some (d, e) /\
    let w := fun i => csum (fun k => op_entry o i k * f state k) (bsize (ocol o)) in
    (0 <= e)%R /\ (e * e = rsum (fun i => Cnorm2 (w i)) (bsize (orow o)))%R /\
    (e <> 0%R -> (forall i, RtoC e * d i = w i) /\ rsum (fun i => Cnorm2 (d i)) (bsize (orow o)) = 1%R).
Proof. exact apply_operator_to_state_spec. Qed.
Print Assumptions C52_apply_operator_to_state.
