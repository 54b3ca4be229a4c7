(** C138: products, sums and differences of operators and lists of operators in different bases;
    and tightened parts of C16, C51, C52 and C104.
    Each theorem is closed by the proof of the named lemma. *)
From Coq Require Import Reals.
From Verif Require Import ZLib Csum NumPy Basis SpecBasis Operator SpecOperator Localize EigenBasis ProductsProofs ProductsProofs2 ProductsFacts.
Local Open Scope R_scope.
Local Open Scope C_scope.

(** ** C16 *)

(** A list cannot be formed of no operators, nor of operators stored with different shapes. *)
Theorem C16_from_iter_raises :
  forall l : list operator, operator_list_from_iter l = None <->
  l = [] \/ exists o x, hd_error l = Some o /\ In x l /\ ashape (odata x) <> ashape (odata o).
Proof. exact from_iter_raises. Qed.
Print Assumptions C16_from_iter_raises.
Example C16_from_iter_raises_case :
  operator_list_from_iter [wide; {| orow := BFund 1; ocol := BFund 3; odata := {| ashape := [1%nat; 3%nat]; aflat := fun t => RtoC (INR t) |} |}] = None.
Proof. exact ex_shapes. Qed.

(** One diagonal operator of a list, by a python index. *)
Theorem C16_select_diagonal_operator :
  forall L idx k, diag_list_wf L -> (k < bsize (lbasis L))%nat ->
  (idx = Z.of_nat k \/ idx = Z.of_nat k - Z.of_nat (bsize (lbasis L)))%Z ->
  exists o, select_diagonal_operator L idx = Some o /\ orow o = lrow L /\ ocol o = lcol L /\
    ashape (odata o) = [bsize (lrow L)] /\ forall i, aflat (odata o) i = diag_entry L k i.
Proof. exact select_diagonal_index. Qed.
Print Assumptions C16_select_diagonal_operator.
Theorem C16_select_diagonal_operator_raises :
  forall L idx, diag_list_wf L ->
  (select_diagonal_operator L idx = None <-> ~ (- Z.of_nat (bsize (lbasis L)) <= idx < Z.of_nat (bsize (lbasis L)))%Z).
Proof. exact select_diagonal_raises. Qed.
Print Assumptions C16_select_diagonal_operator_raises.
(** The diagonal of an operator, and the operator with a given diagonal, keep their bases. *)
Theorem C16_as_diagonal_operator :
  forall o, op_wf o -> exists d, as_diagonal_operator o = Some d /\ orow d = orow o /\ ocol d = ocol o /\
  ashape (odata d) = [Nat.min (bsize (orow o)) (bsize (ocol o))] /\ forall i, aflat (odata d) i = op_entry o i i.
Proof. exact as_diagonal_any. Qed.
Print Assumptions C16_as_diagonal_operator.
Theorem C16_as_operator_bases :
  forall o n, ashape (odata o) = [n] -> exists f, as_operator o = Some f /\ orow f = orow o /\ ocol f = ocol o /\
  ashape (odata f) = [n; n].
Proof. exact as_operator_any. Qed.
Print Assumptions C16_as_operator_bases.

(** ** C51, C52 and C104 *)

(** A function of an operator is given in the bases of the operator, its exponential twice in the
    row basis. *)
Theorem C51_bases :
  forall o f lam V W V' E lam', orow (apply_function_to_operator o f lam V W) = orow o /\ ocol (apply_function_to_operator o f lam V W) = ocol o /\
  orow (exp_operator o V' E lam') = orow o /\ ocol (exp_operator o V' E lam') = orow o.
Proof. exact function_bases. Qed.
Print Assumptions C51_bases.

(** Sums, differences and multiples are given in the bases of the first operator; commutators and
    anti-commutators in the row basis of the first and the column basis of the second. *)
Theorem C52_bases :
  forall a b p c, (add_operator a b = Some p \/ subtract_operator a b = Some p \/ p = scale_operator c a) ->
  orow p = orow a /\ ocol p = ocol a.
Proof. exact arithmetic_bases. Qed.
Print Assumptions C52_bases.
Theorem C52_commutator_bases :
  forall l r p, (get_commutator l r = Some p \/ get_anti_commutator l r = Some p) -> orow p = orow l /\ ocol p = ocol r.
Proof. exact commutator_bases. Qed.
Print Assumptions C52_commutator_bases.
Example C52_bases_case : exists p, add_operator wide wide = Some p /\ orow p <> ocol p.
Proof. exact ex_wide_sum. Qed.

(** An operator that is not square has no eigenstates. *)
Theorem C104_not_square_raises :
  forall eigh eig o, bsize (orow o) <> bsize (ocol o) ->
  (forall subset, eigenstates_hermitian eigh o subset = None) /\ calculate_eigenvectors eig o = None.
Proof. exact not_square. Qed.
Print Assumptions C104_not_square_raises.
Example C104_not_square_case : bsize (orow wide) <> bsize (ocol wide).
Proof. discriminate. Qed.

(** ** C138 *)

(** An operator times every operator of a list. *)
Theorem C138_operator_list :
  forall same, identity_test same -> forall l r, op_wf l -> list_wf r -> bwf (ocol l) -> bwf (lrow r) -> bwf (lcol r) ->
  explicit_orthonormal (lrow r) -> explicit_orthonormal (lcol r) -> compatible (lrow r) (ocol l) ->
  exists p, matmul_operator_list same l r = Some p /\ list_wf p /\ lbasis p = lbasis r /\ lrow p = orow l /\ lcol p = lcol r /\
    forall m i j, (m < bsize (lbasis r))%nat -> (i < bsize (orow l))%nat -> (j < bsize (lcol r))%nat ->
      list_entry p m i j =
        csum (fun k => op_entry l i k * csum (fun q => overlap (ocol l) (lrow r) k q * list_entry r m q j) (bsize (lrow r))) (bsize (ocol l)).
Proof. exact operator_list_product. Qed.
Print Assumptions C138_operator_list.
(** Three columns on the left, two truncated plane waves on the right. *)
Example C138_operator_list_case : op_wf wide /\ list_wf pair_list /\ bwf (ocol wide) /\ bwf (lrow pair_list) /\ bwf (lcol pair_list) /\
  explicit_orthonormal (lrow pair_list) /\ explicit_orthonormal (lcol pair_list) /\ compatible (lrow pair_list) (ocol wide) /\
  bsize (ocol wide) <> bsize (lrow pair_list).
Proof. exact ex_wide. Qed.

(** Every operator of a list times an operator: as above if both bases between them have the same
    number of states; otherwise it raises. *)
Theorem C138_list_operator :
  forall same, identity_test same -> forall l r, list_wf l -> op_wf r -> bwf (lrow l) -> bwf (lcol l) -> bwf (orow r) -> bwf (ocol r) ->
  explicit_orthonormal (orow r) -> explicit_orthonormal (ocol r) -> compatible (orow r) (lcol l) ->
  (bsize (lcol l) = bsize (orow r) ->
    exists p, matmul_list_operator same l r = Some p /\ list_wf p /\ lbasis p = lbasis l /\ lrow p = lrow l /\ lcol p = ocol r /\
    forall m i j, (m < bsize (lbasis l))%nat -> (i < bsize (lrow l))%nat -> (j < bsize (ocol r))%nat ->
      list_entry p m i j =
        csum (fun k => list_entry l m i k * csum (fun q => overlap (lcol l) (orow r) k q * op_entry r q j) (bsize (orow r))) (bsize (lcol l))) /\
  (bsize (lcol l) <> bsize (orow r) -> matmul_list_operator same l r = None).
Proof. exact list_operator_product. Qed.
Print Assumptions C138_list_operator.
Example C138_list_operator_case : forall same, identity_test same -> list_wf waves_list /\ op_wf tall /\
  compatible (orow tall) (lcol waves_list) /\ matmul_list_operator same waves_list tall = None.
Proof. exact ex_tall. Qed.

(** An operator times every diagonal operator of a list. *)
Theorem C138_operator_diagonal_list :
  forall same, identity_test same -> forall l r, op_wf l -> diag_list_wf r -> bwf (orow l) -> bwf (ocol l) -> bwf (lrow r) ->
  explicit_orthonormal (orow l) -> explicit_orthonormal (ocol l) -> compatible (ocol l) (lrow r) ->
  (bsize (ocol l) = bsize (lrow r) ->
    exists p, matmul_operator_diagonal_list same l r = Some p /\ list_wf p /\ lbasis p = lbasis r /\ lrow p = orow l /\ lcol p = lcol r /\
    forall m i j, (m < bsize (lbasis r))%nat -> (i < bsize (orow l))%nat -> (j < bsize (lrow r))%nat ->
      list_entry p m i j = csum (fun q => op_entry l i q * overlap (ocol l) (lrow r) q j) (bsize (ocol l)) * diag_entry r m j) /\
  (bsize (ocol l) <> bsize (lrow r) -> matmul_operator_diagonal_list same l r = None).
Proof. exact operator_diagonal_product. Qed.
Print Assumptions C138_operator_diagonal_list.

(** Every diagonal operator of a list times an operator. *)
Theorem C138_diagonal_list_operator :
  forall same, identity_test same -> forall l r, diag_list_wf l -> op_wf r -> bwf (lcol l) -> bwf (orow r) -> bwf (ocol r) ->
  explicit_orthonormal (orow r) -> explicit_orthonormal (ocol r) -> compatible (orow r) (lcol l) ->
  exists p, matmul_diagonal_list_operator same l r = Some p /\ list_wf p /\ lbasis p = lbasis l /\ lrow p = lrow l /\ lcol p = ocol r /\
    forall m i j, (m < bsize (lbasis l))%nat -> (i < bsize (lrow l))%nat -> (j < bsize (ocol r))%nat ->
      list_entry p m i j = diag_entry l m i * csum (fun q => overlap (lcol l) (orow r) i q * op_entry r q j) (bsize (orow r)).
Proof. exact diagonal_operator_product. Qed.
Print Assumptions C138_diagonal_list_operator.
(** Two diagonal operators in plane waves. *)
Example C138_diagonal_case : diag_list_wf two_values /\ compatible (ocol wide) (lrow two_values) /\
  bsize (ocol wide) = bsize (lrow two_values) /\ compatible (orow tall) (lcol two_values).
Proof. exact ex_values. Qed.

(** Sums and differences of lists whose data are stored flat. *)
Theorem C138_sum_of_lists :
  forall same, identity_test same -> forall l r, list_wf l -> list_wf r -> bwf (lrow l) -> bwf (lcol l) -> bwf (lrow r) -> bwf (lcol r) ->
  explicit_orthonormal (lrow r) -> explicit_orthonormal (lcol r) -> compatible (lrow r) (lrow l) -> compatible (lcol r) (lcol l) ->
  ashape (ldata l) = [(bsize (lbasis r) * (bsize (lrow l) * bsize (lcol l)))%nat] ->
  exists p, add_list_list same l r = Some p /\ list_wf p /\ lbasis p = lbasis l /\ lrow p = lrow l /\ lcol p = lcol l /\
    forall m i j, (m < bsize (lbasis l))%nat -> (i < bsize (lrow l))%nat -> (j < bsize (lcol l))%nat ->
      list_entry p m i j = list_entry l m i j +
        csum (fun s => csum (fun t => overlap (lrow l) (lrow r) i s * list_entry r m s t * overlap (lcol r) (lcol l) t j) (bsize (lcol r))) (bsize (lrow r)).
Proof. exact (fun same Hs => list_list_combination same Hs Cplus). Qed.
Print Assumptions C138_sum_of_lists.

Theorem C138_difference_of_lists :
  forall same, identity_test same -> forall l r, list_wf l -> list_wf r -> bwf (lrow l) -> bwf (lcol l) -> bwf (lrow r) -> bwf (lcol r) ->
  explicit_orthonormal (lrow r) -> explicit_orthonormal (lcol r) -> compatible (lrow r) (lrow l) -> compatible (lcol r) (lcol l) ->
  ashape (ldata l) = [(bsize (lbasis r) * (bsize (lrow l) * bsize (lcol l)))%nat] ->
  exists p, subtract_list_list same l r = Some p /\ list_wf p /\ lbasis p = lbasis l /\ lrow p = lrow l /\ lcol p = lcol l /\
    forall m i j, (m < bsize (lbasis l))%nat -> (i < bsize (lrow l))%nat -> (j < bsize (lcol l))%nat ->
      list_entry p m i j = list_entry l m i j -
        csum (fun s => csum (fun t => overlap (lrow l) (lrow r) i s * list_entry r m s t * overlap (lcol r) (lcol l) t j) (bsize (lcol r))) (bsize (lrow r)).
Proof. exact (fun same Hs => list_list_combination same Hs Cminus). Qed.
Print Assumptions C138_difference_of_lists.
Example C138_lists_case : let l := full_list (BFund 3) (BFund 4) 3 4 in let r := full_list (BTrans 2 3) (BFundT 4) 2 4 in
  list_wf l /\ list_wf r /\ compatible (lrow r) (lrow l) /\ compatible (lcol r) (lcol l) /\
  ashape (ldata l) = [(bsize (lbasis r) * (bsize (lrow l) * bsize (lcol l)))%nat].
Proof. exact ex_lists. Qed.
