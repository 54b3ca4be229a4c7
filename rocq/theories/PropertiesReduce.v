(** Sums and averages over axes: probabilities (C45), eigenvalues (C53), and
    as_flat_operator (C54). *)
From Coq Require Import Reals Psatz.
From Verif Require Import ZLib Csum DFT NumPy Spec Basis SpecBasis Operator SpecOperator Reduce SpecReduce ReduceProofs ReduceProofs2.
Local Open Scope R_scope.
Local Open Scope C_scope.

(** A basis with axes of size 2, 3 and 2, and data for it. *)
Definition ex_axes : list basis := [BFund 2; BTrans 3 5; BFundT 2].
Definition ex_data : ndarray := {| ashape := [12%nat]; aflat := fun t => RtoC (INR t) |}.
Example ex_axes_ok : nprod (ashape ex_data) = nprod (map bsize ex_axes) /\
  good_axes (length ex_axes) [2; 0]%nat /\ remaining (BFund 1) [2; 0]%nat ex_axes = [BTrans 3 5] /\
  removed 0%nat [2; 0]%nat (map bsize ex_axes) = [2; 2]%nat /\
  Forall (fun n => 0 < n)%nat (map bsize ex_axes).
Proof.
  repeat split; try (repeat constructor; simpl; intuition lia).
Qed.
(** Summing axes 2 and 0 at position 1 of the middle axis: elements 2, 3, 8 and 9. *)
Example ex_sum_matching : sum_matching [2; 0]%nat (map bsize ex_axes) (aflat ex_data) [1%nat] = RtoC (2 + 3 + 8 + 9)%R.
Proof. unfold sum_matching. cbn -[INR]. simpl INR. rewrite <- !RtoC_plus. f_equal. ring. Qed.

(** ** C45 *)

Theorem C45_from_state_vector :
  forall data,
  (forall t, exists p : R, aflat (probability_from_state data) t = RtoC p /\ (0 <= p)%R) /\
  (forall n, csum (aflat (probability_from_state data)) n =
             csum (fun t => Cconj (aflat data t) * aflat data t) n).
Proof. exact from_state_spec. Qed.
Print Assumptions C45_from_state_vector.

Theorem C45_sum_probability :
  forall l data ax, nprod (ashape data) = nprod (map bsize l) -> good_axes (length l) ax ->
  exists d, sum_probability (BasisObject l) data (Some (map Z.of_nat ax)) = Some (PlainTuple (remaining (BFund 1) ax l), d) /\
    let s' := map bsize (remaining (BFund 1) ax l) in
    ashape d = [nprod s'] /\
    (forall out, in_shape out s' -> aflat d (ravel s' out) = sum_matching ax (map bsize l) (aflat data) out) /\
    csum (aflat d) (nprod s') = csum (aflat data) (nprod (map bsize l)).
Proof. exact sum_probability_spec. Qed.
Print Assumptions C45_sum_probability.

Theorem C45_sum_stays_a_probability :
  forall ax s (a : nat -> C) out,
  (forall t, (t < nprod s)%nat -> exists x : R, a t = RtoC x /\ (0 <= x)%R) ->
  exists x : R, sum_matching ax s a out = RtoC x /\ (0 <= x)%R.
Proof. exact sum_matching_real. Qed.
Print Assumptions C45_sum_stays_a_probability.

Theorem C45_sum_probability_all_axes :
  forall l data, nprod (ashape data) = nprod (map bsize l) ->
  exists d, sum_probability (BasisObject l) data None = Some (PlainTuple [], d) /\ ashape d = [1%nat] /\
    aflat d 0%nat = csum (aflat data) (nprod (map bsize l)).
Proof. exact sum_probability_all. Qed.
Print Assumptions C45_sum_probability_all_axes.

(** The result carries a plain tuple as basis, so it cannot be summed again (finding). *)
Theorem C45_sum_probability_twice_raises :
  forall b data ax b' d, sum_probability b data ax = Some (b', d) ->
  forall ax', sum_probability b' d ax' = None.
Proof. exact sum_probability_twice. Qed.
Print Assumptions C45_sum_probability_twice_raises.

Theorem C45_sum_probabilities :
  forall lb l data ax, Forall (fun n => 0 < n)%nat (map bsize l) ->
  nprod (ashape data) = (bsize lb * nprod (map bsize l))%nat -> good_axes (length l) ax ->
  exists d, sum_probabilities lb l data (Some (map Z.of_nat ax)) = Some (remaining (BFund 1) ax l, d) /\
    let s' := map bsize (remaining (BFund 1) ax l) in
    ashape d = [(bsize lb * nprod s')%nat] /\
    (forall m out, (m < bsize lb)%nat -> in_shape out s' ->
       aflat d (m * nprod s' + ravel s' out)%nat =
       sum_matching ax (map bsize l) (fun t => aflat data (m * nprod (map bsize l) + t)%nat) out) /\
    (forall m, (m < bsize lb)%nat ->
       csum (fun t => aflat d (m * nprod s' + t)%nat) (nprod s') =
       csum (fun t => aflat data (m * nprod (map bsize l) + t)%nat) (nprod (map bsize l))).
Proof. exact sum_probabilities_spec. Qed.
Print Assumptions C45_sum_probabilities.

(** The default is not "all axes": it is the first two axes (finding). *)
Theorem C45_sum_probabilities_default_axes :
  forall lb l data, Forall (fun n => 0 < n)%nat (map bsize l) ->
  nprod (ashape data) = (bsize lb * nprod (map bsize l))%nat ->
  sum_probabilities lb l data None =
    if (length l <? 2)%nat then None else sum_probabilities lb l data (Some (map Z.of_nat [0; 1]%nat)).
Proof. exact sum_probabilities_default. Qed.
Print Assumptions C45_sum_probabilities_default_axes.

Theorem C45_average_over_list :
  forall lb b data, nprod (ashape data) = (bsize lb * bsize b)%nat ->
  exists d, average_probabilities_all lb b data = Some (b, d) /\ ashape d = [bsize b] /\
    forall i, (i < bsize b)%nat ->
      aflat d i = csum (fun m => aflat data (m * bsize b + i)%nat) (bsize lb) / RtoC (INR (bsize lb)).
Proof. exact average_all_spec. Qed.
Print Assumptions C45_average_over_list.

Theorem C45_average_stays_normalised :
  forall lb b data d, nprod (ashape data) = (bsize lb * bsize b)%nat -> (0 < bsize lb)%nat ->
  average_probabilities_all lb b data = Some (b, d) ->
  (forall m, (m < bsize lb)%nat -> csum (fun i => aflat data (m * bsize b + i)%nat) (bsize b) = 1) ->
  csum (aflat d) (bsize b) = 1.
Proof. exact average_all_total. Qed.
Print Assumptions C45_average_stays_normalised.

Theorem C45_average_over_axes :
  forall lb b data ax, Forall (fun n => 0 < n)%nat (map bsize lb) ->
  nprod (ashape data) = (nprod (map bsize lb) * bsize b)%nat -> good_axes (length lb) ax ->
  exists d, average_probabilities lb b data (map Z.of_nat ax) = Some (remaining (BFund 1) ax lb, d) /\
    let s' := map bsize (remaining (BFund 1) ax lb) in
    ashape d = [(nprod s' * bsize b)%nat] /\
    forall out i, in_shape out s' -> (i < bsize b)%nat ->
      aflat d (ravel s' out * bsize b + i)%nat =
      sum_matching ax (map bsize lb) (fun t => aflat data (t * bsize b + i)%nat) out
      / RtoC (INR (nprod (removed 0%nat ax (map bsize lb)))).
Proof. exact average_axes_spec. Qed.
Print Assumptions C45_average_over_axes.

Theorem C45_get_probability :
  forall lb b data idx k, nprod (ashape data) = (bsize lb * bsize b)%nat -> (k < bsize lb)%nat ->
  (idx = Z.of_nat k \/ idx = Z.of_nat k - Z.of_nat (bsize lb))%Z ->
  exists d, get_probability lb b data idx = Some (b, d) /\ ashape d = [bsize b] /\
    forall i, aflat d i = aflat data (k * bsize b + i)%nat.
Proof. exact get_probability_index. Qed.
Print Assumptions C45_get_probability.

(** ** C53 *)

Theorem C53_sum_over_axes :
  forall o ax, nprod (ashape (ddata o)) = nprod (map bsize (dbasis o)) -> good_axes (length (dbasis o)) ax ->
  exists r, sum_diagonal_operator_over_axes o (map Z.of_nat ax) = Some r /\
    dbasis r = remaining (BFund 1) ax (dbasis o) /\ ashape (ddata r) = [nprod (map bsize (dbasis r))] /\
    forall out, in_shape out (map bsize (dbasis r)) ->
      aflat (ddata r) (ravel (map bsize (dbasis r)) out) =
      sum_matching ax (map bsize (dbasis o)) (aflat (ddata o)) out.
Proof. exact sum_diagonal_spec. Qed.
Print Assumptions C53_sum_over_axes.

Theorem C53_average_over_axes :
  forall o ax, nprod (ashape (ddata o)) = nprod (map bsize (dbasis o)) -> good_axes (length (dbasis o)) ax ->
  exists r, average_eigenvalues o (Some (map Z.of_nat ax)) = Some r /\
    dbasis r = remaining (BFund 1) ax (dbasis o) /\ ashape (ddata r) = [nprod (map bsize (dbasis r))] /\
    forall out, in_shape out (map bsize (dbasis r)) ->
      aflat (ddata r) (ravel (map bsize (dbasis r)) out) =
      sum_matching ax (map bsize (dbasis o)) (aflat (ddata o)) out
      / RtoC (INR (nprod (removed 0%nat ax (map bsize (dbasis o))))).
Proof. exact average_eigenvalues_spec. Qed.
Print Assumptions C53_average_over_axes.

(** The denominator is the number of elements summed into each result. *)
Theorem C53_average_denominator :
  forall ax s, (nprod (remaining 0%nat ax s) * nprod (removed 0%nat ax s))%nat = nprod s.
Proof. exact remaining_removed_count. Qed.
Print Assumptions C53_average_denominator.

Theorem C53_average_list_over_axes :
  forall lb o ax, nprod (ashape (ddata o)) = (bsize lb * nprod (map bsize (dbasis o)))%nat ->
  good_axes (length (dbasis o)) ax ->
  exists r, average_eigenvalues_list lb o (Some (map Z.of_nat ax)) = Some r /\
    dbasis r = remaining (BFund 1) ax (dbasis o) /\ ashape (ddata r) = [(bsize lb * nprod (map bsize (dbasis r)))%nat] /\
    forall m out, (m < bsize lb)%nat -> in_shape out (map bsize (dbasis r)) ->
      aflat (ddata r) (m * nprod (map bsize (dbasis r)) + ravel (map bsize (dbasis r)) out)%nat =
      sum_matching ax (map bsize (dbasis o)) (fun t => aflat (ddata o) (m * nprod (map bsize (dbasis o)) + t)%nat) out
      / RtoC (INR (nprod (removed 0%nat ax (map bsize (dbasis o))))).
Proof. exact average_list_spec. Qed.
Print Assumptions C53_average_list_over_axes.

(** With no axis given, the first two axes are averaged, whatever the number of axes; one
    axis raises (finding). *)
Theorem C53_average_default_axes :
  forall o, nprod (ashape (ddata o)) = nprod (map bsize (dbasis o)) ->
  average_eigenvalues o None =
    (if (length (dbasis o) <? 2)%nat then None else average_eigenvalues o (Some (map Z.of_nat [0; 1]%nat))) /\
  (forall r, average_eigenvalues o None = Some r -> dbasis r = skipn 2 (dbasis o)).
Proof. exact average_default_spec. Qed.
Print Assumptions C53_average_default_axes.

(** A negative axis is summed over, but the basis of the result still has it (finding). *)
Theorem C53_negative_axis_keeps_basis :
  forall o, nprod (ashape (ddata o)) = nprod (map bsize (dbasis o)) -> (0 < length (dbasis o))%nat ->
  exists r, sum_diagonal_operator_over_axes o [(-1)%Z] = Some r /\ dbasis r = dbasis o /\
    ashape (ddata r) = [nprod (removelast (map bsize (dbasis o)))].
Proof. exact sum_negative_axis. Qed.
Print Assumptions C53_negative_axis_keeps_basis.

(** ** C54 *)

Theorem C54_as_flat_operator_size :
  forall L, diag_list_wf L -> (0 < bsize (lbasis L))%nat -> (0 < bsize (lrow L))%nat ->
  let f := as_flat_operator L in
  bsize (orow f) = (bsize (lbasis L) * bsize (lrow L) * bsize (lrow L))%nat /\
  nprod (ashape (odata f)) = (bsize (lbasis L) * bsize (lrow L))%nat /\
  (nprod (ashape (odata f)) = bsize (orow f) <-> bsize (lrow L) = 1%nat).
Proof. exact as_flat_operator_size. Qed.
Print Assumptions C54_as_flat_operator_size.
Example C54_case :
  let L := {| lbasis := BFund 3; lrow := BFund 2; lcol := BFund 2; ldata := {| ashape := [6%nat]; aflat := fun t => RtoC (INR t) |} |} in
  diag_list_wf L /\ bsize (orow (as_flat_operator L)) = 12%nat.
Proof. cbv zeta. repeat split. Qed.
