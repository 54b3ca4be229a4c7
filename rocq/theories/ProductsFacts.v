(** Concrete operators and lists of operators in different bases. *)
From Coq Require Import Reals Psatz.
From Verif Require Import ZLib Csum NumPy Basis SpecBasis BasisProofs BasisProofs2 BasisProofs3 Operator SpecOperator OperatorProofs OperatorProofs2 ProductsProofs.
Local Open Scope R_scope.
Local Open Scope C_scope.

Definition wide : operator := {| orow := BFund 1; ocol := BFund 3; odata := {| ashape := [3%nat]; aflat := fun t => RtoC (INR t) |} |}.
Definition pair_list : operator_list := {| lbasis := BFund 2; lrow := BTrans 2 3; lcol := BFund 4;
  ldata := {| ashape := [16%nat]; aflat := fun t => RtoC (INR t) |} |}.
Definition waves_list : operator_list := {| lbasis := BFund 2; lrow := BFund 4; lcol := BTrans 2 3;
  ldata := {| ashape := [16%nat]; aflat := fun t => RtoC (INR t) |} |}.
Definition tall : operator := {| orow := BFund 3; ocol := BFund 1; odata := {| ashape := [3%nat]; aflat := fun t => RtoC (INR t) |} |}.

Lemma ex_wide : op_wf wide /\ list_wf pair_list /\ bwf (ocol wide) /\ bwf (lrow pair_list) /\ bwf (lcol pair_list) /\
  explicit_orthonormal (lrow pair_list) /\ explicit_orthonormal (lcol pair_list) /\ compatible (lrow pair_list) (ocol wide) /\
  bsize (ocol wide) <> bsize (lrow pair_list).
Proof.
  split; [reflexivity|]. split; [reflexivity|]. split; [cbn; lia|]. split; [cbn; lia|]. split; [cbn; lia|].
  split; [exact I|]. split; [exact I|]. split; [|cbn; lia].
  apply compatible_other; [intros ? ? [? ?]; discriminate|reflexivity].
Qed.
(** The same kind of product with the list on the left raises. *)
Lemma ex_tall same : identity_test same -> list_wf waves_list /\ op_wf tall /\ compatible (orow tall) (lcol waves_list) /\
  matmul_list_operator same waves_list tall = None.
Proof.
  intros Hs. assert (Cm : compatible (orow tall) (lcol waves_list)) by (apply compatible_other; [intros ? ? [? ?]; discriminate|reflexivity]).
  split; [reflexivity|]. split; [reflexivity|]. split; [exact Cm|].
  refine (proj2 (list_operator_product same Hs waves_list tall _ _ _ _ _ _ _ _ Cm) _); try reflexivity; try exact I; try (cbn; lia).
Qed.
Definition two_values : operator_list := {| lbasis := BFund 2; lrow := BFundT 3; lcol := BFundT 3;
  ldata := {| ashape := [6%nat]; aflat := fun t => RtoC (INR t) |} |}.
Lemma ex_values : diag_list_wf two_values /\ compatible (ocol wide) (lrow two_values) /\ bsize (ocol wide) = bsize (lrow two_values) /\
  compatible (orow tall) (lcol two_values).
Proof.
  split; [split; reflexivity|]. split; [apply compatible_other; [intros ? ? [? ?]; discriminate|reflexivity]|]. split; [reflexivity|].
  apply compatible_other; [intros ? ? [? ?]; discriminate|reflexivity].
Qed.
Definition full_list (b c : basis) (n m : nat) : operator_list := {| lbasis := BFund 2; lrow := b; lcol := c;
  ldata := {| ashape := [(2 * (n * m))%nat]; aflat := fun t => RtoC (INR t) |} |}.
Lemma ex_lists : let l := full_list (BFund 3) (BFund 4) 3 4 in let r := full_list (BTrans 2 3) (BFundT 4) 2 4 in
  list_wf l /\ list_wf r /\ compatible (lrow r) (lrow l) /\ compatible (lcol r) (lcol l) /\
  ashape (ldata l) = [(bsize (lbasis r) * (bsize (lrow l) * bsize (lcol l)))%nat].
Proof.
  cbv zeta. split; [reflexivity|]. split; [reflexivity|]. split; [apply compatible_other; [intros ? ? [? ?]; discriminate|reflexivity]|].
  split; [apply compatible_other; [intros ? ? [? ?]; discriminate|reflexivity]|reflexivity].
Qed.
Lemma ex_shapes : operator_list_from_iter [wide; {| orow := BFund 1; ocol := BFund 3; odata := {| ashape := [1%nat; 3%nat]; aflat := fun t => RtoC (INR t) |} |}] = None.
Proof. reflexivity. Qed.
Lemma ex_wide_sum : exists p, add_operator wide wide = Some p /\ orow p <> ocol p.
Proof. eexists. split; [reflexivity|]. cbn. discriminate. Qed.
