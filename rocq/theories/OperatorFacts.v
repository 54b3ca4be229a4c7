(** Worked examples and small corollaries used by PropertiesOperator. *)
From Coq Require Import Reals Psatz.
From Verif Require Import ZLib Csum DFT NumPy Spec IndexProofs Basis SpecBasis BasisProofs BasisProofs2 BasisProofs3 Operator SpecOperator OperatorProofs OperatorProofs2 OperatorProofs3.
Local Open Scope R_scope.
Local Open Scope C_scope.

Definition mat4 (a b c d : C) : ndarray := {| ashape := [4%nat]; aflat := fun t => nth t [a; b; c; d] 0 |}.
Definition ex_x : operator := {| orow := BFund 2; ocol := BFund 2; odata := mat4 0 1 1 0 |}.
Definition ex_z : operator := {| orow := BFund 2; ocol := BFund 2; odata := mat4 1 0 0 (- (1)) |}.
Definition ex_ix : operator := {| orow := BFund 2; ocol := BFund 2; odata := mat4 0 Ci Ci 0 |}.
Definition ex_V : nat -> nat -> C := fun i j => if Nat.eqb i 1 && Nat.eqb j 1 then - (1) else 1.
Definition ex_W : nat -> nat -> C := fun i j => ex_V i j / 2.
Definition ex_E : nat -> nat -> C := fun j i => ex_V i j.
Definition ex_Einv : nat -> nat -> C := fun k j => ex_W j k.
Definition ex_list : operator_list := {| lbasis := BFund 2; lrow := BFund 2; lcol := BFund 2;
  ldata := {| ashape := [8%nat]; aflat := fun t => nth t [RtoC 0; RtoC 1; RtoC 1; RtoC 0; RtoC 1; RtoC 0; RtoC 0; - RtoC 1] 0 |} |}.
Definition ex_diag : operator_list := {| lbasis := BFund 2; lrow := BFund 2; lcol := BFund 2;
  ldata := {| ashape := [4%nat]; aflat := fun t => nth t [RtoC 1; RtoC 2; RtoC 3; RtoC 4] 0 |} |}.

Ltac two i Hi := destruct i as [|[|i]]; [| |lia].

Lemma ex_hermitian_fact : hermitian 2 (op_entry ex_x) /\ hermitian 2 (op_entry ex_z) /\ anti_hermitian 2 (op_entry ex_ix).
Proof.
  repeat split; intros i j Hi Hj; two i Hi; two j Hj; unfold adjoint, op_entry; cbn;
    unfold Cconj, Copp, RtoC, Ci; simpl; f_equal; ring.
Qed.

Lemma ex_commutator_fact : exists p, get_commutator ex_x ex_z = Some p /\ op_entry p 0 1 = - (2) /\ op_entry p 1 0 = 2.
Proof.
  destruct (commutator_spec 2 ex_x ex_z) as [p [Hp [_ [_ [_ H]]]]]; [repeat split|repeat split|].
  exists p. split; [assumption|]. rewrite !H by lia. unfold matmul, op_entry. cbn.
  split; unfold Cminus, Cmult, Cplus, Copp, RtoC; simpl; f_equal; ring.
Qed.

Lemma inv_fact : inverse_matrices 2 ex_V ex_W.
Proof.
  assert (H2 : RtoC 1 + 1 <> 0) by (rewrite <- RtoC_plus; intros H; apply RtoC_inj in H; lra).
  assert (E2 : RtoC 2 = RtoC 1 + 1) by (rewrite <- RtoC_plus; f_equal; lra).
  split; intros i j Hi Hj; two i Hi; two j Hj; unfold matmul, ex_W, ex_V, cdelta; cbn; rewrite E2; field; exact H2.
Qed.

Lemma ex_diagonalises_fact :
  diagonalises 2 (op_entry ex_x) (fun k => if Nat.eqb k 0 then 1 else - (1)) ex_V ex_W /\
  diagonalises 2 (op_entry ex_ix) (fun k => if Nat.eqb k 0 then Ci else - Ci) ex_V ex_W.
Proof.
  split; (split; [apply inv_fact|]); intros k i Hk Hi; two k Hk; two i Hi; unfold op_entry, ex_V; cbn; ring.
Qed.

Lemma ex_lists_fact : diag_list_wf ex_diag /\ (0 < bsize (lrow ex_diag))%nat /\ list_wf ex_list /\
  bsize (lbasis ex_list) = 2%nat /\ list_entry ex_list 1 1 1 = - (1) /\ diag_entry ex_diag 1 1 = 4.
Proof. unfold diag_list_wf, list_wf. cbn. repeat split; lia. Qed.

Lemma ex_eigenstates_fact : inverse_matrices 2 ex_E ex_Einv /\ bsize (BFundT 2) = 2%nat /\
  (forall j i, (j < 2)%nat -> (i < 2)%nat ->
     csum (fun k => op_entry ex_x i k * ex_E j k) 2 = (if Nat.eqb j 0 then 1 else - (1)) * ex_E j i).
Proof.
  split; [apply (inverse_transpose 2 ex_V ex_W); apply inv_fact|]. split; [reflexivity|].
  intros j i Hj Hi. exact (proj2 (proj1 ex_diagonalises_fact) j i Hj Hi).
Qed.

Lemma select_operator_index L idx k : list_wf L -> (k < bsize (lbasis L))%nat ->
  (idx = Z.of_nat k \/ idx = Z.of_nat k - Z.of_nat (bsize (lbasis L)))%Z ->
  exists o, select_operator L idx = Some o /\ op_wf o /\ orow o = lrow L /\ ocol o = lcol L /\
    forall i j, op_entry o i j = list_entry L k i j.
Proof. intros W Hk Hi. apply select_operator_spec; [assumption|]. apply python_index_spec. auto. Qed.

Lemma exp_operator_inverse_opp n o m V Einv lam V' Einv' lam' : square n o -> square n m ->
  diagonalises n (op_entry o) lam V (fun j k => Einv k j) ->
  diagonalises n (op_entry m) lam' V' (fun j k => Einv' k j) ->
  mat_eq n (op_entry m) (fun i j => - op_entry o i j) ->
  mat_eq n (matmul n (op_entry (exp_operator o V Einv lam)) (op_entry (exp_operator m V' Einv' lam'))) cdelta.
Proof.
  intros [W1 [R1 C1]] [W2 [R2 C2]] H H' E.
  assert (E1 : mat_eq n (op_entry (exp_operator o V Einv lam)) (fmat n cexp lam V (fun j k => Einv k j))).
  { intros i j Hi Hj. rewrite exp_operator_entry by lia. rewrite R1. reflexivity. }
  assert (E2 : mat_eq n (op_entry (exp_operator m V' Einv' lam')) (fmat n cexp lam' V' (fun j k => Einv' k j))).
  { intros i j Hi Hj. rewrite exp_operator_entry by lia. rewrite R2. reflexivity. }
  assert (E3 : mat_eq n (fmat n cexp (fun k => - lam k) V (fun j k => Einv k j))
                        (fmat n (fun z => cexp (- z)) lam V (fun j k => Einv k j))) by (intros i j _ _; reflexivity).
  assert (E' : mat_eq n (fun i j => - op_entry o i j) (op_entry m)) by (symmetry; exact E).
  rewrite E1, E2.
  rewrite (fmat_unique n _ cexp _ _ _ _ _ _ H' (diagonalises_ext n _ _ _ _ _ E' (diagonalises_opp n _ _ _ _ H))).
  rewrite E3, fmat_product by apply H.
  rewrite (fmat_ext n _ (fun _ => 1)) by (intros; apply cexp_opp). apply fmat_one. apply H.
Qed.

Lemma product_plus_flat_raises n l r p o : (1 < n)%nat -> square n l -> square n r -> matmul_operator l r = Some p ->
  ashape (odata o) = [(n * n)%nat] -> add_operator p o = None /\ add_operator o p = None.
Proof.
  intros Hn [Wl [Rl Cl]] [Wr [Rr Cr]] Hp Ho.
  destruct (matmul_operator_spec l r Wl Wr) as [p' [Hp' [_ [_ [S _]]]]]; [lia|].
  rewrite Hp in Hp'. injection Hp' as <-. rewrite Rl, Cr in S.
  destruct (add_flat_square o p n Hn Ho S). auto.
Qed.

Lemma expectation_diagonal_spec same o d b state f : identity_test same -> bwf b -> bwf (orow o) ->
  convert same b (orow o) = Some f -> ashape (odata o) = [bsize (orow o)] -> ocol o = orow o ->
  explicit_orthonormal (orow o) -> as_operator o = Some d ->
  calculate_expectation_diagonal same o b state = calculate_expectation same d (orow o) (f state).
Proof.
  intros Hs Hb Ho Hf Hsh Hc Oo Hd.
  destruct (as_operator_round_trip o (bsize (orow o)) Hsh eq_refl) as [d' [x [Hd' [_ [Hent _]]]]]; [rewrite Hc; reflexivity|].
  rewrite Hd in Hd'. injection Hd' as <-.
  unfold as_operator, np_diag in Hd. rewrite Hsh in Hd. injection Hd as Ed.
  assert (Rd : orow d = orow o) by (rewrite <- Ed; reflexivity).
  assert (Cd : ocol d = orow o) by (rewrite <- Ed, <- Hc; reflexivity).
  assert (Wd : op_wf d). { unfold op_wf. rewrite Rd, Cd. rewrite <- Ed. simpl. lia. }
  rewrite expectation_spec by assumption. unfold calculate_expectation_diagonal. rewrite Hf. f_equal.
  unfold matrix_element, inner_product. apply csum_ext; intros i Hi.
  rewrite (csum_ext _ (fun j => cdelta i j * (aflat (odata o) i * f state j))).
  - rewrite (csum_delta_l (fun j => aflat (odata o) i * f state j)) by assumption. ring.
  - intros j Hj. rewrite Hent by assumption. unfold cdelta. destruct (Nat.eqb i j); ring.
Qed.
