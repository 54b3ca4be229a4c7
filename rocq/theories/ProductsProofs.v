(** Products of operators with lists of operators given in any bases. *)
From Coq Require Import Reals Psatz.
From Verif Require Import ZLib Csum DFT NumPy IndexProofs Basis SpecBasis BasisProofs BasisProofs2 BasisProofs3 Operator SpecOperator OperatorProofs OperatorProofs2.
Local Open Scope R_scope.
Local Open Scope C_scope.

(** [operator_list_from_iter] raises for no operators and for data of different shapes. *)
Lemma from_iter_raises (l : list operator) : operator_list_from_iter l = None <->
  l = [] \/ exists o x, hd_error l = Some o /\ In x l /\ ashape (odata x) <> ashape (odata o).
Proof.
  destruct l as [|o l]; [split; [left; reflexivity|reflexivity]|]. unfold operator_list_from_iter.
  destruct (forallb (fun x => list_nat_eqb (ashape (odata x)) (ashape (odata o))) (o :: l)) eqn:E.
  - split; [discriminate|]. intros [K|[o' [x [Ho [Hx K]]]]]; [discriminate|]. exfalso. injection Ho as <-.
    rewrite forallb_forall in E. specialize (E x Hx). unfold list_nat_eqb in E. destruct (list_eq_dec _ _ _); [contradiction|discriminate].
  - split; [|reflexivity]. intros _. right. exists o.
    assert (K : ~ Forall (fun x => ashape (odata x) = ashape (odata o)) (o :: l)).
    { intros K. rewrite Forall_forall in K. enough (true = false) by discriminate. rewrite <- E. symmetry. apply forallb_forall. intros x Hx. rewrite (K x Hx).
      apply list_nat_eqb_refl. }
    rewrite <- Exists_Forall_neg in K by (intros x; destruct (list_eq_dec Nat.eq_dec (ashape (odata x)) (ashape (odata o))); [left|right]; assumption).
    apply Exists_exists in K. destruct K as [x [Hx K]]. exists x. split; [reflexivity|]. split; assumption.
Qed.

Section Products.
  Context (same : basis -> basis -> bool).
  Hypothesis Hs : identity_test same.

  Lemma half_left a b c F : bwf a -> bwf b -> bwf c -> explicit_orthonormal a -> explicit_orthonormal c ->
    convert_matrix same a b c c = Some F -> forall m i j, (i < bsize b)%nat -> (j < bsize c)%nat ->
    F m i j = csum (fun p => overlap b a i p * m p j) (bsize a).
  Proof using Hs.
    intros Ha Hb Hc Oa Oc HF m i j Hi Hj. rewrite (convert_matrix_sum same Hs a b c c F Ha Hb Hc Hc Oa Oc HF m i j Hi Hj).
    apply csum_ext. intros p Hp. assert (On := explicit_orthonormal_sound c Hc Oc).
    rewrite (csum_ext _ (fun q => cdelta j q * (overlap b a i p * m p q))).
    - apply (csum_delta_l (fun q => overlap b a i p * m p q)); exact Hj.
    - intros q Hq. rewrite (On q j Hq Hj : overlap c c q j = _), (cdelta_sym j q). ring.
  Qed.
  Lemma half_right a c d F : bwf a -> bwf c -> bwf d -> explicit_orthonormal a -> explicit_orthonormal c ->
    convert_matrix same a a c d = Some F -> forall m i j, (i < bsize a)%nat -> (j < bsize d)%nat ->
    F m i j = csum (fun q => m i q * overlap c d q j) (bsize c).
  Proof using Hs.
    intros Ha Hc Hd Oa Oc HF m i j Hi Hj. rewrite (convert_matrix_sum same Hs a a c d F Ha Ha Hc Hd Oa Oc HF m i j Hi Hj).
    assert (On := explicit_orthonormal_sound a Ha Oa).
    rewrite (csum_ext _ (fun p => cdelta i p * csum (fun q => m p q * overlap c d q j) (bsize c))).
    - apply (csum_delta_l (fun p => csum (fun q => m p q * overlap c d q j) (bsize c))); exact Hi.
    - intros p Hp. rewrite <- csum_scal_l. apply csum_ext. intros q Hq. rewrite (On i p Hi Hp : overlap a a i p = _). ring.
  Qed.

  Lemma operator_list_product l r : op_wf l -> list_wf r -> bwf (ocol l) -> bwf (lrow r) -> bwf (lcol r) ->
    explicit_orthonormal (lrow r) -> explicit_orthonormal (lcol r) -> compatible (lrow r) (ocol l) ->
    exists p, matmul_operator_list same l r = Some p /\ list_wf p /\ lbasis p = lbasis r /\ lrow p = orow l /\ lcol p = lcol r /\
      forall m i j, (m < bsize (lbasis r))%nat -> (i < bsize (orow l))%nat -> (j < bsize (lcol r))%nat ->
        list_entry p m i j = csum (fun k => op_entry l i k * csum (fun q => overlap (ocol l) (lrow r) k q * list_entry r m q j) (bsize (lrow r))) (bsize (ocol l)).
  Proof using Hs.
    intros Wl Wr B1 B2 B3 O2 O3 Cm. unfold matmul_operator_list.
    destruct (convert_list_spec same r (ocol l) (lcol r) Wr Cm (compatible_refl _)) as [F [c [HF [Hc [Wc [C1 [C2 [C3 [Cs C4]]]]]]]]].
    rewrite Hc, (op_reshape l Wl).
    assert (P1 := bsize_pos _ B1). assert (P3 := bsize_pos _ B3).
    rewrite (reshape_auto_some _ [bsize (lrow c); bsize (lcol c)] (bsize (lbasis c)))
      by (unfold list_wf in Wc; rewrite ?Wc, ?C2, ?C3; cbn [nprod]; nia).
    eexists. split; [reflexivity|]. rewrite C1, C3 in *. cbn [lbasis lrow lcol ldata ashape nth]. split.
    { unfold list_wf. cbn [lbasis lrow lcol ldata ashape ravel_array array3 nprod]. rewrite ?C1. lia. }
    split; [reflexivity|]. split; [reflexivity|]. split; [reflexivity|].
    intros m i j Hm Hi Hj. unfold list_entry at 1. cbn [lrow lcol ldata ravel_array].
    etransitivity; [apply (array3_flat (bsize (lbasis r)) (bsize (orow l)) (bsize (lcol r))); assumption|].
    apply csum_ext. intros k Hk. f_equal.
    rewrite <- (half_left _ _ _ F B2 B1 B3 O2 O3 HF (list_entry r m) k j Hk Hj), <- C4 by assumption.
    unfold at3, list_entry. rewrite C2, C3. reflexivity.
  Qed.

  Lemma list_operator_product l r : list_wf l -> op_wf r -> bwf (lrow l) -> bwf (lcol l) -> bwf (orow r) -> bwf (ocol r) ->
    explicit_orthonormal (orow r) -> explicit_orthonormal (ocol r) -> compatible (orow r) (lcol l) ->
    (bsize (lcol l) = bsize (orow r) ->
      exists p, matmul_list_operator same l r = Some p /\ list_wf p /\ lbasis p = lbasis l /\ lrow p = lrow l /\ lcol p = ocol r /\
      forall m i j, (m < bsize (lbasis l))%nat -> (i < bsize (lrow l))%nat -> (j < bsize (ocol r))%nat ->
        list_entry p m i j = csum (fun k => list_entry l m i k * csum (fun q => overlap (lcol l) (orow r) k q * op_entry r q j) (bsize (orow r))) (bsize (lcol l))) /\
    (bsize (lcol l) <> bsize (orow r) -> matmul_list_operator same l r = None).
  Proof using Hs.
    intros Wl Wr B0 B1 B2 B3 O2 O3 Cm. unfold matmul_list_operator.
    destruct (convert_operator_spec same r (lcol l) (ocol r) Wr Cm (compatible_refl _)) as [F [c [HF [Hc [Wc [C2 [C3 C4]]]]]]].
    rewrite Hc. assert (P0 := bsize_pos _ B0). assert (P1 := bsize_pos _ B1). assert (P3 := bsize_pos _ B3).
    rewrite (reshape_auto_some _ [bsize (lrow l); bsize (lcol l)] (bsize (lbasis l)))
      by (unfold list_wf in Wl; rewrite ?Wl; cbn [nprod]; nia).
    unfold op_wf in Wc. rewrite C2, C3 in Wc. split.
    - intros E. rewrite reshape_some by (rewrite Wc, E; cbn [nprod]; lia). rewrite E, Nat.eqb_refl.
      eexists. split; [reflexivity|]. cbn [lbasis lrow lcol ldata ashape nth]. split.
      { unfold list_wf. cbn [lbasis lrow lcol ldata ashape ravel_array array3 nprod]. lia. }
      split; [reflexivity|]. split; [reflexivity|]. split; [reflexivity|].
      intros m i j Hm Hi Hj. unfold list_entry at 1. cbn [lrow lcol ldata ravel_array].
      etransitivity; [apply (array3_flat (bsize (lbasis l)) (bsize (lrow l)) (bsize (ocol r))); assumption|].
      apply csum_ext. intros k Hk. rewrite <- E in Hk. f_equal; [unfold at3, list_entry; cbn [ashape nth aflat]; rewrite ?E; reflexivity|].
      rewrite <- (half_left _ _ _ F B2 B1 B3 O2 O3 HF (op_entry r) k j Hk Hj), <- C4 by assumption.
      unfold at2, op_entry. cbn [ashape nth aflat]. rewrite C3. reflexivity.
    - intros E. unfold reshape. rewrite Wc. cbn [nprod].
      destruct (Nat.eqb_spec (bsize (lcol l) * bsize (ocol r)) (bsize (orow r) * (bsize (ocol r) * 1))) as [K|_]; [exfalso; nia|reflexivity].
  Qed.

  Lemma operator_diagonal_product l r : op_wf l -> diag_list_wf r -> bwf (orow l) -> bwf (ocol l) -> bwf (lrow r) ->
    explicit_orthonormal (orow l) -> explicit_orthonormal (ocol l) -> compatible (ocol l) (lrow r) ->
    (bsize (ocol l) = bsize (lrow r) ->
      exists p, matmul_operator_diagonal_list same l r = Some p /\ list_wf p /\ lbasis p = lbasis r /\ lrow p = orow l /\ lcol p = lcol r /\
      forall m i j, (m < bsize (lbasis r))%nat -> (i < bsize (orow l))%nat -> (j < bsize (lrow r))%nat ->
        list_entry p m i j = csum (fun q => op_entry l i q * overlap (ocol l) (lrow r) q j) (bsize (ocol l)) * diag_entry r m j) /\
    (bsize (ocol l) <> bsize (lrow r) -> matmul_operator_diagonal_list same l r = None).
  Proof using Hs.
    intros Wl [Er Wr] B0 B1 B2 O0 O1 Cm. unfold matmul_operator_diagonal_list.
    destruct (convert_operator_spec same l (orow l) (lrow r) Wl (compatible_refl _) Cm) as [F [c [HF [Hc [Wc [C2 [C3 C4]]]]]]].
    rewrite Hc. assert (P0 := bsize_pos _ B0). assert (P1 := bsize_pos _ B1). assert (P2 := bsize_pos _ B2).
    rewrite (reshape_auto_some _ [bsize (lrow r)] (bsize (lbasis r))) by (rewrite ?Wr; cbn [nprod]; nia).
    unfold op_wf in Wc. rewrite C2, C3 in Wc. split.
    - intros E. rewrite reshape_some by (rewrite Wc, E; cbn [nprod]; lia). rewrite E, Nat.eqb_refl.
      eexists. split; [reflexivity|]. cbn [lbasis lrow lcol ldata ashape nth]. split.
      { unfold list_wf. cbn [lbasis lrow lcol ldata ashape ravel_array array3 nprod]. lia. }
      split; [reflexivity|]. split; [reflexivity|]. split; [reflexivity|].
      intros m i j Hm Hi Hj. unfold list_entry at 1. cbn [lrow lcol ldata ravel_array]. rewrite <- Er.
      etransitivity; [apply (array3_flat (bsize (lbasis r)) (bsize (orow l)) (bsize (lrow r))); assumption|].
      f_equal. rewrite <- E at 2.
      rewrite <- (half_right _ _ _ F B0 B1 B2 O0 O1 HF (op_entry l) i j Hi Hj), <- C4 by assumption.
      unfold at2, op_entry. cbn [ashape nth aflat]. rewrite C3. reflexivity.
    - intros E. unfold reshape. rewrite Wc. cbn [nprod].
      destruct (Nat.eqb_spec (bsize (orow l) * bsize (lrow r)) (bsize (orow l) * (bsize (ocol l) * 1))) as [K|_]; [exfalso; nia|reflexivity].
  Qed.

  Lemma diagonal_operator_product l r : diag_list_wf l -> op_wf r -> bwf (lcol l) -> bwf (orow r) -> bwf (ocol r) ->
    explicit_orthonormal (orow r) -> explicit_orthonormal (ocol r) -> compatible (orow r) (lcol l) ->
    exists p, matmul_diagonal_list_operator same l r = Some p /\ list_wf p /\ lbasis p = lbasis l /\ lrow p = lrow l /\ lcol p = ocol r /\
      forall m i j, (m < bsize (lbasis l))%nat -> (i < bsize (lrow l))%nat -> (j < bsize (ocol r))%nat ->
        list_entry p m i j = diag_entry l m i * csum (fun q => overlap (lcol l) (orow r) i q * op_entry r q j) (bsize (orow r)).
  Proof using Hs.
    intros [El Wl] Wr B1 B2 B3 O2 O3 Cm. unfold matmul_diagonal_list_operator.
    destruct (convert_operator_spec same r (lcol l) (ocol r) Wr Cm (compatible_refl _)) as [F [c [HF [Hc [Wc [C2 [C3 C4]]]]]]].
    rewrite Hc. assert (P1 := bsize_pos _ B1). assert (P3 := bsize_pos _ B3).
    rewrite (reshape_auto_some _ [bsize (lcol l)] (bsize (lbasis l))) by (rewrite ?Wl, ?El; cbn [nprod]; nia).
    rewrite (op_reshape c Wc). rewrite C3.
    eexists. split; [reflexivity|]. cbn [lbasis lrow lcol ldata ashape nth]. split.
    { unfold list_wf. cbn [lbasis lrow lcol ldata ashape ravel_array array3 nprod]. rewrite El. lia. }
    split; [reflexivity|]. split; [reflexivity|]. split; [reflexivity|].
    intros m i j Hm Hi Hj. unfold list_entry at 1. cbn [lrow lcol ldata ravel_array]. rewrite El in *.
    etransitivity; [apply (array3_flat (bsize (lbasis l)) (bsize (lcol l)) (bsize (ocol r))); assumption|].
    f_equal.
    - unfold at2, diag_entry. cbn [ashape nth aflat]. rewrite El. reflexivity.
    - rewrite <- (half_left _ _ _ F B2 B1 B3 O2 O3 HF (op_entry r) i j Hi Hj), <- C4 by assumption.
      unfold at2, op_entry. cbn [ashape nth aflat]. rewrite C3. reflexivity.
  Qed.

  (** Sums and differences of two lists. *)
  Lemma list_list_combination f l r : list_wf l -> list_wf r -> bwf (lrow l) -> bwf (lcol l) -> bwf (lrow r) -> bwf (lcol r) ->
    explicit_orthonormal (lrow r) -> explicit_orthonormal (lcol r) -> compatible (lrow r) (lrow l) -> compatible (lcol r) (lcol l) ->
    ashape (ldata l) = [(bsize (lbasis r) * (bsize (lrow l) * bsize (lcol l)))%nat] ->
    exists p, combine_list_list f same l r = Some p /\ list_wf p /\ lbasis p = lbasis l /\ lrow p = lrow l /\ lcol p = lcol l /\
      forall m i j, (m < bsize (lbasis l))%nat -> (i < bsize (lrow l))%nat -> (j < bsize (lcol l))%nat ->
        list_entry p m i j = f (list_entry l m i j)
          (csum (fun s => csum (fun t => overlap (lrow l) (lrow r) i s * list_entry r m s t * overlap (lcol r) (lcol l) t j) (bsize (lcol r))) (bsize (lrow r))).
  Proof using Hs.
    intros Wl Wr B0 B1 B2 B3 O2 O3 M1 M2 Es. unfold combine_list_list.
    destruct (convert_list_spec same r (lrow l) (lcol l) Wr M1 M2) as [F [c [HF [Hc [Wc [C1 [C2 [C3 [Cs C4]]]]]]]]]. rewrite Hc.
    destruct (broadcast_same f (ldata l) (ldata c)) as [d [Hd [Ds Df]]]; [rewrite Es, Cs; reflexivity|].
    rewrite Hd. eexists. split; [reflexivity|]. cbn [lbasis lrow lcol ldata]. split.
    { unfold list_wf. cbn [lbasis lrow lcol ldata]. rewrite Ds. exact Wl. }
    split; [reflexivity|]. split; [reflexivity|]. split; [reflexivity|].
    intros m i j Hm Hi Hj. unfold list_entry at 1. cbn [lrow lcol ldata].
    rewrite Df.
    - f_equal. rewrite <- (convert_matrix_sum same Hs _ _ _ _ F B2 B0 B3 B1 O2 O3 HF (list_entry r m) i j Hi Hj), <- C4 by assumption.
      unfold list_entry. rewrite C2, C3. reflexivity.
    - rewrite Wl. assert ((m * bsize (lrow l) + i + 1) <= bsize (lbasis l) * bsize (lrow l))%nat by nia. nia.
  Qed.
End Products.

(** The diagonal of any operator, and the operator of a diagonal, keep their bases. *)
Lemma as_diagonal_any o : op_wf o -> exists d, as_diagonal_operator o = Some d /\ orow d = orow o /\ ocol d = ocol o /\
  ashape (odata d) = [Nat.min (bsize (orow o)) (bsize (ocol o))] /\ forall i, aflat (odata d) i = op_entry o i i.
Proof.
  intros W. unfold as_diagonal_operator. rewrite (op_reshape o W). unfold np_diag. cbn [ashape].
  eexists. split; [reflexivity|]. cbn [orow ocol odata]. split; [reflexivity|]. split; [reflexivity|].
  split; [cbn; f_equal; lia|]. intros i. reflexivity.
Qed.
Lemma as_operator_any o n : ashape (odata o) = [n] -> exists f, as_operator o = Some f /\ orow f = orow o /\ ocol f = ocol o /\
  ashape (odata f) = [n; n].
Proof.
  intros E. unfold as_operator, np_diag. rewrite E. eexists. split; [reflexivity|]. split; [reflexivity|]. split; reflexivity.
Qed.

(** ** Selected operators *)

Lemma python_index_some n k idx : (k < n)%nat -> (idx = Z.of_nat k \/ idx = Z.of_nat k - Z.of_nat n)%Z -> python_index n idx = Some k.
Proof.
  intros Hk H. unfold python_index.
  destruct (Z.leb_spec 0 idx), (Z.ltb_spec idx (Z.of_nat n)), (Z.leb_spec (- Z.of_nat n) idx), (Z.ltb_spec idx 0); cbn [andb]; try lia; f_equal; lia.
Qed.
Lemma python_index_none n idx : python_index n idx = None <-> ~ (- Z.of_nat n <= idx < Z.of_nat n)%Z.
Proof.
  unfold python_index.
  destruct (Z.leb_spec 0 idx), (Z.ltb_spec idx (Z.of_nat n)), (Z.leb_spec (- Z.of_nat n) idx), (Z.ltb_spec idx 0); cbn [andb]; split; intros; try discriminate; try reflexivity; lia.
Qed.
Lemma select_diagonal_index L idx k : diag_list_wf L -> (k < bsize (lbasis L))%nat ->
  (idx = Z.of_nat k \/ idx = Z.of_nat k - Z.of_nat (bsize (lbasis L)))%Z ->
  exists o, select_diagonal_operator L idx = Some o /\ orow o = lrow L /\ ocol o = lcol L /\
    ashape (odata o) = [bsize (lrow L)] /\ forall i, aflat (odata o) i = diag_entry L k i.
Proof.
  intros [_ W] Hk Hi. unfold select_diagonal_operator. cbv zeta.
  destruct (Nat.eqb_spec (bsize (lbasis L)) 0) as [E|_]; [lia|].
  assert (M : (nprod (ashape (ldata L)) mod bsize (lbasis L) = 0)%nat) by (rewrite W, Nat.mul_comm, Nat.mod_mul; lia).
  assert (Q : (nprod (ashape (ldata L)) / bsize (lbasis L) = bsize (lrow L))%nat) by (rewrite W, Nat.mul_comm, Nat.div_mul; lia).
  rewrite M, Nat.eqb_refl, (python_index_some _ k idx Hk Hi), Q.
  eexists. split; [reflexivity|]. cbn [orow ocol odata]. split; [reflexivity|]. split; [reflexivity|]. split.
  - cbn. f_equal. lia.
  - intros i. unfold diag_entry. cbn [odata ravel_array aflat select_row ashape tl nprod]. f_equal. lia.
Qed.
Lemma select_diagonal_raises L idx : diag_list_wf L ->
  (select_diagonal_operator L idx = None <-> ~ (- Z.of_nat (bsize (lbasis L)) <= idx < Z.of_nat (bsize (lbasis L)))%Z).
Proof.
  intros [_ W]. rewrite <- python_index_none. unfold select_diagonal_operator. cbv zeta.
  destruct (Nat.eqb_spec (bsize (lbasis L)) 0) as [E|E].
  - split; [|reflexivity]. intros _. apply python_index_none. rewrite E. lia.
  - assert (M : (nprod (ashape (ldata L)) mod bsize (lbasis L) = 0)%nat) by (rewrite W, Nat.mul_comm, Nat.mod_mul; lia).
    rewrite M, Nat.eqb_refl. destruct (python_index _ _); split; intros; try discriminate; reflexivity.
Qed.
