From Coq Require Import Reals Psatz.
From Verif Require Import ZLib Csum DFT NumPy IndexProofs Basis SpecBasis BasisProofs BasisProofs2 BasisProofs3 Operator SpecOperator OperatorProofs.
Local Open Scope R_scope.
Local Open Scope C_scope.

(** ** Lists of operators *)

Lemma list_reshape L : list_wf L ->
  reshape (ldata L) [bsize (lbasis L); bsize (lrow L); bsize (lcol L)]
  = Some {| ashape := [bsize (lbasis L); bsize (lrow L); bsize (lcol L)]; aflat := aflat (ldata L) |}.
Proof. intros H. apply reshape_some. rewrite H. simpl. lia. Qed.

Lemma diagonal_as_full_spec L : diag_list_wf L -> (0 < bsize (lrow L))%nat ->
  exists F, diagonal_operator_list_as_full L = Some F /\ list_wf F /\
    lbasis F = lbasis L /\ lrow F = lrow L /\ lcol F = lcol L /\
    (forall m i j, (m < bsize (lbasis L))%nat -> (i < bsize (lrow L))%nat -> (j < bsize (lrow L))%nat ->
       list_entry F m i j = if Nat.eqb i j then diag_entry L m i else 0).
Proof.
  intros [E H] Hp. unfold diagonal_operator_list_as_full.
  rewrite (reshape_auto_some _ [bsize (lrow L)] (bsize (lbasis L))) by (simpl; lia).
  eexists. split; [reflexivity|]. simpl. split; [unfold list_wf; simpl; rewrite <- E; lia|].
  repeat split. intros m i j Hm Hi Hj. unfold list_entry. cbn [lrow lcol ldata ravel_array aflat].
  rewrite <- E. change (array3 _ _ _ _) with (array3 (bsize (lbasis L)) (bsize (lrow L)) (bsize (lrow L))
    (fun i j k => at2 {| ashape := [bsize (lbasis L); bsize (lrow L)]; aflat := aflat (ldata L) |} i j * cdelta j k)).
  rewrite array3_flat by assumption. unfold at2, diag_entry, cdelta. simpl.
  destruct (Nat.eqb i j); ring.
Qed.

Lemma as_diagonal_spec L : list_wf L -> bsize (lrow L) = bsize (lcol L) -> (0 < bsize (lrow L))%nat ->
  exists D, operator_list_as_diagonal L = Some D /\ diag_list_wf D /\
    lbasis D = lbasis L /\ lrow D = lrow L /\ lcol D = lcol L /\
    (forall m i, (m < bsize (lbasis L))%nat -> (i < bsize (lrow L))%nat ->
       diag_entry D m i = list_entry L m i i).
Proof.
  intros H E Hp. unfold operator_list_as_diagonal. unfold list_wf in H. rewrite <- E in H.
  rewrite (reshape_auto_some _ [bsize (lrow L); bsize (lrow L)] (bsize (lbasis L))) by (simpl; nia).
  eexists. split; [reflexivity|]. simpl. split; [unfold diag_list_wf; simpl; lia|].
  repeat split. intros m i Hm Hi. unfold diag_entry. cbn [lrow lcol ldata ravel_array aflat].
  change (array2 _ _ _) with (array2 (bsize (lbasis L)) (bsize (lrow L))
    (fun i j => at3 {| ashape := [bsize (lbasis L); bsize (lrow L); bsize (lrow L)]; aflat := aflat (ldata L) |} i j j)).
  rewrite array2_flat by assumption. unfold at3, list_entry. simpl. rewrite <- E. reflexivity.
Qed.

Lemma diagonal_round_trip L F : diag_list_wf L -> (0 < bsize (lrow L))%nat ->
  diagonal_operator_list_as_full L = Some F ->
  exists D, operator_list_as_diagonal F = Some D /\
    lbasis D = lbasis L /\ lrow D = lrow L /\ lcol D = lcol L /\
    forall m i, (m < bsize (lbasis L))%nat -> (i < bsize (lrow L))%nat -> diag_entry D m i = diag_entry L m i.
Proof.
  intros H Hp HF. destruct (diagonal_as_full_spec L H Hp) as [F' [HF' [W [E1 [E2 [E3 E4]]]]]].
  rewrite HF in HF'. inversion HF'; subst F'.
  destruct (as_diagonal_spec F W) as [D [HD [WD [D1 [D2 [D3 D4]]]]]].
  { rewrite E2, E3. apply H. } { rewrite E2. assumption. }
  exists D. split; [assumption|]. rewrite D1, D2, D3, E1, E2, E3. repeat split.
  intros m i Hm Hi. rewrite D4 by (rewrite ?E1, ?E2; assumption).
  rewrite E4 by assumption. rewrite Nat.eqb_refl. reflexivity.
Qed.

Lemma bsize_pair a b : bsize (BTuple [a; b]) = (bsize a * bsize b)%nat.
Proof. simpl. lia. Qed.

Lemma python_index_spec n i k : python_index n i = Some k <->
  (k < n)%nat /\ (i = Z.of_nat k \/ i = Z.of_nat k - Z.of_nat n)%Z.
Proof.
  unfold python_index.
  destruct (Z.leb_spec 0 i), (Z.ltb_spec i (Z.of_nat n)); cbn [andb];
    destruct (Z.leb_spec (- Z.of_nat n) i), (Z.ltb_spec i 0); cbn [andb];
    try lia; split; intros E; try discriminate; try (inversion E; lia); try (f_equal; lia); lia.
Qed.

Lemma select_operator_spec L idx k : list_wf L -> python_index (bsize (lbasis L)) idx = Some k ->
  exists o, select_operator L idx = Some o /\ op_wf o /\ orow o = lrow L /\ ocol o = lcol L /\
    forall i j, op_entry o i j = list_entry L k i j.
Proof.
  intros W H. unfold select_operator. unfold list_wf in W.
  rewrite (reshape_some _ [bsize (lbasis L); bsize (BTuple [lrow L; lcol L])])
    by (rewrite W; cbn [nprod]; rewrite bsize_pair; lia).
  rewrite H. eexists. split; [reflexivity|]. simpl. split; [unfold op_wf; simpl; lia|].
  repeat split. intros i j. unfold op_entry, list_entry. simpl. f_equal. nia.
Qed.

Lemma select_operator_raises L idx : list_wf L ->
  (select_operator L idx = None <-> ~ (- Z.of_nat (bsize (lbasis L)) <= idx < Z.of_nat (bsize (lbasis L)))%Z).
Proof.
  intros W. destruct (python_index (bsize (lbasis L)) idx) as [k|] eqn:E.
  - destruct (select_operator_spec L idx k W E) as [o [Ho _]]. apply python_index_spec in E.
    rewrite Ho. split; [discriminate|]. lia.
  - split; intros H.
    + intros Hr. destruct (Z_lt_le_dec idx 0).
      * assert (F : python_index (bsize (lbasis L)) idx = Some (Z.to_nat (idx + Z.of_nat (bsize (lbasis L)))))
          by (apply python_index_spec; lia). congruence.
      * assert (F : python_index (bsize (lbasis L)) idx = Some (Z.to_nat idx))
          by (apply python_index_spec; lia). congruence.
    + unfold select_operator. rewrite E. destruct (reshape _ _); reflexivity.
Qed.

Lemma into_iter_spec L : list_wf L ->
  exists l, operator_list_into_iter L = Some l /\ length l = bsize (lbasis L) /\
    forall m d, (m < bsize (lbasis L))%nat ->
      let o := nth m l d in
      op_wf o /\ orow o = lrow L /\ ocol o = lcol L /\ forall i j, op_entry o i j = list_entry L m i j.
Proof.
  intros W. unfold operator_list_into_iter. unfold list_wf in W.
  rewrite (reshape_some _ [bsize (lbasis L); bsize (BTuple [lrow L; lcol L])])
    by (rewrite W; cbn [nprod]; rewrite bsize_pair; lia).
  eexists. split; [reflexivity|]. split; [rewrite map_length, seq_length; reflexivity|].
  intros m d Hm.
  set (f := fun i => {| orow := lrow L; ocol := lcol L; odata := _ |}).
  rewrite (nth_indep _ d (f 0%nat)) by (rewrite map_length, seq_length; assumption).
  rewrite map_nth, seq_nth by assumption. unfold f. simpl.
  split; [unfold op_wf; simpl; lia|]. repeat split.
  intros i j. unfold op_entry, list_entry. simpl. f_equal. nia.
Qed.

Lemma list_nat_eqb_refl s : list_nat_eqb s s = true.
Proof. unfold list_nat_eqb. destruct (list_eq_dec _ s s); congruence. Qed.

Lemma from_iter_spec (l : list operator) o s : hd_error l = Some o ->
  (forall x, In x l -> ashape (odata x) = s /\ orow x = orow o /\ ocol x = ocol o /\ op_wf x) ->
  exists L, operator_list_from_iter l = Some L /\ bsize (lbasis L) = length l /\ list_wf L /\
    lrow L = orow o /\ lcol L = ocol o /\
    forall m i j x, nth_error l m = Some x -> (i < bsize (orow o))%nat -> (j < bsize (ocol o))%nat ->
      list_entry L m i j = op_entry x i j.
Proof.
  intros Hh H. destruct l as [|o' l]; [discriminate|]. inversion Hh; subst o'. clear Hh.
  unfold operator_list_from_iter.
  assert (A : forallb (fun x => list_nat_eqb (ashape (odata x)) (ashape (odata o))) (o :: l) = true).
  { apply forallb_forall. intros x Hx. destruct (H x Hx) as [-> _]. destruct (H o (or_introl eq_refl)) as [-> _].
    apply list_nat_eqb_refl. }
  rewrite A. eexists. split; [reflexivity|].
  destruct (H o (or_introl eq_refl)) as [Es [_ [_ Wo]]]. unfold op_wf in Wo.
  split; [reflexivity|]. split; [unfold list_wf; simpl in *; nia|]. split; [reflexivity|]. split; [reflexivity|].
  intros m i j x Hx Hi Hj. unfold list_entry, op_entry. cbn [lrow lcol ldata ravel_array aflat].
  rewrite Wo.
  assert (Hb : (i * bsize (ocol o) + j < bsize (orow o) * bsize (ocol o))%nat) by nia.
  replace ((m * bsize (orow o) + i) * bsize (ocol o) + j)%nat
    with (m * (bsize (orow o) * bsize (ocol o)) + (i * bsize (ocol o) + j))%nat by nia.
  rewrite div_add_small, mod_add_small by assumption.
  rewrite (nth_error_nth _ _ o Hx). destruct (H x (nth_error_In _ _ Hx)) as [_ [_ [-> _]]]. reflexivity.
Qed.

Lemma as_operator_round_trip o n : ashape (odata o) = [n] -> bsize (orow o) = n -> bsize (ocol o) = n ->
  exists f d, as_operator o = Some f /\ as_diagonal_operator f = Some d /\
    (forall i j, (i < n)%nat -> (j < n)%nat ->
       op_entry f i j = if Nat.eqb i j then aflat (odata o) i else 0) /\
    ashape (odata d) = [n] /\ forall i, (i < n)%nat -> aflat (odata d) i = aflat (odata o) i.
Proof.
  intros E R1 C1. unfold as_operator, np_diag. rewrite E. eexists. eexists. split; [reflexivity|].
  unfold as_diagonal_operator. cbn [orow ocol odata]. rewrite R1, C1.
  rewrite reshape_some by reflexivity. unfold np_diag. cbn [ashape]. split; [reflexivity|].
  split; [|split].
  - intros i j Hi Hj. unfold op_entry. cbn [ocol odata]. rewrite C1, array2_flat by assumption. reflexivity.
  - simpl. rewrite Nat.min_id. f_equal. lia.
  - intros i Hi. cbn [odata ravel_array aflat]. unfold at2. cbn [ashape aflat nth].
    change (aflat (array2 n n (fun i j => if (i =? j)%nat then aflat (odata o) i else 0)) (i * n + i)%nat = aflat (odata o) i).
    rewrite array2_flat by assumption. rewrite Nat.eqb_refl. reflexivity.
Qed.

(** ** Commutators of lists *)

Section Lists.
Variable same : basis -> basis -> bool.
Hypothesis Hsame : identity_test same.

Lemma convert_self a F : bwf a -> explicit_orthonormal a -> convert_matrix same a a a a = Some F ->
  forall m, mat_eq (bsize a) (F m) m.
Proof.
  intros Hw Ho HF m i j Hi Hj.
  rewrite (convert_matrix_sum same Hsame a a a a F) by assumption.
  assert (O := explicit_orthonormal_sound a Hw Ho).
  rewrite (csum_ext _ (fun p => cdelta i p * m p j)).
  - apply (csum_delta_l (fun p => m p j)). assumption.
  - intros p Hp. rewrite O by assumption.
    rewrite (csum_ext _ (fun q => (cdelta i p * m p q) * cdelta q j)).
    + apply (csum_delta_r' (fun q => cdelta i p * m p q)). assumption.
    + intros q Hq. rewrite O by assumption. reflexivity.
Qed.

Lemma compatible_refl a : compatible a a.
Proof.
  induction a as [| | | | | | |l H] using basis_ind';
    try (apply compatible_other; [intros ? ? [? ?]; discriminate|reflexivity]).
  apply compatible_stacked; [reflexivity|]. induction H; constructor; assumption.
Qed.

Lemma convert_matrix_exists a b a' b' : compatible a b -> compatible a' b' ->
  exists F, convert_matrix same a b a' b' = Some F.
Proof.
  intros H H'. apply (convert_some_iff same) in H. apply (convert_some_iff same) in H'.
  destruct H as [f Hf], H' as [g Hg]. unfold convert_matrix, convert_dual. rewrite Hf, Hg. eexists; reflexivity.
Qed.

Lemma convert_operator_spec o row col : op_wf o -> compatible (orow o) row -> compatible (ocol o) col ->
  exists F r, convert_matrix same (orow o) row (ocol o) col = Some F /\
    convert_operator_to_basis same o row col = Some r /\ op_wf r /\ orow r = row /\ ocol r = col /\
    forall i j, (j < bsize col)%nat -> op_entry r i j = F (op_entry o) i j.
Proof.
  intros W H1 H2. destruct (convert_matrix_exists _ _ _ _ H1 H2) as [F HF].
  unfold convert_operator_to_basis. rewrite op_reshape, HF by assumption. exists F. eexists.
  split; [reflexivity|]. split; [reflexivity|]. simpl. split; [unfold op_wf; simpl; lia|].
  repeat split. intros i j Hj. unfold op_entry at 1. cbn [ocol odata ravel_array aflat].
  change ((fun t => ?f (t / ?m)%nat (t mod ?m)%nat) ?x) with (aflat (array2 (bsize row) m f) x).
  etransitivity; [apply (array2_flat (bsize row)); assumption|]. reflexivity.
Qed.

Lemma convert_list_spec o row col : list_wf o -> compatible (lrow o) row -> compatible (lcol o) col ->
  exists F r, convert_matrix same (lrow o) row (lcol o) col = Some F /\
    convert_operator_list_to_basis same o row col = Some r /\ list_wf r /\
    lbasis r = lbasis o /\ lrow r = row /\ lcol r = col /\
    ashape (ldata r) = [(bsize (lbasis o) * (bsize row * bsize col))%nat] /\
    forall m i j, (i < bsize row)%nat -> (j < bsize col)%nat -> list_entry r m i j = F (list_entry o m) i j.
Proof.
  intros W H1 H2. destruct (convert_matrix_exists _ _ _ _ H1 H2) as [F HF].
  unfold convert_operator_list_to_basis. rewrite list_reshape, HF by assumption. exists F. eexists.
  split; [reflexivity|]. split; [reflexivity|]. simpl. split; [unfold list_wf; simpl; lia|].
  repeat split. { rewrite Nat.mul_1_r. reflexivity. }
  intros m i j Hi Hj. unfold list_entry at 1. cbn [lrow lcol ldata ravel_array].
  etransitivity; [apply (array3_flat (bsize (lbasis o)) (bsize row) (bsize col)); assumption|]. reflexivity.
Qed.

(** Products and commutators when all bases are [b]. *)
Variable b : basis.
Hypothesis Hb : bwf b.
Hypothesis Ob : explicit_orthonormal b.
Let n := bsize b.

Lemma n_pos : (0 < n)%nat.
Proof. apply bsize_pos. assumption. Qed.

Lemma convert_self_list o : list_wf o -> lrow o = b -> lcol o = b ->
  exists r, convert_operator_list_to_basis same o b b = Some r /\ list_wf r /\
    lbasis r = lbasis o /\ lrow r = b /\ lcol r = b /\
    ashape (ldata r) = [(bsize (lbasis o) * (n * n))%nat] /\
    forall m i j, (i < n)%nat -> (j < n)%nat -> list_entry r m i j = list_entry o m i j.
Proof.
  intros W R1 C1.
  destruct (convert_list_spec o b b W) as [F [r [HF [Hr [Wr [E1 [E2 [E3 [Es E4]]]]]]]]].
  { rewrite R1. apply compatible_refl. } { rewrite C1. apply compatible_refl. }
  exists r. split; [assumption|]. split; [assumption|]. split; [assumption|]. split; [assumption|]. split; [assumption|].
  split; [assumption|]. intros m i j Hi Hj. rewrite E4 by assumption.
  apply (convert_self b F Hb Ob); [|assumption|assumption]. rewrite R1, C1 in HF. assumption.
Qed.

Lemma convert_self_op o : op_wf o -> orow o = b -> ocol o = b ->
  exists r, convert_operator_to_basis same o b b = Some r /\ op_wf r /\ orow r = b /\ ocol r = b /\
    forall i j, (i < n)%nat -> (j < n)%nat -> op_entry r i j = op_entry o i j.
Proof.
  intros W R1 C1.
  destruct (convert_operator_spec o b b W) as [F [r [HF [Hr [Wr [E2 [E3 E4]]]]]]].
  { rewrite R1. apply compatible_refl. } { rewrite C1. apply compatible_refl. }
  exists r. split; [assumption|]. split; [assumption|]. split; [assumption|]. split; [assumption|].
  intros i j Hi Hj. rewrite E4 by assumption.
  apply (convert_self b F Hb Ob); [|assumption|assumption]. rewrite R1, C1 in HF. assumption.
Qed.

Lemma matmul_operator_list_spec l r : op_wf l -> orow l = b -> ocol l = b ->
  list_wf r -> lrow r = b -> lcol r = b ->
  exists p, matmul_operator_list same l r = Some p /\ list_wf p /\
    lbasis p = lbasis r /\ lrow p = b /\ lcol p = b /\ ashape (ldata p) = [(bsize (lbasis r) * (n * n))%nat] /\
    forall m i j, (m < bsize (lbasis r))%nat -> (i < n)%nat -> (j < n)%nat ->
      list_entry p m i j = matmul n (op_entry l) (list_entry r m) i j.
Proof.
  intros Wl Rl Cl Wr Rr Cr. unfold matmul_operator_list. rewrite Cl, Cr.
  destruct (convert_self_list r Wr Rr Cr) as [c [Hc [Wc [C1 [C2 [C3 [Cs C4]]]]]]]. rewrite Hc.
  assert (Hl := op_reshape l Wl). rewrite Rl, Cl in Hl. rewrite Rl, Hl.
  assert (Hn := n_pos).
  rewrite (reshape_auto_some _ [bsize (lrow c); bsize (lcol c)] (bsize (lbasis c)))
    by (rewrite C2, C3; unfold list_wf in Wc; rewrite ?Wc, ?C2, ?C3; simpl; fold n; nia).
  eexists. split; [reflexivity|]. rewrite C1, C3 in *. cbn [lbasis lrow lcol ldata]. split.
  { unfold list_wf. simpl. lia. }
  repeat split. { simpl. rewrite Nat.mul_1_r. reflexivity. }
  intros m i j Hm Hi Hj. unfold list_entry at 1. cbn [lrow lcol ldata ravel_array].
  etransitivity; [apply (array3_flat (bsize (lbasis r)) (bsize b) (bsize b)); assumption|].
  unfold matmul. apply csum_ext; intros k Hk. f_equal.
  - unfold at2, op_entry. rewrite Cl. reflexivity.
  - rewrite <- C4 by assumption. unfold at3, list_entry. rewrite C2, C3. reflexivity.
Qed.

Lemma matmul_list_operator_spec l r : op_wf l -> orow l = b -> ocol l = b ->
  list_wf r -> lrow r = b -> lcol r = b ->
  exists p, matmul_list_operator same r l = Some p /\ list_wf p /\
    lbasis p = lbasis r /\ lrow p = b /\ lcol p = b /\ ashape (ldata p) = [(bsize (lbasis r) * (n * n))%nat] /\
    forall m i j, (m < bsize (lbasis r))%nat -> (i < n)%nat -> (j < n)%nat ->
      list_entry p m i j = matmul n (list_entry r m) (op_entry l) i j.
Proof.
  intros Wl Rl Cl Wr Rr Cr. unfold matmul_list_operator. rewrite Cl, Cr.
  destruct (convert_self_op l Wl Rl Cl) as [c [Hc [Wc [C2 [C3 C4]]]]]. rewrite Hc.
  assert (Hl := op_reshape c Wc). rewrite C2, C3 in Hl. rewrite Rl, Hl.
  assert (Hn := n_pos).
  rewrite (reshape_auto_some _ [bsize (lrow r); bsize b] (bsize (lbasis r)))
    by (unfold list_wf in Wr; rewrite ?Wr, ?Rr, ?Cr; simpl; fold n; nia).
  rewrite Nat.eqb_refl.
  eexists. split; [reflexivity|]. cbn [lbasis lrow lcol ldata]. rewrite Rr. split.
  { unfold list_wf. simpl. lia. }
  repeat split. { simpl. rewrite Nat.mul_1_r. reflexivity. }
  intros m i j Hm Hi Hj. unfold list_entry at 1. cbn [lrow lcol ldata ravel_array].
  etransitivity; [apply (array3_flat (bsize (lbasis r)) (bsize b) (bsize b)); assumption|].
  unfold matmul. apply csum_ext; intros k Hk. f_equal.
  - unfold at3, list_entry. rewrite Rr, Cr. reflexivity.
  - rewrite <- C4 by assumption. unfold at2, op_entry. rewrite C3. reflexivity.
Qed.

Lemma combine_list_spec f x y : list_wf x -> lrow x = b -> lcol x = b -> list_wf y -> lrow y = b -> lcol y = b ->
  lbasis y = lbasis x -> ashape (ldata x) = [(bsize (lbasis x) * (n * n))%nat] ->
  exists p, combine_list_list f same x y = Some p /\ list_wf p /\ lbasis p = lbasis x /\ lrow p = b /\ lcol p = b /\
    ashape (ldata p) = [(bsize (lbasis x) * (n * n))%nat] /\
    forall m i j, (m < bsize (lbasis x))%nat -> (i < n)%nat -> (j < n)%nat ->
      list_entry p m i j = f (list_entry x m i j) (list_entry y m i j).
Proof.
  intros Wx Rx Cx Wy Ry Cy El Es. unfold combine_list_list. rewrite Rx, Cx.
  destruct (convert_self_list y Wy Ry Cy) as [c [Hc [Wc [C1 [C2 [C3 [Cs C4]]]]]]]. rewrite Hc.
  destruct (broadcast_same f (ldata x) (ldata c)) as [d [Hd [Ds Df]]].
  { rewrite Es, Cs, El. reflexivity. }
  rewrite Hd. eexists. split; [reflexivity|]. simpl. split.
  { unfold list_wf. simpl. rewrite Ds, Es. simpl. fold n. lia. }
  split; [reflexivity|]. split; [reflexivity|]. split; [reflexivity|]. split; [rewrite Ds; exact Es|]. intros m i j Hm Hi Hj. unfold list_entry at 1. cbn [lrow lcol ldata]. fold n.
  assert (Hr : ((m * n + i) * n + j < bsize (lbasis x) * (n * n) * 1)%nat).
  { assert ((m * n + i + 1) <= bsize (lbasis x) * n)%nat by nia. nia. }
  rewrite Df by (rewrite Es; exact Hr). rewrite <- C4 by assumption.
  unfold list_entry. rewrite Rx, Cx, C2, C3. reflexivity.
Qed.

Lemma commutator_list_spec l r : op_wf l -> orow l = b -> ocol l = b ->
  list_wf r -> compatible (lrow r) b -> compatible (lcol r) b ->
  exists F p, convert_matrix same (lrow r) b (lcol r) b = Some F /\
    get_commutator_operator_list same l r = Some p /\ list_wf p /\
    lbasis p = lbasis r /\ lrow p = b /\ lcol p = b /\
    ashape (ldata p) = [(bsize (lbasis r) * (n * n))%nat] /\
    forall m i j, (m < bsize (lbasis r))%nat -> (i < n)%nat -> (j < n)%nat ->
      list_entry p m i j = matmul n (op_entry l) (F (list_entry r m)) i j - matmul n (F (list_entry r m)) (op_entry l) i j.
Proof.
  intros Wl Rl Cl Wr Hr Hc. unfold get_commutator_operator_list. rewrite Rl, Cl.
  destruct (convert_list_spec r b b Wr Hr Hc) as [F [c [HF [Hcv [Wc [E1 [E2 [E3 [Es E4]]]]]]]]]. rewrite Hcv.
  exists F.
  destruct (matmul_operator_list_spec l c Wl Rl Cl Wc E2 E3) as [x [Hx [Wx [X1 [X2 [X3 [Xs X4]]]]]]].
  destruct (matmul_list_operator_spec l c Wl Rl Cl Wc E2 E3) as [y [Hy [Wy [Y1 [Y2 [Y3 [Ys Y4]]]]]]].
  rewrite Hx, Hy.
  destruct (combine_list_spec Cminus x y Wx X2 X3 Wy Y2 Y3) as [p [Hp [Wp [P1 [P2 [P3 [P5 P4]]]]]]].
  { congruence. } { rewrite Xs, X1. reflexivity. }
  exists p. split; [assumption|]. split; [exact Hp|]. split; [assumption|].
  split; [congruence|]. split; [assumption|]. split; [assumption|]. split; [rewrite P5; congruence|].
  intros m i j Hm Hi Hj. rewrite P4 by (try assumption; congruence).
  rewrite X4, Y4 by (try assumption; congruence). unfold Cminus. f_equal; [|f_equal].
  - apply matmul_ext; intros; [reflexivity|]. apply E4; assumption.
  - apply matmul_ext; intros; [|reflexivity]. apply E4; assumption.
Qed.

Lemma commutator_diagonal_list_spec l r : op_wf l -> orow l = b -> ocol l = b ->
  diag_list_wf r -> lrow r = b -> lcol r = b ->
  exists p, get_commutator_diagonal_operator_list same l r = Some p /\ list_wf p /\
    lbasis p = lbasis r /\ lrow p = b /\ lcol p = b /\
    ashape (ldata p) = [(bsize (lbasis r) * (n * n))%nat] /\
    forall m i j, (m < bsize (lbasis r))%nat -> (i < n)%nat -> (j < n)%nat ->
      list_entry p m i j = matmul n (op_entry l) (diagonal_matrix (diag_entry r m)) i j
                           - matmul n (diagonal_matrix (diag_entry r m)) (op_entry l) i j.
Proof.
  intros Wl Rl Cl [_ Wr] Rr Cr. unfold get_commutator_diagonal_operator_list.
  unfold matmul_operator_diagonal_list, matmul_diagonal_list_operator. rewrite Rl, Cl, Rr, Cr.
  destruct (convert_self_op l Wl Rl Cl) as [c [Hc [Wc [C2 [C3 C4]]]]]. rewrite Hc.
  assert (Hl := op_reshape c Wc). rewrite C2, C3 in Hl. rewrite C2, C3, Hl.
  assert (Hn := n_pos). rewrite Rr in Wr.
  rewrite (reshape_auto_some _ [bsize b] (bsize (lbasis r))) by (rewrite ?Wr; simpl; fold n; nia).
  rewrite Nat.eqb_refl.
  set (x := {| lbasis := lbasis r; lrow := b; lcol := b; ldata := _ |}).
  set (y := {| lbasis := lbasis r; lrow := b; lcol := b; ldata := _ |}).
  destruct (combine_list_spec Cminus x y) as [p [Hp [Wp [P1 [P2 [P3 [P5 P4]]]]]]]; try reflexivity.
  { unfold list_wf, x. simpl. lia. } { unfold list_wf, y. simpl. lia. }
  { unfold x. simpl. fold n. rewrite Nat.mul_1_r. reflexivity. }
  exists p. split; [exact Hp|]. split; [assumption|]. split; [assumption|]. split; [assumption|]. split; [assumption|].
  split; [exact P5|].
  intros m i j Hm Hi Hj. rewrite P4 by assumption.
  assert (X : list_entry x m i j = op_entry l i j * diag_entry r m j).
  { unfold list_entry, x. cbn [lrow lcol ldata ravel_array].
    etransitivity; [apply (array3_flat (bsize (lbasis r)) (bsize b) (bsize b)); assumption|].
    rewrite <- C4 by assumption. unfold at2, op_entry, diag_entry. rewrite C3, Rr. reflexivity. }
  assert (Y : list_entry y m i j = diag_entry r m i * op_entry l i j).
  { unfold list_entry, y. cbn [lrow lcol ldata ravel_array].
    etransitivity; [apply (array3_flat (bsize (lbasis r)) (bsize b) (bsize b)); assumption|].
    rewrite <- C4 by assumption. unfold at2, op_entry, diag_entry. rewrite C3, Rr. reflexivity. }
  rewrite X, Y. unfold matmul, diagonal_matrix. f_equal; [|f_equal].
  - rewrite (csum_ext _ (fun k => (op_entry l i k * diag_entry r m k) * cdelta k j)) by (intros; ring).
    rewrite (csum_delta_r' (fun k => op_entry l i k * diag_entry r m k)) by assumption. reflexivity.
  - rewrite (csum_ext _ (fun k => cdelta i k * (diag_entry r m i * op_entry l k j))) by (intros; ring).
    rewrite (csum_delta_l (fun k => diag_entry r m i * op_entry l k j)) by assumption. reflexivity.
Qed.
End Lists.

(** The diagonal version refuses a diagonal list in a basis of another size. *)
Lemma commutator_diagonal_list_raises same l r : (0 < bsize (orow l))%nat ->
  bsize (ocol l) <> bsize (lrow r) -> get_commutator_diagonal_operator_list same l r = None.
Proof.
  intros Hp Hne. unfold get_commutator_diagonal_operator_list, matmul_operator_diagonal_list, convert_operator_to_basis.
  destruct (reshape (odata l) _) as [a|]; [|reflexivity].
  destruct (convert_matrix _ _ _ _ _) as [F|]; [|reflexivity]. cbn [odata orow ocol].
  unfold reshape at 1. cbn [ravel_array ashape array2 nprod].
  destruct (Nat.eqb_spec (bsize (orow l) * (bsize (lrow r) * 1) * 1) (bsize (orow l) * (bsize (ocol l) * 1))); [nia|].
  reflexivity.
Qed.
