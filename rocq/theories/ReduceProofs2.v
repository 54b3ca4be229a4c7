From Coq Require Import Reals Psatz.
From Verif Require Import ZLib Csum DFT NumPy Spec IndexProofs Basis SpecBasis BasisProofs Operator SpecOperator OperatorProofs OperatorProofs2 OperatorProofs3 Reduce SpecReduce ReduceProofs.
Local Open Scope R_scope.
Local Open Scope C_scope.

(** ** A leading and a trailing axis that is kept *)

Lemma existsb_map_S k ax : existsb (Nat.eqb (S k)) (map S ax) = existsb (Nat.eqb k) ax.
Proof. induction ax as [|a ax IH]; [reflexivity|]. cbn [existsb map]. rewrite IH. reflexivity. Qed.
Lemma existsb_map_0 ax : existsb (Nat.eqb 0) (map S ax) = false.
Proof. induction ax as [|a ax IH]; [reflexivity|]. simpl. assumption. Qed.

Lemma remaining_cons {A} (d : A) ax x l : remaining d (map S ax) (x :: l) = x :: remaining d ax l.
Proof.
  rewrite <- !keep_remaining. cbn [length]. unfold axis_mask. cbn [seq map].
  rewrite existsb_map_0. cbn [keep]. f_equal. rewrite <- seq_shift, map_map. f_equal.
  apply map_ext. intros k. apply existsb_map_S.
Qed.
Lemma removed_cons {A} (d : A) ax x l : removed d (map S ax) (x :: l) = removed d ax l.
Proof.
  rewrite <- !drop_removed. cbn [length]. unfold axis_mask. cbn [seq map].
  rewrite existsb_map_0. cbn [drop]. rewrite <- seq_shift, map_map. f_equal.
  apply map_ext. intros k. apply existsb_map_S.
Qed.

Lemma good_axes_S nd ax : good_axes nd ax -> good_axes (S nd) (map S ax).
Proof.
  intros [H1 H2]. split.
  - apply FinFun.Injective_map_NoDup; [intros a b; congruence|assumption].
  - apply Forall_map. eapply Forall_impl; [|exact H2]. simpl. intros; lia.
Qed.

Lemma shift_axes ax : map (Z.add 1) (map Z.of_nat ax) = map Z.of_nat (map S ax).
Proof. rewrite !map_map. apply map_ext. intros. lia. Qed.

Lemma sum_matching_cons ax n s a m out : (m < n)%nat ->
  sum_matching (map S ax) (n :: s) a (m :: out) = sum_matching ax s (fun t => a (m * nprod s + t)%nat) out.
Proof.
  intros Hm. unfold sum_matching. change (nprod (n :: s)) with (n * nprod s)%nat. rewrite csum_mul.
  rewrite (csum_single _ n m Hm).
  - apply csum_ext; intros j Hj. rewrite unravel_cons, remaining_cons by assumption.
    destruct (list_eq_dec Nat.eq_dec (m :: remaining 0%nat ax (unravel s j)) (m :: out)) as [E|E];
    destruct (list_eq_dec Nat.eq_dec (remaining 0%nat ax (unravel s j)) out) as [E'|E']; try reflexivity; congruence.
  - intros i Hi Hne. apply csum_zero_ext. intros j Hj. rewrite unravel_cons, remaining_cons by assumption.
    destruct (list_eq_dec _ _ _); [congruence|reflexivity].
Qed.

Lemma keep_app {A} m1 m2 (l1 l2 : list A) : length m1 = length l1 -> keep (m1 ++ m2) (l1 ++ l2) = keep m1 l1 ++ keep m2 l2.
Proof.
  revert l1; induction m1 as [|b m1 IH]; intros [|x l1] H; try discriminate; [reflexivity|].
  simpl in H. destruct b; simpl; rewrite IH by lia; reflexivity.
Qed.
Lemma drop_app {A} m1 m2 (l1 l2 : list A) : length m1 = length l1 -> drop (m1 ++ m2) (l1 ++ l2) = drop m1 l1 ++ drop m2 l2.
Proof.
  revert l1; induction m1 as [|b m1 IH]; intros [|x l1] H; try discriminate; [reflexivity|].
  simpl in H. destruct b; simpl; rewrite IH by lia; reflexivity.
Qed.

Lemma axis_mask_snoc nd ax : good_axes nd ax -> axis_mask (nd + 1) ax = axis_mask nd ax ++ [false].
Proof.
  intros [_ H]. unfold axis_mask. rewrite seq_app, map_app. f_equal. simpl. f_equal.
  destruct (existsb (Nat.eqb nd) ax) eqn:E; [|reflexivity]. apply existsb_exists in E.
  destruct E as [a [Ha Ea]]. apply Nat.eqb_eq in Ea. rewrite Forall_forall in H. specialize (H a Ha). lia.
Qed.

Lemma remaining_snoc {A} (d : A) ax l x : good_axes (length l) ax -> remaining d ax (l ++ [x]) = remaining d ax l ++ [x].
Proof.
  intros H. rewrite <- !keep_remaining, app_length. cbn [length]. rewrite axis_mask_snoc by assumption.
  rewrite keep_app by apply axis_mask_length. reflexivity.
Qed.
Lemma removed_snoc {A} (d : A) ax l x : good_axes (length l) ax -> removed d ax (l ++ [x]) = removed d ax l.
Proof.
  intros H. rewrite <- !drop_removed, app_length. cbn [length]. rewrite axis_mask_snoc by assumption.
  rewrite drop_app by apply axis_mask_length. simpl. rewrite app_nil_r. reflexivity.
Qed.
Lemma good_axes_le nd nd' ax : (nd <= nd')%nat -> good_axes nd ax -> good_axes nd' ax.
Proof. intros H [H1 H2]. split; [assumption|]. eapply Forall_impl; [|exact H2]. simpl. intros; lia. Qed.

Lemma nprod_snoc s k : nprod (s ++ [k]) = (nprod s * k)%nat.
Proof. rewrite nprod_app. simpl. lia. Qed.

Lemma unravel_snoc s k t j : (t < nprod s)%nat -> (j < k)%nat -> unravel (s ++ [k]) (t * k + j) = unravel s t ++ [j].
Proof.
  revert t; induction s as [|n s IH]; intros t Ht Hj.
  - simpl in Ht. assert (t = 0)%nat by lia. subst. cbn [app unravel nprod Nat.mul Nat.add]. rewrite Nat.div_1_r. reflexivity.
  - simpl in Ht. assert (0 < nprod s)%nat by nia. cbn [app unravel]. rewrite nprod_snoc.
    assert (Hm : (t mod nprod s < nprod s)%nat) by (apply Nat.mod_upper_bound; lia).
    assert (E : (t * k + j = (t / nprod s) * (nprod s * k) + ((t mod nprod s) * k + j))%nat).
    { rewrite (Nat.div_mod t (nprod s)) at 1 by lia. ring. }
    rewrite E. rewrite div_add_small, mod_add_small by nia. rewrite IH by assumption. reflexivity.
Qed.

Lemma sum_matching_snoc ax s k a out j : good_axes (length s) ax -> (j < k)%nat ->
  sum_matching ax (s ++ [k]) a (out ++ [j]) = sum_matching ax s (fun t => a (t * k + j)%nat) out.
Proof.
  intros Hg Hj. unfold sum_matching. rewrite nprod_snoc, csum_mul. apply csum_ext; intros t Ht.
  rewrite (csum_single _ k j Hj).
  - rewrite unravel_snoc, remaining_snoc by (rewrite ?unravel_length; assumption).
    destruct (list_eq_dec Nat.eq_dec (remaining 0%nat ax (unravel s t) ++ [j]) (out ++ [j])) as [E|E];
    destruct (list_eq_dec Nat.eq_dec (remaining 0%nat ax (unravel s t)) out) as [E'|E']; try reflexivity.
    + apply app_inj_tail in E. destruct E; congruence.
    + congruence.
  - intros j' Hj' Hne. rewrite unravel_snoc, remaining_snoc by (rewrite ?unravel_length; assumption).
    destruct (list_eq_dec _ _ _) as [E|E]; [|reflexivity]. apply app_inj_tail in E. destruct E; congruence.
Qed.

Lemma in_shape_snoc out s j k : in_shape out s -> (j < k)%nat -> in_shape (out ++ [j]) (s ++ [k]).
Proof. intros H Hj. apply Forall2_app; [assumption|]. constructor; [assumption|constructor]. Qed.

Lemma ravel_snoc s out k j : in_shape out s -> ravel (s ++ [k]) (out ++ [j]) = (ravel s out * k + j)%nat.
Proof.
  intros H; induction H as [|i n idx s Hi H IH]; simpl; [lia|]. rewrite IH, nprod_snoc. ring.
Qed.

(** ** Operators *)

Definition diagonal_wf (o : diagonal) : Prop := nprod (ashape (ddata o)) = nprod (map bsize (dbasis o)).

Lemma not_in_remaining l ax : not_in_axes l (map Z.of_nat ax) = remaining (BFund 1) ax l.
Proof. rewrite not_in_axes_keep. apply keep_remaining. Qed.

Lemma sum_diagonal_spec o ax : nprod (ashape (ddata o)) = nprod (map bsize (dbasis o)) -> good_axes (length (dbasis o)) ax ->
  exists r, sum_diagonal_operator_over_axes o (map Z.of_nat ax) = Some r /\
    dbasis r = remaining (BFund 1) ax (dbasis o) /\ ashape (ddata r) = [nprod (map bsize (dbasis r))] /\
    forall out, in_shape out (map bsize (dbasis r)) ->
      aflat (ddata r) (ravel (map bsize (dbasis r)) out) = sum_matching ax (map bsize (dbasis o)) (aflat (ddata o)) out.
Proof.
  intros W G. unfold sum_diagonal_operator_over_axes.
  destruct (np_sum_spec (ddata o) (map bsize (dbasis o)) ax W) as [r [E1 [E2 E3]]]; [rewrite map_length; assumption|].
  rewrite E1. eexists. split; [reflexivity|]. cbn [dbasis ddata].
  rewrite <- remaining_bsize. split; [apply not_in_remaining|]. split; assumption.
Qed.

Lemma sum_diagonal_total o ax r : nprod (ashape (ddata o)) = nprod (map bsize (dbasis o)) -> good_axes (length (dbasis o)) ax ->
  sum_diagonal_operator_over_axes o (map Z.of_nat ax) = Some r ->
  csum (aflat (ddata r)) (nprod (map bsize (dbasis r))) = csum (aflat (ddata o)) (nprod (map bsize (dbasis o))).
Proof.
  intros W G E. destruct (sum_diagonal_spec o ax W G) as [r' [E' [E1 [E2 E3]]]]. rewrite E in E'. inversion E'; subst r'.
  rewrite <- (sum_matching_total ax (map bsize (dbasis o))).
  assert (Er : remaining 0%nat ax (map bsize (dbasis o)) = map bsize (dbasis r)).
  { rewrite remaining_bsize, not_in_remaining, E1. reflexivity. }
  rewrite Er. apply csum_ext; intros t Ht. rewrite <- E3 by (apply unravel_in_shape; assumption).
  rewrite ravel_unravel by assumption. reflexivity.
Qed.

Lemma average_eigenvalues_spec o ax : nprod (ashape (ddata o)) = nprod (map bsize (dbasis o)) -> good_axes (length (dbasis o)) ax ->
  exists r, average_eigenvalues o (Some (map Z.of_nat ax)) = Some r /\
    dbasis r = remaining (BFund 1) ax (dbasis o) /\ ashape (ddata r) = [nprod (map bsize (dbasis r))] /\
    forall out, in_shape out (map bsize (dbasis r)) ->
      aflat (ddata r) (ravel (map bsize (dbasis r)) out) =
      sum_matching ax (map bsize (dbasis o)) (aflat (ddata o)) out
      / RtoC (INR (nprod (removed 0%nat ax (map bsize (dbasis o))))).
Proof.
  intros W G. unfold average_eigenvalues.
  destruct (np_average_spec (ddata o) (map bsize (dbasis o)) ax W) as [r [E1 [E2 E3]]]; [rewrite map_length; assumption|].
  rewrite E1. eexists. split; [reflexivity|]. cbn [dbasis ddata].
  rewrite <- remaining_bsize. split; [apply not_in_remaining|]. split; assumption.
Qed.

Lemma average_list_spec lb o ax : nprod (ashape (ddata o)) = (bsize lb * nprod (map bsize (dbasis o)))%nat ->
  good_axes (length (dbasis o)) ax ->
  exists r, average_eigenvalues_list lb o (Some (map Z.of_nat ax)) = Some r /\
    dbasis r = remaining (BFund 1) ax (dbasis o) /\ ashape (ddata r) = [(bsize lb * nprod (map bsize (dbasis r)))%nat] /\
    forall m out, (m < bsize lb)%nat -> in_shape out (map bsize (dbasis r)) ->
      aflat (ddata r) (m * nprod (map bsize (dbasis r)) + ravel (map bsize (dbasis r)) out)%nat =
      sum_matching ax (map bsize (dbasis o)) (fun t => aflat (ddata o) (m * nprod (map bsize (dbasis o)) + t)%nat) out
      / RtoC (INR (nprod (removed 0%nat ax (map bsize (dbasis o))))).
Proof.
  intros W G. unfold average_eigenvalues_list. rewrite shift_axes.
  destruct (np_average_spec (ddata o) (bsize lb :: map bsize (dbasis o)) (map S ax) W) as [r [E1 [E2 E3]]].
  { simpl. rewrite map_length. apply good_axes_S. assumption. }
  rewrite E1. eexists. split; [reflexivity|]. cbn [dbasis ddata].
  rewrite remaining_cons in E2, E3. rewrite remaining_bsize in E2, E3. rewrite removed_cons in E3.
  split; [apply not_in_remaining|]. split; [exact E2|]. intros m out Hm Ho.
  rewrite <- sum_matching_cons with (n := bsize lb) by assumption. apply (E3 (m :: out)). constructor; assumption.
Qed.

(** The default axes. *)
Lemma average_default_one o b : dbasis o = [b] -> average_eigenvalues o None = None.
Proof.
  intros E. unfold average_eigenvalues. rewrite E. unfold np_average.
  change (range_axes 2) with (map Z.of_nat [0; 1]%nat). rewrite normal_axes_out.
  - destruct (reshape _ _); reflexivity.
  - intros H. inversion H as [|? ? _ H2]; subst. inversion H2; subst. simpl in *. lia.
Qed.

Lemma average_default_many o b0 b1 l : dbasis o = b0 :: b1 :: l ->
  average_eigenvalues o None = average_eigenvalues o (Some (map Z.of_nat [0; 1]%nat)) /\
  remaining (BFund 1) [0; 1]%nat (dbasis o) = l.
Proof.
  intros E. split; [reflexivity|]. rewrite E, <- not_in_remaining, not_in_axes_keep.
  cbn [length]. unfold axis_mask. cbn [seq map existsb Nat.eqb orb keep].
  transitivity (keep (map (fun _ : nat => false) (seq 2 (length l))) l).
  - f_equal. apply map_ext_in. intros k Hk. apply in_seq in Hk. destruct k as [|[|k]]; [lia|lia|reflexivity].
  - clear E. generalize 2%nat. induction l as [|x l IH]; intros s; [reflexivity|]. simpl. f_equal. apply IH.
Qed.

Lemma average_default_spec o : nprod (ashape (ddata o)) = nprod (map bsize (dbasis o)) ->
  average_eigenvalues o None =
    (if (length (dbasis o) <? 2)%nat then None else average_eigenvalues o (Some (map Z.of_nat [0; 1]%nat))) /\
  (forall r, average_eigenvalues o None = Some r -> dbasis r = skipn 2 (dbasis o)).
Proof.
  intros W. destruct (dbasis o) as [|b0 [|b1 l]] eqn:E.
  - assert (N : average_eigenvalues o None = None).
    { unfold average_eigenvalues. rewrite E. unfold np_average. change (range_axes 2) with (map Z.of_nat [0; 1]%nat).
      rewrite normal_axes_out; [destruct (reshape _ _); reflexivity|].
      intros H. inversion H; simpl in *; lia. }
    split; [exact N|]. intros r. rewrite N. discriminate.
  - rewrite (average_default_one o b0 E). split; [reflexivity|discriminate].
  - destruct (average_default_many o b0 b1 l E) as [E1 E2]. split; [exact E1|].
    rewrite E1. intros r Hr. destruct (average_eigenvalues_spec o [0; 1]%nat) as [r' [Hr' [Eb _]]].
    + rewrite E. exact W.
    + rewrite E. split; [repeat constructor; simpl; intuition discriminate|]. repeat (apply Forall_cons; [simpl; lia|]); apply Forall_nil.
    + rewrite Hr in Hr'. injection Hr' as <-. rewrite Eb, E2. reflexivity.
Qed.

(** A negative axis sums the data but keeps the basis. *)
Lemma sum_negative_axis o : nprod (ashape (ddata o)) = nprod (map bsize (dbasis o)) -> (0 < length (dbasis o))%nat ->
  exists r, sum_diagonal_operator_over_axes o [(-1)%Z] = Some r /\ dbasis r = dbasis o /\
    ashape (ddata r) = [nprod (removelast (map bsize (dbasis o)))].
Proof.
  intros W Hp. unfold sum_diagonal_operator_over_axes, np_sum.
  rewrite reshape_some by assumption. set (s := map bsize (dbasis o)).
  assert (Hs : (0 < length s)%nat) by (unfold s; rewrite map_length; assumption).
  assert (P : python_index (length s) (-1) = Some (length s - 1)%nat) by (apply python_index_spec; lia).
  unfold normal_axes. cbn [map all_some]. rewrite P. cbn [has_dup existsb orb].
  eexists. split; [reflexivity|]. cbn [dbasis ddata ashape]. split.
  - unfold not_in_axes. generalize (dbasis o). intros l. generalize 0%nat.
    induction l as [|x l IH]; intros n; [reflexivity|]. cbn [length seq combine filter fst existsb].
    replace (Z.of_nat n =? -1)%Z with false by (symmetry; apply Z.eqb_neq; lia). simpl. f_equal. apply IH.
  - f_equal. f_equal. clearbody s. destruct (exists_last (l := s)) as [s' [x Ex]]; [intros ->; simpl in Hs; lia|].
    rewrite Ex, removelast_last, app_length. cbn [length]. replace (length s' + 1 - 1)%nat with (length s') by lia.
    unfold axis_mask. rewrite seq_app, map_app, keep_app by (rewrite map_length, seq_length; reflexivity).
    cbn [plus seq map existsb]. rewrite Nat.eqb_refl. cbn [orb keep]. rewrite app_nil_r.
    transitivity (keep (map (fun _ : nat => false) (seq 0 (length s'))) s').
    + f_equal. apply map_ext_in. intros k Hk. apply in_seq in Hk.
      destruct (Nat.eqb_spec k (length s')); [lia|reflexivity].
    + generalize 0%nat. clear. induction s' as [|y s' IH]; intros n; [reflexivity|]. simpl. f_equal. apply IH.
Qed.

Lemma as_flat_operator_size L : diag_list_wf L -> (0 < bsize (lbasis L))%nat -> (0 < bsize (lrow L))%nat ->
  let f := as_flat_operator L in
  bsize (orow f) = (bsize (lbasis L) * bsize (lrow L) * bsize (lrow L))%nat /\
  nprod (ashape (odata f)) = (bsize (lbasis L) * bsize (lrow L))%nat /\
  (nprod (ashape (odata f)) = bsize (orow f) <-> bsize (lrow L) = 1%nat).
Proof.
  intros [E W] H1 H2 f.
  assert (A : bsize (orow f) = (bsize (lbasis L) * bsize (lrow L) * bsize (lrow L))%nat) by (unfold f; simpl; rewrite <- E; lia).
  assert (B : nprod (ashape (odata f)) = (bsize (lbasis L) * bsize (lrow L))%nat) by exact W.
  split; [exact A|]. split; [exact B|]. rewrite A, B. split; intros H; [nia|rewrite H; lia].
Qed.

(** ** Probabilities *)

Lemma square_abs z : np_square_abs z = RtoC (Cnorm2 z).
Proof. unfold np_square_abs. rewrite <- RtoC_mult, <- Cnorm2_Cmod. reflexivity. Qed.

Lemma from_state_spec data :
  (forall t, exists p, aflat (probability_from_state data) t = RtoC p /\ (0 <= p)%R) /\
  (forall n, csum (aflat (probability_from_state data)) n = inner_product n (aflat data) (aflat data)).
Proof.
  split.
  - intros t. exists (Cnorm2 (aflat data t)). split; [apply square_abs|apply Cnorm2_nonneg].
  - intros n. unfold inner_product. apply csum_ext; intros t Ht. simpl. rewrite square_abs, Cconj_mult_self. reflexivity.
Qed.

Lemma sum_probability_spec l data ax : nprod (ashape data) = nprod (map bsize l) -> good_axes (length l) ax ->
  exists d, sum_probability (BasisObject l) data (Some (map Z.of_nat ax)) = Some (PlainTuple (remaining (BFund 1) ax l), d) /\
    let s' := map bsize (remaining (BFund 1) ax l) in
    ashape d = [nprod s'] /\
    (forall out, in_shape out s' -> aflat d (ravel s' out) = sum_matching ax (map bsize l) (aflat data) out) /\
    csum (aflat d) (nprod s') = csum (aflat data) (nprod (map bsize l)).
Proof.
  intros W G. set (o := {| dbasis := l; ddata := data |}).
  destruct (sum_diagonal_spec o ax W G) as [r [E1 [E2 [E3 E4]]]].
  assert (T := sum_diagonal_total o ax r W G E1).
  unfold sum_diagonal_operator_over_axes in E1. cbn [ddata dbasis o] in E1.
  unfold sum_probability. destruct (np_sum data (map bsize l) (map Z.of_nat ax)) as [d|]; [|discriminate].
  inversion E1; subst r. cbn [ddata dbasis] in *. exists d. rewrite E2 in *. cbv zeta. auto.
Qed.

Lemma sum_probability_all l data : nprod (ashape data) = nprod (map bsize l) ->
  exists d, sum_probability (BasisObject l) data None = Some (PlainTuple [], d) /\ ashape d = [1%nat] /\
    aflat d 0%nat = csum (aflat data) (nprod (map bsize l)).
Proof.
  intros W. destruct (sum_probability_spec l data (seq 0 (length l)) W (good_axes_range _)) as [d [E [E1 [E2 E3]]]].
  rewrite remaining_range in E, E1, E3. exists d. split; [exact E|]. split; [exact E1|].
  rewrite <- E3. simpl. ring.
Qed.

Lemma sum_probabilities_spec lb l data ax : Forall (fun n => 0 < n)%nat (map bsize l) ->
  nprod (ashape data) = (bsize lb * nprod (map bsize l))%nat -> good_axes (length l) ax ->
  exists d, sum_probabilities lb l data (Some (map Z.of_nat ax)) = Some (remaining (BFund 1) ax l, d) /\
    let s' := map bsize (remaining (BFund 1) ax l) in
    ashape d = [(bsize lb * nprod s')%nat] /\
    (forall m out, (m < bsize lb)%nat -> in_shape out s' ->
       aflat d (m * nprod s' + ravel s' out)%nat =
       sum_matching ax (map bsize l) (fun t => aflat data (m * nprod (map bsize l) + t)%nat) out) /\
    (forall m, (m < bsize lb)%nat ->
       csum (fun t => aflat d (m * nprod s' + t)%nat) (nprod s') =
       csum (fun t => aflat data (m * nprod (map bsize l) + t)%nat) (nprod (map bsize l))).
Proof.
  intros Hpos W G. unfold sum_probabilities. set (s := map bsize l) in *.
  assert (Hp : (0 < nprod s)%nat) by (apply nprod_pos; assumption).
  rewrite (reshape_auto_some data s (bsize lb) Hp W). rewrite shift_axes. cbn [ashape].
  destruct (np_sum_spec {| ashape := bsize lb :: s; aflat := aflat data |} (bsize lb :: s) (map S ax) eq_refl) as [r [E1 [E2 E3]]].
  { unfold s. simpl. rewrite map_length. apply good_axes_S. assumption. }
  rewrite E1. exists r. rewrite not_in_remaining. split; [reflexivity|]. cbv zeta. set (s' := map bsize (remaining (BFund 1) ax l)).
  assert (Es : remaining 0%nat (map S ax) (bsize lb :: s) = bsize lb :: s').
  { unfold s', s. rewrite remaining_cons, remaining_bsize, not_in_remaining. reflexivity. }
  rewrite Es in E2, E3. cbn [aflat] in E3.
  assert (F : forall m out, (m < bsize lb)%nat -> in_shape out s' ->
       aflat r (m * nprod s' + ravel s' out)%nat = sum_matching ax s (fun t => aflat data (m * nprod s + t)%nat) out).
  { intros m out Hm Ho. rewrite <- sum_matching_cons with (n := bsize lb) by assumption.
    apply (E3 (m :: out)). constructor; assumption. }
  split; [exact E2|]. split; [exact F|]. intros m Hm.
  rewrite <- (sum_matching_total ax s).
  assert (Er : remaining 0%nat ax s = s') by (unfold s, s'; rewrite remaining_bsize, not_in_remaining; reflexivity).
  rewrite Er. apply csum_ext; intros t Ht.
  rewrite <- F by (try assumption; apply unravel_in_shape; assumption).
  rewrite ravel_unravel by assumption. reflexivity.
Qed.

Lemma sum_probabilities_default lb l data : Forall (fun n => 0 < n)%nat (map bsize l) ->
  nprod (ashape data) = (bsize lb * nprod (map bsize l))%nat ->
  sum_probabilities lb l data None =
    if (length l <? 2)%nat then None else sum_probabilities lb l data (Some (map Z.of_nat [0; 1]%nat)).
Proof.
  intros Hpos W. destruct l as [|b0 [|b1 l]]; try reflexivity.
  - unfold sum_probabilities. rewrite (reshape_auto_some _ _ (bsize lb)) by (simpl in *; try lia; exact W).
    cbn [ashape]. change (map (Z.add 1) (range_axes 2)) with (map Z.of_nat [1; 2]%nat).
    rewrite np_sum_raises; [reflexivity|]. intros H. inversion H; simpl in *; lia.
  - unfold sum_probabilities. rewrite (reshape_auto_some _ _ (bsize lb)); [|apply nprod_pos; exact Hpos|exact W].
    cbn [ashape]. change (map (Z.add 1) (range_axes 2)) with (map Z.of_nat [1; 2]%nat).
    rewrite np_sum_raises; [reflexivity|]. intros H. inversion H as [|? ? _ H2]; subst. inversion H2; simpl in *; lia.
Qed.

Lemma average_all_spec lb b data : nprod (ashape data) = (bsize lb * bsize b)%nat ->
  exists d, average_probabilities_all lb b data = Some (b, d) /\ ashape d = [bsize b] /\
    forall i, (i < bsize b)%nat ->
      aflat d i = csum (fun m => aflat data (m * bsize b + i)%nat) (bsize lb) / RtoC (INR (bsize lb)).
Proof.
  intros W. unfold average_probabilities_all. change [0%Z] with (map Z.of_nat [0%nat]).
  destruct (np_average_spec data [bsize lb; bsize b] [0%nat]) as [r [E1 [E2 E3]]].
  { simpl. lia. } { split; [repeat constructor; simpl; tauto|]. repeat (apply Forall_cons; [simpl; lia|]); apply Forall_nil. }
  rewrite E1. exists r. split; [reflexivity|]. cbn in E2. split; [rewrite E2; f_equal; lia|].
  intros i Hi. specialize (E3 [i]). cbn [remaining other_axes length seq filter existsb Nat.eqb orb negb map nth ravel nprod] in E3.
  replace (i * 1 + 0)%nat with i in E3 by lia. rewrite E3 by (repeat constructor; assumption). clear E3.
  assert (E : sum_matching [0%nat] [bsize lb; bsize b] (aflat data) [i] = csum (fun m => aflat data (m * bsize b + i)%nat) (bsize lb)).
  { assert (G := sum_matching_snoc [0%nat] [bsize lb] (bsize b) (aflat data) [] i). cbn [app] in G. rewrite G.
    - unfold sum_matching. cbn [nprod]. rewrite Nat.mul_1_r. apply csum_ext; intros t Ht.
      cbn. reflexivity.
    - split; [repeat constructor; simpl; tauto|]. repeat (apply Forall_cons; [simpl; lia|]); apply Forall_nil.
    - assumption. }
  rewrite E. cbn. rewrite Nat.mul_1_r. reflexivity.
Qed.

(** Averages of normalised vectors are normalised. *)
Lemma average_all_total lb b data d : nprod (ashape data) = (bsize lb * bsize b)%nat -> (0 < bsize lb)%nat ->
  average_probabilities_all lb b data = Some (b, d) ->
  (forall m, (m < bsize lb)%nat -> csum (fun i => aflat data (m * bsize b + i)%nat) (bsize b) = 1) ->
  csum (aflat d) (bsize b) = 1.
Proof.
  intros W Hp Hd Hn. destruct (average_all_spec lb b data W) as [d' [E [_ E3]]]. rewrite Hd in E. inversion E; subst d'.
  rewrite (csum_ext _ (fun i => csum (fun m => aflat data (m * bsize b + i)%nat) (bsize lb) * / RtoC (INR (bsize lb)))) by (intros; apply E3; assumption).
  rewrite csum_scal_r, csum_swap, (csum_ext _ (fun _ => 1)) by (intros; apply Hn; assumption).
  rewrite csum_const. field. apply RtoC_INR_neq0. assumption.
Qed.

Lemma average_axes_spec lb b data ax : Forall (fun n => 0 < n)%nat (map bsize lb) ->
  nprod (ashape data) = (nprod (map bsize lb) * bsize b)%nat -> good_axes (length lb) ax ->
  exists d, average_probabilities lb b data (map Z.of_nat ax) = Some (remaining (BFund 1) ax lb, d) /\
    let s' := map bsize (remaining (BFund 1) ax lb) in
    ashape d = [(nprod s' * bsize b)%nat] /\
    forall out i, in_shape out s' -> (i < bsize b)%nat ->
      aflat d (ravel s' out * bsize b + i)%nat =
      sum_matching ax (map bsize lb) (fun t => aflat data (t * bsize b + i)%nat) out
      / RtoC (INR (nprod (removed 0%nat ax (map bsize lb)))).
Proof.
  intros Hpos W G. unfold average_probabilities. set (s := map bsize lb) in *.
  assert (Hp : (0 < nprod s)%nat) by (apply nprod_pos; assumption).
  replace (nprod s =? 0)%nat with false by (symmetry; apply Nat.eqb_neq; lia).
  rewrite W, Nat.mul_comm, Nat.mod_mul, Nat.eqb_refl, Nat.div_mul by lia.
  assert (G' : good_axes (length s) ax) by (unfold s; rewrite map_length; assumption).
  destruct (np_average_spec data (s ++ [bsize b]) ax) as [r [E1 [E2 E3]]].
  { rewrite nprod_snoc. exact W. } { rewrite app_length. apply (good_axes_le (length s)); [lia|assumption]. }
  rewrite E1. exists r. rewrite not_in_remaining. split; [reflexivity|]. cbv zeta. set (s' := map bsize (remaining (BFund 1) ax lb)).
  rewrite remaining_snoc, removed_snoc in E3 by assumption. rewrite remaining_snoc in E2 by assumption.
  assert (Es : remaining 0%nat ax s = s') by (unfold s, s'; rewrite remaining_bsize, not_in_remaining; reflexivity).
  rewrite Es in E2, E3. split; [rewrite E2, nprod_snoc; reflexivity|].
  intros out i Ho Hi. specialize (E3 (out ++ [i])). rewrite ravel_snoc in E3 by assumption.
  rewrite E3 by (apply in_shape_snoc; assumption). rewrite sum_matching_snoc by assumption. reflexivity.
Qed.

Lemma get_probability_spec lb b data idx k : nprod (ashape data) = (bsize lb * bsize b)%nat ->
  python_index (bsize lb) idx = Some k ->
  exists d, get_probability lb b data idx = Some (b, d) /\ ashape d = [bsize b] /\
    forall i, aflat d i = aflat data (k * bsize b + i)%nat.
Proof.
  intros W H. unfold get_probability. rewrite reshape_some, H by (simpl; lia). eexists. split; [reflexivity|].
  cbn. split; [reflexivity|]. intros i. rewrite Nat.mul_1_r. reflexivity.
Qed.

Lemma get_probability_index lb b data idx k : nprod (ashape data) = (bsize lb * bsize b)%nat -> (k < bsize lb)%nat ->
  (idx = Z.of_nat k \/ idx = Z.of_nat k - Z.of_nat (bsize lb))%Z ->
  exists d, get_probability lb b data idx = Some (b, d) /\ ashape d = [bsize b] /\
    forall i, aflat d i = aflat data (k * bsize b + i)%nat.
Proof. intros W Hk Hi. apply get_probability_spec; [assumption|]. apply python_index_spec. auto. Qed.

Lemma sum_probability_twice b data ax b' d : sum_probability b data ax = Some (b', d) ->
  forall ax', sum_probability b' d ax' = None.
Proof.
  intros H ax'. destruct b as [l|l]; [|discriminate]. unfold sum_probability in H.
  destruct (np_sum _ _ _); [|discriminate]. injection H as <- <-. reflexivity.
Qed.
