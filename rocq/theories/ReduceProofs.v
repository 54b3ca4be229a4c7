From Coq Require Import Reals Psatz.
From Verif Require Import ZLib Csum DFT NumPy Spec IndexProofs Basis SpecBasis BasisProofs Operator SpecOperator OperatorProofs OperatorProofs2 Reduce SpecReduce.
Local Open Scope R_scope.
Local Open Scope C_scope.

(** ** Masks *)

Lemma keep_filter {A} (d : A) f (l : list A) s :
  keep (map f (seq s (length l))) l = map (fun k => nth (k - s) l d) (filter (fun k => negb (f k)) (seq s (length l))).
Proof.
  revert s; induction l as [|x l IH]; intros s; [reflexivity|]. simpl.
  assert (E : forall l', (forall k, In k l' -> (s < k)%nat) ->
     map (fun k => nth (k - s) (x :: l) d) l' = map (fun k => nth (k - S s) l d) l').
  { intros l' H. apply map_ext_in. intros k Hk. specialize (H k Hk).
    replace (k - s)%nat with (S (k - S s)) by lia. reflexivity. }
  assert (G : forall k, In k (filter (fun k => negb (f k)) (seq (S s) (length l))) -> (s < k)%nat).
  { intros k Hk. apply filter_In in Hk. destruct Hk as [Hk _]. apply in_seq in Hk. lia. }
  destruct (f s); simpl.
  - rewrite IH, <- E by exact G. reflexivity.
  - rewrite IH, <- E by exact G. rewrite Nat.sub_diag. reflexivity.
Qed.

Lemma drop_filter {A} (d : A) f (l : list A) s :
  drop (map f (seq s (length l))) l = map (fun k => nth (k - s) l d) (filter f (seq s (length l))).
Proof.
  revert s; induction l as [|x l IH]; intros s; [reflexivity|]. simpl.
  assert (E : forall l', (forall k, In k l' -> (s < k)%nat) ->
     map (fun k => nth (k - s) (x :: l) d) l' = map (fun k => nth (k - S s) l d) l').
  { intros l' H. apply map_ext_in. intros k Hk. specialize (H k Hk).
    replace (k - s)%nat with (S (k - S s)) by lia. reflexivity. }
  assert (G : forall k, In k (filter f (seq (S s) (length l))) -> (s < k)%nat).
  { intros k Hk. apply filter_In in Hk. destruct Hk as [Hk _]. apply in_seq in Hk. lia. }
  destruct (f s); simpl.
  - rewrite IH, <- E by exact G. rewrite Nat.sub_diag. reflexivity.
  - rewrite IH, <- E by exact G. reflexivity.
Qed.

Lemma keep_remaining {A} (d : A) ax l : keep (axis_mask (length l) ax) l = remaining d ax l.
Proof.
  unfold axis_mask, remaining, other_axes. rewrite (keep_filter d). apply map_ext. intros. f_equal. lia.
Qed.
Lemma drop_removed {A} (d : A) ax l : drop (axis_mask (length l) ax) l = removed d ax l.
Proof.
  unfold axis_mask, removed. rewrite (drop_filter d). apply map_ext. intros. f_equal. lia.
Qed.

Lemma combine_filter_keep {A} g (l : list A) s :
  map snd (filter (fun p => negb (g (fst p))) (combine (seq s (length l)) l)) = keep (map g (seq s (length l))) l.
Proof.
  revert s; induction l as [|x l IH]; intros s; [reflexivity|]. simpl.
  destruct (g s); simpl; rewrite IH; reflexivity.
Qed.

Lemma existsb_of_nat k ax : existsb (Z.eqb (Z.of_nat k)) (map Z.of_nat ax) = existsb (Nat.eqb k) ax.
Proof.
  induction ax as [|a ax IH]; [reflexivity|]. simpl. rewrite IH. f_equal.
  destruct (Nat.eqb_spec k a) as [->|H]; [apply Z.eqb_refl|]. apply Z.eqb_neq. lia.
Qed.

Lemma not_in_axes_keep {A} (l : list A) ax : not_in_axes l (map Z.of_nat ax) = keep (axis_mask (length l) ax) l.
Proof.
  unfold not_in_axes, axis_mask. rewrite <- combine_filter_keep. f_equal. apply filter_ext. intros [k x]. simpl.
  rewrite existsb_of_nat. reflexivity.
Qed.

Lemma keep_map {A B} (f : A -> B) mask l : keep mask (map f l) = map f (keep mask l).
Proof. revert l; induction mask as [|[] m IH]; intros [|x l]; simpl; try reflexivity; rewrite ?IH; reflexivity. Qed.

Lemma has_dup_spec l : has_dup l = false <-> NoDup l.
Proof.
  induction l as [|x l IH]; simpl; [split; [constructor|reflexivity]|].
  rewrite Bool.orb_false_iff, IH. split.
  - intros [H1 H2]. constructor; [|assumption]. intros Hin.
    assert (existsb (Nat.eqb x) l = true) by (apply existsb_exists; exists x; split; [assumption|apply Nat.eqb_refl]).
    congruence.
  - intros H. inversion H as [|? ? Hn Hd]; subst. split; [|assumption].
    destruct (existsb (Nat.eqb x) l) eqn:E; [|reflexivity]. apply existsb_exists in E.
    destruct E as [y [Hy Hxy]]. apply Nat.eqb_eq in Hxy. subst. contradiction.
Qed.

Lemma normal_axes_good nd ax : good_axes nd ax -> normal_axes nd (map Z.of_nat ax) = Some ax.
Proof.
  intros [Hd Hl]. unfold normal_axes.
  assert (E : all_some (map (python_index nd) (map Z.of_nat ax)) = Some ax).
  { clear Hd. induction Hl as [|a ax Ha Hl IH]; [reflexivity|]. simpl.
    assert (P : python_index nd (Z.of_nat a) = Some a) by (apply python_index_spec; lia).
    rewrite P, IH. reflexivity. }
  rewrite E. apply has_dup_spec in Hd. rewrite Hd. reflexivity.
Qed.

Lemma normal_axes_out nd ax : ~ Forall (fun a => (a < nd)%nat) ax -> normal_axes nd (map Z.of_nat ax) = None.
Proof.
  intros H. unfold normal_axes.
  assert (E : all_some (map (python_index nd) (map Z.of_nat ax)) = None).
  { induction ax as [|a ax IH]; [exfalso; apply H; constructor|]. simpl.
    destruct (python_index nd (Z.of_nat a)) as [k|] eqn:P; [|reflexivity].
    apply python_index_spec in P. rewrite IH; [reflexivity|]. intros HF. apply H. constructor; [lia|assumption]. }
  rewrite E. reflexivity.
Qed.

Lemma good_axes_range n : good_axes n (seq 0 n).
Proof. split; [apply seq_NoDup|]. apply Forall_forall. intros a Ha. apply in_seq in Ha. lia. Qed.

Lemma remaining_range {A} (d : A) l : remaining d (seq 0 (length l)) l = [].
Proof.
  unfold remaining, other_axes. replace (filter _ _) with (@nil nat); [reflexivity|].
  symmetry. induction (seq 0 (length l)) as [|x l' IH] eqn:E using rev_ind; [reflexivity|].
  clear IH. rewrite <- E. clear E x l'.
  assert (G : forall s, (forall k, In k s -> In k (seq 0 (length l))) ->
     filter (fun k => negb (existsb (Nat.eqb k) (seq 0 (length l)))) s = []).
  { induction s as [|k s IHs]; intros H; [reflexivity|]. simpl.
    assert (Ek : existsb (Nat.eqb k) (seq 0 (length l)) = true).
    { apply existsb_exists. exists k. split; [apply H; left; reflexivity|apply Nat.eqb_refl]. }
    rewrite Ek. simpl. apply IHs. intros; apply H; right; assumption. }
  apply G. auto.
Qed.

Lemma keep_in_shape mask idx s : in_shape idx s -> in_shape (keep mask idx) (keep mask s).
Proof.
  intros H; revert mask; induction H as [|i n idx s Hi H IH]; intros [|[] m]; simpl; try constructor; auto;
  apply IH.
Qed.

Lemma nprod_keep_drop mask s : length mask = length s -> (nprod (keep mask s) * nprod (drop mask s))%nat = nprod s.
Proof.
  revert s; induction mask as [|[] m IH]; intros [|n s]; simpl; intros H; try lia.
  - rewrite <- (IH s) by lia. lia.
  - rewrite <- (IH s) by lia. lia.
Qed.

(** ** The reduction *)

Lemma unravel_cons n s i j : (j < nprod s)%nat -> unravel (n :: s) (i * nprod s + j) = i :: unravel s j.
Proof.
  intros H. simpl. rewrite div_add_small, mod_add_small by assumption. reflexivity.
Qed.

Lemma reduce_sum_spec mask s a out : length mask = length s -> in_shape out (keep mask s) ->
  reduce_sum mask s a out =
  csum (fun t => if list_eq_dec Nat.eq_dec (keep mask (unravel s t)) out then a (unravel s t) else 0) (nprod s).
Proof.
  revert s a out; induction mask as [|b m IH]; intros [|n s] a out Hl Ho; try discriminate.
  - simpl in *. inversion Ho; subst. destruct (list_eq_dec Nat.eq_dec [] []); [ring|congruence].
  - simpl in Hl. change (nprod (n :: s)) with (n * nprod s)%nat. rewrite csum_mul. destruct b.
    + cbn [reduce_sum]. apply csum_ext; intros i Hi. rewrite IH by (simpl in Ho; auto; lia).
      apply csum_ext; intros j Hj. rewrite unravel_cons by assumption. reflexivity.
    + simpl in Ho. inversion Ho as [|o0 n0 out' s' Ho0 Ho']; subst. cbn [reduce_sum hd tl].
      rewrite IH by (auto; lia).
      rewrite (csum_single _ n o0 Ho0).
      * apply csum_ext; intros j Hj. rewrite unravel_cons by assumption. cbn [keep].
        destruct (list_eq_dec Nat.eq_dec (keep m (unravel s j)) out') as [E|E];
        destruct (list_eq_dec Nat.eq_dec (o0 :: keep m (unravel s j)) (o0 :: out')) as [E'|E']; try reflexivity; congruence.
      * intros i Hi Hne. apply csum_zero_ext. intros j Hj. rewrite unravel_cons by assumption. cbn [keep].
        destruct (list_eq_dec Nat.eq_dec (i :: keep m (unravel s j)) (o0 :: out')); [congruence|reflexivity].
Qed.

Lemma axis_mask_length nd ax : length (axis_mask nd ax) = nd.
Proof. unfold axis_mask. rewrite map_length, seq_length. reflexivity. Qed.

Lemma np_sum_spec a s ax : nprod (ashape a) = nprod s -> good_axes (length s) ax ->
  exists r, np_sum a s (map Z.of_nat ax) = Some r /\ ashape r = [nprod (remaining 0%nat ax s)] /\
    forall out, in_shape out (remaining 0%nat ax s) ->
      aflat r (ravel (remaining 0%nat ax s) out) = sum_matching ax s (aflat a) out.
Proof.
  intros Hs Hg. unfold np_sum. rewrite reshape_some, normal_axes_good by assumption.
  eexists. split; [reflexivity|]. cbn [ashape aflat]. rewrite (keep_remaining 0%nat). split; [reflexivity|].
  intros out Ho. rewrite unravel_ravel by assumption.
  rewrite reduce_sum_spec by (rewrite ?axis_mask_length, ?(keep_remaining 0%nat); auto).
  unfold sum_matching. apply csum_ext; intros t Ht.
  rewrite <- (keep_remaining 0%nat ax (unravel s t)), unravel_length. unfold stack. rewrite ravel_unravel by assumption.
  reflexivity.
Qed.

Lemma np_sum_raises a s ax : ~ Forall (fun a => (a < length s)%nat) ax -> np_sum a s (map Z.of_nat ax) = None.
Proof. intros H. unfold np_sum. rewrite normal_axes_out by assumption. destruct (reshape a s); reflexivity. Qed.

Lemma np_average_spec a s ax : nprod (ashape a) = nprod s -> good_axes (length s) ax ->
  exists r, np_average a s (map Z.of_nat ax) = Some r /\ ashape r = [nprod (remaining 0%nat ax s)] /\
    forall out, in_shape out (remaining 0%nat ax s) ->
      aflat r (ravel (remaining 0%nat ax s) out) =
      sum_matching ax s (aflat a) out / RtoC (INR (nprod (removed 0%nat ax s))).
Proof.
  intros Hs Hg. unfold np_average. destruct (np_sum_spec a s ax Hs Hg) as [r [E1 [E2 E3]]].
  rewrite E1, reshape_some, normal_axes_good by assumption. eexists. split; [reflexivity|]. cbn [ashape aflat].
  split; [assumption|]. intros out Ho. rewrite E3, (drop_removed 0%nat) by assumption. reflexivity.
Qed.

(** The total is preserved. *)
Lemma sum_matching_total ax s a :
  csum (fun o => sum_matching ax s a (unravel (remaining 0%nat ax s) o)) (nprod (remaining 0%nat ax s))
  = csum a (nprod s).
Proof.
  unfold sum_matching. rewrite csum_swap. apply csum_ext; intros t Ht.
  set (R := remaining 0%nat ax s).
  assert (Hk : in_shape (remaining 0%nat ax (unravel s t)) R).
  { unfold R. rewrite <- !keep_remaining, unravel_length. apply keep_in_shape. apply unravel_in_shape. assumption. }
  rewrite (csum_single _ _ (ravel R (remaining 0%nat ax (unravel s t)))).
  - rewrite unravel_ravel by assumption. destruct (list_eq_dec _ _ _); [reflexivity|congruence].
  - apply ravel_lt. assumption.
  - intros o Ho Hne. destruct (list_eq_dec _ _ _) as [E|E]; [|reflexivity]. exfalso. apply Hne.
    rewrite E. symmetry. apply ravel_unravel. assumption.
Qed.

Lemma sum_matching_real ax s (a : nat -> C) out : (forall t, (t < nprod s)%nat -> exists x, a t = RtoC x /\ (0 <= x)%R) ->
  exists x, sum_matching ax s a out = RtoC x /\ (0 <= x)%R.
Proof.
  unfold sum_matching. induction (nprod s) as [|n IH]; intros H; simpl.
  - exists 0%R. split; [reflexivity|lra].
  - destruct IH as [x [Ex Hx]]; [intros; apply H; lia|]. destruct (H n) as [y [Ey Hy]]; [lia|].
    rewrite Ex. destruct (list_eq_dec _ _ _).
    + exists (x + y)%R. rewrite Ey, RtoC_plus. split; [reflexivity|lra].
    + exists x. split; [ring|assumption].
Qed.

Lemma remaining_removed_count ax s : (nprod (remaining 0%nat ax s) * nprod (removed 0%nat ax s))%nat = nprod s.
Proof. rewrite <- keep_remaining, <- drop_removed. apply nprod_keep_drop. apply axis_mask_length. Qed.

Lemma remaining_bsize ax l : remaining 0%nat ax (map bsize l) = map bsize (not_in_axes l (map Z.of_nat ax)).
Proof. rewrite not_in_axes_keep, <- keep_map, <- keep_remaining, map_length. reflexivity. Qed.
