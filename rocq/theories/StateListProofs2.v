(** Proofs about the states along some axes of the list, and about inner products. *)
From Coq Require Import Reals Lra Permutation Sorted.
From Verif Require Import ZLib Csum DFT NumPy Index IndexProofs AxesProofs Spec SpecReal Basis SpecBasis BasisProofs BasisProofs2 BasisProofs3
  Operator SpecOperator OperatorProofs OperatorProofs2 Reduce SpecReduce ReduceProofs ReduceProofs2 Wavepacket SpecWavepacket Localize
  LocalizeProofs3 StateList SpecStateList StateListProofs.
Local Open Scope R_scope.
Local Open Scope C_scope.

Lemma position_sorted axes j : NoDup axes -> (j < length axes)%nat ->
  nth (nth j (get_position_in_sorted axes) 0%nat) (sorted_nat axes) 0%nat = nth j axes 0%nat.
Proof.
  intros N Hj. rewrite <- argsort_reads_sorted.
  assert (L : length (argsort axes) = length axes) by apply argsort_length.
  assert (P : (nth j (get_position_in_sorted axes) 0 < length axes)%nat).
  { unfold get_position_in_sorted.
    assert (I : In (nth j (argsort (argsort axes)) 0%nat) (seq 0 (length (argsort axes)))).
    { eapply Permutation_in; [apply argsort_perm|]. apply nth_In. rewrite !argsort_length. exact Hj. }
    apply in_seq in I. lia. }
  set (f := fun i => nth i axes 0%nat).
  rewrite (nth_indep _ 0%nat (f 0%nat)) by (rewrite map_length, L; exact P).
  rewrite map_nth. unfold f. f_equal.
  assert (Q := argsort_inverse (argsort axes) (length axes) (argsort_perm axes)).
  fold (get_position_in_sorted axes) in Q.
  assert (Q' : nth j (map (fun i => nth i (argsort axes) 0%nat) (get_position_in_sorted axes)) 0%nat = nth j (seq 0 (length axes)) 0%nat)
    by (rewrite Q; reflexivity).
  rewrite seq_nth in Q' by exact Hj. cbn in Q'. rewrite <- Q' at 2.
  set (g := fun i => nth i (argsort axes) 0%nat).
  rewrite (nth_indep (map g _) 0%nat (g 0%nat)) by (rewrite map_length; unfold get_position_in_sorted; rewrite !argsort_length; exact Hj).
  rewrite map_nth. reflexivity.
Qed.

Lemma sliced_filter (p : nat -> bool) (g : nat -> nat) shape : forall j,
  sliced_shape shape (map (fun k => if p k then None else Some (g k)) (seq j (length shape))) =
  map (fun k => nth (k - j) shape 0%nat) (filter p (seq j (length shape))).
Proof.
  induction shape as [|n shape IH]; intros j; [reflexivity|]. cbn [length seq map sliced_shape filter].
  assert (E : map (fun k => nth (k - S j) shape 0%nat) (filter p (seq (S j) (length shape))) =
    map (fun k => nth (k - j) (n :: shape) 0%nat) (filter p (seq (S j) (length shape)))).
  { apply map_ext_in. intros k Hk. apply filter_In in Hk. destruct Hk as [Hk _]. apply in_seq in Hk.
    replace (k - j)%nat with (S (k - S j)) by lia. reflexivity. }
  destruct (p j) eqn:Ep; cbn [sliced_shape map]; rewrite IH, E; [|reflexivity].
  rewrite Nat.sub_diag. reflexivity.
Qed.

Lemma slice_ok_filter (p : nat -> bool) (g : nat -> nat) shape : forall j, (forall k, (j <= k < j + length shape)%nat -> p k = false -> (g k < nth (k - j) shape 0)%nat) ->
  slice_ok shape (map (fun k => if p k then None else Some (g k)) (seq j (length shape))) = true.
Proof.
  induction shape as [|n shape IH]; intros j H; [reflexivity|]. cbn [length seq map slice_ok].
  assert (R : slice_ok shape (map (fun k => if p k then None else Some (g k)) (seq (S j) (length shape))) = true).
  { apply IH. intros k Hk Ek. specialize (H k ltac:(cbn [length]; lia) Ek).
    replace (k - j)%nat with (S (k - S j)) in H by lia. exact H. }
  destruct (p j) eqn:Ep; [exact R|]. rewrite R. specialize (H j ltac:(cbn [length]; lia) Ep). rewrite Nat.sub_diag in H. cbn in H.
  destruct (Nat.ltb_spec (g j) n); [reflexivity|lia].
Qed.

Lemma combine_filter_map {A} (d : A) (p : nat -> bool) (l : list A) : forall j,
  map snd (filter (fun q => p (fst q)) (combine (seq j (length l)) l)) =
  map (fun k => nth (k - j) l d) (filter p (seq j (length l))).
Proof.
  induction l as [|x l IH]; intros j; [reflexivity|]. cbn [length seq combine filter fst].
  assert (E : map (fun k => nth (k - S j) l d) (filter p (seq (S j) (length l))) =
    map (fun k => nth (k - j) (x :: l) d) (filter p (seq (S j) (length l)))).
  { apply map_ext_in. intros k Hk. apply filter_In in Hk. destruct Hk as [Hk _]. apply in_seq in Hk.
    replace (k - j)%nat with (S (k - S j)) by lia. reflexivity. }
  destruct (p j); cbn [map snd]; rewrite IH, E; [|reflexivity]. rewrite Nat.sub_diag. reflexivity.
Qed.

Lemma nprod_perm l l' : Permutation l l' -> nprod l = nprod l'.
Proof. induction 1; cbn [nprod]; lia. Qed.

Lemma other_axes_snoc nd axes : Forall (fun a => (a < nd)%nat) axes -> other_axes (S nd) (axes ++ [nd]) = other_axes nd axes.
Proof.
  intros F. unfold other_axes. rewrite seq_S, filter_app. cbn [filter plus].
  replace (existsb (Nat.eqb nd) (axes ++ [nd])) with true.
  2:{ symmetry. apply existsb_exists. exists nd. split; [apply in_or_app; right; left; reflexivity|apply Nat.eqb_refl]. }
  cbn [negb]. rewrite app_nil_r. apply filter_ext_in'. intros k Hk. apply in_seq in Hk. rewrite existsb_app. cbn [existsb].
  destruct (Nat.eqb_spec k nd); [lia|]. rewrite !orb_false_r. reflexivity.
Qed.

Lemma Forall2_map_same {A} (R : nat -> nat -> Prop) (f g : A -> nat) l : Forall2 R (map f l) (map g l) -> forall x, In x l -> R (f x) (g x).
Proof.
  induction l as [|y l IH]; cbn [map]; intros H x Hx; [destruct Hx|]. inversion H; subst. destruct Hx as [->|Hx]; [assumption|].
  apply IH; assumption.
Qed.

Section Along.
  Variables (lb : list basis) (b : basis) (data : ndarray) (axes idx : list nat).
  Let nd := length lb.
  Let sizes := map bsize lb.
  Let m := bsize b.
  Let shape := (sizes ++ [m])%list.
  Let ax := (axes ++ [nd])%list.
  Context (Hpos : Forall (fun n => (0 < n)%nat) sizes) (Hd : nprod (ashape data) = (nprod sizes * m)%nat)
    (Hg : good_axes nd axes) (Hidx : in_shape idx (remaining 0%nat axes sizes)).

  Lemma len_shape : length shape = S nd.
  Proof using Hg Hidx Hpos Hd. unfold shape, sizes, nd. rewrite app_length, map_length. cbn. rewrite Nat.add_comm. reflexivity. Qed.
  Lemma ax_nodup : NoDup ax.
  Proof using Hg Hidx Hpos Hd.
    destruct Hg as [N F]. unfold ax. apply (Permutation_NoDup (l := (nd :: axes)%list)).
    - apply Permutation_cons_append.
    - constructor; [|exact N]. rewrite Forall_forall in F. intros I. specialize (F _ I). lia.
  Qed.
  Lemma ax_range : Forall (fun a => (a < S nd)%nat) ax.
  Proof using Hg Hidx Hpos Hd.
    destruct Hg as [_ F]. unfold ax. apply Forall_app. split; [|constructor; [lia|constructor]].
    eapply Forall_impl; [|exact F]. cbn. intros a Ha. lia.
  Qed.

  Lemma len_idx : (length idx + length axes = nd)%nat.
  Proof using Hg Hidx Hpos Hd.
    apply in_shape_length in Hidx. unfold remaining in Hidx. rewrite map_length in Hidx. unfold sizes in Hidx. rewrite map_length in Hidx.
    fold nd in Hidx. rewrite Hidx. destruct Hg as [N F].
    assert (P : (length (other_axes nd axes) + length (filter (fun k => memb k axes) (seq 0 nd)) = nd)%nat).
    { unfold other_axes. rewrite <- (seq_length nd 0) at 3. generalize (seq 0 nd). intros l. unfold memb.
      induction l as [|x l IH]; [reflexivity|]. cbn [filter]. destruct (existsb _ _); cbn [negb length]; lia. }
    rewrite sorted_axes_filter in P by assumption. rewrite (Permutation_length (sorted_nat_perm axes)) in P. exact P.
  Qed.

  Lemma full_exists out : length out = length axes -> exists full, at_axes nd axes out idx full.
  Proof using Hg Hidx Hpos Hd.
    intros L. destruct Hg as [N F]. destruct (full_index_exists nd axes idx out N F L len_idx) as [full H].
    exists full. exact H.
  Qed.

  Lemma full_in_range out full : in_shape out (map (fun a => nth a sizes 0%nat) axes) -> at_axes nd axes out idx full -> in_shape full sizes.
  Proof using Hg Hidx Hpos Hd.
    intros Ho [Lf [Hj Hi]].
    assert (G : forall k, (k < nd)%nat -> (nth k full 0 < nth k sizes 0)%nat).
    { intros k Hk. destruct (memb k axes) eqn:Em.
      - apply memb_In in Em. destruct (In_nth axes k 0%nat Em) as [j [Lj <-]]. rewrite Hj by exact Lj.
        assert (Lo := in_shape_length _ _ Ho). rewrite map_length in Lo.
        apply (fun H => IndexProofs.in_shape_nth _ _ j H) in Ho; [|rewrite map_length; exact Lj].
        set (f := fun a => nth a sizes 0%nat) in Ho. rewrite (nth_indep (map f axes) 0%nat (f 0%nat)) in Ho by (rewrite map_length; exact Lj).
        rewrite map_nth in Ho. exact Ho.
      - assert (Hidx' := Hidx). unfold remaining in Hidx'. rewrite <- Hi in Hidx'. unfold sizes in Hidx' at 2. rewrite map_length in Hidx'.
        fold nd in Hidx'. apply (Forall2_map_same lt _ _ _ Hidx'). unfold other_axes. apply filter_In. split; [apply in_seq; lia|].
        unfold memb in Em. rewrite Em. reflexivity. }
    clear - Lf G. assert (Ls : length sizes = nd) by (unfold sizes; apply map_length). revert Lf G. rewrite <- Ls. generalize sizes.
    clear. induction full as [|i full IH]; intros [|n s] L G; try discriminate; constructor.
    - apply (G 0%nat). cbn. lia.
    - apply IH; [injection L as L; exact L|]. intros k Hk. apply (G (S k)). cbn. lia.
  Qed.

  Lemma slices_spec : exists full0, slice_ignoring_axes idx ax =
      map (fun k => if memb k ax then None else Some (nth k full0 0%nat)) (seq 0 (length shape)) /\
      slice_ok shape (slice_ignoring_axes idx ax) = true.
  Proof using Hg Hidx Hpos Hd.
    destruct (full_exists (repeat 0%nat (length axes)) (repeat_length _ _)) as [full Hf]. exists full.
    assert (E : slice_ignoring_axes idx ax = map (fun k => if memb k ax then None else Some (nth k full 0%nat)) (seq 0 (length shape))).
    { rewrite len_shape. apply slice_ignoring_axes_spec; [apply ax_nodup|apply ax_range|].
      fold (other_axes (S nd) ax). change (filter _ _) with (other_axes (S nd) ax). unfold ax.
      rewrite other_axes_snoc by apply Hg. apply Hf. }
    split; [exact E|]. rewrite E. apply slice_ok_filter. intros k [_ Hk] Em. rewrite Nat.sub_0_r.
    rewrite len_shape in Hk. cbn in Hk.
    assert (Hk' : (k < nd)%nat).
    { destruct (Nat.eq_dec k nd) as [->|]; [|lia]. exfalso. unfold ax in Em.
      assert (memb nd (axes ++ [nd]) = true) by (apply memb_In, in_or_app; right; left; reflexivity). congruence. }
    unfold shape. rewrite app_nth1 by (unfold sizes; rewrite map_length; exact Hk').
    apply IndexProofs.in_shape_nth; [|unfold sizes; rewrite map_length; exact Hk'].
    apply (full_in_range (repeat 0%nat (length axes))); [|exact Hf].
    clear - Hpos Hg. destruct Hg as [_ F]. clear Hg. induction axes as [|a l IH]; cbn [repeat map length]; constructor.
    - inversion F; subst. rewrite Forall_forall in Hpos. apply Hpos, nth_In. unfold sizes. rewrite map_length. assumption.
    - apply IH. inversion F; assumption.
  Qed.

  Lemma sliced_spec : sliced_shape shape (slice_ignoring_axes idx ax) = map (fun a => nth a shape 0%nat) (sorted_nat ax).
  Proof using Hg Hidx Hpos Hd.
    destruct slices_spec as [full0 [E _]]. rewrite E, sliced_filter. rewrite len_shape.
    rewrite (sorted_axes_filter (S nd) ax ax_nodup ax_range). apply map_ext. intros a. rewrite Nat.sub_0_r. reflexivity.
  Qed.

  Lemma out_spec : map (fun j => nth j (sliced_shape shape (slice_ignoring_axes idx ax)) 0%nat) (get_position_in_sorted ax) =
    map (fun a => nth a shape 0%nat) ax.
  Proof using Hg Hidx Hpos Hd.
    rewrite sliced_spec. apply (nth_ext _ _ 0%nat 0%nat).
    { rewrite !map_length. unfold get_position_in_sorted. rewrite !argsort_length. reflexivity. }
    intros j Hj. rewrite map_length in Hj.
    assert (Lj : (j < length ax)%nat) by (unfold get_position_in_sorted in Hj; rewrite !argsort_length in Hj; exact Hj).
    set (f := fun j => nth j (map _ _) 0%nat). set (g := fun a => nth a shape 0%nat).
    rewrite (nth_indep _ 0%nat (f 0%nat)) by (rewrite map_length; exact Hj).
    rewrite (nth_indep (map g _) 0%nat (g 0%nat)) by (rewrite map_length; exact Lj). rewrite !map_nth.
    unfold f. fold g.
    assert (P : (nth j (get_position_in_sorted ax) 0 < length (sorted_nat ax))%nat).
    { rewrite (Permutation_length (sorted_nat_perm ax)). unfold get_position_in_sorted.
      assert (I : In (nth j (argsort (argsort ax)) 0%nat) (seq 0 (length (argsort ax)))).
      { eapply Permutation_in; [apply argsort_perm|]. apply nth_In. rewrite !argsort_length. exact Lj. }
      apply in_seq in I. rewrite argsort_length in I. lia. }
    rewrite (nth_indep _ 0%nat (g 0%nat)) by (rewrite map_length; exact P).
    rewrite map_nth. rewrite position_sorted by (apply ax_nodup || exact Lj). reflexivity.
  Qed.

  Lemma out_shape : map (fun a => nth a shape 0%nat) ax = (map (fun a => nth a sizes 0%nat) axes ++ [m])%list.
  Proof using Hg Hidx Hpos Hd.
    unfold ax. rewrite map_app. cbn [map]. f_equal.
    - apply map_ext_in. intros a Ha. unfold shape. rewrite app_nth1; [reflexivity|]. destruct Hg as [_ F].
      rewrite Forall_forall in F. unfold sizes. rewrite map_length. apply F, Ha.
    - unfold shape. rewrite app_nth2 by (unfold sizes; rewrite map_length; fold nd; lia).
      replace (length sizes) with nd by (unfold sizes; rewrite map_length; reflexivity). rewrite Nat.sub_diag. reflexivity.
  Qed.

  Lemma along_spec : exists s, get_state_along_axis lb b data axes (Some idx) = Some s /\
    slist s = BTuple (removed (BFund 1) axes lb) /\ sbasis s = b /\ well_formed_list s /\
    forall out full, in_shape out (map (fun a => nth a sizes 0%nat) axes) -> at_axes nd axes out idx full ->
      forall t, (t < m)%nat ->
        state_of s (ravel (map (fun a => nth a sizes 0%nat) axes) out) t = row m (aflat data) (ravel sizes full) t.
  Proof using Hg Hidx Hpos Hd.
    unfold get_state_along_axis. fold nd sizes. assert (Hp : (0 < nprod sizes)%nat) by (apply nprod_pos; exact Hpos).
    destruct (Nat.eqb_spec (nprod sizes) 0); [lia|].
    rewrite Hd, Nat.mul_comm, Nat.mod_mul, Nat.eqb_refl, Nat.div_mul by lia. fold shape ax.
    destruct slices_spec as [full0 [_ ->]].
    replace (length (sliced_shape shape (slice_ignoring_axes idx ax))) with (length ax)
      by (rewrite sliced_spec, map_length; symmetry; apply Permutation_length, sorted_nat_perm).
    rewrite Nat.eqb_refl. cbn [andb]. rewrite out_spec, out_shape. eexists. split; [reflexivity|].
    assert (EL : map snd (filter (fun p => existsb (Nat.eqb (fst p)) axes) (combine (seq 0 nd) lb)) = removed (BFund 1) axes lb).
    { unfold removed. unfold nd. rewrite (combine_filter_map (BFund 1) (fun k => existsb (Nat.eqb k) axes)).
      apply map_ext. intros k. rewrite Nat.sub_0_r. reflexivity. }
    split; [cbn [slist]; rewrite EL; reflexivity|]. split; [reflexivity|]. split.
    - unfold well_formed_list. cbn [sdata ashape slist sbasis nprod]. rewrite EL. rewrite nprod_app. cbn [nprod bsize]. fold m.
      rewrite !Nat.mul_1_r. f_equal. unfold removed. rewrite map_map. fold nd.
      change (filter (fun k => existsb (Nat.eqb k) axes) (seq 0 nd)) with (filter (fun k => memb k axes) (seq 0 nd)).
      rewrite sorted_axes_filter by apply Hg.
      rewrite (nprod_perm (map (fun x => bsize (nth x lb (BFund 1))) (sorted_nat axes)) (map (fun x => bsize (nth x lb (BFund 1))) axes))
        by (apply Permutation_map, sorted_nat_perm).
      f_equal. apply map_ext_in. intros a Ha. unfold sizes. destruct Hg as [_ F]. rewrite Forall_forall in F.
      rewrite (nth_indep _ 0%nat (bsize (BFund 1))) by (rewrite map_length; apply F, Ha). rewrite map_nth. reflexivity.
    - intros out full Ho Hf t Ht. unfold state_of, row. cbn [sbasis sdata aflat]. fold m.
      assert (Hm : (ravel (map (fun a => nth a sizes 0%nat) axes) out < nprod (map (fun a => nth a sizes 0%nat) axes))%nat)
        by (apply ravel_lt; exact Ho).
      unfold flatten. rewrite unravel_snoc by assumption. rewrite unravel_ravel by exact Ho.
      assert (Hf' := full_in_range out full Ho Hf). destruct Hf as [Lf [Hj Hi]].
      assert (Lo := in_shape_length _ _ Ho). rewrite map_length in Lo.
      rewrite (get_data_in_axes_spec _ (S nd) ax idx (out ++ [t]) (full ++ [t])).
      + unfold stack, shape. rewrite ravel_snoc by exact Hf'. reflexivity.
      + apply ax_nodup.
      + apply ax_range.
      + rewrite app_length, Lf. cbn. lia.
      + unfold ax. rewrite !app_length, Lo. reflexivity.
      + intros j Lj. unfold ax in *. rewrite app_length in Lj. cbn in Lj. destruct (Nat.eq_dec j (length axes)) as [->|].
        * rewrite (app_nth2 axes) by lia. rewrite Nat.sub_diag. cbn [nth]. rewrite app_nth2 by lia. rewrite Lf, Nat.sub_diag.
          rewrite app_nth2 by lia. rewrite Lo, Nat.sub_diag. reflexivity.
        * rewrite (app_nth1 axes) by lia. destruct Hg as [_ F]. rewrite Forall_forall in F.
          assert (In (nth j axes 0%nat) axes) by (apply nth_In; lia).
          rewrite app_nth1 by (rewrite Lf; apply F; assumption). rewrite app_nth1 by lia. apply Hj. lia.
      + change (filter _ _) with (other_axes (S nd) ax). unfold ax. rewrite other_axes_snoc by apply Hg.
        rewrite <- Hi. apply map_ext_in. intros k Hk. unfold other_axes in Hk. apply filter_In in Hk. destruct Hk as [Hk _].
        apply in_seq in Hk. apply app_nth1. lia.
  Qed.
End Along.
