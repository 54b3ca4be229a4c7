(** Proofs about util/util.py (property C07): sorting, argsort, transpose. *)
From Coq Require Import Permutation Sorted.
From Verif Require Import ZLib NumPy Index.

Local Open Scope nat_scope.

Lemma sorted_unique l1 l2 :
  StronglySorted le l1 -> StronglySorted le l2 -> Permutation l1 l2 -> l1 = l2.
Proof.
  revert l2; induction l1 as [|x l1 IH]; intros l2 H1 H2 Hp.
  - apply Permutation_nil in Hp. subst; reflexivity.
  - destruct l2 as [|y l2]; [apply Permutation_sym, Permutation_nil in Hp; discriminate|].
    inversion H1 as [|? ? S1 F1]; subst. inversion H2 as [|? ? S2 F2]; subst.
    assert (Hxy : x = y).
    { rewrite Forall_forall in F1, F2.
      assert (Hx : In x (y :: l2)) by (eapply Permutation_in; [exact Hp|left; reflexivity]).
      assert (Hy : In y (x :: l1)) by (eapply Permutation_in; [apply Permutation_sym; exact Hp|left; reflexivity]).
      destruct Hx as [->|Hx]; [reflexivity|]. destruct Hy as [->|Hy]; [reflexivity|].
      specialize (F1 _ Hy). specialize (F2 _ Hx). lia. }
    subst y. f_equal. apply IH; try assumption. eapply Permutation_cons_inv; exact Hp.
Qed.

Lemma sort_insert_perm x l : Permutation (sort_insert x l) (x :: l).
Proof.
  induction l as [|y l IH]; simpl; [reflexivity|].
  destruct (x <=? y); [reflexivity|]. rewrite IH. apply perm_swap.
Qed.

Lemma sort_insert_sorted x l : StronglySorted le l -> StronglySorted le (sort_insert x l).
Proof.
  induction 1 as [|y l S IH F]; simpl; [repeat constructor|].
  destruct (Nat.leb_spec x y).
  - constructor; [constructor; assumption|]. constructor; [assumption|].
    eapply Forall_impl; [|exact F]. simpl; intros; lia.
  - constructor; [assumption|].
    eapply Permutation_Forall; [apply Permutation_sym, sort_insert_perm|]. constructor; [lia|assumption].
Qed.

Lemma sorted_nat_perm l : Permutation (sorted_nat l) l.
Proof.
  induction l as [|x l IH]; simpl; [reflexivity|]. rewrite sort_insert_perm. constructor; exact IH.
Qed.

Lemma sorted_nat_sorted l : StronglySorted le (sorted_nat l).
Proof. induction l; simpl; [constructor|]. apply sort_insert_sorted; assumption. Qed.

Definition key_sorted (key : nat -> nat) (l : list nat) := StronglySorted (fun i j => key i <= key j) l.

Lemma argsort_insert_perm key x l : Permutation (argsort_insert key x l) (x :: l).
Proof.
  induction l as [|y l IH]; simpl; [reflexivity|].
  destruct (key x <=? key y); [reflexivity|]. rewrite IH. apply perm_swap.
Qed.

Lemma argsort_insert_sorted key x l : key_sorted key l -> key_sorted key (argsort_insert key x l).
Proof.
  induction 1 as [|y l S IH F]; simpl; [repeat constructor|].
  destruct (Nat.leb_spec (key x) (key y)).
  - constructor; [constructor; assumption|]. constructor; [assumption|].
    eapply Forall_impl; [|exact F]. simpl; intros; lia.
  - constructor; [assumption|].
    eapply Permutation_Forall; [apply Permutation_sym, argsort_insert_perm|]. constructor; [lia|assumption].
Qed.

Lemma argsort_fold_perm key s : Permutation (fold_right (argsort_insert key) [] s) s.
Proof. induction s as [|x s IH]; simpl; [reflexivity|]. rewrite argsort_insert_perm. constructor; exact IH. Qed.

Lemma argsort_perm l : Permutation (argsort l) (seq 0 (length l)).
Proof. apply argsort_fold_perm. Qed.

Lemma argsort_sorted l : key_sorted (fun i => nth i l 0) (argsort l).
Proof.
  unfold argsort. induction (seq 0 (length l)); simpl; [constructor|].
  apply argsort_insert_sorted; assumption.
Qed.

Lemma map_nth_seq (l : list nat) : map (fun i => nth i l 0) (seq 0 (length l)) = l.
Proof.
  induction l as [|x l IH]; simpl; [reflexivity|]. f_equal.
  rewrite <- seq_shift, map_map. exact IH.
Qed.

Lemma key_sorted_map key l : key_sorted key l -> StronglySorted le (map key l).
Proof.
  induction 1; simpl; constructor; [assumption|]. rewrite Forall_map. assumption.
Qed.

(** Reading the list at its argsort gives the sorted list. *)
Lemma argsort_reads_sorted l : map (fun i => nth i l 0) (argsort l) = sorted_nat l.
Proof.
  apply sorted_unique.
  - apply key_sorted_map, argsort_sorted.
  - apply sorted_nat_sorted.
  - rewrite sorted_nat_perm. rewrite argsort_perm. rewrite map_nth_seq. reflexivity.
Qed.

Lemma seq_sorted a n : StronglySorted le (seq a n).
Proof.
  revert a; induction n; intros a; simpl; constructor; [apply IHn|].
  apply Forall_forall. intros x Hx. apply in_seq in Hx. lia.
Qed.

Lemma argsort_length l : length (argsort l) = length l.
Proof. rewrite (Permutation_length (argsort_perm l)). apply seq_length. Qed.

(** For a permutation, argsort is the inverse permutation. *)
Lemma argsort_inverse p n : Permutation p (seq 0 n) ->
  map (fun i => nth i p 0) (argsort p) = seq 0 n.
Proof.
  intros Hp. rewrite argsort_reads_sorted. apply sorted_unique.
  - apply sorted_nat_sorted.
  - apply seq_sorted.
  - rewrite sorted_nat_perm. exact Hp.
Qed.

Lemma list_index_nth x l d : In x l -> nth (list_index x l) l d = x /\ list_index x l < length l.
Proof.
  induction l as [|y l IH]; simpl; [intros []|]. intros H.
  destruct (Nat.eqb_spec x y) as [->|Hne]; [split; [reflexivity|lia]|].
  destruct H as [H|H]; [congruence|]. destruct (IH H). split; [assumption|lia].
Qed.

Lemma list_index_position axes m : m < length axes ->
  list_index m (get_position_in_sorted axes) = nth m (argsort axes) 0.
Proof.
  intros Hm. unfold get_position_in_sorted. set (p := argsort axes).
  assert (Hp : Permutation p (seq 0 (length axes))) by apply argsort_perm.
  assert (Hlen : length p = length axes) by (apply argsort_length).
  assert (Hq : Permutation (argsort p) (seq 0 (length axes))) by (rewrite argsort_perm, Hlen; reflexivity).
  assert (Hinv := argsort_inverse p _ Hp). set (q := argsort p) in *.
  assert (Hqlen : length q = length axes) by (rewrite (Permutation_length Hq); apply seq_length).
  assert (Hin : In m q).
  { eapply Permutation_in; [apply Permutation_sym; exact Hq|]. apply in_seq. lia. }
  destruct (list_index_nth m q 0 Hin) as [H1 H2]. set (k := list_index m q) in *.
  (* p[q[k]] = k *)
  assert (H3 : nth (nth k q 0) p 0 = k).
  { transitivity (nth k (map (fun i => nth i p 0) q) 0).
    - rewrite (nth_indep (map (fun i => nth i p 0) q) 0 (nth 0 p 0)) by (rewrite map_length; lia).
      rewrite (map_nth (fun i => nth i p 0) q 0 k). reflexivity.
    - rewrite Hinv. rewrite seq_nth by lia. reflexivity. }
  rewrite H1 in H3. symmetry. exact H3.
Qed.

Definition memb (k : nat) (l : list nat) : bool := existsb (Nat.eqb k) l.
Lemma memb_In k l : memb k l = true <-> In k l.
Proof.
  unfold memb. rewrite existsb_exists. split.
  - intros [x [H E]]. apply Nat.eqb_eq in E. subst; assumption.
  - intros H. exists k. split; [assumption|apply Nat.eqb_refl].
Qed.

Lemma list_insert_app {A} (x : A) l1 l2 : list_insert (length l1) x (l1 ++ l2) = l1 ++ x :: l2.
Proof. induction l1 as [|y l1 IH]; simpl; [destruct l2; reflexivity|]. rewrite IH. reflexivity. Qed.

Lemma filter_ext_in' (f g : nat -> bool) l :
  (forall x, In x l -> f x = g x) -> filter f l = filter g l.
Proof. apply filter_ext_in. Qed.

Lemma filter_all (f : nat -> bool) l : (forall x, In x l -> f x = true) -> filter f l = l.
Proof.
  induction l as [|x l IH]; simpl; intros H; [reflexivity|].
  rewrite (H x) by (left; reflexivity). f_equal. apply IH. intros; apply H; right; assumption.
Qed.

Lemma sorted_filter (f : nat -> bool) l : StronglySorted le l -> StronglySorted le (filter f l).
Proof.
  induction 1 as [|x l S IH F]; simpl; [constructor|]. destruct (f x); [|assumption].
  constructor; [assumption|]. apply Forall_forall. intros y Hy. apply filter_In in Hy.
  rewrite Forall_forall in F. apply F, Hy.
Qed.

Section Slices.
  Variables (ndim : nat) (g : nat -> option nat).

  Lemma insert_loop s done :
    StronglySorted lt s -> Forall (fun a => a < ndim) s ->
    (forall a, In a s -> g a = None) ->
    done = map g (filter (fun k => negb (memb k s)) (seq 0 ndim)) ->
    fold_left (fun sl axis => list_insert axis None sl) s done = map g (seq 0 ndim).
  Proof.
    revert done; induction s as [|a s IH]; intros done Hs Hlt Hg ->; cbn [fold_left].
    - f_equal. apply filter_all. reflexivity.
    - inversion Hs as [|? ? Hs' Ha]; subst. inversion Hlt as [|? ? Hlt1 Hlt']; subst.
      apply IH; try assumption; [intros; apply Hg; right; assumption|].
      rewrite Forall_forall in Ha.
      assert (E : seq 0 ndim = seq 0 a ++ a :: seq (S a) (ndim - S a)).
      { replace ndim with (a + (1 + (ndim - S a))) at 1 by lia. rewrite seq_app. reflexivity. }
      rewrite E, !filter_app, !map_app.
      assert (F1 : forall s0 : list nat, (forall x, In x s0 -> a <= x) ->
        filter (fun k => negb (memb k s0)) (seq 0 a) = seq 0 a).
      { intros s0 H0. apply filter_all. intros x Hx. apply in_seq in Hx.
        destruct (memb x s0) eqn:M; [|reflexivity]. apply memb_In in M. specialize (H0 _ M). lia. }
      rewrite (F1 (a :: s)) by (intros x [<-|Hx]; [lia|specialize (Ha _ Hx); lia]).
      rewrite (F1 s) by (intros x Hx; specialize (Ha _ Hx); lia).
      assert (Ma : memb a s = false).
      { destruct (memb a s) eqn:M; [|reflexivity]. apply memb_In in M. specialize (Ha _ M). lia. }
      assert (Maa : memb a (a :: s) = true) by (apply memb_In; left; reflexivity).
      cbn [filter]. rewrite Ma, Maa. cbn [negb map].
      rewrite (Hg a) by (left; reflexivity).
      transitivity (list_insert (length (map g (seq 0 a))) None
        (map g (seq 0 a) ++ map g (filter (fun k => negb (memb k (a :: s))) (seq (S a) (ndim - S a))))).
      { rewrite map_length, seq_length. reflexivity. }
      rewrite list_insert_app. f_equal. f_equal. f_equal.
      apply filter_ext_in. intros x Hx. apply in_seq in Hx. unfold memb. cbn [existsb].
      destruct (Nat.eqb_spec x a); [lia|]. reflexivity.
  Qed.
End Slices.

Lemma fill_slice_spec (full : list nat) (free : nat -> bool) k n :
  fill_slice (map (fun i => if free i then None else Some (nth i full 0)) (seq k n))
    (map (fun i => nth i full 0) (filter free (seq k n)))
  = map (fun i => nth i full 0) (seq k n).
Proof.
  revert k; induction n as [|n IH]; intros k; simpl; [reflexivity|].
  destruct (free k); simpl; f_equal; apply IH.
Qed.

Lemma NoDup_sorted_lt l : StronglySorted le l -> NoDup l -> StronglySorted lt l.
Proof.
  induction 1 as [|x l S IH F]; intros N; [constructor|]. inversion N; subst.
  constructor; [apply IH; assumption|]. apply Forall_forall. intros y Hy.
  rewrite Forall_forall in F. specialize (F _ Hy). assert (x <> y) by (intros ->; contradiction). lia.
Qed.

Lemma sorted_axes_filter ndim axes : NoDup axes -> Forall (fun a => a < ndim) axes ->
  filter (fun k => memb k axes) (seq 0 ndim) = sorted_nat axes.
Proof.
  intros N F. apply sorted_unique.
  - apply sorted_filter, seq_sorted.
  - apply sorted_nat_sorted.
  - rewrite sorted_nat_perm. apply NoDup_Permutation.
    + apply NoDup_filter, seq_NoDup.
    + assumption.
    + intros x. rewrite filter_In, memb_In, in_seq. rewrite Forall_forall in F.
      split; [tauto|]. intros H; split; [specialize (F _ H); lia|assumption].
Qed.

Lemma slice_ignoring_axes_spec ndim axes idx full :
  NoDup axes -> Forall (fun a => a < ndim) axes ->
  map (fun k => nth k full 0) (filter (fun k => negb (memb k axes)) (seq 0 ndim)) = idx ->
  slice_ignoring_axes idx axes =
  map (fun k => if memb k axes then None else Some (nth k full 0)) (seq 0 ndim).
Proof.
  intros N F <-. unfold slice_ignoring_axes.
  assert (Hm : forall k, memb k (sorted_nat axes) = memb k axes).
  { intros k. apply eq_true_iff_eq. rewrite !memb_In.
    split; apply Permutation_in; [|apply Permutation_sym]; apply sorted_nat_perm. }
  apply insert_loop.
  - apply NoDup_sorted_lt; [apply sorted_nat_sorted|].
    eapply Permutation_NoDup; [apply Permutation_sym, sorted_nat_perm|assumption].
  - eapply Permutation_Forall; [apply Permutation_sym, sorted_nat_perm|assumption].
  - intros a Ha. rewrite <- Hm. apply memb_In in Ha. rewrite Ha. reflexivity.
  - rewrite map_map. rewrite (filter_ext (fun k => negb (memb k (sorted_nat axes))) (fun k => negb (memb k axes)))
      by (intros k; rewrite Hm; reflexivity).
    apply map_ext_in. intros k Hk. apply filter_In in Hk. destruct Hk as [_ Hk].
    destruct (memb k axes); [discriminate|reflexivity].
Qed.

Lemma get_data_in_axes_spec {A} (data : list nat -> A) ndim axes idx out full :
  NoDup axes -> Forall (fun a => a < ndim) axes ->
  length full = ndim -> length out = length axes ->
  (forall j, j < length axes -> nth (nth j axes 0) full 0 = nth j out 0) ->
  map (fun k => nth k full 0) (filter (fun k => negb (memb k axes)) (seq 0 ndim)) = idx ->
  get_data_in_axes data axes idx out = data full.
Proof.
  intros N F Hfull Hout Hj Hidx. unfold get_data_in_axes, transpose. f_equal.
  rewrite (slice_ignoring_axes_spec ndim axes idx full N F Hidx).
  assert (Hrest : map (fun m => nth (list_index m (get_position_in_sorted axes)) out 0)
      (seq 0 (length (get_position_in_sorted axes)))
    = map (fun i => nth i full 0) (filter (fun k => memb k axes) (seq 0 ndim))).
  { rewrite sorted_axes_filter by assumption.
    rewrite <- argsort_reads_sorted. rewrite map_map.
    assert (Hlen : length (get_position_in_sorted axes) = length axes).
    { unfold get_position_in_sorted. rewrite !argsort_length. reflexivity. }
    rewrite Hlen.
    transitivity (map (fun m => nth (nth (nth m (argsort axes) 0) axes 0) full 0) (seq 0 (length axes))).
    - apply map_ext_in. intros m Hm. apply in_seq in Hm. rewrite list_index_position by lia.
      symmetry. apply Hj.
      assert (Hin : In (nth m (argsort axes) 0) (seq 0 (length axes))).
      { eapply Permutation_in; [apply argsort_perm|]. apply nth_In. rewrite argsort_length. lia. }
      apply in_seq in Hin. lia.
    - transitivity (map (fun x => nth (nth x axes 0) full 0)
        (map (fun i => nth i (argsort axes) 0) (seq 0 (length (argsort axes))))).
      + rewrite map_map, argsort_length. reflexivity.
      + rewrite map_nth_seq. reflexivity. }
  rewrite Hrest, fill_slice_spec, <- Hfull. apply map_nth_seq.
Qed.

(** The pieces determine a full index. *)
Lemma full_index_exists ndim axes idx out :
  NoDup axes -> Forall (fun a => a < ndim) axes ->
  length out = length axes -> length idx + length axes = ndim ->
  exists full, length full = ndim /\
    (forall j, j < length axes -> nth (nth j axes 0) full 0 = nth j out 0) /\
    map (fun k => nth k full 0) (filter (fun k => negb (memb k axes)) (seq 0 ndim)) = idx.
Proof.
  intros N F Hout Hidx.
  set (rest := filter (fun k => negb (memb k axes)) (seq 0 ndim)).
  set (v := fun k => if memb k axes then nth (list_index k axes) out 0
                     else nth (list_index k rest) idx 0).
  exists (map v (seq 0 ndim)).
  assert (Hv : forall k, k < ndim -> nth k (map v (seq 0 ndim)) 0 = v k).
  { intros k Hk. rewrite (nth_indep (map v (seq 0 ndim)) 0 (v 0)) by (rewrite map_length, seq_length; lia).
    rewrite map_nth, seq_nth by lia. reflexivity. }
  assert (Hrl : length rest = length idx).
  { assert (Hperm : Permutation (sorted_nat axes ++ rest) (seq 0 ndim)).
    { rewrite <- (sorted_axes_filter ndim) by assumption. unfold rest.
      generalize (seq 0 ndim) as l. induction l as [|x l IH]; simpl; [reflexivity|].
      destruct (memb x axes); simpl; [constructor; exact IH|].
      rewrite <- Permutation_middle. constructor; exact IH. }
    apply Permutation_length in Hperm. rewrite app_length, seq_length in Hperm.
    rewrite (Permutation_length (sorted_nat_perm axes)) in Hperm. lia. }
  assert (Hpos : forall l j, NoDup l -> j < length l -> list_index (nth j l 0) l = j).
  { intros l j Nl Hjl. destruct (list_index_nth (nth j l 0) l 0) as [H1 H2]; [apply nth_In; assumption|].
    rewrite NoDup_nth in Nl. apply Nl; eassumption. }
  split; [rewrite map_length, seq_length; reflexivity|]. split.
  - intros j Hj. rewrite Forall_forall in F.
    rewrite Hv by (apply F, nth_In; assumption). unfold v.
    assert (M : memb (nth j axes 0) axes = true) by (apply memb_In, nth_In; assumption).
    rewrite M. rewrite Hpos by assumption. reflexivity.
  - fold rest. transitivity (map (fun k => nth (list_index k rest) idx 0) rest).
    + apply map_ext_in. intros k Hk. unfold rest in Hk. apply filter_In in Hk. destruct Hk as [Hk M].
      apply in_seq in Hk. rewrite Hv by lia. unfold v. destruct (memb k axes); [discriminate|reflexivity].
    + assert (Nr : NoDup rest) by (apply NoDup_filter, seq_NoDup).
      transitivity (map (fun k => nth (list_index k rest) idx 0)
        (map (fun i => nth i rest 0) (seq 0 (length rest)))); [rewrite map_nth_seq; reflexivity|].
      transitivity (map (fun j => nth j idx 0) (seq 0 (length idx))); [|apply map_nth_seq].
      rewrite <- Hrl, map_map.
      apply map_ext_in. intros j Hj. apply in_seq in Hj. rewrite Hpos by (assumption || lia). reflexivity.
Qed.
