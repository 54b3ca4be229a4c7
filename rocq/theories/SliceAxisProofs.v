(** Slices along one axis (C128). *)
From Coq Require Import List ZArith Arith Lia.
From Verif Require Import SliceAxis.
Import ListNotations.
Local Open Scope nat_scope.

Lemma filter_repeat {A} (f : A -> bool) x n : filter f (repeat x n) = if f x then repeat x n else [].
Proof. induction n as [|n IH]; cbn; [destruct (f x); reflexivity|]. rewrite IH. destruct (f x); reflexivity. Qed.
Lemma flat_repeat {A} (l : list (index_entry A)) n : flat_map (fun e => if is_ellipsis e then l else [e]) (repeat Everything n) = repeat Everything n.
Proof. induction n as [|n IH]; [reflexivity|]. cbn. rewrite IH. reflexivity. Qed.
Lemma z_nat (nd : nat) (axis : Z) : (axis < 0)%Z -> (Z.of_nat nd + axis = Z.of_nat nd - 1 - Z.of_nat (Z.to_nat (-1 - axis)))%Z.
Proof. intros. rewrite Z2Nat.id; lia. Qed.

Lemma along {A} (nd : nat) (x : A) (axis : Z) :
  ((- Z.of_nat nd <= axis < Z.of_nat nd)%Z ->
     np_index nd (slice_along_axis (Some x) axis) =
     Some (map (fun i => if (i =? Z.to_nat (axis mod Z.of_nat nd)) then Along x else Everything) (seq 0 nd))) /\
  (~ (- Z.of_nat nd <= axis < Z.of_nat nd)%Z -> np_index nd (slice_along_axis (Some x) axis) = None).
Proof.
  assert (P : forall k m o, map (fun i => if (i =? o + k) then Along x else Everything) (seq o (k + S m)) = repeat Everything k ++ Along x :: repeat Everything m).
  { induction k as [|k IH]; intros m o.
    - cbn [Nat.add seq map repeat app]. rewrite Nat.add_0_r, Nat.eqb_refl. f_equal.
      enough (G : forall p, o < p -> map (fun i => if i =? o then Along x else Everything) (seq p m) = repeat Everything m) by (apply G; lia).
      induction m as [|m IHm]; intros p Hp; [reflexivity|]. cbn [seq map repeat]. replace (p =? o) with false by (symmetry; apply Nat.eqb_neq; lia). f_equal. apply IHm. lia.
    - cbn [Nat.add seq map repeat app]. replace (o =? o + S k) with false by (symmetry; apply Nat.eqb_neq; lia). f_equal.
      rewrite <- (IH m (S o)). apply map_ext. intros i. replace (S o + k) with (o + S k) by lia. reflexivity. }
  unfold slice_along_axis. destruct (Z.ltb_spec axis 0) as [N|N].
  - set (k := Z.to_nat (-1 - axis)). assert (Hk : Z.of_nat k = (-1 - axis)%Z) by (unfold k; rewrite Z2Nat.id; lia).
    unfold np_index. cbn [filter uses_axis is_ellipsis]. rewrite !filter_repeat. cbn [uses_axis is_ellipsis length flat_map app]. rewrite repeat_length, flat_repeat.
    split; intros H.
    + replace (S k <=? nd) with true by (symmetry; apply Nat.leb_le; lia). f_equal.
      assert (M : Z.to_nat (axis mod Z.of_nat nd) = nd - S k).
      { replace (axis mod Z.of_nat nd)%Z with (Z.of_nat nd + axis)%Z; [lia|]. apply (Z.mod_unique _ _ (-1)); lia. }
      rewrite M. assert (Q := P (nd - S k) k 0). cbn [Nat.add] in Q. replace (nd - S k + S k) with nd in Q by lia. rewrite Q. reflexivity.
    + replace (S k <=? nd) with false by (symmetry; apply Nat.leb_gt; lia). reflexivity.
  - set (k := Z.to_nat axis). assert (Hk : Z.of_nat k = axis) by (unfold k; rewrite Z2Nat.id; lia).
    unfold np_index. rewrite !filter_app, !filter_repeat. cbn [uses_axis is_ellipsis filter app]. rewrite app_length, repeat_length. cbn [length].
    split; intros H.
    + replace (k + 1 <=? nd) with true by (symmetry; apply Nat.leb_le; lia). f_equal.
      rewrite Z.mod_small by lia. fold k. assert (Q := P k (nd - (k + 1)) 0). cbn [Nat.add] in Q. replace (k + S (nd - (k + 1))) with nd in Q by lia. rewrite Q, <- app_assoc. reflexivity.
    + replace (k + 1 <=? nd) with false by (symmetry; apply Nat.leb_gt; lia). reflexivity.
Qed.

Lemma new_axis {A} (nd : nat) (axis : Z) :
  ((- Z.of_nat (S nd) <= axis < Z.of_nat (S nd))%Z ->
     np_index nd (slice_along_axis (@None A) axis) =
     Some (map (fun i => if (i =? Z.to_nat (axis mod Z.of_nat (S nd))) then NewAxis else Everything) (seq 0 (S nd)))) /\
  (~ (- Z.of_nat (S nd) <= axis < Z.of_nat (S nd))%Z -> np_index nd (slice_along_axis (@None A) axis) = None).
Proof.
  assert (P : forall k m o, map (fun i => if (i =? o + k) then @NewAxis A else Everything) (seq o (k + S m)) = repeat Everything k ++ NewAxis :: repeat Everything m).
  { induction k as [|k IH]; intros m o.
    - cbn [Nat.add seq map repeat app]. rewrite Nat.add_0_r, Nat.eqb_refl. f_equal.
      enough (G : forall p, o < p -> map (fun i => if i =? o then @NewAxis A else Everything) (seq p m) = repeat Everything m) by (apply G; lia).
      induction m as [|m IHm]; intros p Hp; [reflexivity|]. cbn [seq map repeat]. replace (p =? o) with false by (symmetry; apply Nat.eqb_neq; lia). f_equal. apply IHm. lia.
    - cbn [Nat.add seq map repeat app]. replace (o =? o + S k) with false by (symmetry; apply Nat.eqb_neq; lia). f_equal.
      rewrite <- (IH m (S o)). apply map_ext. intros i. replace (S o + k) with (o + S k) by lia. reflexivity. }
  unfold slice_along_axis. destruct (Z.ltb_spec axis 0) as [N|N].
  - set (k := Z.to_nat (-1 - axis)). assert (Hk : Z.of_nat k = (-1 - axis)%Z) by (unfold k; rewrite Z2Nat.id; lia).
    unfold np_index. cbn [filter uses_axis is_ellipsis]. rewrite !filter_repeat. cbn [uses_axis is_ellipsis length flat_map app]. rewrite repeat_length, flat_repeat.
    split; intros H.
    + replace (k <=? nd) with true by (symmetry; apply Nat.leb_le; lia). f_equal.
      assert (M : Z.to_nat (axis mod Z.of_nat (S nd)) = nd - k).
      { replace (axis mod Z.of_nat (S nd))%Z with (Z.of_nat (S nd) + axis)%Z; [lia|]. apply (Z.mod_unique _ _ (-1)); lia. }
      rewrite M. assert (Q := P (nd - k) k 0). rewrite Nat.add_0_l in Q. replace (nd - k + S k) with (S nd) in Q by lia. rewrite Q. reflexivity.
    + replace (k <=? nd) with false by (symmetry; apply Nat.leb_gt; lia). reflexivity.
  - set (k := Z.to_nat axis). assert (Hk : Z.of_nat k = axis) by (unfold k; rewrite Z2Nat.id; lia).
    unfold np_index. rewrite !filter_app, !filter_repeat. cbn [uses_axis is_ellipsis filter app]. rewrite app_nil_r, repeat_length.
    split; intros H.
    + replace (k <=? nd) with true by (symmetry; apply Nat.leb_le; lia). f_equal.
      rewrite Z.mod_small by lia. fold k. assert (Q := P k (nd - k) 0). rewrite Nat.add_0_l in Q. replace (k + S (nd - k)) with (S nd) in Q by lia. rewrite Q, <- app_assoc. reflexivity.
    + replace (k <=? nd) with false by (symmetry; apply Nat.leb_gt; lia). reflexivity.
Qed.
