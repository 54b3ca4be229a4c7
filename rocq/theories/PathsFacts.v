(** Cases in which the theorems about projections and paths apply. *)
From Coq Require Import Reals Lra Lia Psatz.
From Verif Require Import ZLib Csum DFT NumPy Index Spec IndexProofs AxesProofs Basis Lattice SpecReal LatticeProofs SpecHamiltonian SpecReduce StateList SpecStateList
  Brillouin Paths SpecPaths PathsProofs PathsProofs2 PathsProofs3.
Local Open Scope R_scope.

(** A skew lattice. *)
Definition skew (a c : nat) : R := match a, c with 0%nat, 0%nat => 2 | 1%nat, 0%nat => 1 | 1%nat, 1%nat => 2 | _, _ => 0 end.

Lemma skew_independent axes : axes = [0%nat; 1%nat] \/ axes = [1%nat; 0%nat] \/ axes = [0%nat] \/ axes = [1%nat] ->
  ~ ((exists a, In a axes /\ (2 <= a)%nat) \/ (exists j, (j < length axes)%nat /\ depends_on_earlier 2 (fun i => skew (nth i axes 0%nat)) j)).
Proof.
  intros H [(a & I & L)|(j & Hj & (k & K))].
  - destruct H as [->|[->|[->| ->]]]; cbn in I; intuition lia.
  - pose proof (K 0%nat ltac:(lia)) as K0. pose proof (K 1%nat ltac:(lia)) as K1.
    destruct H as [->|[->|[->| ->]]]; cbn in Hj; destruct j as [|[|j]]; try lia; cbn in K0, K1; lra.
Qed.
Lemma skew_projects axes p : axes = [0%nat; 1%nat] \/ axes = [1%nat; 0%nat] \/ axes = [0%nat] \/ axes = [1%nat] ->
  exists l, project_x_points_along_axes 2 skew axes p = Some l.
Proof.
  intros H. destruct (project_x_points_along_axes 2 skew axes p) as [l|] eqn:E; [eauto|].
  apply project_none in E. exfalso. exact (skew_independent axes H E).
Qed.
Lemma skew_spanned (u v : R) : spanned 2 skew [1%nat; 0%nat] (fun c => u * skew 0 c + v * skew 1 c).
Proof. exists (fun j => match j with 0%nat => v | _ => u end). intros c Hc. cbn. ring. Qed.

Lemma degenerate_none : project_x_points_along_axes 2 (fun a _ => INR (S a)) [0%nat; 1%nat] (fun _ => 1) = None.
Proof.
  apply project_none. right. exists 1%nat. split; [cbn; lia|]. exists (fun _ => 2). intros c Hc. cbn. ring.
Qed.

Lemma skew_coordinates : exists rows f, get_x_coordinates_in_axes [3%nat; 4%nat] [3%nat; 4%nat] skew [1%nat] (Some [2%nat]) = Some (rows, f).
Proof.
  unfold get_x_coordinates_in_axes. change (length [3%nat; 4%nat]) with 2%nat.
  destruct (projected_axes 2 skew [] [1%nat]) as [es|] eqn:E.
  - pose proof (inv_length _ _ _ _ (axes_spec 2 skew [1%nat] es E)) as L. cbn in L. rewrite L. cbn. eauto.
  - apply axes_none in E. exfalso. exact (skew_independent [1%nat] ltac:(auto) E).
Qed.
Lemma skew_at_axes : at_axes 2 [1%nat] [3%nat] [2%nat] [2%nat; 3%nat] /\ at_axes 2 [1%nat] [0%nat] [2%nat] [2%nat; 0%nat].
Proof. repeat split; intros j Hj; cbn in Hj; destruct j; try lia; reflexivity. Qed.

(** A basis with two states on four points. *)
Lemma rows_two : exists f, get_x_coordinates_in_axes [2%nat] [4%nat] (fun _ _ => 1) [0%nat] (Some []) = Some (2%nat, f).
Proof.
  unfold get_x_coordinates_in_axes. change (length [4%nat]) with 1%nat.
  destruct (projected_axes 1 (fun _ _ => 1) [] [0%nat]) as [es|] eqn:E.
  - pose proof (inv_length _ _ _ _ (axes_spec 1 _ [0%nat] es E)) as L. cbn in L. rewrite L. cbn. eauto.
  - apply axes_none in E. exfalso. destruct E as [(a & [<-|[]] & L)|(j & Hj & (k & K))]; [lia|].
    cbn in Hj. destruct j; [|lia]. specialize (K 0%nat ltac:(lia)). cbn in K. lra.
Qed.

(** Whole-cell moves and wrapped paths. *)
Definition winding (a j : nat) : Z := match a with 0%nat => Z.of_nat (2 * j) | _ => 1%Z end.
Lemma winding_step : calculate_distances_along_path [5%nat; 3%nat] winding true 0 0 = (-2)%Z.
Proof. apply wrapped_small; cbn; lia. Qed.
Lemma far_step : calculate_distances_along_path [5%nat; 3%nat] (fun a j => if Nat.eqb j 0 then 0%Z else 4%Z) true 0 0 = 1%Z.
Proof.
  rewrite (wrapped_periodic _ (fun a j => if Nat.eqb j 0 then 0%Z else (-1)%Z) _ (fun a j => if Nat.eqb j 0 then 0%Z else 1%Z)).
  - apply wrapped_small; cbn; lia.
  - cbn. lia.
  - intros i. cbn. destruct (Nat.eqb i 0); reflexivity.
Qed.

Definition square (a c : nat) : R := if Nat.eqb a c then INR (S a) else 0.
Lemma square_orthogonal : forall a b, (a < 2)%nat -> (b < 2)%nat -> a <> b -> dot 2 (square a) (square b) = 0.
Proof. intros a b Ha Hb N. destruct a as [|[|a]], b as [|[|b]]; try lia; cbn; ring. Qed.

(** Maxima. *)
Lemma max_idx_spec shape data axes : NoDup axes -> Forall (fun a => (a < length shape)%nat) axes -> (0 < nprod shape)%nat ->
  exists idx full, get_max_idx shape data axes = Some idx /\ in_shape full shape /\
    (forall other, in_shape other shape -> Cmod (data (ravel shape other)) <= Cmod (data (ravel shape full))) /\
    (forall x, (x < ravel shape full)%nat -> Cmod (data x) < Cmod (data (ravel shape full))) /\
    at_axes (length shape) axes (map (fun a => nth a full 0%nat) axes) idx full.
Proof.
  intros N F P. unfold get_max_idx. replace (nprod shape =? 0)%nat with false by (symmetry; apply Nat.eqb_neq; lia).
  destruct (argmax_spec (fun x => Cmod (data x)) (nprod shape) P) as (A & B & Cc). set (m := argmax _ _) in *.
  pose proof (unravel_in_shape shape m A) as I. eexists; exists (unravel shape m). split; [reflexivity|]. split; [exact I|].
  rewrite (ravel_unravel shape m A). split; [intros other Ho; apply B, ravel_lt, Ho|]. split; [exact Cc|]. split.
  - clear -I. unfold in_shape in I. induction I; cbn; congruence.
  - split; [|reflexivity]. intros j Hj. rewrite (nth_indep (map _ axes) 0%nat (nth 0%nat (unravel shape m) 0%nat)) by (rewrite map_length; exact Hj).
    rewrite (map_nth (fun a => nth a (unravel shape m) 0%nat)). reflexivity.
Qed.

(** The documented averages. *)
Lemma documented_average : twice_average 3 1 2 = 3%Z /\ twice_average 4 1 3 = 4%Z /\ twice_average 4 2 2 = 4%Z /\ twice_average 5 1 4 = 0%Z.
Proof. repeat split; rewrite twice_average_spec by (cbn; lia); reflexivity. Qed.

Lemma k_path_two : let l := calculate_cumulative_k_distances_along_path [4%nat] (fun _ _ => 1) 3 (fun _ j => Z.of_nat j) false in
  length l = 2%nat /\ length l <> 3%nat.
Proof. cbn zeta. rewrite k_length. cbn. split; [reflexivity|discriminate]. Qed.

Lemma twice_average_matrix fshape a x y : Forall (fun n => (0 < n)%nat) fshape -> (Z.of_nat (nth a fshape 0%nat) <= 10 ^ 7)%Z -> (a < length fshape)%nat ->
  (x < nprod fshape)%nat -> (y < nprod fshape)%nat ->
  let n := Z.of_nat (nth a fshape 0%nat) in let u := Z.of_nat (nth a (unravel fshape x) 0%nat) in let v := Z.of_nat (nth a (unravel fshape y) 0%nat) in
  get_twice_average_nx fshape a x y = if (2 * Z.abs (u - v) <=? n)%Z then ((u + v) mod (2 * n))%Z else ((u + v + n) mod (2 * n))%Z.
Proof.
  intros Hp Hb Ha Hx Hy n u v. assert (Hn : (0 < nth a fshape 0)%nat) by (rewrite Forall_forall in Hp; apply Hp, nth_In, Ha).
  assert (B : forall i, (i < nprod fshape)%nat -> (nth a (unravel fshape i) 0 < nth a fshape 0)%nat).
  { intros i Hi. pose proof (unravel_in_shape fshape i Hi) as I. clear -I Ha. revert a Ha. unfold in_shape in I. induction I; intros [|a] Ha; cbn in *; try lia. apply IHI. lia. }
  apply (twice_average_spec (nth a fshape 0%nat) u v Hn Hb); split; try apply Nat2Z.is_nonneg; apply Nat2Z.inj_lt, B; assumption.
Qed.
