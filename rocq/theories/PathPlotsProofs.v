(** Lines along paths. *)
From Coq Require Import Reals Lra Lia Psatz List.
From Verif Require Import ZLib Csum DFT NumPy Index Basis Operator Spec SpecBasis SpecReal SpecReduce SpecWavepacket SpecPaths PathsProofs3 Lattice Hamiltonian Paths VolumeBasis SpecVolumeBasis
  Plots SpecPlots PlotsProofs2 PlotsProofs4 ObservablesProofs3 ProbConvertProofs IndexProofs ValuePlotsProofs PathPlots SpecPathPlots.
Import ListNotations.
Local Open Scope R_scope.

(** ** Indices *)

Lemma in_shape_from (shape full : list nat) : length full = length shape -> (forall a, (a < length shape)%nat -> (nth a full 0 < nth a shape 0)%nat) -> in_shape full shape.
Proof.
  revert full. induction shape as [|n shape IH]; intros [|i full] L H; try discriminate; [constructor|].
  constructor; [exact (H 0%nat ltac:(cbn; lia))|]. apply IH; [cbn in L; lia|]. intros a Ha. exact (H (S a) ltac:(cbn; lia)).
Qed.
Lemma in_shape_to (shape full : list nat) : in_shape full shape -> length full = length shape /\ forall a, (a < length shape)%nat -> (nth a full 0 < nth a shape 0)%nat.
Proof.
  induction 1 as [|i n full shape Hi _ [L IH]]; [split; [reflexivity|intros a Ha; cbn in Ha; lia]|]. split; [cbn; lia|].
  intros [|a] Ha; [exact Hi|]. apply IH. cbn in Ha. lia.
Qed.
Lemma nth_map_seq0 (g : nat -> nat) n a : (a < n)%nat -> nth a (map g (seq 0 n)) 0%nat = g a.
Proof. intros H. rewrite (nth_indep _ 0%nat (g 0%nat)) by (rewrite map_length, seq_length; exact H). rewrite map_nth, seq_nth by exact H. reflexivity. Qed.

Lemma wrapped_in shape point : Forall (fun n => (0 < n)%nat) shape -> in_shape (wrapped_index shape point) shape.
Proof.
  intros Hp. apply in_shape_from; [unfold wrapped_index; rewrite map_length, seq_length; reflexivity|]. intros a Ha.
  assert (0 < nth a shape 0)%nat by (rewrite Forall_forall in Hp; apply Hp, nth_In, Ha).
  unfold wrapped_index. rewrite nth_map_seq0 by exact Ha. pose proof (Z.mod_pos_bound (point a) (Z.of_nat (nth a shape 0%nat)) ltac:(lia)). lia.
Qed.
Lemma wrapped_repeat shape point : Forall (fun n => (0 < n)%nat) shape -> repeat_of shape point (wrapped_index shape point).
Proof.
  intros Hp. split; [apply wrapped_in; exact Hp|]. intros a Ha.
  assert (0 < nth a shape 0)%nat by (rewrite Forall_forall in Hp; apply Hp, nth_In, Ha).
  unfold wrapped_index. rewrite nth_map_seq0 by exact Ha. pose proof (Z.mod_pos_bound (point a) (Z.of_nat (nth a shape 0%nat)) ltac:(lia)).
  exists (point a / Z.of_nat (nth a shape 0%nat))%Z. rewrite Z2Nat.id by lia. pose proof (Z.div_mod (point a) (Z.of_nat (nth a shape 0%nat)) ltac:(lia)). lia.
Qed.
Lemma repeat_unique shape point full full' : repeat_of shape point full -> repeat_of shape point full' -> full = full'.
Proof.
  intros [I C] [I' C']. destruct (in_shape_to _ _ I) as [L B]. destruct (in_shape_to _ _ I') as [L' B']. apply (nth_ext _ _ 0%nat 0%nat); [lia|].
  intros a Ha. rewrite L in Ha. destruct (C a Ha) as [k E]. destruct (C' a Ha) as [k' E']. specialize (B a Ha). specialize (B' a Ha).
  set (n := nth a shape 0%nat) in *. assert (k = k') by nia. subst k'. lia.
Qed.

Lemma python_index_repeat n z i : python_index n z = Some i -> (i < n)%nat /\ Zcong (Z.of_nat n) z (Z.of_nat i).
Proof.
  unfold python_index. destruct ((0 <=? z)%Z && (z <? Z.of_nat n)%Z)%bool eqn:E.
  - intros H. injection H as <-. apply Bool.andb_true_iff in E. destruct E as [E1 E2]. apply Z.leb_le in E1. apply Z.ltb_lt in E2. split; [lia|]. exists 0%Z. lia.
  - destruct ((- Z.of_nat n <=? z)%Z && (z <? 0)%Z)%bool eqn:E'; [|discriminate]. intros H. injection H as <-. apply Bool.andb_true_iff in E'. destruct E' as [E1 E2].
    apply Z.leb_le in E1. apply Z.ltb_lt in E2. split; [lia|]. exists (-1)%Z. lia.
Qed.
Lemma python_index_range n z : (exists i, python_index n z = Some i) <-> (- Z.of_nat n <= z < Z.of_nat n)%Z.
Proof.
  unfold python_index. destruct ((0 <=? z)%Z && (z <? Z.of_nat n)%Z)%bool eqn:E.
  - apply Bool.andb_true_iff in E. destruct E as [E1 E2]. apply Z.leb_le in E1. apply Z.ltb_lt in E2. split; [lia|]. eauto.
  - destruct ((- Z.of_nat n <=? z)%Z && (z <? 0)%Z)%bool eqn:E'.
    + apply Bool.andb_true_iff in E'. destruct E' as [E1 E2]. apply Z.leb_le in E1. apply Z.ltb_lt in E2. split; [lia|]. eauto.
    + split; [intros [i H]; discriminate|]. intros H. exfalso. apply Bool.andb_false_iff in E, E'. rewrite Z.leb_gt, Z.ltb_ge in E, E'. lia.
Qed.
Lemma tuple_index_spec shape : forall point, length point = length shape ->
  ((exists idx, tuple_index shape point = Some idx) <-> forall a, (a < length shape)%nat -> (- Z.of_nat (nth a shape 0%nat) <= nth a point 0 < Z.of_nat (nth a shape 0%nat))%Z) /\
  forall idx, tuple_index shape point = Some idx -> repeat_of shape (fun a => nth a point 0%Z) idx.
Proof.
  induction shape as [|n shape IH]; intros [|z point] L; try discriminate; cbn [tuple_index].
  - split; [split; [intros _ a Ha; cbn in Ha; lia|intros _; eauto]|]. intros idx E. injection E as <-. split; [constructor|]. intros a Ha. cbn in Ha. lia.
  - destruct (IH point ltac:(cbn in L; lia)) as [I1 I2]. split.
    + split.
      * intros [idx E]. destruct (python_index n z) as [i|] eqn:Ei; [|discriminate]. destruct (tuple_index shape point) as [rest|] eqn:Er; [|discriminate].
        intros [|a] Ha; cbn [nth]; [apply python_index_range; eauto|]. apply I1; [eauto|cbn in Ha; lia].
      * intros H. destruct (proj2 (python_index_range n z) (H 0%nat ltac:(cbn; lia))) as [i ->].
        destruct (proj2 I1) as [rest ->]; [|eauto]. intros a Ha. exact (H (S a) ltac:(cbn; lia)).
    + intros idx. destruct (python_index n z) as [i|] eqn:Ei; [|discriminate]. destruct (tuple_index shape point) as [rest|] eqn:Er; [|discriminate].
      intros E. injection E as <-. destruct (python_index_repeat _ _ _ Ei) as [B C]. destruct (I2 rest eq_refl) as [J D]. split; [constructor; assumption|].
      intros [|a] Ha; cbn [nth]; [exact C|]. apply D. cbn in Ha. lia.
Qed.
Lemma all_indices_spec shape path n :
  ((exists l, all_indices shape path n = Some l) <->
   forall a j, (a < length shape)%nat -> (j < n)%nat -> (- Z.of_nat (nth a shape 0%nat) <= path a j < Z.of_nat (nth a shape 0%nat))%Z) /\
  forall l, all_indices shape path n = Some l -> length l = n /\ forall j, (j < n)%nat -> repeat_of shape (fun a => path a j) (nth j l []).
Proof.
  induction n as [|n [I1 I2]]; cbn [all_indices].
  - split; [split; [intros _ a j _ Hj; lia|intros _; eauto]|]. intros l E. injection E as <-. split; [reflexivity|]. intros j Hj. lia.
  - set (pt := map (fun a => path a n) (seq 0 (length shape))). assert (Lp : length pt = length shape) by (unfold pt; rewrite map_length, seq_length; reflexivity).
    assert (Np : forall a, (a < length shape)%nat -> nth a pt 0%Z = path a n).
    { intros a Ha. unfold pt. rewrite (nth_indep _ 0%Z (path 0%nat n)) by (rewrite map_length, seq_length; exact Ha). rewrite (map_nth (fun a => path a n)), seq_nth by exact Ha. reflexivity. }
    destruct (tuple_index_spec shape pt Lp) as [T1 T2]. split.
    + split.
      * intros [l E]. destruct (all_indices shape path n) as [l'|] eqn:El; [|discriminate]. destruct (tuple_index shape pt) as [idx|] eqn:Et; [|discriminate].
        intros a j Ha Hj. destruct (Nat.eq_dec j n) as [->|]; [rewrite <- Np by exact Ha; apply (proj1 T1); eauto|]. apply I1; [eauto|exact Ha|lia].
      * intros H. destruct (proj2 I1) as [l ->]; [intros a j Ha Hj; apply H; lia|]. destruct (proj2 T1) as [idx ->]; [|eauto].
        intros a Ha. rewrite Np by exact Ha. apply H; lia.
    + intros l. destruct (all_indices shape path n) as [l'|] eqn:El; [|discriminate]. destruct (tuple_index shape pt) as [idx|] eqn:Et; [|discriminate].
      intros E. injection E as <-. destruct (I2 l' eq_refl) as [L R]. split; [rewrite app_length; cbn; lia|]. intros j Hj.
      destruct (Nat.eq_dec j n) as [->|].
      * rewrite app_nth2 by lia. rewrite L, Nat.sub_diag. cbn [nth]. destruct (T2 idx eq_refl) as [J C]. split; [exact J|].
        intros a Ha. rewrite <- Np by exact Ha. exact (C a Ha).
      * rewrite app_nth1 by lia. apply R. lia.
Qed.

(** ** Lines *)

Section Lines.
  Variables (same : basis -> basis -> bool) (axes : list length_axis).
  Notation nd := (length axes).
  Notation F := (fundamental_shape axes).
  Hypothesis Hs : identity_test same.
  Hypothesis Hd : in_space nd axes.
  Hypothesis Hw : bwf (stacked axes).
  Hypothesis He : explicit_orthonormal (stacked axes).
  Variables (n : nat) (path : nat -> nat -> Z) (wrap : bool) (m : plot_measure).

  Lemma line_along_spec (D : nat -> C) : (0 < n)%nat ->
    exists line, line_along n D (calculate_cumulative_x_distances_along_path F F (axis_vectors axes) n path wrap) m = Some line /\ length line = n /\
      (forall j, (j < n)%nat -> line_y line j = measured_vector m D j /\ shows m (D j) (line_y line j)) /\ drawn_at axes n path wrap (line_x line).
  Proof using Hw.
    intros Hn. pose proof (shape_positive axes Hw) as Fp. pose proof (shape_length axes) as L. unfold line_along. rewrite cumulative_length.
    replace (Nat.max n 1 =? n)%nat with true by (symmetry; apply Nat.eqb_eq; lia).
    set (ds := calculate_cumulative_x_distances_along_path F F (axis_vectors axes) n path wrap).
    destruct (plain_line n D (fun j => nth j ds 0) m) as (line & E & Ll & P). exists line. split; [exact E|]. split; [exact Ll|]. split.
    - intros j Hj. exact (proj2 (P j Hj)).
    - unfold drawn_at. destruct wrap.
      + exists (calculate_distances_along_path F path true). split.
        * intros a j Ha. rewrite <- L in Ha. apply wrapped_step. rewrite Forall_forall in Fp. apply Fp, nth_In, Ha.
        * intros i Hi. rewrite (proj1 (P i Hi)). unfold ds, calculate_cumulative_x_distances_along_path. rewrite PathsProofs3.map_seq_nth by lia. apply rsum_ext. intros j Hj. rewrite <- L. apply norm_step.
      + intros i Hi. rewrite (proj1 (P i Hi)). unfold ds. rewrite cumulative_plain by lia. rewrite L. reflexivity.
  Qed.

  Variable data : nat -> C.

  Lemma potential_line : (0 < n)%nat ->
    exists line, plot_potential_along_path same axes data n path wrap m = Some line /\ length line = n /\
      (forall j full, (j < n)%nat -> repeat_of F (fun a => path a j) full -> shows m (amplitude (stacked axes) data (ravel F full)) (line_y line j)) /\
      (forall j, (j < n)%nat -> exists full, repeat_of F (fun a => path a j) full) /\
      drawn_at axes n path wrap (line_x line).
  Proof using Hs Hd Hw He.
    intros Hn. destruct (PlotsProofs4.position_form same axes Hs Hd Hw He) as (P & G & EP & _ & EG & V). pose proof (shape_positive axes Hw) as Fp.
    unfold plot_potential_along_path. rewrite EP, EG.
    assert (N : (0 < nprod F)%nat) by (apply ProbConvertProofs.nprod_pos; exact Fp).
    replace (nprod F =? 0)%nat with false by (symmetry; apply Nat.eqb_neq; lia).
    destruct (line_along_spec (fun j => G data (ravel F (wrapped_index F (fun a => path a j)))) Hn) as (line & E & L & Y & X).
    exists line. split; [exact E|]. split; [exact L|]. split; [|split; [|exact X]].
    - intros j full Hj Rp. rewrite (repeat_unique _ _ _ _ Rp (wrapped_repeat F _ Fp)). rewrite <- V; [exact (proj2 (Y j Hj))|].
      apply ravel_lt. apply wrapped_in. exact Fp.
    - intros j _. exists (wrapped_index F (fun a => path a j)). apply wrapped_repeat. exact Fp.
  Qed.

  Lemma state_line : (0 < n)%nat ->
    ((exists line, plot_state_along_path same axes data n path wrap m = Some line) <->
     forall a j, (a < nd)%nat -> (j < n)%nat -> (- Z.of_nat (nth a F 0%nat) <= path a j < Z.of_nat (nth a F 0%nat))%Z) /\
    forall line, plot_state_along_path same axes data n path wrap m = Some line -> length line = n /\
      (forall j full, (j < n)%nat -> repeat_of F (fun a => path a j) full -> shows m (amplitude (stacked axes) data (ravel F full)) (line_y line j)) /\
      drawn_at axes n path wrap (line_x line).
  Proof using Hs Hd Hw He.
    intros Hn. destruct (PlotsProofs4.position_form same axes Hs Hd Hw He) as (P & G & EP & _ & EG & V). pose proof (shape_positive axes Hw) as Fp. pose proof (shape_length axes) as L.
    unfold plot_state_along_path. rewrite EP, EG. destruct (all_indices_spec F path n) as [A1 A2]. rewrite L in A1. split.
    - rewrite <- A1. split.
      + intros [line E]. destruct (all_indices F path n) as [l|]; [eauto|discriminate].
      + intros [l ->]. destruct (line_along_spec (fun j => G data (ravel F (nth j l []))) Hn) as (line & E & _). eauto.
    - intros line. destruct (all_indices F path n) as [l|] eqn:El; [|discriminate]. destruct (A2 l eq_refl) as [Ll R].
      destruct (line_along_spec (fun j => G data (ravel F (nth j l []))) Hn) as (line' & E & Le & Y & X). rewrite E. intros Q. injection Q as <-.
      split; [exact Le|]. split; [|exact X]. intros j full Hj Rp. rewrite (repeat_unique _ _ _ _ Rp (R j Hj)). rewrite <- V; [exact (proj2 (Y j Hj))|].
      apply ravel_lt. apply (R j Hj).
  Qed.
End Lines.
