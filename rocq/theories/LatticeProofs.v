From Coq Require Import Reals Lra.
From Verif Require Import ZLib Csum Lattice SpecReal.
Local Open Scope R_scope.

Lemma rmod_spec x m : 0 < m ->
  0 <= rmod x m < m /\ exists z : Z, rmod x m = x + IZR z * m.
Proof.
  intros Hm. unfold rmod. destruct (base_Int_part (x / m)) as [H1 H2].
  set (k := Int_part (x / m)) in *.
  assert (Hx : x = x / m * m) by (field; lra).
  split.
  - split.
    + assert (IZR k * m <= x / m * m) by (apply Rmult_le_compat_r; lra). lra.
    + assert (x / m * m < (IZR k + 1) * m) by (apply Rmult_lt_compat_r; lra). lra.
  - exists (- k)%Z. rewrite opp_IZR. ring.
Qed.

Lemma rmod_unique x m r z : 0 < m -> 0 <= r < m -> r = x + IZR z * m -> rmod x m = r.
Proof.
  intros Hm Hr Hz. destruct (rmod_spec x m Hm) as [Hb [z' Hz']].
  assert (Hd : rmod x m - r = IZR (z' - z) * m) by (rewrite minus_IZR; lra).
  assert (H0 : (z' - z = 0)%Z).
  { assert (IZR (z' - z) < 1) by (apply Rmult_lt_reg_r with m; lra).
    assert (-1 < IZR (z' - z)) by (apply Rmult_lt_reg_r with m; lra).
    apply lt_IZR in H. apply lt_IZR in H0. lia. }
  rewrite H0 in Hd. lra.
Qed.

Lemma wrap_distance_spec d len o : 0 < len ->
  o - len / 2 <= wrap_distance d len o < o + len / 2 /\
  exists z : Z, wrap_distance d len o = d + IZR z * len.
Proof.
  intros Hl. unfold wrap_distance.
  destruct (rmod_spec (d - o + len / 2) len Hl) as [Hb [z Hz]]. split; [lra|].
  exists z. rewrite Hz. ring.
Qed.

Lemma rsum_plus (f g : nat -> R) n : rsum (fun i => f i + g i) n = rsum f n + rsum g n.
Proof. induction n as [|n IH]; simpl; [lra|]. rewrite IH. lra. Qed.

Lemma rsum_scal_l c (f : nat -> R) n : rsum (fun i => c * f i) n = c * rsum f n.
Proof. induction n as [|n IH]; simpl; [lra|]. rewrite IH. lra. Qed.

Lemma rsum_scal_r c (f : nat -> R) n : rsum (fun i => f i * c) n = rsum f n * c.
Proof. induction n as [|n IH]; simpl; [lra|]. rewrite IH. lra. Qed.

Lemma rsum_const0 n : rsum (fun _ => 0) n = 0.
Proof. induction n as [|n IH]; simpl; [lra|]. rewrite IH. lra. Qed.

Lemma rsum_swap (f : nat -> nat -> R) n m :
  rsum (fun i => rsum (fun j => f i j) m) n = rsum (fun j => rsum (fun i => f i j) n) m.
Proof.
  induction n as [|n IH]; simpl; [symmetry; apply rsum_const0|].
  rewrite IH, <- rsum_plus. reflexivity.
Qed.


Lemma rsum_delta (f : nat -> R) n j : (j < n)%nat -> rsum (fun i => rdelta i j * f i) n = f j.
Proof.
  induction n as [|n IH]; intros Hj; [lia|]. simpl.
  unfold rdelta at 2. destruct (Nat.eqb_spec n j) as [->|Hne].
  - rewrite (rsum_ext _ (fun _ => 0)).
    + rewrite rsum_const0. lra.
    + intros i Hi. unfold rdelta. destruct (Nat.eqb_spec i j); [lia|lra].
  - rewrite IH by lia. lra.
Qed.

Lemma rsum_delta' (f : nat -> R) n j : (j < n)%nat -> rsum (fun i => rdelta j i * f i) n = f j.
Proof.
  intros Hj. rewrite (rsum_ext _ (fun i => rdelta i j * f i)).
  - apply rsum_delta; assumption.
  - intros i _. unfold rdelta. rewrite Nat.eqb_sym. reflexivity.
Qed.

Lemma frac_of_combination nd delta inv (w : nat -> R) a :
  is_inverse nd delta inv -> (a < nd)%nat ->
  tensordot00 nd inv (tensordot00 nd delta w) a = w a.
Proof.
  intros [Hr _] Ha. unfold tensordot00.
  rewrite (rsum_ext _ (fun c => rsum (fun b => delta b c * inv c a * w b) nd)).
  2:{ intros c _. rewrite <- rsum_scal_l. apply rsum_ext. intros; ring. }
  rewrite rsum_swap.
  rewrite (rsum_ext _ (fun b => rdelta b a * w b)).
  2:{ intros b Hb. rewrite rsum_scal_r. rewrite Hr by assumption. reflexivity. }
  apply rsum_delta; assumption.
Qed.

Lemma combination_of_frac nd delta inv (p : nat -> R) c :
  is_inverse nd delta inv -> (c < nd)%nat ->
  tensordot00 nd delta (tensordot00 nd inv p) c = p c.
Proof.
  intros [_ Hl] Hc. unfold tensordot00.
  rewrite (rsum_ext _ (fun a => rsum (fun b => inv b a * delta a c * p b) nd)).
  2:{ intros a _. rewrite <- rsum_scal_l. apply rsum_ext. intros; ring. }
  rewrite rsum_swap.
  rewrite (rsum_ext _ (fun b => rdelta b c * p b)).
  2:{ intros b Hb. rewrite rsum_scal_r. rewrite Hl by assumption. reflexivity. }
  apply rsum_delta; assumption.
Qed.

Lemma tensordot00_plus nd m p q a :
  tensordot00 nd m (fun c => p c + q c) a = tensordot00 nd m p a + tensordot00 nd m q a.
Proof. unfold tensordot00. rewrite <- rsum_plus. apply rsum_ext. intros; ring. Qed.

Lemma choice_fin (P : nat -> Z -> Prop) n :
  (forall a, (a < n)%nat -> exists z, P a z) -> exists f, forall a, (a < n)%nat -> P a (f a).
Proof.
  induction n as [|n IH]; intros H; [exists (fun _ => 0%Z); intros; lia|].
  destruct IH as [f Hf]; [intros; apply H; lia|]. destruct (H n) as [z Hz]; [lia|].
  exists (fun a => if Nat.eqb a n then z else f a). intros a Ha.
  destruct (Nat.eqb_spec a n) as [->|Hne]; [assumption|]. apply Hf; lia.
Qed.

Lemma wrap_x_point_spec nd delta inv point origin :
  is_inverse nd delta inv ->
  let o := match origin with None => fun _ => 0 | Some o => o end in
  let r := wrap_x_point_around_origin nd delta inv point origin in
  (exists z : nat -> Z, forall c, (c < nd)%nat ->
     r c = point c + rsum (fun a => IZR (z a) * delta a c) nd) /\
  (exists f : nat -> R,
     (forall a, (a < nd)%nat -> -(1/2) <= f a < 1/2) /\
     forall c, (c < nd)%nat -> r c - o c = rsum (fun a => f a * delta a c) nd).
Proof.
  intros Hinv o r. unfold r, wrap_x_point_around_origin. fold o.
  set (d := tensordot00 nd inv point). set (oa := tensordot00 nd inv o).
  set (w := fun a => wrap_distance (d a) 1 (oa a)).
  assert (Hw : forall a, oa a - 1/2 <= w a < oa a + 1/2 /\ exists z : Z, w a = d a + IZR z * 1).
  { intros a. destruct (wrap_distance_spec (d a) 1 (oa a)) as [H1 H2]; [lra|]. split; [|exact H2].
    unfold w. lra. }
  split.
  - destruct (choice_fin (fun a z => w a = d a + IZR z * 1) nd) as [z Hz].
    { intros a _. apply Hw. }
    exists z. intros c Hc.
    rewrite <- (combination_of_frac nd delta inv point c Hinv Hc). fold d.
    unfold tensordot00. rewrite <- rsum_plus. apply rsum_ext.
    intros a Ha. rewrite Hz by assumption. ring.
  - exists (fun a => w a - oa a). split.
    + intros a _. destruct (Hw a) as [H _]. lra.
    + intros c Hc. rewrite <- (combination_of_frac nd delta inv o c Hinv Hc). fold oa.
      unfold tensordot00.
      rewrite (rsum_ext (fun a => (w a - oa a) * delta a c)
        (fun a => delta a c * w a + - (1) * (delta a c * oa a))) by (intros; ring).
      rewrite rsum_plus, rsum_scal_l. lra.
Qed.

(** The lattice translation with that property is unique. *)
Lemma wrap_x_point_unique nd delta inv point origin (z : nat -> Z) (q : nat -> R) (f : nat -> R) :
  is_inverse nd delta inv ->
  let o := match origin with None => fun _ => 0 | Some o => o end in
  (forall c, (c < nd)%nat -> q c = point c + rsum (fun a => IZR (z a) * delta a c) nd) ->
  (forall a, (a < nd)%nat -> -(1/2) <= f a < 1/2) ->
  (forall c, (c < nd)%nat -> q c - o c = rsum (fun a => f a * delta a c) nd) ->
  forall c, (c < nd)%nat -> wrap_x_point_around_origin nd delta inv point origin c = q c.
Proof.
  intros Hinv o Hq Hf Hqo.
  assert (Hdq : forall a, (a < nd)%nat -> tensordot00 nd inv q a = tensordot00 nd inv point a + IZR (z a)).
  { intros a Ha. rewrite <- (frac_of_combination nd delta inv (fun a => IZR (z a)) a Hinv Ha).
    rewrite <- tensordot00_plus. unfold tensordot00 at 1 2. apply rsum_ext. intros c Hc.
    rewrite Hq by assumption. f_equal. f_equal. unfold tensordot00. apply rsum_ext. intros; ring. }
  assert (Hdo : forall a, (a < nd)%nat -> tensordot00 nd inv q a = tensordot00 nd inv o a + f a).
  { intros a Ha. rewrite <- (frac_of_combination nd delta inv f a Hinv Ha).
    rewrite <- tensordot00_plus. unfold tensordot00 at 1 2. apply rsum_ext. intros c Hc.
    f_equal. assert (H := Hqo c Hc). unfold tensordot00.
    rewrite (rsum_ext (fun a => delta a c * f a) (fun a => f a * delta a c)) by (intros; ring). lra. }
  intros c Hc. rewrite <- (combination_of_frac nd delta inv q c Hinv Hc).
  unfold wrap_x_point_around_origin. fold o. unfold tensordot00 at 1 4.
  apply rsum_ext. intros a Ha. f_equal.
  unfold wrap_distance.
  assert (H1 := Hdq a Ha). assert (H2 := Hdo a Ha). assert (H3 := Hf a Ha).
  rewrite (rmod_unique _ 1 (f a + 1/2) (z a)) by lra. lra.
Qed.

Lemma wrap_displacements_spec d m : 0 < m ->
  - m <= wrap_displacements d m < m /\
  exists z : Z, wrap_displacements d m = d + IZR z * (2 * m).
Proof.
  intros Hm. unfold wrap_displacements.
  destruct (rmod_spec (d + m) (2 * m)) as [Hb [z Hz]]; [lra|]. split; [lra|].
  exists z. rewrite Hz. ring.
Qed.

Lemma norm_1 (len : R) : norm 1 (fun _ => len) = Rabs len.
Proof.
  unfold norm. simpl. rewrite Rplus_0_l. replace (len * len) with (Rsqr len) by reflexivity.
  apply sqrt_Rsqr_abs.
Qed.

Lemma displacements_x_spec len n origin i : len <> 0 ->
  - (Rabs len / 2) <= displacements_x len n origin i < Rabs len / 2 /\
  exists z : Z, displacements_x len n origin i = len / INR n * INR i - origin + IZR z * len.
Proof.
  intros Hl. unfold displacements_x. rewrite norm_1.
  assert (Ha : 0 < Rabs len) by (apply Rabs_pos_lt; assumption).
  destruct (wrap_displacements_spec (x_point_1d len n i - origin) (Rabs len / 2)) as [H1 [z Hz]]; [lra|].
  split; [exact H1|]. destruct (Rcase_abs len) as [Hn|Hp].
  - exists (- z)%Z. rewrite Hz, (Rabs_left len) by assumption. unfold x_point_1d. rewrite opp_IZR. lra.
  - exists z. rewrite Hz, (Rabs_right len) by assumption. unfold x_point_1d. lra.
Qed.

Lemma norm_pos nd v c : (c < nd)%nat -> v c <> 0 -> 0 < norm nd v.
Proof.
  intros Hc Hv. unfold norm. apply sqrt_lt_R0.
  assert (H0 : 0 <= rsum (fun c => v c * v c) nd) by (apply rsum_nonneg; intros; nra).
  destruct H0 as [H0|H0]; [exact H0|]. exfalso. apply Hv.
  assert (Hz := rsum_zero_nonneg (fun c => v c * v c) nd ltac:(intros; nra) (eq_sym H0) c Hc).
  nra.
Qed.

Lemma displacements_along_axis_spec nd delta shape idx idx' origin axis :
  0 < norm nd (delta axis) ->
  let L := norm nd (delta axis) in
  let d := displacements_matrix_x_along_axis nd delta shape idx idx' origin axis in
  - (L / 2) <= d < L / 2 /\
  exists z : Z, d =
    rsum (fun a => (INR (idx a) - INR (idx' a)) / INR (shape a) * delta a axis) nd - origin + IZR z * L.
Proof.
  intros HL L d. unfold d, displacements_matrix_x_along_axis. fold L.
  destruct (wrap_displacements_spec
    (x_point_stacked nd delta shape idx axis - x_point_stacked nd delta shape idx' axis - origin) (L / 2))
    as [H1 [z Hz]]; [unfold L; lra|]. split; [exact H1|]. exists z. rewrite Hz.
  assert (E : x_point_stacked nd delta shape idx axis - x_point_stacked nd delta shape idx' axis
    = rsum (fun a => (INR (idx a) - INR (idx' a)) / INR (shape a) * delta a axis) nd).
  { unfold x_point_stacked.
    rewrite (rsum_ext (fun a => (INR (idx a) - INR (idx' a)) / INR (shape a) * delta a axis)
      (fun a => INR (idx a) / INR (shape a) * delta a axis + - (1) * (INR (idx' a) / INR (shape a) * delta a axis)))
      by (intros; unfold Rdiv; ring).
    rewrite rsum_plus, rsum_scal_l. lra. }
  rewrite E. lra.
Qed.

Lemma origin_displacements_along_axis_spec nd delta shape idx origin axis :
  0 < norm nd (delta axis) ->
  let L := norm nd (delta axis) in
  let d := displacements_x_along_axis nd delta shape idx origin axis in
  - (L / 2) <= d < L / 2 /\
  exists z : Z, d =
    rsum (fun a => INR (idx a) / INR (shape a) * delta a axis) nd - origin + IZR z * L.
Proof.
  intros HL L d. unfold d, displacements_x_along_axis. fold L.
  destruct (wrap_displacements_spec (x_point_stacked nd delta shape idx axis - origin) (L / 2))
    as [H1 [z Hz]]; [unfold L; lra|]. split; [exact H1|]. exists z. rewrite Hz. unfold x_point_stacked. lra.
Qed.

(** Finding: on a skew lattice the displacement along an axis is not periodic. *)
Definition skew_delta (a c : nat) : R :=
  match a, c with
  | 0%nat, 0%nat => 1 | 1%nat, 0%nat => 1/2 | 1%nat, 1%nat => 1 | _, _ => 0
  end.
Definition skew_shape (a : nat) : nat := match a with 0%nat => 2%nat | _ => 3%nat end.
Definition skew_point (k : nat) (a : nat) : nat := match a with 1%nat => k | _ => 0%nat end.

Lemma skew_norm : norm 2 (skew_delta 0) = 1.
Proof.
  unfold norm. simpl. replace (0 + 1 * 1 + 0 * 0) with 1 by ring. apply sqrt_1.
Qed.

Lemma skew_value k k' :
  - (1/2) <= (INR k - INR k') / 6 < 1/2 ->
  displacements_matrix_x_along_axis 2 skew_delta skew_shape (skew_point k) (skew_point k') 0 0
  = (INR k - INR k') / 6.
Proof.
  intros H. unfold displacements_matrix_x_along_axis, wrap_displacements. rewrite skew_norm.
  unfold x_point_stacked. simpl rsum. unfold skew_shape, skew_point, skew_delta.
  rewrite (rmod_unique _ _ ((INR k - INR k') / 6 + 1/2) 0); [lra|lra|lra|].
  simpl INR. lra.
Qed.

Lemma displacements_skew_not_periodic :
  exists (delta : nat -> nat -> R) (shape i j i' j' : nat -> nat),
    (forall a, (a < 2)%nat -> (i a < shape a)%nat /\ (j a < shape a)%nat /\ (i' a < shape a)%nat /\ (j' a < shape a)%nat) /\
    (forall a, (a < 2)%nat -> Zcong (Z.of_nat (shape a)) (Z.of_nat (i a) - Z.of_nat (j a)) (Z.of_nat (i' a) - Z.of_nat (j' a))) /\
    delta 0%nat 0%nat * delta 1%nat 1%nat - delta 0%nat 1%nat * delta 1%nat 0%nat <> 0 /\
    Rabs (displacements_matrix_x_along_axis 2 delta shape i j 0 0)
      <> Rabs (displacements_matrix_x_along_axis 2 delta shape i' j' 0 0).
Proof.
  exists skew_delta, skew_shape, (skew_point 2), (skew_point 0), (skew_point 0), (skew_point 1).
  split; [|split; [|split]].
  - intros [|[|a]] Ha; simpl; lia.
  - intros [|[|a]] Ha; simpl; [|exists 1%Z; lia|lia]. exists 0%Z; lia.
  - simpl. lra.
  - rewrite !skew_value by (simpl; lra). simpl INR.
    rewrite (Rabs_right ((1 + 1 - 0) / 6)) by lra. rewrite (Rabs_left ((0 - 1) / 6)) by lra. lra.
Qed.

(** Finding: get_displacements_matrix_x. *)
Lemma displacements_matrix_x_wrong len n origin : 0 < len -> (1 < n)%nat ->
  fold_right Nat.mul 1%nat (displacements_matrix_x_shape n) = n /\ n <> (n * n)%nat /\
  forall k k', displacements_matrix_x len n origin k = displacements_matrix_x len n origin k' /\
    - (len / 2) <= displacements_matrix_x len n origin k < 0.
Proof.
  intros Hl Hn. split; [simpl; lia|]. split; [nia|]. intros k k'.
  unfold displacements_matrix_x. rewrite norm_1, Rabs_right by lra.
  replace (x_point_1d len n k - x_point_1d len n k) with 0 by ring.
  replace (x_point_1d len n k' - x_point_1d len n k') with 0 by ring. split; [reflexivity|].
  destruct (rmod_spec (0 - origin + len) (len / 2)) as [H _]; lra.
Qed.
