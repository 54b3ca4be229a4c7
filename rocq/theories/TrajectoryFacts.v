(** Examples and refutations for the averages over pairs of times. *)
From Coq Require Import Reals Lra Lia List.
From Verif Require Import ZLib Csum DFT NumPy TimeBasis TimeProofs Trajectory SpecTrajectory TrajectoryProofs TrajectoryProofs2.
Import ListNotations.
Local Open Scope R_scope.

Definition ex_lags : time_basis := {| tn := 3; tstep := 2; toffset := 1; tspan := 6 |}.
Definition ex_path (t : nat) : R := nth t [0; 1; 3; 5; 5; 4] 0.
Definition ex_ks (t : nat) : R := nth t [1; 2; 4; 1; 1; 2] 1.

Lemma lags_some : exists out, lag_basis ex_lags = Some out.
Proof.
  destruct (lag_basis ex_lags) as [o|] eqn:E; [eauto|]. apply lag_basis_none in E. discriminate.
Qed.

Lemma ex_displacements : exists out y, get_average_displacements ex_lags ex_path = Some (out, y) /\
  y 0%nat = 0 /\ y 1%nat = 5 / 2 /\ y 2%nat = 9 /\ y 4%nat = 1 / 2.
Proof.
  destruct lags_some as (out & E).
  destruct (get_average_displacements ex_lags ex_path) as [[o y]|] eqn:G.
  2: { unfold get_average_displacements in G. rewrite E in G. discriminate. }
  exists o, y. split; [reflexivity|].
  pose proof (displacements_spec _ _ _ _ G) as H.
  pose proof (H 0%nat 0%nat ltac:(cbn; lia)) as H0. pose proof (H 0%nat 1%nat ltac:(cbn; lia)) as H1.
  pose proof (H 0%nat 2%nat ltac:(cbn; lia)) as H2. pose proof (H 1%nat 1%nat ltac:(cbn; lia)) as H3.
  unfold pair_mean, ex_path in *. cbn in H0, H1, H2, H3.
  rewrite H0, H1, H2, H3. repeat split; lra.
Qed.

Lemma ex_isf : exists out y, get_average_isf ex_lags ex_path 1 = Some (out, y) /\
  y 1%nat = ((cos 1 + cos 2) / 2, - ((sin 1 + sin 2) / 2)).
Proof.
  destruct lags_some as (out & E).
  destruct (get_average_isf ex_lags ex_path 1) as [[o y]|] eqn:G.
  2: { unfold get_average_isf in G. rewrite E in G. discriminate. }
  exists o, y. split; [reflexivity|].
  pose proof (isf_spec _ _ _ _ _ G 0%nat 1%nat ltac:(cbn; lia)) as H1.
  unfold pair_mean, ex_path in H1. cbn in H1. rewrite H1.
  replace (1 * (1 - 0)) with 1 by ring. replace (1 * (3 - 1)) with 2 by ring.
  f_equal; field.
Qed.

Lemma ex_drift : exists out y, get_normalized_average_drift ex_lags ex_path ex_ks = Some (out, y) /\
  (forall i, (i < 3)%nat -> ex_ks i <> 0) /\ y 1%nat = - 2.
Proof.
  destruct lags_some as (out & E).
  destruct (get_normalized_average_drift ex_lags ex_path ex_ks) as [[o y]|] eqn:G.
  2: { unfold get_normalized_average_drift in G. rewrite E in G. discriminate. }
  exists o, y. split; [reflexivity|]. split.
  - intros i Hi. destruct i as [|[|[|i]]]; try lia; cbn; lra.
  - pose proof (drift_spec _ _ _ _ _ G 0%nat 1%nat ltac:(cbn; lia)) as H1.
    unfold pair_mean, ex_path, ex_ks in H1. cbn in H1. rewrite H1; [field| |lra].
    intros i Hi. destruct i as [|[|i]]; try lia; lra.
Qed.

(** The documented sum pairs the earlier entry of the first array with the later one of the
    second. *)
Lemma documented_offsets_refuted : ~ (forall n x y d, (d < n)%nat ->
  offset_products_real n x y d = rsum (fun i => x i * y (i + d)%nat) (n - d)).
Proof.
  intros H. specialize (H 2%nat (fun i => INR i) (fun i => 1 - INR i) 1%nat ltac:(lia)).
  rewrite offset_real_spec in H by lia. cbn in H. lra.
Qed.

Lemma commented_isf_refuted : ~ (forall b x k out y, get_average_isf b x k = Some (out, y) -> forall d, (d < tn b)%nat ->
  y d = Cdiv (csum (fun i => Cmult (cis (k * x (i + d)%nat)) (cis (- (k * x i)))) (tn b - d)) (RtoC (INR (tn b - d)))).
Proof.
  intros H. set (b := {| tn := 2; tstep := 1; toffset := 0; tspan := 2 |}).
  destruct (get_average_isf b INR 1) as [[o y]|] eqn:G.
  2: { destruct (lag_basis b) eqn:E; [unfold get_average_isf in G; rewrite E in G; discriminate|].
       apply lag_basis_none in E. discriminate. }
  specialize (H _ _ _ _ _ G 1%nat ltac:(cbn; lia)).
  pose proof (isf_spec _ _ _ _ _ G 0%nat 1%nat ltac:(cbn; lia)) as H1.
  cbn in H1. rewrite H1 in H. apply (f_equal snd) in H.
  unfold pair_mean in H. cbn in H.
  replace (1 * 0) with 0 in H by ring. replace (1 * (1 - 0)) with 1 in H by ring.
  rewrite Ropp_0, sin_0, cos_0 in H. replace (1 * 1) with 1 in H by ring.
  assert (0 < sin 1) by (apply sin_gt_0; [lra|pose proof PI2_1; lra]).
  field_simplify in H. lra.
Qed.

(** A particle at rest has a drift that depends on where it is. *)
Lemma normalized_drift_at_rest b x k out y c kappa : get_average_normalized_drift b x k = Some (out, y) -> kappa <> 0 -> forall r,
  (forall i, (i < tn b)%nat -> x (r * tn b + i)%nat = c /\ k (r * tn b + i)%nat = kappa) ->
  forall d, (d < tn b)%nat -> y (r * tn b + d)%nat = c * kappa * INR (tn b - d) * (1 - / INR (tn b)).
Proof.
  intros G Hk r Hx d Hd. rewrite (normalized_drift_spec _ _ _ _ _ G r d Hd).
  2: { intros i Hi. rewrite (proj2 (Hx i ltac:(lia))). exact Hk. }
  rewrite (rsum_ext (fun i => x (r * tn b + i)%nat * k (r * tn b + i)%nat) (fun _ => c * kappa)).
  2: { intros i Hi. destruct (Hx i ltac:(lia)) as (-> & ->). reflexivity. }
  rewrite (rsum_ext (fun i => x (r * tn b + (i + d))%nat * k (r * tn b + i)%nat) (fun _ => c * kappa)).
  2: { intros i Hi. rewrite (proj1 (Hx (i + d)%nat ltac:(lia))), (proj2 (Hx i ltac:(lia))). reflexivity. }
  rewrite rsum_const. field. apply not_0_INR. lia.
Qed.

Lemma normalized_drift_translation_refuted : ~ (forall b x k c out y out' y',
  get_average_normalized_drift b x k = Some (out, y) -> get_average_normalized_drift b (fun i => x i + c) k = Some (out', y') ->
  forall d, (d < tn b)%nat -> y' d = y d).
Proof.
  intros H.
  assert (G : forall x k, exists o y, get_average_normalized_drift ex_lags x k = Some (o, y)).
  { intros x k. destruct lags_some as (o & E). unfold get_average_normalized_drift. rewrite E. eauto. }
  destruct (G (fun _ => 0) (fun _ => 1)) as (o & y & G1). destruct (G (fun _ => 0 + 1) (fun _ => 1)) as (o' & y' & G2).
  specialize (H _ _ _ _ _ _ _ _ G1 G2 0%nat ltac:(cbn; lia)).
  pose proof (normalized_drift_at_rest _ _ _ _ _ 0 1 G1 ltac:(lra) 0%nat ltac:(auto) 0%nat ltac:(cbn; lia)) as H1.
  pose proof (normalized_drift_at_rest _ _ _ _ _ (0 + 1) 1 G2 ltac:(lra) 0%nat ltac:(auto) 0%nat ltac:(cbn; lia)) as H2.
  cbn in H1, H2. rewrite H1, H2 in H. lra.
Qed.

Lemma all_raise b x k s : tn b = 0%nat <-> get_average_displacements b x = None /\ get_average_isf b x s = None /\
  get_average_normalized_drift b x k = None /\ get_normalized_average_drift b x k = None.
Proof.
  rewrite <- lag_basis_none. unfold get_average_displacements, get_average_isf, get_average_normalized_drift, get_normalized_average_drift.
  destruct (lag_basis b); split; intros H; try discriminate; try reflexivity; [destruct H as (H & _); discriminate|auto].
Qed.

Lemma all_bases b x k s : (forall out y, get_average_displacements b x = Some (out, y) -> lag_basis b = Some out) /\
  (forall out y, get_average_isf b x s = Some (out, y) -> lag_basis b = Some out) /\
  (forall out y, get_average_normalized_drift b x k = Some (out, y) -> lag_basis b = Some out) /\
  (forall out y, get_normalized_average_drift b x k = Some (out, y) -> lag_basis b = Some out).
Proof.
  unfold get_average_displacements, get_average_isf, get_average_normalized_drift, get_normalized_average_drift.
  destruct (lag_basis b); repeat split; intros out y H; inversion H; reflexivity.
Qed.

(** The times of the results are the differences of the given times. *)
Lemma all_times b x k s out : (exists y, get_average_displacements b x = Some (out, y)) \/ (exists y, get_average_isf b x s = Some (out, y)) \/
  (exists y, get_average_normalized_drift b x k = Some (out, y)) \/ (exists y, get_normalized_average_drift b x k = Some (out, y)) ->
  (0 < tstep b)%nat ->
  exists t l, times b = Some t /\ times out = Some l /\ length l = length t /\
    forall i d, (i + d < length t)%nat -> nth d l 0 = nth (i + d) t 0 - nth i t 0.
Proof.
  intros H Hs. destruct (all_bases b x k s) as (B1 & B2 & B3 & B4).
  assert (E : lag_basis b = Some out).
  { destruct H as [[y H]|[[y H]|[[y H]|[y H]]]]; eauto. }
  assert (Hn : (0 < tn b)%nat).
  { destruct (tn b) eqn:T; [|lia]. apply lag_basis_none in T. congruence. }
  destruct (times_spec b Hn Hs) as (t & Ht & Lt & At & h' & small & D' & _ & _ & Sp & _).
  destruct (lag_basis_spec b Hn) as (o & h & E' & D & _ & l & Hl & Ll & Al).
  rewrite E in E'. inversion E'; subst o. rewrite D in D'. inversion D'; subst h'.
  exists t, l. repeat split; [exact Ht|exact Hl|congruence|].
  intros i d Hid. rewrite Lt in Hid. rewrite (Al d) by lia. rewrite !At by lia. rewrite plus_INR.
  assert (INR (tn b) <> 0) by (apply not_0_INR; lia). assert (INR (tstep b) <> 0) by (apply not_0_INR; lia).
  rewrite Sp. field. auto.
Qed.
