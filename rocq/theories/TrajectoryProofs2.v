(** Consequences for the averages over pairs of times. *)
From Coq Require Import Reals Lra Lia Psatz.
From Verif Require Import ZLib Csum DFT NumPy FourierProofs4 TimeBasis TimeProofs Trajectory SpecTrajectory TrajectoryProofs.
Local Open Scope R_scope.

Lemma count_pos n d : (d < n)%nat -> 0 < INR (n - d).
Proof. intros H. apply lt_0_INR. lia. Qed.

Lemma pair_mean_const n f d c : (d < n)%nat -> (forall i, (i < n - d)%nat -> f i (i + d)%nat = c) -> pair_mean n f d = c.
Proof.
  intros Hd H. assert (P := count_pos n d Hd). unfold pair_mean. rewrite (rsum_ext _ (fun _ => c)) by exact H. rewrite rsum_const. field. lra.
Qed.
Lemma pair_mean_ext n f g d : (forall i, (i < n - d)%nat -> f i (i + d)%nat = g i (i + d)%nat) -> pair_mean n f d = pair_mean n g d.
Proof. intros H. unfold pair_mean. rewrite (rsum_ext _ (fun i => g i (i + d)%nat)) by exact H. reflexivity. Qed.
Lemma pair_mean_le n f g d : (d < n)%nat -> (forall i, (i < n - d)%nat -> f i (i + d)%nat <= g i (i + d)%nat) -> pair_mean n f d <= pair_mean n g d.
Proof.
  intros Hd H. assert (P := count_pos n d Hd). unfold pair_mean. apply Rmult_le_compat_r; [left; apply Rinv_0_lt_compat; exact P|]. apply rsum_le. exact H.
Qed.

(** Displacements. *)
Lemma displacement_facts b x out y : get_average_displacements b x = Some (out, y) -> forall r,
  ((0 < tn b)%nat -> y (r * tn b)%nat = 0) /\
  (forall d, (d < tn b)%nat -> 0 <= y (r * tn b + d)%nat) /\
  (forall x' out' y' c, get_average_displacements b x' = Some (out', y') ->
     (forall i, (i < tn b)%nat -> x' (r * tn b + i)%nat = x (r * tn b + i)%nat + c) ->
     forall d, (d < tn b)%nat -> y' (r * tn b + d)%nat = y (r * tn b + d)%nat) /\
  (forall x0 v, (forall i, (i < tn b)%nat -> x (r * tn b + i)%nat = x0 + v * INR i) ->
     forall d, (d < tn b)%nat -> y (r * tn b + d)%nat = (v * INR d) ^ 2).
Proof.
  intros E r. assert (Sp := displacements_spec b x out y E r). split; [|split; [|split]].
  - intros Hn. rewrite <- (Nat.add_0_r (r * tn b)). rewrite Sp by exact Hn. apply pair_mean_const; [exact Hn|]. intros i Hi. rewrite Nat.add_0_r. ring.
  - intros d Hd. rewrite Sp by exact Hd. rewrite <- (pair_mean_const (tn b) (fun _ _ => 0) d 0 Hd) by reflexivity. apply pair_mean_le; [exact Hd|].
    intros i Hi. apply pow2_ge_0.
  - intros x' out' y' c E' Hx d Hd. rewrite Sp, (displacements_spec b x' out' y' E' r) by exact Hd. apply pair_mean_ext. intros i Hi. rewrite !Hx by lia. ring.
  - intros x0 v Hx d Hd. rewrite Sp by exact Hd. apply pair_mean_const; [exact Hd|]. intros i Hi. rewrite !Hx by lia. rewrite plus_INR. ring.
Qed.

(** The scattering function. *)
Lemma sum_phases_bound th n : rsum (fun i => cos (th i)) n ^ 2 + rsum (fun i => sin (th i)) n ^ 2 <= INR n ^ 2.
Proof.
  induction n as [|n IH]; [cbn; lra|]. rewrite S_INR. cbn [rsum]. set (a := rsum (fun i => cos (th i)) n) in *. set (b := rsum (fun i => sin (th i)) n) in *.
  assert (N := pos_INR n). assert (T := sin2_cos2 (th n)). unfold Rsqr in T. set (c := cos (th n)) in *. set (s := sin (th n)) in *.
  assert (Q : (a * c + b * s) ^ 2 <= INR n ^ 2).
  { assert (0 <= (a * s - b * c) ^ 2) by apply pow2_ge_0. assert ((a * c + b * s) ^ 2 + (a * s - b * c) ^ 2 = a ^ 2 + b ^ 2); [|lra].
    replace ((a * c + b * s) ^ 2 + (a * s - b * c) ^ 2) with ((a ^ 2 + b ^ 2) * (s * s + c * c)) by ring. rewrite T. ring. }
  assert (L : a * c + b * s <= INR n).
  { apply Rnot_lt_le. intros F. nra. }
  replace ((a + c) ^ 2 + (b + s) ^ 2) with (a ^ 2 + b ^ 2 + 2 * (a * c + b * s) + (s * s + c * c)) by ring. rewrite T. nra.
Qed.

Lemma cos_lower t : 1 - t ^ 2 / 2 <= cos t.
Proof.
  assert (H : cos t = 1 - 2 * sin (t / 2) * sin (t / 2)) by (replace t with (2 * (t / 2)) at 1 by field; apply cos_2a_sin).
  assert (B : sin (t / 2) ^ 2 <= (t / 2) ^ 2).
  { assert (G : forall u, 0 <= u -> sin u ^ 2 <= u ^ 2).
    { intros u Hu. destruct (Rle_dec u 1) as [L|L].
      - assert (S1 : sin u <= u) by (destruct (Req_dec u 0) as [->|Z]; [rewrite sin_0; lra|left; apply sin_lt_x; lra]).
        assert (S0 : 0 <= sin u) by (apply sin_ge_0; [exact Hu|]; assert (P := PI2_1); unfold PI2 in P; assert (P3 := PI_RGT_0); lra). nra.
      - assert (S1 := SIN_bound u). nra. }
    destruct (Rle_dec 0 (t / 2)) as [L|L]; [apply G; exact L|].
    replace (sin (t / 2)) with (- sin (- (t / 2))) by (rewrite sin_neg; ring). replace (t / 2) with (- (- (t / 2))) at 2 by ring.
    assert (K := G (- (t / 2)) ltac:(lra)). nra. }
  rewrite H. nra.
Qed.

Lemma isf_facts b x k out y : get_average_isf b x k = Some (out, y) -> forall r,
  ((0 < tn b)%nat -> y (r * tn b)%nat = RtoC 1) /\
  (forall d, (d < tn b)%nat -> Cnorm2 (y (r * tn b + d)%nat) <= 1) /\
  (forall out' y', get_average_isf b x (- k) = Some (out', y') -> forall d, (d < tn b)%nat -> y' (r * tn b + d)%nat = Cconj (y (r * tn b + d)%nat)) /\
  (forall x' out' y' c, get_average_isf b x' k = Some (out', y') ->
     (forall i, (i < tn b)%nat -> x' (r * tn b + i)%nat = x (r * tn b + i)%nat + c) ->
     forall d, (d < tn b)%nat -> y' (r * tn b + d)%nat = y (r * tn b + d)%nat) /\
  (forall x0 v, (forall i, (i < tn b)%nat -> x (r * tn b + i)%nat = x0 + v * INR i) ->
     forall d, (d < tn b)%nat -> y (r * tn b + d)%nat = cis (- (k * v * INR d))) /\
  (forall out' s, get_average_displacements b x = Some (out', s) ->
     forall d, (d < tn b)%nat -> 1 - fst (y (r * tn b + d)%nat) <= k ^ 2 * s (r * tn b + d)%nat / 2).
Proof.
  intros E r. assert (Sp := isf_spec b x k out y E r). split; [|split; [|split; [|split; [|split]]]].
  - intros Hn. rewrite <- (Nat.add_0_r (r * tn b)). rewrite Sp by exact Hn. unfold RtoC. f_equal.
    + apply pair_mean_const; [exact Hn|]. intros i Hi. rewrite Nat.add_0_r, Rminus_eq_0, Rmult_0_r. apply cos_0.
    + rewrite (pair_mean_const _ _ _ 0 Hn); [ring|]. intros i Hi. rewrite Nat.add_0_r, Rminus_eq_0, Rmult_0_r. apply sin_0.
  - intros d Hd. rewrite Sp by exact Hd. unfold Cnorm2, pair_mean. cbn [fst snd]. assert (P := count_pos _ _ Hd).
    assert (B := sum_phases_bound (fun i => k * (x (r * tn b + (i + d))%nat - x (r * tn b + i)%nat)) (tn b - d)).
    set (a := rsum (fun i => cos _) _) in *. set (c := rsum (fun i => sin _) _) in *. set (n := INR (tn b - d)) in *.
    apply (Rmult_le_reg_r (n ^ 2)); [nra|]. replace ((a / n * (a / n) + - (c / n) * - (c / n)) * n ^ 2) with (a ^ 2 + c ^ 2) by (field; lra). lra.
  - intros out' y' E' d Hd. rewrite Sp, (isf_spec b x (- k) out' y' E' r) by exact Hd. unfold Cconj. cbn [fst snd]. rewrite Ropp_involutive. f_equal.
    + apply pair_mean_ext. intros i Hi. rewrite <- Ropp_mult_distr_l. apply cos_neg.
    + assert (G : rsum (fun i => sin (- k * (x (r * tn b + (i + d))%nat - x (r * tn b + i)%nat))) (tn b - d) =
        - 1 * rsum (fun i => sin (k * (x (r * tn b + (i + d))%nat - x (r * tn b + i)%nat))) (tn b - d)).
      { rewrite <- rsum_scale. apply rsum_ext. intros i Hi. rewrite <- Ropp_mult_distr_l, sin_neg. ring. }
      unfold pair_mean. rewrite G. assert (P := count_pos _ _ Hd). field. lra.
  - intros x' out' y' c E' Hx d Hd. rewrite Sp, (isf_spec b x' k out' y' E' r) by exact Hd. f_equal; [|f_equal].
    + apply pair_mean_ext. intros i Hi. rewrite !Hx by lia. f_equal. ring.
    + apply pair_mean_ext. intros i Hi. rewrite !Hx by lia. f_equal. ring.
  - intros x0 v Hx d Hd. rewrite Sp by exact Hd. unfold cis. rewrite cos_neg, sin_neg. f_equal; [|f_equal].
    + apply pair_mean_const; [exact Hd|]. intros i Hi. rewrite !Hx by lia. rewrite plus_INR. f_equal. ring.
    + apply pair_mean_const; [exact Hd|]. intros i Hi. rewrite !Hx by lia. rewrite plus_INR. f_equal. ring.
  - intros out' s E' d Hd. rewrite Sp, (displacements_spec b x out' s E' r) by exact Hd. cbn [fst].
    assert (H := pair_mean_le (tn b) (fun i j => 1 + - (k ^ 2 / 2) * (x (r * tn b + j)%nat - x (r * tn b + i)%nat) ^ 2)
      (fun i j => cos (k * (x (r * tn b + j)%nat - x (r * tn b + i)%nat))) d Hd).
    assert (H' := H ltac:(intros i Hi; assert (C := cos_lower (k * (x (r * tn b + (i + d))%nat - x (r * tn b + i)%nat))); nra)).
    assert (P := count_pos _ _ Hd). unfold pair_mean in H' at 1. rewrite rsum_add, rsum_const, rsum_scale in H'.
    replace ((INR (tn b - d) * 1 + - (k ^ 2 / 2) * rsum (fun i => (x (r * tn b + (i + d))%nat - x (r * tn b + i)%nat) ^ 2) (tn b - d)) / INR (tn b - d))
      with (1 - k ^ 2 * pair_mean (tn b) (fun i j => (x (r * tn b + j)%nat - x (r * tn b + i)%nat) ^ 2) d / 2) in H' by (unfold pair_mean; field; lra).
    lra.
Qed.

(** Drift for uniform motion. *)
Lemma drift_uniform b x k out y x0 v kappa : get_normalized_average_drift b x k = Some (out, y) -> kappa <> 0 -> forall r,
  (forall i, (i < tn b)%nat -> x (r * tn b + i)%nat = x0 + v * INR i /\ k (r * tn b + i)%nat = kappa) ->
  forall d, (d < tn b)%nat -> y (r * tn b + d)%nat = - (v * INR d * kappa).
Proof.
  intros E Hk r Hx d Hd. assert (P := count_pos _ _ Hd).
  assert (R : rsum (fun i => / k (r * tn b + i)%nat) (tn b - d) = INR (tn b - d) * / kappa).
  { rewrite <- rsum_const. apply rsum_ext. intros i Hi. rewrite (proj2 (Hx i ltac:(lia))). reflexivity. }
  assert (I : / kappa <> 0) by (apply Rinv_neq_0_compat; exact Hk).
  rewrite (drift_spec b x k out y E r d Hd).
  - rewrite (pair_mean_const _ _ d (v * INR d) Hd), (pair_mean_const _ _ d (/ kappa) Hd).
    + field. exact Hk.
    + intros i Hi. rewrite (proj2 (Hx i ltac:(lia))). reflexivity.
    + intros i Hi. rewrite (proj1 (Hx i ltac:(lia))), (proj1 (Hx (i + d)%nat ltac:(lia))), plus_INR. ring.
  - intros i Hi. rewrite (proj2 (Hx i ltac:(lia))). exact Hk.
  - rewrite R. nra.
Qed.
