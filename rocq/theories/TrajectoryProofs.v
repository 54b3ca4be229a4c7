(** Averages over pairs of times. *)
From Coq Require Import Reals Lra Lia Psatz.
From Verif Require Import ZLib Csum DFT NumPy FourierProofs4 TimeBasis TimeProofs Trajectory SpecTrajectory.
Local Open Scope R_scope.

Lemma rsum_add f g n : rsum (fun i => f i + g i) n = rsum f n + rsum g n.
Proof. induction n as [|n IH]; cbn; [ring|rewrite IH; ring]. Qed.
Lemma rsum_scale c f n : rsum (fun i => c * f i) n = c * rsum f n.
Proof. induction n as [|n IH]; cbn; [ring|rewrite IH; ring]. Qed.
Lemma rsum_const c n : rsum (fun _ => c) n = INR n * c.
Proof. induction n as [|n IH]; [cbn; ring|]. rewrite S_INR. cbn [rsum]. rewrite IH. ring. Qed.
Lemma rsum_sub f g n : rsum (fun i => f i - g i) n = rsum f n - rsum g n.
Proof. induction n as [|n IH]; cbn; [ring|rewrite IH; ring]. Qed.

Lemma offset_real_spec n x y d : (d < n)%nat -> offset_products_real n x y d = rsum (fun i => x (i + d)%nat * y i) (n - d).
Proof.
  intros Hd. unfold offset_products_real, correlate_full.
  match goal with |- rsum ?F n = _ => replace (rsum F n) with (rsum F (d + (n - d))) by (f_equal; lia) end. rewrite rsum_split.
  rewrite (rsum_ext _ (fun _ => 0) d), rsum_const, Rmult_0_r, Rplus_0_l.
  2:{ intros l Hl. replace (n - 1 + d <=? l + n - 1)%nat with false; [reflexivity|]. symmetry. apply Nat.leb_gt. lia. }
  apply rsum_ext. intros i Hi. rewrite (proj2 (Nat.leb_le _ _)), (proj2 (Nat.ltb_lt _ _)) by lia. cbn [andb].
  rewrite (Nat.add_comm d i). f_equal. f_equal. lia.
Qed.

Lemma offset_complex_spec n x y d : (d < n)%nat ->
  offset_products_complex n x y d = csum (fun i => Cmult (x (i + d)%nat) (y i)) (n - d).
Proof.
  intros Hd. unfold offset_products_complex. rewrite !offset_real_spec by exact Hd.
  rewrite <- rsum_sub, <- rsum_add. induction (n - d)%nat as [|k IH]; [reflexivity|].
  cbn [rsum csum]. rewrite <- IH. unfold Cplus, Cmult. cbn [fst snd]. reflexivity.
Qed.

Lemma reversed_count n d : (d < n)%nat -> reversed n (fun i => INR (1 + i)) d = INR (n - d).
Proof. intros H. unfold reversed. f_equal. lia. Qed.
Lemma cumsum_reversed n x d : (d < n)%nat -> reversed n (cumsum x) d = rsum x (n - d).
Proof. intros H. unfold reversed, cumsum. f_equal. lia. Qed.
Lemma cumsum_of_reversed n x d : (d < n)%nat -> reversed n (cumsum (reversed n x)) d = rsum (fun i => x (i + d)%nat) (n - d).
Proof.
  intros H. rewrite cumsum_reversed by exact H. rewrite <- (rsum_rev (fun i => x (i + d)%nat)). apply rsum_ext. intros i Hi. unfold reversed. f_equal. lia.
Qed.

Lemma lag_basis_spec b : (0 < tn b)%nat -> exists out h, lag_basis b = Some out /\ dt b = Some h /\ tn out = tn b /\
  exists l, times out = Some l /\ length l = tn b /\ forall d, (d < tn b)%nat -> nth d l 0 = INR d * h.
Proof.
  intros Hn. assert (P : 0 < INR (tn b)) by (apply lt_0_INR; exact Hn). unfold lag_basis, dt. rewrite (proj2 (Nat.eqb_neq (tn b) 0)) by lia.
  eexists; eexists. split; [reflexivity|]. split; [reflexivity|]. split; [reflexivity|].
  destruct (times_spec {| tn := tn b; tstep := 1; toffset := 0; tspan := tspan b / INR (tn b) * INR (tn b) |} Hn ltac:(cbn; lia)) as [l [E [L [V _]]]].
  exists l. split; [exact E|]. split; [exact L|]. intros d Hd. rewrite V by exact Hd. cbn [tn tstep toffset tspan INR]. field. lra.
Qed.
Lemma lag_basis_none b : lag_basis b = None <-> tn b = 0%nat.
Proof. unfold lag_basis, dt. destruct (Nat.eqb_spec (tn b) 0); split; intros H; try discriminate; try reflexivity; try assumption; contradiction. Qed.

Lemma flat_at {A} n (f : nat -> nat -> A) r d : (d < n)%nat -> flat_of n f (r * n + d) = f r d.
Proof. intros H. unfold flat_of. rewrite Nat.div_add_l, Nat.div_small, Nat.add_0_r by lia. rewrite Nat.add_comm, Nat.mod_add, Nat.mod_small by lia. reflexivity. Qed.

Lemma displacements_spec b x out y : get_average_displacements b x = Some (out, y) -> forall r d, (d < tn b)%nat ->
  y (r * tn b + d)%nat = pair_mean (tn b) (fun i j => (x (r * tn b + j)%nat - x (r * tn b + i)%nat) ^ 2) d.
Proof.
  intros E r d Hd. unfold get_average_displacements in E. destruct (lag_basis b); [|discriminate]. injection E as _ <-.
  rewrite flat_at by exact Hd. rewrite reversed_count, cumsum_reversed, offset_real_spec by exact Hd. unfold pair_mean. f_equal.
  rewrite rsum_add.
  assert (R : rsum (reversed (tn b) (fun i => row_of (tn b) x r i * row_of (tn b) x r i)) (tn b - d) =
    rsum (fun i => row_of (tn b) x r (i + d)%nat * row_of (tn b) x r (i + d)%nat) (tn b - d)).
  { rewrite <- (rsum_rev (fun i => row_of (tn b) x r (i + d)%nat * row_of (tn b) x r (i + d)%nat)). apply rsum_ext. intros i Hi. unfold reversed.
    replace (tn b - 1 - i)%nat with (tn b - d - 1 - i + d)%nat by lia. reflexivity. }
  change (rsum (fun i => reversed (tn b) (fun i => row_of (tn b) x r i * row_of (tn b) x r i) i) (tn b - d)) with (rsum (reversed (tn b) (fun i => row_of (tn b) x r i * row_of (tn b) x r i)) (tn b - d)).
  rewrite R, <- rsum_add, <- rsum_scale, <- rsum_sub. apply rsum_ext. intros i Hi. unfold row_of. rewrite Nat.add_assoc. ring.
Qed.

Lemma isf_spec b x k out y : get_average_isf b x k = Some (out, y) -> forall r d, (d < tn b)%nat ->
  y (r * tn b + d)%nat = (pair_mean (tn b) (fun i j => cos (k * (x (r * tn b + j)%nat - x (r * tn b + i)%nat))) d,
                          - pair_mean (tn b) (fun i j => sin (k * (x (r * tn b + j)%nat - x (r * tn b + i)%nat))) d).
Proof.
  intros E r d Hd. unfold get_average_isf in E. destruct (lag_basis b); [|discriminate]. injection E as _ <-.
  rewrite flat_at by exact Hd. rewrite reversed_count, offset_complex_spec by exact Hd.
  assert (P : 0 < INR (tn b - d)) by (apply lt_0_INR; lia).
  assert (HS : csum (fun i => Cmult (Cconj (cis (k * row_of (tn b) x r (i + d)%nat))) (cis (k * row_of (tn b) x r i))) (tn b - d) =
    (rsum (fun i => cos (k * (x (r * tn b + (i + d))%nat - x (r * tn b + i)%nat))) (tn b - d),
     - rsum (fun i => sin (k * (x (r * tn b + (i + d))%nat - x (r * tn b + i)%nat))) (tn b - d))).
  { clear P. induction (tn b - d)%nat as [|m IH]; [cbn; unfold RtoC; f_equal; ring|]. cbn [csum rsum]. rewrite IH. unfold row_of, cis, Cconj, Cmult, Cplus. cbn [fst snd].
    rewrite Rmult_minus_distr_l. rewrite cos_minus, sin_minus. f_equal; ring. }
  rewrite HS. unfold pair_mean, Cdiv, Cinv, Cmult, RtoC. cbn [fst snd]. f_equal; field; lra.
Qed.

Lemma drift_spec b x k out y : get_normalized_average_drift b x k = Some (out, y) -> forall r d, (d < tn b)%nat ->
  (forall i, (i < tn b - d)%nat -> k (r * tn b + i)%nat <> 0) -> rsum (fun i => / k (r * tn b + i)%nat) (tn b - d) <> 0 ->
  y (r * tn b + d)%nat = - pair_mean (tn b) (fun i j => x (r * tn b + j)%nat - x (r * tn b + i)%nat) d /
     pair_mean (tn b) (fun i _ => / k (r * tn b + i)%nat) d.
Proof.
  intros E r d Hd Hk Hz. unfold get_normalized_average_drift in E. destruct (lag_basis b); [|discriminate]. injection E as _ <-.
  rewrite flat_at by exact Hd. assert (P : 0 < INR (tn b - d)) by (apply lt_0_INR; lia).
  assert (R2 := cumsum_of_reversed (tn b) (row_of (tn b) x r) d Hd). assert (R1 := cumsum_reversed (tn b) (row_of (tn b) x r) d Hd).
  assert (R3 := cumsum_reversed (tn b) (fun i => 1 / row_of (tn b) k r i) d Hd). unfold reversed at 1 in R2. unfold reversed in R1, R3.
  unfold reversed at 1. rewrite R1, R2, R3. unfold pair_mean. rewrite rsum_sub.
  rewrite (rsum_ext (fun i => 1 / row_of (tn b) k r i) (fun i => / k (r * tn b + i)%nat)) by (intros i Hi; unfold row_of, Rdiv; ring).
  unfold row_of. field. split; [lra|]. exact Hz.
Qed.

Lemma normalized_drift_spec b x k out y : get_average_normalized_drift b x k = Some (out, y) -> forall r d, (d < tn b)%nat ->
  (forall i, (i < tn b - d)%nat -> k (r * tn b + i)%nat <> 0) ->
  y (r * tn b + d)%nat = rsum (fun i => x (r * tn b + i)%nat * k (r * tn b + i)%nat) (tn b - d)
     - rsum (fun i => x (r * tn b + (i + d))%nat * k (r * tn b + i)%nat) (tn b - d) / INR (tn b).
Proof.
  intros E r d Hd Hk. unfold get_average_normalized_drift in E. destruct (lag_basis b); [|discriminate]. injection E as _ <-.
  rewrite flat_at by exact Hd. rewrite cumsum_reversed, offset_real_spec by exact Hd. unfold row_of. f_equal; [|f_equal].
  - apply rsum_ext. intros i Hi. specialize (Hk i Hi). field. exact Hk.
  - apply rsum_ext. intros i Hi. specialize (Hk i Hi). f_equal. field. exact Hk.
Qed.
