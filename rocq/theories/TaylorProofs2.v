(** Taylor coefficients of even functions given by power series. *)
From Coq Require Import Reals Lra Lia List Arith ZArith Psatz.
From Coquelicot Require Import Coquelicot.
From Verif Require Import ZLib Csum DFT NumPy Spec SpecBasis Taylor SpecTaylor.
Import ListNotations.
Local Open Scope R_scope.

Definition spread (q : nat -> R) (n : nat) : R := if Nat.even n then q (n / 2)%nat else 0.

Lemma spread_even q m : spread q (2 * m) = q m.
Proof. unfold spread. rewrite Nat.even_mul. cbn [orb Nat.even]. f_equal. rewrite Nat.mul_comm. now apply Nat.div_mul. Qed.

Lemma spread_odd q m : spread q (2 * m + 1) = 0.
Proof. unfold spread. rewrite Nat.even_add, Nat.even_mul. reflexivity. Qed.

Lemma zero_pseries (y : R) : is_pseries (fun _ => 0) y 0.
Proof.
  apply is_pseries_R. apply (is_series_ext (fun _ => 0)); [intros n; symmetry; apply Rmult_0_l|].
  unfold is_series. apply (filterlim_ext (fun _ : nat => 0)); [|apply filterlim_const]. intros n. rewrite sum_n_const. symmetry. apply Rmult_0_r.
Qed.

Lemma spread_pseries q x l : is_pseries q (x ^ 2) l -> is_pseries (spread q) x l.
Proof.
  intros H. replace l with (l + x * 0) by ring. apply is_pseries_odd_even.
  - apply (is_pseries_ext q); [|exact H]. intros n. now rewrite spread_even.
  - apply (is_pseries_ext (fun _ => 0)); [intros n; now rewrite spread_odd|].
    apply zero_pseries.
Qed.

Lemma pseries_radius a r : 0 < r -> ex_pseries a r -> Rbar_lt (Finite 0) (CV_radius a).
Proof.
  intros Hr H. destruct (Rbar_lt_dec (CV_radius a) (Finite (Rabs r))) as [Hlt|Hge].
  - exfalso. apply (CV_disk_outside a r Hlt). apply ex_series_lim_0. apply ex_pseries_R in H. exact H.
  - apply Rbar_not_lt_le in Hge. eapply Rbar_lt_le_trans; [|exact Hge]. cbn. rewrite Rabs_right; lra.
Qed.

Lemma even_taylor f q r : 0 < r -> (forall x, Rabs x < r -> is_pseries q (x ^ 2) (f x)) ->
  forall n, ex_derive_n f n 0 /\ Derive_n f n 0 = spread q n * INR (fact n).
Proof.
  intros Hr H n.
  assert (S : forall x, Rabs x < r -> is_pseries (spread q) x (f x)) by (intros; apply spread_pseries; auto).
  assert (CV : Rbar_lt (Finite 0) (CV_radius (spread q))).
  { apply (pseries_radius _ (r / 2)); [lra|]. exists (f (r / 2)). apply S. rewrite Rabs_right; lra. }
  assert (L : locally 0 (fun t => PSeries (spread q) t = f t)).
  { exists (mkposreal r Hr). intros y Hy. apply is_pseries_unique. apply S. change (Rabs (y + - 0) < r) in Hy. rewrite Ropp_0, Rplus_0_r in Hy. exact Hy. }
  split.
  - apply (ex_derive_n_ext_loc (PSeries (spread q))); [exact L|]. apply ex_derive_n_PSeries. rewrite Rabs_R0. exact CV.
  - rewrite <- (Derive_n_ext_loc (PSeries (spread q)) f n 0 L). now apply Derive_n_coef.
Qed.

Lemma agree_even f g q q' r n : 0 < r -> (forall x, Rabs x < r -> is_pseries q (x ^ 2) (f x)) -> (forall x, Rabs x < r -> is_pseries q' (x ^ 2) (g x)) ->
  (forall m, (m < n)%nat -> q m = q' m) -> agree_to_order (2 * n) f g.
Proof.
  intros Hr Hf Hg E j Hj. destruct (even_taylor f q r Hr Hf j) as [A B], (even_taylor g q' r Hr Hg j) as [A' B']. split; [exact A|]. split; [exact A'|].
  rewrite B, B'. f_equal. unfold spread. destruct (Nat.even j) eqn:Ev; [|reflexivity]. apply E. apply Nat.div_lt_upper_bound; lia.
Qed.

(** ** The functions *)

Lemma cos_pseries i x : is_pseries (fun m => (-1) ^ m / INR (fact (2 * m)) * INR i ^ (2 * m)) (x ^ 2) (cos (INR i * x)).
Proof.
  unfold cos. destruct (exist_cos (Rsqr (INR i * x))) as [l Hl]. unfold cos_in in Hl.
  apply is_pseries_R. apply is_series_Reals. intros eps He. destruct (Hl eps He) as [N HN]. exists N. intros n Hn. specialize (HN n Hn).
  replace (sum_f_R0 (fun n0 => (-1) ^ n0 / INR (fact (2 * n0)) * INR i ^ (2 * n0) * (x ^ 2) ^ n0) n) with (sum_f_R0 (fun i0 => cos_n i0 * Rsqr (INR i * x) ^ i0) n); [exact HN|].
  apply sum_eq. intros m Hm. unfold cos_n. rewrite Rmult_assoc. f_equal. unfold Rsqr. rewrite (pow_mult (INR i) 2 m), <- Rpow_mult_distr. f_equal. ring.
Qed.

Lemma rsum_pseries (c : nat -> R) (q : nat -> nat -> R) (f : nat -> R) y n : (forall i, (i < n)%nat -> is_pseries (q i) y (f i)) ->
  is_pseries (fun m => rsum (fun i => c i * q i m) n) y (rsum (fun i => c i * f i) n).
Proof.
  induction n as [|n IH]; intros H.
  - apply zero_pseries.
  - cbn [rsum]. apply (is_pseries_plus (fun m => rsum (fun i => c i * q i m) n) (fun m => c n * q n m)); [apply IH; intros; apply H; lia|].
    apply (is_pseries_scal (c n) (q n)); [apply Rmult_comm|]. apply H. lia.
Qed.

Lemma cosine_series_pseries c x :
  is_pseries (fun m => rsum (fun i => nth i c 0 * ((-1) ^ m / INR (fact (2 * m)) * INR i ^ (2 * m))) (length c)) (x ^ 2) (cosine_series c x).
Proof. unfold cosine_series. apply (rsum_pseries (fun i => nth i c 0) (fun i m => (-1) ^ m / INR (fact (2 * m)) * INR i ^ (2 * m))). intros. apply cos_pseries. Qed.

Lemma gaussian_pseries a s x : is_pseries (fun m => a ^ 2 / INR (fact m) * (-1 / (2 * s ^ 2)) ^ m) (x ^ 2) (a ^ 2 * exp (- x ^ 2 / (2 * s ^ 2))).
Proof.
  apply (is_pseries_ext (fun m => scal (a ^ 2) ((fun m => / INR (fact m) * (-1 / (2 * s ^ 2)) ^ m) m))).
  { intros n. unfold scal; cbn; unfold mult; cbn. unfold Rdiv. ring. }
  apply (is_pseries_scal (a ^ 2) (fun m => / INR (fact m) * (-1 / (2 * s ^ 2)) ^ m) (x ^ 2) (exp (- x ^ 2 / (2 * s ^ 2)))); [apply Rmult_comm|].
  apply is_pseries_R. pose proof (is_exp_Reals (- x ^ 2 / (2 * s ^ 2))) as H. apply is_pseries_R in H.
  revert H. apply is_series_ext. intros n. rewrite Rmult_assoc, <- Rpow_mult_distr. do 2 f_equal. unfold Rdiv. ring.
Qed.

Lemma lorentzian_pseries a s x : 0 < s -> Rabs x < s -> is_pseries (fun m => a ^ 2 * (-1 / s ^ 2) ^ m) (x ^ 2) (a ^ 2 * s ^ 2 / (x ^ 2 + s ^ 2)).
Proof.
  intros Hs Hx. assert (0 < s ^ 2) by nra. assert (0 <= x ^ 2) by nra.
  replace (a ^ 2 * s ^ 2 / (x ^ 2 + s ^ 2)) with (scal (a ^ 2) (/ (1 - - x ^ 2 / s ^ 2))) by (unfold scal; cbn; unfold mult; cbn; field; split; nra).
  apply (is_pseries_scal (a ^ 2) (fun m => (-1 / s ^ 2) ^ m)); [apply Rmult_comm|].
  apply is_pseries_R. apply (is_series_ext (fun n => (- x ^ 2 / s ^ 2) ^ n)); [intros n; rewrite <- Rpow_mult_distr; f_equal; unfold Rdiv; ring|].
  apply is_series_geom. unfold Rdiv. rewrite Rabs_mult, Rabs_Ropp, (Rabs_right (x ^ 2)), (Rabs_right (/ s ^ 2)); [|left; now apply Rinv_0_lt_compat|lra].
  apply (Rmult_lt_reg_r (s ^ 2)); [lra|]. rewrite Rmult_assoc, Rinv_l by lra. rewrite Rmult_1_r, Rmult_1_l. apply Rabs_def2 in Hx. nra.
Qed.

Lemma even_polynomial_pseries p x : is_pseries (fun m => nth m p 0) (x ^ 2) (even_polynomial p x).
Proof.
  apply is_pseries_R. unfold is_series. apply (filterlim_ext_loc (fun _ => even_polynomial p x)); [|apply filterlim_const].
  exists (length p). intros n Hn. unfold even_polynomial.
  assert (Q : forall n, sum_n (fun k => nth k p 0 * (x ^ 2) ^ k) n = rsum (fun k => nth k p 0 * x ^ (2 * k)) (S n)).
  { induction n0 as [|n0 IH]; [rewrite sum_O; cbn; ring|]. rewrite sum_Sn, IH. rewrite (rsum_S _ (S n0)). rewrite (pow_mult x 2 (S n0)). reflexivity. }
  rewrite Q. clear Q. assert (K : exists d, S n = (length p + d)%nat) by (exists (S n - length p)%nat; lia). destruct K as [d ->].
  induction d as [|d IH]; [now rewrite Nat.add_0_r|]. rewrite <- plus_n_Sm. cbn [rsum]. rewrite <- IH, (nth_overflow p) by lia. ring.
Qed.
