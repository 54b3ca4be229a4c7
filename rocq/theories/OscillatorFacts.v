(** Concrete facts about oscillator states and the discretised oscillator. *)
From Coq Require Import Reals ZArith List Arith Lia Lra Psatz Bool.
From Coquelicot Require Import Coquelicot.
From Verif Require Import ZLib Csum NumPy Lattice LatticeProofs Oscillator SpecOscillator SpecHamiltonian HamiltonianProofs3 OscillatorProofs OscillatorProofs2.
Import ListNotations.
Local Open Scope R_scope.

Lemma coefficient_i64 n m : hermite_coefficient n m = i64 (hcoef n m).
Proof.
  apply cong_range; [|apply coefficient_range|apply i64_range].
  eapply cong_trans; [apply coefficient_cong|]. symmetry. apply i64_cong.
Qed.

Lemma rsum_IZR (f : nat -> Z) n : rsum (fun m => IZR (f m)) n = IZR (fold_right Z.add 0%Z (map f (seq 0 n))).
Proof.
  induction n as [|n IH]; [reflexivity|]. cbn [rsum]. rewrite IH, seq_S, map_app, fold_right_app. cbn [map fold_right Nat.add].
  rewrite <- plus_IZR. f_equal. generalize (map f (seq 0 n)) as l. induction l as [|a l IHl]; cbn [fold_right]; lia.
Qed.

Lemma hermite_val_one n : hermite_val 1 n = IZR (fold_right Z.add 0%Z (map (fun m => i64 (nth m (hrow n) 0%Z)) (seq 0 (S n)))).
Proof.
  unfold hermite_val. rewrite <- (rsum_IZR (fun m => i64 (nth m (hrow n) 0%Z))). apply rsum_ext. intros m _.
  rewrite pow1, coefficient_i64, hrow_nth. ring.
Qed.

Lemma hpoly_one n : hpoly n 1 = IZR (fold_right Z.add 0%Z (map (fun m => nth m (hrow n) 0%Z) (seq 0 (S n)))).
Proof.
  unfold hpoly. rewrite <- (rsum_IZR (fun m => nth m (hrow n) 0%Z)). apply rsum_ext. intros m _.
  rewrite pow1, hrow_nth. ring.
Qed.

Definition overflows (n : nat) : bool :=
  negb (fold_right Z.add 0%Z (map (fun m => i64 (nth m (hrow n) 0%Z)) (seq 0 (S n))) =? fold_right Z.add 0%Z (map (fun m => nth m (hrow n) 0%Z) (seq 0 (S n))))%Z.

Lemma hermite_overflows h n : is_hermite h -> overflows n = true -> hermite_val 1 n <> h n 1.
Proof.
  intros Hh Ho. rewrite (hermite_poly h Hh), hermite_val_one, hpoly_one. intros E. apply eq_IZR in E.
  unfold overflows in Ho. rewrite E, Z.eqb_refl in Ho. discriminate.
Qed.

Lemma overflows_26 : overflows 26 = true.
Proof. vm_compute. reflexivity. Qed.

Lemma hermite_overflow h : is_hermite h -> exists n x, hermite_val x n <> h n x.
Proof. intros Hh. eexists. eexists. apply (hermite_overflows h _ Hh). exact overflows_26. Qed.

Section Distances.
  Variable nd : nat.
  Variables (delta origin : nat -> R) (n : nat).
  Hypothesis Hd : 0 < norm nd delta.

  Lemma distance_projection i : calculate_x_distances nd delta n origin i * norm nd delta
    = dot nd delta (fun c => delta c / INR n * INR i + origin c).
  Proof using Hd.
    unfold calculate_x_distances, dot. rewrite Rmult_plus_distr_r, <- !rsum_scal_r, <- rsum_plus.
    apply rsum_ext. intros c _. unfold Rdiv. set (q := / INR n). field. lra.
  Qed.

  Lemma norm_square : norm nd delta * norm nd delta = dot nd delta delta.
  Proof using.
    unfold norm, dot. apply sqrt_sqrt. apply rsum_nonneg. intros c _. nra.
  Qed.

  Lemma distance_linear i : calculate_x_distances nd delta n origin i
    = norm nd delta * INR i / INR n + dot nd delta origin / norm nd delta.
  Proof using Hd.
    apply Rmult_eq_reg_r with (norm nd delta); [|lra]. rewrite distance_projection.
    replace ((norm nd delta * INR i / INR n + dot nd delta origin / norm nd delta) * norm nd delta)
      with (norm nd delta * norm nd delta * (INR i / INR n) + dot nd delta origin) by (unfold Rdiv; set (q := / INR n); field; lra).
    rewrite norm_square. unfold dot. rewrite <- rsum_scal_r, <- rsum_plus. apply rsum_ext. intros c _. unfold Rdiv. ring.
  Qed.

  Lemma spacing_norm : (0 < n)%nat -> norm nd (fun c => delta c / INR n) = norm nd delta / INR n.
  Proof using Hd.
    intros Hn. assert (0 < INR n) by (apply lt_0_INR; exact Hn).
    rewrite <- (sqrt_Rsqr (norm nd delta / INR n)).
    - unfold norm at 1. f_equal. unfold Rsqr. replace (norm nd delta / INR n * (norm nd delta / INR n)) with (norm nd delta * norm nd delta * (/ INR n * / INR n)) by (field; lra).
      rewrite norm_square. unfold dot. rewrite <- rsum_scal_r. apply rsum_ext. intros c _. field. lra.
    - apply Rdiv_le_0_compat; [lra|exact H].
  Qed.
End Distances.

Lemma config_potential_zero mass omega nd delta n origin i : 0 < norm nd delta -> 0 < mass -> 0 < omega ->
  sho_config_potential omega mass nd delta n origin i >= 0 /\
  (sho_config_potential omega mass nd delta n origin i = 0 <-> dot nd delta (fun c => delta c / INR n * INR i + origin c) = 0).
Proof.
  intros Hd Hm Ho. unfold sho_config_potential. pose proof (distance_projection nd delta origin n Hd i) as P.
  set (d := calculate_x_distances nd delta n origin i) in *. assert (0 < omega ^ 2) by (apply pow_lt; exact Ho). split.
  - apply Rle_ge. apply Rmult_le_pos; [nra|apply pow2_ge_0].
  - rewrite <- P. split; intros E.
    + apply Rmult_integral in E. destruct E as [E|E]; [nra|]. assert (d = 0) by nra. subst d. rewrite H0. ring.
    + apply Rmult_integral in E. destruct E as [E|E]; [rewrite E; ring|lra].
Qed.

Lemma config_potential_value mass omega nd delta n origin i : 0 < norm nd delta ->
  2 * sho_config_potential omega mass nd delta n origin i
  = mass * omega ^ 2 * (dot nd delta (fun c => delta c / INR n * INR i + origin c) / norm nd delta) ^ 2.
Proof.
  intros Hd. unfold sho_config_potential. rewrite <- (distance_projection nd delta origin n Hd i). field. lra.
Qed.

Lemma infinite_vector_density hbar omega mass nd delta n origin j i : 0 < norm nd delta -> (0 < n)%nat ->
  infinite_sho_vector hbar omega mass nd delta n origin j i ^ 2
  = calculate_sho_wavefunction hbar (norm nd delta * INR i / INR n + dot nd delta origin / norm nd delta) omega mass j ^ 2 * (norm nd delta / INR n).
Proof.
  intros Hd Hn. unfold infinite_sho_vector. rewrite distance_linear by exact Hd. rewrite spacing_norm by assumption.
  rewrite Rpow_mult_distr. f_equal. rewrite <- Rsqr_pow2. apply Rsqr_sqrt. apply Rdiv_le_0_compat; [lra|apply lt_0_INR; exact Hn].
Qed.
