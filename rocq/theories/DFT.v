(** Roots of unity and the orthonormal discrete Fourier transform
    ([np.fft.fft]/[np.fft.ifft] with [norm="ortho"]). *)
From Coq Require Import Reals Psatz.
From Verif Require Import ZLib Csum.

Local Open Scope R_scope.
Local Open Scope C_scope.

(** e^{i t} *)
Definition cis (t : R) : C := (cos t, sin t).

Lemma cis_plus (a b : R) : cis (a + b) = cis a * cis b.
Proof.
  unfold cis, Cmult; simpl. rewrite cos_plus, sin_plus. f_equal; ring.
Qed.

Lemma cis_0 : cis 0 = 1.
Proof. unfold cis. rewrite cos_0, sin_0. reflexivity. Qed.

Lemma cis_conj (a : R) : Cconj (cis a) = cis (- a).
Proof. unfold cis, Cconj; simpl. rewrite cos_neg, sin_neg. reflexivity. Qed.

Lemma cis_conj_mult (a : R) : Cconj (cis a) * cis a = 1.
Proof. rewrite cis_conj, <- cis_plus, Rplus_opp_l. apply cis_0. Qed.

Lemma cis_norm2 (a : R) : Cnorm2 (cis a) = 1%R.
Proof.
  unfold Cnorm2, cis; simpl. generalize (sin2_cos2 a). unfold Rsqr. lra.
Qed.

Lemma cis_mod (a : R) : Cmod (cis a) = 1%R.
Proof.
  unfold Cmod, cis; simpl.
  replace (cos a * (cos a * 1) + sin a * (sin a * 1))%R with 1%R.
  - apply sqrt_1.
  - generalize (sin2_cos2 a). unfold Rsqr. lra.
Qed.

Lemma cis_neq_0 (a : R) : cis a <> 0.
Proof. intros E. generalize (cis_mod a). rewrite E, Cmod_0. lra. Qed.

Lemma cis_2PI_nat (k : nat) : cis (2 * PI * INR k) = 1.
Proof.
  unfold cis. replace (2 * PI * INR k)%R with (0 + 2 * INR k * PI)%R by ring.
  rewrite cos_period, sin_period, cos_0, sin_0. reflexivity.
Qed.

Lemma cis_2PI_Z (k : Z) : cis (2 * PI * IZR k) = 1.
Proof.
  destruct (Z_le_gt_dec 0 k) as [H|H].
  - rewrite <- (Z2Nat.id k H), <- INR_IZR_INZ. apply cis_2PI_nat.
  - apply Cconj_inj. rewrite cis_conj, Cconj_1.
    replace (- (2 * PI * IZR k))%R with (2 * PI * IZR (- k))%R by (rewrite opp_IZR; ring).
    rewrite <- (Z2Nat.id (- k)) by lia. rewrite <- INR_IZR_INZ. apply cis_2PI_nat.
Qed.

(** N-th root of unity to the power k: e^{2 pi i k / N}. *)
Definition omega (N : nat) (k : Z) : C := cis (2 * PI * IZR k / INR N).

Lemma omega_add N a b : omega N (a + b) = omega N a * omega N b.
Proof.
  unfold omega. rewrite <- cis_plus. f_equal. rewrite plus_IZR. unfold Rdiv. ring.
Qed.

Lemma omega_0 N : omega N 0 = 1.
Proof.
  unfold omega. replace (2 * PI * 0 / INR N)%R with 0%R by (unfold Rdiv; ring). apply cis_0.
Qed.

Lemma omega_conj N k : Cconj (omega N k) = omega N (- k).
Proof.
  unfold omega. rewrite cis_conj. f_equal. rewrite opp_IZR. unfold Rdiv. ring.
Qed.

Lemma omega_neq_0 N k : omega N k <> 0.
Proof. apply cis_neq_0. Qed.

Lemma omega_norm2 N k : Cnorm2 (omega N k) = 1%R.
Proof. apply cis_norm2. Qed.

Lemma omega_opp_mult N k : omega N (- k) * omega N k = 1.
Proof. rewrite <- omega_add. replace (- k + k)%Z with 0%Z by lia. apply omega_0. Qed.

Lemma omega_mult_N N q : (0 < N)%nat -> omega N (q * Z.of_nat N) = 1.
Proof.
  intros H. unfold omega. rewrite mult_IZR, <- INR_IZR_INZ.
  replace (2 * PI * (IZR q * INR N) / INR N)%R with (2 * PI * IZR q)%R.
  - apply cis_2PI_Z.
  - field. apply not_0_INR; lia.
Qed.

Lemma omega_cong N a b : (0 < N)%nat -> Zcong (Z.of_nat N) a b -> omega N a = omega N b.
Proof.
  intros H [q ->]. rewrite omega_add, omega_mult_N by assumption. ring.
Qed.

Lemma omega_scale N M k : (0 < M)%nat -> (0 < N)%nat ->
  omega (N * M) (k * Z.of_nat M) = omega N k.
Proof.
  intros HM HN. unfold omega. f_equal. rewrite mult_IZR, mult_INR, <- INR_IZR_INZ.
  field. split; apply not_0_INR; lia.
Qed.

Lemma omega_neq_1 N k : (0 < N)%nat -> (0 < k < Z.of_nat N)%Z -> omega N k <> 1.
Proof.
  intros HN Hk E.
  unfold omega, cis in E. apply (f_equal fst) in E. simpl in E.
  set (t := (2 * PI * IZR k / INR N)%R) in E.
  assert (HNR : (0 < INR N)%R) by (apply lt_0_INR; lia).
  assert (Hk0 : (0 < IZR k)%R) by (apply IZR_lt; lia).
  assert (HkN : (IZR k < INR N)%R) by (rewrite INR_IZR_INZ; apply IZR_lt; lia).
  assert (HPI := PI_RGT_0).
  assert (Ht : t = (2 * (PI * (IZR k / INR N)))%R) by (unfold t; field; lra).
  set (u := (PI * (IZR k / INR N))%R) in Ht.
  assert (Hq0 : (0 < IZR k / INR N)%R) by (apply Rdiv_lt_0_compat; lra).
  assert (Hq1 : (IZR k / INR N < 1)%R) by (apply Rmult_lt_reg_r with (INR N); [lra|]; unfold Rdiv; rewrite Rmult_assoc, Rinv_l by lra; lra).
  assert (Hu : (0 < u < PI)%R) by (unfold u; split; nra).
  rewrite Ht, cos_2a_sin in E.
  assert (Hs : (0 < sin u)%R) by (apply sin_gt_0; lra).
  nra.
Qed.

Fixpoint Cpow (z : C) (n : nat) : C :=
  match n with O => 1 | S m => z * Cpow z m end.

Lemma csum_geom z n : (z - 1) * csum (fun i => Cpow z i) n = Cpow z n - 1.
Proof.
  induction n as [|n IH]; simpl; [ring|].
  rewrite Cmult_plus_distr_l, IH. ring.
Qed.

Lemma omega_pow N k x : Cpow (omega N k) x = omega N (k * Z.of_nat x).
Proof.
  induction x as [|x IH].
  - simpl. rewrite Z.mul_0_r, omega_0. reflexivity.
  - simpl Cpow. rewrite IH, <- omega_add. f_equal. lia.
Qed.

(** Orthogonality of the characters of Z/N. *)
Lemma omega_sum_0 N k : (0 < N)%nat -> Zcong (Z.of_nat N) k 0 ->
  csum (fun x => omega N (k * Z.of_nat x)) N = RtoC (INR N).
Proof.
  intros HN [q Hq].
  rewrite (csum_ext _ (fun _ => 1)).
  - rewrite csum_const. ring.
  - intros x Hx. rewrite <- (omega_0 N). apply omega_cong; [assumption|].
    exists (q * Z.of_nat x)%Z. rewrite Hq. ring.
Qed.

Lemma omega_sum_neq N k : (0 < N)%nat -> ~ Zcong (Z.of_nat N) k 0 ->
  csum (fun x => omega N (k * Z.of_nat x)) N = 0.
Proof.
  intros HN Hk.
  assert (Hne : omega N k <> 1).
  { rewrite (omega_cong N k (k mod Z.of_nat N)) by (try assumption; apply Zcong_sym, Zcong_mod; lia).
    apply omega_neq_1; [assumption|].
    assert (Hm := Z.mod_pos_bound k (Z.of_nat N) ltac:(lia)).
    assert (k mod Z.of_nat N <> 0)%Z; [|lia].
    intros E. apply Hk. rewrite <- E. apply Zcong_sym, Zcong_mod. lia. }
  rewrite (csum_ext _ (fun x => Cpow (omega N k) x)) by (intros; symmetry; apply omega_pow).
  assert (H := csum_geom (omega N k) N).
  rewrite omega_pow, omega_mult_N in H by assumption.
  replace (1 - 1) with (RtoC 0) in H by ring.
  set (S := csum _ _) in *.
  assert (Hd : omega N k - 1 <> 0) by (apply Cminus_eq_contra; assumption).
  transitivity (/ (omega N k - 1) * ((omega N k - 1) * S)).
  - field. assumption.
  - rewrite H. ring.
Qed.

(** For indices below N: the delta function. *)
Lemma omega_orth N a b : (a < N)%nat -> (b < N)%nat ->
  csum (fun x => omega N ((Z.of_nat a - Z.of_nat b) * Z.of_nat x)) N =
  RtoC (INR N) * cdelta a b.
Proof.
  intros Ha Hb. unfold cdelta. destruct (Nat.eqb_spec a b) as [->|Hne].
  - rewrite omega_sum_0; [ring|lia|]. replace (Z.of_nat b - Z.of_nat b)%Z with 0%Z by lia.
    apply Zcong_refl.
  - rewrite omega_sum_neq; [ring|lia|]. intros [q Hq].
    assert (q = 0)%Z by nia. subst. lia.
Qed.

(** 1/sqrt N *)
Definition isqrt (N : nat) : C := RtoC (/ sqrt (INR N)).

Lemma isqrt_sqr N : (0 < N)%nat -> isqrt N * isqrt N * RtoC (INR N) = 1.
Proof.
  intros H. unfold isqrt. rewrite <- !RtoC_mult. f_equal.
  assert (0 < INR N)%R by (apply lt_0_INR; lia).
  assert (0 < sqrt (INR N))%R by (apply sqrt_lt_R0; lra).
  rewrite <- (sqrt_sqrt (INR N)) at 3 by lra. field. lra.
Qed.

Lemma isqrt_conj N : Cconj (isqrt N) = isqrt N.
Proof. apply Cconj_RtoC. Qed.

Lemma isqrt_neq0 N : (0 < N)%nat -> isqrt N <> 0.
Proof.
  intros H E. generalize (isqrt_sqr N H). rewrite E. intros F.
  assert (RtoC 0 = 1) by (rewrite <- F; ring). apply RtoC_inj in H0. lra.
Qed.

Lemma isqrt_mul n m : isqrt (n * m) = isqrt n * isqrt m.
Proof.
  unfold isqrt. rewrite <- RtoC_mult. f_equal. rewrite mult_INR, sqrt_mult.
  - apply Rinv_mult.
  - apply pos_INR.
  - apply pos_INR.
Qed.

Definition dft (N : nat) (v : nat -> C) (k : nat) : C :=
  isqrt N * csum (fun x => v x * omega N (- (Z.of_nat k * Z.of_nat x))) N.

Definition idft (N : nat) (v : nat -> C) (x : nat) : C :=
  isqrt N * csum (fun k => v k * omega N (Z.of_nat k * Z.of_nat x)) N.

Lemma dft_ext N v w k : (forall x, (x < N)%nat -> v x = w x) -> dft N v k = dft N w k.
Proof. intros H. unfold dft. f_equal. apply csum_ext; intros x Hx. rewrite H; auto. Qed.

Lemma idft_ext N v w k : (forall x, (x < N)%nat -> v x = w x) -> idft N v k = idft N w k.
Proof. intros H. unfold idft. f_equal. apply csum_ext; intros x Hx. rewrite H; auto. Qed.

Lemma idft_dft N v x : (x < N)%nat -> idft N (dft N v) x = v x.
Proof.
  intros Hx. unfold idft, dft.
  rewrite (csum_ext _ (fun k => csum (fun y =>
      isqrt N * v y * (omega N ((Z.of_nat x - Z.of_nat y) * Z.of_nat k))) N)).
  2:{ intros k Hk. rewrite <- csum_scal_l, <- csum_scal_r. apply csum_ext; intros y Hy.
      rewrite !Cmult_assoc, <- Cmult_assoc, <- omega_add. do 2 f_equal. lia. }
  rewrite csum_swap.
  rewrite (csum_ext _ (fun y => isqrt N * RtoC (INR N) * v y * cdelta x y)).
  2:{ intros y Hy. rewrite csum_scal_l, omega_orth by assumption. ring. }
  rewrite csum_delta_r by assumption.
  transitivity (isqrt N * isqrt N * RtoC (INR N) * v x); [ring|].
  rewrite isqrt_sqr by lia. ring.
Qed.

Lemma dft_idft N v k : (k < N)%nat -> dft N (idft N v) k = v k.
Proof.
  intros Hx. unfold idft, dft.
  rewrite (csum_ext _ (fun x => csum (fun y =>
      isqrt N * v y * (omega N ((Z.of_nat y - Z.of_nat k) * Z.of_nat x))) N)).
  2:{ intros x Hk. rewrite <- csum_scal_l, <- csum_scal_r. apply csum_ext; intros y Hy.
      rewrite !Cmult_assoc, <- Cmult_assoc, <- omega_add. do 2 f_equal. lia. }
  rewrite csum_swap.
  rewrite (csum_ext _ (fun y => isqrt N * RtoC (INR N) * v y * cdelta y k)).
  2:{ intros y Hy. rewrite csum_scal_l, omega_orth by assumption. ring. }
  rewrite csum_delta_r' by assumption.
  transitivity (isqrt N * isqrt N * RtoC (INR N) * v k); [ring|].
  rewrite isqrt_sqr by lia. ring.
Qed.

(** The two transforms are adjoint. *)
Lemma dft_adjoint N u v :
  csum (fun k => Cconj (u k) * dft N v k) N = csum (fun x => Cconj (idft N u x) * v x) N.
Proof.
  unfold dft, idft.
  rewrite (csum_ext _ (fun k => csum (fun x =>
     isqrt N * Cconj (u k) * v x * omega N (- (Z.of_nat k * Z.of_nat x))) N)).
  2:{ intros k Hk. rewrite <- csum_scal_l, <- csum_scal_l. apply csum_ext; intros; ring. }
  rewrite csum_swap. apply csum_ext; intros x Hx.
  rewrite Cconj_mult, Cconj_csum, isqrt_conj, <- Cmult_assoc, (Cmult_comm (csum _ _)), Cmult_assoc.
  rewrite <- csum_scal_l. apply csum_ext; intros k Hk.
  rewrite Cconj_mult, omega_conj. ring.
Qed.

Lemma dft_inner N u v :
  csum (fun k => Cconj (dft N u k) * dft N v k) N = csum (fun x => Cconj (u x) * v x) N.
Proof.
  rewrite dft_adjoint. apply csum_ext; intros x Hx. rewrite idft_dft by assumption. reflexivity.
Qed.

Lemma idft_inner N u v :
  csum (fun x => Cconj (idft N u x) * idft N v x) N = csum (fun k => Cconj (u k) * v k) N.
Proof.
  rewrite <- dft_adjoint. apply csum_ext; intros x Hx. rewrite dft_idft by assumption. reflexivity.
Qed.
