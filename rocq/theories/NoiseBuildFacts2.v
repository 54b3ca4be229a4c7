(** The corrected gaussian noise: rates, detailed balance and where it fails. *)
From Coq Require Import Reals Lra Lia Psatz.
From Coquelicot Require Import Coquelicot.
From Verif Require Import ZLib Csum DFT NumPy Spec Index IndexProofs Lattice LatticeProofs Basis SpecBasis BasisProofs BasisProofs2 BasisProofs3
  Operator SpecOperator OperatorProofs OperatorProofs2 Wavepacket SpecWavepacket Kernel SpecKernel KernelProofs KernelProofs2 KernelProofs3 KernelProofs5
  Hamiltonian HamiltonianProofs SpecKernelConvert KernelConvert KernelConvertProofs Correlation SpecCorrelation CorrelationProofs CorrelationProofs2 CorrelationProofs3
  NoiseBuild SpecNoiseBuild NoiseBuildProofs NoiseBuildFacts.
Local Open Scope R_scope.
Local Open Scope C_scope.

(** ** The exponential *)
Lemma third_order x : (0 <= x)%R -> (0 <= exp (- (2 * x)) * (1 + x) - (1 - x) <= 4 * x ^ 3)%R.
Proof.
  intros Hx. destruct (Req_dec x 0) as [->|Hne].
  { rewrite Rmult_0_r, Ropp_0, exp_0. lra. }
  destruct (MVT_cor2 (fun x => exp (- (2 * x)) * (1 + x) - (1 - x))%R (fun x => 1 - (1 + 2 * x) * exp (- (2 * x)))%R 0 x) as [c [Ec [Hc1 Hc2]]].
  - lra.
  - intros c _. apply is_derive_Reals. auto_derive; [exact I|]. ring.
  - replace (exp (- (2 * 0)) * (1 + 0) - (1 - 0))%R with 0%R in Ec by (rewrite Rmult_0_r, Ropp_0, exp_0; ring).
    rewrite Rminus_0_r in Ec. rewrite Ec.
    assert (B1 : (1 + 2 * c <= exp (2 * c))%R) by (left; apply exp_ineq1; lra).
    assert (B2 : (1 + - (2 * c) <= exp (- (2 * c)))%R) by (left; apply exp_ineq1; lra).
    assert (P := exp_pos (- (2 * c))).
    assert (M : (exp (2 * c) * exp (- (2 * c)) = 1)%R) by (rewrite <- exp_plus, Rplus_opp_r; apply exp_0).
    assert (G1 : (0 <= 1 - (1 + 2 * c) * exp (- (2 * c)))%R) by nra.
    assert (G2 : (1 - (1 + 2 * c) * exp (- (2 * c)) <= 4 * c ^ 2)%R) by nra.
    split; [nra|]. rewrite Rminus_0_r. apply Rle_trans with (4 * c ^ 2 * x)%R; [nra|]. assert (c ^ 2 <= x ^ 2)%R by nra. cbn [pow]. nra.
Qed.

Lemma boltzmann_third x w : (0 <= x <= 1)%R ->
  (Rabs (exp (- (4 * x)) * ((1 + x) ^ 2 * w) - (1 - x) ^ 2 * w) <= 8 * x ^ 3 * Rabs w)%R /\
  ((1 - x) ^ 2 * Rabs w <= exp (- (4 * x)) * ((1 + x) ^ 2 * Rabs w))%R.
Proof.
  intros [H0 H1]. destruct (third_order x H0) as [A B].
  replace (exp (- (4 * x)))%R with (exp (- (2 * x)) * exp (- (2 * x)))%R by (rewrite <- exp_plus; f_equal; ring).
  set (e := exp (- (2 * x))) in *.
  assert (Pe : (0 < e)%R) by apply exp_pos.
  assert (U : (e * (1 + x) <= 1)%R).
  { assert (X : (1 + 2 * x <= exp (2 * x))%R).
    { destruct (Req_dec x 0) as [->|Hne]; [rewrite Rmult_0_r, exp_0; lra|]. left; apply exp_ineq1; lra. }
    assert (M : (exp (2 * x) * e = 1)%R) by (unfold e; rewrite <- exp_plus, Rplus_opp_r; apply exp_0). nra. }
  assert (K : (0 <= (e * (1 + x)) ^ 2 - (1 - x) ^ 2 <= 8 * x ^ 3)%R).
  { replace ((e * (1 + x)) ^ 2 - (1 - x) ^ 2)%R with ((e * (1 + x) - (1 - x)) * (e * (1 + x) + (1 - x)))%R by ring. split; [nra|].
    assert (0 <= x ^ 3)%R by (apply pow_le; exact H0).
    apply Rle_trans with (4 * x ^ 3 * 2)%R; [|lra]. apply Rmult_le_compat; lra. }
  assert (Pw := Rabs_pos w). split.
  - replace (e * e * ((1 + x) ^ 2 * w) - (1 - x) ^ 2 * w)%R with (((e * (1 + x)) ^ 2 - (1 - x) ^ 2) * w)%R by ring.
    rewrite Rabs_mult, (Rabs_right ((e * (1 + x)) ^ 2 - (1 - x) ^ 2)) by lra. apply Rmult_le_compat_r; lra.
  - replace (e * e * ((1 + x) ^ 2 * Rabs w))%R with ((e * (1 + x)) ^ 2 * Rabs w)%R by ring. apply Rmult_le_compat_r; lra.
Qed.

(** ** Real, symmetric correlations *)
Lemma overlap_rate_real b (D : nat -> nat -> R) u v :
  (forall x y, (x < bfund b)%nat -> (y < bfund b)%nat -> D x y = D y x) ->
  exists w, overlap_rate b (fun x y => RtoC (D x y)) u v = RtoC w /\ overlap_rate b (fun x y => RtoC (D x y)) v u = RtoC w.
Proof.
  intros H. set (W := overlap_rate b (fun x y => RtoC (D x y)) u v).
  assert (S1 : overlap_rate b (fun x y => RtoC (D x y)) v u = W) by (apply overlap_rate_swap; intros x y Hx Hy; rewrite H by assumption; reflexivity).
  assert (S2 : Cconj W = W).
  { rewrite <- S1 at 2. unfold W, overlap_rate. rewrite Cconj_csum. apply csum_ext. intros x Hx. rewrite Cconj_csum. apply csum_ext. intros y Hy.
    rewrite !Cconj_mult, !Cconj_conj. replace (Cconj (RtoC (D x y))) with (RtoC (D x y)) by (unfold Cconj, RtoC; cbn; f_equal; ring). ring. }
  exists (fst W). assert (X : W = RtoC (fst W)).
  { apply injective_projections; [reflexivity|]. cbn [snd RtoC]. apply (f_equal snd) in S2. destruct W as [p q]. cbn in *. lra. }
  rewrite S1. split; exact X.
Qed.

Lemma distances_symmetric delta shape d : distances delta shape d ->
  forall x y, (x < nprod shape)%nat -> (y < nprod shape)%nat -> d x y = d y x.
Proof.
  intros H x y Hx Hy. assert (A := H _ _ (unravel_in_shape shape x Hx) (unravel_in_shape shape y Hy)).
  assert (B := H _ _ (unravel_in_shape shape y Hy) (unravel_in_shape shape x Hx)).
  rewrite !ravel_unravel in A, B by assumption.
  assert (I : forall p q z, image_distance delta shape p q z = image_distance delta shape q p (fun a => (- z a)%Z)).
  { intros p q z. unfold image_distance, norm. f_equal. apply rsum_ext. intros c Hc.
    replace (rsum (fun a => IZR (- z a) * delta a c) (length shape))%R with (- rsum (fun a => IZR (z a) * delta a c) (length shape))%R; [ring|].
    generalize (length shape). intros m. clear. induction m as [|m IH]; cbn [rsum]; [ring|]. rewrite <- IH, opp_IZR. ring. }
  apply (periodic_distance_unique delta shape (unravel shape x) (unravel shape y) _ _ A).
  destruct B as [[z Bz] Bm]. split.
  - exists (fun a => (- z a)%Z). rewrite Bz. apply I.
  - intros z'. rewrite I. apply Bm.
Qed.
