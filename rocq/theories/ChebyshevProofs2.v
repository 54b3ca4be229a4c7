(** The kernel of the operators fitted to an isotropic kernel. *)
From Coq Require Import Reals Lra Lia List Arith ZArith Psatz.
From Coquelicot Require Import Coquelicot.
From Verif Require Import ZLib Csum DFT NumPy Interp InterpProofs Index Spec SpecBasis BasisProofs3 Basis Operator SpecOperator Kernel SpecKernel KernelProofs KernelProofs2 KernelProofs3 KernelFacts
  LatticeProofs Dynamics SpecDynamics Spectral Taylor SpecTaylor TaylorProofs TaylorProofs3 ChebyshevProofs.
Import ListNotations.
Local Open Scope R_scope.
Local Open Scope C_scope.

Lemma RtoC_half : RtoC (/ 2) + RtoC (/ 2) = 1.
Proof. rewrite <- RtoC_plus. f_equal. field. Qed.

(** ** Weights *)

Definition slot_freq (n j : nat) : Z := if (Z.of_nat j <=? (Z.of_nat n - 1) / 2)%Z then Z.of_nat j else (Z.of_nat j - Z.of_nat n)%Z.
Lemma slot_freq_ok n j : (j < n)%nat -> is_freq n j (slot_freq n j).
Proof. intros H. unfold slot_freq, is_freq, Zcong. destruct (Z.leb_spec (Z.of_nat j) ((Z.of_nat n - 1) / 2)); (split; [|lia]); [exists 0%Z|exists (-1)%Z]; lia. Qed.
Lemma freq_range n f : (- Z.of_nat n <= f <= Z.of_nat n)%Z -> exists i, (i < 2 * n + 1)%nat /\ is_freq (2 * n + 1) i f.
Proof.
  intros H. destruct (Z.leb_spec 0 f).
  - exists (Z.to_nat f). split; [lia|]. split; [exists 0%Z; lia|lia].
  - exists (Z.to_nat (f + Z.of_nat (2 * n + 1))). split; [lia|]. split; [exists (-1)%Z; lia|lia].
Qed.

Lemma weights_spec n N : exists w, pad_ft_1d 0%R (2 * n + 1) N (fun _ => 1%R) = Some w /\
  forall j, (j < N)%nat -> ((Z.abs (slot_freq N j) <= Z.of_nat n)%Z -> w j = 1%R) /\ (~ (Z.abs (slot_freq N j) <= Z.of_nat n)%Z -> w j = 0%R).
Proof.
  destruct (pad_ft_1d_spec 0%R (2 * n + 1) N (fun _ => 1%R)) as [w [E H]]. exists w. split; [exact E|]. intros j Hj. destruct (H j Hj) as [H1 H2]. split; intros Hf.
  - destruct (freq_range n (slot_freq N j)) as [i [Hi Fi]]; [lia|]. exact (H1 i (slot_freq N j) Hi Fi (slot_freq_ok N j Hj)).
  - apply H2. intros i f Hi [_ Fi] Fj. assert (f = slot_freq N j).
    { destruct Fj as [[q Hq] Hr]. destruct (slot_freq_ok N j Hj) as [[p Hp] Hs]. assert (q = p) by nia. lia. }
    subst f. lia.
Qed.

(** ** Mirror images *)

Definition mirror (N j : nat) : nat := if (j =? 0)%nat then 0%nat else (N - j)%nat.
Lemma mirror_lt N j : (j < N)%nat -> (mirror N j < N)%nat.
Proof. unfold mirror. destruct (Nat.eqb_spec j 0); lia. Qed.
Lemma mirror_mirror N j : (j < N)%nat -> mirror N (mirror N j) = j.
Proof. intros H. unfold mirror. destruct (Nat.eqb_spec j 0) as [->|]; [reflexivity|]. rewrite (proj2 (Nat.eqb_neq (N - j) 0)) by lia. lia. Qed.
Lemma mirror_cong N j : (j < N)%nat -> Zcong (Z.of_nat N) (Z.of_nat (mirror N j)) (- Z.of_nat j).
Proof. intros H. unfold mirror. destruct (Nat.eqb_spec j 0) as [->|]; [exists 0%Z|exists 1%Z]; lia. Qed.
Lemma mirror_freq N j : (j < N)%nat -> Z.abs (slot_freq N (mirror N j)) = Z.abs (slot_freq N j).
Proof.
  intros H. unfold mirror, slot_freq. destruct (Nat.eqb_spec j 0) as [->|]; [reflexivity|].
  destruct (Z.leb_spec (Z.of_nat j) ((Z.of_nat N - 1) / 2)), (Z.leb_spec (Z.of_nat (N - j)) ((Z.of_nat N - 1) / 2)); try lia.
Qed.
Lemma freq_slot N j : (j < N)%nat -> (Z.to_nat (Z.abs (slot_freq N j)) = j \/ Z.to_nat (Z.abs (slot_freq N j)) = mirror N j) /\ (Z.abs (slot_freq N j) <= Z.of_nat N / 2)%Z.
Proof.
  intros H. unfold mirror, slot_freq. destruct (Nat.eqb_spec j 0) as [Hj|Hj]; destruct (Z.leb_spec (Z.of_nat j) ((Z.of_nat N - 1) / 2)); split; lia.
Qed.
Lemma mirror_sum N (f : nat -> R) : rsum (fun j => f (mirror N j)) N = rsum f N.
Proof.
  apply RtoC_inj. rewrite <- !csum_RtoC. apply (csum_bij (fun j => RtoC (f j)) N N (mirror N) (mirror N)); intros i Hi; split; try apply mirror_lt; try apply mirror_mirror; assumption.
Qed.
Lemma antisymmetric_sum N (f : nat -> R) : (forall j, (j < N)%nat -> f (mirror N j) = (- f j)%R) -> rsum f N = 0%R.
Proof.
  intros H. pose proof (mirror_sum N f) as E. rewrite (rsum_ext _ (fun j => (-1) * f j)%R) in E by (intros j Hj; rewrite H by assumption; ring). rewrite rsum_scal_l in E. lra.
Qed.

(** ** The fit *)

Section Fit.
  Variables (N n : nat) (k : nat -> C) (w : nat -> R).
  Hypothesis HN : (0 < N)%nat.
  Hypothesis Hw : forall j, (j < N)%nat -> ((Z.abs (slot_freq N j) <= Z.of_nat n)%Z -> w j = 1%R) /\ (~ (Z.abs (slot_freq N j) <= Z.of_nat n)%Z -> w j = 0%R).

  Let tau : R := (2 * PI / INR N)%R.
  Let points (j : nat) : R := cos (INR j * tau).
  Let value (c : nat -> C) (j : nat) : C := csum (fun i => RtoC (chebyshev i (points j)) * c i) (n + 1).
  Let average (j : nat) : C := (k j + k (mirror N j)) * RtoC (/ 2).

  Lemma tau_N : (INR N * tau = 2 * PI)%R.
  Proof. unfold tau. field. apply not_0_INR. lia. Qed.

  Lemma cos_mirror m j : (j < N)%nat -> cos (INR m * (INR (mirror N j) * tau)) = cos (INR m * (INR j * tau)).
  Proof.
    intros Hj. unfold mirror. destruct (Nat.eqb_spec j 0) as [->|]; [reflexivity|]. rewrite minus_INR by lia.
    replace (INR m * ((INR N - INR j) * tau))%R with (- (INR m * (INR j * tau)) + INR m * (INR N * tau))%R by ring. rewrite tau_N.
    replace (INR m * (2 * PI))%R with (2 * INR m * PI)%R by ring. now rewrite cos_period, cos_neg.
  Qed.

  Lemma value_cos c j : value c j = csum (fun i => RtoC (cos (INR i * (INR j * tau))) * c i) (n + 1).
  Proof. unfold value, points. apply csum_ext. intros i Hi. now rewrite chebyshev_cos. Qed.

  Lemma value_mirror c j : (j < N)%nat -> value c (mirror N j) = value c j.
  Proof. intros Hj. rewrite !value_cos. apply csum_ext. intros i Hi. now rewrite cos_mirror. Qed.
  Lemma average_mirror j : (j < N)%nat -> average (mirror N j) = average j.
  Proof. intros Hj. unfold average. rewrite mirror_mirror by assumption. ring. Qed.
  Lemma w_mirror j : (j < N)%nat -> w (mirror N j) = w j.
  Proof.
    intros Hj. destruct (Hw j Hj) as [A B], (Hw (mirror N j) (mirror_lt N j Hj)) as [A' B']. rewrite (mirror_freq N j Hj) in A', B'.
    destruct (Z_le_dec (Z.abs (slot_freq N j)) (Z.of_nat n)) as [L|L]; [now rewrite A, A'|now rewrite B, B'].
  Qed.

  Lemma nodes_distinct i j : (i <= N / 2)%nat -> (j <= N / 2)%nat -> points i = points j -> i = j.
  Proof.
    intros Hi Hj E. assert (R : forall a, (a <= N / 2)%nat -> (0 <= INR a * tau <= PI)%R).
    { intros a Ha. pose proof PI_RGT_0. assert (0 < INR N)%R by (apply lt_0_INR; lia). pose proof (pos_INR a).
      assert (INR a * 2 <= INR N)%R by (change 2%R with (INR 2); rewrite <- mult_INR; apply le_INR; lia).
      pose proof tau_N. assert (0 < tau)%R by (unfold tau; apply Rdiv_lt_0_compat; lra). split; [nra|]. assert (INR a * 2 * tau <= INR N * tau)%R by (apply Rmult_le_compat_r; lra). lra. }
    unfold points in E. pose proof (cos_inj _ _ (R i Hi) (R j Hj) E) as T.
    apply INR_eq. apply (Rmult_eq_reg_r tau); [exact T|]. pose proof PI_RGT_0. pose proof tau_N. intros Z. rewrite Z in *. lra.
  Qed.

  Lemma interpolant : exists c, forall j, (j < N)%nat -> w j <> 0%R -> value c j = average j.
  Proof.
    set (r := (Nat.min n (N / 2) + 1)%nat).
    destruct (cosine_interpolation r (fun i => INR i * tau)%R average) as [c Hc].
    { intros i j Hi Hj E. apply nodes_distinct; [unfold r in *; lia|unfold r in *; lia|exact E]. }
    exists (fun i => if (i <? r)%nat then c i else RtoC 0). intros j Hj Hwj.
    set (i := Z.to_nat (Z.abs (slot_freq N j))). destruct (freq_slot N j Hj) as [Fj Lj]. fold i in Fj.
    assert (Li : (i < r)%nat).
    { destruct (Hw j Hj) as [_ B]. destruct (Z_le_dec (Z.abs (slot_freq N j)) (Z.of_nat n)) as [L|L]; [|elim Hwj; exact (B L)].
      unfold r, i. pose proof (Nat2Z.inj_div N 2). lia. }
    assert (V : forall c, value c i = value c j).
    { intros c'. destruct Fj as [->| ->]; [reflexivity|]. now apply value_mirror. }
    assert (A : average i = average j) by (destruct Fj as [->| ->]; [reflexivity|now apply average_mirror]).
    rewrite <- V, <- A, <- (Hc i Li), value_cos. replace (n + 1)%nat with (r + (n + 1 - r))%nat by (unfold r; lia). rewrite csum_split.
    rewrite (csum_zero_ext (fun i0 => _ * (if (r + i0 <? r)%nat then _ else _))); [|intros i0 _; rewrite (proj2 (Nat.ltb_ge (r + i0) r)) by lia; ring].
    rewrite Cplus_0_r. apply csum_ext. intros i0 Hi0. now rewrite (proj2 (Nat.ltb_lt i0 r) Hi0).
  Qed.

  Lemma norm_split (a b c : C) : Cnorm2 (a - c)%C = (Cnorm2 (a - b)%C + Cnorm2 (b - c)%C + 2 * fst ((a - b) * Cconj (b - c))%C)%R.
  Proof. destruct a, b, c. unfold Cnorm2. cbn. ring. Qed.

  Lemma error_split c : fit_error N points k n w c =
    (rsum (fun j => w j ^ 2 * Cnorm2 (k j - average j)%C) N + rsum (fun j => w j ^ 2 * Cnorm2 (average j - value c j)%C) N)%R.
  Proof.
    unfold fit_error. fold value. 
    rewrite (rsum_ext _ (fun j => ((w j ^ 2 * Cnorm2 (k j - average j)%C + w j ^ 2 * Cnorm2 (average j - value c j)%C) + w j ^ 2 * (2 * fst ((k j - average j) * Cconj (average j - value c j))%C))%R)).
    2:{ intros j Hj. change (csum (fun i => RtoC (chebyshev i (points j)) * c i) (n + 1)) with (value c j). rewrite (norm_split (k j) (average j) (value c j)). ring. }
    rewrite !rsum_plus. rewrite (antisymmetric_sum N (fun j => (w j ^ 2 * (2 * fst ((k j - average j) * Cconj (average j - value c j))%C))%R)); [ring|].
    intros j Hj. rewrite (w_mirror j Hj), (average_mirror j Hj), (value_mirror c j Hj).
    assert (E : k (mirror N j) - average j = - (k j - average j)).
    { unfold average. transitivity (k (mirror N j) - (k j + k (mirror N j)) * RtoC (/ 2) + (k j + k (mirror N j)) * (RtoC (/ 2) + RtoC (/ 2)) - (k j + k (mirror N j))); [rewrite RtoC_half; ring|ring]. }
    rewrite E. set (z := k j - average j). set (v := Cconj _). destruct z, v. cbn. ring.
  Qed.

  Lemma fit_value c : (forall c', (fit_error N points k n w c <= fit_error N points k n w c')%R) ->
    forall j, (j < N)%nat -> (Z.abs (slot_freq N j) <= Z.of_nat n)%Z -> value c j = average j.
  Proof.
    intros H j Hj Hf. destruct interpolant as [c' Hc']. specialize (H c'). rewrite !error_split in H.
    assert (Z0 : rsum (fun j => (w j ^ 2 * Cnorm2 (average j - value c' j)%C)%R) N = 0%R).
    { apply RtoC_inj. rewrite <- csum_RtoC. apply csum_zero_ext. intros i Hi. f_equal. destruct (Req_EM_T (w i) 0) as [E|E]; [rewrite E; ring|].
      rewrite (Hc' i Hi E). replace (average i - average i) with (RtoC 0) by ring. unfold Cnorm2. cbn. ring. }
    rewrite Z0 in H. assert (P : forall i, (i < N)%nat -> (0 <= w i ^ 2 * Cnorm2 (average i - value c i)%C)%R).
    { intros i Hi. apply Rmult_le_pos; [apply pow2_ge_0|apply Cnorm2_nonneg]. }
    assert (Z1 : rsum (fun j => (w j ^ 2 * Cnorm2 (average j - value c j)%C)%R) N = 0%R) by (pose proof (rsum_nonneg _ N P); lra).
    pose proof (rsum_zero_nonneg _ N P Z1 j Hj) as E. cbv beta in E. rewrite (proj1 (Hw j Hj) Hf), pow1, Rmult_1_l in E. apply Cnorm2_eq_0 in E.
    rewrite <- (Cplus_0_r (value c j)), <- E. ring.
  Qed.
End Fit.
