(** Least squares, Chebyshev polynomials and the fitted noise operators. *)
From Coq Require Import Reals Lra Lia List Arith ZArith Psatz.
From Coquelicot Require Import Coquelicot.
From Verif Require Import ZLib Csum DFT NumPy Interp InterpProofs Index Spec SpecBasis BasisProofs3 Basis Operator SpecOperator Kernel SpecKernel KernelProofs KernelProofs2 KernelProofs3 KernelFacts
  Dynamics SpecDynamics Spectral Taylor SpecTaylor TaylorProofs TaylorProofs3.
Import ListNotations.
Local Open Scope R_scope.
Local Open Scope C_scope.

(** ** Least squares *)

Definition combination (e : nat -> nat -> C) (c : nat -> C) (k : nat) (i : nat) : C := csum (fun j => e j i * c j) k.

Lemma inner_combination n e c k u : inner_product n u (combination e c k) = csum (fun j => inner_product n u (e j) * c j) k.
Proof.
  unfold inner_product, combination. rewrite (csum_ext _ (fun i => csum (fun j => Cconj (u i) * e j i * c j) k)).
  - rewrite csum_swap. apply csum_ext. intros j Hj. rewrite <- csum_scal_r. reflexivity.
  - intros i Hi. rewrite <- csum_scal_l. apply csum_ext. intros j Hj. ring.
Qed.
Lemma inner_scal_r n u v c : inner_product n u (fun i => v i * c) = inner_product n u v * c.
Proof. unfold inner_product. rewrite <- csum_scal_r. apply csum_ext. intros; ring. Qed.

Lemma inner_ext_r n u v v' : (forall i, (i < n)%nat -> v i = v' i) -> inner_product n u v = inner_product n u v'.
Proof. intros H. apply inner_ext; [reflexivity|exact H]. Qed.

Definition projection n (e : nat -> nat -> C) : forall k (y : nat -> C),
  {c : nat -> C | forall j, (j < k)%nat -> inner_product n (e j) (fun i => y i - combination e c k i) = 0}.
Proof.
  induction k as [|k IH]; intros y; [exists (fun _ => 0); lia|].
  destruct (IH (e k)) as [al Hal]. destruct (IH y) as [c Hc].
  set (u := fun i => e k i - combination e al k i) in *. set (r := fun i => y i - combination e c k i) in *.
  destruct (Ceq_dec (inner_product n u u) 0) as [Z|Z].
  - exists (fun j => if (j =? k)%nat then RtoC 0 else c j).
    assert (E : forall i, y i - combination e (fun j => if (j =? k)%nat then RtoC 0 else c j) (S k) i = r i).
    { intros i. unfold r, combination. cbn [csum]. rewrite Nat.eqb_refl. rewrite (csum_ext _ (fun j => e j i * c j)) by (intros j Hj; rewrite (proj2 (Nat.eqb_neq j k)) by lia; reflexivity). ring. }
    assert (U : forall i, (i < n)%nat -> u i = 0).
    { rewrite inner_self in Z. apply RtoC_inj in Z. intros i Hi. apply Cnorm2_eq_0. apply (rsum_zero_nonneg (fun i => Cnorm2 (u i)) n); [intros; apply Cnorm2_nonneg|exact Z|exact Hi]. }
    intros j Hj. rewrite (inner_ext_r n (e j) _ r (fun i _ => E i)).
    destruct (Nat.eq_dec j k) as [->|]; [|apply Hc; lia].
    rewrite (inner_ext n (e k) (combination e al k) r r); [|intros i Hi; specialize (U i Hi); unfold u in U|reflexivity].
    + rewrite <- inner_conj, inner_combination. rewrite (csum_zero_ext (fun j => inner_product n r (e j) * al j)); [apply Cconj_RtoC|].
      intros j Hj'. rewrite <- inner_conj, (Hc j Hj'), Cconj_RtoC. ring.
    + rewrite <- (Cplus_0_l (combination e al k i)), <- U. ring.
  - set (be := inner_product n u r / inner_product n u u).
    exists (fun j => if (j =? k)%nat then be else c j - al j * be).
    assert (E : forall i, y i - combination e (fun j => if (j =? k)%nat then be else c j - al j * be) (S k) i = r i - u i * be).
    { intros i. unfold r, u, combination. cbn [csum]. rewrite Nat.eqb_refl.
      rewrite (csum_ext _ (fun j => e j i * c j - e j i * al j * be)) by (intros j Hj; rewrite (proj2 (Nat.eqb_neq j k)) by lia; ring).
      rewrite csum_minus, (csum_scal_r be (fun j => e j i * al j)). ring. }
    assert (O : forall j, (j < k)%nat -> inner_product n (e j) (fun i => r i - u i * be) = 0).
    { intros j Hj. rewrite inner_minus_r, inner_scal_r, (Hc j Hj), (Hal j Hj). ring. }
    intros j Hj. rewrite (inner_ext_r n (e j) _ (fun i => r i - u i * be) (fun i _ => E i)).
    destruct (Nat.eq_dec j k) as [->|]; [|apply O; lia].
    rewrite (inner_ext n (e k) (fun i => u i - (- combination e al k i)) (fun i => r i - u i * be) (fun i => r i - u i * be)); [|intros i Hi; unfold u; ring|reflexivity].
    rewrite inner_minus_l. rewrite inner_minus_r at 1. rewrite inner_scal_r. unfold be at 1.
    replace (inner_product n (fun i => - combination e al k i) (fun i => r i - u i * be)) with (RtoC 0); [field; exact Z|].
    symmetry. rewrite <- inner_conj. rewrite (inner_ext_r n _ _ (fun i => combination e al k i * - (1))) by (intros; ring).
    rewrite inner_scal_r, inner_combination. rewrite csum_zero_ext; [rewrite Cmult_0_l; apply Cconj_RtoC|].
    intros j Hj'. rewrite <- inner_conj, (O j Hj'), Cconj_RtoC. ring.
Defined.

Lemma pythagoras n (u v : nat -> C) : inner_product n u v = 0 -> (norm2 n u <= norm2 n (fun i => u i + v i)%C)%R.
Proof.
  intros H. assert (H' : inner_product n v u = 0) by (rewrite <- inner_conj, H; apply Cconj_RtoC).
  assert (E : RtoC (norm2 n (fun i => u i + v i)) = RtoC (norm2 n u) + RtoC (norm2 n v)).
  { rewrite <- !inner_self. transitivity (inner_product n u u + inner_product n u v + inner_product n v u + inner_product n v v).
    - unfold inner_product. rewrite <- !csum_plus. apply csum_ext. intros i Hi. rewrite Cconj_plus. ring.
    - rewrite H, H'. ring. }
  rewrite <- RtoC_plus in E. apply RtoC_inj in E. rewrite E. pose proof (rsum_nonneg (fun i => Cnorm2 (v i)) n ltac:(intros; apply Cnorm2_nonneg)). unfold norm2 at 3. lra.
Qed.

(** A least squares fit exists. *)
Definition some_fit : fit_fn := fun n x y deg w =>
  proj1_sig (projection n (fun j i => RtoC (w i) * RtoC (chebyshev j (x i))) (deg + 1) (fun i => RtoC (w i) * y i)).

Lemma weighted_norm (w : R) (y v : C) : (w ^ 2 * Cnorm2 (y - v)%C)%R = Cnorm2 (RtoC w * y - RtoC w * v).
Proof. destruct y as [a b], v as [c d]. unfold Cnorm2. cbn. ring. Qed.

Lemma fit_error_norm n x y deg w c : fit_error n x y deg w c =
  norm2 n (fun i => RtoC (w i) * y i - combination (fun j i => RtoC (w i) * RtoC (chebyshev j (x i))) c (deg + 1) i).
Proof.
  unfold fit_error, norm2. apply rsum_ext. intros i Hi. rewrite weighted_norm. do 2 f_equal. unfold combination. rewrite <- csum_scal_l. apply csum_ext. intros; ring.
Qed.

Lemma some_fit_ok : fit_ok some_fit.
Proof.
  intros n x y deg w c. unfold some_fit. destruct (projection _ _ _ _) as [p Hp]. cbn [proj1_sig]. rewrite !fit_error_norm.
  set (e := fun j i => RtoC (w i) * RtoC (chebyshev j (x i))) in *. set (t := fun i => RtoC (w i) * y i) in *. set (k := (deg + 1)%nat) in *.
  eapply Rle_trans; [apply (pythagoras n _ (combination e (fun j => p j - c j) k))|].
  - rewrite inner_combination. apply csum_zero_ext. intros j Hj. rewrite <- inner_conj. change (inner_product n (e j) (fun i => t i - combination e p k i)) with (inner_product n (e j) (fun i => RtoC (w i) * y i - combination e p k i)). unfold e at 1. rewrite (Hp j Hj), Cconj_RtoC. ring.
  - apply Req_le. unfold norm2. apply rsum_ext. intros i Hi. f_equal. unfold combination.
    rewrite (csum_ext (fun j => e j i * (p j - c j)) (fun j => e j i * p j - e j i * c j)) by (intros; ring). rewrite csum_minus. ring.
Qed.

(** ** Chebyshev polynomials *)

Lemma chebyshev2_cos n t : chebyshev2 n (cos t) = (cos (INR n * t), cos (INR (S n) * t)).
Proof.
  induction n as [|n IH].
  - cbn [chebyshev2 INR]. now rewrite Rmult_0_l, cos_0, Rmult_1_l.
  - cbn [chebyshev2]. rewrite IH. f_equal. rewrite !S_INR. replace ((INR n + 1 + 1) * t)%R with ((INR n + 1) * t + t)%R by ring.
    replace (INR n * t)%R with ((INR n + 1) * t - t)%R by ring. rewrite cos_plus, cos_minus. ring.
Qed.
Lemma chebyshev_cos n t : chebyshev n (cos t) = cos (INR n * t).
Proof. unfold chebyshev. now rewrite chebyshev2_cos. Qed.

Lemma cos_step j t : (cos (INR (S j) * t) * cos t = (cos (INR (S (S j)) * t) + cos (INR j * t)) / 2)%R.
Proof.
  rewrite !S_INR. replace ((INR j + 1 + 1) * t)%R with ((INR j + 1) * t + t)%R by ring. replace (INR j * t)%R with ((INR j + 1) * t - t)%R by ring. rewrite cos_plus, cos_minus. field.
Qed.

(** Cosines at distinct nodes are independent. *)
Lemma cosine_products r (t : nat -> R) (x : nat -> C) : (forall j, (j < r)%nat -> csum (fun i => RtoC (cos (INR j * t i)) * x i) r = 0) ->
  forall m j, (j + m < r)%nat -> csum (fun i => RtoC (cos (INR j * t i)) * Cpow (RtoC (cos (t i))) m * x i) r = 0.
Proof.
  intros H. induction m as [|m IH]; intros j Hj.
  - rewrite (csum_ext _ (fun i => RtoC (cos (INR j * t i)) * x i)) by (intros; cbn; ring). apply H. lia.
  - destruct j as [|j].
    + rewrite (csum_ext _ (fun i => RtoC (cos (INR 1 * t i)) * Cpow (RtoC (cos (t i))) m * x i)); [apply IH; lia|].
      intros i Hi. cbn [INR Cpow]. rewrite Rmult_0_l, cos_0, Rmult_1_l. ring.
    + rewrite (csum_ext _ (fun i => RtoC (/ 2) * (RtoC (cos (INR (S (S j)) * t i)) * Cpow (RtoC (cos (t i))) m * x i) +
                                    RtoC (/ 2) * (RtoC (cos (INR j * t i)) * Cpow (RtoC (cos (t i))) m * x i))).
      * rewrite csum_plus, !csum_scal_l, !IH by lia. ring.
      * intros i Hi. cbn [Cpow]. transitivity (RtoC (cos (INR (S j) * t i) * cos (t i)) * Cpow (RtoC (cos (t i))) m * x i); [rewrite RtoC_mult; ring|].
        rewrite cos_step. unfold Rdiv. rewrite RtoC_mult, RtoC_plus. ring.
Qed.

Lemma cosine_interpolation r (t : nat -> R) (b : nat -> C) : (forall i j, (i < r)%nat -> (j < r)%nat -> cos (t i) = cos (t j) -> i = j) ->
  exists c, forall i, (i < r)%nat -> csum (fun j => RtoC (cos (INR j * t i)) * c j) r = b i.
Proof.
  intros Ht. destruct (injective_inverse r (fun j i => RtoC (cos (INR j * t i)))) as [W [_ HW]].
  - intros x Hx. apply (nodes_injective r (fun i => RtoC (cos (t i)))).
    + intros i j Hi Hj E. apply RtoC_inj in E. now apply Ht.
    + intros m Hm. rewrite <- (cosine_products r t x Hx m 0) by lia. apply csum_ext. intros i Hi. cbn [INR]. rewrite Rmult_0_l, cos_0. ring.
  - exists (fun j => csum (fun l => W l j * b l) r). intros i Hi.
    rewrite (csum_ext _ (fun j => csum (fun l => W l j * RtoC (cos (INR j * t i)) * b l) r)) by (intros j Hj; rewrite <- csum_scal_l; apply csum_ext; intros; ring).
    rewrite csum_swap. rewrite (csum_ext _ (fun l => cdelta l i * b l)); [now apply csum_delta_l'|].
    intros l Hl. rewrite (csum_scal_r (b l) (fun j => W l j * RtoC (cos (INR j * t i)))). f_equal. exact (HW l i Hl Hi).
Qed.
