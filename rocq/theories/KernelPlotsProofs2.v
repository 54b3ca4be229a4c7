From Coq Require Import Reals Lra Lia Psatz List Permutation FinFun.
From Verif Require Import ZLib Csum DFT NumPy Index Basis Operator Spec SpecBasis SpecOperator OperatorProofs SpecMatrix Kernel SpecKernel KernelProofs KernelProofs2 KernelProofs5 KernelFacts
  LatticeProofs DynamicsProofs HamiltonianProofs3 Sample SampleProofs SampleProofs2 Plots SpecPlots ValuePlotsProofs OccupationProofs OccupationProofs2 KernelPlots KernelPlotsProofs.
Import ListNotations.
Local Open Scope R_scope.
Local Open Scope C_scope.

Lemma csum_sorted argsort key n (f : nat -> C) : is_argsort argsort -> csum (fun a => f (argsort key n a)) n = csum f n.
Proof.
  intros H. apply injective_projections.
  - rewrite !fst_csum. apply (sorted_sum argsort key n (fun a => fst (f a)) H).
  - rewrite !snd_csum. apply (sorted_sum argsort key n (fun a => snd (f a)) H).
Qed.

Lemma range_indices n c : (c <= n)%nat -> python_indices n (map Z.of_nat (seq 0 c)) = Some (seq 0 c).
Proof.
  intros Hc. assert (G : forall k a, (a + k <= n)%nat -> python_indices n (map Z.of_nat (seq a k)) = Some (seq a k)).
  { induction k as [|k IH]; intros a Ha; [reflexivity|]. cbn [seq map python_indices]. rewrite IH by lia.
    unfold python_index. replace ((0 <=? Z.of_nat a)%Z && (Z.of_nat a <? Z.of_nat n)%Z)%bool with true by (symmetry; apply Bool.andb_true_iff; split; [apply Z.leb_le|apply Z.ltb_lt]; lia).
    rewrite Nat2Z.id. reflexivity. }
  apply G. lia.
Qed.

Lemma cmod_column_bound n (V : nat -> nat -> C) i a : unitary n V -> (i < n)%nat -> (a < n)%nat -> (Cmod (V i a) <= 1)%R.
Proof.
  intros [U _] Hi Ha. specialize (U i i Hi Hi). rewrite cdelta_refl in U. apply (f_equal fst) in U. rewrite fst_csum in U. cbn [fst RtoC] in U.
  assert (E : rsum (fun x => fst (V i x * Cconj (V i x))) n = rsum (fun x => Cmod (V i x) ^ 2)%R n).
  { apply rsum_ext. intros x _. unfold Cmod. rewrite pow2_sqrt by nra. destruct (V i x) as [u v]. cbn. ring. }
  rewrite E in U. assert (B : (Cmod (V i a) ^ 2 <= 1)%R).
  { rewrite <- U. rewrite (rsum_split_at _ n a Ha). assert (0 <= rsum (fun j => if (a =? j)%nat then 0 else Cmod (V i j) ^ 2) n)%R.
    { apply rsum_nonneg. intros j _. destruct (a =? j)%nat; [lra|]. apply pow2_ge_0. } lra. }
  pose proof (Cmod_ge_0 (V i a)). nra.
Qed.

(** Keeping the largest: the kernel of the operators kept. *)
Section Kept.
Variables (argsort : (nat -> R) -> nat -> nat -> nat) (eigh : nat -> (nat -> nat -> C) -> eigh_result) (b0 b1 : basis) (n : nat) (K : ndarray).
Hypothesis (Hs : is_argsort argsort) (Hn : (0 < n)%nat) (H0 : bsize b0 = n) (H1 : bsize b1 = n) (HK : nprod (ashape K) = (n * n)%nat)
  (He : forall A, mat_eq n A (entry2 n K) -> eigendecomposition n A (eigh n A) /\ unitary n (snd (eigh n A))).

Lemma truncation_error_bound c : (0 < c <= n)%nat ->
  exists o t D, get_periodic_noise_operators_diagonal_eigenvalue eigh b0 b1 K = Some o /\
    truncate_diagonal_noise_operator_list argsort o (map Z.of_nat (seq 0 c)) = Some t /\
    get_diagonal_kernel_from_diagonal_operators t = Some D /\ ashape D = [(n * n)%nat] /\
    forall i j, (i < n)%nat -> (j < n)%nat ->
      (Cmod (entry2 n K i j - entry2 n D i j)%C <= cumulative_modulus argsort n (fun a => RtoC (fst (eigh n (entry2 n K)) a)) (n - c))%R.
Proof using Hs Hn H0 H1 HK He.
  intros Hc. unfold get_periodic_noise_operators_diagonal_eigenvalue. rewrite H0, (reshape_rows_some _ _ _ Hn HK). cbn [ashape nth]. rewrite Nat.eqb_refl.
  change (at2 {| ashape := [n; n]; aflat := aflat K |}) with (entry2 n K).
  destruct (He (entry2 n K) (fun _ _ _ _ => eq_refl)) as [Hd HU].
  destruct (eigh n (entry2 n K)) as [lam V]. unfold eigendecomposition in Hd. cbn [fst snd] in Hd, HU |- *.
  set (o := {| nops := _; neig := _ |}).
  destruct (truncate_picks Cmod argsort Hs o n Hn ltac:(cbn [o nops ldata ravel_array ashape array2 nprod noise_count lbasis bsize]; unfold noise_count; cbn; ring) eq_refl
    (map Z.of_nat (seq 0 c)) (seq 0 c) (range_indices n c ltac:(lia))) as (t & Et & P).
  set (kept := map _ (seq 0 c)) in P.
  assert (Lk : length kept = c) by (unfold kept; rewrite map_length, seq_length; reflexivity).
  destruct P as (P1 & P2 & P3 & P4 & P5 & P6). rewrite Lk in P1, P2, P5, P6.
  assert (W : diagonal_noise_wf t).
  { split; [split|].
    - rewrite P3, P4. cbn [o nops lrow lcol]. congruence.
    - rewrite P5, P3. change (bsize (lbasis (nops t))) with (noise_count t). rewrite P1. cbn [o nops lrow]. rewrite H0. reflexivity.
    - rewrite P2, P1. reflexivity. }
  destruct (diagonal_kernel_spec t W ltac:(lia)) as (D & ED & SD & KD). rewrite P3 in SD, KD. cbn [o nops lrow] in SD, KD. rewrite H0 in SD, KD.
  exists o, t, D. split; [reflexivity|]. split; [exact Et|]. split; [exact ED|]. split; [exact SD|]. intros i j Hi Hj.
  rewrite KD by assumption. unfold diagonal_kernel_of. rewrite P1. rewrite Hd by assumption.
  set (f := fun a => RtoC (lam a)). set (ord := argsort (fun a => Cmod (f a)) n).
  set (term := fun a => V i a * f a * Cconj (V j a)).
  assert (EK : csum (fun a => eigenvalue t a * Cconj (diag_entry (nops t) a i) * diag_entry (nops t) a j) c = csum (fun a => term (ord (n - 1 - a)%nat)) c).
  { apply csum_ext. intros a Ha. destruct (P6 a Ha) as [Ea Da].
    assert (Ek : nth a kept 0%nat = ord (n - 1 - a)%nat).
    { unfold kept. rewrite (nth_indep _ 0%nat (ord (n - 1 - 0)%nat)) by (rewrite map_length, seq_length; lia).
      change (ord (n - 1 - 0)%nat) with ((fun t0 => ord (n - 1 - t0)%nat) 0%nat).
      etransitivity; [apply (map_nth (fun t0 => ord (n - 1 - t0)%nat))|]. rewrite seq_nth by lia. reflexivity. }
    rewrite Ek in Ea, Da. rewrite Ea. unfold diag_entry. rewrite P3. cbn [o nops lrow]. rewrite H0. rewrite !Da by assumption.
    assert (B : (ord (n - 1 - a)%nat < n)%nat) by (apply (Hs _ n); lia).
    cbn [o nops ldata ravel_array aflat]. rewrite !array2_flat by assumption. unfold term, eigenvalue. cbn [o neig aflat]. rewrite Cconj_conj. unfold f. ring. }
  rewrite EK. change (csum (fun k => V i k * RtoC (lam k) * Cconj (V j k)) n) with (csum term n).
  rewrite <- (csum_sorted argsort (fun a => Cmod (f a)) n term Hs). fold ord.
  replace n with ((n - c) + c)%nat at 1 by lia. rewrite csum_split.
  assert (R : csum (fun k => term (ord (n - c + k)%nat)) c = csum (fun a => term (ord (n - 1 - a)%nat)) c).
  { rewrite csum_rev. apply csum_ext. intros a Ha. do 2 f_equal. lia. }
  rewrite R. replace (csum (fun k => term (ord k)) (n - c) + csum (fun a => term (ord (n - 1 - a)%nat)) c - csum (fun a => term (ord (n - 1 - a)%nat)) c)
    with (csum (fun k => term (ord k)) (n - c)) by ring.
  eapply Rle_trans; [apply Cmod_csum|]. apply rsum_le. intros k Hk. unfold np_sort. fold ord.
  assert (B : (ord k < n)%nat) by (apply (Hs _ n); lia).
  unfold term. rewrite !Cmod_mult. change (Cmod (RtoC (lam (argsort (fun a => Cmod (RtoC (lam a))) n k)))) with (Cmod (f (ord k))).
  assert (C1 : (Cmod (Cconj (V j (ord k))) <= 1)%R) by (unfold Cmod at 1; cbn [fst snd Cconj]; replace ((- snd (V j (ord k))) ^ 2)%R with (snd (V j (ord k)) ^ 2)%R by ring; apply (cmod_column_bound n V j); assumption).
  pose proof (cmod_column_bound n V i (ord k) HU Hi B). pose proof (Cmod_ge_0 (V i (ord k))). pose proof (Cmod_ge_0 (Cconj (V j (ord k)))). pose proof (Cmod_ge_0 (f (ord k))).
  assert (Cmod (V i (ord k)) * Cmod (f (ord k)) <= Cmod (f (ord k)))%R by nra. nra.
Qed.
End Kept.
