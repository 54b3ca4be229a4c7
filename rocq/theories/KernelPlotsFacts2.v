(** The truncation lines of kernels, in the terms of the specification. *)
From Coq Require Import Reals Lra Lia Psatz List.
From Verif Require Import ZLib Csum DFT NumPy Index Basis Operator Spec SpecBasis SpecOperator SpecMatrix Kernel SpecKernel KernelProofs KernelProofs2 KernelFacts
  KernelConvert KernelConvertFacts OccupationProofs Plots KernelPlots SpecKernelPlots KernelPlotsProofs KernelPlotsProofs2 KernelPlotsFacts.
Import ListNotations.
Local Open Scope R_scope.
Local Open Scope C_scope.

Lemma lsum_list_sum l : lsum l = list_sum l.
Proof. induction l as [|x l IH]; [reflexivity|]. cbn. rewrite IH. reflexivity. Qed.

Lemma cumulative_smallest argsort n eig t : is_argsort argsort -> (t <= n)%nat -> is_smallest_sum n (fun a => Cmod (eig a)) t (cumulative_modulus argsort n eig t).
Proof.
  intros Hs Ht. split.
  - destruct (cumulative_attained argsort n eig Hs t Ht) as (l & L & N & B & E). exists l. rewrite <- lsum_list_sum. auto.
  - intros l L N B. rewrite <- lsum_list_sum, <- L. apply cumulative_minimal; assumption.
Qed.

Lemma diagonal_line_spec argsort eigh b0 b1 n K : is_argsort argsort -> (0 < n)%nat -> bsize b0 = n -> bsize b1 = n -> nprod (ashape K) = (n * n)%nat ->
  (forall A, mat_eq n A (entry2 n K) -> eigendecomposition n A (eigh n A) /\ unitary n (snd (eigh n A))) ->
  exists height : nat -> R, plot_diagonal_kernel_truncation_error argsort eigh b0 b1 K = Some (map (fun t => (INR t, height t)) (seq 0 (n + 1))) /\
    (forall t, (t <= n)%nat -> is_smallest_sum n (fun a => Rabs (fst (eigh n (entry2 n K)) a)) t (height t)) /\
    forall c, (0 < c <= n)%nat -> exists o t D, get_periodic_noise_operators_diagonal_eigenvalue eigh b0 b1 K = Some o /\
      truncate_diagonal_noise_operator_list argsort o (map Z.of_nat (seq 0 c)) = Some t /\
      get_diagonal_kernel_from_diagonal_operators t = Some D /\ ashape D = [(n * n)%nat] /\
      forall i j, (i < n)%nat -> (j < n)%nat -> (Cmod (entry2 n K i j - entry2 n D i j)%C <= height (n - c)%nat)%R.
Proof.
  intros Hs Hn H0 H1 HK He. set (eig a := RtoC (fst (eigh n (entry2 n K)) a)).
  exists (cumulative_modulus argsort n eig). split; [exact (diagonal_truncation_line argsort eigh b0 b1 n K Hn H0 H1 HK)|]. split.
  - intros t Ht. destruct (cumulative_smallest argsort n eig t Hs Ht) as [(l & L & N & B & E) M].
    assert (X : forall l, map (fun a => Rabs (fst (eigh n (entry2 n K)) a)) l = map (fun a => Cmod (eig a)) l).
    { intros l'. apply map_ext. intros a. unfold eig. rewrite Cmod_R. reflexivity. }
    split; [exists l; rewrite X; auto|]. intros l' L' N' B'. rewrite X. apply M; assumption.
  - intros c Hc. exact (truncation_error_bound argsort eigh b0 b1 n K Hs Hn H0 H1 HK He c Hc).
Qed.

Lemma full_line_spec argsort eigh b0 b1 K o : is_argsort argsort -> get_periodic_noise_operators_eigenvalue eigh b0 b1 K = Some o ->
  let N := noise_count o in
  exists height : nat -> R, (forall t, (t <= N)%nat -> is_smallest_sum N (fun a => Cmod (eigenvalue o a)) t (height t)) /\
    (forall ts, Forall (fun t => (0 <= t <= Z.of_nat N)%Z) ts ->
       plot_kernel_truncation_error argsort eigh b0 b1 K (Some ts) = Some (map (fun t => (IZR t, height (Z.to_nat t))) ts)) /\
    exists ts, (forall t, In t ts <-> (t <= N)%nat /\ exists k, t = (k * (1 + (N + 1) / 100))%nat) /\
      plot_kernel_truncation_error argsort eigh b0 b1 K None = Some (map (fun t => (INR t, height t)) ts).
Proof.
  intros Hs E N. exists (cumulative_modulus argsort N (eigenvalue o)). split; [intros t Ht; apply cumulative_smallest; assumption|]. split.
  - intros ts F. exact (full_truncation_line argsort eigh b0 b1 K o ts E F).
  - exists (range_step (N + 1) (1 + (N + 1) / 100)). split.
    + intros t. rewrite range_step_spec by lia. split; intros (A & B); split; try exact B; lia.
    + exact (full_default_line argsort eigh b0 b1 K o E).
Qed.

Lemma cdelta_unitary n : unitary n cdelta.
Proof.
  assert (G : forall i j, (i < n)%nat -> csum (fun k => cdelta i k * Cconj (cdelta j k)) n = cdelta i j).
  { intros i j Hi. rewrite (csum_single _ n i Hi).
    - rewrite cdelta_refl, Cmult_1_l. unfold cdelta. rewrite Nat.eqb_sym. destruct (i =? j)%nat; apply injective_projections; cbn; lra.
    - intros k _ Hk. unfold cdelta at 1. destruct (Nat.eqb_spec i k) as [->|]; [contradiction|]. apply Cmult_0_l. }
  assert (G' : forall i j, (i < n)%nat -> csum (fun k => Cconj (cdelta k i) * cdelta k j) n = cdelta i j).
  { intros i j Hi. rewrite (csum_single _ n i Hi).
    - rewrite cdelta_refl. replace (Cconj 1) with (RtoC 1) by (apply injective_projections; cbn; lra). apply Cmult_1_l.
    - intros k _ Hk. unfold cdelta at 1. destruct (Nat.eqb_spec k i) as [->|]; [contradiction|]. replace (Cconj 0) with (RtoC 0) by (apply injective_projections; cbn; lra). apply Cmult_0_l. }
  split; intros i j Hi Hj; [apply G|apply G']; assumption.
Qed.

Lemma none_drawn argsort m : length (plot_noise_eigenvalues argsort two_noise (Some 2%Z) m) = 0%nat.
Proof. reflexivity. Qed.

Lemma percentage_same same b k f : identity_test same -> bwf b -> explicit_orthonormal b -> ashape k = [bsize b] -> ashape f = [bsize b] ->
  exists err, noise_kernel_percentage_error same b k b f = Some err /\
  forall x, (x < bsize b)%nat -> (aflat k x = 0 -> err x = None) /\
    (aflat k x <> 0 -> exists e, err x = Some e /\ aflat f x = aflat k x * (1 + e / RtoC 100)).
Proof.
  intros I W O Ek Ef. destruct (isotropic_same_basis same b f I W O Ef) as (c & Ec & _ & V).
  destruct (percentage_built same b b k f c Ec) as (err & E & H). exists err. split; [exact E|]. intros x Hx. rewrite <- V by exact Hx. exact (H x).
Qed.

(** ** Cases *)

Lemma unit_kernel_case : forall A, mat_eq 3 A (entry2 3 (unit_kernel2 3)) -> eigendecomposition 3 A (diagonal_eigh 3 A) /\ unitary 3 (snd (diagonal_eigh 3 A)).
Proof.
  intros A H. split; [|apply cdelta_unitary]. apply diagonal_eigh_ok. intros i j Hi Hj. rewrite (H i j Hi Hj), (H i i Hi Hi).
  rewrite !unit_kernel2_entry by assumption. rewrite cdelta_refl. unfold cdelta. destruct (Nat.eqb_spec i j) as [->|]; [|ring].
  rewrite Cmult_1_r. cbn [fst RtoC]. ring.
Qed.
