(** Properties of the plots of noise kernels (C122). *)
From Coq Require Import Reals List ZArith Arith Lia Lra.
From Verif Require Import ZLib Csum DFT NumPy Spec Basis SpecBasis Operator SpecOperator SpecMatrix Kernel SpecKernel KernelFacts KernelConvert Sample Plots
  KernelPlots SpecKernelPlots KernelPlotsFacts KernelPlotsFacts2.
Import ListNotations.
Local Open Scope R_scope.
Local Open Scope C_scope.

(** A kernel of three points, an eigendecomposition and an order. *)
Example C122_case : is_argsort some_argsort /\ nprod (ashape (unit_kernel2 3)) = (3 * 3)%nat /\
  (forall A, mat_eq 3 A (entry2 3 (unit_kernel2 3)) -> eigendecomposition 3 A (diagonal_eigh 3 A) /\ unitary 3 (snd (diagonal_eigh 3 A))) /\
  diagonal_noise_wf two_noise.
Proof. exact (conj some_argsort_ok (conj eq_refl (conj unit_kernel_case two_noise_wf))). Qed.

(** The truncation plot of a diagonal kernel: at [t], the smallest sum of [t] moduli of eigenvalues.
    It bounds what leaving [t] operators out does to any entry of the kernel. *)
Theorem C122_truncation_bounds_error : forall argsort eigh b0 b1 n K, is_argsort argsort -> (0 < n)%nat ->
  bsize b0 = n -> bsize b1 = n -> nprod (ashape K) = (n * n)%nat ->
  (forall A, mat_eq n A (entry2 n K) -> eigendecomposition n A (eigh n A) /\ unitary n (snd (eigh n A))) ->
  exists height : nat -> R, plot_diagonal_kernel_truncation_error argsort eigh b0 b1 K = Some (map (fun t => (INR t, height t)) (seq 0 (n + 1))) /\
    (forall t, (t <= n)%nat -> is_smallest_sum n (fun a => Rabs (fst (eigh n (entry2 n K)) a)) t (height t)) /\
    forall c, (0 < c <= n)%nat -> exists o t D, get_periodic_noise_operators_diagonal_eigenvalue eigh b0 b1 K = Some o /\
      truncate_diagonal_noise_operator_list argsort o (map Z.of_nat (seq 0 c)) = Some t /\
      get_diagonal_kernel_from_diagonal_operators t = Some D /\ ashape D = [(n * n)%nat] /\
      forall i j, (i < n)%nat -> (j < n)%nat -> (Cmod (entry2 n K i j - entry2 n D i j)%C <= height (n - c)%nat)%R.
Proof. exact diagonal_line_spec. Qed.
Print Assumptions C122_truncation_bounds_error.

(** The truncation plot of a full kernel, at the truncations asked for or at every multiple of a step. *)
Theorem C122_truncation_full : forall argsort eigh b0 b1 K o, is_argsort argsort -> get_periodic_noise_operators_eigenvalue eigh b0 b1 K = Some o ->
  let N := noise_count o in
  exists height : nat -> R, (forall t, (t <= N)%nat -> is_smallest_sum N (fun a => Cmod (eigenvalue o a)) t (height t)) /\
    (forall ts, Forall (fun t => (0 <= t <= Z.of_nat N)%Z) ts ->
       plot_kernel_truncation_error argsort eigh b0 b1 K (Some ts) = Some (map (fun t => (IZR t, height (Z.to_nat t))) ts)) /\
    exists ts, (forall t, In t ts <-> (t <= N)%nat /\ exists k, t = (k * (1 + (N + 1) / 100))%nat) /\
      plot_kernel_truncation_error argsort eigh b0 b1 K None = Some (map (fun t => (INR t, height t)) ts).
Proof. exact full_line_spec. Qed.
Print Assumptions C122_truncation_full.

(** The eigenvalue plot: the largest, in descending order.  Without a truncation all of them; a
    truncation [t] leaves out the [t + 1] smallest, or, counted from the end, keeps [- t - 1]. *)
Theorem C122_eigenvalues : forall argsort o m truncation, is_argsort argsort ->
  let N := nprod (ashape (neig o)) in let line := plot_noise_eigenvalues argsort o truncation m in
  let value := measured_vector m (aflat (neig o)) in
  (match truncation with
   | None => length line = N
   | Some t => ((0 <= t < Z.of_nat N)%Z -> length line = (N - 1 - Z.to_nat t)%nat) /\
               ((- Z.of_nat N <= t < 0)%Z -> length line = (Z.to_nat (- t) - 1)%nat)
   end) /\
  exists kept, NoDup kept /\ (forall a, In a kept -> (a < N)%nat) /\ line = map value kept /\
    (forall a b, (a <= b < length line)%nat -> nth b line 0 <= nth a line 0)%R /\
    (forall a b, (a < N)%nat -> ~ In a kept -> In b kept -> value a <= value b)%R.
Proof. exact noise_eigenvalues_line. Qed.
Print Assumptions C122_eigenvalues.

(** Asked for two of two eigenvalues it shows none. *)
Theorem C122_eigenvalues_kept_refuted : forall argsort m, length (plot_noise_eigenvalues argsort two_noise (Some 2%Z) m) = 0%nat.
Proof. exact none_drawn. Qed.
Print Assumptions C122_eigenvalues_kept_refuted.

(** The sample plotted without a truncation: the sample of C76 less its value at the first point. *)
Theorem C122_sample : forall o, diagonal_noise_wf o -> (0 < noise_count o)%nat ->
  forall argsort hbar (re im : nat -> R), is_argsort argsort -> let n := bsize (lrow (nops o)) in (0 < n)%nat ->
  forall L, sample_noise_from_diagonal_operators hbar (fun _ => re) (fun _ => im) o 1 = Some L ->
  exists v, noise_operators_single_sample argsort hbar re im o None = Some v /\
    forall x, (x < n)%nat -> v x = diag_entry L 0 x - diag_entry L 0 0.
Proof. exact sample_all. Qed.
Print Assumptions C122_sample.

(** With a truncation: as many operators as it keeps, but the first ones of the list. *)
Theorem C122_sample_truncated : forall o, diagonal_noise_wf o -> (0 < noise_count o)%nat ->
  forall argsort hbar (re im : nat -> R), is_argsort argsort ->
  forall ts sel, python_indices (noise_count o) ts = Some sel -> (length ts <= noise_count o)%nat -> (0 < bsize (lrow (nops o)))%nat ->
  exists v, noise_operators_single_sample argsort hbar re im o (Some ts) = Some v /\
    forall x, v x = csum (fun i => (RtoC (re i) + Ci * RtoC (im i)) / RtoC (sqrt 2) * scimath_sqrt (eigenvalue o i * RtoC hbar) * (diag_entry (nops o) i x - diag_entry (nops o) i 0)) (length ts).
Proof. exact sample_of_first. Qed.
Print Assumptions C122_sample_truncated.

(** The operator a truncation keeps is zero everywhere, the sample shown is not. *)
Theorem C122_sample_truncation_refuted : forall argsort, is_argsort argsort -> exists t v,
  truncate_diagonal_noise_operator_list argsort two_noise [0%Z] = Some t /\
  (forall x, (x < 2)%nat -> diag_entry (nops t) 0 x = 0) /\
  noise_operators_single_sample argsort 1 (fun _ => 1%R) (fun _ => 0%R) two_noise (Some [0%Z]) = Some v /\ v 1%nat <> 0.
Proof. exact truncated_sample_wrong. Qed.
Print Assumptions C122_sample_truncation_refuted.

(** The error shown is the [e] for which the fitted kernel is the true one plus [e] percent. *)
Theorem C122_percentage_error : forall same b k f, identity_test same -> bwf b -> explicit_orthonormal b -> ashape k = [bsize b] -> ashape f = [bsize b] ->
  exists err, noise_kernel_percentage_error same b k b f = Some err /\
  forall x, (x < bsize b)%nat -> (aflat k x = 0 -> err x = None) /\
    (aflat k x <> 0 -> exists e, err x = Some e /\ aflat f x = aflat k x * (1 + e / RtoC 100)).
Proof. exact percentage_same. Qed.
Print Assumptions C122_percentage_error.

(** The mesh of a diagonal kernel: both axes start half way round the cell. *)
Theorem C122_mesh : forall b0 K m, (0 < bsize b0)%nat -> nprod (ashape K) = (bsize b0 * bsize b0)%nat -> m <> PAngle ->
  exists mesh, plot_diagonal_kernel_2d b0 K m = Some mesh /\
    forall i j p q, let n := bsize b0 in (i < n)%nat -> (j < n)%nat -> (p < n)%nat -> (q < n)%nat ->
      Zcong (Z.of_nat n) (Z.of_nat p) (Z.of_nat i - Z.of_nat (n / 2)) -> Zcong (Z.of_nat n) (Z.of_nat q) (Z.of_nat j - Z.of_nat (n / 2)) ->
      mesh_value mesh i j = measured_vector m (fun _ => entry2 n K p q) 0 /\ mesh_at mesh i j = (INR j, INR i).
Proof. exact diagonal_mesh. Qed.
Print Assumptions C122_mesh.
