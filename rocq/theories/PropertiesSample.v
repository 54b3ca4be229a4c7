(** Sampled noise (C76). *)
From Coq Require Import Reals Lra Lia.
From Verif Require Import ZLib Csum NumPy Spec Basis Operator SpecOperator Kernel SpecKernel KernelFacts Sample SpecSample
  SampleProofs SampleProofs2.
Local Open Scope R_scope.
Local Open Scope C_scope.

(** Independent random signs are such random numbers: the mean over all choices of n * m + n * m
    signs, for every number of samples and operators. *)
Example ex_signs : forall n m, expectation (fun _ => True) (sign_mean (n * m + n * m)) /\
  uncorrelated (fun _ => True) (sign_mean (n * m + n * m)) (sign_re m) (sign_im n m) n m.
Proof. intros n m. split; [apply sign_mean_expectation|apply signs_uncorrelated]. Qed.
Example ex_sampled_operators : diagonal_noise_wf three_operators /\ (0 < noise_count three_operators)%nat /\
  diagonal_noise_wf ex_diagonal_noise /\ nonnegative_eigenvalues ex_diagonal_noise.
Proof.
  split; [exact three_operators_wf|]. split; [cbn; lia|]. split; [repeat split|].
  intros a _. exists (INR a). split; [apply pos_INR|reflexivity].
Qed.
Example ex_sampled_kernel : forall A, mat_eq 3 A (entry2 3 (unit_kernel2 3)) ->
  eigendecomposition 3 A (diagonal_eigh 3 A) /\ forall a, (a < 3)%nat -> (0 <= fst (diagonal_eigh 3 (entry2 3 (unit_kernel2 3))) a)%R.
Proof.
  intros A H. split.
  - apply diagonal_eigh_ok. intros i j Hi Hj. rewrite (H i j Hi Hj), (H i i Hi Hi).
    rewrite !unit_kernel2_entry by assumption. rewrite cdelta_refl. unfold cdelta. destruct (Nat.eqb_spec i j) as [->|]; [|ring].
    rewrite Cmult_1_r. cbn [fst RtoC]. ring.
  - intros a Ha. unfold diagonal_eigh. cbn [fst]. rewrite unit_kernel2_entry by assumption. rewrite cdelta_refl, Cmult_1_r.
    cbn [fst RtoC]. apply pos_INR.
Qed.

(** One sample per requested number; its values are a random combination of the operators,
    linear in the random numbers. *)
Theorem C76_diagonal_samples :
  forall hbar re im o ns, diagonal_noise_wf o -> (0 < noise_count o)%nat -> (0 < ns)%nat ->
  exists L, sample_noise_from_diagonal_operators hbar re im o ns = Some L /\ diag_list_wf L /\ lbasis L = BFund ns /\
    lrow L = lrow (nops o) /\ lcol L = lcol (nops o) /\
    exists w, (forall j, w j * w j = eigenvalue o j * RtoC hbar) /\
    forall s x, (s < ns)%nat -> (x < bsize (lrow (nops o)))%nat ->
      diag_entry L s x = csum (fun j => (RtoC (re s j) + Ci * RtoC (im s j)) / RtoC (sqrt 2) * w j * diag_entry (nops o) j x) (noise_count o).
Proof.
  intros hbar re im o ns Hw Hc Hn. destruct (diagonal_sample_spec hbar re im o ns Hw Hc Hn) as [L [H1 [H2 [H3 [H4 [H5 H6]]]]]].
  exists L. repeat split; try assumption; try apply H2. exists (fun j => scimath_sqrt (eigenvalue o j * RtoC hbar)).
  split; [intros j; apply scimath_sqrt_square|exact H6].
Qed.
Print Assumptions C76_diagonal_samples.

Theorem C76_full_samples :
  forall hbar re im o ns, noise_wf o -> (0 < noise_count o)%nat ->
  exists L, sample_noise_from_operators hbar re im o ns = Some L /\ list_wf L /\ lbasis L = BFund ns /\
    lrow L = lrow (nops o) /\ lcol L = lcol (nops o) /\
    exists w, (forall a, w a * w a = eigenvalue o a * RtoC hbar) /\
    forall s i j, (s < ns)%nat -> (i < bsize (lrow (nops o)))%nat -> (j < bsize (lcol (nops o)))%nat ->
      list_entry L s i j = csum (fun a => (RtoC (re s a) + Ci * RtoC (im s a)) / RtoC (sqrt 2) * w a * list_entry (nops o) a i j) (noise_count o).
Proof.
  intros hbar re im o ns Hw Hc. destruct (full_sample_spec hbar re im o ns Hw Hc) as [L [H1 [H2 [H3 [H4 [H5 H6]]]]]].
  exists L. repeat split; try assumption. exists (fun j => scimath_sqrt (eigenvalue o j * RtoC hbar)).
  split; [intros j; apply scimath_sqrt_square|exact H6].
Qed.
Print Assumptions C76_full_samples.

(** The covariance of the sampled noise is hbar times the kernel of the operators. *)
Theorem C76_diagonal_covariance :
  forall (D : Type) P E (re im : D -> nat -> nat -> R) hbar o ns N,
  expectation P E -> (0 <= hbar)%R -> diagonal_noise_wf o -> (0 < noise_count o)%nat -> nonnegative_eigenvalues o ->
  uncorrelated P E re im ns (noise_count o) ->
  (forall d, sample_noise_from_diagonal_operators hbar (re d) (im d) o ns = Some (N d)) ->
  exists K, get_diagonal_kernel_from_diagonal_operators o = Some K /\
  let n := bsize (lrow (nops o)) in
  forall s s' x y, (s < ns)%nat -> (s' < ns)%nat -> (x < n)%nat -> (y < n)%nat ->
  mean P E (fun d => Cconj (diag_entry (N d) s x) * diag_entry (N d) s' y) (cdelta s s' * (RtoC hbar * entry2 n K x y)).
Proof. exact @diagonal_covariance_kernel. Qed.
Print Assumptions C76_diagonal_covariance.

Theorem C76_full_covariance :
  forall (D : Type) P E (re im : D -> nat -> nat -> R) hbar o ns N,
  expectation P E -> (0 <= hbar)%R -> noise_wf o -> (0 < noise_count o)%nat -> nonnegative_eigenvalues o ->
  uncorrelated P E re im ns (noise_count o) ->
  (forall d, sample_noise_from_operators hbar (re d) (im d) o ns = Some (N d)) ->
  exists K, get_full_kernel_from_operators o = Some K /\
  let r := bsize (lrow (nops o)) in let c := bsize (lcol (nops o)) in
  forall s s' i j k l, (s < ns)%nat -> (s' < ns)%nat -> (i < c)%nat -> (j < r)%nat -> (k < r)%nat -> (l < c)%nat ->
  mean P E (fun d => Cconj (list_entry (N d) s j i) * list_entry (N d) s' k l)
           (cdelta s s' * (RtoC hbar * entry4 r r c K i j k l)).
Proof. exact @full_covariance_kernel. Qed.
Print Assumptions C76_full_covariance.

(** Without the conjugate the products average to zero, and for any eigenvalues the covariance
    is hbar times the kernel with the moduli of the eigenvalues. *)
Theorem C76_any_eigenvalues :
  forall (D : Type) P E (re im : D -> nat -> nat -> R) hbar o ns N,
  expectation P E -> (0 <= hbar)%R -> diagonal_noise_wf o -> (0 < noise_count o)%nat ->
  uncorrelated P E re im ns (noise_count o) ->
  (forall d, sample_noise_from_diagonal_operators hbar (re d) (im d) o ns = Some (N d)) ->
  forall s s' x y, (s < ns)%nat -> (s' < ns)%nat -> (x < bsize (lrow (nops o)))%nat -> (y < bsize (lrow (nops o)))%nat ->
  mean P E (fun d => Cconj (diag_entry (N d) s x) * diag_entry (N d) s' y) (cdelta s s' * (RtoC hbar * modulus_kernel_of o x y)) /\
  mean P E (fun d => diag_entry (N d) s x * diag_entry (N d) s' y) 0.
Proof. exact @diagonal_covariance. Qed.
Print Assumptions C76_any_eigenvalues.

(** So for a negative eigenvalue it is not the kernel. *)
Theorem C76_negative_eigenvalue_refuted :
  forall (D : Type) P E (re im : D -> nat -> nat -> R) hbar N,
  expectation P E -> (0 < hbar)%R -> uncorrelated P E re im 1 1 ->
  (forall d, sample_noise_from_diagonal_operators hbar (re d) (im d) negative_operators 1 = Some (N d)) ->
  exists K, get_diagonal_kernel_from_diagonal_operators negative_operators = Some K /\ aflat K 0 = RtoC (-1) /\
    mean P E (fun d => Cconj (diag_entry (N d) 0 0) * diag_entry (N d) 0 0) (RtoC hbar).
Proof. exact @negative_covariance. Qed.
Print Assumptions C76_negative_eigenvalue_refuted.

(** Noise sampled from a positive kernel has this kernel, times hbar, as its covariance. *)
Theorem C76_kernel_covariance :
  forall (D : Type) P E (re im : D -> nat -> nat -> R) argsort eigh hbar b0 b1 n K ns N,
  expectation P E -> (0 <= hbar)%R -> is_argsort argsort -> (0 < n)%nat -> bsize b0 = n -> bsize b1 = n ->
  nprod (ashape K) = (n * n)%nat ->
  (forall A, mat_eq n A (entry2 n K) -> eigendecomposition n A (eigh n A)) ->
  (forall a, (a < n)%nat -> (0 <= fst (eigh n (entry2 n K)) a)%R) ->
  uncorrelated P E re im ns n ->
  (forall d, sample_noise_from_diagonal_kernel argsort eigh hbar (re d) (im d) b0 b1 K ns None = Some (N d)) ->
  forall s s' x y, (s < ns)%nat -> (s' < ns)%nat -> (x < n)%nat -> (y < n)%nat ->
  mean P E (fun d => Cconj (diag_entry (N d) s x) * diag_entry (N d) s' y) (cdelta s s' * (RtoC hbar * entry2 n K x y)).
Proof. exact @kernel_covariance. Qed.
Print Assumptions C76_kernel_covariance.

Theorem C76_kernel_samples :
  forall argsort eigh hbar re im b0 b1 n K ns,
  is_argsort argsort -> (0 < n)%nat -> bsize b0 = n -> bsize b1 = n -> nprod (ashape K) = (n * n)%nat -> (0 < ns)%nat ->
  (forall A, mat_eq n A (entry2 n K) -> eigendecomposition n A (eigh n A)) ->
  exists L, sample_noise_from_diagonal_kernel argsort eigh hbar re im b0 b1 K ns None = Some L /\
    diag_list_wf L /\ lbasis L = BFund ns /\ lrow L = b0 /\ lcol L = b1.
Proof. exact kernel_samples_exist. Qed.
Print Assumptions C76_kernel_samples.

(** The split noise has one component per operator, each a multiple of its operator, and with the
    same random numbers the components add up to the noise. *)
Theorem C76_components :
  forall hbar re im o ns, diagonal_noise_wf o -> (0 < noise_count o)%nat -> (0 < ns)%nat ->
  exists S0 l N, sample_noise_from_diagonal_operators_split hbar re im o ns = Some S0 /\
    get_diagonal_split_noise_components S0 = Some l /\ length l = noise_count o /\
    sample_noise_from_diagonal_operators hbar re im o ns = Some N /\
    (forall j M, nth_error l j = Some M -> diag_list_wf M /\ lbasis M = lbasis N /\ lrow M = lrow N /\ lcol M = lcol N /\
       forall s, (s < ns)%nat -> exists z, forall x, (x < bsize (lrow N))%nat -> diag_entry M s x = z * diag_entry (nops o) j x) /\
    forall s x, (s < ns)%nat -> (x < bsize (lrow N))%nat ->
      diag_entry N s x = fold_right (fun M acc => diag_entry M s x + acc) 0 l.
Proof. exact components_of_sample. Qed.
Print Assumptions C76_components.

Theorem C76_mismatch_raises :
  forall hbar re im o ns e, ashape (neig o) = [e] -> e <> noise_count o -> e <> 1%nat -> noise_count o <> 1%nat ->
  sample_noise_from_diagonal_operators hbar re im o ns = None /\ sample_noise_from_operators hbar re im o ns = None.
Proof. exact mismatch_raises. Qed.
Print Assumptions C76_mismatch_raises.
