(** Property theorems: noise operators built for a Hamiltonian (C114). *)
From Coq Require Import Reals Lra Lia Psatz.
From Verif Require Import ZLib Csum DFT NumPy Spec Index Lattice Basis SpecBasis Operator SpecOperator Wavepacket SpecWavepacket Kernel SpecKernel
  KernelConvert KernelFacts Taylor SpecTaylor Correlation SpecCorrelation CorrelationProofs3 NoiseBuild SpecNoiseBuild NoiseBuildProofs NoiseBuildFacts NoiseBuildFacts3 NoiseBuildFacts4 NoiseBuildFacts5.
Local Open Scope R_scope.
Local Open Scope C_scope.

(** A Hamiltonian of two wells, its two states and the lattice meet the hypotheses. *)
Example ex_wells : (0 < length [BFund 2])%nat /\ bwf (BTuple [BFund 2]) /\ explicit_orthonormal (BTuple [BFund 2]) /\ op_wf (wells 1) /\
  orow (wells 1) = BTuple [BFund 2] /\ ocol (wells 1) = BTuple [BFund 2] /\ aligned 1 square_delta /\ hermitian 2 (op_entry (wells 1)) /\
  eigenvector 2 (op_entry (wells 1)) odd_state (4 * 1) /\ eigenvector 2 (op_entry (wells 1)) even_state 0 /\
  exists d, distances square_delta [2%nat] d.
Proof. exact wells_meet_hypotheses. Qed.

(** The operators M - [H, M] / (4 kT), in the basis of the Hamiltonian, of the gaussian noise
    operators M; whatever the truncation. *)
Theorem C114_corrected_operators :
  forall same, identity_test same -> forall argsort, is_argsort argsort ->
  forall axes h delta, (0 < length axes)%nat -> bwf (BTuple axes) -> explicit_orthonormal (BTuple axes) ->
  op_wf h -> orow h = BTuple axes -> ocol h = BTuple axes ->
  forall a lambda kt truncation o, a <> 0%R -> kt <> 0%R ->
  get_gaussian_noise_operators_periodic argsort delta (map bfund axes) a lambda truncation = Some o ->
  exists r, get_temperature_corrected_gaussian_noise_operators same argsort h delta a lambda kt truncation = Some r /\ noise_wf r /\
    noise_count r = noise_count o /\ lrow (nops r) = BTuple axes /\ lcol (nops r) = BTuple axes /\ (forall m, eigenvalue r m = eigenvalue o m) /\
    forall m i j, (m < noise_count o)%nat -> (i < bsize (BTuple axes))%nat -> (j < bsize (BTuple axes))%nat ->
      let M := multiplication (BTuple axes) (diag_entry (nops o) m) in
      list_entry (nops r) m i j = M i j -
        (matmul (bsize (BTuple axes)) (op_entry h) M i j - matmul (bsize (BTuple axes)) M (op_entry h) i j) * RtoC (/ (4 * kt)).
Proof. exact corrected_operators. Qed.
Print Assumptions C114_corrected_operators.

(** Between eigenstates of the Hamiltonian: the rate of the uncorrected noise, which depends on
    the distance of the points alone, times (1 - (E - E') / (4 kT))^2. *)
Theorem C114_transitions :
  forall same, identity_test same -> forall argsort, is_argsort argsort ->
  forall axes h delta, (0 < length axes)%nat -> bwf (BTuple axes) -> explicit_orthonormal (BTuple axes) ->
  op_wf h -> orow h = BTuple axes -> ocol h = BTuple axes -> aligned (length axes) delta -> hermitian (bsize (BTuple axes)) (op_entry h) ->
  forall a lambda kt, a <> 0%R -> lambda <> 0%R -> kt <> 0%R ->
  exists r, get_temperature_corrected_gaussian_noise_operators same argsort h delta a lambda kt None = Some r /\ noise_wf r /\
    lrow (nops r) = BTuple axes /\ lcol (nops r) = BTuple axes /\
    forall d u v E E', distances delta (map bfund axes) d ->
      eigenvector (bsize (BTuple axes)) (op_entry h) u E -> eigenvector (bsize (BTuple axes)) (op_entry h) v E' ->
      transition (bsize (BTuple axes)) r u v = RtoC ((1 - (E - E') / (4 * kt)) ^ 2) *
        overlap_rate (BTuple axes) (fun x y => RtoC (a ^ 2 * exp (- d x y ^ 2 / (2 * lambda ^ 2)))) u v.
Proof. exact gaussian_rates. Qed.
Print Assumptions C114_transitions.

(** The rates obey detailed balance up to the third power of (E - E') / (kT), and the upward
    rate never exceeds the Boltzmann factor times the downward one while E - E' <= 4 kT. *)
Theorem C114_detailed_balance :
  forall same, identity_test same -> forall argsort, is_argsort argsort ->
  forall axes h delta, (0 < length axes)%nat -> bwf (BTuple axes) -> explicit_orthonormal (BTuple axes) ->
  op_wf h -> orow h = BTuple axes -> ocol h = BTuple axes -> aligned (length axes) delta -> hermitian (bsize (BTuple axes)) (op_entry h) ->
  forall a lambda kt, a <> 0%R -> lambda <> 0%R -> (0 < kt)%R ->
  exists r, get_temperature_corrected_gaussian_noise_operators same argsort h delta a lambda kt None = Some r /\
    forall u v E E', eigenvector (bsize (BTuple axes)) (op_entry h) u E -> eigenvector (bsize (BTuple axes)) (op_entry h) v E' ->
      let x := ((E - E') / (4 * kt))%R in
      exists w, transition (bsize (BTuple axes)) r u v = RtoC ((1 - x) ^ 2 * w) /\ transition (bsize (BTuple axes)) r v u = RtoC ((1 + x) ^ 2 * w) /\
        ((0 <= x <= 1)%R ->
         (Rabs (exp (- ((E - E') / kt)) * ((1 + x) ^ 2 * w) - (1 - x) ^ 2 * w) <= ((E - E') / kt) ^ 3 / 8 * Rabs w)%R /\
         ((1 - x) ^ 2 * Rabs w <= exp (- ((E - E') / kt)) * ((1 + x) ^ 2 * Rabs w))%R).
Proof. exact gaussian_balance. Qed.
Print Assumptions C114_detailed_balance.

(** Detailed balance itself fails: two states 4 kT apart, with no transition up and one down. *)
Theorem C114_missing_transition_refuted :
  forall same argsort delta a lambda kt, identity_test same -> is_argsort argsort -> aligned 1 delta ->
  a <> 0%R -> lambda <> 0%R -> (0 < kt)%R ->
  exists r w, get_temperature_corrected_gaussian_noise_operators same argsort (wells kt) delta a lambda kt None = Some r /\
    hermitian 2 (op_entry (wells kt)) /\ eigenvector 2 (op_entry (wells kt)) odd_state (4 * kt) /\ eigenvector 2 (op_entry (wells kt)) even_state 0 /\
    transition 2 r odd_state even_state = 0 /\ transition 2 r even_state odd_state = RtoC w /\ (0 < w)%R.
Proof. exact missing_transition. Qed.
Print Assumptions C114_missing_transition_refuted.

(** The effective noise of friction [eta]: the correlation length is the length of the shortest
    lattice vector over 2 sqrt 2, and the small-distance curvature eta kT / hbar^2. *)
Theorem C114_effective_transitions :
  forall same argsort boltzmann hbar axes h delta eta temperature, identity_test same -> is_argsort argsort ->
  (0 < length axes)%nat -> bwf (BTuple axes) -> explicit_orthonormal (BTuple axes) -> op_wf h -> orow h = BTuple axes -> ocol h = BTuple axes ->
  aligned (length axes) delta -> hermitian (bsize (BTuple axes)) (op_entry h) ->
  (0 < eta * boltzmann * temperature)%R -> (boltzmann * temperature)%R <> 0%R -> hbar <> 0%R ->
  exists r L, get_temperature_corrected_effective_gaussian_noise_operators same argsort boltzmann hbar h delta eta temperature None = Some r /\
    noise_wf r /\ lrow (nops r) = BTuple axes /\ lcol (nops r) = BTuple axes /\ shortest (length axes) delta L /\
    forall d u v E E', distances delta (map bfund axes) d ->
      eigenvector (bsize (BTuple axes)) (op_entry h) u E -> eigenvector (bsize (BTuple axes)) (op_entry h) v E' ->
      transition (bsize (BTuple axes)) r u v = RtoC ((1 - (E - E') / (4 * (boltzmann * temperature))) ^ 2) *
        overlap_rate (BTuple axes) (fun x y => RtoC (2 * (eta * boltzmann * temperature) / hbar ^ 2 * (L ^ 2 / 8) * exp (- 4 * d x y ^ 2 / L ^ 2))) u v.
Proof. exact effective_rates. Qed.
Print Assumptions C114_effective_transitions.

(** ** C57: the linear operators of several axes *)

Example ex_linear_axes : linear_axes [(4%nat, 1%R); (3%nat, 2%R)] (sizes_of 2 (Some [2; 5]%nat)).
Proof. cbn. lia. Qed.

Theorem C57_linear_stacked :
  forall axes a lambda shape, linear_axes axes (sizes_of (length axes) shape) ->
  let s := map fst axes in
  exists o D, get_linear_gaussian_operators_explicit_taylor_stacked axes a lambda shape = Some o /\
    get_diagonal_kernel_from_diagonal_operators o = Some D /\ ashape D = [(nprod s * nprod s)%nat] /\
    forall x y, in_shape x s -> in_shape y s ->
      entry2 (nprod s) D (ravel s x) (ravel s y) = RtoC (linear_product a lambda axes (sizes_of (length axes) shape) x y).
Proof. exact linear_stacked. Qed.
Print Assumptions C57_linear_stacked.

(** ** C22: the isotropic kernel of full operators *)

Example ex_operators : noise_wf matrix_noise /\ bsize (lrow (nops matrix_noise)) = 2%nat /\ bsize (lcol (nops matrix_noise)) = 2%nat /\ (0 < noise_count matrix_noise)%nat.
Proof. exact matrix_noise_wf. Qed.

Theorem C22_isotropic_of_operators :
  forall o n, noise_wf o -> bsize (lrow (nops o)) = n -> bsize (lcol (nops o)) = n -> (0 < n)%nat -> (0 < noise_count o)%nat ->
  exists k, get_isotropic_kernel_from_operators false o = Some k /\ ashape k = [n] /\
    (forall j, (j < n)%nat -> aflat k j = diagonal_correlation o 0 j) /\
    ((exists k', get_isotropic_kernel_from_operators true o = Some k') <->
     forall i j e, (i < n)%nat -> (j < n)%nat -> (e < n)%nat -> Zcong (Z.of_nat n) (Z.of_nat e) (Z.of_nat i - Z.of_nat j) ->
       diagonal_correlation o i j = diagonal_correlation o 0 e).
Proof. exact isotropic_of_operators. Qed.
Print Assumptions C22_isotropic_of_operators.

(** ** C60: kernels along the axes of a kernel in any basis *)

Theorem C60_fundamental_axis_kernels :
  forall same axes k, identity_test same -> bwf (BTuple axes) -> explicit_orthonormal (BTuple axes) ->
  ashape k = [bsize (BTuple axes)] ->
  exists k', convert_isotropic_kernel_to_basis same (BTuple axes) k (BTuple (map (fun b => BFund (bfund b)) axes)) = Some k' /\
    ashape k' = [nprod (map bfund axes)] /\
    (forall x, (x < nprod (map bfund axes))%nat -> aflat k' x = amplitude (BTuple axes) (aflat k) x) /\
    get_fundamental_axis_kernels_from_isotropic same axes k = as_axis_kernel_from_isotropic (map bfund axes) k'.
Proof. exact fundamental_axis_kernels. Qed.
Print Assumptions C60_fundamental_axis_kernels.

Example ex_axis_kernel : bwf (BTuple [BFundT 2; BFund 3]) /\ explicit_orthonormal (BTuple [BFundT 2; BFund 3]) /\
  ashape {| ashape := [6%nat]; aflat := fun i => cdelta i 0 |} = [bsize (BTuple [BFundT 2; BFund 3])].
Proof. split; [cbn; lia|]. split; [cbn; tauto|reflexivity]. Qed.
