(** Probabilities, scattering functions and rate decompositions of tunnelling simulations (C106). *)
From Coq Require Import Reals Psatz.
From Coquelicot Require Import Coquelicot.
From Verif Require Import ZLib Csum DFT NumPy Basis SpecBasis Operator SpecOperator Reduce
  SpecHamiltonian Dynamics SpecDynamics DynamicsProofs DynamicsProofs3 DynamicsFacts Incoherent SpecIncoherent IncoherentProofs IncoherentFacts.
Local Open Scope R_scope.
Local Open Scope C_scope.

(** Two sites of a chain with the rates 1 and 2 between them. *)
Example ex_chain :
  square 2 two_rates /\ rates 2 (op_entry two_rates) /\ (exists solve, solve_ok solve) /\
  (exists mx, rate_matrix 2 two_rates chain_basis mx /\ eig_diagonalises two_eig 2 (held_entry 2 mx)) /\
  diagonal_on chain_basis chain_start /\ distribution 2 (aflat (hdata chain_start)).
Proof.
  split; [exact two_square|]. split; [exact two_rates_ok|]. split; [exact solve_exists|]. split; [exact chain_matrix|exact chain_start_ok].
Qed.

(** The probabilities taken from a simulation that starts from a distribution: a list of
    distributions over the states, one per time, which equal the simulated states and start
    from the given one. *)
Theorem C106_probabilities_at_times :
  forall n m b mx eig solve, (0 < n)%nat -> square n m -> rates n (op_entry m) -> rate_matrix n m b mx ->
    eig_diagonalises eig n (held_entry n mx) -> solve_ok solve ->
    forall initial nt times, diagonal_on b initial -> distribution n (aflat (hdata initial)) ->
    (forall s, (s < nt)%nat -> (0 <= times s)%R) ->
    exists states p, simulation_state eig solve mx initial nt times = Some states /\
      density_matrix_list_as_probabilities states = Some p /\
      hbasis p = Stacked [Axis nt; b] /\ ashape (hdata p) = [nt; n] /\
      forall s, (s < nt)%nat -> distribution n (at2 (hdata p) s) /\
        (forall i, (i < n)%nat -> at2 (hdata p) s i = at2 (hdata states) s i) /\
        (times s = 0%R -> forall i, (i < n)%nat -> at2 (hdata p) s i = aflat (hdata initial) i).
Proof. exact probabilities_at_times. Qed.
Print Assumptions C106_probabilities_at_times.

(** The scattering function of a simulation raises for every density matrix: its
    probabilities keep the pair of bases, which has no third axis. *)
Theorem C106_isf_at_times_raises :
  forall eig solve inv m initial nt times dk b, diagonal_on b initial ->
    calculate_isf_at_times eig solve inv m initial nt times dk = None.
Proof. intros eig solve inv m initial nt times dk b [H _]. exact (isf_at_times_raises eig solve inv m initial nt times dk b b H). Qed.
Print Assumptions C106_isf_at_times_raises.

(** With the same initial probabilities in the basis of the states it would be defined for
    every simulation, never exceed one, and be one without momentum transfer. *)
Theorem C106_isf_in_the_basis_of_the_states :
  forall n m b mx eig solve, (0 < n)%nat -> square n m -> rates n (op_entry m) -> rate_matrix n m b mx ->
    eig_diagonalises eig n (held_entry n mx) -> solve_ok solve ->
    forall inv n0 n1 bd initial nt times dk, b = Stacked [Axis n0; Axis n1; Bands bd] ->
    diagonal_on b initial -> distribution n (aflat (hdata initial)) -> (forall s, (s < nt)%nat -> (0 <= times s)%R) ->
    exists states p isf, simulation_state eig solve mx initial nt times = Some states /\
      density_matrix_list_as_probabilities states = Some p /\
      isf_of_occupations inv {| hbasis := b; hdata := hdata (density_matrix_as_probability initial) |} p dk = Some isf /\
      calculate_isf_approximate_locations bd n0 n1 inv (fun x => fst (aflat (hdata initial) x)) (fun s x => fst (at2 (hdata p) s x)) dk = Some isf /\
      (forall s, (s < nt)%nat -> (Cmod (isf s) <= 1)%R) /\
      (dk 0%nat = 0%R -> dk 1%nat = 0%R -> forall s, (s < nt)%nat -> isf s = 1).
Proof. exact isf_repaired. Qed.
Print Assumptions C106_isf_in_the_basis_of_the_states.

(** The probabilities of a density matrix cannot be summed over axes once there are two
    states; with one state the sum is its occupation. *)
Theorem C106_probability_of_a_density_matrix :
  forall b d, diagonal_on b d ->
    ((2 <= sb_n b)%nat -> sum_first_axes (density_matrix_as_probability d) = None) /\
    (sb_n b = 1%nat -> exists s, sum_first_axes (density_matrix_as_probability d) = Some s /\
       aflat s 0%nat = RtoC (fst (aflat (hdata d) 0%nat))).
Proof. intros b d H. split; [exact (sum_of_density b d H)|exact (sum_of_density_one b d H)]. Qed.
Print Assumptions C106_probability_of_a_density_matrix.

(** Both averages over the equilibrium raise before their first band, for every matrix. *)
Theorem C106_equilibrium_isf_raises :
  forall eig solve m nt x y, hbasis m = Stacked [x; y] ->
    averaged_isf_occupations eig solve m = None /\ initial_state_isf_shape eig m nt = None.
Proof. intros eig solve m nt x y H. split; [exact (averaged_raises eig solve m x y H)|exact (initial_state_raises eig m nt x y H)]. Qed.
Print Assumptions C106_equilibrium_isf_raises.

(** A jump matrix cannot be recovered from any operator, which has a pair of bases, nor from
    the basis of one side (whose first axis has no parts); so no matrix can be resampled. *)
Theorem C106_jump_matrix_raises :
  (forall m x y, hbasis m = Stacked [x; y] -> get_jump_matrix_from_a_matrix m = None) /\
  (forall m n0 n1 bd, hbasis m = Stacked [Axis n0; Axis n1; Bands bd] -> get_jump_matrix_from_a_matrix m = None) /\
  (forall m n0 n1 nb x y, hbasis m = Stacked [x; y] -> resample_tunnelling_a_matrix m n0 n1 nb = None).
Proof.
  split; [exact jump_raises|]. split; [|exact resample_raises].
  intros m n0 n1 bd H. apply jump_raises_flat. rewrite H. intros a E. injection E as <-. reflexivity.
Qed.
Print Assumptions C106_jump_matrix_raises.

(** The decomposition of a state into the decays of a simulation: the field called
    eigenvalues holds n x n numbers, whose rows are eigenvectors; with their eigenvalues, which
    are not returned, the coefficients rebuild the initial state and the whole simulation. *)
Theorem C106_rate_decomposition :
  forall n m b mx eig solve, (0 < n)%nat -> square n m -> rates n (op_entry m) -> rate_matrix n m b mx ->
    eig_diagonalises eig n (held_entry n mx) -> solve_ok solve ->
    forall initial, diagonal_on b initial -> exists e c (lam : nat -> C),
    get_rate_decomposition eig solve mx initial = Some (e, c) /\ ashape e = [n; n] /\ ashape c = [n] /\
    (forall k, (k < n)%nat -> (fst (lam k) < 0)%R \/ lam k = 0) /\
    (forall k i, (k < n)%nat -> (i < n)%nat -> applied n (held_entry n mx) (at2 e k) i = lam k * at2 e k i) /\
    (forall k, (k < n)%nat -> exists i, (i < n)%nat /\ at2 e k i <> 0) /\
    (forall i, (i < n)%nat -> csum (fun k => aflat c k * at2 e k i) n = aflat (hdata initial) i) /\
    forall nt times, exists out, simulation_state eig solve mx initial nt times = Some out /\
      forall s i, (s < nt)%nat -> (i < n)%nat ->
        at2 (hdata out) s i = csum (fun k => aflat c k * cexp (lam k * RtoC (times s)) * at2 e k i) n.
Proof. exact rate_decomposition. Qed.
Print Assumptions C106_rate_decomposition.
