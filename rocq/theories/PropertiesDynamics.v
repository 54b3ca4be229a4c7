(** Properties of the dynamics: rate matrices (C37, C38), Schrodinger evolution (C39), the
    Fey scattering functions (C40), banded operators (C41), tunnelling simulations and their
    equilibrium (C66), collapse operators (C67) and scattering from localised sites (C68). *)
From Coq Require Import Reals Psatz.
From Coquelicot Require Import Coquelicot.
From Verif Require Import ZLib Csum DFT NumPy Basis SpecBasis Operator SpecOperator SpecReal SpecLocalize Spectral3 SpecHamiltonian
  Dynamics SpecDynamics DynamicsProofs DynamicsProofs3 DynamicsProofs4 DynamicsProofs5 DynamicsProofs6 DynamicsProofs7 DynamicsProofs8 DynamicsFacts.
Local Open Scope R_scope.
Local Open Scope C_scope.

(** Two sites: rate 1 from the first to the second, 2 back; the diagonal (7, 9) is ignored. *)
Example ex_two_sites :
  square 2 two_rates /\ rates 2 (op_entry two_rates) /\ connected 2 (op_entry two_rates) /\
  (forall M A', get_tunnelling_m_matrix two_rates = Some (M, A') -> eig_diagonalises two_eig 2 (op_entry M)) /\
  (exists M A', get_tunnelling_m_matrix two_rates = Some (M, A')) /\ exists solve, solve_ok solve.
Proof.
  split; [exact two_square|]. split; [exact two_rates_ok|]. split; [exact two_connected|]. split; [exact two_diagonalised|].
  split; [|exact solve_exists]. destruct (m_matrix_spec two_rates 2 two_square) as [M [A' [E _]]]. exists M, A'. exact E.
Qed.

(** ** C37 *)

(** The matrix of the rate equation: off the diagonal the rate from the column to the row,
    on the diagonal minus the total rate of leaving the site; the diagonal of the given
    matrix does not matter (and is overwritten with zeros in the caller's array). *)
Theorem C37_rate_equation_matrix :
  forall n m, square n m ->
    exists M A', get_tunnelling_m_matrix m = Some (M, A') /\ square n M /\ orow M = orow m /\ ocol M = ocol m /\
      (forall i j, (i < n)%nat -> (j < n)%nat -> i <> j -> op_entry M i j = op_entry m j i) /\
      (forall i, (i < n)%nat -> op_entry M i i = - outgoing n (op_entry m) i) /\
      forall i j, (i < n)%nat -> (j < n)%nat -> op_entry A' i j = if Nat.eqb i j then 0 else op_entry m i j.
Proof.
  intros n m H. destruct (m_matrix_spec m n H) as [M [A' [E1 [E2 [E3 [E4 [E5 [E6 [_ [_ [_ E7]]]]]]]]]]]. exists M, A'. tauto.
Qed.
Print Assumptions C37_rate_equation_matrix.

(** Probability is conserved: every column sums to zero. *)
Theorem C37_columns_sum_to_zero :
  forall n m M A', square n m -> get_tunnelling_m_matrix m = Some (M, A') ->
    forall j, (j < n)%nat -> csum (fun i => op_entry M i j) n = 0.
Proof. exact m_matrix_columns. Qed.
Print Assumptions C37_columns_sum_to_zero.

(** For real non-negative rates every eigenvalue is zero or has negative real part. *)
Theorem C37_eigenvalues_decay :
  forall n m M A', square n m -> rates n (op_entry m) -> get_tunnelling_m_matrix m = Some (M, A') ->
    forall lam v, (forall i, (i < n)%nat -> applied n (op_entry M) v i = lam * v i) ->
      (exists i, (i < n)%nat /\ v i <> 0) -> (fst lam < 0)%R \/ lam = 0.
Proof. exact m_matrix_eigenvalues. Qed.
Print Assumptions C37_eigenvalues_decay.

(** ** C38 *)
Example ex_lattice : (3 <= 3)%nat /\ (3 <= 4)%nat /\
  nprod (ashape (get_jump_matrix_from_function 2 (fun b0 b1 hop => RtoC (INR (b0 + 2 * b1 + hop))))) = (2 * 2 * 9)%nat.
Proof. repeat split; lia. Qed.

(** On any lattice: the entry between two sites is the sum of the rates of all hops that
    lead from the one to the other with periodic ends. *)
Theorem C38_entries_sum_the_hops :
  forall nb jump n0 n1, nprod (ashape jump) = (nb * nb * 9)%nat ->
    exists A, get_a_matrix_from_jump_matrix nb jump n0 n1 (Some nb) = Some A /\ square (n0 * n1 * nb) A /\
    forall x0 x1 b0 y0 y1 b1, (x0 < n0)%nat -> (x1 < n1)%nat -> (b0 < nb)%nat -> (y0 < n0)%nat -> (y1 < n1)%nat -> (b1 < nb)%nat ->
      op_entry A (site n1 nb x0 x1 b0) (site n1 nb y0 y1 b1) =
      csum (fun hop => if hops_to n0 n1 hop x0 x1 y0 y1 then aflat jump ((b0 * nb + b1) * 9 + hop)%nat else 0) 9.
Proof. exact a_matrix_spec. Qed.
Print Assumptions C38_entries_sum_the_hops.

(** With at least three cells along both axes no two hops coincide: the entry from a site
    to its neighbour is the rate given for that hop, and sites that are no neighbours have
    rate zero. *)
Theorem C38_rates_of_the_function :
  forall nb n0 n1 f, (3 <= n0)%nat -> (3 <= n1)%nat ->
    exists A, get_a_matrix_from_jump_matrix nb (get_jump_matrix_from_function nb f) n0 n1 (Some nb) = Some A /\ square (n0 * n1 * nb) A /\
    (forall x0 x1 b0 hop b1, (x0 < n0)%nat -> (x1 < n1)%nat -> (b0 < nb)%nat -> (hop < 9)%nat -> (b1 < nb)%nat ->
       op_entry A (site n1 nb x0 x1 b0) (site n1 nb (moved_by n0 x0 (hop_step (hop / 3))) (moved_by n1 x1 (hop_step (hop mod 3))) b1) = f b0 b1 hop) /\
    (forall x0 x1 b0 y0 y1 b1, (x0 < n0)%nat -> (x1 < n1)%nat -> (b0 < nb)%nat -> (y0 < n0)%nat -> (y1 < n1)%nat -> (b1 < nb)%nat ->
       (forall hop, (hop < 9)%nat -> hops_to n0 n1 hop x0 x1 y0 y1 = false) -> op_entry A (site n1 nb x0 x1 b0) (site n1 nb y0 y1 b1) = 0).
Proof. exact a_matrix_facts. Qed.
Print Assumptions C38_rates_of_the_function.

(** Translating both sites changes nothing. *)
Theorem C38_translation_invariant :
  forall nb jump n0 n1 A, nprod (ashape jump) = (nb * nb * 9)%nat ->
    get_a_matrix_from_jump_matrix nb jump n0 n1 (Some nb) = Some A ->
    forall x0 x1 b0 y0 y1 b1 d0 d1, (x0 < n0)%nat -> (x1 < n1)%nat -> (b0 < nb)%nat -> (y0 < n0)%nat -> (y1 < n1)%nat -> (b1 < nb)%nat ->
      op_entry A (site n1 nb (moved_by n0 x0 d0) (moved_by n1 x1 d1) b0) (site n1 nb (moved_by n0 y0 d0) (moved_by n1 y1 d1) b1) =
      op_entry A (site n1 nb x0 x1 b0) (site n1 nb y0 y1 b1).
Proof. exact a_matrix_translated. Qed.
Print Assumptions C38_translation_invariant.

(** The total rate from a site into band [b1], and from band [b0] into a site, is the sum
    of the nine rates, on lattices of any size. *)
Theorem C38_total_rates :
  forall nb jump n0 n1 A, nprod (ashape jump) = (nb * nb * 9)%nat ->
    get_a_matrix_from_jump_matrix nb jump n0 n1 (Some nb) = Some A ->
    forall x0 x1 b0 b1, (x0 < n0)%nat -> (x1 < n1)%nat -> (b0 < nb)%nat -> (b1 < nb)%nat ->
      csum (fun y0 => csum (fun y1 => op_entry A (site n1 nb x0 x1 b0) (site n1 nb y0 y1 b1)) n1) n0 =
        csum (fun hop => aflat jump ((b0 * nb + b1) * 9 + hop)%nat) 9 /\
      csum (fun y0 => csum (fun y1 => op_entry A (site n1 nb y0 y1 b0) (site n1 nb x0 x1 b1)) n1) n0 =
        csum (fun hop => aflat jump ((b0 * nb + b1) * 9 + hop)%nat) 9.
Proof. exact a_matrix_totals. Qed.
Print Assumptions C38_total_rates.

(** The number of bands has to be given and has to be that of the jump matrix; the default
    only works for a single band. *)
Theorem C38_number_of_bands :
  forall nb jump n0 n1 kk, (0 < nb)%nat -> nprod (ashape jump) = (nb * nb * 9)%nat ->
    (exists A, get_a_matrix_from_jump_matrix nb jump n0 n1 kk = Some A) <->
    (match kk with None => (nb * nb)%nat | Some k => k end = nb).
Proof. exact a_matrix_defined. Qed.
Print Assumptions C38_number_of_bands.

(** ** C39 *)
Example ex_two_level : square 2 two_level /\ hermitian 2 (op_entry two_level) /\ exists eigh, eigh_ok eigh.
Proof. split; [exact two_level_square|]. split; [exact two_level_hermitian|]. exact eigh_exists. Qed.

(** Row s of the result is the state at time s of an evolution that starts from the given
    state, conserves all inner products, composes, is linear and satisfies the Schrodinger
    equation of the given Hamiltonian. *)
Theorem C39_schrodinger_evolution :
  forall eigh n h hbar, eigh_ok eigh -> (0 < n)%nat -> square n h -> hermitian n (op_entry h) -> hbar <> 0%R ->
    exists U : (nat -> C) -> R -> nat -> C,
      (forall psi nt times, exists out, solve_schrodinger_equation_decomposition eigh hbar psi nt times h = Some out /\
         ashape out = [nt; n] /\ forall s x, (s < nt)%nat -> (x < n)%nat -> at2 out s x = U psi (times s) x) /\
      (forall psi x, (x < n)%nat -> U psi 0%R x = psi x) /\
      (forall phi psi t, inner_product n (U phi t) (U psi t) = inner_product n phi psi) /\
      (forall psi t s x, U (U psi t) s x = U psi (t + s)%R x) /\
      (forall a b phi psi t x, U (fun y => a * phi y + b * psi y) t x = a * U phi t x + b * U psi t x) /\
      (forall psi t x, (x < n)%nat -> exists d, cderivative (fun s => U psi s x) t d /\
         Ci * RtoC hbar * d = applied n (op_entry h) (U psi t) x).
Proof. exact schrodinger_spec. Qed.
Print Assumptions C39_schrodinger_evolution.

(** The same for a Hamiltonian given as a diagonal operator with real entries: the state is
    first converted into its basis. *)
Theorem C39_diagonal_hamiltonian :
  forall same hbar b0 b1 F (E : nat -> R), convert same b0 b1 = Some F -> hbar <> 0%R ->
    exists U : (nat -> C) -> R -> nat -> C,
      (forall psi nt times, exists out, solve_schrodinger_equation_diagonal same hbar b0 psi nt times b1 (fun k => RtoC (E k)) = Some out /\
         ashape out = [nt; bsize b1] /\ forall s k, (s < nt)%nat -> (k < bsize b1)%nat -> at2 out s k = U (F psi) (times s) k) /\
      (forall phi k, (k < bsize b1)%nat -> U phi 0%R k = phi k) /\
      (forall phi psi t, inner_product (bsize b1) (U phi t) (U psi t) = inner_product (bsize b1) phi psi) /\
      (forall psi t s k, U (U psi t) s k = U psi (t + s)%R k) /\
      (forall psi t k, (k < bsize b1)%nat -> exists d, cderivative (fun s => U psi s k) t d /\
         Ci * RtoC hbar * d = RtoC (E k) * U psi t k).
Proof. exact schrodinger_diagonal_spec. Qed.
Print Assumptions C39_diagonal_hamiltonian.

(** ** C40 *)

(** Along 112bar the scattering function of the two-site model is returned for all positive
    rates, momenta and times: it is one at t = 0, positive, never increases and stays one
    without momentum transfer. *)
Theorem C40_fey_112bar :
  forall slow fast a, (0 < slow)%R -> (0 < fast)%R ->
    exists f, (forall t, calculate_isf_fey_model_112bar t fast slow a = Some (f t)) /\
      scattering_function slow fast (phases_112bar a) f /\ f 0%R = 1%R /\ (forall t, (0 < f t)%R) /\
      (forall s t, (s <= t)%R -> (f t <= f s)%R) /\ (a = 0%R -> forall t, f t = 1%R).
Proof. exact fey_112_some. Qed.
Print Assumptions C40_fey_112bar.

(** The same along 110 away from cos(a dk / 2) = -1/2, where the three phases cancel. *)
Theorem C40_fey_110 :
  forall slow fast a, (0 < slow)%R -> (0 < fast)%R -> cos (a / 2) <> (- / 2)%R ->
    exists f, (forall t, calculate_isf_fey_model_110 t fast slow a = Some (f t)) /\
      scattering_function slow fast (phases_110 a) f /\ f 0%R = 1%R /\ (forall t, (0 < f t)%R) /\
      (forall s t, (s <= t)%R -> (f t <= f s)%R) /\ (a = 0%R -> forall t, f t = 1%R).
Proof. exact fey_110_some. Qed.
Print Assumptions C40_fey_110.

(** There a division by zero occurs, for all rates and times. *)
Theorem C40_fey_110_singular :
  forall slow fast a t, (0 < slow)%R -> (0 < fast)%R -> cos (a / 2) = (- / 2)%R ->
    calculate_isf_fey_model_110 t fast slow a = None.
Proof. exact fey_110_none. Qed.
Print Assumptions C40_fey_110_singular.
Example ex_fey : (cos (0 / 2) <> - / 2)%R /\ (cos (4 * PI / 3 / 2) = - / 2)%R.
Proof.
  split.
  - unfold Rdiv. rewrite Rmult_0_l, cos_0. lra.
  - replace (4 * PI / 3 / 2)%R with (PI - PI / 3)%R by field. rewrite cos_minus, cos_PI, sin_PI, cos_PI3. field.
Qed.

(** ** C41 *)

(** Row i of the diagonals holds element (c + i mod n, c) at position c; together they are
    the matrix. *)
Theorem C41_diagonals_rebuild :
  forall n a, length (get_operator_diagonals n a) = n /\
    (forall i, (i < n)%nat -> length (nth i (get_operator_diagonals n a) []) = n /\
       forall c, (c < n)%nat -> nth c (nth i (get_operator_diagonals n a) []) 0 = a ((c + i) mod n)%nat c) /\
    forall r c, (r < n)%nat -> (c < n)%nat -> from_bands n (get_operator_diagonals n a, seq 0 n) r c = a r c.
Proof. intros n a. split; [apply diagonals_length|]. split; [apply diagonal_row|apply diagonals_rebuild]. Qed.
Print Assumptions C41_diagonals_rebuild.

(** Dropping the diagonals below the threshold and cleaning the values changes the real and
    the imaginary part of every element by at most the threshold. *)
Theorem C41_banded_operator_error :
  forall n a thr, (0 <= thr)%R ->
    forall r c, (r < n)%nat -> (c < n)%nat ->
      (Rabs (fst (from_bands n (get_banded_operator n a thr) r c) - fst (a r c)) <= thr)%R /\
      (Rabs (snd (from_bands n (get_banded_operator n a thr) r c) - snd (a r c)) <= thr)%R.
Proof. intros n a thr H r c. exact (banded_error n a thr r c H). Qed.
Print Assumptions C41_banded_operator_error.

(** The offsets are increasing and below n, one for every kept diagonal of length n. *)
Theorem C41_banded_offsets :
  forall n a thr, let b := get_banded_operator n a thr in
    (forall p q, (p < q)%nat -> (q < length (snd b))%nat -> (nth p (snd b) 0 < nth q (snd b) 0)%nat) /\
    Forall (fun i => (i < n)%nat) (snd b) /\ length (fst b) = length (snd b) /\ Forall (fun l => length l = n) (fst b).
Proof. exact banded_offsets. Qed.
Print Assumptions C41_banded_offsets.

(** The modulus can change by more than the threshold: an element above it is lost even
    though its diagonal is kept. *)
Theorem C41_modulus_refuted :
  exists (n : nat) (a : nat -> nat -> C) (thr : R), (0 < thr)%R /\
    from_bands n (get_banded_operator n a thr) 0 0 = 0 /\ (thr < Cmod (a 0%nat 0%nat))%R /\
    (exists k, (k < n)%nat /\ (thr < list_norm (nth k (get_operator_diagonals n a) []))%R).
Proof. exact banded_lost. Qed.
Print Assumptions C41_modulus_refuted.

(** ** C66 *)

(** A simulation of the rate equation returns, at all requested times, the solution with the
    given initial state; it conserves the total and maps distributions to distributions. *)
Theorem C66_simulation_solves_rate_equation :
  forall eig solve n m M A', (0 < n)%nat -> square n m -> rates n (op_entry m) ->
    get_tunnelling_m_matrix m = Some (M, A') -> eig_diagonalises eig n (op_entry M) -> solve_ok solve ->
    forall p0, exists p : R -> nat -> C,
      (forall nt times, exists out, calculate_tunnelling_simulation_state eig solve M p0 nt times = Some out /\
         ashape out = [nt; n] /\ forall s i, (s < nt)%nat -> (i < n)%nat -> at2 out s i = p (times s) i) /\
      (forall i, (i < n)%nat -> p 0%R i = p0 i) /\
      (forall t i, (i < n)%nat -> cderivative (fun s => p s i) t (applied n (op_entry M) (p t) i)) /\
      (forall t, csum (p t) n = csum p0 n) /\
      (distribution n p0 -> forall t, (0 <= t)%R -> distribution n (p t)).
Proof. exact simulation_facts. Qed.
Print Assumptions C66_simulation_solves_rate_equation.

(** When every site can be reached from every other, the equilibrium state is a positive
    distribution, the only stationary state of total one, and the limit of every simulation
    that starts from total one. *)
Theorem C66_equilibrium :
  forall eig solve n m M A', (0 < n)%nat -> square n m -> rates n (op_entry m) ->
    get_tunnelling_m_matrix m = Some (M, A') -> eig_diagonalises eig n (op_entry M) -> solve_ok solve ->
    connected n (op_entry m) ->
    exists q, calculate_equilibrium_state eig solve M = Some q /\ distribution n q /\
      (forall i, (i < n)%nat -> (0 < fst (q i))%R) /\
      (forall i, (i < n)%nat -> applied n (op_entry M) q i = 0) /\
      (forall q', csum q' n = 1 -> (forall i, (i < n)%nat -> applied n (op_entry M) q' i = 0) -> forall i, (i < n)%nat -> q' i = q i) /\
      (forall p0 p, csum p0 n = 1 ->
         (forall times : nat -> R, exists out, calculate_tunnelling_simulation_state eig solve M p0 1 times = Some out /\
            forall i, (i < n)%nat -> at2 out 0 i = p (times 0%nat) i) -> tends_to n p q).
Proof. exact equilibrium_facts. Qed.
Print Assumptions C66_equilibrium.

(** ** C67 *)

(** Collapse operators from a rate matrix: the populations jump from j to i at the square of
    the rate given for i to j. *)
Theorem C67_collapse_rates :
  forall n a i j, (i < n)%nat -> (j < n)%nat -> i <> j -> snd (a i j) = 0%R ->
    jump_rate (get_collapse_operators_from_a_matrix n a) i j = (fst (a i j) * fst (a i j))%R.
Proof. exact collapse_rates. Qed.
Print Assumptions C67_collapse_rates.

(** So the rates of the master equation are not those of the matrix. *)
Theorem C67_collapse_rates_refuted :
  exists n a i j, (i < n)%nat /\ (j < n)%nat /\ i <> j /\ rates n a /\
    jump_rate (get_collapse_operators_from_a_matrix n a) j i <> fst (a i j) /\
    jump_rate (get_collapse_operators_from_a_matrix n a) i j <> fst (a i j).
Proof. exact collapse_rates_wrong. Qed.
Print Assumptions C67_collapse_rates_refuted.

(** The matrices of C38 are translation invariant. *)
Example ex_invariant_matrix : exists m, square (3 * 4 * 2) m /\
  forall x0 x1 b0 y0 y1 b1 d0 d1, (x0 < 3)%nat -> (x1 < 4)%nat -> (b0 < 2)%nat -> (y0 < 3)%nat -> (y1 < 4)%nat -> (b1 < 2)%nat ->
    op_entry m (site 4 2 (moved_by 3 x0 d0) (moved_by 4 x1 d1) b0) (site 4 2 (moved_by 3 y0 d0) (moved_by 4 y1 d1) b1) =
    op_entry m (site 4 2 x0 x1 b0) (site 4 2 y0 y1 b1).
Proof.
  destruct (a_matrix_spec 2 (get_jump_matrix_from_function 2 (fun b0 b1 hop => RtoC (INR (b0 + 2 * b1 + hop)))) 3 4 eq_refl) as [A [E1 [E2 _]]].
  exists A. split; [exact E2|]. apply (a_matrix_translated 2 (get_jump_matrix_from_function 2 (fun b0 b1 hop => RtoC (INR (b0 + 2 * b1 + hop)))) 3 4 A eq_refl E1).
Qed.

(** The simplified operators: for a translation invariant matrix on a lattice of at least
    three cells per axis, the populations jump to a neighbour in another band at
    factor * rate when that is at least one, and not at all otherwise. *)
Theorem C67_simplified_collapse_rates :
  forall n0 n1 nb m factor, (3 <= n0)%nat -> (3 <= n1)%nat -> square (n0 * n1 * nb) m ->
    (forall x0 x1 b0 y0 y1 b1 d0 d1, (x0 < n0)%nat -> (x1 < n1)%nat -> (b0 < nb)%nat -> (y0 < n0)%nat -> (y1 < n1)%nat -> (b1 < nb)%nat ->
       op_entry m (site n1 nb (moved_by n0 x0 d0) (moved_by n1 x1 d1) b0) (site n1 nb (moved_by n0 y0 d0) (moved_by n1 y1 d1) b1) =
       op_entry m (site n1 nb x0 x1 b0) (site n1 nb y0 y1 b1)) ->
    exists ops, get_simplified_collapse_operators n0 n1 nb (odata m) factor = Some ops /\
    forall x0 x1 b0 hop b1, (x0 < n0)%nat -> (x1 < n1)%nat -> (b0 < nb)%nat -> (hop < 9)%nat -> (b1 < nb)%nat ->
      let y0 := moved_by n0 x0 (hop_step (hop / 3)) in let y1 := moved_by n1 x1 (hop_step (hop mod 3)) in
      let rate := (factor * fst (op_entry m (site n1 nb x0 x1 b0) (site n1 nb y0 y1 b1)))%R in
      (b0 <> b1 -> (1 <= rate)%R -> jump_rate ops (site n1 nb y0 y1 b1) (site n1 nb x0 x1 b0) = rate) /\
      (b0 = b1 \/ (rate < 1)%R -> jump_rate ops (site n1 nb y0 y1 b1) (site n1 nb x0 x1 b0) = 0%R).
Proof. exact simplified_rates. Qed.
Print Assumptions C67_simplified_collapse_rates.

(** ** C68 *)
Example ex_scattering :
  is_inverse 2 (fun a c => band_cell skew_bands a c * INR (nth a [2%nat; 3%nat] 0%nat))%R skew_super_inv /\
  forall a, (a < 2)%nat -> exists z : Z,
    rsum (fun c => skew_dk c * (band_cell skew_bands a c * INR (nth a [2%nat; 3%nat] 0%nat)))%R 2 = (2 * PI * IZR z)%R.
Proof. split; [exact skew_super_inverse|exact skew_reciprocal]. Qed.

(** For a momentum reciprocal to the supercell the scattering function is the average phase
    of the displacement from the mean initial position, over all sites and bands. *)
Theorem C68_scattering_average :
  forall b n0 n1 inv initial final dk isf s,
    let L a c := (band_cell b a c * INR (nth a [n0; n1] 0%nat))%R in
    is_inverse 2 L inv ->
    (forall a, (a < 2)%nat -> exists z : Z, rsum (fun c => dk c * L a c)%R 2 = (2 * PI * IZR z)%R) ->
    calculate_isf_approximate_locations b n0 n1 inv initial final dk = Some isf ->
    let nb := band_count b in
    let mean c := (rsum (fun x0 => rsum (fun x1 => rsum (fun k => band_position b x0 x1 k c * initial (site n1 nb x0 x1 k)) nb) n1) n0 /
                   rsum initial (n0 * n1 * nb))%R in
    isf s = csum (fun x0 => csum (fun x1 => csum (fun k =>
      RtoC (final s (site n1 nb x0 x1 k)) *
      cis (rsum (fun c => dk c * (band_position b x0 x1 k c - mean c))%R 2)) nb) n1) n0.
Proof. exact isf_position. Qed.
Print Assumptions C68_scattering_average.

(** For any momentum: bounded by one for a distribution, and the total without momentum
    transfer; it is not defined exactly when the initial occupations sum to zero. *)
Theorem C68_scattering_bounds :
  forall b n0 n1 inv initial final dk,
    let n := (n0 * n1 * band_count b)%nat in
    (calculate_isf_approximate_locations b n0 n1 inv initial final dk = None <-> rsum initial n = 0%R) /\
    forall isf s, calculate_isf_approximate_locations b n0 n1 inv initial final dk = Some isf ->
      ((forall x, (x < n)%nat -> (0 <= final s x)%R) -> rsum (final s) n = 1%R -> (Cmod (isf s) <= 1)%R) /\
      (dk 0%nat = 0%R -> dk 1%nat = 0%R -> isf s = RtoC (rsum (final s) n)).
Proof. exact isf_bounds. Qed.
Print Assumptions C68_scattering_bounds.
