(** Properties of the oscillator states. *)
From Coq Require Import Reals ZArith List Arith Lia Lra.
From Coquelicot Require Import Coquelicot.
From Verif Require Import ZLib Csum NumPy Lattice Oscillator SpecOscillator SpecHamiltonian OscillatorProofs OscillatorProofs2 OscillatorFacts.
Local Open Scope R_scope.

(** C69: the function that evaluates oscillator states returns, for every level, mass and
    frequency, a twice differentiable solution of the Schrodinger equation of the harmonic
    oscillator with energy [hbar omega (n + 1/2)]. *)
Theorem C69_solves_the_oscillator : forall hbar omega mass n, 0 < hbar -> 0 < mass -> 0 < omega ->
  solves_schrodinger hbar mass (fun x => mass * omega ^ 2 * x ^ 2 / 2) (hbar * omega * (INR n + 1 / 2))
    (fun x => calculate_sho_wavefunction hbar x omega mass n).
Proof. exact python_solves. Qed.
Print Assumptions C69_solves_the_oscillator.

(** The states are orthonormal over the whole line. *)
Theorem C69_orthonormal : forall hbar omega mass m n, 0 < hbar -> 0 < mass -> 0 < omega ->
  line_integral (fun x => calculate_sho_wavefunction hbar x omega mass m * calculate_sho_wavefunction hbar x omega mass n)
    (if (m =? n)%nat then 1 else 0).
Proof. exact python_orthonormal. Qed.
Print Assumptions C69_orthonormal.

(** The compiled polynomial evaluation (with wrapping 64 bit integer coefficients) is the
    Hermite polynomial up to degree 25. *)
Theorem C69_compiled_hermite_values : forall h, is_hermite h -> forall n x, (n <= 25)%nat -> hermite_val x n = h n x.
Proof. exact hermite_val_exact. Qed.
Print Assumptions C69_compiled_hermite_values.

(** The compiled states agree with the interpreted ones up to level 20. *)
Theorem C69_compiled_states_agree : forall hbar omega mass n x, 0 < hbar -> 0 < mass -> 0 < omega -> (n <= 20)%nat ->
  rust_sho_wavefunction hbar x omega mass n = calculate_sho_wavefunction hbar x omega mass n.
Proof. exact rust_python. Qed.
Print Assumptions C69_compiled_states_agree.

(** They do not at level 21: the factorial no longer fits in 64 bits and the compiled state
    has norm about 3.6 instead of one. *)
Theorem C69_compiled_states_normalised_refuted : exists n, forall hbar omega mass, 0 < hbar -> 0 < mass -> 0 < omega ->
  exists l, 3 < l /\ line_integral (fun x => rust_sho_wavefunction hbar x omega mass n * rust_sho_wavefunction hbar x omega mass n) l.
Proof.
  exists 21%nat. intros hbar omega mass H1 H2 H3. eexists. split; [|exact (rust_21 hbar omega mass H1 H2 H3)]. lra.
Qed.
Print Assumptions C69_compiled_states_normalised_refuted.

(** The coefficients themselves overflow at degree 26. *)
Theorem C69_compiled_hermite_values_refuted : forall h, is_hermite h -> exists n x, hermite_val x n <> h n x.
Proof. exact hermite_overflow. Qed.
Print Assumptions C69_compiled_hermite_values_refuted.

(** The hypotheses are met, and Hermite polynomials exist. *)
Example C69_example : is_hermite eval_hermite /\ 0 < 1 /\ (20 <= 20)%nat /\
  calculate_sho_wavefunction 1 0 1 1 0 > 0.
Proof.
  split; [exact eval_hermite_is|]. split; [lra|]. split; [lia|].
  unfold calculate_sho_wavefunction, eval_hermite. cbn. rewrite Rmult_1_r.
  apply Rlt_gt. apply Rmult_lt_0_compat; [|apply exp_pos]. apply sqrt_lt_R0.
  apply Rdiv_lt_0_compat; [apply Rdiv_lt_0_compat; [|lra]|].
  - apply sqrt_lt_R0. lra.
  - rewrite Rmult_1_l. exact sqrt_PI_pos.
Qed.

(** C70: the discretised oscillator is centred on minus the configured origin: the distance of
    a grid point is the projection onto the axis of its position plus the origin. *)
Theorem C70_distance_is_projection : forall nd delta origin n, 0 < norm nd delta -> forall i,
  calculate_x_distances nd delta n origin i * norm nd delta = dot nd delta (fun c => delta c / INR n * INR i + origin c).
Proof. exact distance_projection. Qed.
Print Assumptions C70_distance_is_projection.

(** Hence the oscillator potential vanishes exactly at the grid points which project onto
    minus the origin, and is not negative elsewhere. *)
Theorem C70_potential_minimum : forall mass omega nd delta n origin i, 0 < norm nd delta -> 0 < mass -> 0 < omega ->
  sho_config_potential omega mass nd delta n origin i >= 0 /\
  (sho_config_potential omega mass nd delta n origin i = 0 <-> dot nd delta (fun c => delta c / INR n * INR i + origin c) = 0).
Proof. exact config_potential_zero. Qed.
Print Assumptions C70_potential_minimum.

(** The potential is half of the mass times the squared frequency times the squared
    projection. *)
Theorem C70_potential_value : forall mass omega nd delta n origin i, 0 < norm nd delta ->
  2 * sho_config_potential omega mass nd delta n origin i
  = mass * omega ^ 2 * (dot nd delta (fun c => delta c / INR n * INR i + origin c) / norm nd delta) ^ 2.
Proof. exact config_potential_value. Qed.
Print Assumptions C70_potential_value.

(** Contrary to its description the distance at the origin itself need not be zero. *)
Theorem C70_zero_at_origin_refuted : exists nd delta origin n i, 0 < norm nd delta /\ (i < n)%nat /\
  (forall c, delta c / INR n * INR i = origin c) /\ calculate_x_distances nd delta n origin i <> 0.
Proof.
  exists 1%nat, (fun _ => 2), (fun _ => 1), 2%nat, 1%nat.
  assert (Hn : norm 1 (fun _ => 2) = 2) by (unfold norm; cbn; rewrite Rplus_0_l; apply sqrt_square; lra).
  split; [rewrite Hn; lra|]. split; [lia|]. split; [intros c; cbn; lra|].
  rewrite distance_linear by (rewrite Hn; lra). rewrite Hn. unfold dot. cbn. lra.
Qed.
Print Assumptions C70_zero_at_origin_refuted.

(** The squared components of the discretised states are the probability density at the
    distance of the point times the spacing of the grid. *)
Theorem C70_components_are_densities : forall hbar omega mass nd delta n origin j i, 0 < norm nd delta -> (0 < n)%nat ->
  infinite_sho_vector hbar omega mass nd delta n origin j i ^ 2
  = calculate_sho_wavefunction hbar (norm nd delta * INR i / INR n + dot nd delta origin / norm nd delta) omega mass j ^ 2 * (norm nd delta / INR n).
Proof. exact infinite_vector_density. Qed.
Print Assumptions C70_components_are_densities.

Example C70_example : 0 < norm 3 (fun c => INR c + 1) /\ (0 < 4)%nat.
Proof. split; [|lia]. unfold norm. apply sqrt_lt_R0. cbn. lra. Qed.
