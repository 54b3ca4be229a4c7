(** C120: occupations of eigenstates and bands. *)
From Coq Require Import Reals Lra Lia Psatz.
From Verif Require Import ZLib Csum DFT NumPy Index Basis Operator TimeBasis SpecMatrix SpecKernel KernelFacts Dynamics Plots SpecPlots ValuePlots EffectiveMass Occupation SpecOccupation
  OccupationProofs OccupationProofs2 OccupationProofs3 OccupationFacts.
Local Open Scope R_scope.

(** The thermal line: energies above the lowest in ascending order, positive occupations with sum one
    whose ratios are Boltzmann factors.  The eigenvalues of the caller are shifted. *)
Theorem C120_thermal_occupations : forall (argsort : (nat -> R) -> nat -> nat -> nat) (n : nat) (energy : nat -> R) (kT ground : R),
  is_argsort argsort -> (0 < n)%nat -> kT <> 0 -> lowest n energy ground ->
  exists line after, plot_eigenstate_occupations argsort n energy kT = Some (line, after) /\
    length line = n /\ line_x line 0 = 0 /\
    (forall a b, (a <= b < n)%nat -> line_x line a <= line_x line b) /\
    (forall a, (a < n)%nat -> 0 < line_y line a) /\ rsum (line_y line) n = 1 /\
    (forall a b, (a < n)%nat -> (b < n)%nat -> line_y line b = line_y line a * exp (- (line_x line b - line_x line a) / kT)) /\
    (forall i, (i < n)%nat -> exists a, (a < n)%nat /\ line_x line a = energy i - ground) /\
    (forall i, after i = energy i - ground).
Proof. exact thermal_occupations. Qed.
Print Assumptions C120_thermal_occupations.

Theorem C120_thermal_raises : forall (argsort : (nat -> R) -> nat -> nat -> nat) (n : nat) (energy : nat -> R) (kT : R),
  (n = 0%nat \/ kT = 0) -> plot_eigenstate_occupations argsort n energy kT = None.
Proof. exact thermal_raises. Qed.
Print Assumptions C120_thermal_raises.

(** Neither a shift of all energies nor a second call changes the line. *)
Theorem C120_thermal_shift : forall (argsort : (nat -> R) -> nat -> nat -> nat) (n : nat) (energy : nat -> R) (kT c : R),
  plot_eigenstate_occupations argsort n (fun i => energy i + c) kT = plot_eigenstate_occupations argsort n energy kT.
Proof. exact thermal_shift. Qed.
Print Assumptions C120_thermal_shift.

Theorem C120_thermal_again : forall (argsort : (nat -> R) -> nat -> nat -> nat) (n : nat) (energy : nat -> R) (kT : R) (line : list (R * R)) (after : nat -> R),
  plot_eigenstate_occupations argsort n energy kT = Some (line, after) -> plot_eigenstate_occupations argsort n after kT = Some (line, after).
Proof. exact thermal_again. Qed.
Print Assumptions C120_thermal_again.

(** Drawing changes the eigenvalues: 1 and 2 are 0 and 1 afterwards. *)
Theorem C120_caller_unchanged_refuted : exists line after, plot_eigenstate_occupations some_argsort 2 (fun i => INR (i + 1)) 1 = Some (line, after) /\
  after 0%nat = 0 /\ after 1%nat = 1.
Proof. exact caller_changed. Qed.
Print Assumptions C120_caller_unchanged_refuted.

(** Eigenvalues are drawn in the order of their moduli, whatever the measure. *)
Theorem C120_eigenvalues_sorted : forall (argsort : (nat -> R) -> nat -> nat -> nat) (n : nat) (eigenvalue : nat -> C) (m : plot_measure), is_argsort argsort ->
  exists order : nat -> nat,
    (forall a, (a < n)%nat -> (order a < n)%nat) /\ (forall a b, (a < n)%nat -> (b < n)%nat -> order a = order b -> a = b) /\
    (forall a b, (a <= b < n)%nat -> Cmod (eigenvalue (order a)) <= Cmod (eigenvalue (order b))) /\
    length (plot_eigenvalues argsort n eigenvalue m) = n /\
    forall a, (a < n)%nat -> shows m (eigenvalue (order a)) (nth a (plot_eigenvalues argsort n eigenvalue m) 0).
Proof. exact eigenvalues_sorted. Qed.
Print Assumptions C120_eigenvalues_sorted.

(** A Hamiltonian with two eigenstates, (1, 1) and (1, -1). *)
Definition C120_states (i j : nat) : C := RtoC (if ((i =? 1) && (j =? 1))%nat then - sqrt (1 / 2) else sqrt (1 / 2)).
Example C120_states_case : unitary 2 C120_states /\ lowest 2 (fun j => if (j =? 0)%nat then 3 else 1) 1.
Proof.
  assert (Q : sqrt (1 / 2) * sqrt (1 / 2) = 1 / 2) by (apply sqrt_sqrt; lra).
  split; [split|].
  - intros [|[|i]] [|[|j]] Hi Hj; try lia; unfold cdelta; cbn -[sqrt]; apply injective_projections; cbn -[sqrt]; nra.
  - intros [|[|i]] [|[|j]] Hi Hj; try lia; unfold cdelta; cbn -[sqrt]; apply injective_projections; cbn -[sqrt]; nra.
  - split; [intros [|[|j]] Hj; try lia; cbn; lra|]. exists 1%nat. split; [lia|reflexivity].
Qed.

(** States against the eigenstates of a Hamiltonian A: the sum of the line is the norm, and its
    first moment the mean energy above the lowest. *)
Theorem C120_state_occupations : forall (n ns : nat) (A : nat -> nat -> C) (E : nat -> R) (V : nat -> nat -> C) (state : nat -> nat -> C) (ground : R),
  unitary n V -> (forall i j, (i < n)%nat -> (j < n)%nat -> A i j = csum (fun k => V i k * RtoC (E k) * Cconj (V j k))%C n) ->
  (0 < n)%nat -> lowest n E ground -> (0 < ns)%nat ->
  exists lines, plot_all_eigenstate_occupations n ns E V state = Some lines /\ length lines = ns /\
    forall i, (i < ns)%nat -> exists line, nth_error lines i = Some line /\ length line = n /\
      (forall j, (j < n)%nat -> line_x line j = E j - ground /\ line_y line j = Cmod (csum (fun k => Cconj (V k j) * state i k)%C n) ^ 2) /\
      rsum (line_y line) n = rsum (fun k => Cnorm2 (state i k)) n /\
      rsum (fun j => line_x line j * line_y line j) n = fst (expectation_of n A (state i)) - ground * rsum (fun k => Cnorm2 (state i k)) n.
Proof. exact all_occupations. Qed.
Print Assumptions C120_state_occupations.

Theorem C120_average_occupations : forall (n ns : nat) (E : nat -> R) (V : nat -> nat -> C) (state : nat -> nat -> C) (ground : R),
  unitary n V -> (0 < n)%nat -> lowest n E ground -> (0 < ns)%nat ->
  exists line, plot_average_eigenstate_occupation n ns E V state = Some line /\ length line = n /\
    (forall j, (j < n)%nat -> line_x line j = E j - ground /\
       line_y line j = rsum (fun i => Cmod (csum (fun k => Cconj (V k j) * state i k)%C n) ^ 2) ns / INR ns) /\
    rsum (line_y line) n = rsum (fun i => rsum (fun k => Cnorm2 (state i k)) n) ns / INR ns.
Proof. exact average_occupations. Qed.
Print Assumptions C120_average_occupations.

(** Nothing is drawn, and the call raises, exactly for no states or no eigenstates. *)
Theorem C120_nothing_drawn : forall (n ns : nat) (E : nat -> R) (V : nat -> nat -> C) (state : nat -> nat -> C),
  (plot_all_eigenstate_occupations n ns E V state = None <-> n = 0%nat \/ ns = 0%nat) /\
  (plot_average_eigenstate_occupation n ns E V state = None <-> n = 0%nat \/ ns = 0%nat).
Proof. exact nothing_drawn. Qed.
Print Assumptions C120_nothing_drawn.

(** Thermal occupations of bands, drawn against the band or against its mean energy. *)
Theorem C120_thermal_bands : forall (nb ns : nat) (kT : R) (energy : nat -> R) (m : plot_measure), (0 < nb)%nat -> (0 < ns)%nat -> kT <> 0 ->
  exists p line line', plot_occupation_against_band nb ns kT energy m = Some line /\ plot_occupation_against_band_average_energy nb ns kT energy m = Some line' /\
    length line = nb /\ length line' = nb /\ rsum p nb = 1 /\
    (forall b, (b < nb)%nat -> 0 < p b /\ p b * rsum (fun t => exp (- energy t / kT)) (nb * ns) = rsum (fun s => exp (- energy (b * ns + s)%nat / kT)) ns /\
       line_x line b = INR b /\ shows m (RtoC (p b)) (line_y line b) /\
       line_x line' b = rsum (fun s => energy (b * ns + s)%nat) ns / INR ns /\ shows m (RtoC (p b)) (line_y line' b)).
Proof. exact thermal_bands. Qed.
Print Assumptions C120_thermal_bands.

Theorem C120_lower_bands_fuller : forall (nb ns : nat) (kT : R) (energy : nat -> R) (f : nat -> option R) (p : R) (b b' : nat), (0 < ns)%nat -> 0 < kT ->
  get_wavepacket_band_occupation nb ns kT energy = Some f -> (b < nb)%nat -> (b' < nb)%nat -> f b = Some p ->
  (forall s, (s < ns)%nat -> energy (b * ns + s)%nat <= energy (b' * ns + s)%nat) -> exists p', f b' = Some p' /\ p' <= p.
Proof. exact band_occupation_monotone. Qed.
Print Assumptions C120_lower_bands_fuller.

Theorem C120_bands_shift : forall (nb ns : nat) (kT : R) (energy : nat -> R) (c : R), (0 < nb)%nat -> (0 < ns)%nat -> kT <> 0 ->
  exists f g, get_wavepacket_band_occupation nb ns kT energy = Some f /\ get_wavepacket_band_occupation nb ns kT (fun t => energy t + c) = Some g /\
    forall b, (b < nb)%nat -> f b = g b.
Proof. exact band_occupation_shift. Qed.
Print Assumptions C120_bands_shift.

(** The total occupation of bands by a state: the dashed line is between the energies, and at the
    mean energy of the state if the bands are flat. *)
Theorem C120_total_occupation : forall (nb ns : nat) (h c : nat -> C) (m : plot_measure), (0 < ns)%nat -> rsum (fun t => Cnorm2 (c t)) (nb * ns) <> 0 ->
  exists line mid, plot_total_band_occupation_against_energy nb ns h c m = Some (line, mid) /\ length line = nb /\
    let x b := rsum (fun s => fst (h (b * ns + s)%nat)) ns / INR ns in
    let y b := rsum (fun s => Cnorm2 (c (b * ns + s)%nat)) ns in
    (forall b, (b < nb)%nat -> line_x line b = x b /\ shows m (RtoC (y b)) (line_y line b)) /\
    rsum y nb = rsum (fun t => Cnorm2 (c t)) (nb * ns) /\
    mid * rsum (fun t => Cnorm2 (c t)) (nb * ns) = rsum (fun b => x b * y b) nb /\
    (forall lo hi, (forall t, (t < nb * ns)%nat -> lo <= fst (h t) <= hi) -> lo <= mid <= hi) /\
    ((forall b s, (b < nb)%nat -> (s < ns)%nat -> h (b * ns + s)%nat = h (b * ns)%nat) ->
     mid * rsum (fun t => Cnorm2 (c t)) (nb * ns) = rsum (fun t => fst (h t) * Cnorm2 (c t)) (nb * ns)).
Proof. exact total_occupation. Qed.
Print Assumptions C120_total_occupation.

Theorem C120_total_raises : forall (nb ns : nat) (h c : nat -> C) (m : plot_measure),
  (ns = 0%nat \/ forall t, (t < nb * ns)%nat -> c t = RtoC 0) -> plot_total_band_occupation_against_energy nb ns h c m = None.
Proof. exact total_raises. Qed.
Print Assumptions C120_total_raises.

(** Simulations with two axes of sites and one of bands. *)
Theorem C120_probability_per_band : forall (t : time_basis) (ts : list R) (b0 b1 b2 : basis) (data : ndarray), times t = Some ts ->
  (0 < bsize b0)%nat -> (0 < bsize b1)%nat -> (0 < bsize b2)%nat -> nprod (ashape data) = (tn t * (bsize b0 * (bsize b1 * bsize b2)))%nat ->
  exists lines, plot_probability_per_band t [b0; b1; b2] data = Some lines /\ length lines = bsize b2 /\
  forall k, (k < bsize b2)%nat -> exists line, nth_error lines k = Some line /\ length line = tn t /\
    forall j, (j < tn t)%nat -> line_x line j = nth j ts 0 /\
      line_y line j = fst (csum (fun i0 => csum (fun i1 => aflat data (((j * bsize b0 + i0) * bsize b1 + i1) * bsize b2 + k)%nat) (bsize b1)) (bsize b0)).
Proof. exact per_band. Qed.
Print Assumptions C120_probability_per_band.

Theorem C120_probability_per_site : forall (t : time_basis) (ts : list R) (b0 b1 b2 : basis) (data : ndarray), times t = Some ts ->
  (0 < bsize b0)%nat -> (0 < bsize b1)%nat -> (0 < bsize b2)%nat -> nprod (ashape data) = (tn t * (bsize b0 * (bsize b1 * bsize b2)))%nat ->
  exists lines, plot_probability_per_site t [b0; b1; b2] data = Some lines /\ length lines = (bsize b0 * bsize b1)%nat /\
  forall i0 i1, (i0 < bsize b0)%nat -> (i1 < bsize b1)%nat -> exists line, nth_error lines (i0 * bsize b1 + i1) = Some line /\ length line = tn t /\
    forall j, (j < tn t)%nat -> line_x line j = nth j ts 0 /\
      line_y line j = fst (csum (fun k => aflat data (((j * bsize b0 + i0) * bsize b1 + i1) * bsize b2 + k)%nat) (bsize b2)).
Proof. exact per_site. Qed.
Print Assumptions C120_probability_per_site.
