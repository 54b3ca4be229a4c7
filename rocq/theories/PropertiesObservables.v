(** Properties of the observables of lists of states (C93, C94). *)
From Coq Require Import Reals.
From Verif Require Import ZLib Csum DFT NumPy Index Basis SpecBasis BasisProofs3 Lattice Operator StateList SpecStateList SpecWavepacket Brillouin
  Observables SpecObservables ObservablesProofs ObservablesProofs2 ObservablesProofs3 ObservablesProofs4 ObservablesProofs5 ObservablesProofs6 ObservablesProofs7 ObservablesFacts.
Local Open Scope R_scope.
Local Open Scope C_scope.

(** ** C93: positions on a periodic grid *)

(** The hypotheses shared by most of the theorems. *)
Example ex_C93_ok : bwf (BTuple ex_axes) /\ explicit_orthonormal (BTuple ex_axes) /\ length ex_axes = 1%nat /\ sbasis ex_states = BTuple ex_axes /\
  well_formed_list ex_states /\ (0 < ex_delta 0%nat 0%nat)%R.
Proof. exact ex_ok. Qed.

(** The periodic position is the mean of the phase over the probabilities of the state. *)
Theorem C93_periodic_position : forall same axes, identity_test same -> bwf (BTuple axes) -> explicit_orthonormal (BTuple axes) ->
  forall s direction, sbasis s = BTuple axes -> well_formed_list s -> length direction = length axes ->
  exists f, get_periodic_x same axes s (Some direction) = Some (slist s, f) /\
    forall i, f i = mean_phase (map bfund axes) direction s i.
Proof. intros same axes Hs Hw Ho. exact (periodic_x_spec same Hs axes Hw Ho). Qed.
Print Assumptions C93_periodic_position.

(** The default direction has a one for every axis; another number of entries raises. *)
Theorem C93_periodic_direction : forall same axes s,
  get_periodic_x same axes s None = get_periodic_x same axes s (Some (map (fun _ => 1%Z) axes)) /\
  forall direction, length direction <> length axes -> get_periodic_x same axes s (Some direction) = None.
Proof. intros same axes s. split; [exact (periodic_x_default same axes s)|exact (periodic_x_raises same axes s)]. Qed.
Print Assumptions C93_periodic_direction.

(** It is never larger than the squared norm. *)
Theorem C93_periodic_bound : forall axes, bwf (BTuple axes) -> explicit_orthonormal (BTuple axes) ->
  forall s i direction, sbasis s = BTuple axes -> (Cmod (mean_phase (map bfund axes) direction s i) <= squared_norm s i)%R.
Proof. exact mean_phase_bound. Qed.
Print Assumptions C93_periodic_bound.

(** Moving the probabilities along the grid turns it by the phase of the shift. *)
Theorem C93_periodic_move : forall shape direction shift s s' i j, length direction = length shape -> length shift = length shape ->
  (forall x, in_shape x shape -> density s' j (ravel shape (move shape shift x)) = density s i (ravel shape x)) ->
  mean_phase shape direction s' j = cis (2 * PI * turns shape direction shift) * mean_phase shape direction s i.
Proof. exact mean_phase_move. Qed.
Print Assumptions C93_periodic_move.

Example ex_C93_average : exists v, get_average_x_periodic never ex_axes ex_delta ex_states 0 = Some (BFund 2, (2%nat, v)) /\ v 0%nat = 6%R /\ v 1%nat = 1%R.
Proof. exact ex_periodic. Qed.

(** In one dimension the average position lies in the cell, and has the phase of the periodic
    position. *)
Theorem C93_average_position : forall same axes, identity_test same -> bwf (BTuple axes) -> explicit_orthonormal (BTuple axes) ->
  forall delta s, sbasis s = BTuple axes -> well_formed_list s -> length axes = 1%nat -> (0 < delta 0%nat 0%nat)%R ->
  let L := delta 0%nat 0%nat in let e := mean_phase (map bfund axes) (axis_direction 1 0) s in
  exists v, get_average_x_periodic same axes delta s 0 = Some (slist s, (bsize (slist s), v)) /\
    forall i, (i < bsize (slist s))%nat -> (0 <= v i < L)%R /\ e i = RtoC (Cmod (e i)) * cis (2 * PI * (v i / L)) /\ (e i = 0 -> v i = 0%R).
Proof. intros same axes Hs Hw Ho. exact (periodic_position_api same Hs axes Hw Ho). Qed.
Print Assumptions C93_average_position.

(** A state moved by some points has its average position moved by as much, round the cell. *)
Theorem C93_average_position_moves : forall same axes, identity_test same -> bwf (BTuple axes) -> explicit_orthonormal (BTuple axes) ->
  forall delta, length axes = 1%nat -> (0 < delta 0%nat 0%nat)%R ->
  let n := nprod (map bfund axes) in let L := delta 0%nat 0%nat in
  forall s s' i j t x x', sbasis s = BTuple axes -> well_formed_list s -> sbasis s' = BTuple axes -> well_formed_list s' ->
  (i < bsize (slist s))%nat -> (j < bsize (slist s'))%nat ->
  (forall y, (y < n)%nat -> density s' j ((y + t) mod n)%nat = density s i y) -> mean_phase (map bfund axes) (axis_direction 1 0) s i <> 0 ->
  get_average_x_periodic same axes delta s 0 = Some x -> get_average_x_periodic same axes delta s' 0 = Some x' ->
  snd (snd x') j = rmod (snd (snd x) i + INR t * (L / INR n)) L.
Proof. intros same axes Hs Hw Ho. exact (positions_moved same Hs axes Hw Ho). Qed.
Print Assumptions C93_average_position_moves.

(** The average position of a state at one point is that point. *)
Theorem C93_average_position_of_point : forall same axes, identity_test same -> bwf (BTuple axes) -> explicit_orthonormal (BTuple axes) ->
  forall delta, length axes = 1%nat -> (0 < delta 0%nat 0%nat)%R ->
  let n := nprod (map bfund axes) in let L := delta 0%nat 0%nat in
  forall s i x0 x, sbasis s = BTuple axes -> well_formed_list s -> (i < bsize (slist s))%nat -> (x0 < n)%nat ->
  (forall y, (y < n)%nat -> y <> x0 -> density s i y = 0%R) -> (0 < density s i x0)%R ->
  get_average_x_periodic same axes delta s 0 = Some x -> snd (snd x) i = (INR x0 * (L / INR n))%R.
Proof. intros same axes Hs Hw Ho. exact (positions_point same Hs axes Hw Ho). Qed.
Print Assumptions C93_average_position_of_point.

(** In more dimensions the angles of the states meet the components of the lattice vector: one
    state gives a vector, as many states as dimensions give one component each of different
    vectors, and any other number raises. *)
Theorem C93_average_position_more_dimensions : forall same axes, identity_test same -> bwf (BTuple axes) -> explicit_orthonormal (BTuple axes) ->
  forall delta s axis, sbasis s = BTuple axes -> well_formed_list s -> (1 < length axes)%nat -> (axis < length axes)%nat ->
  let nd := length axes in let e := mean_phase (map bfund axes) (axis_direction nd axis) s in
  exists th : nat -> R, (forall i, (0 <= th i < 2 * PI)%R /\ e i = RtoC (Cmod (e i)) * cis (th i) /\ (e i = 0 -> th i = 0%R)) /\
  (bsize (slist s) = 1%nat -> exists v, get_average_x_periodic same axes delta s axis = Some (slist s, (nd, v)) /\
     forall c, v c = (th 0%nat * delta axis c / (2 * PI))%R) /\
  (bsize (slist s) = nd -> exists v, get_average_x_periodic same axes delta s axis = Some (slist s, (nd, v)) /\
     forall i, v i = (th i * delta axis i / (2 * PI))%R) /\
  (bsize (slist s) <> 1%nat -> bsize (slist s) <> nd -> get_average_x_periodic same axes delta s axis = None).
Proof. intros same axes Hs Hw Ho. exact (positions_nd same Hs axes Hw Ho). Qed.
Print Assumptions C93_average_position_more_dimensions.

Example ex_C93_restored : exists v, get_restored_x never ex_axes ex_delta ex_states 1 2 0 = Some (BFund 2, (2%nat, v)) /\
  v 0%nat 0%nat = (- 2)%R /\ v 0%nat 1%nat = 1%R.
Proof. exact ex_restored. Qed.

(** The restored positions have the phases of the states, start within half a cell of the
    origin, never jump by more than half a cell, and follow every path with steps below half a
    cell up to a fixed number of cells. *)
Theorem C93_restored_positions : forall same axes, identity_test same -> bwf (BTuple axes) -> explicit_orthonormal (BTuple axes) ->
  forall delta, length axes = 1%nat -> (0 < delta 0%nat 0%nat)%R -> let L := delta 0%nat 0%nat in
  forall s rows cols, sbasis s = BTuple axes -> well_formed_list s -> bsize (slist s) = (rows * cols)%nat ->
  let e r i := mean_phase (map bfund axes) (axis_direction 1 0) s (r * cols + i)%nat in
  exists v, get_restored_x same axes delta s rows cols 0 = Some (slist s, (cols, v)) /\
  (forall r i, (i < cols)%nat -> e r i = RtoC (Cmod (e r i)) * cis (2 * PI * (v r i / L))) /\
  (forall r i, (S i < cols)%nat -> (Rabs (v r (S i) - v r i) <= L / 2)%R) /\
  (forall r, (0 < cols)%nat -> (- L / 2 < v r 0%nat <= L / 2)%R) /\
  (forall r (X rho : nat -> R),
     (forall i, (i < cols)%nat -> (0 < rho i)%R /\ e r i = RtoC (rho i) * cis (2 * PI * (X i / L))) ->
     (forall i, (S i < cols)%nat -> (Rabs (X (S i) - X i) < L / 2)%R) ->
     exists k : Z, forall i, (i < cols)%nat -> v r i = (X i + IZR k * L)%R).
Proof. intros same axes Hs Hw Ho. exact (restored_api same Hs axes Hw Ho). Qed.
Print Assumptions C93_restored_positions.

(** ** C94: mean positions and momenta, spreads and coherent coordinates *)

Example ex_C94_average_x : exists f, get_average_x never ex_axes ex_delta ex_states 0 = Some (BFund 2, f) /\ f 0%nat = RtoC 24 /\ f 1%nat = RtoC 2.
Proof. exact ex_average_x. Qed.

(** The mean position in one dimension, not divided by the norm. *)
Theorem C94_average_position : forall same axes, identity_test same -> bwf (BTuple axes) -> explicit_orthonormal (BTuple axes) ->
  forall delta s, sbasis s = BTuple axes -> well_formed_list s -> length axes = 1%nat ->
  let n := nprod (map bfund axes) in
  exists f, get_average_x same axes delta s 0 = Some (slist s, f) /\
    forall i, f i = RtoC (rsum (fun x => density s i x * (INR x * (delta 0%nat 0%nat / INR n)))%R n).
Proof. intros same axes Hs Hw Ho. exact (average_x_1d same Hs axes Hw Ho). Qed.
Print Assumptions C94_average_position.

Example ex_C94_average_k : exists f, get_average_k never ex_axes ex_inv ex_states 0 = Some (BFund 2, f) /\ f 0%nat = RtoC (- (PI / 2)).
Proof. exact ex_average_k. Qed.

(** The mean momentum in one dimension. *)
Theorem C94_average_momentum : forall same axes, identity_test same -> bwf (BTuple axes) -> explicit_orthonormal (BTuple axes) ->
  forall inv s, sbasis s = BTuple axes -> well_formed_list s -> length axes = 1%nat ->
  let shape := map bfund axes in
  exists f, get_average_k same axes inv s 0 = Some (slist s, f) /\
    forall i, f i = RtoC (rsum (fun p => momentum_density shape s i p * (2 * PI * inv 0%nat 0%nat * IZR (freq (nprod shape) p)))%R (nprod shape)).
Proof. intros same axes Hs Hw Ho. exact (average_k_1d same Hs axes Hw Ho). Qed.
Print Assumptions C94_average_momentum.

(** The probabilities of the points and of the momenta both add up to the squared norm. *)
Theorem C94_probabilities : forall axes, bwf (BTuple axes) -> explicit_orthonormal (BTuple axes) ->
  forall s i, sbasis s = BTuple axes ->
  rsum (density s i) (nprod (map bfund axes)) = squared_norm s i /\
  rsum (momentum_density (map bfund axes) s i) (nprod (map bfund axes)) = squared_norm s i.
Proof. intros axes Hw Ho s i E. split; [exact (density_sum axes Hw Ho s i E)|exact (momentum_density_sum axes s i Hw Ho E)]. Qed.
Print Assumptions C94_probabilities.

(** Multiplying a wavefunction by a plane wave moves its momenta. *)
Theorem C94_momentum_boost : forall n m s s' i j p, (p < n)%nat ->
  (forall x, (x < n)%nat -> amplitude (sbasis s') (state_of s' j) x = omega n (m * Z.of_nat x) * amplitude (sbasis s) (state_of s i) x) ->
  momentum_density [n] s' j (Z.to_nat ((Z.of_nat p + m) mod Z.of_nat n)) = momentum_density [n] s i p.
Proof. exact momentum_boost. Qed.
Print Assumptions C94_momentum_boost.

(** A real wavefunction has no mean momentum on a grid with an odd number of points, but for an
    even number it has that of the highest frequency, which counts as negative. *)
Theorem C94_real_momentum : forall n s i (c : C) (g : nat -> R), (0 < n)%nat ->
  (forall x, (x < n)%nat -> amplitude (sbasis s) (state_of s i) x = c * RtoC (g x)) ->
  rsum (fun p => (momentum_density [n] s i p * IZR (freq n p))%R) n =
  (if Nat.even n then - (INR n / 2) * momentum_density [n] s i (n / 2) else 0)%R.
Proof. exact real_momentum. Qed.
Print Assumptions C94_real_momentum.

Theorem C94_real_at_rest_refuted : ~ (forall same axes inv s f, identity_test same -> bwf (BTuple axes) -> explicit_orthonormal (BTuple axes) ->
  length axes = 1%nat -> sbasis s = BTuple axes -> well_formed_list s -> get_average_k same axes inv s 0 = Some (slist s, f) ->
  forall i (g : nat -> R), (i < bsize (slist s))%nat ->
    (forall x, (x < nprod (map bfund axes))%nat -> amplitude (sbasis s) (state_of s i) x = RtoC (g x)) -> f i = 0).
Proof. exact real_at_rest_refuted. Qed.
Print Assumptions C94_real_at_rest_refuted.

Example ex_C94_plane : bwf (BTuple [BFund 2; BFund 3]) /\ explicit_orthonormal (BTuple [BFund 2; BFund 3]) /\
  length [BFund 2; BFund 3] <> 1%nat /\ length [BFund 2; BFund 3] <> nprod (map bfund [BFund 2; BFund 3]).
Proof. exact ex_plane. Qed.

(** In more dimensions the operators of position and momentum raise. *)
Theorem C94_operators_raise : forall same axes inv delta axis, length axes <> 1%nat -> length axes <> nprod (map bfund axes) ->
  get_x_operator same axes delta axis = None /\ get_k_operator same axes inv axis = None.
Proof. exact operators_raise. Qed.
Print Assumptions C94_operators_raise.

(** The spread: the states of the argument are divided by their norms, and the size of the
    periodic position is that of a Gaussian of the given width; it is infinite if that is zero. *)
Theorem C94_spread : forall same axes, identity_test same -> bwf (BTuple axes) -> explicit_orthonormal (BTuple axes) ->
  forall delta s, sbasis s = BTuple axes -> well_formed_list s -> forall axis, (axis < length axes)%nat ->
  let nd := length axes in let q := (2 * PI / vector_length nd (delta axis))%R in
  let e := mean_phase (map bfund axes) (axis_direction nd axis) s in
  (get_x_spread same axes delta s axis = None <-> exists i, (i < bsize (slist s))%nat /\ squared_norm s i = 0%R) /\
  forall s' lb sg, get_x_spread same axes delta s axis = Some (s', (lb, sg)) -> (0 < vector_length nd (delta axis))%R ->
  lb = slist s /\ slist s' = slist s /\ sbasis s' = sbasis s /\ well_formed_list s' /\
  forall i, (i < bsize (slist s))%nat ->
    (forall k, (k < bsize (sbasis s))%nat -> state_of s' i k = Cdiv (state_of s i k) (RtoC (sqrt (squared_norm s i)))) /\
    squared_norm s' i = 1%R /\
    (sg i = None <-> e i = RtoC 0) /\
    forall sigma, sg i = Some sigma -> (0 <= sigma)%R /\ Cmod (e i) = (squared_norm s i * exp (- (sigma * q) ^ 2 / 4))%R.
Proof.
  intros same axes Hs Hw Ho delta s Eb Ws axis Ha. split; [exact (spread_raises same Hs axes Hw Ho delta s Eb Ws axis Ha)|].
  exact (spread_spec same Hs axes Hw Ho delta s Eb Ws axis Ha).
Qed.
Print Assumptions C94_spread.

(** The spread is zero exactly for states at one place along the axis. *)
Theorem C94_spread_zero : forall same axes, identity_test same -> bwf (BTuple axes) -> explicit_orthonormal (BTuple axes) ->
  forall delta s, sbasis s = BTuple axes -> well_formed_list s -> forall axis, (axis < length axes)%nat ->
  let shape := map bfund axes in
  forall s' lb sg i, get_x_spread same axes delta s axis = Some (s', (lb, sg)) -> (0 < vector_length (length axes) (delta axis))%R ->
  (i < bsize (slist s))%nat ->
  sg i = Some 0%R <-> (forall x y, (x < nprod shape)%nat -> (y < nprod shape)%nat -> (0 < density s i x)%R -> (0 < density s i y)%R ->
    nth axis (unravel shape x) 0%nat = nth axis (unravel shape y) 0%nat).
Proof. intros same axes Hs Hw Ho. exact (spread_zero same Hs axes Hw Ho). Qed.
Print Assumptions C94_spread_zero.

Example ex_C94_coherent : exists x0 k0 sg, get_coherent_coordinates never ex_axes ex_delta ex_inv ex_states 0 = Some (2%nat, x0, k0, sg) /\
  x0 0%nat = 6%R /\ k0 0%nat = RtoC (- (PI / 8)) /\ sg 0%nat = Some 0%R.
Proof. exact ex_coherent. Qed.

(** The coherent coordinates: the periodic position, mean momentum and spread of the normalised
    states. *)
Theorem C94_coherent_coordinates : forall same axes, identity_test same -> bwf (BTuple axes) -> explicit_orthonormal (BTuple axes) ->
  length axes = 1%nat -> forall delta inv, (0 < delta 0%nat 0%nat)%R ->
  let shape := map bfund axes in let L := delta 0%nat 0%nat in
  forall s, sbasis s = BTuple axes -> well_formed_list s ->
  (get_coherent_coordinates same axes delta inv s 0 = None <-> exists i, (i < bsize (slist s))%nat /\ squared_norm s i = 0%R) /\
  forall n x0 k0 sg, get_coherent_coordinates same axes delta inv s 0 = Some (n, x0, k0, sg) ->
    n = bsize (slist s) /\ forall i, (i < n)%nat ->
    let e := mean_phase shape (axis_direction 1 0) s i in
    (0 <= x0 i < L)%R /\ e = RtoC (Cmod e) * cis (2 * PI * (x0 i / L)) /\
    k0 i = RtoC (rsum (fun p => momentum_density shape s i p / squared_norm s i * (2 * PI * inv 0%nat 0%nat * IZR (freq (nprod shape) p)))%R (nprod shape)) /\
    (sg i = None <-> e = 0) /\
    forall sigma, sg i = Some sigma -> (0 <= sigma)%R /\ Cmod e = (squared_norm s i * exp (- (sigma * (2 * PI / L)) ^ 2 / 4))%R.
Proof. intros same axes Hs Hw Ho. exact (coherent_spec same Hs axes Hw Ho). Qed.
Print Assumptions C94_coherent_coordinates.

(** They do not depend on the norms and phases of the states. *)
Theorem C94_coherent_coordinates_scaled : forall same axes, identity_test same -> bwf (BTuple axes) -> explicit_orthonormal (BTuple axes) ->
  length axes = 1%nat -> forall delta inv, (0 < delta 0%nat 0%nat)%R ->
  forall s t (c : nat -> C) n x0 k0 sg, sbasis s = BTuple axes -> well_formed_list s -> slist t = slist s -> sbasis t = sbasis s -> well_formed_list t ->
  (forall i, (i < bsize (slist s))%nat -> c i <> 0 /\ forall k, (k < bsize (sbasis s))%nat -> state_of t i k = c i * state_of s i k) ->
  get_coherent_coordinates same axes delta inv s 0 = Some (n, x0, k0, sg) ->
  exists x0' k0' sg', get_coherent_coordinates same axes delta inv t 0 = Some (n, x0', k0', sg') /\
    forall i, (i < n)%nat -> x0' i = x0 i /\ k0' i = k0 i /\ sg' i = sg i.
Proof. intros same axes Hs Hw Ho. exact (coherent_scaled same Hs axes Hw Ho). Qed.
Print Assumptions C94_coherent_coordinates_scaled.
