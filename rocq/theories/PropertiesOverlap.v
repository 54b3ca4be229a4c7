(** Properties of the overlaps of states and wavepackets (C84) and of their interpolation in
    momentum (C85). *)
From Coq Require Import Reals Permutation String.
From Verif Require Import ZLib Csum DFT NumPy Index Spec SpecReal Basis SpecBasis Operator SpecOperator Reduce Wavepacket SpecWavepacket
  Lattice Overlap SpecOverlap OverlapProofs OverlapProofs2 OverlapProofs3 OverlapProofs4 OverlapFacts.
Local Open Scope R_scope.
Local Open Scope C_scope.

(** ** C84 *)
Example ex_C84_packets z : Forall (fun n => (0 < n)%nat) [2%nat; 1%nat] /\ bwf (BTuple ex_axes) /\ explicit_orthonormal (BTuple ex_axes) /\
  List.length [2%nat; 1%nat] = List.length ex_axes /\ nprod (ashape (ex_packet z)) = (nprod [2%nat; 1%nat] * bsize (BTuple ex_axes))%nat.
Proof. exact (ex_packet_ok z). Qed.
Example ex_C84_states : nprod (ashape ex_states) = (2 * nprod [2%nat; 3%nat])%nat /\ Forall (fun n => (0 < n)%nat) [2%nat; 3%nat].
Proof. exact ex_states_ok. Qed.

(** The overlap of two wavepackets at a point of the supercell is the conjugate of the first
    times the second, in the states the wavepackets stand for. *)
Theorem C84_wavepacket_overlap :
  forall same, identity_test same -> forall l0 s0 l1 s1 d0 d1,
  Forall (fun n => (0 < n)%nat) l0 -> bwf (BTuple s0) -> explicit_orthonormal (BTuple s0) -> List.length l0 = List.length s0 ->
  Forall (fun n => (0 < n)%nat) l1 -> bwf (BTuple s1) -> explicit_orthonormal (BTuple s1) -> List.length l1 = List.length s1 ->
  supercell l0 (map bfund s0) = supercell l1 (map bfund s1) ->
  nprod (ashape d0) = (nprod l0 * bsize (BTuple s0))%nat -> nprod (ashape d1) = (nprod l1 * bsize (BTuple s1))%nat ->
  exists out, calculate_wavepacket_overlap same (map BFundT l0) s0 d0 (map BFundT l1) s1 d1 = Some out /\
    ashape out = [nprod (supercell l0 (map bfund s0))] /\
    forall x, (x < nprod (supercell l0 (map bfund s0)))%nat ->
      aflat out x = Cconj (unfurled_value l0 s0 (aflat d0) x) * unfurled_value l1 s1 (aflat d1) x.
Proof. exact wavepacket_overlap. Qed.
Print Assumptions C84_wavepacket_overlap.

(** Summed over the supercell it is the inner product, averaged over the samples. *)
Theorem C84_wavepacket_overlap_sum :
  forall same, identity_test same -> forall ls saxes d0 d1 out,
  Forall (fun n => (0 < n)%nat) ls -> bwf (BTuple saxes) -> explicit_orthonormal (BTuple saxes) -> List.length ls = List.length saxes ->
  nprod (ashape d0) = (nprod ls * bsize (BTuple saxes))%nat -> nprod (ashape d1) = (nprod ls * bsize (BTuple saxes))%nat ->
  calculate_wavepacket_overlap same (map BFundT ls) saxes d0 (map BFundT ls) saxes d1 = Some out ->
  csum (aflat out) (nprod (supercell ls (map bfund saxes))) =
  RtoC (/ INR (nprod ls)) * csum (fun s => inner_product (bsize (BTuple saxes))
     (row (bsize (BTuple saxes)) (aflat d0) s) (row (bsize (BTuple saxes)) (aflat d1) s)) (nprod ls).
Proof. exact wavepacket_overlap_sum. Qed.
Print Assumptions C84_wavepacket_overlap_sum.

(** Overlaps of a list of states: the row is the conjugated state, the column the shifted one. *)
Theorem C84_state_overlaps :
  forall n shape data (s : Z), nprod (ashape data) = (n * nprod shape)%nat ->
  exists out, calculate_state_vector_list_overlap n shape data (IFlat s) = Some out /\
    ashape out = [(nprod shape * n * n)%nat] /\
    forall x j i, (x < nprod shape)%nat -> (j < n)%nat -> (i < n)%nat ->
      overlap_at n (aflat out) x j i =
      Cconj (row (nprod shape) (aflat data) j x) *
      row (nprod shape) (aflat data) i (Z.to_nat ((Z.of_nat x - s) mod Z.of_nat (nprod shape))).
Proof. exact list_overlap. Qed.
Print Assumptions C84_state_overlaps.

(** Without a shift the overlaps are Hermitian at every point and sum to the inner products. *)
Theorem C84_unshifted_overlaps :
  forall n shape data out, nprod (ashape data) = (n * nprod shape)%nat ->
  calculate_state_vector_list_overlap n shape data (IFlat 0) = Some out ->
  forall j i, (j < n)%nat -> (i < n)%nat ->
    (forall x, (x < nprod shape)%nat -> overlap_at n (aflat out) x i j = Cconj (overlap_at n (aflat out) x j i)) /\
    csum (fun x => overlap_at n (aflat out) x j i) (nprod shape) =
    inner_product (nprod shape) (row (nprod shape) (aflat data) j) (row (nprod shape) (aflat data) i).
Proof. exact list_overlap_hermitian. Qed.
Print Assumptions C84_unshifted_overlaps.

(** A shift along the first axis moves the states by that many points, periodically. *)
Theorem C84_shift_first_axis :
  forall n m rest data (s : Z), Forall (fun m => (0 < m)%nat) (m :: rest) ->
  nprod (ashape data) = (n * nprod (m :: rest))%nat ->
  exists out, calculate_state_vector_list_overlap n (m :: rest) data (IStacked (s :: map (fun _ => 0%Z) rest)) = Some out /\
    forall x j i, (x < nprod (m :: rest))%nat -> (j < n)%nat -> (i < n)%nat ->
      overlap_at n (aflat out) x j i =
      Cconj (row (nprod (m :: rest)) (aflat data) j x) *
      row (nprod (m :: rest)) (aflat data) i (moved_back (m :: rest) s x).
Proof. exact first_axis_shift. Qed.
Print Assumptions C84_shift_first_axis.

(** A shift along another axis runs into the next row: at (1, 0) the state is not taken
    from (1, 1). *)
Theorem C84_shift_other_axis_refuted :
  exists data out,
  nprod (ashape data) = (1 * nprod [2%nat; 2%nat])%nat /\
  calculate_state_vector_list_overlap 1 [2%nat; 2%nat] data (IStacked [0%Z; 1%Z]) = Some out /\
  overlap_at 1 (aflat out) (ravel [2%nat; 2%nat] [1%nat; 0%nat]) 0 0 <>
  Cconj (row 4 (aflat data) 0 (ravel [2%nat; 2%nat] [1%nat; 0%nat])) * row 4 (aflat data) 0 (ravel [2%nat; 2%nat] [1%nat; 1%nat]).
Proof. exact second_axis_shift. Qed.
Print Assumptions C84_shift_other_axis_refuted.

(** Overlaps of all pairs of a list of wavepackets. *)
Theorem C84_wavepacket_list_overlap :
  forall same, identity_test same -> forall nb ls saxes data (s : Z),
  Forall (fun n => (0 < n)%nat) ls -> bwf (BTuple saxes) -> explicit_orthonormal (BTuple saxes) -> List.length ls = List.length saxes ->
  (0 < nb)%nat -> nprod (ashape data) = (nb * (nprod ls * bsize (BTuple saxes)))%nat ->
  let sh := supercell ls (map bfund saxes) in
  exists out, calculate_wavepacket_list_overlap same nb (map BFundT ls) saxes data (IFlat s) = Some out /\
    forall x j i, (x < nprod sh)%nat -> (j < nb)%nat -> (i < nb)%nat ->
      overlap_at nb (aflat out) x j i =
      Cconj (unfurled_value ls saxes (row (nprod ls * bsize (BTuple saxes)) (aflat data) j) x) *
      unfurled_value ls saxes (row (nprod ls * bsize (BTuple saxes)) (aflat data) i) (Z.to_nat ((Z.of_nat x - s) mod Z.of_nat (nprod sh))).
Proof. exact wavepackets_overlap. Qed.
Print Assumptions C84_wavepacket_list_overlap.

(** A conversion to a complete basis keeps every overlap at every point. *)
Theorem C84_conversion_keeps_overlaps :
  forall same, identity_test same -> forall a b m data, bwf a -> bwf b -> explicit_orthonormal a -> complete b ->
  compatible a b -> nprod (ashape data) = (bsize a * m)%nat ->
  exists out, convert_overlap_to_basis same a b m data = Some out /\ ashape out = [(bsize b * m)%nat] /\
    forall c x, (c < m)%nat -> (x < bfund b)%nat ->
      amplitude b (fun k => aflat out (k * m + c)%nat) x = amplitude a (fun k => aflat data (k * m + c)%nat) x.
Proof. exact convert_overlap. Qed.
Print Assumptions C84_conversion_keeps_overlaps.

(** The conversion to momentum raises for every overlap. *)
Theorem C84_momentum_conversion_raises :
  forall same a rows cols data, convert_overlap_to_momentum_basis same a rows cols data = None.
Proof. exact momentum_basis_raises. Qed.
Print Assumptions C84_momentum_conversion_raises.

(** One pair of states, given as (row, column) or flat. *)
Theorem C84_single_overlap :
  forall n size data j i, (j < n)%nat -> (i < n)%nat -> nprod (ashape data) = (size * (n * n))%nat ->
  exists out, get_single_overlap size n n data (IStacked [Z.of_nat j; Z.of_nat i]) = Some out /\
    get_single_overlap size n n data (IFlat (Z.of_nat (j * n + i))) = Some out /\ ashape out = [size] /\
    forall x, (x < size)%nat -> aflat out x = overlap_at n (aflat data) x j i.
Proof. exact single_overlap. Qed.
Print Assumptions C84_single_overlap.

(** Different overlaps are never cached under the same name. *)
Theorem C84_cache_names_distinct :
  forall i j a b i' j' a' b' name,
  get_overlap_cache_filename i j a b = Some name -> get_overlap_cache_filename i' j' a' b' = Some name ->
  i = i' /\ j = j' /\ a = a' /\ b = b'.
Proof. exact cache_filename_inj. Qed.
Print Assumptions C84_cache_names_distinct.
Example ex_C84_cache : get_overlap_cache_filename 1 0 (-1, 0)%Z (1, 1)%Z = Some "overlap/overlap_1_2_0_0_1_1.npy"%string.
Proof. reflexivity. Qed.

(** A name is given to the first two bands and the nearest neighbours. *)
Theorem C84_cache_names_given :
  forall i j a b,
  (exists name, get_overlap_cache_filename i j a b = Some name) <->
  (i <= 1 /\ j <= 1 /\ -1 <= fst a <= 1 /\ -1 <= snd a <= 1 /\ -1 <= fst b <= 1 /\ -1 <= snd b <= 1)%Z.
Proof. exact cache_filename_some. Qed.
Print Assumptions C84_cache_names_given.

(** ** C85 *)
Example ex_C85_wavevector : reciprocal 2 ex_lattice (fun _ => 1%Z) ex_wavevector.
Proof. exact ex_wavevector_ok. Qed.
Example ex_C85_upright : forall c, (c < 2)%nat -> ex_upright (List.length [2%nat; 3%nat]) c = 0%R.
Proof. exact ex_upright_ok. Qed.
Example ex_C85_order : argsort_ok (nprod [3%nat]) (fun t => Cmod (flat_vector 1 ex_overlap t)) [1%nat; 0%nat; 2%nat].
Proof. exact ex_order_ok. Qed.

(** At a wave vector of the reciprocal lattice of the supercell the interpolator is the sum
    of the overlap against the wave, and so a coefficient in the momentum basis. *)
Theorem C85_at_reciprocal_vectors :
  forall shape delta data m k, Forall (fun n => (0 < n)%nat) shape ->
  reciprocal (List.length shape) delta m k -> momentum_interpolator shape delta data k = wave_sum shape data m.
Proof. exact interpolator_reciprocal. Qed.
Print Assumptions C85_at_reciprocal_vectors.
Theorem C85_momentum_coefficient :
  forall same shape, identity_test same -> Forall (fun n => (0 < n)%nat) shape ->
  exists F, convert same (BTuple (map BFund shape)) (BTuple (map BFundT shape)) = Some F /\
    forall delta data m k, reciprocal (List.length shape) delta m k ->
      momentum_interpolator shape delta data k =
      RtoC (sqrt (INR (nprod shape))) * F data (ravel shape (opposite_index shape m)).
Proof. exact interpolator_momentum. Qed.
Print Assumptions C85_momentum_coefficient.

(** At zero it is the inner product of the two states. *)
Theorem C85_at_zero :
  forall n shape data, nprod (ashape data) = (n * nprod shape)%nat ->
  forall j i all one delta k, (j < n)%nat -> (i < n)%nat -> (forall c, (c < List.length shape)%nat -> k c = 0%R) ->
    calculate_state_vector_list_overlap n shape data (IFlat 0) = Some all ->
    get_single_overlap (nprod shape) n n all (IStacked [Z.of_nat j; Z.of_nat i]) = Some one ->
    momentum_interpolator shape delta (aflat one) k =
    inner_product (nprod shape) (row (nprod shape) (aflat data) j) (row (nprod shape) (aflat data) i).
Proof. exact interpolated_zero. Qed.
Print Assumptions C85_at_zero.

(** Exchanged states and the opposite wave vector give the conjugate. *)
Theorem C85_conjugate :
  forall n shape data, nprod (ashape data) = (n * nprod shape)%nat ->
  forall j i all one one' delta k, (j < n)%nat -> (i < n)%nat ->
    calculate_state_vector_list_overlap n shape data (IFlat 0) = Some all ->
    get_single_overlap (nprod shape) n n all (IStacked [Z.of_nat j; Z.of_nat i]) = Some one ->
    get_single_overlap (nprod shape) n n all (IStacked [Z.of_nat i; Z.of_nat j]) = Some one' ->
    momentum_interpolator shape delta (aflat one') (fun c => - k c)%R = Cconj (momentum_interpolator shape delta (aflat one) k).
Proof. exact interpolated_hermitian. Qed.
Print Assumptions C85_conjugate.

(** No wave vector gives more than the product of the norms. *)
Theorem C85_bounded :
  forall n shape data, nprod (ashape data) = (n * nprod shape)%nat ->
  forall s j i all one delta k, (j < n)%nat -> (i < n)%nat ->
    calculate_state_vector_list_overlap n shape data (IFlat s) = Some all ->
    get_single_overlap (nprod shape) n n all (IStacked [Z.of_nat j; Z.of_nat i]) = Some one ->
    (Cnorm2 (momentum_interpolator shape delta (aflat one) k) <=
       rsum (fun x => Cnorm2 (row (nprod shape) (aflat data) j x)) (nprod shape) *
       rsum (fun x => Cnorm2 (row (nprod shape) (aflat data) i x)) (nprod shape))%R.
Proof. exact interpolated_bound. Qed.
Print Assumptions C85_bounded.

(** Wave vectors given as fractions: the same when all axes have the same number of points. *)
Theorem C85_fractions_equal_axes :
  forall shape n delta data kappa k, Forall (fun m => m = n) shape ->
  (forall a, (a < List.length shape)%nat -> rsum (fun c => delta a c * k c)%R (List.length shape) = (2 * PI * kappa a)%R) ->
  momentum_interpolator shape delta data k = interpolator_k_fractions shape data kappa.
Proof. exact fractions_equal. Qed.
Print Assumptions C85_fractions_equal_axes.
(** Otherwise not: all axes are divided by the length of the first. *)
Theorem C85_fractions_unequal_refuted :
  exists data,
  interpolator_k_fractions [1%nat; 2%nat] data (fun a => IZR (nth a [0%Z; 1%Z] 0%Z)) = 1 /\
  wave_sum [1%nat; 2%nat] data (fun a => nth a [0%Z; 1%Z] 0%Z) = -1.
Proof. exact fractions_differ. Qed.
Print Assumptions C85_fractions_unequal_refuted.

(** get_overlap_momentum_interpolator_flat raises for every overlap: basis_as_single_point_basis
    uses a name that is only defined for type checkers. *)
Theorem C85_flat_interpolator_raises :
  forall front last delta data order n_points k, momentum_interpolator_flat front last delta data order n_points k = None.
Proof. reflexivity. Qed.
Print Assumptions C85_flat_interpolator_raises.

(** What follows is about the rest of its body ([flat_interpolation]), given the axis of one
    point.  The interpolator without the last axis is the full one at a wave vector with only the
    first two components, when the last lattice vector has none of them. *)
Theorem C85_flat_interpolator :
  forall front last delta, front <> [] -> Forall (fun n => (0 < n)%nat) front -> (0 < last)%nat ->
  (forall c, (c < 2)%nat -> delta (List.length front) c = 0%R) ->
  forall data order k, (forall c, (2 <= c)%nat -> k c = 0%R) ->
  flat_interpolation front last delta data order None k = Some (momentum_interpolator (front ++ [last]) delta data k).
Proof. exact flat_full. Qed.
Print Assumptions C85_flat_interpolator.

(** With [n] points the largest terms are kept, and the error is at most the sum of the
    moduli of the others, at every wave vector. *)
Theorem C85_flat_largest_terms :
  forall front last delta data order n k, front <> [] ->
  argsort_ok (nprod front) (fun t => Cmod (flat_vector last data t)) order ->
  exists full part dropped, flat_interpolation front last delta data order None k = Some full /\
    flat_interpolation front last delta data order (Some n) k = Some part /\
    Permutation (seq 0 (nprod front)) (firstn n (rev order) ++ dropped) /\
    List.length dropped = (nprod front - n)%nat /\
    (forall s t, In s (firstn n (rev order)) -> In t dropped ->
       (Cmod (flat_vector last data t) <= Cmod (flat_vector last data s))%R) /\
    (Cmod (full - part)%C <= fold_right (fun t acc => Cmod (flat_vector last data t) + acc) 0 dropped)%R.
Proof. exact truncated_terms. Qed.
Print Assumptions C85_flat_largest_terms.
Theorem C85_flat_all_terms :
  forall front last delta data order n k, front <> [] -> (nprod front <= n)%nat ->
  Permutation (seq 0 (nprod front)) order ->
  flat_interpolation front last delta data order (Some n) k = flat_interpolation front last delta data order None k.
Proof. exact no_truncation. Qed.
Print Assumptions C85_flat_all_terms.

(** The average over [m] angles counts the first direction twice. *)
Theorem C85_angle_average :
  forall f q m, (2 <= m)%nat ->
  angle_averaged f q m = Some ((INR (m - 1) * circle_mean f q (m - 1) + Cnorm2 (f (q, 0%R))) / INR m)%R.
Proof. exact angle_average. Qed.
Print Assumptions C85_angle_average.
Theorem C85_angle_average_constant :
  forall f q m c, (1 <= m)%nat -> (forall t, Cnorm2 (f (q * cos t, q * sin t)%R) = c) -> angle_averaged f q m = Some c.
Proof. exact angle_average_constant. Qed.
Print Assumptions C85_angle_average_constant.
Example ex_C85_constant : forall t, Cnorm2 ((fun k : R * R => cis (fst k)) (2 * cos t, 2 * sin t)%R) = 1%R.
Proof. intros t. apply cis_norm2. Qed.
Theorem C85_angle_average_biased :
  forall q m, (4 <= m)%nat ->
  let f := fun k : R * R => RtoC (fst k) in
  circle_mean f q (m - 1) = (q * q / 2)%R /\
  angle_averaged f q m = Some (q * q / 2 * (INR (m + 1) / INR m))%R.
Proof. exact angle_average_biased. Qed.
Print Assumptions C85_angle_average_biased.
