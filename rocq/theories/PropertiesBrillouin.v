(** Properties of the Brillouin zone functions (C44). *)
From Coq Require Import Reals ZArith List.
From Verif Require Import ZLib Csum NumPy Lattice Hamiltonian SpecReal SpecHamiltonian Brillouin SpecBrillouin BrillouinProofs BrillouinFacts.
Import ListNotations.
Local Open Scope R_scope.

(** A rectangular crystal and a skew one. *)
Example ex_crystals :
  crystal box_shape box_delta box_q /\ inverses box_shape box_delta box_inv box_binv /\
  crystal slant_shape slant_delta slant_q /\ inverses slant_shape slant_delta slant_inv slant_binv /\
  crossed box_shape box_q [7; 51; 0]%Z 4.
Proof.
  exact (conj box_crystal (conj box_inverses (conj slant_crystal (conj slant_inverses box_crossed)))).
Qed.

(** ** C44 *)

(** In three dimensions the call returns; the result is the given index if no plane of the
    26 neighbouring lattice points is crossed by more than the tolerance, and otherwise the
    index moved back by the neighbour whose plane is nearest among those crossed by more
    than the tolerance (the first in the order 0, 1, -1 per axis when several are equally
    near); it is then strictly nearer to the origin. *)
Theorem C44_folds_in_nearest_plane :
  forall shape delta inv binv q idx, crystal shape delta q -> inverses shape delta inv binv -> length idx = 3%nat ->
  exists idx' t, decrement_brillouin_zone shape inv binv idx = Some idx' /\
    decrement_brillouin_zone_3d shape inv binv idx = Some idx' /\ tolerance q t /\ 0 < t /\
    ((idx' = idx /\ forall m, neighbour m -> beyond shape q idx m <= t) \/
     (exists m, neighbour m /\ idx' = moved_back shape idx m /\ t < beyond shape q idx m /\
        length2 (q idx') < length2 (q idx) /\
        forall m', neighbour m' -> t < beyond shape q idx m' ->
          beyond shape q idx m <= beyond shape q idx m' /\
          ((rank m' < rank m)%Z -> beyond shape q idx m < beyond shape q idx m'))).
Proof. exact decrement_facts. Qed.
Print Assumptions C44_folds_in_nearest_plane.

(** Every momentum lies in some zone; one in the first zone stays where it is, and one that
    moves ends in a zone with a strictly lower number. *)
Theorem C44_zone_number_decreases :
  forall shape delta inv binv q idx, crystal shape delta q -> inverses shape delta inv binv -> length idx = 3%nat ->
  exists c, crossed shape q idx c /\
    (c = 0%nat -> decrement_brillouin_zone shape inv binv idx = Some idx) /\
    forall idx', decrement_brillouin_zone shape inv binv idx = Some idx' -> idx' <> idx ->
      exists c', crossed shape q idx' c' /\ (c' < c)%nat.
Proof. exact zone_facts. Qed.
Print Assumptions C44_zone_number_decreases.

(** Repeating the call, at most once per zone, reaches an index that no longer moves: the
    same momentum up to reciprocal lattice vectors, not further from the origin, within the
    tolerance of all 26 neighbouring planes. *)
Theorem C44_repeating_reaches_a_fixed_point :
  forall shape delta inv binv q idx c, crystal shape delta q -> inverses shape delta inv binv -> length idx = 3%nat ->
  crossed shape q idx c ->
  exists n idx' t, (n <= c)%nat /\ repeated (decrement_brillouin_zone shape inv binv) n idx = Some idx' /\
    decrement_brillouin_zone shape inv binv idx' = Some idx' /\ length idx' = 3%nat /\
    (forall a, (a < 3)%nat -> exists z, nth a idx' 0%Z = (nth a idx 0 + Z.of_nat (nth a shape 0%nat) * z)%Z) /\
    length2 (q idx') <= length2 (q idx) /\
    tolerance q t /\ forall m, neighbour m -> beyond shape q idx' m <= t.
Proof. exact repeated_facts. Qed.
Print Assumptions C44_repeating_reaches_a_fixed_point.

(** Not one zone at a time: a momentum in zone 5 can end in zone 2. *)
Theorem C44_one_zone_at_a_time_refuted :
  exists shape delta inv binv q idx idx' c c',
  crystal shape delta q /\ inverses shape delta inv binv /\ length idx = 3%nat /\
  decrement_brillouin_zone shape inv binv idx = Some idx' /\ crossed shape q idx c /\ crossed shape q idx' c' /\
  (c' + 1 < c)%nat.
Proof. exact zone_skipped. Qed.
Print Assumptions C44_one_zone_at_a_time_refuted.

(** In a skew crystal an index can stay although it is far outside the first zone: some
    reciprocal lattice vector leaves less than 0.4 of the squared length. *)
Theorem C44_fixed_points_in_first_zone_refuted :
  exists shape delta inv binv q idx m,
  crystal shape delta q /\ inverses shape delta inv binv /\ length idx = 3%nat /\ length m = 3%nat /\
  decrement_brillouin_zone shape inv binv idx = Some idx /\
  10 * length2 (q (moved_back shape idx m)) < 4 * length2 (q idx).
Proof. exact not_first_zone. Qed.
Print Assumptions C44_fixed_points_in_first_zone_refuted.

(** With any other number of axes the call raises. *)
Theorem C44_raises_outside_three_dimensions :
  forall shape inv binv idx, length shape <> 3%nat -> decrement_brillouin_zone shape inv binv idx = None.
Proof. exact dimension_facts. Qed.
Print Assumptions C44_raises_outside_three_dimensions.
