(** Properties of the localisation about a largest value (C102). *)
From Coq Require Import Reals.
From Verif Require Import ZLib Csum DFT NumPy Index Spec Basis SpecBasis Operator SpecOperator Wavepacket SpecWavepacket Localize SpecLocalize
  SpecTightCell TwoPoint SpecTwoPoint TwoPointProofs2 TwoPointFacts.
Local Open Scope R_scope.
Local Open Scope C_scope.

Example ex_C102 : Forall (fun n => (0 < n)%nat) [2%nat; 3%nat] /\ bwf (BTuple ex_axes2) /\ explicit_orthonormal (BTuple ex_axes2) /\
  length [2%nat; 3%nat] = length ex_axes2 /\ (length ex_axes2 = 2%nat \/ length ex_axes2 = 3%nat) /\ map bsize ex_axes2 = map bfund ex_axes2 /\
  ashape ex_matrix2 = [nprod [2%nat; 3%nat]; bsize (BTuple ex_axes2)].
Proof. exact ex_two_point_ok. Qed.

(** With as many states as points along every axis, the first point is one where the wave of
    the first sample is largest and the second is its mirror image, both in the cell around the
    given offset. *)
Theorem C102_two_points :
  forall same, identity_test same -> forall ls saxes, Forall (fun n => (0 < n)%nat) ls -> bwf (BTuple saxes) ->
  explicit_orthonormal (BTuple saxes) -> length ls = length saxes ->
  forall d offset, length saxes = 2%nat \/ length saxes = 3%nat -> map bsize saxes = map bfund saxes ->
  nprod (ashape d) = (nprod ls * bsize (BTuple saxes))%nat ->
  exists i0 i1, get_wavepacket_two_points same (map BFundT ls) saxes d offset = Some (i0, i1) /\
    in_window (map bfund saxes) (cell_corner (map bfund saxes) offset) i0 /\
    in_window (map bfund saxes) (cell_corner (map bfund saxes) offset) i1 /\ mirrored (map bfund saxes) i0 i1 /\
    forall nx, length nx = length (map bfund saxes) ->
      (Cmod (wave_at ls saxes (aflat d) 0 nx) <= Cmod (wave_at ls saxes (aflat d) 0 i0))%R.
Proof. exact two_points_spec. Qed.
Print Assumptions C102_two_points.

(** Otherwise the points are wrapped by the number of states (finding): a single state that is
    one at the second of two points is zero at both. *)
Theorem C102_two_points_few_states_refuted :
  forall same, identity_test same ->
  get_wavepacket_two_points same (map BFundT [1%nat; 1%nat]) few_axes few_data (0, 0)%Z = Some ([0; 0]%Z, [0; 0]%Z) /\
  wave_at [1%nat; 1%nat] few_axes (aflat few_data) 0 [0; 0]%Z = 0 /\
  Cmod (wave_at [1%nat; 1%nat] few_axes (aflat few_data) 0 [1; 0]%Z) = 1%R.
Proof. exact few_points. Qed.
Print Assumptions C102_two_points_few_states_refuted.

Theorem C102_two_points_raise :
  forall same laxes saxes d offset alpha, ~ (length saxes = 2%nat \/ length saxes = 3%nat) ->
  get_wavepacket_two_points same laxes saxes d offset = None /\ localize_two_point_max same laxes saxes d offset alpha = None.
Proof. exact two_points_raise. Qed.
Print Assumptions C102_two_points_raise.
Example ex_C102_raise : ~ (length [BFund 2] = 2%nat \/ length [BFund 2] = 3%nat).
Proof. cbn. intros [H|H]; discriminate. Qed.

(** On data with a row for each sample every sample is multiplied by a phase, such that its wave
    has, at the two points, phases equally far on either side of the angle, at most an eighth of a
    turn, up to the sign at the second. *)
Theorem C102_two_point_max :
  forall same, identity_test same -> forall ls saxes, Forall (fun n => (0 < n)%nat) ls -> bwf (BTuple saxes) ->
  explicit_orthonormal (BTuple saxes) -> length ls = length saxes ->
  forall d offset alpha, length saxes = 2%nat \/ length saxes = 3%nat -> ashape d = [nprod ls; bsize (BTuple saxes)] ->
  exists i0 i1 out, get_wavepacket_two_points same (map BFundT ls) saxes d offset = Some (i0, i1) /\
    localize_two_point_max same (map BFundT ls) saxes d offset alpha = Some out /\ ashape out = [nprod ls; bsize (BTuple saxes)] /\
    forall s, (s < nprod ls)%nat -> exists theta delta sg : R,
      (forall k, (k < bsize (BTuple saxes))%nat ->
         row (bsize (BTuple saxes)) (aflat out) s k = cis theta * row (bsize (BTuple saxes)) (aflat d) s k) /\
      (- (PI / 4) <= delta < PI / 4)%R /\ (sg = 1 \/ sg = -1)%R /\
      wave_at ls saxes (aflat out) s i0 = RtoC (Cmod (wave_at ls saxes (aflat d) s i0)) * cis (alpha - delta) /\
      wave_at ls saxes (aflat out) s i1 = RtoC (sg * Cmod (wave_at ls saxes (aflat d) s i1)) * cis (alpha + delta).
Proof. exact two_point_phases. Qed.
Print Assumptions C102_two_point_max.

Example ex_C102_flat : ashape flat_few = [(nprod [2%nat; 3%nat] * bsize (BTuple ex_axes2))%nat] /\
  (1 < nprod [2%nat; 3%nat])%nat /\ (0 < bsize (BTuple ex_axes2))%nat.
Proof. exact ex_flat_ok. Qed.

(** On flat data, as the other functions return them, the result is the data once for every
    sample, which cannot be reshaped to a wavepacket when there is more than one (finding). *)
Theorem C102_two_point_max_flat_refuted :
  forall same, identity_test same -> forall ls saxes, Forall (fun n => (0 < n)%nat) ls -> bwf (BTuple saxes) ->
  explicit_orthonormal (BTuple saxes) -> length ls = length saxes ->
  forall d offset alpha, length saxes = 2%nat \/ length saxes = 3%nat -> ashape d = [(nprod ls * bsize (BTuple saxes))%nat] ->
  exists out (theta : nat -> R), localize_two_point_max same (map BFundT ls) saxes d offset alpha = Some out /\
    ashape out = [nprod ls; (nprod ls * bsize (BTuple saxes))%nat] /\
    (forall s t, (s < nprod ls)%nat -> (t < nprod ls * bsize (BTuple saxes))%nat ->
       aflat out (s * (nprod ls * bsize (BTuple saxes)) + t) = cis (theta s) * aflat d t) /\
    ((1 < nprod ls)%nat -> (0 < bsize (BTuple saxes))%nat -> reshape out [nprod ls; bsize (BTuple saxes)] = None).
Proof. exact two_point_flat. Qed.
Print Assumptions C102_two_point_max_flat_refuted.

(** The variant for a single point indexes a one-dimensional array with two slices: it raises on
    every input (finding). *)
Theorem C102_max_point_raises :
  forall same laxes saxes d alpha, localize_max_point same laxes saxes d alpha = None.
Proof. exact max_point_raises. Qed.
Print Assumptions C102_max_point_raises.
