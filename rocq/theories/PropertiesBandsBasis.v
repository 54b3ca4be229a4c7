(** Properties of the bands of a tunnelling simulation taken from wavepackets (C115). *)
From Coq Require Import Reals.
From Verif Require Import ZLib Csum DFT NumPy Index Spec Basis SpecBasis Operator SpecOperator Wavepacket SpecWavepacket Localize SpecLocalize
  SpecTightCell TwoPoint SpecTwoPoint TwoPointProofs2 TwoPointFacts Dynamics BandsBasis BandsBasisProofs.
Local Open Scope R_scope.
Local Open Scope C_scope.

Definition ex_bands_data : ndarray := {| ashape := [2%nat; 72%nat]; aflat := fun t => RtoC (INR t) |}.
Example ex_C115 : Forall (fun n => (0 < n)%nat) [2%nat; 3%nat] /\ bwf (BTuple ex_axes2) /\ explicit_orthonormal (BTuple ex_axes2) /\
  length [2%nat; 3%nat] = length ex_axes2 /\ (length ex_axes2 = 2%nat \/ length ex_axes2 = 3%nat) /\ map bsize ex_axes2 = map bfund ex_axes2 /\
  (0 < 2)%nat /\ nprod (ashape ex_bands_data) = (2 * (nprod [2%nat; 3%nat] * bsize (BTuple ex_axes2)))%nat.
Proof. destruct ex_two_point_ok as [A [B [C [D [E [F _]]]]]]. repeat (split; [try assumption; auto with arith|]). reflexivity. Qed.

(** The location of a band is the middle of two points of the grid of the cell around the origin:
    a point where the wave of the first sample is largest and its mirror image. *)
Theorem C115_locations :
  forall same, identity_test same -> forall ls saxes, Forall (fun n => (0 < n)%nat) ls -> bwf (BTuple saxes) ->
  explicit_orthonormal (BTuple saxes) -> length ls = length saxes ->
  length saxes = 2%nat \/ length saxes = 3%nat -> map bsize saxes = map bfund saxes ->
  forall nb d delta, (0 < nb)%nat -> nprod (ashape d) = (nb * (nprod ls * bsize (BTuple saxes)))%nat ->
  exists b, from_wavepackets same nb (map BFundT ls) saxes d delta = Some b /\ band_count b = nb /\
    (forall a c, band_cell b a c = delta a c) /\
    forall k, (k < nb)%nat -> exists i0 i1,
      in_window (map bfund saxes) (cell_corner (map bfund saxes) (0, 0)%Z) i0 /\
      in_window (map bfund saxes) (cell_corner (map bfund saxes) (0, 0)%Z) i1 /\ mirrored (map bfund saxes) i0 i1 /\
      (forall nx, length nx = length (map bfund saxes) ->
         (Cmod (wave_at ls saxes (fun t => aflat d (k * (nprod ls * bsize (BTuple saxes)) + t)%nat) 0 nx) <=
          Cmod (wave_at ls saxes (fun t => aflat d (k * (nprod ls * bsize (BTuple saxes)) + t)%nat) 0 i0))%R) /\
      forall ax, (ax < 2)%nat -> band_location b ax k = ((IZR (nth ax i0 0%Z) + IZR (nth ax i1 0%Z)) / 2)%R.
Proof. exact bands_locations. Qed.
Print Assumptions C115_locations.

(** With as many points along the first two axes every location is on the diagonal of the cell. *)
Theorem C115_square_cell :
  forall same ls saxes n rest, identity_test same -> Forall (fun n => (0 < n)%nat) ls -> bwf (BTuple saxes) ->
  explicit_orthonormal (BTuple saxes) -> length ls = length saxes ->
  length saxes = 2%nat \/ length saxes = 3%nat -> map bsize saxes = map bfund saxes ->
  map bfund saxes = n :: n :: rest -> (0 < n)%nat ->
  forall nb d delta, (0 < nb)%nat -> nprod (ashape d) = (nb * (nprod ls * bsize (BTuple saxes)))%nat ->
  exists b, from_wavepackets same nb (map BFundT ls) saxes d delta = Some b /\
    forall k, (k < nb)%nat -> band_location b 0 k = band_location b 1 k.
Proof. exact square_locations. Qed.
Print Assumptions C115_square_cell.
Example ex_C115_square : map bfund corner_axes = [4%nat; 4%nat] /\ map bsize corner_axes = map bfund corner_axes.
Proof. split; reflexivity. Qed.

(** The simulation reads the location as a fraction of the vectors of the cell, so that it places
    the state of band [k] in the cell [(i, j)] with both fractions of the middle point multiplied
    by the number of points along their axis (finding). *)
Theorem C115_placed_states :
  forall same ls saxes d0 d1 rest, identity_test same -> Forall (fun n => (0 < n)%nat) ls -> bwf (BTuple saxes) ->
  explicit_orthonormal (BTuple saxes) -> length ls = length saxes ->
  length saxes = 2%nat \/ length saxes = 3%nat -> map bsize saxes = map bfund saxes ->
  map bfund saxes = d0 :: d1 :: rest -> (0 < d0)%nat -> (0 < d1)%nat ->
  forall nb d delta, (0 < nb)%nat -> nprod (ashape d) = (nb * (nprod ls * bsize (BTuple saxes)))%nat ->
  exists b, from_wavepackets same nb (map BFundT ls) saxes d delta = Some b /\
    forall k, (k < nb)%nat -> exists i0 i1, mirrored (d0 :: d1 :: rest) i0 i1 /\
      (forall nx, length nx = length saxes ->
         (Cmod (wave_at ls saxes (fun t => aflat d (k * (nprod ls * bsize (BTuple saxes)) + t)%nat) 0 nx) <=
          Cmod (wave_at ls saxes (fun t => aflat d (k * (nprod ls * bsize (BTuple saxes)) + t)%nat) 0 i0))%R) /\
      forall n0 n1 i j c, (i < n0)%nat -> (j < n1)%nat ->
      approximate_location b n0 n1 (ravel [n0; n1; nb] [i; j; k]) c =
      ((INR i + INR d0 * middle_fraction d0 (nth 0 i0 0%Z) (nth 0 i1 0%Z)) * delta 0%nat c +
       (INR j + INR d1 * middle_fraction d1 (nth 1 i0 0%Z) (nth 1 i1 0%Z)) * delta 1%nat c)%R.
Proof. exact placed_states. Qed.
Print Assumptions C115_placed_states.

(** A state that is zero but at the point [(1, 1)] of four by four is placed a whole cell away
    from the origin along both axes, not a quarter of one. *)
Theorem C115_misplaced_refuted :
  forall same delta, identity_test same ->
  exists b, from_wavepackets same 1 (map BFundT [1%nat; 1%nat]) corner_axes corner_data delta = Some b /\
    (forall nx, length nx = 2%nat -> wave_at [1%nat; 1%nat] corner_axes (aflat corner_data) 0 nx <> 0 -> cell_point [4%nat; 4%nat] nx = [1%nat; 1%nat]) /\
    forall c, approximate_location b 1 1 0 c = (delta 0%nat c + delta 1%nat c)%R.
Proof. exact corner_misplaced. Qed.
Print Assumptions C115_misplaced_refuted.

(** On a single axis there are no such points. *)
Theorem C115_single_axis_raises :
  forall same nb l s d delta, (0 < nb)%nat -> nprod (ashape d) = (nb * (bsize l * bsize s))%nat ->
  from_wavepackets same nb [l] [s] d delta = None.
Proof. exact one_axis_raises. Qed.
Print Assumptions C115_single_axis_raises.
Example ex_C115_single : (0 < 1)%nat /\ nprod [6%nat] = (1 * (bsize (BFundT 2) * bsize (BFund 3)))%nat.
Proof. split; [auto with arith|reflexivity]. Qed.
