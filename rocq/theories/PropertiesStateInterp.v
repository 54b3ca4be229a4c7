(** Properties of the forms of a state vector and of its interpolation (C103). *)
From Coq Require Import Reals.
From Verif Require Import ZLib Csum DFT NumPy Index Spec Basis SpecBasis IndexSum Operator Wavepacket SpecWavepacket StateList SpecFourier
  StateInterp SpecStateInterp StateInterpProofs StateInterpFacts.
Local Open Scope R_scope.
Local Open Scope C_scope.

Example ex_C103 : bwf (BTuple ex_interp_axes) /\ explicit_orthonormal (BTuple ex_interp_axes) /\
  nprod (ashape ex_interp_data) = bsize (BTuple ex_interp_axes) /\ nth_error [5%nat; 6%nat] 1 = Some 6%nat /\
  given_points 6 [1%Z] ex_resize /\ not_shorter ex_resize (map bfund ex_interp_axes).
Proof. exact ex_interp_ok. Qed.

(** The data in the position basis are the values of the state. *)
Theorem C103_position_form :
  forall same, identity_test same -> forall saxes, bwf (BTuple saxes) -> explicit_orthonormal (BTuple saxes) ->
  forall d, nprod (ashape d) = bsize (BTuple saxes) ->
  exists out, state_to_position same {| vbasis := BTuple saxes; vdata := d |} =
      Some {| vbasis := BTuple (map BFund (map bfund saxes)); vdata := {| ashape := [nprod (map bfund saxes)]; aflat := out |} |} /\
    forall x, (x < nprod (map bfund saxes))%nat -> out x = amplitude (BTuple saxes) (aflat d) x.
Proof. exact position_form. Qed.
Print Assumptions C103_position_form.

(** The data in the momentum basis are the inner products of the plane waves with the state. *)
Theorem C103_momentum_form :
  forall same, identity_test same -> forall saxes, bwf (BTuple saxes) -> explicit_orthonormal (BTuple saxes) ->
  forall d, nprod (ashape d) = bsize (BTuple saxes) ->
  exists out, state_to_momentum same {| vbasis := BTuple saxes; vdata := d |} =
      Some {| vbasis := momenta (map bfund saxes); vdata := {| ashape := [nprod (map bfund saxes)]; aflat := out |} |} /\
    forall k, (k < nprod (map bfund saxes))%nat ->
      out k = csum (fun x => Cconj (bstate (momenta (map bfund saxes)) k x) * amplitude (BTuple saxes) (aflat d) x) (nprod (map bfund saxes)).
Proof. exact momentum_form. Qed.
Print Assumptions C103_momentum_form.

(** Of a dual vector they are the values, and the coefficients, of the functional. *)
Theorem C103_dual_position_form :
  forall same, identity_test same -> forall saxes, bwf (BTuple saxes) -> explicit_orthonormal (BTuple saxes) ->
  forall d, nprod (ashape d) = bsize (BTuple saxes) ->
  exists out, dual_to_position same {| vbasis := BTuple saxes; vdata := d |} =
      Some {| vbasis := BTuple (map BFund (map bfund saxes)); vdata := {| ashape := [nprod (map bfund saxes)]; aflat := out |} |} /\
    forall x, (x < nprod (map bfund saxes))%nat ->
      out x = csum (fun k => aflat d k * Cconj (bstate (BTuple saxes) k x)) (bsize (BTuple saxes)).
Proof. exact dual_position_form. Qed.
Print Assumptions C103_dual_position_form.

Theorem C103_dual_momentum_form :
  forall same, identity_test same -> forall saxes, bwf (BTuple saxes) -> explicit_orthonormal (BTuple saxes) ->
  forall d, nprod (ashape d) = bsize (BTuple saxes) ->
  exists out, dual_to_momentum same {| vbasis := BTuple saxes; vdata := d |} =
      Some {| vbasis := momenta (map bfund saxes); vdata := {| ashape := [nprod (map bfund saxes)]; aflat := out |} |} /\
    forall k, (k < nprod (map bfund saxes))%nat ->
      out k = csum (fun x => bstate (momenta (map bfund saxes)) k x *
        csum (fun j => aflat d j * Cconj (bstate (BTuple saxes) j x)) (bsize (BTuple saxes))) (nprod (map bfund saxes)).
Proof. exact dual_momentum_form. Qed.
Print Assumptions C103_dual_momentum_form.

(** Every axis named gets as many points as the second entry of the shape; the new state is the
    trigonometric interpolant of the old one, times the root of the number of points asked for
    over the number obtained. *)
Theorem C103_interpolated :
  forall same, identity_test same -> forall saxes, bwf (BTuple saxes) -> explicit_orthonormal (BTuple saxes) ->
  forall d, nprod (ashape d) = bsize (BTuple saxes) ->
  forall shape axes m resize, nth_error shape 1 = Some m -> given_points m axes resize -> not_shorter resize (map bfund saxes) ->
  exists l out, interpolate_state_vector_momentum same {| vbasis := BTuple saxes; vdata := d |} shape axes =
      Some {| vbasis := BTuple l; vdata := {| ashape := [nprod (map bfund saxes)]; aflat := out |} |} /\
    map bsize l = map bfund saxes /\ resized_shape resize (map bfund saxes) (map bfund l) /\
    forall y, in_shape y (map bfund l) ->
      amplitude (BTuple l) out (ravel (map bfund l) y) =
      RtoC (sqrt (INR (nprod shape) / INR (nprod (map bfund l)))) *
        interpolant resize (map bfund saxes) (fun x => amplitude (BTuple saxes) (aflat d) (ravel (map bfund saxes) x)) y.
Proof. exact interpolate_spec. Qed.
Print Assumptions C103_interpolated.

(** At the points of the old grid the values are the old ones times that root. *)
Theorem C103_common_points :
  forall same, identity_test same -> forall saxes, bwf (BTuple saxes) -> explicit_orthonormal (BTuple saxes) ->
  forall d, nprod (ashape d) = bsize (BTuple saxes) ->
  forall shape axes m resize v, nth_error shape 1 = Some m -> given_points m axes resize -> not_shorter resize (map bfund saxes) ->
  interpolate_state_vector_momentum same {| vbasis := BTuple saxes; vdata := d |} shape axes = Some v ->
  exists l, vbasis v = BTuple l /\
    forall y x, in_shape y (map bfund l) -> in_shape x (map bfund saxes) -> same_point resize (map bfund saxes) y x ->
      amplitude (vbasis v) (aflat (vdata v)) (ravel (map bfund l) y) =
      RtoC (sqrt (INR (nprod shape) / INR (bfund (vbasis v)))) * amplitude (BTuple saxes) (aflat d) (ravel (map bfund saxes) x).
Proof. exact interpolate_common. Qed.
Print Assumptions C103_common_points.

(** So the shape asked for need not be obtained, and then the values change (finding): two by
    four points requested of a state on two by two points give four by four points and values
    smaller by the root of two. *)
Theorem C103_requested_shape_refuted :
  forall same, identity_test same ->
  exists v, interpolate_state_vector_momentum same {| vbasis := BTuple square_axes; vdata := square_data |} [2%nat; 4%nat] [0; 1]%Z = Some v /\
    vbasis v = BTuple [BTrans 2 4; BTrans 2 4] /\
    amplitude (BTuple square_axes) (aflat square_data) 0 = 1 /\
    amplitude (vbasis v) (aflat (vdata v)) 0 = RtoC (sqrt (/ 2)).
Proof. exact square_interp. Qed.
Print Assumptions C103_requested_shape_refuted.

(** It raises exactly when an axis is named and the shape has no second entry, or one smaller
    than that axis. *)
Theorem C103_interpolation_raises :
  forall same, identity_test same -> forall saxes, bwf (BTuple saxes) -> explicit_orthonormal (BTuple saxes) ->
  forall d, nprod (ashape d) = bsize (BTuple saxes) -> forall shape axes,
  interpolate_state_vector_momentum same {| vbasis := BTuple saxes; vdata := d |} shape axes = None <->
  exists k, (k < length saxes)%nat /\ In (Z.of_nat k) axes /\ forall m, nth_error shape 1 = Some m -> (m < nth k (map bfund saxes) 0)%nat.
Proof. exact interpolate_raises. Qed.
Print Assumptions C103_interpolation_raises.

(** In particular on a single axis (finding). *)
Theorem C103_single_axis_raises :
  forall same b d m, identity_test same -> bwf (BTuple [b]) -> explicit_orthonormal (BTuple [b]) ->
  nprod (ashape d) = bsize (BTuple [b]) ->
  interpolate_state_vector_momentum same {| vbasis := BTuple [b]; vdata := d |} [m] [0%Z] = None.
Proof. exact single_axis. Qed.
Print Assumptions C103_single_axis_raises.
