(** Properties of Fourier interpolation of complex (C74) and real values (C75). *)
From Coq Require Import Reals List ZArith Arith Lia Lra.
From Verif Require Import ZLib Csum DFT NumPy Spec SpecBasis IndexSum Fourier SpecFourier FourierFacts.
Import ListNotations.
Local Open Scope R_scope.
Local Open Scope C_scope.

(** ** C74 *)

(** Resizing a 3 x 4 grid to 6 x 8, with the last axis named first: the arguments are valid,
    no axis gets shorter, point (2, 6) of the result is point (1, 3) of the
    grid. *)
Example ex_grid :
  valid_axes [3%nat; 4%nat] [8%nat; 6%nat] [(-1)%Z; 0%Z] [1%nat; 0%nat] /\
  resizes [1%nat; 0%nat] [8%nat; 6%nat] (both_axes 6 8) /\
  not_shorter (both_axes 6 8) [3%nat; 4%nat] /\
  same_point (both_axes 6 8) [3%nat; 4%nat] [2%nat; 6%nat] [1%nat; 3%nat] /\
  Nat.odd (nth (last [1%nat; 0%nat] 0%nat) [3%nat; 4%nat] 0%nat) = true.
Proof.
  split; [exact grid_valid|]. split; [exact grid_resizes|]. split; [exact grid_not_shorter|]. split; [|reflexivity].
  intros [|[|k]] Hk; cbn in *; lia.
Qed.

(** Every value of the result is the sum over the grid of value times kernel: the product over
    the resized axes of the sum of the old frequencies the new grid has, every other axis
    keeping its index. *)
Theorem C74_interpolation : forall shape points s axes ax resize, valid_axes shape s axes ax -> resizes ax s resize ->
  exists shape' out, interpolate_points_fftn shape points s (Some axes) = Some (shape', out) /\ resized_shape resize shape shape' /\
    forall y, in_shape y shape' -> out y = isum shape (fun x => points x * axes_product (keep resize resample) 0 shape y x).
Proof. intros shape points s axes ax resize HV. exact (fftn_spec shape points s (Some axes) ax resize (valid_accepted _ _ _ _ HV)). Qed.
Print Assumptions C74_interpolation.

(** When no axis gets shorter the result agrees with the grid at every shared point. *)
Theorem C74_passes_through : forall shape points s axes ax resize shape' out,
  valid_axes shape s axes ax -> resizes ax s resize -> not_shorter resize shape ->
  interpolate_points_fftn shape points s (Some axes) = Some (shape', out) ->
  forall y x, in_shape y shape' -> in_shape x shape -> same_point resize shape y x -> out y = points x.
Proof. intros shape points s axes ax resize shape' out HV. exact (fftn_through shape points s (Some axes) ax resize shape' out (valid_accepted _ _ _ _ HV)). Qed.
Print Assumptions C74_passes_through.

(** A product of plane waves along the resized axes, with anything along the others, becomes
    the same waves on the new grid, or zero when a frequency is not on the new grid. *)
Theorem C74_plane_waves : forall shape s axes ax resize (slots : nat -> nat) (e : nat -> nat -> C), valid_axes shape s axes ax -> resizes ax s resize ->
  (forall k m, (k < length shape)%nat -> resize k = Some m -> (slots k < nth k shape 0)%nat) ->
  let f k := freq (nth k shape 0%nat) (slots k) in
  exists shape' out,
    interpolate_points_fftn shape
      (index_product (fun k i => match resize k with Some _ => cis (2 * PI * IZR (f k) * position (nth k shape 0%nat) i) | None => e k i end) 0) s (Some axes) = Some (shape', out) /\
    forall y, in_shape y shape' ->
      out y = index_product (fun k i => match resize k with Some m => if fits m (f k) then cis (2 * PI * IZR (f k) * position m i) else 0 | None => e k i end) 0 y.
Proof. intros shape s axes ax resize slots e HV. exact (fftn_waves shape s (Some axes) ax resize slots e (valid_accepted _ _ _ _ HV)). Qed.
Print Assumptions C74_plane_waves.

(** Without [axes] the new sizes go to the last axes backwards. *)
Theorem C74_default_axes : forall shape (points : list nat -> C) s, (length s <= length shape)%nat ->
  Forall (fun n => (0 < n)%nat) shape -> Forall (fun m => (0 < m)%nat) s ->
  exists out, interpolate_points_fftn shape points s None = Some (firstn (length shape - length s) shape ++ rev s, out).
Proof. exact default_shape. Qed.
Print Assumptions C74_default_axes.

(** So the result does not have the shape asked for. *)
Theorem C74_default_order_refuted : forall points, exists out,
  interpolate_points_fftn [2%nat; 3%nat] points [4%nat; 5%nat] None = Some ([5%nat; 4%nat], out).
Proof. intros points. apply (default_shape [2%nat; 3%nat] points [4%nat; 5%nat]); repeat constructor. Qed.
Print Assumptions C74_default_order_refuted.

(** ** C75 *)

(** As C74, the last of the axes using the real kernel. *)
Theorem C75_interpolation : forall shape points s axes ax resize, valid_axes shape s axes ax -> ax <> [] -> resizes ax s resize ->
  exists shape' out, interpolate_points_rfftn shape points s (Some axes) = Some (shape', out) /\ resized_shape resize shape shape' /\
    forall y, in_shape y shape' -> out y = fst (isum shape (fun x => RtoC (points x) * axes_product (keep_real (last ax 0%nat) resize) 0 shape y x)).
Proof. intros shape points s axes ax resize HV. exact (rfftn_spec shape points s (Some axes) ax resize (valid_accepted _ _ _ _ HV)). Qed.
Print Assumptions C75_interpolation.

(** The result agrees with the grid at shared points when no axis gets shorter and the last of
    the axes has odd length or keeps its length. *)
Theorem C75_passes_through : forall shape points s axes ax resize shape' out,
  valid_axes shape s axes ax -> ax <> [] -> resizes ax s resize -> not_shorter resize shape ->
  interpolate_points_rfftn shape points s (Some axes) = Some (shape', out) ->
  Nat.odd (nth (last ax 0%nat) shape 0%nat) = true \/ resize (last ax 0%nat) = Some (nth (last ax 0%nat) shape 0%nat) ->
  forall y x, in_shape y shape' -> in_shape x shape -> same_point resize shape y x -> out y = points x.
Proof. intros shape points s axes ax resize shape' out HV. exact (rfftn_through shape points s (Some axes) ax resize shape' out (valid_accepted _ _ _ _ HV)). Qed.
Print Assumptions C75_passes_through.

(** When its length is even and grows, the alternating component along it is counted twice. *)
Theorem C75_even_axis : forall shape points s axes ax resize shape' out m,
  valid_axes shape s axes ax -> ax <> [] -> resizes ax s resize -> not_shorter resize shape ->
  interpolate_points_rfftn shape points s (Some axes) = Some (shape', out) ->
  let a := last ax 0%nat in let n := nth a shape 0%nat in
  Nat.even n = true -> resize a = Some m -> (n < m)%nat ->
  forall y x, in_shape y shape' -> in_shape x shape -> same_point resize shape y x ->
    out y = (points x + / INR n * rsum (fun j => cos (PI * IZR (Z.of_nat (nth a x 0%nat) - Z.of_nat j)) * points (update a j x)) n)%R.
Proof. intros shape points s axes ax resize shape' out m HV. exact (rfftn_even shape points s (Some axes) ax resize shape' out m (valid_accepted _ _ _ _ HV)). Qed.
Print Assumptions C75_even_axis.

(** So agreement fails: 1, -1 on four points starts with 2. *)
Theorem C75_even_axis_refuted : valid_axes [2%nat] [4%nat] [0%Z] [0%nat] /\
  exists out, interpolate_points_rfftn [2%nat] saw [4%nat] (Some [0%Z]) = Some ([4%nat], out) /\ out [0%nat] = 2 /\ saw [0%nat] = 1.
Proof. split; [exact saw_valid|exact saw_doubled]. Qed.
Print Assumptions C75_even_axis_refuted.

(** Along one axis: the same kernel; forcing symmetry changes nothing. *)
Theorem C75_one_axis : forall shape points n axis a, names_axis (length shape) axis a -> (0 < nth a shape 0)%nat -> (0 < n)%nat ->
  exists out, interpolate_points_rfft shape points n axis = Some (update a n shape, out) /\
    forall y, in_shape y (update a n shape) ->
      out y = rsum (fun x => (points (update a x y) * fst (real_resample (nth a shape 0%nat) n (nth a y 0%nat) x))%R) (nth a shape 0%nat).
Proof. intros shape points n axis a HA. exact (rfft_spec shape points n axis a (names_norm _ _ _ HA)). Qed.
Print Assumptions C75_one_axis.

(** Shared points along one axis. *)
Theorem C75_one_axis_passes_through : forall shape points n axis a out, names_axis (length shape) axis a -> (nth a shape 0 <= n)%nat ->
  Nat.odd (nth a shape 0%nat) = true \/ n = nth a shape 0%nat ->
  interpolate_points_rfft shape points n axis = Some (update a n shape, out) ->
  forall y x, in_shape y (update a n shape) -> in_shape x shape -> (nth a y 0 * nth a shape 0 = nth a x 0 * n)%nat -> update a (nth a x 0%nat) y = x -> out y = points x.
Proof. intros shape points n axis a out HA. exact (rfft_through shape points n axis a out (names_norm _ _ _ HA)). Qed.
Print Assumptions C75_one_axis_passes_through.

(** Mirror symmetric values stay mirror symmetric. *)
Theorem C75_symmetric : forall shape points n axis a out, names_axis (length shape) axis a -> (0 < nth a shape 0)%nat -> (0 < n)%nat ->
  interpolate_points_rfft shape points n axis = Some (update a n shape, out) ->
  (forall x idx, (x < nth a shape 0)%nat -> length idx = length shape -> points (update a ((nth a shape 0 - x) mod nth a shape 0)%nat idx) = points (update a x idx)) ->
  forall y, in_shape y (update a n shape) -> (0 < nth a y 0)%nat -> out (update a (n - nth a y 0)%nat y) = out y.
Proof. intros shape points n axis a out HA. exact (rfft_symmetric shape points n axis a out (names_norm _ _ _ HA)). Qed.
Print Assumptions C75_symmetric.

(** Padding the half spectrum first does not change the inverse transform. *)
Theorem C75_half_spectrum_padding : forall shape (v : list nat -> C) n a y shape' p, (a < length shape)%nat -> length y = length shape ->
  pad_ft_points_real_axis (RtoC 0) shape v n a = (shape', p) ->
  nth a shape' 0%nat = (n / 2 + 1)%nat /\
  along a (irfft_forward (nth a shape' 0%nat) n) p y = along a (irfft_forward (nth a shape 0%nat) n) v y.
Proof. exact real_padding. Qed.
Print Assumptions C75_half_spectrum_padding.
