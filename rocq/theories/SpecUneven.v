(** Specification of spline interpolation, uneven potentials and lowest columns (C105). *)
From Coq Require Import Reals List ZArith Arith Lia.
From Verif Require Import ZLib Csum DFT NumPy Spec SpecBasis IndexSum Operator Fourier SpecFourier Uneven.
Import ListNotations.
Local Open Scope R_scope.
Local Open Scope C_scope.

(** The spline depends on the points given only and goes through all of them. *)
Definition spline_ok (spline : spline_fn) : Prop :=
  (forall m old f g, (forall j, (j < m)%nat -> f j = g j) -> spline m old f = spline m old g) /\
  (forall m old f s, spline m old f = Some s -> forall j, (j < m)%nat -> s (old j) = f j).
(** It is defined for these coordinates. *)
Definition spline_defined (spline : spline_fn) (m : nat) (old : nat -> R) : Prop := forall f, spline m old f <> None.

(** Coordinate [k] of [n], evenly spaced from [a] to [b]. *)
Definition even_spot (a b : R) (n k : nat) : R := (a + (b - a) * (INR k / INR (n - 1)))%R.

(** The values along axis [a] through the point [idx]. *)
Definition column (points : list nat -> R) (a : nat) (idx : list nat) (j : nat) : R := points (update a j idx).

(** A grid point lies on the column through [idx] with this spline. *)
Definition on_spline (spline : spline_fn) (m : nat) (old : nat -> R) (f : nat -> R) (x v : R) : Prop :=
  exists s, spline m old f = Some s /\ v = s x.

(** The result along an axis that is not the last one is written when the axes before it or those
    between it and the last one are trivial; [n] is the new length, [l] the length of the last axis. *)
Definition written (before middle : list nat) (n l : nat) : Prop :=
  if (l =? 1)%nat then nprod before = 1%nat \/ nprod middle = 1%nat \/ n = 1%nat
  else nprod middle = 1%nat /\ (nprod before = 1%nat \/ n = 1%nat).

(** The first two axes are resized. *)
Definition in_plane (s0 s1 k : nat) : option nat := match k with 0 => Some s0 | 1 => Some s1 | _ => None end%nat.

(** The real part of the value at a point of a grid. *)
Definition value_at (shape : list nat) (a : ndarray) (x : list nat) : R := fst (aflat a (ravel shape x)).

(** The axes of the interpolated potential: the plane is embedded in three dimensions, the third
    axis goes from the first to the last coordinate. *)
Definition uneven_axes (u : uneven) (s0 s1 s2 : nat) : list position_axis :=
  [{| p_n := s0; p_delta := p_delta (u0 u) ++ [0%R] |};
   {| p_n := s1; p_delta := p_delta (u1 u) ++ [0%R] |};
   {| p_n := s2; p_delta := [0; 0; uz_points u (uz u - 1)%nat - uz_points u 0%nat]%R |}].

(** No axis is empty and there is a value for every point. *)
Definition uneven_wf (u : uneven) : Prop :=
  (0 < p_n (u0 u))%nat /\ (0 < p_n (u1 u))%nat /\ (0 < uz u)%nat /\
  nprod (ashape (u_data u)) = nprod [p_n (u0 u); p_n (u1 u); uz u].

(** The plane at height [l] resampled to [s0] by [s1] points. *)
Definition plane_resampled (n0 n1 nz s0 s1 : nat) (points : list nat -> R) (i j l : nat) : R :=
  fst (isum [n0; n1; nz] (fun x => RtoC (points x) * axes_product (keep_real 1 (in_plane s0 s1)) 0 [n0; n1; nz] [i; j; l] x)).

(** Component [c] of point [k] of an axis. *)
Definition axis_point (a : position_axis) (k c : nat) : R := (nth c (p_delta a) 0%R * INR k / INR (p_n a))%R.

(** Lexicographic order; the order of the reals for real numbers. *)
Definition cle (a b : C) : Prop := (fst a < fst b \/ (fst a = fst b /\ snd a <= snd b))%R.
