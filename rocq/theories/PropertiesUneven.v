(** Properties of spline interpolation, uneven potentials and lowest columns (C105). *)
From Coq Require Import Reals List ZArith Arith Lia Lra.
From Verif Require Import ZLib Csum DFT NumPy Spec SpecBasis IndexProofs IndexSum Operator Fourier SpecFourier Uneven SpecUneven UnevenProofs UnevenProofs2 UnevenFacts.
Import ListNotations.
Local Open Scope R_scope.
Local Open Scope C_scope.

(** An interpolation through all points, defined at the heights 0, 1 and 3. *)
Example ex_spline : spline_ok point_spline /\ spline_defined point_spline 3 heights /\ names_axis 3 (-1) 2.
Proof. split; [exact point_spline_ok|]. split; [exact (point_spline_defined 3 heights heights_increasing)|]. right. cbn. lia. Qed.

(** Along the last axis every value of the result is that of the spline through the old values
    of its column, at points evenly spaced from the first to the last coordinate. *)
Theorem C105_last_axis : forall (spline : spline_fn) memory before d points old n axis,
  names_axis (S (length before)) axis (length before) -> (0 < d)%nat -> (0 < n)%nat -> spline_ok spline -> spline_defined spline d old ->
  exists out, interpolate_points_along_axis_spline spline memory (before ++ [d]) points d old n axis = Some (before ++ [n], out) /\
    forall idx, in_shape idx (before ++ [n]) ->
      on_spline spline d old (column points (length before) idx) (even_spot (old 0%nat) (old (d - 1)%nat) n (nth (length before) idx 0%nat)) (out idx).
Proof. exact spline_last. Qed.
Print Assumptions C105_last_axis.

(** Two of two by three axes: the middle axis is written for a single leading row, not for two. *)
Example ex_written : written [1%nat] [] 5 3 /\ ~ written [2%nat] [] 5 3.
Proof. split; cbn; [auto|]. intros [_ [H|H]]; discriminate. Qed.

(** Along any other axis this holds exactly when the interpolated values reach the array
    returned; otherwise it holds what its memory held before. *)
Theorem C105_other_axes : forall (spline : spline_fn) memory before d middle l points old n axis,
  names_axis (length (before ++ d :: middle ++ [l])) axis (length before) -> (0 < d)%nat -> (0 < n)%nat -> spline_ok spline -> spline_defined spline d old ->
  exists out, interpolate_points_along_axis_spline spline memory (before ++ d :: middle ++ [l]) points d old n axis = Some (before ++ n :: middle ++ [l], out) /\
    (written before middle n l -> forall idx, in_shape idx (before ++ n :: middle ++ [l]) ->
      on_spline spline d old (column points (length before) idx) (even_spot (old 0%nat) (old (d - 1)%nat) n (nth (length before) idx 0%nat)) (out idx)) /\
    (~ written before middle n l -> forall idx, in_shape idx (before ++ n :: middle ++ [l]) -> out idx = memory idx).
Proof. exact spline_mid. Qed.
Print Assumptions C105_other_axes.

(** So along the first of three axes longer than one no value is interpolated. *)
Theorem C105_first_axis_refuted : forall (spline : spline_fn) memory d m l points old n,
  (0 < d)%nat -> (0 < n)%nat -> (1 < m)%nat -> (1 < l)%nat -> spline_ok spline -> spline_defined spline d old ->
  exists out, interpolate_points_along_axis_spline spline memory [d; m; l] points d old n 0 = Some ([n; m; l], out) /\
    forall idx, in_shape idx [n; m; l] -> out idx = memory idx.
Proof.
  intros spline memory d m l points old n Hd Hn Hm Hl Hok Hdef.
  destruct (spline_mid spline memory [] d [m] l points old n 0 ltac:(left; cbn; split; [lia|reflexivity]) Hd Hn Hok Hdef) as [out [E [_ H]]].
  exists out. split; [exact E|]. apply H. unfold written. rewrite (proj2 (Nat.eqb_neq l 1)) by lia. cbn. lia.
Qed.
Print Assumptions C105_first_axis_refuted.

(** A potential on 2 by 3 points at three heights; on four heights point one is the old one. *)
Example ex_uneven : uneven_wf steps /\ spline_defined point_spline (uz steps) (uz_points steps) /\
  Nat.odd (p_n (u1 steps)) = true /\ even_spot (uz_points steps 0%nat) (uz_points steps (uz steps - 1)%nat) 4 1 = uz_points steps 1%nat /\
  uz_points steps 0%nat <> uz_points steps 2%nat.
Proof.
  split; [exact steps_wf|]. split; [exact (point_spline_defined 3 heights heights_increasing)|]. split; [reflexivity|]. split; [exact steps_middle|].
  cbn. lra.
Qed.

(** Interpolating an uneven potential: the planes are resampled as by C75, then the columns
    follow the spline through them. *)
Theorem C105_uneven_values : forall (spline : spline_fn) memory u s0 s1 s2, uneven_wf u -> spline_ok spline -> spline_defined spline (uz u) (uz_points u) ->
  (0 < s0)%nat -> (0 < s1)%nat -> (0 < s2)%nat ->
  exists data, interpolate_uneven_potential spline memory u s0 s1 s2 = Some (uneven_axes u s0 s1 s2, data) /\
    forall i j k, (i < s0)%nat -> (j < s1)%nat -> (k < s2)%nat ->
      on_spline spline (uz u) (uz_points u)
        (plane_resampled (p_n (u0 u)) (p_n (u1 u)) (uz u) s0 s1 (value_at [p_n (u0 u); p_n (u1 u); uz u] (u_data u)) i j)
        (even_spot (uz_points u 0%nat) (uz_points u (uz u - 1)%nat) s2 k) (data (ravel [s0; s1; s2] [i; j; k])).
Proof. exact uneven_values. Qed.
Print Assumptions C105_uneven_values.

(** Old values are kept where a new point is an old one, when the plane does not shrink and its
    second axis has odd length or keeps its length. *)
Theorem C105_uneven_kept : forall (spline : spline_fn) memory u s0 s1 s2 axes data, uneven_wf u -> spline_ok spline -> spline_defined spline (uz u) (uz_points u) ->
  (0 < s2)%nat -> (p_n (u0 u) <= s0)%nat -> (p_n (u1 u) <= s1)%nat -> Nat.odd (p_n (u1 u)) = true \/ s1 = p_n (u1 u) ->
  interpolate_uneven_potential spline memory u s0 s1 s2 = Some (axes, data) ->
  forall i j k x y l, (i < s0)%nat -> (j < s1)%nat -> (k < s2)%nat -> (x < p_n (u0 u))%nat -> (y < p_n (u1 u))%nat -> (l < uz u)%nat ->
    (i * p_n (u0 u) = x * s0)%nat -> (j * p_n (u1 u) = y * s1)%nat ->
    even_spot (uz_points u 0%nat) (uz_points u (uz u - 1)%nat) s2 k = uz_points u l ->
    data (ravel [s0; s1; s2] [i; j; k]) = value_at [p_n (u0 u); p_n (u1 u); uz u] (u_data u) [x; y; l].
Proof. exact uneven_kept. Qed.
Print Assumptions C105_uneven_kept.

(** The first and the last plane are old planes. *)
Theorem C105_uneven_ends : forall (spline : spline_fn) memory u s0 s1 s2 axes data, uneven_wf u -> spline_ok spline -> spline_defined spline (uz u) (uz_points u) ->
  (1 < s2)%nat -> (p_n (u0 u) <= s0)%nat -> (p_n (u1 u) <= s1)%nat -> Nat.odd (p_n (u1 u)) = true \/ s1 = p_n (u1 u) ->
  interpolate_uneven_potential spline memory u s0 s1 s2 = Some (axes, data) ->
  forall i j x y, (i < s0)%nat -> (j < s1)%nat -> (x < p_n (u0 u))%nat -> (y < p_n (u1 u))%nat ->
    (i * p_n (u0 u) = x * s0)%nat -> (j * p_n (u1 u) = y * s1)%nat ->
    let old := value_at [p_n (u0 u); p_n (u1 u); uz u] (u_data u) in
    data (ravel [s0; s1; s2] [i; j; 0%nat]) = old [x; y; 0%nat] /\ data (ravel [s0; s1; s2] [i; j; (s2 - 1)%nat]) = old [x; y; (uz u - 1)%nat].
Proof.
  intros spline memory u s0 s1 s2 axes data HU Hok Hdef P2 L0 L1 Ho E i j x y Hi Hj Hx Hy Ei Ej old.
  pose proof (proj1 (proj2 (proj2 HU))) as Hz.
  split; apply (uneven_kept spline memory u s0 s1 s2 axes data); try assumption; try lia; [apply spot_first|now apply spot_last].
Qed.
Print Assumptions C105_uneven_ends.

(** The basis returned does not put the planes where their values were taken: apart from the
    first one none of them is at its distance from the first plane. *)
Theorem C105_uneven_spacing_refuted : forall (spline : spline_fn) memory u s0 s1 s2, uneven_wf u -> spline_ok spline -> spline_defined spline (uz u) (uz_points u) ->
  (0 < s0)%nat -> (0 < s1)%nat -> uz_points u 0%nat <> uz_points u (uz u - 1)%nat ->
  forall k, (0 < k < s2)%nat ->
  exists a0 a1 az data, interpolate_uneven_potential spline memory u s0 s1 s2 = Some ([a0; a1; az], data) /\
    axis_point az k 2 <> (even_spot (uz_points u 0%nat) (uz_points u (uz u - 1)%nat) s2 k - uz_points u 0%nat)%R.
Proof.
  intros spline memory u s0 s1 s2 HU Hok Hdef P0 P1 HN k Hk.
  destruct (uneven_values spline memory u s0 s1 s2 HU Hok Hdef P0 P1 ltac:(lia)) as [data [E _]].
  do 4 eexists. split; [exact E|]. exact (spacing_differs _ _ _ _ Hk HN).
Qed.
Print Assumptions C105_uneven_spacing_refuted.

(** The stand-in for an uneven potential has its values and spaces the planes evenly over a
    length of one, wherever they were. *)
Theorem C105_stand_in : forall u, exists a0 a1 az data, mock_even_potential u = ([a0; a1; az], data) /\
  nprod (ashape data) = nprod (ashape (u_data u)) /\ [p_n a0; p_n a1; p_n az] = [p_n (u0 u); p_n (u1 u); uz u] /\
  (forall t, aflat data t = aflat (u_data u) t) /\
  (forall k, axis_point az k 0 = 0%R /\ axis_point az k 1 = 0%R /\ axis_point az k 2 = (INR k / INR (uz u))%R).
Proof.
  intros u. do 4 eexists. split; [reflexivity|]. split; [cbn; lia|]. split; [reflexivity|]. split; [reflexivity|].
  intros k. unfold axis_point. cbn [nth p_delta p_n]. unfold Rdiv. repeat split; ring.
Qed.
Print Assumptions C105_stand_in.

(** Six values on a grid of 1 by 2 by 3 points. *)
Example ex_lowest : let a := {| p_n := 3; p_delta := [0; 0; 2]%R |} in
  nprod [6%nat] = nprod [1%nat; 2%nat; p_n a] /\ nth_error (p_delta a) 2 = Some 2%R.
Proof. split; reflexivity. Qed.

(** The column selected from a potential contains a smallest value of all; its axis has the
    length along z of the third axis. *)
Theorem C105_lowest_column : forall a0 a1 a2 (data : ndarray) dz, (0 < p_n a0)%nat -> (0 < p_n a1)%nat -> (0 < p_n a2)%nat ->
  nprod (ashape data) = nprod [p_n a0; p_n a1; p_n a2] -> nth_error (p_delta a2) 2 = Some dz ->
  let at_ x := aflat data (ravel [p_n a0; p_n a1; p_n a2] x) in
  exists out i j, select_minimum_potential_3d [a0; a1; a2] data = Some ({| p_n := p_n a2; p_delta := [dz] |}, out) /\
    ashape out = [p_n a2] /\ (i < p_n a0)%nat /\ (j < p_n a1)%nat /\
    (forall k, (k < p_n a2)%nat -> aflat out k = at_ [i; j; k]) /\
    (exists k, (k < p_n a2)%nat /\ (forall x, in_shape x [p_n a0; p_n a1; p_n a2] -> cle (aflat out k) (at_ x))).
Proof. exact lowest_column. Qed.
Print Assumptions C105_lowest_column.
