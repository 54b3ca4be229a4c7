(** Properties of lines along paths (C123). *)
From Coq Require Import Reals List ZArith Arith.
From Verif Require Import ZLib Csum DFT NumPy Index Spec Basis SpecBasis SpecReal SpecWavepacket VolumeBasis SpecVolumeBasis Plots SpecPlots
  PathPlots SpecPathPlots PathPlotsProofs PathPlotsFacts.
Import ListNotations.
Local Open Scope R_scope.

Example C123_case : identity_test (fun _ _ => false) /\ in_space 2 (two_by_one (BFundT 2)) /\ bwf (stacked (two_by_one (BFundT 2))) /\
  explicit_orthonormal (stacked (two_by_one (BFundT 2))) /\ fundamental_shape (two_by_one (BFundT 2)) = [2%nat; 1%nat] /\
  repeat_of [2%nat; 1%nat] (fun a => if (a =? 0)%nat then 5%Z else (-2)%Z) [1%nat; 0%nat] /\
  map la_basis (two_by_one (BFund 2)) = map BFund (fundamental_shape (two_by_one (BFund 2))) /\
  moved_along 0 0 [1%nat; 0%nat] [0%nat; 0%nat].
Proof. exact two_by_one_case. Qed.

(** A potential along a path: at every point of the path the potential there, however often the
    path leaves the cell, against the length of the path so far. *)
Theorem C123_potential_along_path : forall same axes,
  identity_test same -> in_space (length axes) axes -> bwf (stacked axes) -> explicit_orthonormal (stacked axes) ->
  let F := fundamental_shape axes in
  forall n path wrap m data, (0 < n)%nat ->
  exists line, plot_potential_along_path same axes data n path wrap m = Some line /\ length line = n /\
    (forall j full, (j < n)%nat -> repeat_of F (fun a => path a j) full -> shows m (amplitude (stacked axes) data (ravel F full)) (line_y line j)) /\
    (forall j, (j < n)%nat -> exists full, repeat_of F (fun a => path a j) full) /\
    drawn_at axes n path wrap (line_x line).
Proof. exact potential_line. Qed.
Print Assumptions C123_potential_along_path.

(** A state along a path: the same, for paths that stay within one repeat below and the cell;
    any other path is refused. *)
Theorem C123_state_along_path : forall same axes,
  identity_test same -> in_space (length axes) axes -> bwf (stacked axes) -> explicit_orthonormal (stacked axes) ->
  let F := fundamental_shape axes in
  forall n path wrap m data, (0 < n)%nat ->
  ((exists line, plot_state_along_path same axes data n path wrap m = Some line) <->
   forall a j, (a < length axes)%nat -> (j < n)%nat -> (- Z.of_nat (nth a F 0%nat) <= path a j < Z.of_nat (nth a F 0%nat))%Z) /\
  forall line, plot_state_along_path same axes data n path wrap m = Some line -> length line = n /\
    (forall j full, (j < n)%nat -> repeat_of F (fun a => path a j) full -> shows m (amplitude (stacked axes) data (ravel F full)) (line_y line j)) /\
    drawn_at axes n path wrap (line_x line).
Proof. exact state_line. Qed.
Print Assumptions C123_state_along_path.

(** The path of smallest potential: the path given, with a coordinate inserted along the axis at
    which the potential's data are smallest. *)
Theorem C123_minimum_path : forall shape data path axis, (2 <= length shape)%nat -> Forall (fun n => (0 < n)%nat) shape ->
  forall a, (a < length shape)%nat -> Zcong (Z.of_nat (length shape)) axis (Z.of_nat a) ->
  exists full, get_minimum_path shape data path axis = Some full /\
    (forall b j, (b < a)%nat -> full b j = path b j) /\ (forall b j, (a < b)%nat -> full b j = path (b - 1)%nat j) /\
    (forall j, (0 <= full a j < Z.of_nat (nth a shape 0%nat))%Z) /\
    forall j here other i, repeat_of shape (fun b => full b j) here -> (i < nth a shape 0)%nat -> moved_along a i here other ->
      fst (data (ravel shape here)) <= fst (data (ravel shape other)).
Proof. exact minimum_path. Qed.
Print Assumptions C123_minimum_path.

(** Drawn for a potential given at the points of the grid: the smallest value along the axis. *)
Theorem C123_minimum_along_path : forall same axes data n path axis, identity_test same -> in_space (length axes) axes ->
  (2 <= length axes)%nat -> map la_basis axes = map BFund (fundamental_shape axes) -> Forall (fun k => (0 < k)%nat) (fundamental_shape axes) -> (0 < n)%nat ->
  let F := fundamental_shape axes in
  forall a, (a < length axes)%nat -> Zcong (Z.of_nat (length axes)) axis (Z.of_nat a) ->
  exists line full, plot_potential_minimum_along_path same axes data n path axis = Some line /\ length line = n /\
    (forall b j, (b < a)%nat -> full b j = path b j) /\ (forall b j, (a < b)%nat -> full b j = path (b - 1)%nat j) /\
    drawn_at axes n full false (line_x line) /\
    forall j here, (j < n)%nat -> repeat_of F (fun b => full b j) here ->
      line_y line j = fst (data (ravel F here)) /\
      forall i other, (i < nth a F 0)%nat -> moved_along a i here other -> line_y line j <= fst (data (ravel F other)).
Proof. exact minimum_line. Qed.
Print Assumptions C123_minimum_along_path.

(** For a potential given by its Fourier coefficients the value drawn is not the smallest. *)
Theorem C123_minimum_in_momentum_refuted : exists (data : nat -> C) line,
  let axes := two_by_one (BFundT 2) in
  plot_potential_minimum_along_path (fun _ _ => false) axes data 1 (fun _ _ => 0%Z) 0 = Some line /\
  fst (amplitude (stacked axes) data (ravel [2%nat; 1%nat] [0%nat; 0%nat])) < line_y line 0.
Proof. exact momentum_minimum. Qed.
Print Assumptions C123_minimum_in_momentum_refuted.
