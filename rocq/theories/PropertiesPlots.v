(** What plotted lines and meshes show (C117). *)
From Coq Require Import Reals.
From Verif Require Import ZLib Csum DFT NumPy Index Basis SpecBasis SpecReal SpecReduce SpecStateList SpecWavepacket Lattice Hamiltonian Paths SpecPaths VolumeBasis
  SpecVolumeBasis VolumeBasisFacts Plots SpecPlots PlotsProofs4 PlotsProofs5 PlotsFacts.
Local Open Scope R_scope.

Example C117_case : identity_test (fun _ _ => false) /\ in_space (length ex_skew) ex_skew /\ bwf (stacked ex_skew) /\ explicit_orthonormal (stacked ex_skew) /\
  is_inverse (length ex_skew) (lattice_of ex_skew) ex_skew_inverse /\ fundamental_shape ex_skew = [3%nat; 2%nat] /\
  in_shape [1%nat] (remaining 0%nat [0%nat] (fundamental_shape ex_skew)) /\ at_axes 2 [0%nat] [2%nat] [1%nat] [2%nat; 1%nat] /\
  in_shape [] (remaining 0%nat [1%nat; 0%nat] (fundamental_shape ex_skew)) /\ at_axes 2 [1%nat; 0%nat] [1%nat; 2%nat] [] [2%nat; 1%nat].
Proof. exact skew_plots. Qed.

(** plot_data_1d_x: one point for every point of the grid along the axis, at its place along the
    lattice vector and with the value of the state there; the points are evenly spaced and one
    more point, a whole lattice vector from the first, has the value of the first.  Phases of
    neighbouring points differ by at most pi. *)
Theorem C117_line_in_position :
  forall same axes, identity_test same -> in_space (length axes) axes -> bwf (stacked axes) -> explicit_orthonormal (stacked axes) ->
  let nd := length axes in let F := fundamental_shape axes in
  forall data a idx m, (a < nd)%nat -> (exists c, (c < nd)%nat /\ lattice_of axes a c <> 0) -> (2 <= nth a F 0)%nat -> in_shape idx (remaining 0%nat [a] F) ->
  exists line, plot_data_1d_x same axes data a (Some idx) m = Some line /\ length line = S (nth a F 0%nat) /\
    (forall i full, (i < nth a F 0)%nat -> at_axes nd [a] [i] idx full ->
       line_x line i = along nd (lattice_of axes a) (lattice_point F (lattice_of axes) (fun b => Z.of_nat (nth b full 0%nat))) /\
       shows m (amplitude (stacked axes) data (ravel F full)) (line_y line i)) /\
    (forall i, (i < nth a F 0)%nat -> line_x line (S i) - line_x line i = sqrt (rsum (fun c => lattice_of axes a c ^ 2) nd) / INR (nth a F 0%nat)) /\
    line_y line (nth a F 0%nat) = line_y line 0 /\
    (m = PAngle -> forall i, (S i < nth a F 0)%nat -> Rabs (line_y line (S i) - line_y line i) <= PI).
Proof. exact plot_line_x. Qed.
Print Assumptions C117_line_in_position.

(** plot_data_1d_k: the momenta along the axis in ascending order, evenly spaced, with the shares
    of the waves in the state. *)
Theorem C117_line_in_momentum :
  forall same axes inv, identity_test same -> in_space (length axes) axes -> bwf (stacked axes) -> explicit_orthonormal (stacked axes) ->
  let nd := length axes in let F := fundamental_shape axes in is_inverse nd (lattice_of axes) inv ->
  forall data a idx m, (a < nd)%nat -> (2 <= nth a F 0)%nat -> in_shape idx (remaining 0%nat [a] F) ->
  exists line, plot_data_1d_k same axes inv data a (Some idx) m = Some line /\ length line = S (nth a F 0%nat) /\
    (forall i full, (i < nth a F 0)%nat -> at_axes nd [a] [ascending (nth a F 0%nat) i] idx full ->
       line_x line i = along nd (dk_stacked inv a) (fun c => fundamental_stacked_k_points F inv c (ravel F full)) /\
       shows m (momentum_amplitude axes inv data (ravel F full)) (line_y line i)) /\
    (forall i, (i < nth a F 0)%nat -> line_x line (S i) - line_x line i = sqrt (rsum (fun c => dk_stacked inv a c ^ 2) nd)) /\
    line_y line (nth a F 0%nat) = line_y line 0 /\
    (m = PAngle -> forall i, (S i < nth a F 0)%nat -> Rabs (line_y line (S i) - line_y line i) <= PI).
Proof. exact plot_line_k. Qed.
Print Assumptions C117_line_in_momentum.

(** plot_data_1d_n: the values of the state against the numbers of the points. *)
Theorem C117_line_of_indices :
  forall same axes, identity_test same -> in_space (length axes) axes -> bwf (stacked axes) -> explicit_orthonormal (stacked axes) ->
  let nd := length axes in let F := fundamental_shape axes in
  forall data a idx m (periodic : bool), (a < nd)%nat -> in_shape idx (remaining 0%nat [a] F) -> (periodic = true -> (2 <= nth a F 0)%nat) ->
  exists line, plot_data_1d_n same axes data a (Some idx) m periodic = Some line /\ length line = (nth a F 0 + if periodic then 1 else 0)%nat /\
    (forall i, (i < length line)%nat -> line_x line i = INR i) /\
    (forall i full, (i < nth a F 0)%nat -> at_axes nd [a] [i] idx full -> shows m (amplitude (stacked axes) data (ravel F full)) (line_y line i)) /\
    (periodic = true -> line_y line (nth a F 0%nat) = line_y line 0).
Proof. exact plot_line_n. Qed.
Print Assumptions C117_line_of_indices.

(** plot_data_2d_x: every point of the slice with the value of the state there.  Distances between
    points are kept, the first axis is horizontal and the second points upwards.  The colour
    limits just hold the values. *)
Theorem C117_mesh_in_position :
  forall same axes, identity_test same -> in_space (length axes) axes -> bwf (stacked axes) -> explicit_orthonormal (stacked axes) ->
  let nd := length axes in let F := fundamental_shape axes in
  forall inv data a b idx m, is_inverse nd (lattice_of axes) inv -> (a < nd)%nat -> (b < nd)%nat -> a <> b -> in_shape idx (remaining 0%nat [a; b] F) ->
  let point (full : list nat) := lattice_point F (lattice_of axes) (fun b => Z.of_nat (nth b full 0%nat)) in
  exists me, plot_data_2d_x same axes data a b (Some idx) m = Some me /\
    (forall i j full, (i < nth a F 0)%nat -> (j < nth b F 0)%nat -> at_axes nd [a; b] [i; j] idx full ->
       shows m (amplitude (stacked axes) data (ravel F full)) (mesh_value me i j)) /\
    (forall i j i' j' full full', (i < nth a F 0)%nat -> (j < nth b F 0)%nat -> (i' < nth a F 0)%nat -> (j' < nth b F 0)%nat ->
       at_axes nd [a; b] [i; j] idx full -> at_axes nd [a; b] [i'; j'] idx full' ->
       sqrt ((fst (mesh_at me i j) - fst (mesh_at me i' j')) ^ 2 + (snd (mesh_at me i j) - snd (mesh_at me i' j')) ^ 2) = distance nd (point full) (point full')) /\
    (forall i j, (S i < nth a F 0)%nat -> (j < nth b F 0)%nat ->
       fst (mesh_at me (S i) j) - fst (mesh_at me i j) = sqrt (rsum (fun c => lattice_of axes a c ^ 2) nd) / INR (nth a F 0%nat) /\ snd (mesh_at me (S i) j) = snd (mesh_at me i j)) /\
    (forall i j, (i < nth a F 0)%nat -> (S j < nth b F 0)%nat -> snd (mesh_at me i j) < snd (mesh_at me i (S j))) /\
    limits_fit m (nth a F 0%nat) (nth b F 0%nat) (mesh_value me) (mesh_lim me) /\
    (m = PAngle -> forall i j, Rabs (mesh_value me i (S j) - mesh_value me i j) <= PI).
Proof. exact plot_mesh_x. Qed.
Print Assumptions C117_mesh_in_position.

(** plot_data_2d_k: the same for momenta, in ascending order along both axes. *)
Theorem C117_mesh_in_momentum :
  forall same axes inv, identity_test same -> in_space (length axes) axes -> bwf (stacked axes) -> explicit_orthonormal (stacked axes) ->
  let nd := length axes in let F := fundamental_shape axes in is_inverse nd (lattice_of axes) inv ->
  forall data a b idx m, (a < nd)%nat -> (b < nd)%nat -> a <> b -> in_shape idx (remaining 0%nat [a; b] F) ->
  let point (full : list nat) c := fundamental_stacked_k_points F inv c (ravel F full) in
  let place i j full := at_axes nd [a; b] [ascending (nth a F 0%nat) i; ascending (nth b F 0%nat) j] idx full in
  exists me, plot_data_2d_k same axes inv data a b (Some idx) m = Some me /\
    (forall i j full, (i < nth a F 0)%nat -> (j < nth b F 0)%nat -> place i j full -> shows m (momentum_amplitude axes inv data (ravel F full)) (mesh_value me i j)) /\
    (forall i j i' j' full full', (i < nth a F 0)%nat -> (j < nth b F 0)%nat -> (i' < nth a F 0)%nat -> (j' < nth b F 0)%nat ->
       place i j full -> place i' j' full' ->
       sqrt ((fst (mesh_at me i j) - fst (mesh_at me i' j')) ^ 2 + (snd (mesh_at me i j) - snd (mesh_at me i' j')) ^ 2) = distance nd (point full) (point full')) /\
    (forall i j, (S i < nth a F 0)%nat -> (j < nth b F 0)%nat ->
       fst (mesh_at me (S i) j) - fst (mesh_at me i j) = sqrt (rsum (fun c => dk_stacked inv a c ^ 2) nd) /\ snd (mesh_at me (S i) j) = snd (mesh_at me i j)) /\
    (forall i j, (i < nth a F 0)%nat -> (S j < nth b F 0)%nat -> snd (mesh_at me i j) < snd (mesh_at me i (S j))) /\
    limits_fit m (nth a F 0%nat) (nth b F 0%nat) (mesh_value me) (mesh_lim me) /\
    (m = PAngle -> forall i j, Rabs (mesh_value me i (S j) - mesh_value me i j) <= PI).
Proof. exact plot_mesh_k. Qed.
Print Assumptions C117_mesh_in_momentum.

(** Without an index the slice goes through a point with the largest modulus: in position ... *)
Theorem C117_default_in_position :
  forall same axes, identity_test same -> in_space (length axes) axes -> bwf (stacked axes) -> explicit_orthonormal (stacked axes) ->
  let nd := length axes in let F := fundamental_shape axes in
  forall data, exists D : list nat -> list nat,
    (forall axs, good_axes nd axs -> in_shape (D axs) F /\ in_shape (remaining 0%nat axs (D axs)) (remaining 0%nat axs F) /\
       forall other, in_shape other F -> Cmod (amplitude (stacked axes) data (ravel F other)) <= Cmod (amplitude (stacked axes) data (ravel F (D axs)))) /\
    (forall a m, (a < nd)%nat -> plot_data_1d_x same axes data a None m = plot_data_1d_x same axes data a (Some (remaining 0%nat [a] (D [a]))) m) /\
    (forall a m p, (a < nd)%nat -> plot_data_1d_n same axes data a None m p = plot_data_1d_n same axes data a (Some (remaining 0%nat [a] (D [a]))) m p) /\
    (forall a b m, (a < nd)%nat -> (b < nd)%nat -> a <> b -> plot_data_2d_x same axes data a b None m = plot_data_2d_x same axes data a b (Some (remaining 0%nat [a; b] (D [a; b]))) m).
Proof. exact default_x. Qed.
Print Assumptions C117_default_in_position.

(** ... and for meshes in momentum, ... *)
Theorem C117_default_in_momentum :
  forall same axes, identity_test same -> in_space (length axes) axes -> bwf (stacked axes) -> explicit_orthonormal (stacked axes) ->
  let nd := length axes in let F := fundamental_shape axes in
  forall inv data, is_inverse nd (lattice_of axes) inv -> exists full, in_shape full F /\
    (forall axs, good_axes nd axs -> in_shape (remaining 0%nat axs full) (remaining 0%nat axs F)) /\
    (forall other, in_shape other F -> Cmod (momentum_amplitude axes inv data (ravel F other)) <= Cmod (momentum_amplitude axes inv data (ravel F full))) /\
    (forall a b m, (a < nd)%nat -> (b < nd)%nat -> a <> b -> plot_data_2d_k same axes inv data a b None m = plot_data_2d_k same axes inv data a b (Some (remaining 0%nat [a; b] full)) m).
Proof. exact default_k. Qed.
Print Assumptions C117_default_in_momentum.

(** ... but not for lines in momentum, where it goes through the place of the largest entry of the
    vector as it was given: here the line is zero although the state is not. *)
Theorem C117_default_line_in_momentum_refuted :
  exists same axes inv data line, identity_test same /\ in_space (length axes) axes /\ bwf (stacked axes) /\ explicit_orthonormal (stacked axes) /\
  is_inverse (length axes) (lattice_of axes) inv /\
  plot_data_1d_k same axes inv data 0 None PAbs = Some line /\ length line = 3%nat /\ (forall i, (i < 3)%nat -> line_y line i = 0) /\
  exists j, (j < nprod (fundamental_shape axes))%nat /\ momentum_amplitude axes inv data j <> RtoC 0.
Proof. exact momentum_default. Qed.
Print Assumptions C117_default_line_in_momentum_refuted.

(** The last step of a line of phases is not a small one: the phase of a wave with one turn rises
    evenly and falls back at the end. *)
Theorem C117_phase_at_end_refuted :
  exists same axes data line, identity_test same /\ in_space (length axes) axes /\ bwf (stacked axes) /\ explicit_orthonormal (stacked axes) /\
  plot_data_1d_x same axes data 0 None PAngle = Some line /\ length line = 5%nat /\
  (forall i, (i < 3)%nat -> line_y line (S i) - line_y line i = PI / 2) /\ line_y line 4 - line_y line 3 = - (3 * (PI / 2)).
Proof. exact phase_end. Qed.
Print Assumptions C117_phase_at_end_refuted.

(** An axis with one point cannot be plotted periodically. *)
Theorem C117_single_point_raises :
  forall same axes, let nd := length axes in let F := fundamental_shape axes in
  forall inv data a idx m, (a < nd)%nat -> (nth a F 0 < 2)%nat ->
  plot_data_1d_x same axes data a idx m = None /\ plot_data_1d_k same axes inv data a idx m = None /\ plot_data_1d_n same axes data a idx m true = None.
Proof. exact plots_raise. Qed.
Print Assumptions C117_single_point_raises.
Example C117_single_point_case : let axes := [position_axis_of [1%R] 1%nat] in (0 < length axes)%nat /\ (nth 0 (fundamental_shape axes) 0 < 2)%nat.
Proof. split; repeat constructor. Qed.

(** An index of the wrong length or out of range raises. *)
Theorem C117_wrong_index_raises :
  forall same axes, bwf (stacked axes) -> let nd := length axes in let F := fundamental_shape axes in
  forall inv data a idx m p, (a < nd)%nat ->
  (~ in_shape idx (remaining 0%nat [a] F) ->
   plot_data_1d_x same axes data a (Some idx) m = None /\ plot_data_1d_k same axes inv data a (Some idx) m = None /\ plot_data_1d_n same axes data a (Some idx) m p = None) /\
  (forall b, (b < nd)%nat -> a <> b -> ~ in_shape idx (remaining 0%nat [a; b] F) ->
   plot_data_2d_x same axes data a b (Some idx) m = None /\ plot_data_2d_k same axes inv data a b (Some idx) m = None).
Proof.
  intros same axes Hw nd F inv data a idx m p Ha. split; [exact (plots_bad_index same axes Hw inv data a idx m p Ha)|].
  intros b. exact (fun Hb => meshes_bad_index same axes Hw inv data a b idx m Ha Hb).
Qed.
Print Assumptions C117_wrong_index_raises.
Example C117_wrong_index_case : ~ in_shape [2%nat] (remaining 0%nat [0%nat] (fundamental_shape ex_skew)) /\ ~ in_shape [] (remaining 0%nat [0%nat] (fundamental_shape ex_skew)).
Proof. exact skew_wrong_index. Qed.
