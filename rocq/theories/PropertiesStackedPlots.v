(** Properties of points drawn in a plane (C124). *)
From Coq Require Import Reals ZArith List.
From Verif Require Import ZLib Csum DFT NumPy Index Basis Lattice Hamiltonian Spec SpecReal SpecHamiltonian StateList SpecStateList Brillouin
  Paths SpecPaths SpecBrillouin StackedPlots SpecStackedPlots StackedPlotsProofs StackedPlotsProofs2 StackedPlotsFacts.
Import ListNotations.
Local Open Scope R_scope.

(** ** C124 *)

(** Two axes of a square lattice, and a skew crystal with two points. *)
Example ex_C124_square : independent 2 (unit_delta 0) (unit_delta 1) /\ in_shape [1; 0]%nat [2; 2]%nat.
Proof. split; [exact unit_independent|repeat constructor]. Qed.
Example ex_C124_crystal : crystal [1; 2; 1]%nat thin_delta thin_q /\ inverses [1; 2; 1]%nat thin_delta thin_inv thin_binv.
Proof. exact (conj thin_crystal thin_inverses). Qed.

(** Points are drawn at their components along two orthogonal unit vectors in the plane of the
    lattice vectors of the two axes, the first along that of the first axis. *)
Theorem C124_points : forall nd delta a b (points : list (nat -> R)), (a < nd)%nat -> (b < nd)%nat -> independent nd (delta a) (delta b) ->
  exists e0 e1, frame nd (delta a) (delta b) e0 e1 /\
    plot_x_points_projected_2d nd delta (a, b) points = Some (map (drawn nd e0 e1) points).
Proof. exact points_some. Qed.
Print Assumptions C124_points.

(** These vectors decide where every point is drawn. *)
Theorem C124_frame_unique : forall nd u v e0 e1 f0 f1, frame nd u v e0 e1 -> frame nd u v f0 f1 ->
  forall p, drawn nd e0 e1 p = drawn nd f0 f1 p.
Proof. exact frame_unique. Qed.
Print Assumptions C124_frame_unique.

(** Nothing is drawn for an axis out of range or for two axes along one line. *)
Theorem C124_points_raise : forall nd delta a b (points : list (nat -> R)),
  ~ ((a < nd)%nat /\ (b < nd)%nat /\ independent nd (delta a) (delta b)) ->
  plot_x_points_projected_2d nd delta (a, b) points = None.
Proof. exact points_none. Qed.
Print Assumptions C124_points_raise.

(** In a crystal, momenta are drawn in the plane of two reciprocal lattice vectors. *)
Theorem C124_momenta : forall shape delta inv binv q, crystal shape delta q -> inverses shape delta inv binv ->
  forall a b (points : list (nat -> R)), (a < 3)%nat -> (b < 3)%nat -> a <> b ->
  exists e0 e1, frame 3 (reciprocal shape q a) (reciprocal shape q b) e0 e1 /\
    plot_k_points_projected_2d shape inv (a, b) points = Some (map (drawn 3 e0 e1) points).
Proof. exact momentum_points. Qed.
Print Assumptions C124_momenta.

(** The positions of a plane of the grid: each of those with the given indices along the other
    axes once, and no other. *)
Theorem C124_position_plane : forall shape delta a b idx,
  Forall (fun n => (0 < n)%nat) shape -> a <> b -> (a < length shape)%nat -> (b < length shape)%nat ->
  independent (length shape) (delta a) (delta b) ->
  in_shape idx (map (fun k => nth k shape 0%nat) (other_axes (length shape) [a; b])) ->
  exists e0 e1 L, frame (length shape) (delta a) (delta b) e0 e1 /\ NoDup L /\
    (forall full, In full L <-> in_shape full shape /\ map (fun k => nth k full 0%nat) (other_axes (length shape) [a; b]) = idx) /\
    plot_fundamental_x_in_plane_projected_2d shape delta (a, b) idx =
      Some (map (fun full => drawn (length shape) e0 e1 (lattice_point shape delta (fun k => Z.of_nat (nth k full 0%nat)))) L).
Proof. exact position_plane. Qed.
Print Assumptions C124_position_plane.

(** The reciprocal lattice points with coefficients -1, 0 and 1, each once. *)
Theorem C124_bragg_points : forall shape delta inv binv q, crystal shape delta q -> inverses shape delta inv binv ->
  forall a b, (a < 3)%nat -> (b < 3)%nat -> a <> b ->
  exists e0 e1 L, frame 3 (reciprocal shape q a) (reciprocal shape q b) e0 e1 /\ NoDup L /\
    (forall m, In m L <-> length m = 3%nat /\ Forall (fun z => (-1 <= z <= 1)%Z) m) /\
    plot_bragg_points_projected_2d shape inv binv (a, b) = Some (map (fun m => drawn 3 e0 e1 (q (lattice_index shape m))) L).
Proof. exact bragg_points. Qed.
Print Assumptions C124_bragg_points.

(** The momenta of the first two axes: one point for each, moved by reciprocal lattice vectors
    with coefficients of at most two, and never away from the origin. *)
Theorem C124_zone_points : forall n0 n1 n2 delta inv binv q, crystal [n0; n1; n2] delta q -> inverses [n0; n1; n2] delta inv binv ->
  forall a b, (a < 3)%nat -> (b < 3)%nat -> a <> b ->
  exists e0 e1 G L, frame 3 (reciprocal [n0; n1; n2] q a) (reciprocal [n0; n1; n2] q b) e0 e1 /\ NoDup G /\
    (forall g, In g G <-> fourier_index [n0; n1; 1%nat] g) /\ Forall2 (folded 2 [n0; n1; n2] q) G L /\
    plot_brillouin_zone_points_projected_2d [n0; n1; n2] inv binv (a, b) = Some (map (fun idx => drawn 3 e0 e1 (q idx)) L).
Proof. exact brillouin_points. Qed.
Print Assumptions C124_zone_points.

(** They need not lie in the first zone. *)
Theorem C124_first_zone_refuted : exists shape delta inv binv q e0 e1 L idx m, crystal shape delta q /\ inverses shape delta inv binv /\
  plot_brillouin_zone_points_projected_2d shape inv binv (0, 1)%nat = Some (map (drawn 3 e0 e1) (map q L)) /\
  In idx L /\ length idx = 3%nat /\ length m = 3%nat /\ length2 (q (moved_back shape idx m)) < length2 (q idx).
Proof.
  destruct drawn_outside as (L & D & idx & m & H). exists thin_shape, thin_delta, thin_inv, thin_binv, thin_q. do 2 eexists. exists L, idx, m.
  exact (conj thin_crystal (conj thin_inverses (conj D H))).
Qed.
Print Assumptions C124_first_zone_refuted.

(** Planes of momenta are not those asked for: with the axes 0 and 1 the index is used along axis
    1, with the axes 0 and 2 along axis 0, and the axes 1 and 2 raise unless the number of
    points is a multiple of three. *)
Theorem C124_momentum_plane : forall n0 n1 n2 delta inv binv q, crystal [n0; n1; n2] delta q -> inverses [n0; n1; n2] delta inv binv -> forall i,
  (forall a b, (a = 0%nat /\ b = 1%nat) \/ (a = 1%nat /\ b = 0%nat) -> (i < n1)%nat ->
    exists e0 e1 L, frame 3 (reciprocal [n0; n1; n2] q a) (reciprocal [n0; n1; n2] q b) e0 e1 /\ NoDup L /\
      (forall g, In g L <-> fourier_index [n0; n1; n2] g /\ Zcong (Z.of_nat n1) (nth 1 g 0%Z) (Z.of_nat i)) /\
      plot_fundamental_k_in_plane_projected_2d [n0; n1; n2] [n0; n1; n2] inv (a, b) [i] = Some (map (fun g => drawn 3 e0 e1 (q g)) L)) /\
  (forall a b, (a = 0%nat /\ b = 2%nat) \/ (a = 2%nat /\ b = 0%nat) -> (i < n0)%nat ->
    exists e0 e1 L, frame 3 (reciprocal [n0; n1; n2] q a) (reciprocal [n0; n1; n2] q b) e0 e1 /\ NoDup L /\
      (forall g, In g L <-> fourier_index [n0; n1; n2] g /\ Zcong (Z.of_nat n0) (nth 0 g 0%Z) (Z.of_nat i)) /\
      plot_fundamental_k_in_plane_projected_2d [n0; n1; n2] [n0; n1; n2] inv (a, b) [i] = Some (map (fun g => drawn 3 e0 e1 (q g)) L)) /\
  (forall a b, (a = 1%nat /\ b = 2%nat) \/ (a = 2%nat /\ b = 1%nat) -> (n0 * n1 * n2) mod 3 <> 0%nat ->
    plot_fundamental_k_in_plane_projected_2d [n0; n1; n2] [n0; n1; n2] inv (a, b) [i] = None).
Proof. exact momentum_plane. Qed.
Print Assumptions C124_momentum_plane.

(** So a momentum of the plane can be missing. *)
Theorem C124_momentum_plane_refuted : exists shape delta inv binv q out g, crystal shape delta q /\ inverses shape delta inv binv /\
  plot_fundamental_k_in_plane_projected_2d shape shape inv (0, 1)%nat [0%nat] = Some out /\
  fourier_index shape g /\ nth 2 g 0%Z = 0%Z /\
  forall e0 e1, frame 3 (reciprocal shape q 0) (reciprocal shape q 1) e0 e1 -> ~ In (drawn 3 e0 e1 (q g)) out.
Proof.
  destruct plane_missed as (out & g & H). exists thin_shape, thin_delta, thin_inv, thin_binv, thin_q, out, g.
  exact (conj thin_crystal (conj thin_inverses H)).
Qed.
Print Assumptions C124_momentum_plane_refuted.

(** A single index of the grid is drawn as if its entries were the components of a position. *)
Theorem C124_position_at_index : forall shape fshape delta a b idx,
  Forall (fun n => (0 < n)%nat) fshape -> in_shape idx fshape -> (a < length fshape)%nat -> (b < length fshape)%nat ->
  independent (length fshape) (delta a) (delta b) ->
  exists e0 e1, frame (length fshape) (delta a) (delta b) e0 e1 /\
    plot_fundamental_x_at_index_projected_2d shape fshape delta (inr idx) (a, b) =
      Some [drawn (length fshape) e0 e1 (fun k => INR (nth k idx 0%nat))].
Proof. exact position_at_index. Qed.
Print Assumptions C124_position_at_index.

(** A flat index stands for its stacked index in the shape of the basis, also if that is not
    the shape of the grid. *)
Theorem C124_position_at_flat_index : forall shape fshape delta a b i,
  plot_fundamental_x_at_index_projected_2d shape fshape delta (inl i) (a, b) =
  if ((0 <=? i) && (i <? Z.of_nat (nprod shape)))%Z%bool
  then plot_fundamental_x_at_index_projected_2d shape fshape delta (inr (unravel shape (Z.to_nat i))) (a, b) else None.
Proof. exact position_at_flat. Qed.
Print Assumptions C124_position_at_flat_index.

(** That is not the position of the grid point. *)
Theorem C124_position_at_index_refuted : exists e0 e1 p, frame 2 (unit_delta 0) (unit_delta 1) e0 e1 /\
  plot_fundamental_x_at_index_projected_2d [2; 2]%nat [2; 2]%nat unit_delta (inr [1; 0]%nat) (0, 1)%nat = Some [p] /\
  p <> drawn 2 e0 e1 (lattice_point [2; 2]%nat unit_delta (fun k => Z.of_nat (nth k [1; 0]%nat 0%nat))).
Proof. exact index_not_position. Qed.
Print Assumptions C124_position_at_index_refuted.
