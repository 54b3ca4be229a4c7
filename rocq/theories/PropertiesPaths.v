(** Properties of projected points, of the lengths of paths and of periodic averages (C95, C96,
    C97). *)
From Coq Require Import Reals.
From Verif Require Import ZLib Csum DFT NumPy Index Basis Lattice Hamiltonian SpecHamiltonian StateList SpecStateList Brillouin
  Paths SpecPaths PathsProofs PathsProofs2 PathsProofs3 PathsFacts.
Local Open Scope R_scope.

(** ** C95: points projected along axes *)

(** The projection is defined unless an axis is out of range or the vector of an axis is a
    combination of those of the axes before it. *)
Theorem C95_projection_defined : forall nd delta axes p, project_x_points_along_axes nd delta axes p = None <->
  (exists a, In a axes /\ (nd <= a)%nat) \/
  (exists j, (j < length axes)%nat /\ depends_on_earlier nd (fun i => delta (nth i axes 0%nat)) j).
Proof. exact project_none. Qed.
Print Assumptions C95_projection_defined.

Example ex_C95_degenerate : project_x_points_along_axes 2 (fun a _ => INR (S a)) [0%nat; 1%nat] (fun _ => 1) = None.
Proof. exact degenerate_none. Qed.
Example ex_C95_skew : forall axes p, axes = [0%nat; 1%nat] \/ axes = [1%nat; 0%nat] \/ axes = [0%nat] \/ axes = [1%nat] ->
  exists l, project_x_points_along_axes 2 skew axes p = Some l.
Proof. exact skew_projects. Qed.
Example ex_C95_spanned : forall u v, spanned 2 skew [1%nat; 0%nat] (fun c => u * skew 0 c + v * skew 1 c).
Proof. exact skew_spanned. Qed.

(** A projected point has one entry per axis, is never longer than the point, and inner products
    with a point in the plane of the axes are kept. *)
Theorem C95_projection_inner : forall nd delta axes p q lp lq,
  project_x_points_along_axes nd delta axes p = Some lp -> project_x_points_along_axes nd delta axes q = Some lq ->
  length lp = length axes /\ list_dot lp lp <= dot nd p p /\
  ((exists k : nat -> R, forall c, (c < nd)%nat -> p c = rsum (fun j => k j * delta (nth j axes 0%nat) c) (length axes)) ->
   list_dot lp lq = dot nd p q).
Proof. exact project_inner. Qed.
Print Assumptions C95_projection_inner.

(** The vector of an axis has a positive entry for the axis and none for later axes. *)
Theorem C95_projection_orientation : forall nd delta axes j l, (j < length axes)%nat ->
  project_x_points_along_axes nd delta axes (delta (nth j axes 0%nat)) = Some l ->
  length l = length axes /\ 0 < nth j l 0 /\ forall i, (j < i)%nat -> nth i l 0 = 0.
Proof. exact project_triangular. Qed.
Print Assumptions C95_projection_orientation.

(** Momenta are projected in the same way, along the vectors of the reciprocal lattice. *)
Theorem C95_momentum_projection : forall nd shape inv axes p q lp lq,
  project_k_points_along_axes nd shape inv axes p = Some lp -> project_k_points_along_axes nd shape inv axes q = Some lq ->
  let kvec a c := INR (nth a shape 0%nat) * dk_stacked inv a c in
  length lp = length axes /\ list_dot lp lp <= dot nd p p /\
  ((exists k : nat -> R, forall c, (c < nd)%nat -> p c = rsum (fun j => k j * kvec (nth j axes 0%nat) c) (length axes)) ->
   list_dot lp lq = dot nd p q).
Proof. intros nd shape inv axes. exact (project_inner nd (fun a c => INR (nth a shape 0%nat) * dk_stacked inv a c) axes). Qed.
Print Assumptions C95_momentum_projection.

Example ex_C95_coordinates : (exists rows f, get_x_coordinates_in_axes [3%nat; 4%nat] [3%nat; 4%nat] skew [1%nat] (Some [2%nat]) = Some (rows, f)) /\
  at_axes 2 [1%nat] [3%nat] [2%nat] [2%nat; 3%nat] /\ at_axes 2 [1%nat] [0%nat] [2%nat] [2%nat; 0%nat].
Proof. exact (conj skew_coordinates skew_at_axes). Qed.

(** The coordinates of the points of a slice through a grid are their projections: there is one
    row per axis, and the distances between the points of the slice are kept. *)
Theorem C95_coordinates : forall shape delta axes, Forall (fun n => (0 < n)%nat) shape -> NoDup axes -> Forall (fun a => (a < length shape)%nat) axes ->
  forall idx rows f, (length idx + length axes = length shape)%nat ->
  get_x_coordinates_in_axes shape shape delta axes (Some idx) = Some (rows, f) ->
  let point full := lattice_point shape delta (fun a => Z.of_nat (nth a full 0%nat)) in
  rows = length axes /\
  (forall full out, in_shape full shape -> at_axes (length shape) axes out idx full -> length out = length axes ->
    project_x_points_along_axes (length shape) delta axes (point full) = Some (map (fun r => f r out) (seq 0 rows))) /\
  (forall full full' out out', in_shape full shape -> in_shape full' shape ->
    at_axes (length shape) axes out idx full -> at_axes (length shape) axes out' idx full' ->
    length out = length axes -> length out' = length axes ->
    sqrt (rsum (fun r => (f r out - f r out') ^ 2) rows) = distance (length shape) (point full) (point full')).
Proof.
  intros shape delta axes Hp Hn Ha idx rows f Hi G. destruct (coordinates_spec shape delta axes Hp Hn Ha idx rows f Hi G) as (R & P).
  split; [exact R|]. split; [exact P|exact (coordinates_distance shape delta axes Hp Hn Ha idx rows f Hi G)].
Qed.
Print Assumptions C95_coordinates.

(** In a basis with fewer states than points there is not one row per axis. *)
Theorem C95_coordinates_truncated_refuted : exists f,
  get_x_coordinates_in_axes [2%nat] [4%nat] (fun _ _ => 1) [0%nat] (Some []) = Some (2%nat, f).
Proof. exact rows_two. Qed.
Print Assumptions C95_coordinates_truncated_refuted.

(** The slice through the maximum: the index of the first of the largest entries, without the
    entries of the axes, selects a slice with that entry. *)
Theorem C95_max_idx : forall shape (data : nat -> C) axes, NoDup axes -> Forall (fun a => (a < length shape)%nat) axes -> (0 < nprod shape)%nat ->
  exists idx full, get_max_idx shape data axes = Some idx /\ in_shape full shape /\
    (forall other, in_shape other shape -> Cmod (data (ravel shape other)) <= Cmod (data (ravel shape full))) /\
    (forall x, (x < ravel shape full)%nat -> Cmod (data x) < Cmod (data (ravel shape full))) /\
    at_axes (length shape) axes (map (fun a => nth a full 0%nat) axes) idx full.
Proof. exact max_idx_spec. Qed.
Print Assumptions C95_max_idx.

(** ** C96: lengths of paths *)

(** Without wrapping, an entry is the sum of the distances between consecutive points; there is
    one entry per point, but also one for a path without points. *)
Theorem C96_path_length : forall shape fshape delta n path,
  length (calculate_cumulative_x_distances_along_path shape fshape delta n path false) = Nat.max n 1 /\
  forall i, (i < Nat.max n 1)%nat -> nth i (calculate_cumulative_x_distances_along_path shape fshape delta n path false) 0 =
    rsum (fun j => distance (length fshape) (lattice_point fshape delta (fun a => path a j)) (lattice_point fshape delta (fun a => path a (S j)))) i.
Proof. intros shape fshape delta n path. split; [apply cumulative_length|exact (cumulative_plain shape fshape delta n path)]. Qed.
Print Assumptions C96_path_length.

(** Two points of a path are never further apart than the length of the path between them. *)
Theorem C96_path_straight : forall shape fshape delta n path i k, (i + k < n)%nat ->
  let l := calculate_cumulative_x_distances_along_path shape fshape delta n path false in
  let point j := lattice_point fshape delta (fun a => path a j) in
  0 <= distance (length fshape) (point i) (point (i + k)%nat) <= nth (i + k) l 0 - nth i l 0.
Proof.
  intros shape fshape delta n path i k H. cbv zeta. split; [apply distance_nonneg|]. rewrite !cumulative_plain by (destruct n; [inversion H|rewrite Nat.max_l; [eauto using Nat.le_lt_trans, Nat.le_add_r|apply Nat.lt_0_succ]]).
  exact (path_triangle (length fshape) (fun j => lattice_point fshape delta (fun a => path a j)) i k).
Qed.
Print Assumptions C96_path_straight.

Example ex_C96_wrapped : calculate_distances_along_path [5%nat; 3%nat] winding true 0 0 = (-2)%Z /\
  calculate_distances_along_path [5%nat; 3%nat] (fun a j => if Nat.eqb j 0 then 0%Z else 4%Z) true 0 0 = 1%Z.
Proof. exact (conj winding_step far_step). Qed.

(** With wrapping, every step is replaced by its image within half a repeat. *)
Theorem C96_wrapped_length : forall shape delta n path i, Forall (fun m => (0 < m)%nat) shape -> (i < Nat.max n 1)%nat ->
  exists s : nat -> nat -> Z,
    (forall a j, (a < length shape)%nat -> (- Z.of_nat (nth a shape 0%nat) <= 2 * s a j < Z.of_nat (nth a shape 0%nat))%Z /\
       exists k : Z, s a j = (path a j - path a (S j) + k * Z.of_nat (nth a shape 0%nat))%Z) /\
    nth i (calculate_cumulative_x_distances_along_path shape shape delta n path true) 0 =
    rsum (fun j => distance (length shape) (lattice_point shape delta (fun a => s a j)) (fun _ => 0)) i.
Proof. exact cumulative_wrapped. Qed.
Print Assumptions C96_wrapped_length.

(** Moving the points by whole repeats changes nothing, and neither does wrapping short steps. *)
Theorem C96_wrapped_periodic : forall shape fshape delta n path, Forall (fun m => (0 < m)%nat) shape -> length fshape = length shape ->
  (forall path' (m : nat -> nat -> Z), (forall a i, (a < length shape)%nat -> path' a i = path a i + m a i * Z.of_nat (nth a shape 0%nat))%Z ->
    calculate_cumulative_x_distances_along_path shape fshape delta n path' true = calculate_cumulative_x_distances_along_path shape fshape delta n path true) /\
  ((forall a j, (a < length shape)%nat -> (S j < n)%nat ->
      (- Z.of_nat (nth a shape 0%nat) <= 2 * (path a j - path a (S j)) < Z.of_nat (nth a shape 0%nat))%Z) ->
    calculate_cumulative_x_distances_along_path shape fshape delta n path true = calculate_cumulative_x_distances_along_path shape fshape delta n path false).
Proof.
  intros shape fshape delta n path Hp L. split; [intros path' m; exact (cumulative_periodic shape fshape delta n path path' m Hp L)|exact (cumulative_small shape fshape delta n path Hp L)].
Qed.
Print Assumptions C96_wrapped_periodic.

Example ex_C96_orthogonal : forall a b, (a < 2)%nat -> (b < 2)%nat -> a <> b -> dot 2 (square a) (square b) = 0.
Proof. exact square_orthogonal. Qed.

(** On a lattice with orthogonal vectors the wrapped step is the shortest of all images. *)
Theorem C96_wrapped_shortest : forall shape delta path j (t : nat -> Z), Forall (fun m => (0 < m)%nat) shape ->
  (forall a b, (a < length shape)%nat -> (b < length shape)%nat -> a <> b -> dot (length shape) (delta a) (delta b) = 0) ->
  (forall a, (a < length shape)%nat -> exists k : Z, t a = (path a j - path a (S j) + k * Z.of_nat (nth a shape 0%nat))%Z) ->
  distance (length shape) (lattice_point shape delta (fun a => calculate_distances_along_path shape path true a j)) (fun _ => 0) <=
  distance (length shape) (lattice_point shape delta t) (fun _ => 0).
Proof. exact step_shortest. Qed.
Print Assumptions C96_wrapped_shortest.

(** The lengths of a path of coordinates. *)
Theorem C96_coordinates_length : forall nd n coordinates,
  length (calculate_cumulative_distances_along_path nd n coordinates) = Nat.max n 1 /\
  forall i, (i < Nat.max n 1)%nat -> nth i (calculate_cumulative_distances_along_path nd n coordinates) 0 =
    rsum (fun j => distance nd (fun c => coordinates c j) (fun c => coordinates c (S j))) i.
Proof. intros nd n coordinates. split; [apply coordinates_length|exact (cumulative_coordinates nd n coordinates)]. Qed.
Print Assumptions C96_coordinates_length.

(** The lengths of a path in momentum space have one entry more than there are axes, whatever the
    number of points of the path. *)
Theorem C96_momentum_length : forall shape inv n path wrap,
  length (calculate_cumulative_k_distances_along_path shape inv n path wrap) = S (length shape).
Proof. exact k_length. Qed.
Print Assumptions C96_momentum_length.

Theorem C96_momentum_entries_refuted : exists shape inv n path,
  length (calculate_cumulative_k_distances_along_path shape inv n path false) <> n.
Proof. exists [4%nat], (fun _ _ => 1), 3%nat, (fun _ j => Z.of_nat j). exact (proj2 k_path_two). Qed.
Print Assumptions C96_momentum_entries_refuted.

(** ** C97: periodic averages *)

(** Twice the average of two points is the sum of the points or, if they are more than half way
    round apart, the sum plus one period. *)
Theorem C97_twice_average : forall n x y, (0 < n)%nat -> (Z.of_nat n <= 10 ^ 7)%Z -> (0 <= x < Z.of_nat n)%Z -> (0 <= y < Z.of_nat n)%Z ->
  twice_average n x y = if (2 * Z.abs (x - y) <=? Z.of_nat n)%Z then ((x + y) mod (2 * Z.of_nat n))%Z else ((x + y + Z.of_nat n) mod (2 * Z.of_nat n))%Z.
Proof. exact twice_average_spec. Qed.
Print Assumptions C97_twice_average.

(** It is the middle of the shorter way round, starting from either point. *)
Theorem C97_middle : forall n x y, (0 < n)%nat -> (Z.of_nat n <= 10 ^ 7)%Z -> (0 <= x < Z.of_nat n)%Z -> (0 <= y < Z.of_nat n)%Z ->
  (0 <= twice_average n x y < 2 * Z.of_nat n)%Z /\
  exists w : Z, (2 * Z.abs w <= Z.of_nat n)%Z /\ (exists k, y = x + w + k * Z.of_nat n)%Z /\
    (exists k, twice_average n x y = 2 * x + w + k * (2 * Z.of_nat n))%Z /\
    (exists k, twice_average n x y = 2 * y - w + k * (2 * Z.of_nat n))%Z.
Proof. exact twice_average_middle. Qed.
Print Assumptions C97_middle.

(** The entries of the returned matrices, one for every pair of points of the grid. *)
Theorem C97_matrix : forall fshape a x y, Forall (fun n => (0 < n)%nat) fshape -> (Z.of_nat (nth a fshape 0%nat) <= 10 ^ 7)%Z -> (a < length fshape)%nat ->
  (x < nprod fshape)%nat -> (y < nprod fshape)%nat ->
  let n := Z.of_nat (nth a fshape 0%nat) in let u := Z.of_nat (nth a (unravel fshape x) 0%nat) in let v := Z.of_nat (nth a (unravel fshape y) 0%nat) in
  get_twice_average_nx fshape a x y = if (2 * Z.abs (u - v) <=? n)%Z then ((u + v) mod (2 * n))%Z else ((u + v + n) mod (2 * n))%Z.
Proof. exact twice_average_matrix. Qed.
Print Assumptions C97_matrix.

(** The documentation says that 1 and N - 1 give zero, and N / 2 and N / 2 give N / 2. *)
Theorem C97_documented_refuted : twice_average 3 1 2 = 3%Z /\ twice_average 4 1 3 = 4%Z /\ twice_average 4 2 2 = 4%Z /\ twice_average 5 1 4 = 0%Z.
Proof. exact documented_average. Qed.
Print Assumptions C97_documented_refuted.
