(** Model of the projections of points onto axes, of the distances along paths, and of the
    periodic averages of pairs of points: stacked_basis/util.py, util/util.py and basis/util.py.
    Arithmetic is exact.  No proofs here. *)
From Coq Require Import Reals.
From Verif Require Import ZLib Csum DFT NumPy Index Basis Lattice Hamiltonian Brillouin Observables.
Local Open Scope nat_scope.

(** np.dot of real vectors with [nd] entries. *)
Definition np_dot (nd : nat) (u v : nat -> R) : R := rsum (fun c => u c * v c)%R nd.

(** stacked_basis/util.py:74-81 and 152-159: the loops of [project_k_points_along_axes] and
    [project_x_points_along_axes] over the vectors [delta].  Nothing is returned for an axis out
    of range, where numpy raises, and for a vanishing vector, where it divides by zero. *)
Definition subtract_projections (nd : nat) (prev : list (nat -> R)) (v : nat -> R) : nat -> R :=
  fold_left (fun w e => fun c => (w c - e c * np_dot nd e w)%R) prev v.
Fixpoint projected_axes (nd : nat) (delta : nat -> nat -> R) (prev : list (nat -> R)) (axes : list nat) : option (list (nat -> R)) :=
  match axes with
  | [] => Some prev
  | ax :: axes =>
      if ax <? nd then
        let projected := subtract_projections nd prev (delta ax) in
        if Req_EM_T (norm nd projected) 0 then None
        else projected_axes nd delta (prev ++ [fun c => (projected c / norm nd projected)%R]) axes
      else None
  end.

(** 133-161 [project_x_points_along_axes] of one point. *)
Definition project_x_points_along_axes (nd : nat) (delta : nat -> nat -> R) (axes : list nat) (point : nat -> R) : option (list R) :=
  option_map (map (fun e => np_dot nd e point)) (projected_axes nd delta [] axes).

(** 55-83 [project_k_points_along_axes]: the vectors are those of the reciprocal lattice
    (basis/util.py:429-433 [delta_k_stacked]). *)
Definition project_k_points_along_axes (nd : nat) (shape : list nat) (inv : nat -> nat -> R) (axes : list nat) (point : nat -> R) : option (list R) :=
  project_x_points_along_axes nd (fun a c => INR (nth a shape 0%nat) * dk_stacked inv a c)%R axes point.

(** basis/util.py:397-402 [fundamental_x_points_stacked]: component [c] of point [x]. *)
Definition fundamental_x_points (fshape : list nat) (delta : nat -> nat -> R) (x c : nat) : R :=
  rsum (fun a => dx_stacked fshape delta a c * IZR (stacked_nx_points fshape a x))%R (length fshape).

(** 164-208 [get_fundamental_stacked_x_points_projected_along_axes] and
    [get_x_coordinates_in_axes]: the projected points are reshaped to the shape of the basis,
    with as many rows as fit, and the axes selected.  The result is the number of rows and, for
    every row, the entry at a position along the axes. *)
Definition get_x_coordinates_in_axes (shape fshape : list nat) (delta : nat -> nat -> R) (axes : list nat) (idx : option (list nat))
  : option (nat * (nat -> list nat -> R)) :=
  let nd := length fshape in
  let idx := match idx with Some idx => idx | None => map (fun _ => 0) (seq 0 (nd - length axes)) end in
  match projected_axes nd delta [] axes with
  | None => None
  | Some es =>
      let total := length es * nprod fshape in
      if (nprod shape =? 0) || negb (total mod nprod shape =? 0) then None
      else
        let flat t := np_dot nd (nth (t / nprod fshape) es (fun _ => 0%R)) (fundamental_x_points fshape delta (t mod nprod fshape)) in
        Some (total / nprod shape, fun row => get_data_in_axes (fun full => flat (row * nprod shape + ravel shape full)) axes idx)
  end.

(** 354-384 [calculate_distances_along_path]: the steps, here of [path] with the points as its
    second argument; wrapped steps are truncated to integers. *)
Definition truncate (x : R) : Z := if Rlt_dec x 0 then (- Int_part (- x))%Z else Int_part x.
Definition calculate_distances_along_path (shape : list nat) (path : nat -> nat -> Z) (wrap_distances : bool) (a j : nat) : Z :=
  let out := (path a j - path a (S j))%Z in
  if wrap_distances then truncate (wrap_distance (IZR out) (INR (nth a shape 0)) 0) else out.

(** 387-419 [calculate_cumulative_x_distances_along_path] of a path of [n] points. *)
Definition calculate_cumulative_x_distances_along_path (shape fshape : list nat) (delta : nat -> nat -> R) (n : nat)
    (path : nat -> nat -> Z) (wrap_distances : bool) : list R :=
  let nd := length fshape in
  let step j := norm nd (fun c => rsum (fun a => dx_stacked fshape delta a c * IZR (calculate_distances_along_path shape path wrap_distances a j))%R nd) in
  map (fun i => rsum step i) (seq 0 (S (n - 1))).

(** 422-454 [calculate_cumulative_k_distances_along_path]: the norms are taken over the points of
    the path and not over the components. *)
Definition calculate_cumulative_k_distances_along_path (shape : list nat) (inv : nat -> nat -> R) (n : nat)
    (path : nat -> nat -> Z) (wrap_distances : bool) : list R :=
  let nd := length shape in
  let along c := norm (n - 1) (fun j => rsum (fun a => IZR (calculate_distances_along_path shape path wrap_distances a j) * dk_stacked inv a c)%R nd) in
  map (fun i => rsum along i) (seq 0 (S nd)).

(** util/util.py:137-164 [calculate_cumulative_distances_along_path] with the coordinates of the
    points of the path. *)
Definition calculate_cumulative_distances_along_path (nd n : nat) (coordinates : nat -> nat -> R) : list R :=
  map (fun i => rsum (fun j => norm nd (fun c => coordinates c j - coordinates c (S j))%R) i) (seq 0 (S (n - 1))).

(** stacked_basis/util.py:469-488 [get_x01_mirrored_index]. *)
Definition get_x01_mirrored_index (idx : list Z) : option (list Z) :=
  match idx with
  | a :: b :: rest => Some (b :: a :: rest)
  | _ => None
  end.

(** 512-532 [get_max_idx]: np.argmax, the first of the largest, and the other axes. *)
Fixpoint argmax (f : nat -> R) (n : nat) : nat :=
  match n with
  | 0 => 0
  | S n => let m := argmax f n in if Rlt_dec (f m) (f n) then n else m
  end.
Definition get_max_idx (shape : list nat) (data : nat -> C) (axes : list nat) : option (list nat) :=
  if nprod shape =? 0 then None
  else
    let idx := unravel shape (argmax (fun x => Cmod (data x)) (nprod shape)) in
    Some (map (fun i => nth i idx 0) (filter (fun i => negb (existsb (Nat.eqb i) axes)) (seq 0 (length shape)))).

(** basis/util.py:455-484 [_get_average_angles] of two angles; [None] is nan.  np.isclose to zero
    has an absolute tolerance of 1e-8. *)
Definition get_average_angles (a b : R) : option R :=
  let avg_x := ((cos a + cos b) / 2)%R in
  let avg_y := ((sin a + sin b) / 2)%R in
  if Rle_dec (Rabs avg_x) (/ 10 ^ 8) then
    if Rle_dec (Rabs avg_y) (/ 10 ^ 8) then None else Some (np_angle (avg_x, avg_y))
  else Some (np_angle (avg_x, avg_y)).

(** 487-530 [get_twice_average_nx]: the entry of axis [a] for the points [x] and [y]; np.rint
    rounds halves to even. *)
Definition rint (x : R) : Z :=
  let f := Int_part x in
  if Rlt_dec (x - IZR f) (1 / 2) then f
  else if Rlt_dec (1 / 2) (x - IZR f) then (f + 1)%Z
  else if Z.even f then f else (f + 1)%Z.
Definition twice_average (n : nat) (x y : Z) : Z :=
  let a := (2 * PI * IZR x / INR n)%R in
  let b := (2 * PI * IZR y / INR n)%R in
  let average := match get_average_angles a b with Some t => t | None => ((a + b) / 2)%R end in
  (rint (average * INR n / PI) mod (2 * Z.of_nat n))%Z.
Definition get_twice_average_nx (fshape : list nat) (a x y : nat) : Z :=
  twice_average (nth a fshape 0) (stacked_nx_points fshape a x) (stacked_nx_points fshape a y).
