(** Model of what the plots of util/plot.py show: the points of a line, the points, values and
    colour limits of a mesh.  Axis scales, labels, colours, figures and animations are left out.  Arithmetic
    is exact, indices and plot axes are not negative.  No proofs here. *)
From Coq Require Import Reals.
From Verif Require Import ZLib Csum DFT NumPy Index Basis Lattice Hamiltonian Brillouin Observables Paths Wavepacket StateList VolumeBasis.
Local Open Scope nat_scope.

(** util/util.py:167-195 [Measure] and [get_measured_data] of a vector, and of a matrix, where
    [np.unwrap] runs along the last axis. *)
Inductive plot_measure := PReal | PImag | PAbs | PAngle.
Definition measured_vector (m : plot_measure) (data : nat -> C) : nat -> R :=
  match m with
  | PReal => fun i => fst (data i)
  | PImag => fun i => snd (data i)
  | PAbs => fun i => Cmod (data i)
  | PAngle => np_unwrap (fun i => np_angle (data i))
  end.
Definition measured_matrix (m : plot_measure) (data : nat -> nat -> C) (i : nat) : nat -> R := measured_vector m (data i).

(** util/plot.py:144-190 [plot_data_1d] of [n] data: the points of the line.  A periodic line
    needs [coordinates[1]]. *)
Definition plot_data_1d (n : nat) (data : nat -> C) (coordinates : nat -> R) (m : plot_measure) (periodic : bool) : option (list (R * R)) :=
  let measured := measured_vector m data in
  let points := map (fun i => (coordinates i, measured i)) (seq 0 n) in
  if periodic then
    if n <? 2 then None
    else
      let d_coord := (coordinates 1%nat - coordinates 0%nat)%R in
      Some (points ++ [((coordinates (n - 1)%nat + d_coord)%R, measured 0)])
  else Some points.

(** np.max and np.min of the first [n] entries; both raise without entries. *)
Fixpoint np_max (f : nat -> R) (n : nat) : R := match n with 0 => f 0 | S n => Rmax (np_max f n) (f n) end.
Fixpoint np_min (f : nat -> R) (n : nat) : R := match n with 0 => f 0 | S n => Rmin (np_min f n) (f n) end.
(** 70-86 [_get_default_lim] and [_get_lim] of [n] data. *)
Definition get_default_lim (m : plot_measure) (n : nat) (data : nat -> R) : R * R :=
  match m with PAbs => (0%R, np_max data n) | _ => (np_min data n, np_max data n) end.
Definition get_lim (lim : option R * option R) (m : plot_measure) (n : nat) (data : nat -> R) : R * R :=
  let '(default_min, default_max) := get_default_lim m n data in
  (match fst lim with Some l => l | None => default_min end, match snd lim with Some l => l | None => default_max end).

(** 386-411 [plot_data_2d] of [n0] times [n1] data: the coordinates and the values of the mesh
    and its colour limits.  Without data [np.max] raises. *)
Record mesh := { mesh_at : nat -> nat -> R * R; mesh_value : nat -> nat -> R; mesh_lim : R * R }.
Definition plot_data_2d (n0 n1 : nat) (data : nat -> nat -> C) (coordinates : nat -> nat -> nat -> R) (m : plot_measure) : option mesh :=
  let measured := measured_matrix m data in
  if n0 * n1 =? 0 then None
  else Some {| mesh_at := fun i j => (coordinates 0 i j, coordinates 1 i j); mesh_value := measured;
               mesh_lim := get_lim (None, None) m (n0 * n1) (fun t => measured (t / n1) (t mod n1)) |}.

(** The lattice vectors of a basis. *)
Definition axis_vectors (axes : list length_axis) (a c : nat) : R := nth c (nth a (map la_delta axes) []) 0%R.
(** In [project_x_points_along_axes] the vectors are stored in rows with one entry per axis. *)
Definition vectors_fit (axes : list length_axis) : bool := forallb (fun a => length (la_delta a) =? length axes) axes.
(** [data[slice_ignoring_axes(idx, axes)]] followed by the transposition: the index must be in range and
    leave as many axes as are plotted. *)
Definition slice_fits (shape axs idx : list nat) : bool :=
  let sl := slice_ignoring_axes idx axs in slice_ok shape sl && (length (sliced_shape shape sl) =? length axs).

(** stacked_basis/util.py:86-130 [get_fundamental_stacked_k_points_projected_along_axes] and
    [get_k_coordinates_in_axes], as [get_x_coordinates_in_axes], of a basis with as many states
    as points. *)
Definition get_k_coordinates_in_axes (shape : list nat) (inv : nat -> nat -> R) (axs : list nat) (idx : list nat)
  : option (nat * (nat -> list nat -> R)) :=
  let nd := length shape in
  match projected_axes nd (fun a c => INR (nth a shape 0%nat) * dk_stacked inv a c)%R [] axs with
  | None => None
  | Some es =>
      if nprod shape =? 0 then None
      else Some (length es, fun row => get_data_in_axes (fun full =>
             np_dot nd (nth row es (fun _ => 0%R)) (fun c => fundamental_stacked_k_points shape inv c (ravel shape full))) axs idx)
  end.

(** [get_max_idx] of [n] data, which need not be as many as there are states in the basis:
    [np.unravel_index] of the place of the largest. *)
Definition get_max_idx_of (n : nat) (shape : list nat) (data : nat -> C) (axs : list nat) : option (list nat) :=
  if n =? 0 then None
  else
    let x := argmax (fun x => Cmod (data x)) n in
    if x <? nprod shape then
      Some (map (fun i => nth i (unravel shape x) 0) (filter (fun i => negb (existsb (Nat.eqb i) axs)) (seq 0 (length shape))))
    else None.

(** 193-234 [plot_data_1d_n]. *)
Definition plot_data_1d_n (same : basis -> basis -> bool) (axes : list length_axis) (data : nat -> C) (a : nat) (idx : option (list nat))
    (m : plot_measure) (periodic : bool) : option (list (R * R)) :=
  let shape := fundamental_shape axes in
  match convert same (stacked axes) (stacked_basis_as_fundamental_basis axes) with
  | None => None
  | Some G =>
      let converted := G data in
      match (match idx with Some i => Some i | None => get_max_idx shape converted [a] end) with
      | None => None
      | Some idx =>
          if slice_fits shape [a] idx && (a <? length axes) then
            plot_data_1d (nth a shape 0) (fun i => get_data_in_axes (fun full => converted (ravel shape full)) [a] idx [i]) INR m periodic
          else None
      end
  end.

(** 293-346 [plot_data_1d_x]. *)
Definition plot_data_1d_x (same : basis -> basis -> bool) (axes : list length_axis) (data : nat -> C) (a : nat) (idx : option (list nat))
    (m : plot_measure) : option (list (R * R)) :=
  let shape := fundamental_shape axes in
  match stacked_basis_as_fundamental_position_basis axes with
  | None => None
  | Some basis_x =>
      match convert same (stacked axes) (stacked basis_x) with
      | None => None
      | Some G =>
          let converted := G data in
          match (match idx with Some i => Some i | None => get_max_idx shape converted [a] end) with
          | None => None
          | Some idx =>
              if vectors_fit axes && slice_fits shape [a] idx then
                match get_x_coordinates_in_axes shape shape (axis_vectors axes) [a] (Some idx) with
                | None => None
                | Some (_, f) =>
                    plot_data_1d (nth a shape 0) (fun i => get_data_in_axes (fun full => converted (ravel shape full)) [a] idx [i]) (fun i => f 0 [i]) m true
                end
              else None
          end
      end
  end.

(** 237-290 [plot_data_1d_k]; [inv] is the inverse of the matrix of lattice vectors.  The default
    index is the place of the largest of the data as they were given. *)
Definition fftshift_vector {A} (n : nat) (f : nat -> A) (i : nat) : A := f (Z.to_nat ((Z.of_nat i - Z.of_nat (n / 2)) mod Z.of_nat n)).
Definition plot_data_1d_k (same : basis -> basis -> bool) (axes : list length_axis) (inv : nat -> nat -> R) (data : nat -> C) (a : nat)
    (idx : option (list nat)) (m : plot_measure) : option (list (R * R)) :=
  let shape := fundamental_shape axes in
  match stacked_basis_as_fundamental_momentum_basis axes with
  | None => None
  | Some basis_k =>
      match convert same (stacked axes) (stacked basis_k) with
      | None => None
      | Some G =>
          let converted := G data in
          match (match idx with Some i => Some i | None => get_max_idx_of (bsize (stacked axes)) shape data [a] end) with
          | None => None
          | Some idx =>
              if vectors_fit axes && slice_fits shape [a] idx then
                match get_k_coordinates_in_axes shape inv [a] idx with
                | None => None
                | Some (_, f) =>
                    let n := nth a shape 0 in
                    plot_data_1d n (fftshift_vector n (fun i => get_data_in_axes (fun full => converted (ravel shape full)) [a] idx [i]))
                      (fftshift_vector n (fun i => f 0 [i])) m true
                end
              else None
          end
      end
  end.

(** 479-540 [plot_data_2d_x]. *)
Definition plot_data_2d_x (same : basis -> basis -> bool) (axes : list length_axis) (data : nat -> C) (a b : nat) (idx : option (list nat))
    (m : plot_measure) : option mesh :=
  let shape := fundamental_shape axes in
  match stacked_basis_as_fundamental_position_basis axes with
  | None => None
  | Some basis_x =>
      match convert same (stacked axes) (stacked basis_x) with
      | None => None
      | Some G =>
          let converted := G data in
          match (match idx with Some i => Some i | None => get_max_idx shape converted [a; b] end) with
          | None => None
          | Some idx =>
              if vectors_fit axes && slice_fits shape [a; b] idx then
                match get_x_coordinates_in_axes shape shape (axis_vectors axes) [a; b] (Some idx) with
                | None => None
                | Some (_, f) =>
                    plot_data_2d (nth a shape 0) (nth b shape 0)
                      (fun i j => get_data_in_axes (fun full => converted (ravel shape full)) [a; b] idx [i; j]) (fun r i j => f r [i; j]) m
                end
              else None
          end
      end
  end.

(** 414-476 [plot_data_2d_k]. *)
Definition plot_data_2d_k (same : basis -> basis -> bool) (axes : list length_axis) (inv : nat -> nat -> R) (data : nat -> C) (a b : nat)
    (idx : option (list nat)) (m : plot_measure) : option mesh :=
  let shape := fundamental_shape axes in
  match stacked_basis_as_fundamental_momentum_basis axes with
  | None => None
  | Some basis_k =>
      match convert same (stacked axes) (stacked basis_k) with
      | None => None
      | Some G =>
          let converted := G data in
          match (match idx with Some i => Some i | None => get_max_idx shape converted [a; b] end) with
          | None => None
          | Some idx =>
              if vectors_fit axes && slice_fits shape [a; b] idx then
                match get_k_coordinates_in_axes shape inv [a; b] idx with
                | None => None
                | Some (_, f) =>
                    let n0 := nth a shape 0 in
                    let n1 := nth b shape 0 in
                    plot_data_2d n0 n1
                      (fun i j => fftshift_axes [n0; n1] (get_data_in_axes (fun full => converted (ravel shape full)) [a; b] idx) [i; j])
                      (fun r i j => fftshift_axes [n0; n1] (f r) [i; j]) m
                end
              else None
          end
      end
  end.
