(** Model of stacked_basis/plot.py: the points drawn in a plane.  Axes and indices are not
    negative; the lattice has as many axes as components, as [np.linalg.inv] requires.  A drawn
    line is the list of its points, two real numbers each; the markers, the labels and the aspect
    are left out.  Arithmetic is exact.  No proofs here. *)
From Coq Require Import Reals.
From Verif Require Import ZLib Csum DFT NumPy Index Basis Lattice Hamiltonian StateList Brillouin Paths.
Local Open Scope nat_scope.

(** The points of an array of projected points: two rows, or [reshape(2, -1)] is not what was
    meant; the axes are a pair, so there are two. *)
Definition drawn_point (projected : list R) : option (R * R) :=
  match projected with [x; y] => Some (x, y) | _ => None end.
Fixpoint drawn_points (projected : list (option (list R))) : option (list (R * R)) :=
  match projected with
  | [] => Some []
  | Some p :: rest =>
      match drawn_point p, drawn_points rest with Some d, Some ds => Some (d :: ds) | _, _ => None end
  | None :: _ => None
  end.

(** stacked_basis/plot.py:37-72 [plot_k_points_projected_2d]: the points are a list. An axis
    without a direction also raises for no points. *)
Definition plot_k_points_projected_2d (shape : list nat) (inv : nat -> nat -> R) (axes : nat * nat) (points : list (nat -> R))
    : option (list (R * R)) :=
  let nd := length shape in
  let axes := [fst axes; snd axes] in
  match project_k_points_along_axes nd shape inv axes (fun _ => 0%R) with
  | None => None
  | Some _ => drawn_points (map (project_k_points_along_axes nd shape inv axes) points)
  end.

(** 159-193 [plot_x_points_projected_2d]. *)
Definition plot_x_points_projected_2d (nd : nat) (delta : nat -> nat -> R) (axes : nat * nat) (points : list (nat -> R))
    : option (list (R * R)) :=
  let axes := [fst axes; snd axes] in
  match project_x_points_along_axes nd delta axes (fun _ => 0%R) with
  | None => None
  | Some _ => drawn_points (map (project_x_points_along_axes nd delta axes) points)
  end.

(** 75-101 [plot_brillouin_zone_points_projected_2d]: the momenta of the first two axes and a
    single one of the third, decremented twice. *)
Fixpoint decremented (f : list Z -> option (list Z)) (coordinates : list (list Z)) : option (list (list Z)) :=
  match coordinates with
  | [] => Some []
  | c :: rest => match f c, decremented f rest with Some d, Some ds => Some (d :: ds) | _, _ => None end
  end.
Definition plot_brillouin_zone_points_projected_2d (shape : list nat) (inv binv : nat -> nat -> R) (axes : nat * nat)
    : option (list (R * R)) :=
  match shape with
  | n0 :: n1 :: _ :: _ =>
      let single := [n0; n1; 1] in
      let coordinates := map (fun i => map (fun a => stacked_nk_points single a i) [0; 1; 2]) (seq 0 (nprod single)) in
      match decremented (decrement_brillouin_zone shape inv binv) coordinates with
      | None => None
      | Some coordinates =>
          match decremented (decrement_brillouin_zone shape inv binv) coordinates with
          | None => None
          | Some coordinates => plot_k_points_projected_2d shape inv axes (map (k_point_at_index 3 inv) coordinates)
          end
      end
  | _ => None
  end.

(** 104-126 [plot_bragg_points_projected_2d]. *)
Definition plot_bragg_points_projected_2d (shape : list nat) (inv binv : nat -> nat -> R) (axes : nat * nat)
    : option (list (R * R)) :=
  plot_k_points_projected_2d shape inv axes (all_bragg_point shape binv 1).

(** [array.reshape(rows, *shape)[sl].reshape(rows, -1)]: axes not mentioned in [sl] are kept, and
    point [j] has the components in column [j]. *)
Definition sliced_points (rows : nat) (shape : list nat) (flat : nat -> R) (sl : list (option nat)) : option (list (nat -> R)) :=
  let sl := sl ++ repeat None (S (length shape) - length sl) in
  let sliced := sliced_shape (rows :: shape) sl in
  if slice_ok (rows :: shape) sl && (0 <? rows) && (nprod sliced mod rows =? 0) then
    let m := nprod sliced / rows in
    Some (map (fun j => fun c => flat (ravel (rows :: shape) (fill_slice sl (unravel sliced (c * m + j)))))  (seq 0 m))
  else None.

(** 129-156 [plot_fundamental_k_in_plane_projected_2d]: three rows whatever the number of
    components, and the axes are used for the array with a row per component. *)
Definition plot_fundamental_k_in_plane_projected_2d (shape fshape : list nat) (inv : nat -> nat -> R) (axes : nat * nat) (idx : list nat)
    : option (list (R * R)) :=
  let nd := length fshape in
  let total := nprod fshape in
  if nd * total =? 3 * total then
    match sliced_points 3 fshape (fun t => fundamental_stacked_k_points fshape inv (t / total) (t mod total))
            (slice_ignoring_axes idx [fst axes; snd axes]) with
    | None => None
    | Some points => plot_k_points_projected_2d shape inv axes points
    end
  else None.

(** 196-231 [plot_fundamental_x_in_plane_projected_2d]. *)
Definition plot_fundamental_x_in_plane_projected_2d (fshape : list nat) (delta : nat -> nat -> R) (axes : nat * nat) (idx : list nat)
    : option (list (R * R)) :=
  let nd := length fshape in
  let total := nprod fshape in
  match sliced_points nd fshape (fun t => fundamental_x_points fshape delta (t mod total) (t / total))
          (slice_ignoring_axes idx [0; 1 + fst axes; 1 + snd axes]) with
  | None => None
  | Some points => plot_x_points_projected_2d nd delta axes points
  end.

(** 234-264 [plot_fundamental_x_at_index_projected_2d]: [inl] a flat index, [inr] a stacked one
    (of indices, not of slices). *)
Definition plot_fundamental_x_at_index_projected_2d (shape fshape : list nat) (delta : nat -> nat -> R) (idx : Z + list nat) (axes : nat * nat)
    : option (list (R * R)) :=
  let nd := length fshape in
  let total := nprod fshape in
  match (match idx with inl i => get_stacked_index shape i | inr idx => Some idx end) with
  | None => None
  | Some idx =>
      match sliced_points nd fshape (fun t => IZR (stacked_nx_points fshape (t / total) (t mod total))) (None :: map Some idx) with
      | None => None
      | Some points => plot_x_points_projected_2d nd delta axes points
      end
  end.
