(** Model of the spline interpolation along an axis, of potentials given on uneven points in z
    and of the choice of the lowest column of a potential.  No proofs here. *)
From Coq Require Import Reals.
From Verif Require Import ZLib Csum DFT NumPy Index Basis Operator Reduce Hamiltonian Fourier.
Local Open Scope nat_scope.

(** [np.linspace(start, stop, n)[j]]: the last entry is set to [stop]. *)
Definition linspace (start stop : R) (n j : nat) : R :=
  if n =? 1 then start
  else if j =? n - 1 then stop
  else (INR j * ((stop - start) / INR (n - 1)) + start)%R.

(** [splev(x, splrep(coords, values, s=0))]: number of points, coordinates and values; [None]
    when splrep raises. *)
Definition spline_fn := nat -> (nat -> R) -> (nat -> R) -> option (R -> R).

(** The strides, in elements, of an array freshly made by [np.empty]. *)
Fixpoint strides (shape : list nat) : list nat :=
  match shape with [] => [] | _ :: shape => nprod shape :: strides shape end.

(** [swapaxes(a, -1)] on a shape, strides or an index. *)
Definition swap_last (a : nat) (l : list nat) : list nat :=
  update a (last l 0) (update (length l - 1) (nth a l 0) l).

(** Whether [reshape(-1, n)] of the swapped array is a view: the axes before the last one are
    joined into one axis, which numpy (_attempt_nocopy_reshape) does without a copy when, apart
    from axes of length one, each stride is that of the next axis times its length. *)
Fixpoint joined (l : list (nat * nat)) : bool :=
  match l with
  | (_, t) :: (((s', t') :: _) as r) => (t =? s' * t') && joined r
  | _ => true
  end.
Definition is_view (shape : list nat) (a : nat) : bool :=
  joined (filter (fun p => negb (fst p =? 1))
            (combine (removelast (swap_last a shape)) (removelast (swap_last a (strides shape))))).

(** util/interpolation.py:233-256 [interpolate_points_along_axis_spline].  [old] are the [m] old
    coordinates, [memory] is what the array of [np.empty] holds.  The rows are written to
    [swapped_points]: they reach the array returned if that is a view of it. *)
Definition interpolate_points_along_axis_spline (spline : spline_fn) (memory : list nat -> R)
    (shape : list nat) (data : list nat -> R) (m : nat) (old : nat -> R) (n : nat) (axis : Z)
  : option (list nat * (list nat -> R)) :=
  match python_index (length shape) axis with
  | None => None
  | Some a =>
      if (m =? 0) || (n =? 0) || (nth a shape 0 =? 0) then None
      else
        let rows := removelast (swap_last a shape) in
        let row i := fun j => data (swap_last a (unravel rows i ++ [j])) in
        match all_some (map (fun i => if m =? nth a shape 0 then spline m old (row i) else None) (seq 0 (nprod rows))) with
        | None => None
        | Some l =>
            let new_shape := update a n shape in
            Some (new_shape, fun idx =>
              if is_view new_shape a
              then nth (ravel rows (removelast (swap_last a idx))) l (fun _ => 0%R) (linspace (old 0) (old (m - 1)) n (nth a idx 0))
              else memory idx)
        end
  end.

(** basis/basis.py [FundamentalPositionBasis(delta_x, n)]. *)
Record position_axis := { p_n : nat; p_delta : list R }.
(** potential/potential.py:118-136 [UnevenPotential3d] with [UnevenPotential3dZBasis]. *)
Record uneven := { u0 : position_axis; u1 : position_axis; uz : nat; uz_points : nat -> R; u_data : ndarray }.

(** 235-277 [interpolate_uneven_potential]; [astype(np.float64)] keeps the real part. *)
Definition interpolate_uneven_potential (spline : spline_fn) (memory : list nat -> R) (u : uneven) (s0 s1 s2 : nat)
  : option (list position_axis * (nat -> R)) :=
  match reshape (u_data u) [p_n (u0 u); p_n (u1 u); uz u] with
  | None => None
  | Some d =>
      match interpolate_points_rfftn (ashape d) (fun idx => fst (aflat d (ravel (ashape d) idx))) [s0; s1] (Some [0; 1]%Z) with
      | None => None
      | Some (shape, xy) =>
          match interpolate_points_along_axis_spline spline memory shape xy (uz u) (uz_points u) s2 2 with
          | None => None
          | Some (shape, out) =>
              Some ([{| p_n := s0; p_delta := p_delta (u0 u) ++ [0%R] |};
                     {| p_n := s1; p_delta := p_delta (u1 u) ++ [0%R] |};
                     {| p_n := s2; p_delta := [0; 0; uz_points u (uz u - 1)%nat - uz_points u 0%nat]%R |}],
                    fun t => out (unravel shape t))
          end
      end
  end.

(** 280-314 [mock_even_potential]. *)
Definition mock_even_potential (u : uneven) : list position_axis * ndarray :=
  ([{| p_n := p_n (u0 u); p_delta := p_delta (u0 u) ++ [0%R] |};
    {| p_n := p_n (u1 u); p_delta := p_delta (u1 u) ++ [0%R] |};
    {| p_n := uz u; p_delta := [0; 0; 1]%R |}], ravel_array (u_data u)).

(** [np.argmin]: lexicographic order of complex numbers, the first of the smallest. *)
Fixpoint argmin (v : nat -> C) (n : nat) : nat :=
  match n with
  | 0 => 0
  | S n => let m := argmin v n in if clt (v n) (v m) then n else m
  end.

(** stacked_basis/potential_basis.py:102-125 [select_minimum_potential_3d]: ValueErrors for
    other numbers of values and for an empty array, IndexError for fewer than three axes or
    components; with more axes [reshape(shape)[i, j, :]] keeps more than one axis. *)
Definition select_minimum_potential_3d (axes : list position_axis) (data : ndarray) : option (position_axis * ndarray) :=
  let shape := map p_n axes in
  match reshape data shape, axes with
  | Some d, _ :: _ :: a2 :: _ =>
      if nprod shape =? 0 then None
      else
        let idx := unravel shape (argmin (aflat data) (nprod (ashape data))) in
        match nth_error (p_delta a2) 2, shape with
        | Some dz, n0 :: n1 :: rest =>
            Some ({| p_n := p_n a2; p_delta := [dz] |},
                  {| ashape := rest; aflat := fun t => aflat d (ravel shape (nth 0 idx 0 :: nth 1 idx 0 :: unravel rest t)) |})
        | _, _ => None
        end
  | _, _ => None
  end.
