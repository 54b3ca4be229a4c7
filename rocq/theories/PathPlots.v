(** Model of the values drawn along paths through the grid and of the path of smallest potential:
    potential/plot.py and state_vector/plot.py.  Labels, scales and figures are left out; arithmetic is exact.
    A path is given by its coordinate along axis [a] at point [j].  No proofs here. *)
From Coq Require Import Reals.
From Verif Require Import ZLib Csum DFT NumPy Index Basis Operator Lattice Hamiltonian Paths VolumeBasis Plots.
Local Open Scope nat_scope.

(** The index [np.ravel_multi_index(_, shape, mode="wrap")] reads: every coordinate modulo its axis. *)
Definition wrapped_index (shape : list nat) (point : nat -> Z) : list nat :=
  map (fun a => Z.to_nat (point a mod Z.of_nat (nth a shape 0))) (seq 0 (length shape)).

(** The index numpy reads for a tuple of integers; an entry out of range raises. *)
Fixpoint tuple_index (shape : list nat) (point : list Z) : option (list nat) :=
  match shape, point with
  | [], [] => Some []
  | n :: shape, z :: point =>
      match python_index n z, tuple_index shape point with
      | Some i, Some idx => Some (i :: idx)
      | _, _ => None
      end
  | _, _ => None
  end.
Fixpoint all_indices (shape : list nat) (path : nat -> nat -> Z) (n : nat) : option (list (list nat)) :=
  match n with
  | 0 => Some []
  | S n =>
      match all_indices shape path n, tuple_index shape (map (fun a => path a n) (seq 0 (length shape))) with
      | Some l, Some idx => Some (l ++ [idx])
      | _, _ => None
      end
  end.

(** The line [ax.plot(distances, data)] of [n] data: the distances are [max n 1], and matplotlib
    raises when the numbers differ. *)
Definition line_along (n : nat) (data : nat -> C) (distances : list R) (m : plot_measure) : option (list (R * R)) :=
  if length distances =? n then plot_data_1d n data (fun j => nth j distances 0%R) m false else None.

(** potential/plot.py:373-418 [plot_potential_along_path] of a path of [n] points. *)
Definition plot_potential_along_path (same : basis -> basis -> bool) (axes : list length_axis) (data : nat -> C)
    (n : nat) (path : nat -> nat -> Z) (wrap_distances : bool) (m : plot_measure) : option (list (R * R)) :=
  match stacked_basis_as_fundamental_position_basis axes with
  | None => None
  | Some basis_x =>
      match convert same (stacked axes) (stacked basis_x) with
      | None => None
      | Some G =>
          let shape := fundamental_shape axes in
          if nprod shape =? 0 then None
          else
            line_along n (fun j => G data (ravel shape (wrapped_index shape (fun a => path a j))))
              (calculate_cumulative_x_distances_along_path shape shape (axis_vectors axes) n path wrap_distances) m
      end
  end.

(** state_vector/plot.py:637-681 [plot_state_along_path]; wavepacket/plot.py:1057-1087
    [plot_wavepacket_along_path] draws this for one state of a wavepacket. *)
Definition plot_state_along_path (same : basis -> basis -> bool) (axes : list length_axis) (data : nat -> C)
    (n : nat) (path : nat -> nat -> Z) (wrap_distances : bool) (m : plot_measure) : option (list (R * R)) :=
  match stacked_basis_as_fundamental_position_basis axes with
  | None => None
  | Some basis_x =>
      match convert same (stacked axes) (stacked basis_x) with
      | None => None
      | Some G =>
          let shape := fundamental_shape axes in
          match all_indices shape path n with
          | None => None
          | Some idx =>
              line_along n (fun j => G data (ravel shape (nth j idx [])))
                (calculate_cumulative_x_distances_along_path shape shape (axis_vectors axes) n path wrap_distances) m
          end
      end
  end.

(** numpy orders complex numbers by their real and then by their imaginary parts; [np.argmin] is the
    first place of the smallest. *)
Definition complex_less (z w : C) : bool :=
  if Rlt_dec (fst z) (fst w) then true
  else if Req_EM_T (fst z) (fst w) then (if Rlt_dec (snd z) (snd w) then true else false) else false.
Fixpoint np_argmin (f : nat -> C) (n : nat) : nat :=
  match n with
  | 0 => 0
  | S n => let best := np_argmin f n in if complex_less (f n) (f best) then n else best
  end.

(** potential/plot.py:421-446 [get_minimum_path]: [shape] is that of the basis of the potential, which is
    not converted.  A potential along one axis, whose path has no rows, is left out. *)
Definition insert_at (a i : nat) (l : list nat) : list nat := firstn a l ++ i :: skipn a l.
Definition without (a : nat) (l : list nat) : list nat := firstn a l ++ skipn (S a) l.
Definition get_minimum_path (shape : list nat) (data : nat -> C) (path : nat -> nat -> Z) (axis : Z) : option (nat -> nat -> Z) :=
  let nd := length shape in
  let a := Z.to_nat (axis mod Z.of_nat nd) in
  if (nd <? 2) || (nprod shape =? 0) then None
  else
    let min_idx idx := np_argmin (fun i => data (ravel shape (insert_at a i idx))) (nth a shape 0) in
    Some (fun b j =>
      if b <? a then path b j
      else if b =? a then Z.of_nat (min_idx (wrapped_index (without a shape) (fun c => path c j)))
      else path (b - 1) j).

(** 449-477 [plot_potential_minimum_along_path]. *)
Definition plot_potential_minimum_along_path (same : basis -> basis -> bool) (axes : list length_axis) (data : nat -> C)
    (n : nat) (path : nat -> nat -> Z) (axis : Z) : option (list (R * R)) :=
  match get_minimum_path (map (fun a => bsize (la_basis a)) axes) data path axis with
  | Some full => plot_potential_along_path same axes data n full false PReal
  | None => None
  end.
