(** Model of util/interpolation.py.  No proofs here. *)
From Verif Require Import ZLib NumPy.

(** Value assigned by [arr[axes] = s] at position [k] (last assignment wins). *)
Fixpoint axis_target (axes s : list nat) (k : nat) : option nat :=
  match axes, s with
  | a :: axes, n :: s =>
      match axis_target axes s k with
      | Some m => Some m
      | None => if a =? k then Some n else None
      end
  | _, _ => None
  end.

(** util/interpolation.py:47-48  [padded_shape[axes_arr] = s] *)
Fixpoint padded_shape_from (k : nat) (axes s shape : list nat) : list nat :=
  match shape with
  | [] => []
  | n :: shape =>
      (match axis_target axes s k with Some m => m | None => n end)
        :: padded_shape_from (S k) axes s shape
  end.
Definition padded_shape (axes s shape : list nat) := padded_shape_from 0 axes s shape.

(** util/interpolation.py:56  [slice(1 + min((n - 1) // 2, (s - 1) // 2))] *)
Definition pad_slice_start (n s : nat) : pyslice :=
  let n := Z.of_nat n in let s := Z.of_nat s in
  slice_to (1 + Z.min ((n - 1) / 2) ((s - 1) / 2)).

(** util/interpolation.py:64-67
    [slice(start, None) if (start := max((-n+1)//2, (-s+1)//2)) < 0 else slice(0, 0)] *)
Definition pad_slice_end (n s : nat) : pyslice :=
  let n := Z.of_nat n in let s := Z.of_nat s in
  let start := Z.max ((- n + 1) / 2) ((- s + 1) / 2) in
  if (start <? 0)%Z then slice_from start else slice_range 0 0.

(** util/interpolation.py:53-71: the pair (slice_start[k], slice_end[k]) for
    every axis k of the array. *)
Fixpoint pad_slices_from (k : nat) (axes s shape : list nat) : list (list pyslice) :=
  match shape with
  | [] => []
  | n :: shape =>
      (match axis_target axes s k with
       | Some m => [pad_slice_start n m; pad_slice_end n m]
       | None => [slice_all; slice_all]
       end) :: pad_slices_from (S k) axes s shape
  end.
Definition pad_slices (axes s shape : list nat) := pad_slices_from 0 axes s shape.

(** util/interpolation.py:74-75: the loop over [itertools.product]. *)
Fixpoint pad_loop {A} (dshape sshape : list nat) (src : list nat -> A)
    (regions : list (list pyslice)) (dst : list nat -> A) : option (list nat -> A) :=
  match regions with
  | [] => Some dst
  | sl :: regions =>
      match assign_region dshape sshape sl src dst with
      | Some dst => pad_loop dshape sshape src regions dst
      | None => None
      end
  end.

(** util/interpolation.py:21-77 [pad_ft_points].  [zero] is [np.zeros]' element.
    [axes] are non-negative axis numbers (numpy normalises negative ones);
    [zip(..., strict=True)] raises on different lengths, an axis out of range
    raises IndexError. *)
Definition pad_ft_points {A} (zero : A) (shape : list nat) (array : list nat -> A)
    (s axes : list nat) : option (list nat * (list nat -> A)) :=
  if (length axes =? length s) && forallb (fun a => a <? length shape) axes then
    let ps := padded_shape axes s shape in
    match pad_loop ps shape array (cart_prod (pad_slices axes s shape)) (fun _ => zero) with
    | Some padded => Some (ps, padded)
    | None => None
    end
  else None.

(** The one-dimensional call [pad_ft_points(v, s=(s,), axes=(axis,))] on a vector
    of length [n], as made by basis/basis.py.  The [None] branch is unreachable
    (lemma [pad_ft_1d_some]). *)
Definition pad_ft_1d {A} (zero : A) (n s : nat) (v : nat -> A) : option (nat -> A) :=
  match pad_ft_points zero [n] (fun idx => match idx with [i] => v i | _ => zero end) [s] [0] with
  | Some (_, p) => Some (fun j => p [j])
  | None => None
  end.
