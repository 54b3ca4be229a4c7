(** Model of the numpy/python array primitives used by the library.
    An N-D array of shape [shape] is a function on index lists; only indices in
    range ([in_shape]) are meaningful.  No proofs here. *)
From Verif Require Import ZLib.

(** A valid index of an array of the given shape. *)
Definition in_shape (idx shape : list nat) : Prop := Forall2 lt idx shape.

Fixpoint in_shapeb (idx shape : list nat) : bool :=
  match idx, shape with
  | [], [] => true
  | i :: idx, n :: shape => (i <? n) && in_shapeb idx shape
  | _, _ => false
  end.

(** Number of elements. *)
Fixpoint nprod (shape : list nat) : nat :=
  match shape with [] => 1 | n :: l => n * nprod l end.

(** Row-major position of an index: numpy's memory order ("C" order), hence the
    meaning of [reshape], [ravel], [ravel_multi_index] (in range). *)
Fixpoint ravel (shape idx : list nat) : nat :=
  match shape, idx with
  | _ :: shape, i :: idx => i * nprod shape + ravel shape idx
  | _, _ => 0
  end.

Fixpoint unravel (shape : list nat) (i : nat) : list nat :=
  match shape with
  | [] => []
  | _ :: shape => i / nprod shape :: unravel shape (i mod nprod shape)
  end.

(** [arr.reshape(-1)] and back: the flat view of an N-D array and the N-D view of
    flat data. *)
Definition flatten {A} (shape : list nat) (a : list nat -> A) : nat -> A :=
  fun i => a (unravel shape i).
Definition stack {A} (shape : list nat) (v : nat -> A) : list nat -> A :=
  fun idx => v (ravel shape idx).

(** A basic python slice [start:stop:1]. *)
Record pyslice := { s_start : option Z; s_stop : option Z }.
Definition slice_all : pyslice := {| s_start := None; s_stop := None |}.
Definition slice_to (stop : Z) : pyslice := {| s_start := None; s_stop := Some stop |}.
Definition slice_from (start : Z) : pyslice := {| s_start := Some start; s_stop := None |}.
Definition slice_range (a b : Z) : pyslice := {| s_start := Some a; s_stop := Some b |}.

(** Python's normalisation of a slice bound against a length: negative values
    count from the end, everything is clamped to [0, n]. *)
Definition slice_bound (n : nat) (i : Z) : nat :=
  let n' := Z.of_nat n in
  Z.to_nat (if (i <? 0)%Z then Z.max 0 (i + n') else Z.min i n').
Definition slice_lo (n : nat) (s : pyslice) : nat :=
  match s_start s with None => 0 | Some i => slice_bound n i end.
Definition slice_hi (n : nat) (s : pyslice) : nat :=
  match s_stop s with None => n | Some i => slice_bound n i end.
Definition slice_len (n : nat) (s : pyslice) : nat := slice_hi n s - slice_lo n s.

(** Is [idx] inside the region selected by one slice per axis? *)
Fixpoint in_region (shape : list nat) (sl : list pyslice) (idx : list nat) : bool :=
  match shape, sl, idx with
  | [], [], [] => true
  | n :: shape, s :: sl, i :: idx =>
      (slice_lo n s <=? i) && (i <? slice_hi n s) && in_region shape sl idx
  | _, _, _ => false
  end.

(** Position in the source region corresponding to a position in the
    destination region of [dst[slices] = src[slices]]. *)
Fixpoint region_source (dshape sshape : list nat) (sl : list pyslice) (idx : list nat)
  : list nat :=
  match dshape, sshape, sl, idx with
  | n :: dshape, m :: sshape, s :: sl, i :: idx =>
      (i - slice_lo n s + slice_lo m s) :: region_source dshape sshape sl idx
  | _, _, _, _ => []
  end.

(** Do the two regions have the same shape?  (numpy would also accept a source
    axis of length one by broadcasting; we call that an error, and the theorems
    show that it does not occur.) *)
Fixpoint regions_match (dshape sshape : list nat) (sl : list pyslice) : bool :=
  match dshape, sshape, sl with
  | [], [], [] => true
  | n :: dshape, m :: sshape, s :: sl =>
      (slice_len n s =? slice_len m s) && regions_match dshape sshape sl
  | _, _, _ => false
  end.

(** [dst[tuple(slices)] = src[tuple(slices)]]; [None] when numpy would raise. *)
Definition assign_region {A} (dshape sshape : list nat) (sl : list pyslice)
    (src dst : list nat -> A) : option (list nat -> A) :=
  if regions_match dshape sshape sl
  then Some (fun idx => if in_region dshape sl idx
                        then src (region_source dshape sshape sl idx) else dst idx)
  else None.

(** [itertools.product] of a list of lists. *)
Fixpoint cart_prod {A} (ls : list (list A)) : list (list A) :=
  match ls with
  | [] => [[]]
  | l :: ls => flat_map (fun x => map (cons x) (cart_prod ls)) l
  end.

(** [np.roll(v, shift)] on length [n]: element i moves to (i + shift) mod n. *)
Definition roll {A} (n : nat) (shift : Z) (v : nat -> A) : nat -> A :=
  fun i => v (Z.to_nat ((Z.of_nat i - shift) mod Z.of_nat n)).

(** [v[start::step]] for 0 <= start: element i is v[start + i*step]. *)
Definition strided_get {A} (start step : nat) (v : nat -> A) : nat -> A :=
  fun i => v (start + i * step).

(** [v[start::step] = w] for 0 <= start < step. *)
Definition strided_set {A} (start step : nat) (v w : nat -> A) : nat -> A :=
  fun i => if (start <=? i) && ((i - start) mod step =? 0)
           then w ((i - start) / step) else v i.

(** [np.fft.ifftshift] on length n: element i is x[(i + n//2) mod n]. *)
Definition ifftshift {A} (n : nat) (v : nat -> A) : nat -> A :=
  fun i => v ((i + n / 2) mod n).
