(** Model of the index arithmetic in basis/util.py, stacked_basis/util.py,
    util/util.py, operator/build.py and basis/evenly_spaced_basis.py.
    No proofs here. *)
From Verif Require Import ZLib NumPy.

(** basis/util.py:114-120 [BasisUtil.nk_points] and 122-130
    [fundamental_nk_points]: [ifftshift(arange((-n + 1) // 2, (n + 1) // 2))]. *)
Definition nk_points_len (n : nat) : nat :=
  Z.to_nat ((Z.of_nat n + 1) / 2 - (- Z.of_nat n + 1) / 2).
Definition nk_points (n : nat) : nat -> Z :=
  ifftshift (nk_points_len n) (fun j => (- Z.of_nat n + 1) / 2 + Z.of_nat j)%Z.

(** basis/util.py:108-112 [nx_points] = arange(0, n). *)
Definition nx_points (n : nat) : nat -> Z := fun i => Z.of_nat i.

(** [np.meshgrid( *points, indexing="ij")] followed by [.ravel()] of each array:
    table of axis [ax], at flat position [i]. *)
Definition meshgrid_ravel (shape : list nat) (points : nat -> nat -> Z) (ax : nat) : nat -> Z :=
  flatten shape (fun idx => points ax (nth ax idx 0)).

(** basis/util.py:191-210 [stacked_nk_points], [fundamental_stacked_nk_points]. *)
Definition stacked_nk_points (shape : list nat) (ax : nat) : nat -> Z :=
  meshgrid_ravel shape (fun a => nk_points (nth a shape 0)) ax.

(** basis/util.py:212-231 [stacked_nx_points], [fundamental_stacked_nx_points]. *)
Definition stacked_nx_points (shape : list nat) (ax : nat) : nat -> Z :=
  meshgrid_ravel shape (fun a => nx_points (nth a shape 0)) ax.

(** [np.ravel_multi_index] modes. *)
Inductive index_mode := MRaise | MWrap | MClip.

Definition index_in_mode (mode : index_mode) (n : nat) (i : Z) : option nat :=
  match mode with
  | MRaise => if (0 <=? i)%Z && (i <? Z.of_nat n)%Z then Some (Z.to_nat i) else None
  | MWrap => if n =? 0 then None else Some (Z.to_nat (i mod Z.of_nat n))
  | MClip => if n =? 0 then None
             else Some (Z.to_nat (Z.max 0 (Z.min i (Z.of_nat n - 1))))
  end.

Fixpoint indices_in_mode (mode : index_mode) (shape : list nat) (idx : list Z)
  : option (list nat) :=
  match shape, idx with
  | [], [] => Some []
  | n :: shape, i :: idx =>
      match index_in_mode mode n i, indices_in_mode mode shape idx with
      | Some i, Some l => Some (i :: l)
      | _, _ => None
      end
  | _, _ => None
  end.

(** basis/util.py:251-272 [get_flat_index] = [np.ravel_multi_index(idx, shape, mode)]. *)
Definition get_flat_index (shape : list nat) (idx : list Z) (mode : index_mode) : option nat :=
  match indices_in_mode mode shape idx with
  | Some l => Some (ravel shape l)
  | None => None
  end.

(** basis/util.py:288-303 [get_stacked_index] = [np.unravel_index(idx, shape)];
    raises when the flat index is out of range. *)
Definition get_stacked_index (shape : list nat) (i : Z) : option (list nat) :=
  if (0 <=? i)%Z && (i <? Z.of_nat (nprod shape))%Z
  then Some (unravel shape (Z.to_nat i)) else None.

(** stacked_basis/util.py:249-250 [_wrap_index]. *)
Definition wrap_index (d len origin : Z) : Z :=
  ((d - origin + len / 2) mod len + origin - len / 2)%Z.

(** stacked_basis/util.py:275-304 [wrap_index_around_origin]; [axes = None] wraps
    every axis.  The origin is given in stacked form; a flat origin goes through
    [get_stacked_index]. *)
Fixpoint wrap_index_from (ax : nat) (shape : list nat) (idx origin : list Z)
    (axes : option (list nat)) : list Z :=
  match shape, idx, origin with
  | n :: shape, i :: idx, o :: origin =>
      (if match axes with None => true | Some l => existsb (Nat.eqb ax) l end
       then wrap_index i (Z.of_nat n) o else i)
        :: wrap_index_from (S ax) shape idx origin axes
  | _, _, _ => []
  end.
Definition wrap_index_around_origin (shape : list nat) (idx : list Z)
    (origin : option (list Z)) (axes : option (list nat)) : list Z :=
  wrap_index_from 0 shape idx
    (match origin with Some o => o | None => map (fun _ => 0%Z) shape end) axes.

(** operator/build.py:127-147 [get_displacements_matrix_nx]. *)
Definition displacements_matrix_nx (n i j : nat) : Z :=
  ((nx_points n i - nx_points n j + Z.of_nat n / 2) mod Z.of_nat n - Z.of_nat n / 2)%Z.

(** operator/build.py:101-124 [get_displacements_matrix_nx_stacked], the matrix of
    axis [ax]. *)
Definition displacements_matrix_nx_stacked (shape : list nat) (ax i j : nat) : Z :=
  let n := Z.of_nat (nth ax shape 0) in
  ((stacked_nx_points shape ax i - stacked_nx_points shape ax j + n / 2) mod n - n / 2)%Z.

(** basis/evenly_spaced_basis.py:31-45 [_pad_sample_axis] on a vector of length
    [n] (the result has length [step * n]). *)
Definition pad_sample_axis {A} (zero : A) (n step : nat) (offset : Z) (v : nat -> A) : nat -> A :=
  let rolled := roll n (offset / Z.of_nat step) v in
  strided_set (Z.to_nat (offset mod Z.of_nat step)) step (fun _ => zero) rolled.

(** basis/evenly_spaced_basis.py:48-57 [_truncate_sample_axis] on a vector of
    length [step * n]. *)
Definition truncate_sample_axis {A} (n step : nat) (offset : Z) (v : nat -> A) : nat -> A :=
  roll n (- (offset / Z.of_nat step))
    (strided_get (Z.to_nat (offset mod Z.of_nat step)) step v).

(** ** util/util.py *)

(** [list.insert(k, x)] for k >= 0. *)
Fixpoint list_insert {A} (k : nat) (x : A) (l : list A) : list A :=
  match k, l with
  | O, _ => x :: l
  | S k, y :: l => y :: list_insert k x l
  | S _, [] => [x]
  end.

(** [sorted] on naturals (insertion sort; python's sort is stable). *)
Fixpoint sort_insert (x : nat) (l : list nat) : list nat :=
  match l with
  | [] => [x]
  | y :: l' => if x <=? y then x :: l else y :: sort_insert x l'
  end.
Definition sorted_nat (l : list nat) : list nat := fold_right sort_insert [] l.

(** [np.argsort] on naturals: positions ordered by key, ties by position. *)
Fixpoint argsort_insert (key : nat -> nat) (i : nat) (l : list nat) : list nat :=
  match l with
  | [] => [i]
  | j :: l' => if key i <=? key j then i :: l else j :: argsort_insert key i l'
  end.
Definition argsort (l : list nat) : list nat :=
  fold_right (argsort_insert (fun i => nth i l 0)) [] (seq 0 (length l)).

(** util/util.py:38-59 [slice_ignoring_axes] where the old slice holds plain
    indices; [None] stands for [slice(None)]. *)
Definition slice_ignoring_axes (old : list nat) (axes : list nat) : list (option nat) :=
  fold_left (fun sl axis => list_insert axis None sl) (sorted_nat axes) (map Some old).

(** util/util.py:62-76 [get_position_in_sorted]. *)
Definition get_position_in_sorted (axes : list nat) : list nat := argsort (argsort axes).

(** [data[sl]] for a tuple of integers and [slice(None)]: the index into [data]
    for the index [rest] into the result. *)
Fixpoint fill_slice (sl : list (option nat)) (rest : list nat) : list nat :=
  match sl with
  | [] => []
  | Some i :: sl => i :: fill_slice sl rest
  | None :: sl =>
      match rest with
      | i :: rest => i :: fill_slice sl rest
      | [] => []
      end
  end.

(** First position of [x] in [l] (its length if absent). *)
Fixpoint list_index (x : nat) (l : list nat) : nat :=
  match l with
  | [] => 0
  | y :: l => if x =? y then 0 else S (list_index x l)
  end.

(** [np.transpose(a, perm)]: axis j of the result is axis perm[j] of [a], so the
    index into [a] has at position m the entry of [idx] at the j with
    perm[j] = m. *)
Definition transpose {A} (perm : list nat) (a : list nat -> A) : list nat -> A :=
  fun idx => a (map (fun m => nth (list_index m perm) idx 0) (seq 0 (length perm))).

(** util/util.py:106-127 [get_data_in_axes]. *)
Definition get_data_in_axes {A} (data : list nat -> A) (axes : list nat) (idx : list nat)
  : list nat -> A :=
  transpose (get_position_in_sorted axes)
    (fun rest => data (fill_slice (slice_ignoring_axes idx axes) rest)).
