(** Model of the Fourier interpolation of util/interpolation.py.  No proofs here.
    Arrays are a shape and a function of the index; numpy and scipy transforms are given by
    their defining sums in exact arithmetic. *)
From Coq Require Import Reals List ZArith Arith Bool Lia.
From Verif Require Import ZLib Csum DFT NumPy Interp.
Import ListNotations.
Local Open Scope nat_scope.

(** [np.fft.fft(..., norm="forward")] of [n] values: the factor 1/n is on this side. *)
Definition fft_forward (n : nat) (v : nat -> C) (k : nat) : C :=
  Cmult (RtoC (/ INR n)%R) (csum (fun x => Cmult (v x) (omega n (- (Z.of_nat k * Z.of_nat x)))) n).

(** [scipy.fft.ifft(..., norm="forward")]: no factor. *)
Definition ifft_forward (n : nat) (v : nat -> C) (x : nat) : C :=
  csum (fun k => Cmult (v k) (omega n (Z.of_nat k * Z.of_nat x))) n.

(** [np.fft.irfft(..., m, norm="forward")] of a half spectrum with [n] entries: missing
    entries are zero, surplus entries are ignored, every frequency except zero and m/2 stands
    for itself and its negative, and the result is real. *)
Definition half_weight (m k : nat) : R := if (k =? 0) || (2 * k =? m) then 1%R else 2%R.
Definition irfft_forward (n m : nat) (v : nat -> C) (y : nat) : R :=
  rsum (fun k => (half_weight m k * fst (Cmult (if k <? n then v k else RtoC 0%R) (omega m (Z.of_nat k * Z.of_nat y))))%R) (m / 2 + 1).

(** Entry [k] of a list replaced. *)
Fixpoint update {A} (k : nat) (x : A) (l : list A) : list A :=
  match l with
  | [] => []
  | y :: l => match k with O => x :: l | S k => y :: update k x l end
  end.

(** A one-dimensional transform along axis [a]: the value at an index is the transform of the
    values along the axis through it. *)
Definition along {A B} (a : nat) (T : (nat -> A) -> nat -> B) (v : list nat -> A) (idx : list nat) : B :=
  T (fun x => v (update a x idx)) (nth a idx 0).

(** Axis numbers count from the end when negative; outside the range numpy raises. *)
Definition norm_axis (ndim : nat) (a : Z) : option nat :=
  if ((- Z.of_nat ndim <=? a) && (a <? Z.of_nat ndim))%Z
  then Some (Z.to_nat (if (a <? 0)%Z then (a + Z.of_nat ndim)%Z else a)) else None.
Fixpoint norm_axes (ndim : nat) (l : list Z) : option (list nat) :=
  match l with
  | [] => Some []
  | a :: l => match norm_axis ndim a, norm_axes ndim l with Some a, Some l => Some (a :: l) | _, _ => None end
  end.

Fixpoint distinct (l : list nat) : bool :=
  match l with [] => true | a :: l => negb (existsb (Nat.eqb a) l) && distinct l end.

(** util/interpolation.py:106 and 178  [np.arange(-1, -1 - len(s), -1) if axes is None else np.array(axes)] *)
Definition default_axes (d : nat) (axes : option (list Z)) : list Z :=
  match axes with Some l => l | None => map (fun j => (-1 - Z.of_nat j)%Z) (seq 0 d) end.

(** [np.fft.fftn(points, axes=axes, norm="forward")] and [scipy.fft.ifftn(..., axes=axes,
    norm="forward")]: one transform per axis, the last axis first. *)
Definition fftn (shape axes : list nat) (v : list nat -> C) : list nat -> C :=
  fold_right (fun a v => along a (fft_forward (nth a shape 0)) v) v axes.
Definition ifftn (shape axes : list nat) (v : list nat -> C) : list nat -> C :=
  fold_right (fun a v => along a (ifft_forward (nth a shape 0)) v) v axes.

(** Both libraries reject empty axes, scipy rejects repeated ones. *)
Definition axes_ok (shape axes s : list nat) : bool :=
  distinct axes && forallb (fun a => 0 <? nth a shape 0) axes && forallb (fun m => 0 <? m) s.

(** util/interpolation.py:80-114 [interpolate_points_fftn] *)
Definition interpolate_points_fftn (shape : list nat) (points : list nat -> C) (s : list nat) (axes : option (list Z))
  : option (list nat * (list nat -> C)) :=
  match norm_axes (length shape) (default_axes (length s) axes) with
  | Some ax =>
      if axes_ok shape ax s then
        match pad_ft_points (RtoC 0%R) shape (fftn shape ax points) s ax with
        | Some (shape', padded) => Some (shape', ifftn shape' ax padded)
        | None => None
        end
      else None
  | None => None
  end.

(** util/interpolation.py:117-154 [pad_ft_points_real_axis] for an axis within range: the
    half spectrum of [n] points has n // 2 + 1 entries; the first ones are copied. *)
Definition pad_ft_points_real_axis {A} (zero : A) (shape : list nat) (array : list nat -> A) (n axis : nat)
  : list nat * (list nat -> A) :=
  let size := n / 2 + 1 in
  (update axis size shape,
   fun idx => if nth axis idx 0 <? Nat.min size (nth axis shape 0) then array idx else zero).

(** util/interpolation.py:157-186 [interpolate_points_rfftn].  [np.fft.rfftn] transforms the
    last of the axes to its half spectrum (the same sum for 0 <= k <= n // 2), then the other
    axes; [scipy.fft.irfftn] undoes the other axes and then the half spectrum of the last one.
    Without axes the indexing of the last one raises. *)
Definition interpolate_points_rfftn (shape : list nat) (points : list nat -> R) (s : list nat) (axes : option (list Z))
  : option (list nat * (list nat -> R)) :=
  match norm_axes (length shape) (default_axes (length s) axes) with
  | Some ax =>
      if axes_ok shape ax s && negb (length ax =? 0) && (length ax =? length s) then
        let a := last ax 0 in
        let others := removelast ax in
        let half := update a (nth a shape 0 / 2 + 1) shape in
        let ft := fftn half others (along a (fft_forward (nth a shape 0)) (fun idx => RtoC (points idx))) in
        match pad_ft_points (RtoC 0%R) half ft (removelast s) others with
        | Some (shape', padded) =>
            Some (update a (last s 0) shape',
                  along a (irfft_forward (nth a shape' 0) (last s 0)) (ifftn shape' others padded))
        | None => None
        end
      else None
  | None => None
  end.

(** Every index of a shape. *)
Definition all_indices (shape : list nat) : list (list nat) := map (unravel shape) (seq 0 (nprod shape)).

(** util/interpolation.py:189-230 [interpolate_points_rfft].  When the whole half spectrum is
    real the upper half of the result is overwritten by the mirrored lower half. *)
Definition interpolate_points_rfft (shape : list nat) (points : list nat -> R) (n : nat) (axis : Z)
  : option (list nat * (list nat -> R)) :=
  match norm_axis (length shape) axis with
  | Some a =>
      let n0 := nth a shape 0 in
      if (0 <? n0) && (0 <? n) then
        let half := update a (n0 / 2 + 1) shape in
        let ft := along a (fft_forward n0) (fun idx => RtoC (points idx)) in
        let out := along a (irfft_forward (n0 / 2 + 1) n) ft in
        let real := forallb (fun idx => if Req_EM_T (snd (ft idx)) 0%R then true else false) (all_indices half) in
        Some (update a n shape,
              if real then fun idx => let y := nth a idx 0 in if n / 2 <? y then out (update a (n - y) idx) else out idx else out)
      else None
  | None => None
  end.
