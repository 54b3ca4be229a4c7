(** Specification of Fourier interpolation (C74, C75). *)
From Coq Require Import Reals List ZArith Arith Lia.
From Verif Require Import ZLib Csum DFT NumPy Spec SpecBasis IndexSum.
Import ListNotations.
Local Open Scope R_scope.
Local Open Scope C_scope.

(** Frequency [f] exists on a grid of [m] points. *)
Definition fits (m : nat) (f : Z) : bool := ((- (Z.of_nat m / 2) <=? f) && (f <=? (Z.of_nat m - 1) / 2))%Z%bool.

(** Position of point [y] of [m] within the period. *)
Definition position (m y : nat) : R := (INR y / INR m)%R.

(** Contribution of the sample at point [x] of [n] to point [y] of [m], when every frequency
    of the old grid is kept where the new grid has it. *)
Definition resample (n m y x : nat) : C :=
  RtoC (/ INR n) * csum (fun k => if fits m (freq n k) then cis (2 * PI * IZR (freq n k) * (position m y - position n x)) else 0) n.

(** The same for a real spectrum: frequencies 0 .. n/2 that the new grid has, those other than
    0 and m/2 together with their negatives. *)
Definition real_resample (n m y x : nat) : C :=
  RtoC (/ INR n) *
  csum (fun k => if (k <=? n / 2)%nat
                 then RtoC (if (k =? 0)%nat then 1 else if (2 * k =? m)%nat then 1 else 2) * cis (2 * PI * INR k * (position m y - position n x))
                 else 0) (m / 2 + 1).

(** Product over the axes; axis [k] uses [K k], old size, indices. *)
Fixpoint axes_product (K : nat -> nat -> nat -> nat -> C) (k : nat) (shape y x : list nat) : C :=
  match shape, y, x with
  | n :: shape, i :: y, j :: x => K k n i j * axes_product K (S k) shape y x
  | _, _, _ => 1
  end.

(** Axes that are not resized keep their index. *)
Definition keep (resize : nat -> option nat) (K : nat -> nat -> nat -> nat -> C) (k n i j : nat) : C :=
  match resize k with Some m => K n m i j | None => cdelta i j end.

(** ... and the last axis uses the real kernel. *)
Definition keep_real (a : nat) (resize : nat -> option nat) (k n i j : nat) : C :=
  match resize k with Some m => if (k =? a)%nat then real_resample n m i j else resample n m i j | None => cdelta i j end.

(** Point [y] of the new grid is point [x] of the old one. *)
Definition same_point (resize : nat -> option nat) (shape y x : list nat) : Prop :=
  forall k, (k < length shape)%nat ->
    match resize k with
    | Some m => (nth k y 0 * nth k shape 0 = nth k x 0 * m)%nat
    | None => nth k y 0%nat = nth k x 0%nat
    end.

(** The resized axes do not get shorter. *)
Definition not_shorter (resize : nat -> option nat) (shape : list nat) : Prop :=
  forall k m, (k < length shape)%nat -> resize k = Some m -> (nth k shape 0 <= m)%nat.

(** Product of one function per axis. *)
Fixpoint index_product (g : nat -> nat -> C) (k : nat) (idx : list nat) : C :=
  match idx with
  | [] => 1
  | i :: idx => g k i * index_product g (S k) idx
  end.

(** [z] names axis [a] of an array with [ndim] axes; negative numbers count from the end. *)
Definition names_axis (ndim : nat) (z : Z) (a : nat) : Prop :=
  ((0 <= z < Z.of_nat ndim)%Z /\ a = Z.to_nat z) \/ ((- Z.of_nat ndim <= z < 0)%Z /\ Z.of_nat a = (z + Z.of_nat ndim)%Z).

(** The axes named are different, none of them is empty, and each gets a positive size. *)
Definition valid_axes (shape s : list nat) (axes : list Z) (ax : list nat) : Prop :=
  Forall2 (names_axis (length shape)) axes ax /\ NoDup ax /\ length ax = length s /\
  Forall (fun a => (0 < nth a shape 0)%nat) ax /\ Forall (fun m => (0 < m)%nat) s.
