(** Small independent vocabulary used in the statements of the properties. *)
From Verif Require Import ZLib NumPy.

(** [f] is the signed frequency stored in slot [i] of a Fourier grid of length
    [n]: the representative of [i] modulo [n] between -floor(n/2) and
    floor((n-1)/2). *)
Definition is_freq (n i : nat) (f : Z) : Prop :=
  Zcong (Z.of_nat n) f (Z.of_nat i) /\
  (- (Z.of_nat n / 2) <= f <= (Z.of_nat n - 1) / 2)%Z.

(** Slot [i] of the old grid and slot [j] of the new grid correspond along one
    axis: the same frequency if the axis is resized (from [n] to [m]), the same
    index if it is not. *)
Definition same_slot (target : option nat) (n i j : nat) : Prop :=
  match target with
  | None => i = j
  | Some m => exists f, is_freq n i f /\ is_freq m j f
  end.

(** ... and on all axes at once.  [resize k] is the new length of axis [k], if it
    is resized. *)
Fixpoint same_slots (resize : nat -> option nat) (k : nat) (shape old new : list nat) : Prop :=
  match shape, old, new with
  | [], [], [] => True
  | n :: shape, i :: old, j :: new =>
      same_slot (resize k) n i j /\ same_slots resize (S k) shape old new
  | _, _, _ => False
  end.

(** The call with [axes] and [s] resizes axis [axes[j]] to [s[j]] and no other. *)
Definition resizes (axes s : list nat) (resize : nat -> option nat) : Prop :=
  (forall j, j < length axes -> resize (nth j axes 0) = Some (nth j s 0)) /\
  (forall k, ~ In k axes -> resize k = None).

(** Shape after the resize. *)
Definition resized_shape (resize : nat -> option nat) (shape shape' : list nat) : Prop :=
  length shape' = length shape /\
  forall k, k < length shape ->
    nth k shape' 0 = match resize k with Some m => m | None => nth k shape 0 end.

(** Every frequency of the slot [idx] exists on the resized grid. *)
Definition representable (resize : nat -> option nat) (shape idx : list nat) : Prop :=
  forall k m f, k < length shape -> resize k = Some m ->
    is_freq (nth k shape 0) (nth k idx 0) f -> (- (Z.of_nat m / 2) <= f <= (Z.of_nat m - 1) / 2)%Z.

(** Fundamental position of sample k of an evenly spaced axis. *)
Definition sample_pos (n step : nat) (offset : Z) (k : nat) : nat :=
  Z.to_nat ((Z.of_nat k * Z.of_nat step + offset) mod (Z.of_nat n * Z.of_nat step)).

(** Is axis [ax] selected by an optional [axes] argument? *)
Definition wrapped (axes : option (list nat)) (ax : nat) : Prop :=
  match axes with None => True | Some l => In ax l end.

(** Axes of an [ndim]-dimensional array not in [axes], ascending. *)
Definition other_axes (ndim : nat) (axes : list nat) : list nat :=
  filter (fun k => negb (existsb (Nat.eqb k) axes)) (seq 0 ndim).
