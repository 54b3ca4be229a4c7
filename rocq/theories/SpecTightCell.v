(** Vocabulary for the statements about the states of the tight binding approximation. *)
From Coq Require Import Reals.
From Verif Require Import ZLib Csum DFT NumPy Spec Basis SpecBasis Operator SpecWavepacket SpecBloch Localize SpecLocalize.
Local Open Scope Z_scope.

(** [y] lies in the box of [ss] points centred at [o]. *)
Fixpoint in_window (ss : list nat) (o y : list Z) : Prop :=
  match ss, o, y with
  | [], [], [] => True
  | n :: ss, a :: o, b :: y => a - Z.of_nat n / 2 <= b < a - Z.of_nat n / 2 + Z.of_nat n /\ in_window ss o y
  | _, _, _ => False
  end.

(** [x] is the point of a periodic grid of shape [F] that [y] stands for. *)
Fixpoint stands_for (F : list nat) (y : list Z) (x : list nat) : Prop :=
  match F, y, x with
  | [], [], [] => True
  | n :: F, b :: y, i :: x => Zcong (Z.of_nat n) b (Z.of_nat i) /\ stands_for F y x
  | _, _, _ => False
  end.

(** [x] lies in the unit cell centred at [o]. *)
Definition in_cell_around (ss F : list nat) (o : list Z) (x : list nat) : Prop :=
  exists y, in_window ss o y /\ stands_for F y x.

(** The position of [x] in its unit cell along the first axis is smaller than [l]. *)
Definition first_below (ss : list nat) (l : nat) (x : list nat) : Prop :=
  match ss, x with n :: _, i :: _ => (i mod n < l)%nat | _, _ => True end.

(** [o] is the given origin, by default a point near zero where the Bloch wave [r] is largest. *)
Definition centre_of (ls : list nat) (saxes : list basis) (d : ndarray) (r : nat) (origin : option point) (o : list Z) : Prop :=
  let ss := map bfund saxes in
  let F := supercell ls ss in
  match origin with
  | Some p => point_at ss p o
  | None =>
      in_window ss (map (fun _ => 0) ss) o /\
      exists x0, in_shape x0 F /\ stands_for F o x0 /\
        forall x, in_shape x F -> (Cmod (bloch_wave ls saxes d r x) <= Cmod (bloch_wave ls saxes d r x0))%R
  end.
Definition valid_origin (ss : list nat) (origin : option point) : Prop :=
  match origin with Some p => exists o, point_at ss p o | None => True end.

(** [f] is the Bloch wave [r] at the points of the cell around [o] whose position along the
    first axis is below the number of samples, and zero elsewhere. *)
Definition cut_wave (ls : list nat) (saxes : list basis) (d : ndarray) (r : nat) (o : list Z) (f : nat -> C) : Prop :=
  let ss := map bfund saxes in
  let F := supercell ls ss in
  forall x, in_shape x F ->
    (in_cell_around ss F o x /\ first_below ss (nprod ls) x -> f (ravel F x) = bloch_wave ls saxes d r x) /\
    (~ (in_cell_around ss F o x /\ first_below ss (nprod ls) x) -> f (ravel F x) = RtoC 0%R).
