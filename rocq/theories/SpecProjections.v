(** Vocabulary for the statements about localisation by projections. *)
From Coq Require Import Reals.
From Verif Require Import ZLib Csum DFT NumPy Spec Basis SpecBasis Operator SpecWavepacket SpecBloch Localize SpecLocalize SpecTightCell.
Local Open Scope R_scope.
Local Open Scope C_scope.

(** Inner product of the Bloch wave of sample [s] with the function [f] on the points of the
    supercell. *)
Definition wave_overlap (ls : list nat) (saxes : list basis) (d : ndarray) (s : nat) (f : nat -> C) : C :=
  let F := supercell ls (map bfund saxes) in
  csum (fun t => Cconj (bloch_wave ls saxes d s (unravel F t)) * f t) (nprod F).

(** Every sample of [w] is that of [d] times a phase. *)
Definition phases_of (ns n : nat) (d w : ndarray) (z : nat -> C) : Prop :=
  ashape w = [(ns * n)%nat] /\
  forall s, (s < ns)%nat -> Cmod (z s) = 1%R /\
    forall k, (k < n)%nat -> aflat w (s * n + k) = z s * aflat d (s * n + k).

(** The origin is given, or the flat index of a largest value of [f]. *)
Definition largest_at (n : nat) (f : nat -> C) (t0 : nat) : Prop :=
  (t0 < n)%nat /\ forall t, (t < n)%nat -> (Cmod (f t) <= Cmod (f t0))%R.

(** [f] is one at [t0] and zero elsewhere. *)
Definition delta_at (n t0 : nat) (f : nat -> C) : Prop := forall t, (t < n)%nat -> f t = cdelta t t0.

(** Squared distance of [y] from [p] in units of [w]. *)
Fixpoint spread (w : list nat) (p y : list Z) : R :=
  match w, p, y with
  | n :: w, a :: p, b :: y => ((IZR (b - a) / INR n) * (IZR (b - a) / INR n) + spread w p y)%R
  | _, _, _ => 0%R
  end.

(** [f] is the gaussian around [p] with widths [w] at the image of the grid point nearest to
    [p], times [c]. *)
Definition gaussian_around (F w : list nat) (p : list Z) (c : R) (f : nat -> C) : Prop :=
  forall x, in_shape x F -> exists y, in_window F p y /\ stands_for F y x /\
    f (ravel F x) = RtoC (c * exp (- (1 / 2) * spread w p y))%R.

(** [p] is equivalent to [o] for the periods [w], and close to zero. *)
Fixpoint wrapped_by (w : list nat) (o p : list Z) : Prop :=
  match w, o, p with
  | [], [], [] => True
  | n :: w, a :: o, b :: p => Zcong (Z.of_nat n) b a /\ (- (Z.of_nat n / 2) <= b < - (Z.of_nat n / 2) + Z.of_nat n)%Z /\ wrapped_by w o p
  | _, _, _ => False
  end.

(** [x] is the fraction [i/s] of the grid along every axis, rounded down. *)
Fixpoint fraction_point (F shape i x : list nat) : Prop :=
  match F, shape, i, x with
  | [], [], [], [] => True
  | n :: F, s :: shape, a :: i, b :: x => (b * s <= n * a < (b + 1) * s)%nat /\ fraction_point F shape i x
  | _, _, _, _ => False
  end.
