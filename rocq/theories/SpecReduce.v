(** Small vocabulary for sums over axes. *)
From Coq Require Import Reals.
From Verif Require Import ZLib Csum DFT NumPy Spec.
Local Open Scope nat_scope.

(** The elements of [l] at the positions not in [axes], and at the positions in [axes]
    (in ascending order). *)
Definition remaining {A} (d : A) (axes : list nat) (l : list A) : list A :=
  map (fun k => nth k l d) (other_axes (length l) axes).
Definition removed {A} (d : A) (axes : list nat) (l : list A) : list A :=
  map (fun k => nth k l d) (filter (fun k => existsb (Nat.eqb k) axes) (seq 0 (length l))).

(** The sum of all elements of row-major data of shape [s] whose index agrees with [out]
    on the axes not in [axes]. *)
Definition sum_matching (axes s : list nat) (a : nat -> C) (out : list nat) : C :=
  csum (fun t => if list_eq_dec Nat.eq_dec (remaining 0 axes (unravel s t)) out then a t else RtoC 0%R)
       (nprod s).

(** Axes of an array with [nd] axes, none twice. *)
Definition good_axes (nd : nat) (axes : list nat) : Prop := NoDup axes /\ Forall (fun a => a < nd) axes.
