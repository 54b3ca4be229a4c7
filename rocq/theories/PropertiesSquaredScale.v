(** Properties of the squared scale of axes (C126). *)
From Coq Require Import Reals List.
From Verif Require Import SquaredScale SquaredScaleProofs.
Import ListNotations.
Local Open Scope R_scope.

(** ** C126 *)

(** A view from one to three. *)
Example ex_C126_view : 0 <= 1 <= 3 /\ 1 < 3.
Proof. repeat split; auto with real; apply IZR_le || apply IZR_lt; reflexivity || discriminate. Qed.

(** The inverse of the scale gives the modulus back, which is the value unless it is negative. *)
Theorem C126_round_trip : forall x y, apply_transform (inverted get_transform) (apply_transform get_transform x) = Rabs x /\
  apply_transform get_transform (apply_transform (inverted get_transform) y) = Rabs y /\
  apply_transform (inverted (inverted get_transform)) x = apply_transform get_transform x.
Proof. exact round_trip. Qed.
Print Assumptions C126_round_trip.

(** The scale keeps the order of moduli: it is increasing where values are not negative, and a value
    and its negative are drawn at one place. *)
Theorem C126_order : forall x y, apply_transform get_transform x < apply_transform get_transform y <-> Rabs x < Rabs y.
Proof. exact order. Qed.
Print Assumptions C126_order.

(** Eight ticks, evenly spaced on the drawn axis from one end of the view to the other, at values
    that are not negative. *)
Theorem C126_ticks : forall vmin vmax, length (squared_ticks vmin vmax) = 8%nat /\
  forall i, (i < 8)%nat -> 0 <= nth i (squared_ticks vmin vmax) 0 /\
    apply_transform get_transform (nth i (squared_ticks vmin vmax) 0) =
    apply_transform get_transform vmin + INR i / 7 * (apply_transform get_transform vmax - apply_transform get_transform vmin).
Proof. exact ticks. Qed.
Print Assumptions C126_ticks.

(** In a view of values that are not negative they are in the view, increase, and mark its ends. *)
Theorem C126_ticks_in_view : forall vmin vmax, 0 <= vmin <= vmax ->
  nth 0 (squared_ticks vmin vmax) 0 = vmin /\ nth 7 (squared_ticks vmin vmax) 0 = vmax /\
  (forall t, In t (squared_ticks vmin vmax) -> vmin <= t <= vmax) /\
  (vmin < vmax -> forall i j, (i < j < 8)%nat -> nth i (squared_ticks vmin vmax) 0 < nth j (squared_ticks vmin vmax) 0).
Proof. exact ticks_in_view. Qed.
Print Assumptions C126_ticks_in_view.

(** In a view that reaches below zero they need not be in the view, and in one that is the same on
    both sides of zero all eight are at its end. *)
Theorem C126_ticks_outside_refuted : ~ (forall vmin vmax, vmin < vmax -> forall t, In t (squared_ticks vmin vmax) -> vmin <= t <= vmax).
Proof. exact ticks_outside_refuted. Qed.
Print Assumptions C126_ticks_outside_refuted.
Theorem C126_ticks_symmetric : forall v t, In t (squared_ticks (- v) v) -> t = Rabs v.
Proof. exact ticks_symmetric. Qed.
Print Assumptions C126_ticks_symmetric.
