(** Properties of slices along one axis (C128). *)
From Coq Require Import List ZArith Arith.
From Verif Require Import SliceAxis SliceAxisProofs.
Import ListNotations.
Local Open Scope nat_scope.

(** ** C128 *)

(** The last but one of three axes, counted from either end. *)
Example ex_C128_axes : (- Z.of_nat 3 <= -2 < Z.of_nat 3)%Z /\ (- Z.of_nat 3 <= 1 < Z.of_nat 3)%Z /\
  (-2 mod Z.of_nat 3)%Z = 1%Z /\ ~ (- Z.of_nat 3 <= 3 < Z.of_nat 3)%Z.
Proof. repeat split; try discriminate; intros [_ H]; discriminate. Qed.

(** In an array with [nd] axes the index or slice is used along the axis, which is counted from the end
    if it is negative, and everything is kept along the others; an axis out of range raises. *)
Theorem C128_along : forall A nd (x : A) axis,
  ((- Z.of_nat nd <= axis < Z.of_nat nd)%Z ->
     np_index nd (slice_along_axis (Some x) axis) =
     Some (map (fun i => if i =? Z.to_nat (axis mod Z.of_nat nd) then Along x else Everything) (seq 0 nd))) /\
  (~ (- Z.of_nat nd <= axis < Z.of_nat nd)%Z -> np_index nd (slice_along_axis (Some x) axis) = None).
Proof. exact @along. Qed.
Print Assumptions C128_along.

(** Without a slice a new axis is made, with that place among the axes of the result. *)
Theorem C128_new_axis : forall A nd axis,
  ((- Z.of_nat (S nd) <= axis < Z.of_nat (S nd))%Z ->
     np_index nd (slice_along_axis (@None A) axis) =
     Some (map (fun i => if i =? Z.to_nat (axis mod Z.of_nat (S nd)) then NewAxis else Everything) (seq 0 (S nd)))) /\
  (~ (- Z.of_nat (S nd) <= axis < Z.of_nat (S nd))%Z -> np_index nd (slice_along_axis (@None A) axis) = None).
Proof. exact @new_axis. Qed.
Print Assumptions C128_new_axis.
