(** Vocabulary for the conversions of probability vectors. *)
From Coq Require Import Reals.
From Verif Require Import ZLib Csum NumPy Basis VolumeBasis.
Local Open Scope R_scope.
Local Open Scope C_scope.

(** The states of the axis are single points of the fundamental grid. *)
Definition point_axis (a : length_axis) : Prop :=
  match la_basis a with BFund _ | BTrunc _ _ | BEven _ _ _ => True | _ => False end.
(** The states of the axis are all waves of the grid. *)
Definition wave_axis (a : length_axis) : Prop := match la_basis a with BFundT _ => True | _ => False end.
(** A complex number which is a probability as far as its sign goes. *)
Definition nonnegative (z : C) : Prop := snd z = 0%R /\ (0 <= fst z)%R.
