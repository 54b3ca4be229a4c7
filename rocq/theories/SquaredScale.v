(** Model of the squared scale of axes of plots, util/squared_scale.py.  Values are real: [np.real]
    of line 61 and the conversion to lists are left out.  Arithmetic is exact.  No proofs here. *)
From Coq Require Import Reals List.
Import ListNotations.
Local Open Scope R_scope.

(** util/squared_scale.py:60-61 [_SquaredTransform.transform_non_affine]. *)
Definition squared_transform (x : R) : R := x ^ 2.

(** 79-80 [_InvertedSquaredTransform.transform_non_affine]. *)
Definition inverted_squared_transform (y : R) : R := sqrt (Rabs y).

(** 63-64 and 82-83 [inverted]: each of the two transforms has the other. *)
Inductive scale_transform : Set := SquaredT | InvertedSquaredT.
Definition apply_transform (t : scale_transform) : R -> R :=
  match t with SquaredT => squared_transform | InvertedSquaredT => inverted_squared_transform end.
Definition inverted (t : scale_transform) : scale_transform :=
  match t with SquaredT => InvertedSquaredT | InvertedSquaredT => SquaredT end.
(** 41-42 [SquaredScale.get_transform]. *)
Definition get_transform : scale_transform := SquaredT.

(** 21-32 [SquaredLocator.tick_values]: [raise_if_exceeds] only warns. *)
Definition squared_ticks (vmin vmax : R) : list R :=
  map (fun i => sqrt (vmin ^ 2 + INR i * ((vmax ^ 2 - vmin ^ 2) / 7))) (seq 0 8).
