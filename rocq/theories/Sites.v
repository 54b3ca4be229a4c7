(** Model of potential/_comparison_points.py: the named sites at which potentials are compared.
    Indices are python integers; [//] rounds down, as [Z.div] does. *)
From Coq Require Import ZArith String List.
Import ListNotations.
Local Open Scope Z_scope.
Local Open Scope string_scope.

(** _comparison_points.py:4-13 [get_111_comparison_points_x2]; the dictionary is a list in order. *)
Definition get_111_comparison_points_x2 (shape offset : Z * Z) : list (string * (Z * Z)) :=
  let '(nx0, nx1) := shape in
  [ ("Top Site", ((2 * nx0) / 3 + fst offset, (2 * nx1) / 3 + snd offset));
    ("Bridge Site", (nx0 / 6 + fst offset, nx1 / 6 + snd offset));
    ("FCC Site", (fst offset, snd offset));
    ("HCP Site", (nx0 / 3 + fst offset, nx1 / 3 + snd offset)) ].

(** _comparison_points.py:16-24 [get_100_comparison_points_x2]. *)
Definition get_100_comparison_points_x2 (shape offset : Z * Z) : list (string * (Z * Z)) :=
  let '(nx0, nx1) := shape in
  [ ("Hollow Site", (fst offset, snd offset));
    ("Bridge Site", (nx0 / 2 + fst offset, 0 + snd offset));
    ("Top Site", (nx0 / 2 + fst offset, nx1 / 2 + snd offset)) ].
