(** The distance of a curve from the data of a scattering function within a window of times. *)
From Coq Require Import Reals List.
From Verif Require Import ZLib Csum DFT NumPy Dynamics IsfFits.
Import ListNotations.
Local Open Scope R_scope.

(** Whether [lo] < t < [hi] ([None] is no bound). *)
Definition in_window (lo hi : option R) (t : R) : bool :=
  andb (match lo with Some l => if Rlt_dec l t then true else false | None => true end)
       (match hi with Some h => if Rlt_dec t h then true else false | None => true end).
(** Sum of the squared differences at these times. *)
Definition window_error (lo hi : option R) (m : measure) (isf : isf_data) (g : R -> R) : R :=
  fold_right (fun p acc => (if in_window lo hi (fst p) then (g (fst p) - measured m (snd p)) ^ 2 else 0) + acc)
    0 (combine (isf_times isf) (isf_values isf)).
