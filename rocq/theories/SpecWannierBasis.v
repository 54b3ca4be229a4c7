(** Vocabulary for cells of a supercell. *)
From Verif Require Import ZLib NumPy Basis Operator Wavepacket WannierBasis.

(** The cell [R] moved by [T] cells around a supercell of [ls] cells. *)
Fixpoint moved_cell (ls T R : list nat) : list nat :=
  match ls, T, R with
  | cons n ls, cons t T, cons r R => cons ((r + t) mod n) (moved_cell ls T R)
  | _, _, _ => nil
  end.

(** As many factors as samples and bands. *)
Definition dl_wf (d : diagonal_localization) : Prop := nprod (ashape (dl_data d)) = (bsize (dl_samples d) * bsize (dl_bands d))%nat.
