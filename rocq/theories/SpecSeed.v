(** Small vocabulary for the states used as a first guess. *)
From Coq Require Import Reals.
From Verif Require Import ZLib Csum DFT NumPy Spec Basis SpecBasis SpecWavepacket StateList SpecStateList.
Local Open Scope R_scope.
Local Open Scope C_scope.

(** The point [c] points before [x] on a periodic grid. *)
Fixpoint displaced (shape : list nat) (c : list Z) (x : list nat) : list nat :=
  match shape, c, x with
  | n :: shape, c1 :: c, x1 :: x => Z.to_nat ((Z.of_nat x1 - c1) mod Z.of_nat n) :: displaced shape c x
  | _, _, _ => []
  end.

(** The point of the grid that [c] stands for. *)
Definition on_grid (shape : list nat) (c : list Z) : list nat := displaced shape (map Z.opp c) (map (fun _ => 0%nat) shape).

(** The states of a list are orthonormal. *)
Definition orthonormal_list (s : state_list) : Prop :=
  forall i j, (i < bsize (slist s))%nat -> (j < bsize (slist s))%nat ->
    inner_product (bsize (sbasis s)) (state_of s i) (state_of s j) = cdelta i j.

(** Every axis of momenta cut off at [n] out of [N]. *)
Fixpoint cut_momenta (n N : list nat) : list basis :=
  match n, N with a :: n, b :: N => BTrans a b :: cut_momenta n N | _, _ => [] end.

(** Signed displacement of band [f]: [q] points for every step along an axis. *)
Fixpoint band_centre (shape q f : list nat) : list Z :=
  match shape, q, f with
  | n :: shape, q1 :: q, i :: f => (freq n i * Z.of_nat q1)%Z :: band_centre shape q f
  | _, _, _ => []
  end.
