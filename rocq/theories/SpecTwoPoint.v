(** Vocabulary for the statements about the localisation about a largest value. *)
From Coq Require Import Reals.
From Verif Require Import ZLib Csum DFT NumPy Spec Basis SpecBasis Operator SpecOperator SpecWavepacket SpecBloch Localize SpecLocalize.
Local Open Scope R_scope.
Local Open Scope C_scope.

(** The Bloch wave of sample [s], up to its norm, at any point [nx] of the lattice. *)
Definition wave_at (ls : list nat) (saxes : list basis) (d : nat -> C) (s : nat) (nx : list Z) : C :=
  let ss := map bfund saxes in
  plane (supercell ls ss) (sample_freqs ls (unravel ls s)) nx *
  amplitude (BTuple saxes) (row (bsize (BTuple saxes)) d s) (ravel ss (cell_point ss nx)).

(** The corner of the unit cell [offset] cells away from the first, along the first two axes. *)
Definition cell_corner (ss : list nat) (offset : Z * Z) : list Z :=
  match ss with
  | n0 :: n1 :: rest => (Z.of_nat n0 * fst offset :: Z.of_nat n1 * snd offset :: map (fun _ => 0) rest)%Z
  | _ => []
  end.

(** [j] is, up to whole cells of shape [ss], [i] with its first two coordinates swapped. *)
Definition mirrored (ss : list nat) (i j : list Z) : Prop :=
  match ss, i, j with
  | n0 :: n1 :: _, a :: b :: i, c :: d :: j => Zcong (Z.of_nat n0) c b /\ Zcong (Z.of_nat n1) d a /\ j = i
  | _, _, _ => False
  end.
