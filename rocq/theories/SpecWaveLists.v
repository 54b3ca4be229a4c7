(** Vocabulary for collections of wavepackets. *)
From Coq Require Import Reals.
From Verif Require Import ZLib Csum DFT NumPy Basis SpecBasis SpecWavepacket.
Local Open Scope R_scope.
Local Open Scope C_scope.

(** State [s] of band [b] of the data, and its eigenvalue. *)
Definition band_state (nl ns : nat) (data : nat -> C) (b s k : nat) : C := data ((b * nl + s) * ns + k)%nat.
Definition band_value (nl : nat) (eigenvalue : nat -> C) (b s : nat) : C := eigenvalue (b * nl + s)%nat.

(** Every state of the list basis [lb'] is the state [pick s] of [lb]. *)
Definition picks (lb lb' : basis) (pick : nat -> nat) : Prop :=
  forall s, (s < bsize lb')%nat -> (pick s < bsize lb)%nat /\ forall s', (s' < bsize lb)%nat -> overlap lb' lb s s' = cdelta (pick s) s'.

(** [v] is an eigenvector of the [n] x [n] matrix [M]. *)
Definition eigenpair (n : nat) (M : nat -> nat -> C) (v : nat -> C) (e : C) : Prop :=
  forall i, (i < n)%nat -> csum (fun j => M i j * v j) n = e * v i.

(** The point [x] of the grid of [ls] unit cells of [ss] points, moved by [cells] unit cells. *)
Fixpoint moved_cells (ss ls cells x : list nat) : list nat :=
  match ss, ls, cells, x with
  | n :: ss, l :: ls, t :: cells, i :: x => ((i + n * t) mod (n * l))%nat :: moved_cells ss ls cells x
  | _, _, _, _ => []
  end.
