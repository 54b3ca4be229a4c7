(** Small vocabulary for lists of states. *)
From Coq Require Import Reals.
From Verif Require Import ZLib Csum DFT NumPy Spec Basis SpecBasis Operator SpecWavepacket StateList.
Local Open Scope R_scope.
Local Open Scope C_scope.

(** The data have one entry per state and per basis vector. *)
Definition well_formed_list (s : state_list) : Prop :=
  nprod (ashape (sdata s)) = (bsize (slist s) * bsize (sbasis s))%nat.

(** The coefficients of state [k]. *)
Definition state_of (s : state_list) (k : nat) : nat -> C := row (bsize (sbasis s)) (aflat (sdata s)) k.

(** A vector with the given basis and coefficients. *)
Definition is_vector (v : vector) (b : basis) (f : nat -> C) : Prop :=
  vbasis v = b /\ ashape (vdata v) = [bsize b] /\ forall t, (t < bsize b)%nat -> aflat (vdata v) t = f t.

(** Every index brought into range. *)
Fixpoint wrapped (shape : list nat) (idx : list Z) : list nat :=
  match shape, idx with n :: shape, i :: idx => Z.to_nat (i mod Z.of_nat n) :: wrapped shape idx | _, _ => [] end.

(** [full] has the entries [out] along [axes] and [idx] along the others, in their order. *)
Definition at_axes (nd : nat) (axes out idx full : list nat) : Prop :=
  length full = nd /\ (forall j, (j < length axes)%nat -> nth (nth j axes 0%nat) full 0%nat = nth j out 0%nat) /\
  map (fun k => nth k full 0%nat) (other_axes nd axes) = idx.

(** Inner product over the points of the grid of the functions two vectors stand for. *)
Definition grid_inner (b0 b1 : basis) (u v : nat -> C) : C :=
  csum (fun x => Cconj (amplitude b0 u x) * amplitude b1 v x) (bfund b1).
