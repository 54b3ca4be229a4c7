(** Vocabulary for the statements about potentials and Hamiltonians. *)
From Coq Require Import Reals.
From Coquelicot Require Import Coquelicot.
From Verif Require Import ZLib Csum DFT NumPy Spec Basis SpecBasis SpecOperator SpecWavepacket.
Local Open Scope R_scope.

Definition dot (nd : nat) (u v : nat -> R) : R := rsum (fun c => u c * v c) nd.

(** [q] is the wave vector of slot [idx] of a grid of the given shape, shifted by a
    fraction of a reciprocal lattice vector: along every lattice vector (row of [delta])
    the phase advances by 2 pi (frequency + fraction).  *)
Definition wave_vector (shape : list nat) (delta : nat -> nat -> R) (idx : list nat) (frac q : nat -> R) : Prop :=
  forall a, (a < length shape)%nat ->
    dot (length shape) q (delta a) = 2 * PI * (IZR (freq (nth a shape 0%nat) (nth a idx 0%nat)) + frac a).

(** [x] is the grid point with index [idx]: the sum of idx_a / shape_a times lattice vector a. *)
Definition grid_point (shape : list nat) (delta : nat -> nat -> R) (idx : list nat) (x : nat -> R) : Prop :=
  forall c, (c < length shape)%nat ->
    x c = rsum (fun a => INR (nth a idx 0%nat) / INR (nth a shape 0%nat) * delta a c) (length shape).

(** [x'] is [x] moved by one lattice vector. *)
Definition translated (nd : nat) (delta : nat -> nat -> R) (a : nat) (x x' : nat -> R) : Prop :=
  forall c, (c < nd)%nat -> x' c = x c + delta a c.

(** The point [x] moved by [t] along component [c]. *)
Definition moved (x : nat -> R) (c : nat) (t : R) : nat -> R := fun d => if Nat.eqb d c then t else x d.

(** The Bloch fraction; none means zero. *)
Definition fraction (frac : option (nat -> R)) : nat -> R := match frac with None => fun _ => 0 | Some f => f end.

(** [q k] is the wave vector of slot [k] of the momentum grid, for every slot. *)
Definition waves (shape : list nat) (delta : nat -> nat -> R) (frac : option (nat -> R)) (q : nat -> nat -> R) : Prop :=
  forall k, (k < nprod shape)%nat -> wave_vector shape delta (unravel shape k) (fraction frac) (q k).

(** The function on the grid with coefficients [v] is real. *)
Definition real_valued (b : basis) (v : nat -> C) : Prop := forall x, (x < bfund b)%nat -> snd (amplitude b v x) = 0.

(** Derivative of a complex function of a real variable. *)
Definition cderivative (f : R -> C) (t : R) (l : C) : Prop :=
  is_derive (fun s => fst (f s)) t (fst l) /\ is_derive (fun s => snd (f s)) t (snd l).

Local Open Scope C_scope.
(** Column [u] is an eigenvector. *)
Definition eigenvector (n : nat) (A : nat -> nat -> C) (lam : C) (u : nat -> C) : Prop :=
  (forall i, (i < n)%nat -> csum (fun j => A i j * u j) n = lam * u i) /\
  exists i, (i < n)%nat /\ u i <> 0.
