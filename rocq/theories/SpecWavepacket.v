(** Vocabulary for the statements about wavepackets. *)
From Coq Require Import Reals.
From Verif Require Import ZLib Csum DFT NumPy Spec Basis SpecBasis Operator.
Local Open Scope R_scope.
Local Open Scope C_scope.

(** Along every axis: sample [s] of [ls] and in-cell slot [k] of [ss] together have slot
    [f] of the supercell, whose frequency is (number of samples) * (frequency of k) +
    (frequency of s). *)
Fixpoint supercell_slot (ls ss s k f : list nat) : Prop :=
  match ls, ss, s, k, f with
  | [], [], [], [], [] => True
  | n :: ls, m :: ss, i :: s, j :: k, t :: f =>
      (exists q r, is_freq n i q /\ is_freq m j r /\ (t < n * m)%nat /\
        Zcong (Z.of_nat (n * m)) (Z.of_nat t) (Z.of_nat n * r + q)) /\
      supercell_slot ls ss s k f
  | _, _, _, _, _ => False
  end.

(** Shape of the supercell. *)
Fixpoint supercell (ls ss : list nat) : list nat :=
  match ls, ss with n :: ls, m :: ss => (n * m)%nat :: supercell ls ss | _, _ => [] end.

(** Row [s] of flat data with [n] entries per row. *)
Definition row (n : nat) (v : nat -> C) (s : nat) : nat -> C := fun k => v (s * n + k)%nat.

(** Value at the grid point [x] of the plane waves with frequencies [f] on a grid of the
    given shape; points and frequencies may lie anywhere. *)
Fixpoint plane (shape : list nat) (f x : list Z) : C :=
  match shape, f, x with
  | n :: shape, f1 :: f, x1 :: x => omega n (f1 * x1) * plane shape f x
  | _, _, _ => 1
  end.

(** Value at grid point [x] of the state with coefficients [v] in the basis [b]. *)
Definition amplitude (b : basis) (v : nat -> C) (x : nat) : C := csum (fun k => v k * bstate b k x) (bsize b).

(** Signed frequency of the sample along every axis. *)
Fixpoint sample_freqs (ls s : list nat) : list Z :=
  match ls, s with n :: ls, i :: s => freq n i :: sample_freqs ls s | _, _ => [] end.

(** The point of the first cell equivalent to a point of the supercell. *)
Fixpoint in_cell (ss x : list nat) : list nat :=
  match ss, x with m :: ss, i :: x => (i mod m)%nat :: in_cell ss x | _, _ => [] end.

(** The momentum basis with one plane-wave axis per length. *)
Definition momenta (shape : list nat) : basis := BTuple (map BFundT shape).
