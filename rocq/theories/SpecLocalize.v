(** Vocabulary for the statements about wavepacket generation and localisation. *)
From Coq Require Import Reals.
From Verif Require Import ZLib Csum DFT NumPy Spec Basis SpecBasis Operator SpecOperator SpecMatrix SpecWavepacket Localize.
Local Open Scope R_scope.
Local Open Scope C_scope.

(** Matrix of the localisation operator at sample [s]: [nw] rows (localised bands) and
    [nb] columns (bands). *)
Definition at_sample (nw nb : nat) (op : ndarray) (s : nat) : nat -> nat -> C :=
  fun i l => aflat op ((s * nw + i) * nb + l)%nat.

(** State of band [b] at sample [s] in flat data (band, sample, state). *)
Definition band_state (ns n : nat) (d : ndarray) (s b : nat) : nat -> C := row n (aflat d) (b * ns + s).

(** scipy.linalg.svd(full_matrices=False). *)
Definition svd_ok (svd : svd_fn) : Prop :=
  forall m n A, let '(u, s, vd) := svd m n A in
    (forall k, (k < Nat.min m n)%nat -> (0 <= s k)%R) /\
    orthonormal_columns m (Nat.min m n) u /\ orthonormal_rows (Nat.min m n) n vd /\
    forall i j, (i < m)%nat -> (j < n)%nat ->
      A i j = csum (fun k => u i k * RtoC (s k) * vd k j) (Nat.min m n).

(** [E] lists the eigenvalues of [A], with multiplicity, in ascending order. *)
Definition ascending_spectrum (n : nat) (A : nat -> nat -> C) (E : nat -> R) : Prop :=
  (forall i j, (i <= j)%nat -> (j < n)%nat -> (E i <= E j)%R) /\
  exists V, unitary n V /\ forall i j, (i < n)%nat -> (j < n)%nat ->
    A i j = csum (fun k => V i k * RtoC (E k) * Cconj (V j k)) n.

(** scipy.linalg.eigh(A, subset_by_index=(lo, hi)): orthonormal eigenvectors in columns and
    the eigenvalues number lo to hi of the ascending spectrum. *)
Definition eigh_ok (eigh : eigh_fn) : Prop :=
  forall n A lo hi, hermitian n A -> (lo <= hi)%nat -> (hi < n)%nat ->
    let (e, v) := eigh n A lo hi in
    orthonormal_columns n (hi - lo + 1) v /\
    (forall k x, (k < hi - lo + 1)%nat -> (x < n)%nat ->
       csum (fun y => A x y * v y k) n = RtoC (e k) * v x k) /\
    forall E, ascending_spectrum n A E -> forall k, (k < hi - lo + 1)%nat -> e k = E (lo + k)%nat.

(** Coordinates of a point of the unit cell of shape [ss]: as given (they may lie
    anywhere), or those of a flat index. *)
Definition point_at (ss : list nat) (p : point) (nx : list Z) : Prop :=
  match p with
  | Stacked l => length l = length ss /\ nx = l
  | Flat i => exists x, in_shape x ss /\ i = Z.of_nat (ravel ss x) /\ nx = map Z.of_nat x
  end.

(** The point of the unit cell equivalent to [nx]. *)
Fixpoint cell_point (ss : list nat) (nx : list Z) : list nat :=
  match ss, nx with m :: ss, x :: nx => Z.to_nat (x mod Z.of_nat m) :: cell_point ss nx | _, _ => [] end.

(** The point reached from [x] by moving [R] steps of [ks] points along every axis of a
    periodic grid of shape [F]. *)
Fixpoint moved (F ks R x : list nat) : list nat :=
  match F, ks, R, x with
  | n :: F, k :: ks, r :: R, a :: x => ((a + k * r) mod n)%nat :: moved F ks R x
  | _, _, _, _ => []
  end.

(** Bloch fraction along every axis of sample [s] on a grid of [ls] samples. *)
Fixpoint fractions (ls s : list nat) : list R :=
  match ls, s with n :: ls, i :: s => (IZR (freq n i) / INR n)%R :: fractions ls s | _, _ => [] end.
