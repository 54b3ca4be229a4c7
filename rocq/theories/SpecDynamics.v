(** Vocabulary for the statements about dynamics. *)
From Coq Require Import Reals.
From Coquelicot Require Import Coquelicot.
From Verif Require Import ZLib Csum DFT NumPy Basis SpecBasis Operator SpecOperator Dynamics SpecHamiltonian.
Local Open Scope R_scope.

(** A i j is the rate of jumps from i to j: real and not negative off the diagonal. *)
Definition rates (n : nat) (A : nat -> nat -> C) : Prop :=
  forall i j, (i < n)%nat -> (j < n)%nat -> i <> j -> snd (A i j) = 0 /\ 0 <= fst (A i j).

(** Site [k] can be reached from [i] by jumps with non-zero rate; every site from every other. *)
Inductive reaches (n : nat) (A : nat -> nat -> C) : nat -> nat -> Prop :=
| reaches_here i : reaches n A i i
| reaches_step i j k : (j < n)%nat -> i <> j -> A i j <> RtoC 0 -> reaches n A j k -> reaches n A i k.
Definition connected (n : nat) (A : nat -> nat -> C) : Prop :=
  forall i j, (i < n)%nat -> (j < n)%nat -> reaches n A i j.

(** Total rate of leaving a site. *)
Definition outgoing (n : nat) (A : nat -> nat -> C) (i : nat) : C :=
  csum (fun k => if Nat.eqb i k then RtoC 0 else A i k) n.

(** Probabilities: real, not negative, with sum one. *)
Definition distribution (n : nat) (p : nat -> C) : Prop :=
  (forall i, (i < n)%nat -> snd (p i) = 0 /\ 0 <= fst (p i)) /\ csum p n = RtoC 1.

(** Matrix times vector. *)
Definition applied (n : nat) (M : nat -> nat -> C) (u : nat -> C) (i : nat) : C :=
  csum (fun j => Cmult (M i j) (u j)) n.

(** scipy.linalg.solve returns a solution when the matrix has an inverse. *)
Definition solve_ok (solve : solve_fn) : Prop :=
  forall n A b, (exists W, inverse_matrices n A W) ->
    exists x, solve n A b = Some x /\ forall i, (i < n)%nat -> applied n A x i = b i.

(** scipy.linalg.eig diagonalises the given matrix (of size n). *)
Definition eig_diagonalises (eig : eig_fn) (n : nat) (A : nat -> nat -> C) : Prop :=
  forall B, mat_eq n B A -> exists W, diagonalises n B (fst (eig n B)) (snd (eig n B)) W.

(** [p] tends to [q] on the sites below [n]. *)
Definition tends_to (n : nat) (p : R -> nat -> C) (q : nat -> C) : Prop :=
  forall eps, 0 < eps -> exists T, forall t, T <= t -> forall i, (i < n)%nat -> Cmod (Cminus (p t i) (q i)) < eps.

(** The nine hops on a square lattice: no step, one step forward or one back along each of
    the two axes (the second axis varies fastest), on an n0 x n1 lattice with periodic ends. *)
Definition hop_step (k : nat) : Z := match k with 0%nat => 0%Z | 1%nat => 1%Z | _ => (-1)%Z end.
Definition moved_by (n x : nat) (d : Z) : nat := Z.to_nat ((Z.of_nat x + d) mod Z.of_nat n).
Definition hops_to (n0 n1 hop x0 x1 y0 y1 : nat) : bool :=
  Nat.eqb y0 (moved_by n0 x0 (hop_step (hop / 3))) && Nat.eqb y1 (moved_by n1 x1 (hop_step (hop mod 3))).

(** Position of band [b] of site (x0, x1) in the basis (n0, n1, nb). *)
Definition site (n1 nb x0 x1 b : nat) : nat := ((x0 * n1 + x1) * nb + b)%nat.

(** The matrix held by a list of cyclic diagonals with their offsets: element (c + offset
    mod n, c) is entry [c] of the diagonal. *)
Definition from_bands (n : nat) (b : list (list C) * list nat) (r c : nat) : C :=
  csum (fun p => if Nat.eqb ((c + nth p (snd b) 0%nat) mod n) r then nth c (nth p (fst b) []) (RtoC 0) else RtoC 0)
    (length (snd b)).

(** Rate at which the populations jump from [c] to [r] in the master equation with the given
    collapse operators. *)
Definition jump_rate (ops : list (nat -> nat -> C)) (r c : nat) : R :=
  fold_right (fun L acc => Cnorm2 (L r c) + acc) 0 ops.

(** The classical two-site model behind the Fey scattering functions: a particle leaves a
    site of the first kind at the total rate [slow] and one of the second kind at the total
    rate [fast], to each of three neighbours with equal probability; [T] is the sum of the
    three phases exp(i dk . d) of the displacements.  [pa] and [pb] are the Fourier components of
    the occupations. *)
Definition two_site_equation (slow fast : R) (T : C) (pa pb : R -> C) : Prop :=
  forall t,
    cderivative pa t (- RtoC slow * pa t + RtoC (fast / 3) * Cconj T * pb t)%C /\
    cderivative pb t (RtoC (slow / 3) * T * pa t - RtoC fast * pb t)%C.
Definition phases_110 (a : R) : C := (1 + cis (a / 2) + cis (- (a / 2)))%C.
Definition phases_112bar (a : R) : C := (cis (a / sqrt 3) + cis (- (a / (2 * sqrt 3))) + cis (- (a / (2 * sqrt 3))))%C.
(** [f] is a scattering function of that model: it starts from the equilibrium occupation. *)
Definition scattering_function (slow fast : R) (T : C) (f : R -> R) : Prop :=
  exists pa pb, two_site_equation slow fast T pa pb /\
    pa 0%R = RtoC (fast / (slow + fast)) /\ pb 0%R = RtoC (slow / (slow + fast)) /\
    forall t, RtoC (f t) = (pa t + pb t)%C.

(** Position of band [k] of the cell (x0, x1): component [c] of the cell's corner plus the
    centre of the band. *)
Definition band_position (b : bands) (x0 x1 k c : nat) : R :=
  rsum (fun a => band_cell b a c * (INR (nth a [x0; x1] 0%nat) + band_location b a k)) 2.
