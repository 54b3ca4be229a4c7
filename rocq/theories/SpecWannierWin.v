(** Vocabulary for the statements about the .win file and the runs of Wannier90. *)
From Coq Require Import Reals.
From Verif Require Import ZLib Csum DFT NumPy Spec Basis SpecBasis Operator SpecOperator Wavepacket SpecWavepacket SpecLocalize
  Lattice VolumeBasis SpecVolumeBasis Wannier SpecWannier WannierWin.
Local Open Scope R_scope.
Local Open Scope C_scope.

(** Component [c] of vector [i] of a cell, and the vectors [B] reciprocal to three vectors. *)
Definition cell_at (A : list (list R)) (i c : nat) : R := nth c (nth i A []) 0%R.
Definition reciprocal (A : list (list R)) (B : nat -> nat -> R) : Prop :=
  forall i j, (i < 3)%nat -> (j < 3)%nat ->
    rsum (fun c => cell_at A i c * B j c)%R 3 = (if Nat.eqb i j then 2 * PI else 0)%R.

(** The wave vector with the given fractions of the reciprocal vectors. *)
Definition wave_vector (B : nat -> nat -> R) (point : list R) (c : nat) : R :=
  rsum (fun a => nth a point 0 * B a c)%R 3.

(** The phase over [R] unit cells, for a wave vector in units of 1e10. *)
Definition cells_phase (saxes : list length_axis) (K : nat -> R) (cells : list nat) : R :=
  rsum (fun a => INR (nth a cells 0%nat) *
    rsum (fun c => 10 ^ 10 * K c * lattice_of saxes a c) (length saxes))%R (length saxes).

(** Point [m] of the grid with [ns] points: its fraction differs from [m a / n a] by an integer
    along every axis. *)
Definition is_grid_point (ns : list nat) (m : nat -> Z) (point : list R) : Prop :=
  forall a, (a < length ns)%nat -> exists q, nth a point 0%R = (IZR (m a) / INR (nth a ns 0%nat) + IZR q)%R.

(** What Wannier90 leaves after its first run: a list of neighbours of the [ns] samples. *)
Definition answers_setup (ns : nat) (nnkp : nnkp_of) : Prop :=
  forall win, win_setup win = true -> exists n entries file,
    nnkp win = Some file /\ nnkp_file n entries file /\ Forall (neighbour ns) entries.
(** After its second: the matrices [U]. *)
Definition answers_files (float : text -> option R) (ns nw : nat) (U : nat -> nat -> nat -> C) (u_mat : u_mat_of) : Prop :=
  forall files, exists file, u_mat files = Some file /\ u_mat_file float ns nw U file.

(** The projections of the waves on the states, as lines of the .amn file. *)
Definition projection_lines (ls : list nat) (saxes : list basis) (data : ndarray) (nb np : nat) (paxes : list basis)
    (states : ndarray) (lines : list (nat * nat * nat * C)) : Prop :=
  length lines = (np * nb * nprod ls)%nat /\
  forall k m n, (k < nprod ls)%nat -> (m < nb)%nat -> (n < np)%nat ->
    nth ((k * nb + m) * np + n) lines (0%nat, 0%nat, 0%nat, RtoC 0) =
    ((m + 1)%nat, (n + 1)%nat, (k + 1)%nat,
     csum (fun x => Cconj (bloch_wave ls saxes data k m x) *
       amplitude (BTuple paxes) (row (bsize (BTuple paxes)) (aflat states) n) x)
       (nprod (supercell ls (map bfund saxes)))).
