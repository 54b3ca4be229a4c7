(** What the basis classes mean, stated without the conversion methods: the basis
    states as functions on the fundamental grid. *)
From Coq Require Import Reals.
From Verif Require Import ZLib Csum DFT NumPy Spec Basis.
Local Open Scope R_scope.
Local Open Scope C_scope.

(** Signed frequency of slot [k] of a grid of length [n], and the slot of a
    frequency (SpecBasis facts: BasisProofs.freq_is_freq, slot_is_freq). *)
Definition freq (n k : nat) : Z :=
  if Z.leb (Z.of_nat k) ((Z.of_nat n - 1) / 2) then Z.of_nat k else (Z.of_nat k - Z.of_nat n)%Z.
Definition slot (N : nat) (f : Z) : nat := Z.to_nat (f mod Z.of_nat N).

(** Normalised plane wave with frequency [f] on [N] points. *)
Definition plane_wave (N : nat) (f : Z) (x : nat) : C := isqrt N * omega N (f * Z.of_nat x).

(** Product of per-axis functions of (basis index, grid index), both flattened in
    row-major order; an axis is (number of states, number of grid points, states). *)
Fixpoint product_states (l : list (nat * nat * (nat -> nat -> C))) (k x : nat) : C :=
  match l with
  | [] => 1
  | (_, s) :: l =>
      let n := nprod (map (fun t => fst (fst t)) l) in
      let N := nprod (map (fun t => snd (fst t)) l) in
      s (k / n)%nat (x / N)%nat * product_states l (k mod n) (x mod N)
  end.

(** Value of basis state [k] at point [x] of the fundamental grid. *)
Fixpoint bstate (b : basis) (k x : nat) : C :=
  match b with
  | BFund _ => cdelta k x
  | BTrunc n N => cdelta (slot N (freq n k)) x
  | BFundT n => plane_wave n (freq n k) x
  | BTrans n N => plane_wave N (freq n k) x
  | BEven n step offset => cdelta (sample_pos n step offset k) x
  | BEvenT n step offset => plane_wave (n * step) (Z.of_nat (sample_pos n step offset k)) x
  | BExpl _ vecs inner => csum (fun j => vecs k j * bstate inner j x) (bsize inner)
  | BTuple l => product_states (map (fun c => (bsize c, bfund c, bstate c)) l) k x
  end.

(** Bases the constructors accept (basis/basis.py:95-99, 158-162 assert n <= N)
    with non-empty grids. *)
Fixpoint bwf (b : basis) : Prop :=
  match b with
  | BFund n | BFundT n => (0 < n)%nat
  | BTrunc n N | BTrans n N => (0 < n <= N)%nat
  | BEven n step _ | BEvenT n step _ => (0 < n)%nat /\ (0 < step)%nat
  | BExpl n _ inner => (0 < n)%nat /\ bwf inner
  | BTuple l => (fix all l := match l with [] => True | c :: l => bwf c /\ all l end) l
  end.

(** <b_j | a_k> *)
Definition overlap (b a : basis) (j k : nat) : C :=
  csum (fun x => Cconj (bstate b j x) * bstate a k x) (bfund a).

Definition inner_product (n : nat) (u v : nat -> C) : C :=
  csum (fun i => Cconj (u i) * v i) n.

Definition orthonormal (b : basis) : Prop :=
  forall j k, (j < bsize b)%nat -> (k < bsize b)%nat -> overlap b b j k = cdelta j k.

(** The states resolve the identity on the fundamental grid. *)
Definition complete (b : basis) : Prop :=
  forall x y, (x < bfund b)%nat -> (y < bfund b)%nat ->
    csum (fun k => bstate b k x * Cconj (bstate b k y)) (bsize b) = cdelta x y.

(** Every set of explicit vectors occurring in the basis is orthonormal. *)
Fixpoint explicit_orthonormal (b : basis) : Prop :=
  match b with
  | BExpl n vecs inner =>
      (forall i j, (i < n)%nat -> (j < n)%nat ->
         inner_product (bsize inner) (vecs i) (vecs j) = cdelta i j) /\
      explicit_orthonormal inner
  | BTuple l =>
      (fix all l := match l with [] => True | c :: l => explicit_orthonormal c /\ all l end) l
  | _ => True
  end.

(** As many states as grid points, and no explicit vectors. *)
Fixpoint full (b : basis) : Prop :=
  match b with
  | BExpl _ _ _ => False
  | BTuple l => (fix all l := match l with [] => True | c :: l => full c /\ all l end) l
  | _ => bsize b = bfund b
  end.

(** [same a b] is the answer of python's [a == b] on basis objects (identity). *)
Definition identity_test (same : basis -> basis -> bool) : Prop :=
  forall a b, same a b = true -> a = b.

(** Product vector with row-major flat index; an axis is (length, vector). *)
Fixpoint product_vector (l : list (nat * (nat -> C))) (i : nat) : C :=
  match l with
  | [] => 1
  | (_, v) :: l =>
      let n := nprod (map fst l) in
      v (i / n)%nat * product_vector l (i mod n)
  end.

(** Product over the axes of <b_ax, j_ax | a_ax, k_ax>. *)
Fixpoint axis_overlaps (lb la : list basis) (j k : list nat) : C :=
  match lb, la, j, k with
  | b :: lb, a :: la, j1 :: j, k1 :: k => overlap b a j1 k1 * axis_overlaps lb la j k
  | _, _, _, _ => 1
  end.

(** When a conversion is possible: equal fundamental sizes and, between two
    stacked bases, the same number of axes with compatible pairs. *)
Inductive compatible : basis -> basis -> Prop :=
| compatible_stacked la lb :
    bfund (BTuple la) = bfund (BTuple lb) -> Forall2 compatible la lb ->
    compatible (BTuple la) (BTuple lb)
| compatible_other a b :
    (forall la lb, ~ (a = BTuple la /\ b = BTuple lb)) -> bfund a = bfund b -> compatible a b.

(** Matrices: product, adjoint, trace and matrix element. *)
Definition matmul (n : nat) (A B : nat -> nat -> C) : nat -> nat -> C :=
  fun i j => csum (fun k => A i k * B k j) n.
Definition adjoint (A : nat -> nat -> C) : nat -> nat -> C := fun i j => Cconj (A j i).
Definition trace (n : nat) (A : nat -> nat -> C) : C := csum (fun i => A i i) n.
Definition matrix_element (n : nat) (u : nat -> C) (A : nat -> nat -> C) (v : nat -> C) : C :=
  inner_product n u (fun i => csum (fun k => A i k * v k) n).

(** The momentum basis on the fundamental grid of [b]: one plane-wave axis per axis
    of a stacked basis. *)
Fixpoint momentum_basis (b : basis) : basis :=
  match b with
  | BTuple l => BTuple (map (fun c => BFundT (bfund c)) l)
  | BExpl _ _ inner => momentum_basis inner
  | _ => BFundT (bfund b)
  end.
