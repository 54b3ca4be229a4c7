(** Vocabulary for the statements about noise kernels. *)
From Coq Require Import Reals.
From Verif Require Import ZLib Csum DFT NumPy Spec SpecBasis Basis Operator SpecOperator Kernel.
Local Open Scope R_scope.
Local Open Scope C_scope.

(** z^n. *)
Infix "^" := Cpow : C_scope.

(** Entry [i, j, k, l] of an array stored in row-major order with axis lengths
    (_, n1, n2, n3), and entry [i, j] with lengths (_, n). *)
Definition entry4 (n1 n2 n3 : nat) (a : ndarray) (i j k l : nat) : C :=
  aflat a (((i * n1 + j) * n2 + k) * n3 + l)%nat.
Definition entry2 (n : nat) (a : ndarray) (i j : nat) : C := aflat a (i * n + j)%nat.

(** [d] is the displacement x - y, taken modulo the length on every axis. *)
Fixpoint displacement (shape d x y : list nat) : Prop :=
  match shape, d, x, y with
  | [], [], [], [] => True
  | n :: shape, a :: d, b :: x, c :: y =>
      (a < n)%nat /\ Zcong (Z.of_nat n) (Z.of_nat a) (Z.of_nat b - Z.of_nat c) /\
      displacement shape d x y
  | _, _, _, _ => False
  end.

(** Product of per-axis functions, axes counted from [ax]. *)
Fixpoint axis_product (ax : nat) (g : nat -> nat -> C) (idx : list nat) : C :=
  match idx with
  | [] => 1
  | i :: idx => g ax i * axis_product (S ax) g idx
  end.

(** The index which is [i] on axis [ax] and 0 on the other axes. *)
Definition axis_point (nd ax i : nat) : list nat :=
  (repeat 0 ax ++ i :: repeat 0 (nd - S ax))%nat.

(** [k] is a product of one function per axis. *)
Definition product_kernel (shape : list nat) (k : ndarray) : Prop :=
  exists h : nat -> nat -> C, forall idx, in_shape idx shape ->
    aflat k (ravel shape idx) = axis_product 0 h idx.

(** A = V diag(lam) V^dagger. *)
Definition eigendecomposition (n : nat) (A : nat -> nat -> C) (r : eigh_result) : Prop :=
  forall i j, (i < n)%nat -> (j < n)%nat ->
    A i j = csum (fun k => snd r i k * RtoC (fst r k) * Cconj (snd r j k)) n.

(** Number of eigenvalues, operators of a list, and the value of operator [a] at
    point [x] of a diagonal list. *)
Definition eigenvalue (o : noise_operators) (a : nat) : C := aflat (neig o) a.
Definition noise_count (o : noise_operators) : nat := bsize (lbasis (nops o)).

(** The arrays of a list have one eigenvalue per operator and one value per entry. *)
Definition noise_wf (o : noise_operators) : Prop :=
  list_wf (nops o) /\ ashape (neig o) = [noise_count o].
Definition diagonal_noise_wf (o : noise_operators) : Prop :=
  diag_list_wf (nops o) /\ ashape (neig o) = [noise_count o].

(** The kernels of a list of operators: sum_a lambda_a conj(L_a[j,i]) L_a[k,l], and
    sum_a lambda_a conj(L_a[i]) L_a[j] for diagonal operators. *)
Definition kernel_of (o : noise_operators) (i j k l : nat) : C :=
  csum (fun a => eigenvalue o a * Cconj (list_entry (nops o) a j i) * list_entry (nops o) a k l)
       (noise_count o).
Definition diagonal_kernel_of (o : noise_operators) (i j : nat) : C :=
  csum (fun a => eigenvalue o a * Cconj (diag_entry (nops o) a i) * diag_entry (nops o) a j)
       (noise_count o).

(** Product over the axes of the kernels of the operators on each axis. *)
Fixpoint product_of_kernels (l : list noise_operators) (x y : list nat) : C :=
  match l, x, y with
  | o :: l, i :: x, j :: y => diagonal_kernel_of o i j * product_of_kernels l x y
  | _, _, _ => 1
  end.

(** What np.argsort promises: the returned order is a permutation which sorts the
    keys (ties in any order). *)
Definition is_argsort (argsort : (nat -> R) -> nat -> nat -> nat) : Prop :=
  forall key n,
    (forall a, (a < n)%nat -> (argsort key n a < n)%nat) /\
    (forall a b, (a < n)%nat -> (b < n)%nat -> argsort key n a = argsort key n b -> a = b) /\
    (forall a b, (a <= b < n)%nat -> (key (argsort key n a) <= key (argsort key n b))%R).

(** [t] holds the operators [sel] of [o] with their eigenvalues, in that order. *)
Definition picks (o t : noise_operators) (sel : list nat) (m : nat) : Prop :=
  noise_count t = length sel /\ ashape (neig t) = [length sel] /\
  lrow (nops t) = lrow (nops o) /\ lcol (nops t) = lcol (nops o) /\
  nprod (ashape (ldata (nops t))) = (length sel * m)%nat /\
  forall j, (j < length sel)%nat ->
    eigenvalue t j = eigenvalue o (nth j sel 0%nat) /\
    forall x, (x < m)%nat ->
      aflat (ldata (nops t)) (j * m + x)%nat = aflat (ldata (nops o)) (nth j sel 0%nat * m + x)%nat.
