(** Vocabulary for Taylor expanded noise (C57) and Chebyshev fitted noise (C58). *)
From Coq Require Import Reals List.
From Coquelicot Require Import Coquelicot.
From Verif Require Import ZLib Csum DFT NumPy Spec SpecBasis Basis Operator Kernel SpecKernel Taylor.
Import ListNotations.
Local Open Scope R_scope.

(** The cosine series with the given coefficients. *)
Definition cosine_series (c : list R) (theta : R) : R := rsum (fun i => nth i c 0 * cos (INR i * theta)) (length c).

(** [f] and [g] have the same value and the same first [n - 1] derivatives at zero. *)
Definition agree_to_order (n : nat) (f g : R -> R) : Prop :=
  forall j, (j < n)%nat -> ex_derive_n f j 0 /\ ex_derive_n g j 0 /\ Derive_n f j 0 = Derive_n g j 0.

(** The even polynomial p_0 + p_1 x^2 + p_2 x^4 + ... *)
Definition even_polynomial (p : list R) (x : R) : R := rsum (fun m => nth m p 0 * x ^ (2 * m)) (length p).

(** Chebyshev polynomials, and the weighted squared error of a combination of them. *)
Fixpoint chebyshev2 (n : nat) (x : R) : R * R :=
  match n with O => (1, x) | S n => let '(a, b) := chebyshev2 n x in (b, 2 * x * b - a) end.
Definition chebyshev (n : nat) (x : R) : R := fst (chebyshev2 n x).
Definition fit_error (n : nat) (x : nat -> R) (y : nat -> C) (deg : nat) (w : nat -> R) (c : nat -> C) : R :=
  rsum (fun i => w i ^ 2 * Cnorm2 (y i - csum (fun j => RtoC (chebyshev j (x i)) * c j) (deg + 1))%C) n.

(** The fit returns coefficients of least error. *)
Definition fit_ok (fit : fit_fn) : Prop :=
  forall n x y deg w c, fit_error n x y deg w (fit n x y deg w) <= fit_error n x y deg w c.

(** The first [k] coefficients exceed 1e-8 times the largest coefficient in modulus, and the
    next one (if there is one) does not. *)
Definition significant (p : list R) (k : nat) : Prop :=
  exists mx, In mx p /\ (forall x, In x p -> x <= mx) /\ (k <= length p)%nat /\
    (forall m, (m < k)%nat -> / 10 ^ 8 * mx < Rabs (nth m p 0)) /\
    ((k < length p)%nat -> Rabs (nth k p 0) <= / 10 ^ 8 * mx).

(** The first [n] Taylor coefficients, in powers of the squared argument, of the gaussian
    [a^2 exp (- t^2 / (2 s^2))]. *)
Definition gaussian_series (a s : R) (n : nat) : list R :=
  map (fun m => a ^ 2 / INR (fact m) * (-1 / (2 * s ^ 2)) ^ m) (seq 0 n).

(** The number of terms asked for, by default half the number of points. *)
Definition terms_of (n_terms : option nat) (N : nat) : nat := match n_terms with Some n => n | None => (N / 2)%nat end.

(** [D] holds the values of a cosine series of the displacement on [N] periodic points. *)
Definition cosine_kernel (N : nat) (c : list R) (D : ndarray) : Prop :=
  ashape D = [(N * N)%nat] /\
  forall x y, (x < N)%nat -> (y < N)%nat -> entry2 N D x y = RtoC (cosine_series c (2 * PI * (INR x - INR y) / INR N)).

(** Every axis (its points and the length of its lattice vector) has terms to fit, of which the
    first [k] and no more than ten are significant. *)
Fixpoint good_axes (a lambda : R) (axes : list (nat * R)) (sizes : list (option nat)) (ks : list nat) : Prop :=
  match axes, sizes, ks with
  | [], [], [] => True
  | (N, dx) :: axes, t :: sizes, k :: ks =>
      ((0 < N)%nat /\ (0 < terms_of t N)%nat /\ dx <> 0%R /\ significant (gaussian_series a (2 * PI * lambda / dx) (terms_of t N)) k /\ (0 < k <= 10)%nat) /\
      good_axes a lambda axes sizes ks
  | _, _, _ => False
  end.

(** One cosine series per axis, each of the displacement along its axis. *)
Fixpoint series_product (axes : list (nat * R)) (cs : list (list R)) (x y : list nat) : R :=
  match axes, cs, x, y with
  | (N, _) :: axes, c :: cs, i :: x, j :: y => (cosine_series c (2 * PI * (INR i - INR j) / INR N) * series_product axes cs x y)%R
  | _, _, _, _ => 1%R
  end.

(** The number of terms of each axis. *)
Definition sizes_of (ndim : nat) (shape : option (list nat)) : list (option nat) :=
  match shape with Some s => map Some s | None => repeat None ndim end.

(** The number of terms for a list of coefficients, and the degree of a fit to [N] points. *)
Definition terms (p : list R) (n_terms : option nat) : nat := match n_terms with Some n => n | None => length p end.
Definition fit_size (n : option nat) (N : nat) : nat := match n with Some n => n | None => ((N + 1) / 2)%nat end.
