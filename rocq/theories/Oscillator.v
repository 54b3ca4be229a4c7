(** Model of the oscillator functions: lib/hamiltonian_generator/src/lib.rs:8-49 and
    stacked_basis/sho_basis.py.  Machine integers of the Rust code wrap around (release
    build); floating point numbers are exact reals, so [as f64], [powi], [sqrt] and [exp]
    are exact.  The constant [hbar] (lib.rs:48-49, scipy.constants) is an argument. *)
From Coq Require Import Reals ZArith List Arith.
From Verif Require Import ZLib Csum NumPy Lattice.
Import ListNotations.
Local Open Scope R_scope.

(** Wrapping arithmetic of [u64] and [i64]. *)
Definition u64 (z : Z) : Z := (z mod 2 ^ 64)%Z.
Definition i64 (z : Z) : Z := ((z + 2 ^ 63) mod 2 ^ 64 - 2 ^ 63)%Z.

(** lib.rs:8-10 [factorial]: [(1..=n).product()]. *)
Definition rust_factorial (n : nat) : Z := fold_left (fun acc k => u64 (acc * Z.of_nat k)) (seq 1 n) 1%Z.

(** lib.rs:12-23 [hermite_coefficient], for non-negative arguments (the recursion never
    leaves them). *)
Fixpoint hermite_coefficient (n m : nat) : Z :=
  match n with
  | O => match m with O => 1 | S _ => 0 end
  | S n' =>
      match n', m with
      | O, O => 0
      | O, 1%nat => 2
      | _, O => i64 (- hermite_coefficient n' 1)
      | _, S m' =>
          if (m <=? n)%nat
          then i64 (i64 (2 * hermite_coefficient n' m') - i64 (i64 (Z.of_nat m + 1) * hermite_coefficient n' (S m)))
          else 0
      end
  end%Z.

(** lib.rs:25-29 [hermite_val]. *)
Definition hermite_val (x : R) (n : nat) : R := rsum (fun m => IZR (hermite_coefficient n m) * x ^ m) (S n).

(** lib.rs:31-46 [calculate_sho_wavefunction] at one point. *)
Definition rust_sho_wavefunction (hbar p omega mass : R) (n : nat) : R :=
  let norm := sqrt (omega * mass / hbar) in
  let factorial := IZR (rust_factorial n) in
  let prefactor := norm / factorial / (sqrt PI * 2 ^ n) in
  let sqrt_prefactor := sqrt prefactor in
  let normalized_p := p * norm in
  sqrt_prefactor * hermite_val normalized_p n * exp (- normalized_p ^ 2 / 2).

(** [scipy.special.eval_hermite]: the physicists' Hermite polynomial, by its recurrence
    (trusted library function). *)
Fixpoint eval_hermite_pair (n : nat) (x : R) : R * R :=
  match n with
  | O => (1, 2 * x)
  | S n' => let '(a, b) := eval_hermite_pair n' x in (b, 2 * x * b - 2 * (INR n' + 1) * a)
  end.
Definition eval_hermite (n : nat) (x : R) : R := fst (eval_hermite_pair n x).

(** sho_basis.py:36-67 [calculate_sho_wavefunction] at one point. *)
Definition calculate_sho_wavefunction (hbar x omega mass : R) (n : nat) : R :=
  let norm := sqrt (omega * mass / hbar) in
  let normalized_x := x * norm in
  let prefactor := sqrt (norm / 2 ^ n / (INR (fact n) * sqrt PI)) in
  prefactor * eval_hermite n normalized_x * exp (- Rsqr normalized_x / 2).

(** sho_basis.py:70-81 [calculate_x_distances] of a position axis with vector [delta] and
    [n] points, for point number [i]. *)
Definition calculate_x_distances (nd : nat) (delta : nat -> R) (n : nat) (origin : nat -> R) (i : nat) : R :=
  let x0_norm c := delta c / norm nd delta in
  let distances_origin := rsum (fun c => x0_norm c * origin c) nd in
  rsum (fun c => x0_norm c * (delta c / INR n * INR i)) nd + distances_origin.

(** sho_basis.py:91-128 [get_sho_potential_basis_config]: length of the one dimensional
    axis and the potential at point [i]. *)
Definition sho_config_length (nd : nat) (delta : nat -> R) : R := norm nd delta.
Definition sho_config_potential (omega mass : R) (nd : nat) (delta : nat -> R) (n : nat) (origin : nat -> R) (i : nat) : R :=
  / 2 * mass * omega ^ 2 * (calculate_x_distances nd delta n origin i) ^ 2.

(** sho_basis.py:153-188 [infinate_sho_basis_3d_from_config]: component [i] of vector [j]. *)
Definition infinite_sho_vector (hbar omega mass : R) (nd : nat) (delta : nat -> R) (n : nat) (origin : nat -> R) (j i : nat) : R :=
  calculate_sho_wavefunction hbar (calculate_x_distances nd delta n origin i) omega mass j
  * sqrt (norm nd (fun c => delta c / INR n)).
