(** Model of the noise kernels built from a correlation function: kernel/build.py:75-168,
    kernel/gaussian.py:61-405 and kernel/lorentzian.py:37-98.  No proofs here.  Floating point is
    replaced by exact real arithmetic, so that a zero [lambda_], which makes numpy return nan or
    inf, is not modelled.  [boltzmann] and [hbar] are arguments. *)
From Coq Require Import Reals.
From Verif Require Import ZLib Csum DFT NumPy Lattice Index Basis Operator Kernel.
Local Open Scope nat_scope.

(** operator/build.py:193-248 [get_displacements_matrix_x_stacked] without origin and
    [get_total_displacements_matrix_x_stacked], entry [i, j].  [delta a c] is component c of lattice
    vector a; there are as many components as axes. *)
Definition get_total_displacements_matrix_x_stacked (delta : nat -> nat -> R) (shape : list nat) (i j : nat) : R :=
  let nd := length shape in
  norm nd (fun ax =>
    displacements_matrix_x_along_axis nd delta (fun a => nth a shape 0)
      (fun a => nth a (unravel shape i) 0) (fun a => nth a (unravel shape j) 0) 0%R ax).

(** build.py:106-136 [build_isotropic_kernel_from_function_stacked]: row 0 of the displacements.
    [fn] is applied to each of them; row 0 of an empty matrix raises. *)
Definition build_isotropic_kernel_from_function_stacked (delta : nat -> nat -> R) (shape : list nat) (fn : R -> C)
  : option ndarray :=
  if nprod shape =? 0 then None
  else Some {| ashape := [nprod shape];
               aflat := fun j => fn (get_total_displacements_matrix_x_stacked delta shape 0 j) |}.

(** operator/build.py:150-173 [get_displacements_matrix_x] for a basis of [n] points along a lattice
    vector with [d] components (Lattice.v has d = 1).  [x_points] has shape (d, n), so the difference
    has shape (d, d, n); adding [delta_x] of shape (d) broadcasts its last axis.  Returned: the shape,
    and entry [p, q, r]. *)
Definition displacements_matrix_x_shape_nd (d n : nat) : option (list nat) :=
  match einsum_dim n d with Some m => Some [d; d; m] | None => None end.
Definition displacements_matrix_x_nd (d n : nat) (delta : nat -> R) (p q r : nat) : R :=
  let x c := (delta c / INR n * INR (einsum_index n r))%R in
  let max_distance := (norm d delta / 2)%R in
  (rmod (x p - x q + delta (einsum_index d r)) max_distance - max_distance)%R.

(** build.py:75-103 [build_isotropic_kernel_from_function]: the data is reshaped to (n, n), of
    which row 0 is taken. *)
Definition build_isotropic_kernel_from_function (d n : nat) (delta : nat -> R) (fn : R -> C) : option ndarray :=
  match displacements_matrix_x_shape_nd d n with
  | None => None
  | Some s =>
      if (nprod s =? n * n) && (0 <? n) then
        Some {| ashape := [n];
                aflat := fun j => let idx := unravel s j in
                  fn (displacements_matrix_x_nd d n delta (nth 0 idx 0) (nth 1 idx 0) (nth 2 idx 0)) |}
      else None
  end.

(** build.py:139-168 [build_axis_kernel_from_function_stacked]. *)
Definition build_axis_kernel_from_function_stacked (delta : nat -> nat -> R) (shape : list nat) (fn : R -> C)
  : option (list ndarray) :=
  all_some (map (fun ax => build_isotropic_kernel_from_function (length shape) (nth ax shape 0) (delta ax) fn)
                (seq 0 (length shape))).

(** The function [fn] of gaussian.py:88-93 and 125-130. *)
Definition gaussian_fn (a lambda d : R) : C := RtoC (a ^ 2 * exp (- d ^ 2 / (2 * lambda ^ 2)))%R.

(** gaussian.py:61-95 [get_gaussian_isotropic_noise_kernel]. *)
Definition get_gaussian_isotropic_noise_kernel (delta : nat -> nat -> R) (shape : list nat) (a lambda : R)
  : option ndarray :=
  build_isotropic_kernel_from_function_stacked delta shape (gaussian_fn a lambda).

(** gaussian.py:98-132 [get_gaussian_axis_noise_kernel]. *)
Definition get_gaussian_axis_noise_kernel (delta : nat -> nat -> R) (shape : list nat) (a lambda : R)
  : option (list ndarray) :=
  build_axis_kernel_from_function_stacked delta shape (gaussian_fn a lambda).

(** gaussian.py:135-163 [get_gaussian_noise_kernel]: through the conversion for bases which are not
    stacked. *)
Definition get_gaussian_noise_kernel (delta : nat -> nat -> R) (shape : list nat) (a lambda : R)
  : option ndarray :=
  match get_gaussian_isotropic_noise_kernel delta shape a lambda with
  | None => None
  | Some k => Some (as_diagonal_kernel_from_isotropic (nprod shape) k)
  end.

(** [np.min(np.linalg.norm(util.delta_x_stacked, axis=1))] of [nd] lattice vectors; raises for
    none. *)
Definition smallest_length (delta : nat -> nat -> R) (nd : nat) : option R :=
  match nd with
  | 0 => None
  | S m => Some (fold_left Rmin (map (fun a => norm nd (delta a)) (seq 1 m)) (norm nd (delta 0)))
  end.

(** [np.sqrt(2 * eta * Boltzmann * temperature / hbar**2)]. *)
Definition coupling (boltzmann hbar eta temperature : R) : R :=
  sqrt (2 * eta * boltzmann * temperature / hbar ^ 2).

(** gaussian.py:166-205 [get_effective_gaussian_parameters]: (A, lambda_). *)
Definition get_effective_gaussian_parameters (boltzmann hbar : R) (delta : nat -> nat -> R) (nd : nat)
    (eta temperature lambda_factor : R) : option (R * R) :=
  match smallest_length delta nd with
  | None => None
  | Some smallest_max_displacement =>
      let lambda := (smallest_max_displacement / lambda_factor)%R in
      Some (coupling boltzmann hbar eta temperature * lambda, lambda)%R
  end.

(** gaussian.py:208-241 [get_effective_gaussian_noise_kernel]. *)
Definition get_effective_gaussian_noise_kernel (boltzmann hbar : R) (delta : nat -> nat -> R) (shape : list nat)
    (eta temperature lambda_factor : R) : option ndarray :=
  match get_effective_gaussian_parameters boltzmann hbar delta (length shape) eta temperature lambda_factor with
  | None => None
  | Some (a, lambda) => get_gaussian_noise_kernel delta shape a lambda
  end.

(** gaussian.py:244-277 [get_effective_gaussian_isotropic_noise_kernel]. *)
Definition get_effective_gaussian_isotropic_noise_kernel (boltzmann hbar : R) (delta : nat -> nat -> R)
    (shape : list nat) (eta temperature lambda_factor : R) : option ndarray :=
  match get_effective_gaussian_parameters boltzmann hbar delta (length shape) eta temperature lambda_factor with
  | None => None
  | Some (a, lambda) => get_gaussian_isotropic_noise_kernel delta shape a lambda
  end.

(** gaussian.py:280-312 [get_gaussian_noise_operators_periodic]. *)
Definition get_gaussian_noise_operators_periodic argsort (delta : nat -> nat -> R) (shape : list nat) (a lambda : R)
    (truncation : option (list Z)) : option noise_operators :=
  match get_gaussian_isotropic_noise_kernel delta shape a lambda with
  | None => None
  | Some kernel =>
      match get_periodic_noise_operators_real_isotropic_stacked_fft true shape kernel (fun _ => None) with
      | None => None
      | Some operators =>
          let truncation := match truncation with
                            | Some t => t
                            | None => map Z.of_nat (seq 0 (bsize (lbasis (nops operators))))
                            end in
          truncate_diagonal_noise_operator_list argsort operators truncation
      end
  end.

(** gaussian.py:315-345 [get_effective_gaussian_noise_operators_periodic]; [lambda_factor] keeps its
    default 2 sqrt(2). *)
Definition get_effective_gaussian_noise_operators_periodic argsort (boltzmann hbar : R) (delta : nat -> nat -> R)
    (shape : list nat) (eta temperature : R) (truncation : option (list Z)) : option noise_operators :=
  match get_effective_gaussian_parameters boltzmann hbar delta (length shape) eta temperature (2 * sqrt 2)%R with
  | None => None
  | Some (a, lambda) => get_gaussian_noise_operators_periodic argsort delta shape a lambda truncation
  end.

(** lorentzian.py:37-66 [get_effective_lorentzian_parameter]. *)
Definition get_effective_lorentzian_parameter (boltzmann hbar : R) (delta : nat -> nat -> R) (nd : nat)
    (eta temperature lambda_factor : R) : option (R * R) :=
  match smallest_length delta nd with
  | None => None
  | Some smallest =>
      let smallest_max_displacement := (smallest / 2)%R in
      let lambda := (smallest_max_displacement / lambda_factor)%R in
      Some (coupling boltzmann hbar eta temperature * lambda, lambda)%R
  end.

(** lorentzian.py:69-98 [get_lorentzian_isotropic_noise_kernel]. *)
Definition lorentzian_fn (a lambda d : R) : C := RtoC (a ^ 2 * lambda ^ 2 / (d ^ 2 + lambda ^ 2))%R.
Definition get_lorentzian_isotropic_noise_kernel (delta : nat -> nat -> R) (shape : list nat) (a lambda : R)
  : option ndarray :=
  build_isotropic_kernel_from_function_stacked delta shape (lorentzian_fn a lambda).
