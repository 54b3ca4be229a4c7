(** Kernels built from a correlation function (C77, C78, C79). *)
From Coq Require Import Reals Lra Lia.
From Verif Require Import ZLib Csum NumPy Spec Lattice Basis Operator SpecOperator Kernel SpecKernel KernelFacts Correlation SpecCorrelation
  CorrelationProofs CorrelationProofs2 CorrelationProofs3 CorrelationProofs4.
Local Open Scope R_scope.

(** An aligned lattice, and a sorting function. *)
Example ex_aligned : aligned 2 square_delta /\ aligned 1 square_delta.
Proof. split; apply square_aligned. Qed.
Example ex_sorting : exists argsort, is_argsort argsort.
Proof. exists some_argsort. exact some_argsort_ok. Qed.
Example ex_physical : 0 < 2 * 1 * 3 /\ 1 <> 0.
Proof. split; lra. Qed.

(** ** C77 *)

(** On a lattice whose vectors point along the coordinates, the value stored for the displacement
    x - y is the function of the distance between x and y in the periodic cell. *)
Theorem C77_isotropic_kernel :
  forall delta shape fn, aligned (length shape) delta -> Forall (fun n => (0 < n)%nat) shape ->
  exists k, build_isotropic_kernel_from_function_stacked delta shape fn = Some k /\ ashape k = [nprod shape] /\
    forall x y d, in_shape x shape -> in_shape y shape -> displacement shape d x y ->
      exists r, periodic_distance delta shape x y r /\ aflat k (ravel shape d) = fn r.
Proof. exact isotropic_kernel_spec. Qed.
Print Assumptions C77_isotropic_kernel.

Theorem C77_diagonal_kernel :
  forall delta shape fn, aligned (length shape) delta -> Forall (fun n => (0 < n)%nat) shape ->
  exists k D, build_isotropic_kernel_from_function_stacked delta shape fn = Some k /\
    as_diagonal_kernel_from_isotropic_stacked shape k = Some D /\ ashape D = [(nprod shape * nprod shape)%nat] /\
    forall x y, in_shape x shape -> in_shape y shape ->
      exists r, periodic_distance delta shape x y r /\ entry2 (nprod shape) D (ravel shape x) (ravel shape y) = fn r.
Proof. exact diagonal_kernel_of_function. Qed.
Print Assumptions C77_diagonal_kernel.

(** The distance is unique, and along one axis m steps out of n, counted the shorter way round,
    are m/n of the cell. *)
Theorem C77_distance_unique :
  forall delta shape x y r s, periodic_distance delta shape x y r -> periodic_distance delta shape x y s -> r = s.
Proof. exact periodic_distance_unique. Qed.
Print Assumptions C77_distance_unique.

Theorem C77_distance_along_axis :
  forall delta n i j m, aligned 1 delta -> (0 < n)%nat -> (2 * m <= n)%nat ->
  Zcong (Z.of_nat n) (Z.of_nat i - Z.of_nat j) (Z.of_nat m) \/ Zcong (Z.of_nat n) (Z.of_nat j - Z.of_nat i) (Z.of_nat m) ->
  periodic_distance delta [n] [i] [j] (INR m / INR n * Rabs (delta 0%nat 0%nat)).
Proof. exact distance_1d_value. Qed.
Print Assumptions C77_distance_along_axis.

(** Finding: turning the square lattice breaks it, for every one-to-one function. *)
Theorem C77_rotated_refuted :
  exists delta : nat -> nat -> R,
  (forall a b, (a < 2)%nat -> (b < 2)%nat -> rsum (fun c => delta a c * delta b c) 2 = if (a =? b)%nat then 1 else 0) /\
  forall fn : R -> C, (forall r s, 0 <= r -> 0 <= s -> fn r = fn s -> r = s) ->
  exists k D, build_isotropic_kernel_from_function_stacked delta [3%nat; 1%nat] fn = Some k /\
    as_diagonal_kernel_from_isotropic_stacked [3%nat; 1%nat] k = Some D /\
    forall r, periodic_distance delta [3%nat; 1%nat] [2%nat; 0%nat] [0%nat; 0%nat] r -> entry2 3 D 2 0 <> fn r.
Proof.
  exists rotated. split; [|exact rotated_wrong].
  intros [|[|a]] [|[|b]] Ha Hb; try lia; simpl; lra.
Qed.
Print Assumptions C77_rotated_refuted.
Example ex_one_to_one : forall r s, 0 <= r -> 0 <= s -> RtoC r = RtoC s -> r = s.
Proof. intros r s _ _ H. apply RtoC_inj. exact H. Qed.

(** Finding: the function for bases which are not stacked, and with it every axis kernel, raises
    unless there is one point, and then does not use the displacement 0. *)
Theorem C77_unstacked_raises :
  forall d n delta fn, (0 < d)%nat -> (d <> 1 \/ n <> 1)%nat -> build_isotropic_kernel_from_function d n delta fn = None.
Proof. exact build_1d_none. Qed.
Print Assumptions C77_unstacked_raises.

Theorem C77_one_point :
  forall delta fn, delta 0%nat <> 0 ->
  exists k, build_isotropic_kernel_from_function 1 1 delta fn = Some k /\ ashape k = [1%nat] /\
    aflat k 0 = fn (- (Rabs (delta 0%nat) / 2)).
Proof. exact build_1d_one. Qed.
Print Assumptions C77_one_point.

Theorem C77_axis_kernel_raises :
  forall delta shape a lambda, (0 < length shape)%nat -> shape <> [1%nat] ->
  get_gaussian_axis_noise_kernel delta shape a lambda = None.
Proof. exact (fun delta shape a lambda => build_axis_none delta shape (gaussian_fn a lambda)). Qed.
Print Assumptions C77_axis_kernel_raises.

(** The gaussian kernel is right along one axis ... *)
Theorem C77_gaussian_one_axis :
  forall delta n a lambda, aligned 1 delta -> (0 < n)%nat ->
  exists D, get_gaussian_noise_kernel delta [n] a lambda = Some D /\ ashape D = [(n * n)%nat] /\
    forall i j, (i < n)%nat -> (j < n)%nat ->
      exists r, periodic_distance delta [n] [i] [j] r /\ entry2 n D i j = RtoC (a ^ 2 * exp (- r ^ 2 / (2 * lambda ^ 2))).
Proof. exact gaussian_1d. Qed.
Print Assumptions C77_gaussian_one_axis.

(** ... but (finding) with two axes it is not even Hermitian. *)
Theorem C77_gaussian_two_axes_refuted :
  exists D, get_gaussian_noise_kernel square_delta [2%nat; 2%nat] 1 1 = Some D /\
  entry2 4 D 2 1 <> Cconj (entry2 4 D 1 2) /\
  forall r, periodic_distance square_delta [2%nat; 2%nat] [1%nat; 0%nat] [0%nat; 1%nat] r ->
    entry2 4 D 2 1 <> RtoC (1 ^ 2 * exp (- r ^ 2 / (2 * 1 ^ 2))).
Proof. exact gaussian_kernel_2d_wrong. Qed.
Print Assumptions C77_gaussian_two_axes_refuted.

(** ** C78 *)

Theorem C78_gaussian_parameters :
  forall kb h delta nd eta t f, (0 < nd)%nat -> 0 <= eta * kb * t -> h <> 0 -> f <> 0 ->
  exists a lambda L, get_effective_gaussian_parameters kb h delta nd eta t f = Some (a, lambda) /\
    shortest nd delta L /\ lambda * f = L /\ a ^ 2 = 2 * (eta * kb * t) / h ^ 2 * lambda ^ 2.
Proof. exact gaussian_parameters_spec. Qed.
Print Assumptions C78_gaussian_parameters.

Theorem C78_lorentzian_parameters :
  forall kb h delta nd eta t f, (0 < nd)%nat -> 0 <= eta * kb * t -> h <> 0 -> f <> 0 ->
  exists a lambda L, get_effective_lorentzian_parameter kb h delta nd eta t f = Some (a, lambda) /\
    shortest nd delta L /\ lambda * f = L / 2 /\ a ^ 2 = 2 * (eta * kb * t) / h ^ 2 * lambda ^ 2.
Proof. exact lorentzian_parameters_spec. Qed.
Print Assumptions C78_lorentzian_parameters.

(** The effective gaussian kernel falls off as a^2 - (eta kT / hbar^2) r^2, up to a bound of fourth
    order, and its smallest value is a^2 exp(-f^2/8), reached half a cell away. *)
Theorem C78_gaussian_kernel :
  forall kb h delta n eta t f, aligned 1 delta -> (0 < n)%nat -> 0 <= eta * kb * t -> h <> 0 -> f <> 0 ->
  let c := eta * kb * t / h ^ 2 in let L := Rabs (delta 0%nat 0%nat) in let a2 := 2 * c * (L / f) ^ 2 in
  exists D, get_effective_gaussian_noise_kernel kb h delta [n] eta t f = Some D /\ ashape D = [(n * n)%nat] /\
    (forall i j, (i < n)%nat -> (j < n)%nat ->
       exists v r, entry2 n D i j = RtoC v /\ periodic_distance delta [n] [i] [j] r /\
         Rabs (v - (a2 - c * r ^ 2)) <= c * r ^ 4 / (4 * (L / f) ^ 2) /\ a2 * exp (- f ^ 2 / 8) <= v <= a2) /\
    (forall i j, (i < n)%nat -> (j < n)%nat -> (2 * i = 2 * j + n)%nat -> entry2 n D i j = RtoC (a2 * exp (- f ^ 2 / 8))).
Proof. exact effective_gaussian_1d. Qed.
Print Assumptions C78_gaussian_kernel.

(** Finding: no two points have the correlation a^2 exp(-f^2/2) documented as the smallest. *)
Theorem C78_documented_minimum_refuted :
  forall kb h delta n eta t f, aligned 1 delta -> (0 < n)%nat -> 0 < eta * kb * t -> h <> 0 -> f <> 0 ->
  exists D v0, get_effective_gaussian_noise_kernel kb h delta [n] eta t f = Some D /\ entry2 n D 0 0 = RtoC v0 /\
    forall i j, (i < n)%nat -> (j < n)%nat -> exists v, entry2 n D i j = RtoC v /\ v0 * exp (- f ^ 2 / 2) < v <= v0.
Proof. exact documented_minimum. Qed.
Print Assumptions C78_documented_minimum_refuted.

(** The lorentzian kernel for the same friction falls off twice as fast (finding): a^2 -
    2 (eta kT / hbar^2) r^2. *)
Theorem C78_lorentzian_kernel :
  forall kb h delta n eta t f, aligned 1 delta -> (0 < n)%nat -> 0 <= eta * kb * t -> h <> 0 -> f <> 0 ->
  let c := eta * kb * t / h ^ 2 in let L := Rabs (delta 0%nat 0%nat) in let lambda := L / (2 * f) in let a2 := 2 * c * lambda ^ 2 in
  exists a l k, get_effective_lorentzian_parameter kb h delta 1 eta t f = Some (a, l) /\
    get_lorentzian_isotropic_noise_kernel delta [n] a l = Some k /\ ashape k = [n] /\
    (forall i, (i < n)%nat ->
       exists v r, aflat k i = RtoC v /\ periodic_distance delta [n] [i] [0%nat] r /\
         Rabs (v - (a2 - 2 * c * r ^ 2)) <= 2 * c * r ^ 4 / lambda ^ 2 /\ a2 / (1 + f ^ 2) <= v <= a2) /\
    (forall i, (2 * i = n)%nat -> aflat k i = RtoC (a2 / (1 + f ^ 2))).
Proof. exact effective_lorentzian_1d. Qed.
Print Assumptions C78_lorentzian_kernel.

(** ** C79 *)

(** The noise operators reproduce the gaussian on every aligned lattice. *)
Theorem C79_gaussian_operators :
  forall argsort delta shape a lambda, is_argsort argsort ->
  aligned (length shape) delta -> (0 < length shape)%nat -> Forall (fun n => (0 < n)%nat) shape -> a <> 0 -> lambda <> 0 ->
  exists o D, get_gaussian_noise_operators_periodic argsort delta shape a lambda None = Some o /\ diagonal_noise_wf o /\
    get_diagonal_kernel_from_diagonal_operators o = Some D /\ ashape D = [(nprod shape * nprod shape)%nat] /\
    forall x y, in_shape x shape -> in_shape y shape ->
      exists r, periodic_distance delta shape x y r /\
        entry2 (nprod shape) D (ravel shape x) (ravel shape y) = RtoC (a ^ 2 * exp (- r ^ 2 / (2 * lambda ^ 2))).
Proof. exact gaussian_operators_kernel. Qed.
Print Assumptions C79_gaussian_operators.

Theorem C79_effective_operators :
  forall argsort kb h delta shape eta t, is_argsort argsort ->
  aligned (length shape) delta -> (0 < length shape)%nat -> Forall (fun n => (0 < n)%nat) shape ->
  0 < eta * kb * t -> h <> 0 ->
  exists o D L, get_effective_gaussian_noise_operators_periodic argsort kb h delta shape eta t None = Some o /\ diagonal_noise_wf o /\
    get_diagonal_kernel_from_diagonal_operators o = Some D /\ ashape D = [(nprod shape * nprod shape)%nat] /\
    shortest (length shape) delta L /\
    forall x y, in_shape x shape -> in_shape y shape ->
      exists r, periodic_distance delta shape x y r /\
        entry2 (nprod shape) D (ravel shape x) (ravel shape y)
        = RtoC (2 * (eta * kb * t) / h ^ 2 * (L ^ 2 / 8) * exp (- 4 * r ^ 2 / L ^ 2)).
Proof. exact effective_operators. Qed.
Print Assumptions C79_effective_operators.

(** Finding: the effective noise need not be positive.  On four points, whatever the friction,
    temperature and cell, some eigenvalue is not a non-negative number. *)
Theorem C79_positive_refuted :
  forall argsort kb h delta eta t, is_argsort argsort -> aligned 1 delta -> 0 < eta * kb * t -> h <> 0 ->
  exists o, get_effective_gaussian_noise_operators_periodic argsort kb h delta [4%nat] eta t None = Some o /\
    ~ forall a, (a < noise_count o)%nat -> exists r, 0 <= r /\ eigenvalue o a = RtoC r.
Proof. exact effective_not_positive. Qed.
Print Assumptions C79_positive_refuted.

Theorem C79_negative_correlation :
  forall argsort kb h delta eta t, is_argsort argsort -> aligned 1 delta -> 0 < eta * kb * t -> h <> 0 ->
  exists o D q, get_effective_gaussian_noise_operators_periodic argsort kb h delta [4%nat] eta t None = Some o /\
    diagonal_noise_wf o /\ bsize (lrow (nops o)) = 4%nat /\
    get_diagonal_kernel_from_diagonal_operators o = Some D /\ q < 0 /\
    csum (fun i => csum (fun j => Cmult (Cmult (RtoC (if Nat.even i then 1 else -1)) (entry2 4 D i j))
                                        (RtoC (if Nat.even j then 1 else -1))) 4) 4 = RtoC q.
Proof. exact effective_negative. Qed.
Print Assumptions C79_negative_correlation.
