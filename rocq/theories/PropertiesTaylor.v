(** Taylor expanded noise (C57) and Chebyshev fitted noise (C58). *)
From Coq Require Import Reals Lra Lia List Arith ZArith Psatz.
From Coquelicot Require Import Coquelicot.
From Verif Require Import ZLib Csum DFT NumPy Index Spec SpecBasis Basis Operator SpecOperator Kernel SpecKernel KernelFacts
  Dynamics SpecDynamics DynamicsProofs3 Taylor SpecTaylor TaylorProofs3 TaylorProofs4 TaylorProofs5 ChebyshevProofs ChebyshevProofs3 TaylorFacts.
Import ListNotations.
Local Open Scope R_scope.
Local Open Scope C_scope.

(** ** C57 *)

Example ex_solve : exists solve, solve_ok solve.
Proof. exact solve_exists. Qed.
Example ex_significant : significant (gaussian_series 2 (2 * PI * 1 / wide_cell) 3) 3 /\ wide_cell <> 0%R.
Proof. split; [apply narrow_significant; [lra|lia]|exact wide_cell_nonzero]. Qed.

(** The cosine coefficients of an even polynomial: the cosine series has the derivatives of the
    polynomial up to the order that its significant coefficients give, and no other series of
    as many cosines has. *)
Theorem C57_cosine_coefficients :
  forall solve p n_terms k, solve_ok solve -> significant p k -> (Nat.min k (terms p n_terms) <= 10)%nat ->
  let r := Nat.min k (terms p n_terms) in
  exists c, get_cos_coefficients_for_taylor_series solve p n_terms = Some c /\ length c = terms p n_terms /\
    (forall i, (r <= i)%nat -> nth i c 0%R = 0%R) /\
    agree_to_order (2 * r) (cosine_series c) (even_polynomial p) /\
    forall c', length c' = terms p n_terms -> (forall i, (r <= i)%nat -> nth i c' 0%R = 0%R) ->
      agree_to_order (2 * r) (cosine_series c') (even_polynomial p) -> c' = c.
Proof. exact cosine_coefficients. Qed.
Print Assumptions C57_cosine_coefficients.

Theorem C57_periodic_operators :
  forall solve b N p k, solve_ok solve -> bsize b = N -> (0 < N)%nat -> (0 < length p)%nat -> significant p k -> (k <= 10)%nat ->
  exists o D c, get_periodic_noise_operators_explicit_taylor_expansion solve b p (Some (length p)) = Some o /\
    get_diagonal_kernel_from_diagonal_operators o = Some D /\ cosine_kernel N c D /\ length c = length p /\
    agree_to_order (2 * k) (cosine_series c) (even_polynomial p).
Proof. exact explicit_polynomial. Qed.
Print Assumptions C57_periodic_operators.

Theorem C57_gaussian :
  forall solve b N dx a lambda n_terms k, solve_ok solve -> bfund b = N -> (0 < N)%nat -> (0 < terms_of n_terms N)%nat ->
  dx <> 0%R -> lambda <> 0%R ->
  significant (gaussian_series a (2 * PI * lambda / dx) (terms_of n_terms N)) k -> (k <= 10)%nat ->
  exists o D c, get_periodic_gaussian_operators_explicit_taylor solve b dx a lambda n_terms = Some o /\
    get_diagonal_kernel_from_diagonal_operators o = Some D /\ cosine_kernel N c D /\ length c = terms_of n_terms N /\
    agree_to_order (2 * k) (fun d => cosine_series c (2 * PI / dx * d)) (fun d => (a ^ 2 * exp (- d ^ 2 / (2 * lambda ^ 2)))%R).
Proof. exact gaussian_kernel. Qed.
Print Assumptions C57_gaussian.

(** Eleven terms, all significant: the powers do not fit 64 bits and the expansion is not the
    one asked for. *)
Example ex_eleven : significant (gaussian_series 1 (2 * PI * 1 / wide_cell) (terms_of None 22)) 11.
Proof. apply narrow_significant; [lra|lia]. Qed.

Theorem C57_eleven_terms_refuted :
  forall solve, solve_ok solve ->
  exists o D c, get_periodic_gaussian_operators_explicit_taylor solve (BFund 22) wide_cell 1 1 None = Some o /\
    get_diagonal_kernel_from_diagonal_operators o = Some D /\ cosine_kernel 22 c D /\ length c = 11%nat /\
    ~ agree_to_order 22 (fun d => cosine_series c (2 * PI / wide_cell * d)) (fun d => (1 ^ 2 * exp (- d ^ 2 / (2 * 1 ^ 2)))%R).
Proof. exact overflow_refuted. Qed.
Print Assumptions C57_eleven_terms_refuted.

Example ex_axes : good_axes 2 1 [(4%nat, wide_cell); (6%nat, wide_cell)] (sizes_of 2 None) [2; 3]%nat.
Proof.
  cbn [good_axes sizes_of repeat]. change (terms_of None 4) with 2%nat. change (terms_of None 6) with 3%nat.
  repeat split; try lia; try exact wide_cell_nonzero; apply narrow_significant; (lra || lia).
Qed.

Theorem C57_gaussian_stacked :
  forall solve axes a lambda shape ks, solve_ok solve -> lambda <> 0%R -> good_axes a lambda axes (sizes_of (length axes) shape) ks ->
  let s := map fst axes in
  exists o D cs, get_periodic_gaussian_operators_explicit_taylor_stacked solve axes a lambda shape = Some o /\
    get_diagonal_kernel_from_diagonal_operators o = Some D /\ ashape D = [(nprod s * nprod s)%nat] /\
    (forall x y, in_shape x s -> in_shape y s -> entry2 (nprod s) D (ravel s x) (ravel s y) = RtoC (series_product axes cs x y)) /\
    length cs = length axes /\
    forall i, (i < length axes)%nat ->
      agree_to_order (2 * nth i ks 0%nat) (fun d => cosine_series (nth i cs []) (2 * PI / snd (nth i axes (0%nat, 0%R)) * d))
        (fun d => (a ^ 2 * exp (- d ^ 2 / (2 * lambda ^ 2)))%R).
Proof. exact gaussian_stacked. Qed.
Print Assumptions C57_gaussian_stacked.

(** The stacked operators do not have the correlation [a^2] of a point with itself, but that
    raised to the number of axes. *)
Theorem C57_stacked_self_correlation :
  forall solve axes a lambda shape ks, solve_ok solve -> lambda <> 0%R -> good_axes a lambda axes (sizes_of (length axes) shape) ks ->
  let s := map fst axes in
  exists o D, get_periodic_gaussian_operators_explicit_taylor_stacked solve axes a lambda shape = Some o /\
    get_diagonal_kernel_from_diagonal_operators o = Some D /\
    forall x, in_shape x s -> entry2 (nprod s) D (ravel s x) (ravel s x) = RtoC (a ^ (2 * length axes)).
Proof. exact stacked_zero. Qed.
Print Assumptions C57_stacked_self_correlation.

(** The lorentzian operators come with two eigenvalues more than there are operators. *)
Theorem C57_lorentzian_mismatch :
  forall solve a lambda dx n n_terms o, (2 <= terms_of n_terms n)%nat ->
  get_lorentzian_operators_explicit_taylor solve a lambda dx n n_terms = Some o ->
  ashape (neig o) = [(2 * terms_of n_terms n + 1)%nat] /\ noise_count o = (2 * terms_of n_terms n - 1)%nat /\
  get_diagonal_kernel_from_diagonal_operators o = None.
Proof. exact lorentzian_mismatch. Qed.
Print Assumptions C57_lorentzian_mismatch.

Example ex_lorentzian : forall solve, solve_ok solve -> exists o, get_lorentzian_operators_explicit_taylor solve 1 1 (2 * PI) 4 None = Some o.
Proof. exact lorentzian_exists. Qed.

(** The linear operators have a kernel of the product of the displacements from the middle, not
    of their difference. *)
Theorem C57_linear_kernel :
  forall b N dx a lambda n_terms, bfund b = N -> (0 < N)%nat ->
  let n := match n_terms with Some n => n | None => bsize b end in (0 < n)%nat ->
  forall d : nat -> Z, (forall j, (j < N)%nat -> Zcong (Z.of_nat N) (d j) (Z.of_nat (N / 2) - Z.of_nat j) /\
    (- (Z.of_nat N / 2) <= d j < - (Z.of_nat N / 2) + Z.of_nat N)%Z) ->
  exists o D, get_linear_gaussian_noise_operators_explicit_taylor b dx a lambda n_terms = Some o /\
    get_diagonal_kernel_from_diagonal_operators o = Some D /\ ashape D = [(N * N)%nat] /\
    forall x y, (x < N)%nat -> (y < N)%nat -> entry2 N D x y =
      RtoC (rsum (fun m => (nth m (gaussian_series a (2 * PI * lambda / dx) n) 0 *
                            ((2 * PI * IZR (d x) / INR N) * (2 * PI * IZR (d y) / INR N)) ^ m)%R) n).
Proof. exact linear_gaussian. Qed.
Print Assumptions C57_linear_kernel.

Theorem C57_linear_gaussian_refuted :
  exists o D, get_linear_gaussian_noise_operators_explicit_taylor (BFund 2) (2 * PI) 1 1 None = Some o /\
  get_diagonal_kernel_from_diagonal_operators o = Some D /\ entry2 2 D 0 0 <> RtoC (1 ^ 2 * exp (- 0 ^ 2 / (2 * 1 ^ 2))).
Proof. exact linear_refuted. Qed.
Print Assumptions C57_linear_gaussian_refuted.

(** ** C58 *)

Example ex_fit : exists fit, fit_ok fit.
Proof. exact (ex_intro _ some_fit some_fit_ok). Qed.

(** Two points whose shortest displacement is at most the degree: the fitted operators give the
    mean of the kernel at the displacement and at its opposite. *)
Theorem C58_fitted_kernel :
  forall fit b N k n, fit_ok fit -> bfund b = N -> (0 < N)%nat -> ashape k = [N] ->
  exists o D, get_periodic_noise_operators_real_isotropic_taylor_expansion fit b k n = Some o /\
    get_diagonal_kernel_from_diagonal_operators o = Some D /\ ashape D = [(N * N)%nat] /\
    forall x y i j z, (x < N)%nat -> (y < N)%nat -> (i < N)%nat -> (j < N)%nat ->
      Zcong (Z.of_nat N) (Z.of_nat i) (Z.of_nat x - Z.of_nat y) -> Zcong (Z.of_nat N) (Z.of_nat j) (Z.of_nat y - Z.of_nat x) ->
      Zcong (Z.of_nat N) z (Z.of_nat x - Z.of_nat y) -> (Z.abs z <= Z.of_nat (fit_size n N))%Z ->
      entry2 N D x y = (aflat k i + aflat k j) * RtoC (/ 2).
Proof. exact fit_kernel. Qed.
Print Assumptions C58_fitted_kernel.

(** With the default degree a symmetric kernel is reproduced everywhere. *)
Theorem C58_symmetric_kernel :
  forall fit b N k, fit_ok fit -> bfund b = N -> (0 < N)%nat -> ashape k = [N] ->
  (forall i j, (i < N)%nat -> (j < N)%nat -> Zcong (Z.of_nat N) (Z.of_nat i) (- Z.of_nat j) -> aflat k i = aflat k j) ->
  exists o D, get_periodic_noise_operators_real_isotropic_taylor_expansion fit b k None = Some o /\
    get_diagonal_kernel_from_diagonal_operators o = Some D /\ ashape D = [(N * N)%nat] /\
    forall x y i, (x < N)%nat -> (y < N)%nat -> (i < N)%nat ->
      Zcong (Z.of_nat N) (Z.of_nat i) (Z.of_nat x - Z.of_nat y) -> entry2 N D x y = aflat k i.
Proof. exact fit_symmetric. Qed.
Print Assumptions C58_symmetric_kernel.

Example ex_symmetric : forall i j, (i < 4)%nat -> (j < 4)%nat -> Zcong 4 (Z.of_nat i) (- Z.of_nat j) -> aflat symmetric_example i = aflat symmetric_example j.
Proof. exact symmetric_example_ok. Qed.

(** A kernel that is not symmetric is not reproduced. *)
Theorem C58_asymmetric_refuted :
  forall fit, fit_ok fit ->
  exists o D, get_periodic_noise_operators_real_isotropic_taylor_expansion fit (BFund 3) asymmetric_example None = Some o /\
    get_diagonal_kernel_from_diagonal_operators o = Some D /\ entry2 3 D 1 0 <> aflat asymmetric_example 1.
Proof. exact fit_asymmetric. Qed.
Print Assumptions C58_asymmetric_refuted.

Theorem C58_stacked :
  forall shape k, (0 < length shape)%nat -> Forall (fun n => 0 < n)%nat shape -> nprod (ashape k) = nprod shape -> aflat k 0 <> 0 ->
  (forall ax i j, (ax < length shape)%nat -> (i < nth ax shape 0)%nat -> (j < nth ax shape 0)%nat ->
    Zcong (Z.of_nat (nth ax shape 0%nat)) (Z.of_nat i) (- Z.of_nat j) ->
    aflat k (ravel shape (axis_point (length shape) ax i)) = aflat k (ravel shape (axis_point (length shape) ax j))) ->
  forall fit, fit_ok fit ->
  exists l o D, as_axis_kernel_from_isotropic shape k = Some l /\
    get_periodic_noise_operators_real_isotropic_stacked_taylor_expansion fit shape k None = Some o /\ diagonal_noise_wf o /\
    get_diagonal_kernel_from_diagonal_operators o = Some D /\ ashape D = [(nprod shape * nprod shape)%nat] /\
    forall x y d, in_shape x shape -> in_shape y shape -> displacement shape d x y ->
      entry2 (nprod shape) D (ravel shape x) (ravel shape y) = aflat (as_isotropic_kernel_from_axis l) (ravel shape d).
Proof. exact stacked_fit. Qed.
Print Assumptions C58_stacked.

Theorem C58_stacked_product :
  forall shape k, (0 < length shape)%nat -> Forall (fun n => 0 < n)%nat shape -> nprod (ashape k) = nprod shape -> aflat k 0 <> 0 ->
  (forall ax i j, (ax < length shape)%nat -> (i < nth ax shape 0)%nat -> (j < nth ax shape 0)%nat ->
    Zcong (Z.of_nat (nth ax shape 0%nat)) (Z.of_nat i) (- Z.of_nat j) ->
    aflat k (ravel shape (axis_point (length shape) ax i)) = aflat k (ravel shape (axis_point (length shape) ax j))) ->
  forall fit, fit_ok fit -> product_kernel shape k ->
  exists o D K, get_periodic_noise_operators_real_isotropic_stacked_taylor_expansion fit shape k None = Some o /\
    get_diagonal_kernel_from_diagonal_operators o = Some D /\ as_diagonal_kernel_from_isotropic_stacked shape k = Some K /\
    forall t, (t < nprod shape * nprod shape)%nat -> aflat D t = aflat K t.
Proof. exact stacked_fit_product. Qed.
Print Assumptions C58_stacked_product.

Example ex_stacked : product_kernel [2; 3]%nat symmetric_product /\ aflat symmetric_product 0 <> 0 /\ nprod (ashape symmetric_product) = nprod [2; 3]%nat /\
  forall ax i j, (ax < 2)%nat -> (i < nth ax [2; 3]%nat 0)%nat -> (j < nth ax [2; 3]%nat 0)%nat ->
    Zcong (Z.of_nat (nth ax [2; 3]%nat 0%nat)) (Z.of_nat i) (- Z.of_nat j) ->
    aflat symmetric_product (ravel [2; 3]%nat (axis_point 2 ax i)) = aflat symmetric_product (ravel [2; 3]%nat (axis_point 2 ax j)).
Proof. exact symmetric_product_ok. Qed.
