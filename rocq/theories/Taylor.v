(** Model of kernel/solve/_taylor.py and of the Taylor expansions in kernel/gaussian.py and
    kernel/lorentzian.py.  No proofs here.  Floating point is replaced by exact real
    arithmetic; the powers [i ** (2 * m)] are computed by the code in 64 bit integers and
    wrap.  [dx] stands for the norm of the lattice vector of a one-dimensional basis. *)
From Coq Require Import Reals.
From Verif Require Import ZLib Csum DFT NumPy Interp Index Basis Operator Kernel Oscillator Dynamics.
Local Open Scope nat_scope.

(** [np.max(polynomial_coefficients)]; raises for an empty array. *)
Definition polynomial_max (p : list R) : option R :=
  match p with [] => None | x :: l => Some (fold_left Rmax l x) end.

(** _taylor.py:60-64: the first index with [np.isclose(p, 0, atol=atol)], or the size. *)
Fixpoint first_close (atol : R) (p : list R) : nat :=
  match p with
  | [] => 0
  | x :: p => if Rle_dec (Rabs x) atol then 0 else S (first_close atol p)
  end.

(** _taylor.py:68-71 [coefficients_matrix], row m, column i. *)
Definition taylor_matrix (m i : nat) : R :=
  ((-1) ^ m / INR (fact (2 * m)) * IZR (i64 (Z.of_nat i ^ Z.of_nat (2 * m))))%R.

(** _taylor.py:53-77 [_get_cos_coefficients_for_taylor_series].  [solve] is np.linalg.solve;
    of its result the real part is stored. *)
Definition get_cos_coefficients_for_taylor_series (solve : solve_fn) (p : list R) (n_terms : option nat)
  : option (list R) :=
  let n_terms := match n_terms with Some n => n | None => length p end in
  match polynomial_max p with
  | None => None
  | Some mx =>
      let atol := (/ 10 ^ 8 * mx)%R in
      let n_nonzero := Nat.min (first_close atol p) n_terms in
      match solve n_nonzero (fun m i => RtoC (taylor_matrix m i)) (fun m => RtoC (nth m p 0%R)) with
      | None => None
      | Some x => Some (map (fun i => if i <? n_nonzero then fst (x i) else 0%R) (seq 0 n_terms))
      end
  end.

(** _taylor.py:80-89 [_get_periodic_coefficients_for_taylor_series]. *)
Definition get_periodic_coefficients_for_taylor_series (solve : solve_fn) (p : list R) (n_terms : option nat)
  : option (list R) :=
  match get_cos_coefficients_for_taylor_series solve p n_terms with
  | None => None
  | Some c => Some (c ++ rev (tl c))
  end.

(** A list of real numbers as an array. *)
Definition real_array (l : list R) : ndarray :=
  {| ashape := [length l]; aflat := fun i => RtoC (nth i l 0%R) |}.

(** _taylor.py:92-119 [get_periodic_noise_operators_explicit_taylor_expansion]. *)
Definition get_periodic_noise_operators_explicit_taylor_expansion (solve : solve_fn) (b : basis) (p : list R)
    (n_terms : option nat) : option noise_operators :=
  let n_terms := match n_terms with Some n => n | None => bsize b / 2 end in
  match get_periodic_operators_for_real_isotropic_noise true b (Some n_terms) None,
        get_periodic_coefficients_for_taylor_series solve p None with
  | Some L, Some c => Some {| nops := L; neig := real_array (map (fun x => (x * INR (bsize b))%R) c) |}
  | _, _ => None
  end.

(** _taylor.py:122-135 [_get_linear_operators_for_noise].  Row [basis.n // 2] of an empty
    matrix raises. *)
Definition get_linear_operators_for_noise (b : basis) (n_terms : option nat) : option operator_list :=
  let n_terms := match n_terms with Some n => n | None => bsize b end in
  if bsize b =? 0 then None
  else
    let displacement j := (2 * PI * IZR (displacements_matrix_nx (bsize b) (bsize b / 2) j) / INR (bsize b))%R in
    Some {| lbasis := BFund n_terms; lrow := b; lcol := b;
            ldata := array2 n_terms (bsize b) (fun n j => RtoC (displacement j ^ n)%R) |}.

(** _taylor.py:138-158 [get_linear_noise_operators_explicit_taylor_expansion]. *)
Definition get_linear_noise_operators_explicit_taylor_expansion (b : basis) (p : list R) (n_terms : option nat)
  : option noise_operators :=
  match get_linear_operators_for_noise b n_terms with
  | Some L => Some {| nops := L; neig := real_array p |}
  | None => None
  end.

(** gaussian.py:408-415 [_get_explicit_taylor_coefficients_gaussian]. *)
Definition get_explicit_taylor_coefficients_gaussian (a lambda : R) (n_terms : nat) : list R :=
  map (fun i => (a ^ 2 / INR (fact i) * (-1 / (2 * lambda ^ 2)) ^ i)%R) (seq 0 n_terms).

(** gaussian.py:418-450 [get_periodic_gaussian_operators_explicit_taylor]; the converted basis
    is the fundamental position basis. *)
Definition get_periodic_gaussian_operators_explicit_taylor (solve : solve_fn) (b : basis) (dx a lambda : R)
    (n_terms : option nat) : option noise_operators :=
  let bx := BFund (bfund b) in
  let n_terms := match n_terms with Some n => n | None => bsize bx / 2 end in
  get_periodic_noise_operators_explicit_taylor_expansion solve bx
    (get_explicit_taylor_coefficients_gaussian a (2 * PI * lambda / dx)%R n_terms) (Some n_terms).

(** gaussian.py:453-494 [get_linear_gaussian_noise_operators_explicit_taylor]. *)
Definition get_linear_gaussian_noise_operators_explicit_taylor (b : basis) (dx a lambda : R) (n_terms : option nat)
  : option noise_operators :=
  let bx := BFund (bfund b) in
  let n_terms := match n_terms with Some n => n | None => bsize b end in
  get_linear_noise_operators_explicit_taylor_expansion bx
    (get_explicit_taylor_coefficients_gaussian a (2 * PI * lambda / dx)%R n_terms) (Some n_terms).

(** gaussian.py:497-527 [get_periodic_gaussian_operators_explicit_taylor_stacked]; [axes] holds the
    fundamental length and the norm of the lattice vector of each axis. *)
Fixpoint gaussian_axis_operators (solve : solve_fn) (axes : list (nat * R)) (a lambda : R) (sizes : list (option nat))
  : option (list noise_operators) :=
  match axes, sizes with
  | [], _ => Some []
  | (n, dx) :: axes, n_terms :: sizes =>
      match get_periodic_gaussian_operators_explicit_taylor solve (BFund n) dx a lambda n_terms,
            gaussian_axis_operators solve axes a lambda sizes with
      | Some o, Some r => Some (o :: r)
      | _, _ => None
      end
  | _ :: _, [] => None
  end.
Definition get_periodic_gaussian_operators_explicit_taylor_stacked (solve : solve_fn) (axes : list (nat * R)) (a lambda : R)
    (shape : option (list nat)) : option noise_operators :=
  match gaussian_axis_operators solve axes a lambda
          (match shape with Some s => map Some s | None => repeat None (length axes) end) with
  | None => None
  | Some l => get_diagonal_noise_operators_from_axis l
  end.

(** lorentzian.py:101-108 [_get_explicit_taylor_coefficients_lorentzian]. *)
Definition get_explicit_taylor_coefficients_lorentzian (a lambda : R) (n_terms : nat) : list R :=
  map (fun i => (a ^ 2 * (-1 / lambda ^ 2) ^ i)%R) (seq 0 (n_terms + 1)).

(** lorentzian.py:111-152 [get_lorentzian_operators_explicit_taylor] for a basis with one axis
    of [n] fundamental points. *)
Definition get_lorentzian_operators_explicit_taylor (solve : solve_fn) (a lambda dx : R) (n : nat)
    (n_terms : option nat) : option noise_operators :=
  let bx := BTuple [BFund n] in
  let n_terms := match n_terms with Some n => n | None => n / 2 end in
  get_periodic_noise_operators_explicit_taylor_expansion solve bx
    (get_explicit_taylor_coefficients_lorentzian a (2 * PI * lambda / dx)%R n_terms) (Some n_terms).

(** [np.polynomial.Chebyshev.fit(x, y, deg, w=w, domain=(-1, 1)).coef] for [n] samples. *)
Definition fit_fn := nat -> (nat -> R) -> (nat -> C) -> nat -> (nat -> R) -> (nat -> C).

(** _taylor.py:161-211 [get_periodic_noise_operators_real_isotropic_taylor_expansion] for a
    kernel whose basis has [bfund b] fundamental points; the fit raises when the data has another
    length. *)
Definition get_periodic_noise_operators_real_isotropic_taylor_expansion (fit : fit_fn) (b : basis) (k : ndarray)
    (n : option nat) : option noise_operators :=
  let bx := BFund (bfund b) in
  let n_states := bsize bx in
  let n := match n with Some n => n | None => (n_states + 1) / 2 end in
  match pad_ft_1d 0%R (2 * n + 1) n_states (fun _ => 1%R), ashape k with
  | Some weight, [size] =>
      if size =? n_states then
        let points j := cos (INR j * (2 * PI / INR n_states)) in
        let coef := fit n_states points (aflat k) n weight in
        match get_periodic_operators_for_real_isotropic_noise true bx (Some (n + 1)) None with
        | Some L =>
            Some {| nops := L;
                    neig := {| ashape := [(n + 1) + n];
                               aflat := fun a => Cmult (if a <? n + 1 then coef a else coef (n - (a - (n + 1))))
                                                  (RtoC (INR n_states)) |} |}
        | None => None
        end
      else None
  | _, _ => None
  end.

(** _taylor.py:214-245 [get_periodic_noise_operators_real_isotropic_stacked_taylor_expansion] for a
    kernel that is stored in a position basis of the given shape (kernel/solve/_util.py:45-52). *)
Fixpoint taylor_axis_operators (fit : fit_fn) (l : list ndarray) (sizes : list (option nat))
  : option (list noise_operators) :=
  match l, sizes with
  | [], _ => Some []
  | k :: l, n :: sizes =>
      match get_periodic_noise_operators_real_isotropic_taylor_expansion fit (BFund (nprod (ashape k))) k n,
            taylor_axis_operators fit l sizes with
      | Some o, Some r => Some (o :: r)
      | _, _ => None
      end
  | _ :: _, [] => None
  end.
Definition get_periodic_noise_operators_real_isotropic_stacked_taylor_expansion (fit : fit_fn) (shape : list nat)
    (k : ndarray) (n_shape : option (list (option nat))) : option noise_operators :=
  match as_axis_kernel_from_isotropic shape k with
  | None => None
  | Some l =>
      match taylor_axis_operators fit l (match n_shape with Some s => s | None => repeat None (length l) end) with
      | None => None
      | Some os => get_diagonal_noise_operators_from_axis os
      end
  end.
