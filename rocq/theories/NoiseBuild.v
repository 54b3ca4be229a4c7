(** Model of the noise operators built for a Hamiltonian (kernel/gaussian.py) and of what
    kernel/kernel.py and kernel/solve build from other functions.  No proofs here. *)
From Coq Require Import Reals.
From Verif Require Import ZLib Csum DFT NumPy Index Basis Operator Kernel KernelConvert Correlation Taylor.
Local Open Scope nat_scope.

(** gaussian.py:341-372 [get_temperature_corrected_gaussian_noise_operators] for a Hamiltonian in
    a stacked basis on the lattice [delta]; [kt] is Boltzmann * temperature.  A basis which is
    not stacked has no volume (AttributeError). *)
Definition get_temperature_corrected_gaussian_noise_operators (same : basis -> basis -> bool) argsort (h : operator)
    (delta : nat -> nat -> R) (a lambda kt : R) (truncation : option (list Z)) : option noise_operators :=
  match orow h with
  | BTuple axes =>
      match get_gaussian_noise_operators_periodic argsort delta (map bfund axes) a lambda truncation with
      | None => None
      | Some operators =>
          match get_temperature_corrected_diagonal_noise_operators same h operators kt with
          | Some corrected => convert_noise_operator_list_to_basis same corrected (orow h) (ocol h)
          | None => None
          end
      end
  | _ => None
  end.

(** gaussian.py:375-405 [get_temperature_corrected_effective_gaussian_noise_operators];
    [lambda_factor] keeps its default 2 sqrt(2). *)
Definition get_temperature_corrected_effective_gaussian_noise_operators (same : basis -> basis -> bool) argsort
    (boltzmann hbar : R) (h : operator) (delta : nat -> nat -> R) (eta temperature : R) (truncation : option (list Z))
  : option noise_operators :=
  match orow h with
  | BTuple axes =>
      match get_effective_gaussian_parameters boltzmann hbar delta (length axes) eta temperature (2 * sqrt 2)%R with
      | None => None
      | Some (a, lambda) =>
          get_temperature_corrected_gaussian_noise_operators same argsort h delta a lambda (boltzmann * temperature)%R truncation
      end
  | _ => None
  end.

(** gaussian.py:530-560 [get_linear_gaussian_operators_explicit_taylor_stacked]; [axes] holds the
    fundamental length and the norm of the lattice vector of each axis. *)
Fixpoint linear_axis_operators (axes : list (nat * R)) (a lambda : R) (sizes : list (option nat)) : option (list noise_operators) :=
  match axes, sizes with
  | [], _ => Some []
  | (n, dx) :: axes, n_terms :: sizes =>
      match get_linear_gaussian_noise_operators_explicit_taylor (BFund n) dx a lambda n_terms,
            linear_axis_operators axes a lambda sizes with
      | Some o, Some r => Some (o :: r)
      | _, _ => None
      end
  | _ :: _, [] => None
  end.
Definition get_linear_gaussian_operators_explicit_taylor_stacked (axes : list (nat * R)) (a lambda : R) (shape : option (list nat))
  : option noise_operators :=
  match linear_axis_operators axes a lambda
          (match shape with Some s => map Some s | None => repeat None (length axes) end) with
  | None => None
  | Some l => get_diagonal_noise_operators_from_axis l
  end.

(** kernel/kernel.py:561-586 [get_isotropic_kernel_from_operators]. *)
Definition get_isotropic_kernel_from_operators (assert_isotropic : bool) (o : noise_operators) : option ndarray :=
  match as_diagonal_noise_operators_from_full o with
  | Some d => get_isotropic_kernel_from_diagonal_operators assert_isotropic d
  | None => None
  end.

(** kernel/solve/_util.py:26-42 [_convert_isotropic_kernel_to_basis] is
    [convert_isotropic_kernel_to_basis] of KernelConvert.v line by line; 45-52
    [get_fundamental_axis_kernels_from_isotropic] for a kernel in a stacked basis. *)
Definition get_fundamental_axis_kernels_from_isotropic (same : basis -> basis -> bool) (axes : list basis) (k : ndarray)
  : option (list ndarray) :=
  match convert_isotropic_kernel_to_basis same (BTuple axes) k (BTuple (map (fun b => BFund (bfund b)) axes)) with
  | None => None
  | Some converted => as_axis_kernel_from_isotropic (map bfund axes) converted
  end.
