(** Conversion of noise kernels and noise operators between bases
    (kernel/conversion.py).  The two functions for full operators are in Kernel.v. *)
From Coq Require Import Reals.
From Verif Require Import ZLib Csum DFT NumPy Interp Index Basis Operator Kernel.
Local Open Scope nat_scope.

(** operator/conversion.py:106-121 [convert_diagonal_operator_list_to_basis]. *)
Definition convert_diagonal_operator_list_to_basis (same : basis -> basis -> bool) (o : operator_list)
    (row col : basis) : option operator_list :=
  match diagonal_operator_list_as_full o with
  | Some full => convert_operator_list_to_basis same full row col
  | None => None
  end.

(** kernel/conversion.py:57-77 [convert_diagonal_noise_operator_list_to_basis]. *)
Definition convert_diagonal_noise_operator_list_to_basis (same : basis -> basis -> bool)
    (o : noise_operators) (row col : basis) : option noise_operators :=
  match convert_diagonal_operator_list_to_basis same (nops o) row col with
  | Some L => Some {| nops := L; neig := neig o |}
  | None => None
  end.

(** 100-117 [convert_diagonal_kernel_to_basis]. *)
Definition convert_diagonal_kernel_to_basis (same : basis -> basis -> bool)
    (eigh : nat -> (nat -> nat -> C) -> eigh_result) (b0 b1 : basis) (k : ndarray) (row col : basis)
  : option ndarray :=
  match get_periodic_noise_operators_diagonal_eigenvalue eigh b0 b1 k with
  | None => None
  | Some o =>
      match convert_diagonal_noise_operator_list_to_basis same o row col with
      | None => None
      | Some c => get_full_kernel_from_operators c
      end
  end.

(** 120-136 [convert_isotropic_kernel_to_basis]: the data are converted as a vector.
    The data of a kernel in basis [b] are an array of shape [bsize b]; other shapes,
    for which swapaxes or the conversion would raise, are refused. *)
Definition convert_isotropic_kernel_to_basis (same : basis -> basis -> bool) (b : basis) (k : ndarray)
    (b' : basis) : option ndarray :=
  match ashape k with
  | [n] => if n =? bsize b then
             match convert same b b' with
             | Some F => Some {| ashape := [bsize b']; aflat := F (aflat k) |}
             | None => None
             end
           else None
  | _ => None
  end.
