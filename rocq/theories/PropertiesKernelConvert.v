(** C80: conversion of noise kernels between bases. *)
From Coq Require Import Reals.
From Verif Require Import ZLib Csum DFT NumPy Index SpecBasis Basis BasisProofs BasisProofs2 Operator SpecOperator
  OperatorProofs2 Kernel SpecKernel KernelProofs5 KernelFacts KernelConvert SpecKernelConvert
  KernelConvertProofs KernelConvertProofs2 KernelConvertFacts.
Local Open Scope R_scope.
Local Open Scope C_scope.

Theorem C80_kernel_conversion :
  forall same eigh b0 b1 row col n K, identity_test same -> bsize b0 = n -> bsize b1 = n ->
  bwf b0 -> bwf b1 -> bwf row -> bwf col -> explicit_orthonormal b0 -> explicit_orthonormal b1 ->
  compatible b0 row -> compatible b1 col -> nprod (ashape K) = (n * n * n * n)%nat ->
  (forall A, mat_eq (n * n) A (fun p q => entry4 n n n K (p mod n) (p / n) (q / n) (q mod n)) ->
     eigendecomposition (n * n) A (eigh (n * n)%nat A)) ->
  exists R, convert_kernel_to_basis same eigh b0 b1 K row col = Some R /\
    ashape R = [(bsize col * bsize row * bsize row * bsize col)%nat] /\
    forall i j k l, (i < bsize col)%nat -> (j < bsize row)%nat -> (k < bsize row)%nat -> (l < bsize col)%nat ->
      entry4 (bsize row) (bsize row) (bsize col) R i j k l =
      kernel_in_basis b0 b1 row col (entry4 n n n K) i j k l.
Proof. exact (fun same eigh b0 b1 row col n K Hs => kernel_conversion same Hs eigh b0 b1 row col n K). Qed.
Print Assumptions C80_kernel_conversion.
Example C80_case :
  nprod (ashape (unit_kernel4 2)) = (2 * 2 * 2 * 2)%nat /\
  (forall A, mat_eq (2 * 2) A (fun p q => entry4 2 2 2 (unit_kernel4 2) (p mod 2) (p / 2) (q / 2) (q mod 2)) ->
     eigendecomposition (2 * 2) A (diagonal_eigh (2 * 2) A)) /\
  compatible (BFund 2) (BFundT 2) /\ compatible (BFundT 2) (BFund 2) /\ complete (BFundT 2) /\ complete (BFund 2).
Proof. split; [reflexivity|exact unit_kernel4_case]. Qed.

(** The kernel of converted operators. *)
Theorem C80_converted_operators :
  forall same o row col, identity_test same -> noise_wf o ->
  bwf (lrow (nops o)) -> bwf (lcol (nops o)) -> bwf row -> bwf col ->
  explicit_orthonormal (lrow (nops o)) -> explicit_orthonormal (lcol (nops o)) ->
  compatible (lrow (nops o)) row -> compatible (lcol (nops o)) col ->
  exists c, convert_noise_operator_list_to_basis same o row col = Some c /\ noise_wf c /\
    noise_count c = noise_count o /\ lrow (nops c) = row /\ lcol (nops c) = col /\
    (forall a, eigenvalue c a = eigenvalue o a) /\
    forall i j k l, (i < bsize col)%nat -> (j < bsize row)%nat -> (k < bsize row)%nat -> (l < bsize col)%nat ->
      kernel_of c i j k l =
      kernel_in_basis (lrow (nops o)) (lcol (nops o)) row col (kernel_of o) i j k l.
Proof. exact (fun same o row col Hs => convert_noise_kernel same Hs o row col). Qed.
Print Assumptions C80_converted_operators.

(** Whatever operators a kernel was made from, converting them converts the kernel. *)
Theorem C80_any_operators :
  forall same eigh b0 b1 row col n K, identity_test same -> bsize b0 = n -> bsize b1 = n ->
  bwf b0 -> bwf b1 -> bwf row -> bwf col -> explicit_orthonormal b0 -> explicit_orthonormal b1 ->
  compatible b0 row -> compatible b1 col -> nprod (ashape K) = (n * n * n * n)%nat ->
  (forall A, mat_eq (n * n) A (fun p q => entry4 n n n K (p mod n) (p / n) (q / n) (q mod n)) ->
     eigendecomposition (n * n) A (eigh (n * n)%nat A)) ->
  forall o, noise_wf o -> lrow (nops o) = b0 -> lcol (nops o) = b1 -> get_full_kernel_from_operators o = Some K ->
  exists c R, convert_noise_operator_list_to_basis same o row col = Some c /\
    get_full_kernel_from_operators c = Some R /\
    exists R', convert_kernel_to_basis same eigh b0 b1 K row col = Some R' /\ ashape R' = ashape R /\
      forall t, (t < bsize col * bsize row * bsize row * bsize col)%nat -> aflat R' t = aflat R t.
Proof. exact (fun same eigh b0 b1 row col n K Hs => kernel_conversion_operators same Hs eigh b0 b1 row col n K). Qed.
Print Assumptions C80_any_operators.

Theorem C80_same_basis :
  forall same eigh b0 b1 n K, identity_test same -> bsize b0 = n -> bsize b1 = n -> bwf b0 -> bwf b1 ->
  explicit_orthonormal b0 -> explicit_orthonormal b1 -> nprod (ashape K) = (n * n * n * n)%nat ->
  (forall A, mat_eq (n * n) A (fun p q => entry4 n n n K (p mod n) (p / n) (q / n) (q mod n)) ->
     eigendecomposition (n * n) A (eigh (n * n)%nat A)) ->
  exists R, convert_kernel_to_basis same eigh b0 b1 K b0 b1 = Some R /\
    ashape R = [(n * n * n * n)%nat] /\ forall t, (t < n * n * n * n)%nat -> aflat R t = aflat K t.
Proof. exact (fun same eigh b0 b1 n K Hs => kernel_same_basis same Hs eigh b0 b1 n K). Qed.
Print Assumptions C80_same_basis.

(** A complete basis in between changes nothing. *)
Theorem C80_intermediate_basis :
  forall same eigh eigh' b0 b1 n K row col m b2 b3, identity_test same ->
  bsize b0 = n -> bsize b1 = n -> bwf b0 -> bwf b1 -> explicit_orthonormal b0 -> explicit_orthonormal b1 ->
  bsize row = m -> bsize col = m -> bwf row -> bwf col -> explicit_orthonormal row -> explicit_orthonormal col ->
  complete row -> complete col -> bwf b2 -> bwf b3 ->
  compatible b0 row -> compatible b1 col -> compatible row b2 -> compatible col b3 ->
  nprod (ashape K) = (n * n * n * n)%nat ->
  (forall A, mat_eq (n * n) A (fun p q => entry4 n n n K (p mod n) (p / n) (q / n) (q mod n)) ->
     eigendecomposition (n * n) A (eigh (n * n)%nat A)) ->
  (forall R A, convert_kernel_to_basis same eigh b0 b1 K row col = Some R ->
     mat_eq (m * m) A (fun p q => entry4 m m m R (p mod m) (p / m) (q / m) (q mod m)) ->
     eigendecomposition (m * m) A (eigh' (m * m)%nat A)) ->
  exists R R', convert_kernel_to_basis same eigh b0 b1 K row col = Some R /\
    convert_kernel_to_basis same eigh' row col R b2 b3 = Some R' /\
    ashape R' = [(bsize b3 * bsize b2 * bsize b2 * bsize b3)%nat] /\
    forall i j k l, (i < bsize b3)%nat -> (j < bsize b2)%nat -> (k < bsize b2)%nat -> (l < bsize b3)%nat ->
      entry4 (bsize b2) (bsize b2) (bsize b3) R' i j k l = kernel_in_basis b0 b1 b2 b3 (entry4 n n n K) i j k l.
Proof. exact (fun same eigh eigh' b0 b1 n K row col m b2 b3 Hs =>
  kernel_intermediate same Hs eigh eigh' b0 b1 n K row col m b2 b3). Qed.
Print Assumptions C80_intermediate_basis.

(** In particular a kernel taken to a complete basis and back is unchanged. *)
Theorem C80_round_trip :
  forall same eigh eigh' b0 b1 n K row col m, identity_test same ->
  bsize b0 = n -> bsize b1 = n -> bwf b0 -> bwf b1 -> explicit_orthonormal b0 -> explicit_orthonormal b1 ->
  bsize row = m -> bsize col = m -> bwf row -> bwf col -> explicit_orthonormal row -> explicit_orthonormal col ->
  complete row -> complete col ->
  compatible b0 row -> compatible b1 col -> compatible row b0 -> compatible col b1 ->
  nprod (ashape K) = (n * n * n * n)%nat ->
  (forall A, mat_eq (n * n) A (fun p q => entry4 n n n K (p mod n) (p / n) (q / n) (q mod n)) ->
     eigendecomposition (n * n) A (eigh (n * n)%nat A)) ->
  (forall R A, convert_kernel_to_basis same eigh b0 b1 K row col = Some R ->
     mat_eq (m * m) A (fun p q => entry4 m m m R (p mod m) (p / m) (q / m) (q mod m)) ->
     eigendecomposition (m * m) A (eigh' (m * m)%nat A)) ->
  exists R R', convert_kernel_to_basis same eigh b0 b1 K row col = Some R /\
    convert_kernel_to_basis same eigh' row col R b0 b1 = Some R' /\ ashape R' = [(n * n * n * n)%nat] /\
    forall i j k l, (i < n)%nat -> (j < n)%nat -> (k < n)%nat -> (l < n)%nat ->
      entry4 n n n R' i j k l = entry4 n n n K i j k l.
Proof. exact kernel_round_trip. Qed.
Print Assumptions C80_round_trip.

Theorem C80_positive :
  forall same eigh b0 b1 row col n K, identity_test same ->
  bsize b0 = n -> bsize b1 = n -> bwf b0 -> bwf b1 -> bwf row -> bwf col ->
  explicit_orthonormal b0 -> explicit_orthonormal b1 -> compatible b0 row -> compatible b1 col ->
  nprod (ashape K) = (n * n * n * n)%nat ->
  (forall A, mat_eq (n * n) A (fun p q => entry4 n n n K (p mod n) (p / n) (q / n) (q mod n)) ->
     eigendecomposition (n * n) A (eigh (n * n)%nat A)) ->
  positive_kernel n n (entry4 n n n K) ->
  exists R, convert_kernel_to_basis same eigh b0 b1 K row col = Some R /\
    positive_kernel (bsize row) (bsize col) (entry4 (bsize row) (bsize row) (bsize col) R).
Proof. exact kernel_conversion_positive. Qed.
Print Assumptions C80_positive.

Theorem C80_diagonal_conversion :
  forall same eigh b0 b1 row col n K, identity_test same -> bsize b0 = n -> bsize b1 = n ->
  bwf b0 -> bwf b1 -> bwf row -> bwf col ->
  explicit_orthonormal b0 -> explicit_orthonormal b1 -> compatible b0 row -> compatible b1 col ->
  nprod (ashape K) = (n * n)%nat ->
  (forall A, mat_eq n A (entry2 n K) -> eigendecomposition n A (eigh n A)) ->
  exists R, convert_diagonal_kernel_to_basis same eigh b0 b1 K row col = Some R /\
    ashape R = [(bsize col * bsize row * bsize row * bsize col)%nat] /\
    forall i j k l, (i < bsize col)%nat -> (j < bsize row)%nat -> (k < bsize row)%nat -> (l < bsize col)%nat ->
      entry4 (bsize row) (bsize row) (bsize col) R i j k l =
      diagonal_kernel_in_basis b0 b1 row col (entry2 n K) i j k l.
Proof. exact (fun same eigh b0 b1 row col n K Hs => diagonal_kernel_conversion same Hs eigh b0 b1 row col n K). Qed.
Print Assumptions C80_diagonal_conversion.
Example C80_diagonal_case : nprod (ashape (unit_kernel2 3)) = (3 * 3)%nat /\
  (forall A, mat_eq 3 A (entry2 3 (unit_kernel2 3)) -> eigendecomposition 3 A (diagonal_eigh 3 A)).
Proof. exact unit_kernel2_case. Qed.

(** A diagonal kernel is converted like the full kernel it stands for. *)
Theorem C80_diagonal_as_full :
  forall b0 b1 row col D, bsize b1 = bsize b0 -> forall i j k l,
  kernel_in_basis b0 b1 row col (fun p q s t => cdelta p q * cdelta s t * D p s) i j k l =
  diagonal_kernel_in_basis b0 b1 row col D i j k l.
Proof. exact diagonal_in_basis. Qed.
Print Assumptions C80_diagonal_as_full.

Theorem C80_diagonal_rectangular_raises :
  forall same eigh b0 b1 K row col, bwf b0 -> bsize b0 <> bsize b1 ->
  convert_diagonal_kernel_to_basis same eigh b0 b1 K row col = None.
Proof. exact diagonal_rectangular_raises. Qed.
Print Assumptions C80_diagonal_rectangular_raises.
Example C80_rectangular_case : bwf (BFund 2) /\ bsize (BFund 2) <> bsize (BFund 3).
Proof. split; [repeat constructor|discriminate]. Qed.

(** With bases of different size not even the conversion to the same bases keeps the kernel. *)
Theorem C80_rectangular_refuted :
  forall same, identity_test same ->
  exists m R, kernel_matrix (BFund 2) (BFund 3) rect_kernel = Some m /\
    eigendecomposition 6 (at2 m) (rect_eigh 6%nat (at2 m)) /\
    convert_kernel_to_basis same rect_eigh (BFund 2) (BFund 3) rect_kernel (BFund 2) (BFund 3) = Some R /\
    ashape R = ashape rect_kernel /\ aflat R 8 <> aflat rect_kernel 8.
Proof. exact rectangular_same_basis. Qed.
Print Assumptions C80_rectangular_refuted.

Theorem C80_isotropic_same_basis :
  forall same b k, identity_test same -> bwf b -> explicit_orthonormal b -> ashape k = [bsize b] ->
  exists k', convert_isotropic_kernel_to_basis same b k b = Some k' /\ ashape k' = ashape k /\
    forall i, (i < bsize b)%nat -> aflat k' i = aflat k i.
Proof. exact isotropic_same_basis. Qed.
Print Assumptions C80_isotropic_same_basis.
Example C80_isotropic_case : identity_test (fun _ _ => false) /\ bwf (BFund 2) /\ explicit_orthonormal (BFund 2) /\
  ashape point_kernel = [bsize (BFund 2)].
Proof. split; [intros a b H; discriminate H|]. repeat split. repeat constructor. Qed.

(** Converting an isotropic kernel to momentum states does not give the kernel in that basis. *)
Theorem C80_isotropic_refuted :
  forall same, identity_test same ->
  let D := as_diagonal_kernel_from_isotropic 2 point_kernel in
  (forall A, mat_eq 2 A (entry2 2 D) -> eigendecomposition 2 A (diagonal_eigh 2 A)) /\
  exists k' A B, convert_isotropic_kernel_to_basis same (BFund 2) point_kernel (BFundT 2) = Some k' /\
    as_full_kernel_from_diagonal 2 2 (as_diagonal_kernel_from_isotropic 2 k') = Some A /\
    convert_diagonal_kernel_to_basis same diagonal_eigh (BFund 2) (BFund 2) D (BFundT 2) (BFundT 2) = Some B /\
    ashape A = ashape B /\ aflat A 0 = isqrt 2 /\ aflat B 0 = isqrt 2 * isqrt 2 /\ aflat A 0 <> aflat B 0.
Proof. exact isotropic_not_converted. Qed.
Print Assumptions C80_isotropic_refuted.
