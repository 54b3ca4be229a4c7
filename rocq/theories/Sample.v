(** Model of kernel/sample.py.  No proofs here.  The two calls of rng.standard_normal are
    arguments: [re i j] and [im i j] are what they returned for sample [i] and operator [j].
    Floating point is replaced by exact real arithmetic; [hbar] is an argument. *)
From Coq Require Import Reals.
From Verif Require Import ZLib Csum DFT NumPy Interp Index Basis Operator Kernel.
Local Open Scope nat_scope.

(** [np.lib.scimath.sqrt]: the principal square root, also of negative numbers. *)
Definition scimath_sqrt (z : C) : C :=
  (sqrt ((Cmod z + fst z) / 2),
   (if Rle_dec 0 (snd z) then 1 else -1) * sqrt ((Cmod z - fst z) / 2))%R.

(** sample.py:51-54 and 151-154 [factors]. *)
Definition noise_factor (re im : nat -> nat -> R) (i j : nat) : C :=
  Cdiv (Cplus (RtoC (re i j)) (Cmult Ci (RtoC (im i j)))) (RtoC (sqrt 2)).

(** One term [factors[i, j] * sqrt(eigenvalue[j] * hbar) * data[j, k]] of the two einsums,
    [e] and [c] being the lengths of the eigenvalues and of the other two operands along j. *)
Definition noise_term (hbar : R) (re im : nat -> nat -> R) (eig : ndarray) (x : ndarray) (e c i j k : nat) : C :=
  Cmult (Cmult (noise_factor re im i (einsum_index c j))
               (scimath_sqrt (Cmult (aflat eig (einsum_index e j)) (RtoC hbar))))
        (at2 x (einsum_index c j) k).

(** sample.py:35-69 [sample_noise_from_diagonal_operators_split]: einsum "ij,j,jk->jik". *)
Definition sample_noise_from_diagonal_operators_split (hbar : R) (re im : nat -> nat -> R) (o : noise_operators)
    (n_samples : nat) : option operator_list :=
  let L := nops o in
  let n_operators := bsize (lbasis L) in
  match reshape_rows (ldata L) n_operators, ashape (neig o) with
  | Some x, [e] =>
      match einsum_dim e n_operators with
      | None => None
      | Some count =>
          let n := nth 1 (ashape x) 0 in
          Some {| lbasis := BTuple [lbasis L; BFund n_samples]; lrow := lrow L; lcol := lcol L;
                  ldata := ravel_array (array3 count n_samples n
                    (fun j i k => noise_term hbar re im (neig o) x e n_operators i j k)) |}
      end
  | _, _ => None
  end.

(** [split["data"].reshape( *split["basis"][0].shape, -1)] for a list basis of two factors. *)
Definition reshape_split (L : operator_list) : option (basis * nat * nat * nat * (nat -> nat -> nat -> C)) :=
  match lbasis L with
  | BTuple [b0; b3] =>
      match reshape_rows (ldata L) (bsize b0 * bsize b3) with
      | None => None
      | Some a =>
          let n := nth 1 (ashape a) 0 in
          Some (b3, bsize b0, bsize b3, n, fun j i k => aflat a ((j * bsize b3 + i) * n + k))
      end
  | _ => None
  end.

(** sample.py:72-90 [diagonal_operator_list_from_diagonal_split]. *)
Definition diagonal_operator_list_from_diagonal_split (L : operator_list) : option operator_list :=
  match reshape_split L with
  | None => None
  | Some (b3, c, s, n, a) =>
      Some {| lbasis := b3; lrow := lrow L; lcol := lcol L;
              ldata := ravel_array (array2 s n (fun i k => csum (fun j => a j i k) c)) |}
  end.

(** sample.py:93-113 [get_diagonal_split_noise_components]. *)
Definition get_diagonal_split_noise_components (L : operator_list) : option (list operator_list) :=
  match reshape_split L with
  | None => None
  | Some (b3, c, s, n, a) =>
      Some (map (fun j => {| lbasis := b3; lrow := lrow L; lcol := lcol L;
                             ldata := ravel_array (array2 s n (fun i k => a j i k)) |}) (seq 0 c))
  end.

(** sample.py:116-131 [sample_noise_from_diagonal_operators]. *)
Definition sample_noise_from_diagonal_operators (hbar : R) (re im : nat -> nat -> R) (o : noise_operators)
    (n_samples : nat) : option operator_list :=
  match sample_noise_from_diagonal_operators_split hbar re im o n_samples with
  | None => None
  | Some split => diagonal_operator_list_from_diagonal_split split
  end.

(** sample.py:134-165 [sample_noise_from_operators]: einsum "ij,j,jk->ik". *)
Definition sample_noise_from_operators (hbar : R) (re im : nat -> nat -> R) (o : noise_operators)
    (n_samples : nat) : option operator_list :=
  let L := nops o in
  let n_operators := bsize (lbasis L) in
  match reshape_rows (ldata L) n_operators, ashape (neig o) with
  | Some x, [e] =>
      match einsum_dim e n_operators with
      | None => None
      | Some count =>
          let n := nth 1 (ashape x) 0 in
          Some {| lbasis := BFund n_samples; lrow := lrow L; lcol := lcol L;
                  ldata := ravel_array (array2 n_samples n
                    (fun i k => csum (fun j => noise_term hbar re im (neig o) x e n_operators i j k) count)) |}
      end
  | _, _ => None
  end.

(** sample.py:168-190 [sample_noise_from_diagonal_kernel] for a kernel with basis
    ((b0, b1), (b0, b1)); [argsort] and [eigh] are numpy's. *)
Definition sample_noise_from_diagonal_kernel argsort eigh (hbar : R) (re im : nat -> nat -> R) (b0 b1 : basis)
    (k : ndarray) (n_samples : nat) (truncation : option (list Z)) : option operator_list :=
  match get_periodic_noise_operators_diagonal_eigenvalue eigh b0 b1 k with
  | None => None
  | Some o =>
      let truncation := match truncation with
                        | Some t => t
                        | None => map Z.of_nat (seq 0 (bsize (lbasis (nops o))))
                        end in
      match truncate_diagonal_noise_operator_list argsort o truncation with
      | None => None
      | Some t => sample_noise_from_diagonal_operators hbar re im t n_samples
      end
  end.
