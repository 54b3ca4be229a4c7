(** Model of kernel/kernel.py, kernel/build.py, kernel/conversion.py,
    kernel/solve/_eigenvalue.py and kernel/solve/_fft.py.  No proofs here.

    Kernels are passed as their data array together with the sizes (or shapes) of
    the bases in their "basis" entry; the basis objects themselves are only passed
    along by the code.  Floating point is replaced by exact real arithmetic, the
    numpy assert_allclose / assert_array_almost_equal checks by exact equality. *)
From Coq Require Import Reals.
From Verif Require Import ZLib Csum DFT NumPy Interp Index Basis Operator.
Local Open Scope nat_scope.

(** Arrays with four axes. *)
Definition array4 (n0 n1 n2 n3 : nat) (f : nat -> nat -> nat -> nat -> C) : ndarray :=
  {| ashape := [n0; n1; n2; n3];
     aflat := fun t => f (t / n3 / n2 / n1) ((t / n3 / n2) mod n1) ((t / n3) mod n2) (t mod n3) |}.
Definition at4 (a : ndarray) (i j k l : nat) : C :=
  aflat a (((i * nth 1 (ashape a) 0 + j) * nth 2 (ashape a) 0 + k) * nth 3 (ashape a) 0 + l).
(** [a.swapaxes(1, 2)] and [a.swapaxes(0, 1)] of an array with four axes. *)
Definition swapaxes12 (a : ndarray) : ndarray :=
  let s := ashape a in
  array4 (nth 0 s 0) (nth 2 s 0) (nth 1 s 0) (nth 3 s 0) (fun i k j l => at4 a i j k l).
Definition swapaxes01 (a : ndarray) : ndarray :=
  let s := ashape a in
  array4 (nth 1 s 0) (nth 0 s 0) (nth 2 s 0) (nth 3 s 0) (fun j i k l => at4 a i j k l).

(** [a.reshape(n, -1)]. *)
Definition reshape_rows (a : ndarray) (n : nat) : option ndarray :=
  if n =? 0 then None
  else if nprod (ashape a) mod n =? 0
  then Some {| ashape := [n; nprod (ashape a) / n]; aflat := aflat a |} else None.

(** np.testing.assert_allclose on two arrays of [n] elements. *)
Definition all_equal (n : nat) (u v : nat -> C) : bool :=
  forallb (fun t => if Ceq_dec (u t) (v t) then true else false) (seq 0 n).

(** ** kernel/kernel.py: conversions between kernels *)

(** 153-172 [as_full_kernel_from_diagonal]; [n], [m] are the first lengths of the
    two basis pairs. *)
Definition as_full_kernel_from_diagonal (n m : nat) (d : ndarray) : option ndarray :=
  match np_diag d with
  | None => None
  | Some a =>
      match reshape a [n; m; n; m] with
      | None => None
      | Some b => Some (ravel_array (swapaxes12 b))
      end
  end.

(** 175-195 [as_diagonal_kernel_from_full]. *)
Definition as_diagonal_kernel_from_full (n m : nat) (k : ndarray) : option ndarray :=
  match reshape k [n; n; m; m] with
  | None => None
  | Some a =>
      match reshape (swapaxes12 a) [n * m; n * m] with
      | None => None
      | Some b =>
          match np_diag b with
          | None => None
          | Some d => Some (ravel_array d)
          end
      end
  end.

(** 198-227 [as_diagonal_kernel_from_isotropic]; [n] is the size of the basis.
    Indexing with a displacement modulo the data size never fails unless the data
    is empty. *)
Definition as_diagonal_kernel_from_isotropic (n : nat) (k : ndarray) : ndarray :=
  let size := nprod (ashape k) in
  ravel_array (array2 n n (fun i j =>
    aflat k (Z.to_nat ((nx_points n i - nx_points n j) mod Z.of_nat size)))).

(** 230-254 [as_isotropic_kernel_from_diagonal]: row 0. *)
Definition as_isotropic_kernel_from_diagonal (assert_isotropic : bool) (n : nat) (d : ndarray)
  : option ndarray :=
  match reshape d [n; n] with
  | None => None
  | Some a =>
      if n =? 0 then None
      else
        let out := select_row a 0 in
        if assert_isotropic
        then if all_equal (n * n) (aflat (as_diagonal_kernel_from_isotropic n out)) (aflat d)
             then Some out else None
        else Some out
  end.

(** 260-299 [as_diagonal_kernel_from_isotropic_stacked]; [shape] is the shape of
    the basis. *)
Definition as_diagonal_kernel_from_isotropic_stacked (shape : list nat) (k : ndarray) : option ndarray :=
  match reshape k shape with
  | None => None
  | Some a =>
      let n := nprod shape in
      let displacement i j := map (fun ax =>
        Z.to_nat ((stacked_nx_points shape ax i - stacked_nx_points shape ax j)
                  mod Z.of_nat (nth ax shape 0))) (seq 0 (length shape)) in
      Some (ravel_array (array2 n n (fun i j => aflat a (ravel shape (displacement i j)))))
  end.

(** 302-334 [as_isotropic_kernel_from_diagonal_stacked]: column 0. *)
Definition as_isotropic_kernel_from_diagonal_stacked (assert_isotropic : bool) (shape : list nat)
    (d : ndarray) : option ndarray :=
  let n := nprod shape in
  match reshape d [n; n] with
  | None => None
  | Some a =>
      if n =? 0 then None
      else
        let out := {| ashape := [n]; aflat := fun i => at2 a i 0 |} in
        if assert_isotropic
        then match as_diagonal_kernel_from_isotropic_stacked shape out with
             | None => None
             | Some d' => if all_equal (n * n) (aflat d') (aflat d) then Some out else None
             end
        else Some out
  end.

(** 343-347 [_outer_product] of one-dimensional arrays: the product of the entries,
    over the ij-meshgrid. *)
Fixpoint outer_entry (l : list ndarray) (idx : list nat) : C :=
  match l, idx with
  | a :: l, i :: idx => Cmult (aflat a i) (outer_entry l idx)
  | _, _ => RtoC 1%R
  end.
Definition outer_product (l : list ndarray) : ndarray :=
  let s := map (fun a => nprod (ashape a)) l in
  {| ashape := s; aflat := fun t => outer_entry l (unravel s t) |}.

(** 350-360 [as_isotropic_kernel_from_axis]. *)
Definition as_isotropic_kernel_from_axis (l : list ndarray) : ndarray :=
  ravel_array (outer_product (map ravel_array l)).

(** Principal argument and [z ** a] with a real exponent for complex z <> 0, as
    numpy computes it: |z|^a e^{i a arg z}. *)
Definition carg (z : C) : R :=
  if Rle_dec 0 (snd z) then acos (fst z / Cmod z)%R else (- acos (fst z / Cmod z))%R.
Definition cpower (z : C) (a : R) : C :=
  Cmult (RtoC (Rpower (Cmod z) a)) (cis (a * carg z)%R).

(** 363-382 [as_axis_kernel_from_isotropic]: the value with all other axes at 0,
    times [data[0] ** ((1 - n_axis) / n_axis)].  Nothing is returned for data[0] = 0
    and more than one axis, where numpy produces inf or nan. *)
Definition as_axis_kernel_from_isotropic (shape : list nat) (k : ndarray) : option (list ndarray) :=
  match reshape k shape with
  | None => None
  | Some a =>
      let nd := length shape in
      let prefactor := cpower (aflat k 0) ((1 - INR nd) / INR nd)%R in
      if (if Ceq_dec (aflat k 0) (RtoC 0%R) then true else false) && (1 <? nd) then None
      else Some (map (fun ax =>
        {| ashape := [nth ax shape 0];
           aflat := fun i => Cmult prefactor (aflat a (ravel shape
             (fill_slice (slice_ignoring_axes (repeat 0 (nd - 1)) [ax]) [i]))) |})
        (seq 0 nd))
  end.

(** ** kernel/kernel.py: noise operators *)

(** [EigenOperatorList], [DiagonalEigenOperatorList]: operators and their
    eigenvalues. *)
Record noise_operators := { nops : operator_list; neig : ndarray }.

(** 385-404 [as_diagonal_noise_operators_from_full], 407-426
    [as_noise_operators_from_diagonal]. *)
Definition as_diagonal_noise_operators_from_full (o : noise_operators) : option noise_operators :=
  match operator_list_as_diagonal (nops o) with
  | Some d => Some {| nops := d; neig := neig o |}
  | None => None
  end.
Definition as_noise_operators_from_diagonal (o : noise_operators) : option noise_operators :=
  match diagonal_operator_list_as_full (nops o) with
  | Some d => Some {| nops := d; neig := neig o |}
  | None => None
  end.

(** One label of np.einsum: equal lengths, or one of them 1, which is broadcast. *)
Definition einsum_dim (a b : nat) : option nat :=
  if a =? b then Some a else if a =? 1 then Some b else if b =? 1 then Some a else None.
Definition einsum_index (n i : nat) : nat := if n =? 1 then 0 else i.

(** 429-456 [get_full_kernel_from_operators]: einsum "a,aji,akl->ijkl". *)
Definition get_full_kernel_from_operators (o : noise_operators) : option ndarray :=
  let L := nops o in
  match reshape (ldata L) [bsize (lbasis L); bsize (lrow L); bsize (lcol L)], ashape (neig o) with
  | Some x, [e] =>
      match einsum_dim e (bsize (lbasis L)) with
      | None => None
      | Some count =>
          Some (ravel_array (array4 (bsize (lcol L)) (bsize (lrow L)) (bsize (lrow L)) (bsize (lcol L))
            (fun i j k l => csum (fun a =>
               let b := einsum_index (bsize (lbasis L)) a in
               Cmult (Cmult (aflat (neig o) (einsum_index e a)) (Cconj (at3 x b j i))) (at3 x b k l))
             count)))
      end
  | _, _ => None
  end.

(** 459-483 [get_diagonal_kernel_from_diagonal_operators]: einsum "a,ai,aj->ij". *)
Definition get_diagonal_kernel_from_diagonal_operators (o : noise_operators) : option ndarray :=
  let L := nops o in
  match reshape_rows (ldata L) (bsize (lbasis L)), ashape (neig o) with
  | Some x, [e] =>
      match einsum_dim e (bsize (lbasis L)) with
      | None => None
      | Some count =>
          let n := nth 1 (ashape x) 0 in
          Some (ravel_array (array2 n n
            (fun i j => csum (fun a =>
               let b := einsum_index (bsize (lbasis L)) a in
               Cmult (Cmult (aflat (neig o) (einsum_index e a)) (Cconj (at2 x b i))) (at2 x b j))
             count)))
      end
  | _, _ => None
  end.

(** 486-502 [get_diagonal_kernel_from_operators]. *)
Definition get_diagonal_kernel_from_operators (o : noise_operators) : option ndarray :=
  match as_diagonal_noise_operators_from_full o with
  | Some d => get_diagonal_kernel_from_diagonal_operators d
  | None => None
  end.

(** 505-530, 533-558: isotropic kernels of diagonal operators, [n] (or
    [shape]) the size (shape) of the row basis. *)
Definition get_isotropic_kernel_from_diagonal_operators (assert_isotropic : bool) (o : noise_operators)
  : option ndarray :=
  match get_diagonal_kernel_from_diagonal_operators o with
  | Some d => as_isotropic_kernel_from_diagonal assert_isotropic (bsize (lrow (nops o))) d
  | None => None
  end.
Definition get_isotropic_kernel_from_diagonal_operators_stacked (assert_isotropic : bool)
    (shape : list nat) (o : noise_operators) : option ndarray :=
  match get_diagonal_kernel_from_diagonal_operators o with
  | Some d => as_isotropic_kernel_from_diagonal_stacked assert_isotropic shape d
  | None => None
  end.

(** 589-629 [get_diagonal_noise_operators_from_axis]: einsum "ij,kl->ikjl", then
    ravel; eigenvalues are the outer product. *)
Fixpoint all_rows (l : list noise_operators) : option (list ndarray) :=
  match l with
  | [] => Some []
  | o :: l =>
      match reshape_rows (ldata (nops o)) (bsize (lbasis (nops o))), all_rows l with
      | Some a, Some r => Some (a :: r)
      | _, _ => None
      end
  end.
Fixpoint product_entry (l : list ndarray) (a x : list nat) : C :=
  match l, a, x with
  | d :: l, i :: a, j :: x => Cmult (at2 d i j) (product_entry l a x)
  | _, _, _ => RtoC 1%R
  end.
Definition get_diagonal_noise_operators_from_axis (l : list noise_operators) : option noise_operators :=
  match all_rows l with
  | None => None
  | Some ds =>
      let rows := map (fun d => nth 0 (ashape d) 0) ds in
      let cols := map (fun d => nth 1 (ashape d) 0) ds in
      let bx := BTuple (map (fun o => lrow (nops o)) l) in
      Some {| nops := {| lbasis := BTuple (map (fun o => lbasis (nops o)) l); lrow := bx; lcol := bx;
                         ldata := ravel_array (array2 (nprod rows) (nprod cols)
                           (fun a x => product_entry ds (unravel rows a) (unravel cols x))) |};
              neig := ravel_array (outer_product (map (fun o => ravel_array (neig o)) l)) |}
  end.

(** ** kernel/solve/_eigenvalue.py *)

(** What np.linalg.eigh returned: eigenvalues, and eigenvectors as columns. *)
Definition eigh_result := ((nat -> R) * (nat -> nat -> C))%type.

(** 46-47: the matrix handed to eigh, shape (b0.n, b1.n) of the two basis pairs. *)
Definition kernel_matrix (b0 b1 : basis) (k : ndarray) : option ndarray :=
  let r := bsize b0 in let c := bsize b1 in
  match reshape k [r; c; r; c] with
  | None => None
  | Some a => reshape (swapaxes01 a) [r * c; r * c]
  end.

(** 33-84 [get_periodic_noise_operators_eigenvalue] for a kernel with basis
    ((b0, b1), (b0, b1)).  [eigh n A] is what np.linalg.eigh returns for the n x n
    matrix A; the two assertions are left out. *)
Definition get_periodic_noise_operators_eigenvalue
    (eigh : nat -> (nat -> nat -> C) -> eigh_result) (b0 b1 : basis) (k : ndarray)
  : option noise_operators :=
  match kernel_matrix b0 b1 k with
  | None => None
  | Some m =>
      let n := bsize b0 * bsize b1 in
      let (lam, V) := eigh n (at2 m) in
      Some {| nops := {| lbasis := BFund n; lrow := b0; lcol := b1;
                         ldata := ravel_array (array2 n n (fun a t => Cconj (V t a))) |};
              neig := {| ashape := [n]; aflat := fun a => RtoC (lam a) |} |}
  end.

(** 87-140 [get_periodic_noise_operators_diagonal_eigenvalue]. *)
Definition get_periodic_noise_operators_diagonal_eigenvalue
    (eigh : nat -> (nat -> nat -> C) -> eigh_result) (b0 b1 : basis) (k : ndarray)
  : option noise_operators :=
  match reshape_rows k (bsize b0) with
  | None => None
  | Some m =>
      if nth 1 (ashape m) 0 =? bsize b0 then
        let n := bsize b0 in
        let (lam, V) := eigh n (at2 m) in
        Some {| nops := {| lbasis := BFund n; lrow := b0; lcol := b1;
                           ldata := ravel_array (array2 n n (fun a t => Cconj (V t a))) |};
                neig := {| ashape := [n]; aflat := fun a => RtoC (lam a) |} |}
      else None
  end.

(** kernel/conversion.py:34-54 [convert_noise_operator_list_to_basis] and 80-97
    [convert_kernel_to_basis]. *)
Definition convert_noise_operator_list_to_basis (same : basis -> basis -> bool) (o : noise_operators)
    (row col : basis) : option noise_operators :=
  match convert_operator_list_to_basis same (nops o) row col with
  | Some L => Some {| nops := L; neig := neig o |}
  | None => None
  end.
Definition convert_kernel_to_basis (same : basis -> basis -> bool)
    (eigh : nat -> (nat -> nat -> C) -> eigh_result) (b0 b1 : basis) (k : ndarray) (row col : basis)
  : option ndarray :=
  match get_periodic_noise_operators_eigenvalue eigh b0 b1 k with
  | None => None
  | Some o =>
      match convert_noise_operator_list_to_basis same o row col with
      | None => None
      | Some c => get_full_kernel_from_operators c
      end
  end.

(** ** kernel/solve/_fft.py *)

(** 49-62 [_assert_periodic_sample]: Python's n % 0 raises ZeroDivisionError. *)
Fixpoint periodic_sample (shape sample : list nat) : bool :=
  match shape, sample with
  | [], [] => true
  | n :: shape, s :: sample => negb (s =? 0) && (n mod s =? 0) && periodic_sample shape sample
  | _, _ => false
  end.

(** 64-90 [_get_operators_for_isotropic_noise] with n = None. *)
Definition get_operators_for_isotropic_noise (assert_periodic : bool) (b : basis) (fundamental_n : nat)
  : option operator_list :=
  if assert_periodic && negb (periodic_sample [bsize b] [fundamental_n]) then None
  else
    let k := (2 * PI / INR fundamental_n)%R in
    Some {| lbasis := BFund fundamental_n; lrow := b; lcol := b;
            ldata := ravel_array (array2 fundamental_n (bsize b)
              (fun i x => Cdiv (cis (INR i * k * IZR (nk_points (bsize b) x))%R)
                               (RtoC (sqrt (INR (bsize b)))))) |}.

(** [np.fft.ifft(v, norm="forward")]: no normalisation. *)
Definition ifft_forward (n : nat) (v : nat -> C) (a : nat) : C :=
  csum (fun z => Cmult (v z) (omega n (Z.of_nat a * Z.of_nat z))) n.

(** 92-104 [_get_noise_eigenvalues_isotropic_fft]. *)
Definition get_noise_eigenvalues_isotropic_fft (b : basis) (k : ndarray) (fundamental_n : nat)
  : option ndarray :=
  match ashape k with
  | [n] =>
      match pad_ft_1d (RtoC 0%R) n fundamental_n (aflat k) with
      | None => None
      | Some p =>
          Some {| ashape := [fundamental_n];
                  aflat := fun a => Cmult (ifft_forward fundamental_n p a)
                                     (RtoC (INR (bsize b) / INR fundamental_n)%R) |}
      end
  | _ => None
  end.

(** 107-149 [get_periodic_noise_operators_isotropic_fft]. *)
Definition get_periodic_noise_operators_isotropic_fft (assert_periodic : bool) (b : basis) (k : ndarray)
    (fundamental_n : option nat) : option noise_operators :=
  let f := match fundamental_n with Some f => f | None => bsize b end in
  match get_operators_for_isotropic_noise assert_periodic b f,
        get_noise_eigenvalues_isotropic_fft b k f with
  | Some L, Some e => Some {| nops := L; neig := e |}
  | _, _ => None
  end.

(** 152-196 [get_periodic_operators_for_real_isotropic_noise]: cosines of
    0, ..., n - 1, then sines of n - 1, ..., 1. *)
Definition get_periodic_operators_for_real_isotropic_noise (assert_periodic : bool) (b : basis)
    (n fundamental_n : option nat) : option operator_list :=
  let f := match fundamental_n with Some f => f | None => bsize b end in
  if assert_periodic && negb (periodic_sample [bsize b] [f]) then None
  else
    let n := match n with Some n => n | None => f / 2 end in
    let k := (2 * PI / INR f)%R in
    let nk x := IZR (nk_points (bsize b) x) in
    Some {| lbasis := BFund (n + (n - 1)); lrow := b; lcol := b;
            ldata := array2 (n + (n - 1)) (bsize b)
              (fun i x => Cdiv (RtoC (if i <? n then cos (INR i * nk x * k)
                                      else sin (INR (n - 1 - (i - n)) * nk x * k))%R)
                               (RtoC (sqrt (INR (bsize b))))) |}.

(** 199-252 [get_periodic_noise_operators_real_isotropic_fft]: the kernel must be
    real and the eigenvalues (after the first) symmetric. *)
Definition get_periodic_noise_operators_real_isotropic_fft (assert_periodic : bool) (b : basis)
    (k : ndarray) (n : option nat) : option noise_operators :=
  if negb (all_equal (nprod (ashape k)) (fun t => RtoC (snd (aflat k t))) (fun _ => RtoC 0%R)) then None
  else
    let f := match n with Some n => 2 * n + 1 | None => bsize b end in
    match get_periodic_operators_for_real_isotropic_noise assert_periodic b None (Some f),
          get_noise_eigenvalues_isotropic_fft b k f with
    | Some L, Some e =>
        if all_equal (f - 1) (fun t => aflat e (1 + t)) (fun t => aflat e (1 + (f - 1 - 1 - t)))
        then Some {| nops := L; neig := e |} else None
    | _, _ => None
    end.

(** 255-290 [_get_operators_for_isotropic_stacked_noise] with shape = None, for a
    basis with shape [bshape] and fundamental shape [bfund_shape]. *)
Definition get_operators_for_isotropic_stacked_noise (assert_periodic : bool) (b : basis)
    (bshape bfund_shape fundamental_shape : list nat) : option operator_list :=
  if assert_periodic && negb (periodic_sample bshape fundamental_shape) then None
  else if length fundamental_shape =? length bfund_shape then
    let k ax := (2 * PI / INR (nth ax fundamental_shape 0%nat))%R in
    Some {| lbasis := BTuple (map BFund fundamental_shape); lrow := b; lcol := b;
            ldata := ravel_array (array2 (nprod fundamental_shape) (nprod bfund_shape)
              (fun i x => Cdiv
                 (cis (rsum (fun ax => k ax * IZR (stacked_nk_points fundamental_shape ax i)
                                       * IZR (stacked_nk_points bfund_shape ax x))%R
                            (length bfund_shape)))
                 (RtoC (sqrt (INR (nprod bshape)))))) |}
  else None.

(** [np.fft.ifftn(v, norm="forward")] over all axes. *)
Fixpoint omega_nd (shape a z : list nat) : C :=
  match shape, a, z with
  | n :: shape, i :: a, j :: z => Cmult (omega n (Z.of_nat i * Z.of_nat j)) (omega_nd shape a z)
  | _, _, _ => RtoC 1%R
  end.
Definition ifftn_forward (shape : list nat) (v : list nat -> C) (a : list nat) : C :=
  csum (fun t => Cmult (v (unravel shape t)) (omega_nd shape a (unravel shape t))) (nprod shape).

(** 293-315 [_get_noise_eigenvalues_isotropic_stacked_fft]. *)
Definition get_noise_eigenvalues_isotropic_stacked_fft (bshape : list nat) (k : ndarray)
    (fundamental_shape : list nat) : option ndarray :=
  match reshape k bshape with
  | None => None
  | Some a =>
      match pad_ft_points (RtoC 0%R) bshape (stack bshape (aflat a)) fundamental_shape
              (seq 0 (length fundamental_shape)) with
      | None => None
      | Some (s, p) =>
          Some {| ashape := [nprod s];
                  aflat := fun t => Cmult (ifftn_forward s p (unravel s t))
                                     (RtoC (INR (nprod bshape) / INR (nprod s))%R) |}
      end
  end.

(** 318-366 [get_periodic_noise_operators_isotropic_stacked_fft]. *)
Definition get_periodic_noise_operators_isotropic_stacked_fft (assert_periodic : bool) (b : basis)
    (bshape bfund_shape : list nat) (k : ndarray) (fundamental_shape : option (list nat))
  : option noise_operators :=
  let f := match fundamental_shape with Some f => f | None => bshape end in
  match get_operators_for_isotropic_stacked_noise assert_periodic b bshape bfund_shape f,
        get_noise_eigenvalues_isotropic_stacked_fft bshape k f with
  | Some L, Some e => Some {| nops := L; neig := e |}
  | _, _ => None
  end.

(** 369-403 [get_periodic_noise_operators_real_isotropic_stacked_fft] for a kernel
    whose basis is a stacked fundamental position basis with axis lengths [shape]
    (for another basis kernel/solve/_util.py:45-52 converts the kernel first; not
    modelled).  [fundamental ax] is entry ax of fundamental_shape, if given. *)
Fixpoint all_some {A} (l : list (option A)) : option (list A) :=
  match l with
  | [] => Some []
  | Some a :: l => match all_some l with Some r => Some (a :: r) | None => None end
  | None :: _ => None
  end.
Definition get_periodic_noise_operators_real_isotropic_stacked_fft (assert_periodic : bool)
    (shape : list nat) (k : ndarray) (fundamental : nat -> option nat) : option noise_operators :=
  match as_axis_kernel_from_isotropic shape k with
  | None => None
  | Some kernels =>
      match all_some (map (fun ak : nat * ndarray =>
              get_periodic_noise_operators_isotropic_fft assert_periodic (BFund (nth (fst ak) shape 0))
                (snd ak) (fundamental (fst ak))) (combine (seq 0 (length kernels)) kernels)) with
      | None => None
      | Some l => get_diagonal_noise_operators_from_axis l
      end
  end.

(** ** kernel/build.py *)

(** Fancy indexing [a[args]] along the first axis with Python indices. *)
Fixpoint python_indices (n : nat) (l : list Z) : option (list nat) :=
  match l with
  | [] => Some []
  | i :: l =>
      match python_index n i, python_indices n l with
      | Some i, Some r => Some (i :: r)
      | _, _ => None
      end
  end.

(** 276-298 [truncate_diagonal_noise_operator_list] and 301-323
    [truncate_noise_operator_list].  [argsort key n] is what np.argsort returned for
    the n keys; the first uses |eigenvalue|, the second the (real) eigenvalue
    itself.  The selected positions are taken in the reversed order. *)
Definition truncate_operators (key : C -> R) (argsort : (nat -> R) -> nat -> nat -> nat)
    (o : noise_operators) (truncation : list Z) : option noise_operators :=
  let L := nops o in
  match ashape (neig o), reshape_rows (ldata L) (bsize (lbasis L)) with
  | [e], Some x =>
      match python_indices e truncation with
      | None => None
      | Some sel =>
          let order := argsort (fun a => key (aflat (neig o) a)) e in
          let args := map (fun t => order (e - 1 - t)) sel in
          if forallb (fun a => a <? bsize (lbasis L)) args then
            let n := nth 1 (ashape x) 0 in
            Some {| nops := {| lbasis := BFund (length args); lrow := lrow L; lcol := lcol L;
                               ldata := array2 (length args) n (fun a t => at2 x (nth a args 0) t) |};
                    neig := {| ashape := [length args];
                               aflat := fun a => aflat (neig o) (nth a args 0) |} |}
          else None
      end
  | _, _ => None
  end.
Definition truncate_diagonal_noise_operator_list := truncate_operators Cmod.
Definition truncate_noise_operator_list := truncate_operators fst.

(** 326-345 [truncate_noise_kernel]. *)
Definition truncate_noise_kernel argsort eigh (b0 b1 : basis) (k : ndarray) (truncation : list Z)
  : option ndarray :=
  match get_periodic_noise_operators_eigenvalue eigh b0 b1 k with
  | None => None
  | Some o =>
      match truncate_noise_operator_list argsort o truncation with
      | None => None
      | Some t => get_full_kernel_from_operators t
      end
  end.

(** 348-369 [truncate_diagonal_noise_kernel]: calls the function for full
    operators on the diagonal operators. *)
Definition truncate_diagonal_noise_kernel argsort eigh (b0 b1 : basis) (k : ndarray)
    (truncation : list Z) : option ndarray :=
  match get_periodic_noise_operators_diagonal_eigenvalue eigh b0 b1 k with
  | None => None
  | Some o =>
      match truncate_diagonal_noise_operator_list argsort o truncation with
      | None => None
      | Some t => get_diagonal_kernel_from_operators t
      end
  end.

(** operator/operations.py:276-292 [scale_operator_list]. *)
Definition scale_operator_list (c : C) (L : operator_list) : operator_list :=
  {| lbasis := lbasis L; lrow := lrow L; lcol := lcol L;
     ldata := {| ashape := ashape (ldata L); aflat := fun t => Cmult (aflat (ldata L) t) c |} |}.

(** 172-185 [_get_temperature_corrected_operators], 188-222
    [get_temperature_corrected_noise_operators]; [kt] is Boltzmann * temperature. *)
Definition get_temperature_corrected_noise_operators (same : basis -> basis -> bool) (h : operator)
    (o : noise_operators) (kt : R) : option noise_operators :=
  match get_commutator_operator_list same h (nops o) with
  | None => None
  | Some c =>
      match add_list_list same (scale_operator_list (RtoC (-1 / (4 * kt))%R) c) (nops o) with
      | Some L => Some {| nops := L; neig := neig o |}
      | None => None
      end
  end.

(** 225-236 [_get_temperature_corrected_diagonal_operators], 239-273
    [get_temperature_corrected_diagonal_noise_operators]. *)
Definition get_temperature_corrected_diagonal_noise_operators (same : basis -> basis -> bool)
    (h : operator) (o : noise_operators) (kt : R) : option noise_operators :=
  match convert_operator_to_basis same h (lrow (nops o)) (lcol (nops o)) with
  | None => None
  | Some h' =>
      match get_commutator_diagonal_operator_list same h' (nops o), diagonal_operator_list_as_full (nops o) with
      | Some c, Some full =>
          match add_list_list same (scale_operator_list (RtoC (-1 / (4 * kt))%R) c) full with
          | Some L => Some {| nops := L; neig := neig o |}
          | None => None
          end
      | _, _ => None
      end
  end.
