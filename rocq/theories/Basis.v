(** Model of the basis classes and of convert_vector.  No proofs here.

    The classes with a length ([FundamentalPositionBasis] and so on) inherit the
    conversion methods unchanged, so [delta_x] does not appear.  Extra array axes
    are not modelled: every method acts on each one-dimensional fibre separately
    ([axis=...] in fft, pad_ft_points, roll, slices; the swapaxes pair in
    [_convert_tuple_basis_vector] is an involution). *)
From Coq Require Import Reals.
From Verif Require Import ZLib Csum DFT NumPy Interp Index.
Local Open Scope nat_scope.

Inductive basis : Type :=
| BFund (n : nat)                           (* basis/basis.py:26-65 FundamentalBasis *)
| BTrunc (n N : nat)                        (* basis/basis.py:90-134 TruncatedBasis *)
| BFundT (n : nat)                          (* basis/basis.py:200-228 FundamentalTransformedBasis *)
| BTrans (n N : nat)                        (* basis/basis.py:153-197 TransformedBasis *)
| BEven (n step : nat) (offset : Z)         (* basis/evenly_spaced_basis.py:60-113 EvenlySpacedBasis *)
| BEvenT (n step : nat) (offset : Z)        (* basis/evenly_spaced_basis.py:116-169 EvenlySpacedTransformedBasis *)
| BExpl (n : nat) (vecs : nat -> nat -> C) (inner : basis)
                                            (* basis/explicit_basis.py:40-204 ExplicitBasis; vecs is
                                               _raw_vectors (lines 73-75), inner is vectors_basis[1] *)
| BTuple (axes : list basis).               (* basis/stacked_basis.py:213-334 TupleBasis *)

(** The [n] property.  TupleBasis: basis/stacked_basis.py:53-55, 110-112
    (np.prod of the shape); ExplicitBasis: explicit_basis.py:55-58. *)
Fixpoint bsize (b : basis) : nat :=
  match b with
  | BFund n | BTrunc n _ | BFundT n | BTrans n _ | BEven n _ _ | BEvenT n _ _ => n
  | BExpl n _ _ => n
  | BTuple l => nprod (map bsize l)
  end.

(** The [fundamental_n] property.  EvenlySpaced: n * step
    (evenly_spaced_basis.py:77-79); TupleBasis: stacked_basis.py:57-59, 114-118. *)
Fixpoint bfund (b : basis) : nat :=
  match b with
  | BFund n | BFundT n => n
  | BTrunc _ N | BTrans _ N => N
  | BEven n step _ | BEvenT n step _ => n * step
  | BExpl _ _ inner => bfund inner
  | BTuple l => nprod (map bfund l)
  end.

(** [isinstance(b, AsTransformedBasis)]: the protocol is runtime checkable and only
    these classes have [__as_transformed__]. *)
Definition is_transformed (b : basis) : bool :=
  match b with BFundT _ | BTrans _ _ | BEvenT _ _ _ => true | _ => false end.

(** [pad_ft_points(v, s=(s,), axes=(axis,))] on one fibre (the [None] branch is
    unreachable, InterpProofs.pad_ft_1d_some). *)
Definition pad1 (n s : nat) (v : nat -> C) : nat -> C :=
  match pad_ft_1d (RtoC 0%R) n s v with Some p => p | None => v end.

(** Apply [f] (taking vectors of length [n] to vectors of length [m]) along the
    axis of a row-major array that has [post] elements per index of that axis:
    [convert_vector(stacked, initial, final, ax)]. *)
Definition apply_axis (n m post : nat) (f : (nat -> C) -> nat -> C) (v : nat -> C) : nat -> C :=
  fun i =>
    let p := i / (m * post) in
    let k := (i / post) mod m in
    let q := i mod post in
    f (fun k' => v ((p * n + k') * post + q)) k.

(** The loop of [_convert_tuple_basis_vector] (stacked_basis.py:203-204): axes are
    converted first to last.  [l] lists (n, m, f) per axis; [post] of an axis is the
    product of the not yet converted lengths after it. *)
Fixpoint convert_loop (l : list (nat * nat * ((nat -> C) -> nat -> C))) (v : nat -> C) : nat -> C :=
  match l with
  | [] => v
  | (n, m, f) :: l =>
      convert_loop l (apply_axis n m (nprod (map (fun t => fst (fst t)) l)) f v)
  end.

(** explicit_basis.py:98-124 [__from_state_basis__] and 126-150
    [__into_state_basis__]. *)
Definition from_state_basis (inner_n : nat) (vecs : nat -> nat -> C) (v : nat -> C) : nat -> C :=
  fun k => csum (fun j => Cmult (Cconj (vecs k j)) (v j)) inner_n.
Definition into_state_basis (n : nat) (vecs : nat -> nat -> C) (v : nat -> C) : nat -> C :=
  fun j => csum (fun k => Cmult (v k) (vecs k j)) n.

(** [__into_transformed__] of the AsTransformedBasis classes, i.e.
    [__as_transformed__] (basis_like.py:191-200; basis.py:172-183, 206-216;
    evenly_spaced_basis.py:143-154).  Other classes: see [into_transformed]. *)
Definition as_transformed (b : basis) (v : nat -> C) : nat -> C :=
  match b with
  | BFundT _ => v
  | BTrans n N => pad1 n N v
  | BEvenT n step offset => pad_sample_axis (RtoC 0%R) n step offset v
  | _ => v
  end.

(** [__from_transformed__] of those classes (basis.py:185-197, 218-228;
    evenly_spaced_basis.py:156-169). *)
Definition from_as_transformed (b : basis) (v : nat -> C) : nat -> C :=
  match b with
  | BFundT _ => v
  | BTrans n N => pad1 N n v
  | BEvenT n step offset => truncate_sample_axis n step offset v
  | _ => v
  end.

(** [__into_fundamental__].  AsFundamental classes: [__as_fundamental__]
    (basis_like.py:147-156; basis.py:41-52, 105-116; evenly_spaced_basis.py:85-96).
    AsTransformed classes: ifft of [__into_transformed__] (basis_like.py:202-216).
    ExplicitBasis: explicit_basis.py:165-176.  TupleBasis (stacked_basis.py:236-249)
    converts every axis to a new FundamentalBasis; that conversion
    (basis_like.py:298-322) finds distinct objects, not both transformed, and so
    is [__into_fundamental__] of the axis followed by the identity (this reading
    is checked by BasisProofs3.convert_to_fundamental and tuple_methods). *)
Fixpoint into_fundamental (b : basis) (v : nat -> C) : nat -> C :=
  match b with
  | BFund _ => v
  | BTrunc n N => pad1 n N v
  | BEven n step offset => pad_sample_axis (RtoC 0%R) n step offset v
  | BFundT _ | BTrans _ _ | BEvenT _ _ _ => idft (bfund b) (as_transformed b v)
  | BExpl n vecs inner => into_fundamental inner (into_state_basis n vecs v)
  | BTuple l => convert_loop (map (fun c => (bsize c, bfund c, into_fundamental c)) l) v
  end.

(** [__from_fundamental__].  AsTransformed classes: default of BasisLike, fft then
    [__from_transformed__] (basis_like.py:272-283).  TupleBasis:
    stacked_basis.py:221-234, by the same argument as above. *)
Fixpoint from_fundamental (b : basis) (v : nat -> C) : nat -> C :=
  match b with
  | BFund _ => v
  | BTrunc n N => pad1 N n v
  | BEven n step offset => truncate_sample_axis n step offset v
  | BFundT _ | BTrans _ _ | BEvenT _ _ _ => from_as_transformed b (dft (bfund b) v)
  | BExpl n vecs inner => from_state_basis (bsize inner) vecs (from_fundamental inner v)
  | BTuple l => convert_loop (map (fun c => (bfund c, bsize c, from_fundamental c)) l) v
  end.

(** [__into_transformed__] for every class.  AsFundamental classes: fft of
    [__into_fundamental__] (basis_like.py:158-169).  ExplicitBasis:
    explicit_basis.py:191-204.  TupleBasis (stacked_basis.py:251-264): each axis is
    converted to a new FundamentalTransformedBasis. *)
Fixpoint into_transformed (b : basis) (v : nat -> C) : nat -> C :=
  match b with
  | BFund _ | BTrunc _ _ | BEven _ _ _ => dft (bfund b) (into_fundamental b v)
  | BFundT _ | BTrans _ _ | BEvenT _ _ _ => as_transformed b v
  | BExpl n vecs inner => into_transformed inner (into_state_basis n vecs v)
  | BTuple l =>
      convert_loop
        (map (fun c => (bsize c, bfund c,
                fun w => if is_transformed c then into_transformed c w
                         else dft (bfund c) (into_fundamental c w))) l) v
  end.

(** [__from_transformed__] for every class.  AsFundamental classes: ifft then
    [__from_fundamental__] (basis_like.py:285-296).  TupleBasis:
    stacked_basis.py:266-280. *)
Fixpoint from_transformed (b : basis) (v : nat -> C) : nat -> C :=
  match b with
  | BFund _ | BTrunc _ _ | BEven _ _ _ => from_fundamental b (idft (bfund b) v)
  | BFundT _ | BTrans _ _ | BEvenT _ _ _ => from_as_transformed b v
  | BExpl n vecs inner => from_state_basis (bsize inner) vecs (from_transformed inner v)
  | BTuple l =>
      convert_loop
        (map (fun c => (bfund c, bsize c,
                fun w => if is_transformed c then from_transformed c w
                         else from_fundamental c (idft (bfund c) w))) l) v
  end.

(** basis_like.py:298-322 [BasisLike.__convert_vector_into__] after the assert.
    No class defines [__eq__], so [self == basis] compares object identity; a
    model value does not carry an identity, hence the parameter [same].  The
    reinterpretation [vector.view(np.complex128)] of real input is modelled
    separately ([convert_real] below): vectors are complex here. *)
Definition convert_generic (same : basis -> basis -> bool) (a b : basis) (v : nat -> C) : nat -> C :=
  if same a b then v
  else if is_transformed a && is_transformed b
  then from_transformed b (into_transformed a v)
  else from_fundamental b (into_fundamental a v).

(** basis_like.py:325-352 [convert_vector] = [__convert_vector_into__], overridden
    for TupleBasis at stacked_basis.py:282-297.  [None]: AssertionError (different
    fundamental_n) or ValueError ([zip(strict=True)], different number of axes).
    The vector to convert is applied last, since whether it raises does not
    depend on the data. *)
Fixpoint convert (same : basis -> basis -> bool) (a b : basis) {struct a}
  : option ((nat -> C) -> nat -> C) :=
  if bfund a =? bfund b then
    match a, b with
    | BTuple la, BTuple lb =>
        match
          (fix go (la lb : list basis) {struct la}
             : option (list (nat * nat * ((nat -> C) -> nat -> C))) :=
             match la, lb with
             | [], [] => Some []
             | a :: la, b :: lb =>
                 match convert same a b, go la lb with
                 | Some f, Some l => Some ((bsize a, bsize b, f) :: l)
                 | _, _ => None
                 end
             | _, _ => None
             end) la lb
        with
        | Some l => Some (convert_loop l)
        | None => None
        end
    | _, _ => Some (convert_generic same a b)
    end
  else None.

(** basis_like.py:355-382 [convert_dual_vector]. *)
Definition convert_dual (same : basis -> basis -> bool) (a b : basis)
  : option ((nat -> C) -> nat -> C) :=
  match convert same a b with
  | Some f => Some (fun v i => Cconj (f (fun k => Cconj (v k)) i))
  | None => None
  end.

(** basis_like.py:385-415 [convert_matrix] with axes = (0, 1). *)
Definition convert_matrix (same : basis -> basis -> bool) (a b a' b' : basis)
  : option ((nat -> nat -> C) -> nat -> nat -> C) :=
  match convert same a b, convert_dual same a' b' with
  | Some f, Some g => Some (fun m i j => g (fun k => f (fun l => m l k) i) j)
  | _, _ => None
  end.

(** basis/util.py:78-82 [BasisUtil.vectors]: [__into_fundamental__(np.eye(n, n))],
    row [k]. *)
Definition util_vectors (b : basis) (k x : nat) : C := into_fundamental b (cdelta k) x.

(** [BasisUtil.__into_transformed__]: BasisUtil (basis/util.py:62-107) overrides only
    the fundamental methods, so this is the default of BasisLike
    (basis_like.py:259-270), a one-dimensional FFT of the flat axis. *)
Definition util_into_transformed (b : basis) (v : nat -> C) : nat -> C :=
  dft (bfund b) (into_fundamental b v).

(** [vector.view(np.complex128)] of a contiguous float64 vector of length [n]:
    consecutive pairs become one complex number; ValueError for odd [n]. *)
Definition view_complex (n : nat) (v : nat -> R) : option (nat * (nat -> C)) :=
  if Nat.even n then Some (n / 2, fun i => (v (2 * i), v (S (2 * i)))) else None.

(** convert_vector of a float64 vector out of a basis that is not stacked
    (basis_like.py:298-322); returns the length and the data. *)
Definition convert_real (same : basis -> basis -> bool) (a b : basis) (v : nat -> R)
  : option (nat * (nat -> C)) :=
  match convert same a b with
  | None => None
  | Some F => if same a b then view_complex (bsize a) v
              else Some (bsize b, F (fun k => RtoC (v k)))
  end.
