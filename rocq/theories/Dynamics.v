(** Model of dynamics/util.py, dynamics/incoherent_propagation/tunnelling_matrix.py and
    eigenstates.py, dynamics/isf.py, dynamics/schrodinger/solve.py and of the operator
    preparation in dynamics/stochastic_schrodinger/solve.py.  No proofs here. *)
From Coq Require Import Reals.
From Verif Require Import ZLib Csum DFT NumPy Index Lattice Basis Operator Wavepacket Kernel Localize Hamiltonian.
Local Open Scope nat_scope.

(** np.exp of a complex number. *)
Definition cexp (z : C) : C := Cmult (RtoC (exp (fst z))) (cis (snd z)).

(** ** dynamics/util.py *)

(** 15-29 [get_hop_shift]: entry [hop] of the stacked nk points of [ndim] axes of length 3;
    [x.item(hop)] raises when out of range (negative hops, which count from the end, are
    not modelled). *)
Definition get_hop_shift (hop ndim : nat) : option (list Z) :=
  let shape := repeat 3 ndim in
  if hop <? nprod shape then Some (map (fun ax => stacked_nk_points shape ax hop) (seq 0 ndim)) else None.

(** 32-51 [build_hop_operator]: the identity matrix reshaped to (shape, shape), rolled along
    the first len(shape) axes. *)
Definition build_hop_operator (hop : nat) (shape : list nat) : option ndarray :=
  match get_hop_shift hop (length shape) with
  | None => None
  | Some shift =>
      let n := nprod shape in
      let identity := array2 n n cdelta in
      match reshape identity (shape ++ shape) with
      | None => None
      | Some a =>
          let nd := length shape in
          Some {| ashape := shape ++ shape;
                  aflat := flatten (shape ++ shape) (fun idx =>
                    stack (shape ++ shape) (aflat a)
                      (roll_indices shape shift (firstn nd idx) ++ skipn nd idx)) |}
      end
  end.

(** ** incoherent_propagation/tunnelling_matrix.py *)

(** 222-247 [get_jump_matrix_from_function]. *)
Definition get_jump_matrix_from_function (nb : nat) (f : nat -> nat -> nat -> C) : ndarray :=
  ravel_array (array3 nb nb 9 f).

(** tunnelling_basis.py:87-114 [get_basis_from_shape]: [locations[:, :n_bands]] has
    min(bands, n_bands) columns; the locations themselves only matter for the ISF below. *)
Definition get_basis_from_shape (n0 n1 n_bands nb : nat) : basis :=
  BTuple [BFund n0; BFund n1; BFund (Nat.min n_bands nb)].

(** 146-189 [get_a_matrix_from_jump_matrix] of a jump matrix over [nb] bands: the default
    number of bands is the fundamental size of the pair of bases.  The slice
    array[:, :, n_1, :, :, n_0] receives the operators of the nine hops one after the other;
    it raises when a band index exceeds the basis.  The matrix is transposed at the end. *)
Definition get_a_matrix_from_jump_matrix (nb : nat) (jump : ndarray) (n0 n1 : nat) (n_bands : option nat)
  : option operator :=
  let k := match n_bands with None => nb * nb | Some k => k end in
  let final_basis := get_basis_from_shape n0 n1 k nb in
  let kb := Nat.min k nb in
  match reshape jump [k; k; 9],
        all_some (map (fun hop => build_hop_operator hop [n0; n1]) (seq 0 9)) with
  | Some jump_stacked, Some operators =>
      if k <=? kb then
        let n := bsize final_basis in
        let array c r :=
          csum (fun hop =>
            Cmult (at3 jump_stacked (r mod kb) (c mod kb) hop)
              (aflat (nth hop operators {| ashape := []; aflat := fun _ => RtoC 0%R |})
                 (ravel [n0; n1; n0; n1] [c / kb / n1; (c / kb) mod n1; r / kb / n1; (r / kb) mod n1]))) 9 in
        Some {| orow := final_basis; ocol := final_basis;
                odata := ravel_array (array2 n n (fun r c => array c r)) |}
      else None
  | _, _ => None
  end.

(** [np.fill_diagonal(data, 0)]. *)
Definition fill_diagonal_zero (a : ndarray) : ndarray :=
  array2 (nth 0 (ashape a) 0) (nth 1 (ashape a) 0) (fun i j => if i =? j then RtoC 0%R else at2 a i j).

(** 316-335 [get_tunnelling_m_matrix] without [n_bands] (with it,
    [get_a_matrix_reduced_bands] applies six indices to an array with four axes, which
    raises).  [reshape] is a view of the caller's data, so [fill_diagonal] also changes the
    matrix that was passed in: the second result is that matrix after the call. *)
Definition get_tunnelling_m_matrix (m : operator) : option (operator * operator) :=
  let rows := bsize (orow m) in let cols := bsize (ocol m) in
  match reshape (odata m) [rows; cols] with
  | None => None
  | Some view =>
      let data := fill_diagonal_zero view in
      let transposed := array2 cols rows (fun i j => at2 data j i) in
      let sums := {| ashape := [rows]; aflat := fun i => csum (fun j => at2 data i j) cols |} in
      match np_diag sums with
      | None => None
      | Some d =>
          match broadcast_op Cminus transposed d with
          | None => None
          | Some array =>
              Some ({| orow := orow m; ocol := ocol m; odata := array |},
                    {| orow := orow m; ocol := ocol m;
                       odata := {| ashape := ashape (odata m); aflat := aflat data |} |})
          end
      end
  end.

(** 338-359 [get_initial_pure_density_matrix_for_basis] for a flat index. *)
Definition get_initial_pure_density_matrix (n : nat) (idx : Z) : option (nat -> C) :=
  match python_index n idx with
  | Some i => Some (fun x => if x =? i then RtoC 1%R else RtoC 0%R)
  | None => None
  end.

(** ** incoherent_propagation/eigenstates.py *)

(** [np.max] and [np.argmax] of complex numbers: lexicographic order, first maximum. *)
Fixpoint array_argmax_from (v : nat -> C) (n : nat) : nat :=
  match n with
  | 0 => 0
  | S n => let m := array_argmax_from v n in if clt (v m) (v n) then n else m
  end.
Definition array_argmax (n : nat) (v : nat -> C) : option nat :=
  match n with 0 => None | S _ => Some (array_argmax_from v n) end.
Definition array_max (n : nat) (v : nat -> C) : option C :=
  match array_argmax n v with Some i => Some (v i) | None => None end.

(** What scipy.linalg.eig returned: eigenvalues, and eigenvectors as columns; what
    scipy.linalg.solve returned, or that it raised. *)
Definition eig_fn := nat -> (nat -> nat -> C) -> (nat -> C) * (nat -> nat -> C).
Definition solve_fn := nat -> (nat -> nat -> C) -> (nat -> C) -> option (nat -> C).

(** A list of eigenstates: values, and states as rows. *)
Record eigenstates := { es_size : nat; es_value : nat -> C; es_state : nat -> nat -> C }.

(** 37-58 [calculate_tunnelling_eigenstates]. *)
Definition calculate_tunnelling_eigenstates (eig : eig_fn) (m : operator) : option eigenstates :=
  let n := bsize (orow m) in
  if bsize (ocol m) =? n then
    match reshape (odata m) [n; n] with
    | None => None
    | Some a =>
        let (values, vectors) := eig n (at2 a) in
        match array_max n values with
        | None => None
        | Some mx => Some {| es_size := n; es_value := fun k => Cminus (values k) mx;
                             es_state := fun k i => vectors i k |}
        end
    end
  else None.

(** 61-85 [get_operator_state_vector_decomposition]. *)
Definition get_operator_state_vector_decomposition (solve : solve_fn) (rho : nat -> C) (es : eigenstates)
  : option (nat -> C) :=
  solve (es_size es) (fun i k => es_state es k i) rho.

(** 88-117 [get_equilibrium_state]. *)
Definition get_equilibrium_state (solve : solve_fn) (es : eigenstates) : option (nat -> C) :=
  match get_initial_pure_density_matrix (es_size es) 0 with
  | None => None
  | Some initial =>
      match get_operator_state_vector_decomposition solve initial es, array_argmax (es_size es) (es_value es) with
      | Some c, Some k => Some (fun i => Cmult (c k) (es_state es k i))
      | _, _ => None
      end
  end.

(** 120-138 [calculate_equilibrium_state]. *)
Definition calculate_equilibrium_state (eig : eig_fn) (solve : solve_fn) (m : operator) : option (nat -> C) :=
  match calculate_tunnelling_eigenstates eig m with
  | Some es => get_equilibrium_state solve es
  | None => None
  end.

(** 141-173 [get_tunnelling_simulation_state]: row [s] of the result is the state at time
    [times s]. *)
Definition get_tunnelling_simulation_state (solve : solve_fn) (es : eigenstates) (initial : nat -> C)
    (nt : nat) (times : nat -> R) : option ndarray :=
  match get_operator_state_vector_decomposition solve initial es with
  | None => None
  | Some c =>
      Some (array2 nt (es_size es) (fun s i =>
        csum (fun k => Cmult (Cmult (c k) (cexp (Cmult (es_value es k) (RtoC (times s))))) (es_state es k i)) (es_size es)))
  end.

(** 176-199 [calculate_tunnelling_simulation_state]. *)
Definition calculate_tunnelling_simulation_state (eig : eig_fn) (solve : solve_fn) (m : operator) (initial : nat -> C)
    (nt : nat) (times : nat -> R) : option ndarray :=
  match calculate_tunnelling_eigenstates eig m with
  | Some es => get_tunnelling_simulation_state solve es initial nt times
  | None => None
  end.

(** ** dynamics/isf.py *)

(** tunnelling_basis.py:31-47 [TunnellingSimulationBandsBasis]: centre of every band as a
    fraction of the unit cell (locations[axis, band]) and the unit cell (vector a, component c). *)
Record bands := { band_count : nat; band_location : nat -> nat -> R; band_cell : nat -> nat -> R }.

(** 46-61 [_calculate_approximate_locations] of flat index [x] of the basis (n0, n1, bands):
    component [c]. *)
Definition approximate_location (b : bands) (n0 n1 : nat) (x c : nat) : R :=
  let idx := unravel [n0; n1; band_count b] x in
  (tensordot00 2 (band_cell b) (fun a => INR (nth a idx 0%nat)) c
   + tensordot00 2 (band_cell b) (fun a => band_location b a (nth 2 idx 0%nat)) c)%R.

(** 64-113 [calculate_isf_approximate_locations]: [np.average] with weights raises when
    they sum to zero; [inv] is the inverse of the supercell vectors (unit cell vector times
    number of cells).  Row [s] of [final] is the occupation at time [s]. *)
Definition supercell_vectors (b : bands) (n0 n1 : nat) (a c : nat) : R :=
  (band_cell b a c * INR (match a with 0%nat => n0 | _ => n1 end))%R.
Definition calculate_isf_approximate_locations (b : bands) (n0 n1 : nat) (inv : nat -> nat -> R)
    (initial : nat -> R) (final : nat -> nat -> R) (dk : nat -> R) : option (nat -> C) :=
  let n := nprod [n0; n1; band_count b] in
  let locations := approximate_location b n0 n1 in
  let total := rsum initial n in
  if Req_EM_T total 0 then None
  else
    let initial_location c := (rsum (fun x => locations x c * initial x) n / total)%R in
    let wrapped x := wrap_x_point_around_origin 2 (supercell_vectors b n0 n1) inv
                       (fun c => (locations x c - initial_location c)%R) None in
    let mean_phi x := rsum (fun c => (dk c * wrapped x c)%R) 2 in
    Some (fun s => csum (fun x => Cmult (cexp (Cmult Ci (RtoC (mean_phi x)))) (RtoC (final s x))) n).

(** 453-490 [calculate_isf_fey_model_110] at one time; [None] when a division by zero or
    the square root of a negative number occurs (numpy then continues with inf or nan). *)
Definition rdiv (x y : R) : option R := if Req_EM_T y 0 then None else Some (x / y)%R.
Definition rsqrt (x : R) : option R := if Rlt_dec x 0 then None else Some (sqrt x).
Definition obind {A B} (o : option A) (f : A -> option B) : option B := match o with Some a => f a | None => None end.
Definition calculate_isf_fey_model_110 (t fast slow a_dk : R) : option R :=
  obind (rdiv slow fast) (fun lam =>
  obind (rsqrt (9 * lam ^ 2 + 16 * lam * cos (a_dk / 2) ^ 2 + 16 * lam * cos (a_dk / 2) - 14 * lam + 9)%R) (fun z =>
  let top := (4 * cos (a_dk / 2) + 2)%R in
  obind (rdiv top (3 * lam - 3 + z)) (fun q0 =>
  obind (rdiv top (3 * lam - 3 - z)) (fun q1 =>
  let n_0 := (1 + lam * (q0 * q0))%R in
  let n_1 := (1 + lam * (q1 * q1))%R in
  obind (rdiv (lam * top) (3 * lam - 3 + z)) (fun p0 =>
  obind (rdiv (lam * top) (3 * lam - 3 - z)) (fun p1 =>
  let norm_0 := (Rabs (1 - p0) * Rabs (1 - p0))%R in
  let norm_1 := (Rabs (1 - p1) * Rabs (1 - p1))%R in
  obind (rdiv 1 (1 + lam)) (fun c_0 =>
  obind (rdiv norm_0 n_0) (fun w0 => obind (rdiv norm_1 n_1) (fun w1 =>
  obind (rdiv (- slow * (3 * lam + 3 + z) * t) (6 * lam)) (fun e0 =>
  obind (rdiv (- slow * (3 * lam + 3 - z) * t) (6 * lam)) (fun e1 =>
  Some (c_0 * (w0 * exp e0 + w1 * exp e1))%R))))))))))).

(** 493-524 [calculate_isf_fey_model_112bar]. *)
Definition cdiv_real (x : C) (y : R) : option C := if Req_EM_T y 0 then None else Some (Cdiv x (RtoC y)).
Definition calculate_isf_fey_model_112bar (t fast slow a_dk : R) : option R :=
  obind (rdiv slow fast) (fun lam =>
  obind (rsqrt (lam ^ 2 + 2 * lam * (8 * cos (a_dk * sqrt 3 / 2) + 1) / 9 + 1)%R) (fun y =>
  let top := Cplus (cis (a_dk / sqrt 3)%R) (Cmult (RtoC 2%R) (cis (- (a_dk / sqrt 12))%R)) in
  obind (cdiv_real top (3 * lam - 3 + 3 * y)) (fun q0 =>
  obind (cdiv_real top (3 * lam - 3 - 3 * y)) (fun q1 =>
  let m_0 := (1 + 4 * lam * (Cmod q0 * Cmod q0))%R in
  let m_1 := (1 + 4 * lam * (Cmod q1 * Cmod q1))%R in
  obind (cdiv_real (Cmult (RtoC (2 * lam)%R) top) (3 * lam - 3 + 3 * y)) (fun p0 =>
  obind (cdiv_real (Cmult (RtoC (2 * lam)%R) top) (3 * lam - 3 - 3 * y)) (fun p1 =>
  let norm_0 := (Cmod (Cminus (RtoC 1%R) p0) * Cmod (Cminus (RtoC 1%R) p0))%R in
  let norm_1 := (Cmod (Cminus (RtoC 1%R) p1) * Cmod (Cminus (RtoC 1%R) p1))%R in
  obind (rdiv 1 (1 + lam)) (fun c_0 =>
  obind (rdiv norm_0 m_0) (fun w0 => obind (rdiv norm_1 m_1) (fun w1 =>
  obind (rdiv (- slow * (lam + 1 + y) * t) (2 * lam)) (fun e0 =>
  obind (rdiv (- slow * (lam + 1 - y) * t) (2 * lam)) (fun e1 =>
  Some (c_0 * (w0 * exp e0 + w1 * exp e1))%R))))))))))).

(** ** schrodinger/solve.py *)

(** 45-68 [get_state_vector_decomposition] (the second return statement is unreachable);
    state [k] of the list is [states k]. *)
Definition get_state_vector_decomposition (n : nat) (psi : nat -> C) (states : nat -> nat -> C) : nat -> C :=
  fun k => csum (fun x => Cmult (Cconj (states k x)) (psi x)) n.

(** 82-124 [solve_schrodinger_equation_decomposition]: all eigenstates of the Hamiltonian
    ([lo] = 0, [hi] = n - 1 of scipy.linalg.eigh; an empty matrix raises).  The two numerical
    assertions (almost equal to six decimals) are not modelled.  Row [s] of the result is
    the state at [times s]. *)
Definition solve_schrodinger_equation_decomposition (eigh : eigh_fn) (hbar : R) (psi : nat -> C)
    (nt : nat) (times : nat -> R) (h : operator) : option ndarray :=
  let n := bsize (orow h) in
  if bsize (ocol h) =? n then
    match reshape (odata h) [n; n] with
    | None => None
    | Some a =>
        match calculate_eigenvectors_hermitian eigh n (at2 a) 0 (Z.of_nat n - 1) with
        | None => None
        | Some (energy, state) =>
            let c := get_state_vector_decomposition n psi state in
            Some (array2 nt n (fun s x =>
              csum (fun k => Cmult (Cmult (c k) (cexp (Cdiv (Cmult (Cmult (Copp Ci) (RtoC (energy k))) (RtoC (times s))) (RtoC hbar))))
                                   (state k x)) n))
        end
    end
  else None.

(** 127-152 [solve_schrodinger_equation_diagonal]: the state is converted to the basis of
    the Hamiltonian, whose data are its diagonal elements. *)
Definition solve_schrodinger_equation_diagonal (same : basis -> basis -> bool) (hbar : R) (b0 : basis) (psi : nat -> C)
    (nt : nat) (times : nat -> R) (b1 : basis) (diagonal : nat -> C) : option ndarray :=
  match convert same b0 b1 with
  | None => None
  | Some F =>
      Some (array2 nt (bsize b1) (fun s k =>
        Cmult (F psi k) (cexp (Cdiv (Cmult (Cmult (Copp Ci) (diagonal k)) (RtoC (times s))) (RtoC hbar)))))
  end.

(** ** stochastic_schrodinger/solve.py *)

(** [np.diag(a, k)] of an n x n matrix: the list of elements of the diagonal. *)
Definition np_diagonal (n : nat) (a : nat -> nat -> C) (k : Z) : list C :=
  if (0 <=? k)%Z
  then map (fun r => a r (r + Z.to_nat k)) (seq 0 (n - Z.to_nat k))
  else map (fun c => a (c + Z.to_nat (- k)) c) (seq 0 (n - Z.to_nat (- k))).

(** 416-430 [_get_operator_diagonals] of an n x n matrix. *)
Definition get_operator_diagonals (n : nat) (a : nat -> nat -> C) : list (list C) :=
  map (fun i => np_diagonal n a (- Z.of_nat i) ++ np_diagonal n a (Z.of_nat n - Z.of_nat i)) (seq 0 n).

(** 433-449 [_get_banded_operator]: the diagonals whose norm exceeds the threshold, with
    small imaginary parts and then small real parts removed, and their offsets. *)
Definition list_norm (l : list C) : R := sqrt (rsum (fun i => Cnorm2 (nth i l (RtoC 0%R))) (length l)).
Definition clean_value (threshold : R) (z : C) : C :=
  let z := if Rlt_dec (Rabs (snd z)) threshold then RtoC (fst z) else z in
  if Rlt_dec (Rabs (fst z)) threshold then Cmult Ci (RtoC (snd z)) else z.
Definition get_banded_operator (n : nat) (a : nat -> nat -> C) (threshold : R) : list (list C) * list nat :=
  let diagonals := get_operator_diagonals n a in
  let above i := if Rlt_dec threshold (list_norm (nth i diagonals [])) then true else false in
  let kept := filter above (seq 0 n) in
  (map (fun i => map (clean_value threshold) (nth i diagonals [])) kept, kept).

(** 105-135 [get_collapse_operators_from_a_matrix] of an n x n matrix: one operator per
    non-zero off-diagonal element, in row-major order, with that element (cast to a real
    number) at its own position. *)
Definition get_collapse_operators_from_a_matrix (n : nat) (a : nat -> nat -> C) : list (nat -> nat -> C) :=
  flat_map (fun i => flat_map (fun j =>
    if i =? j then []
    else if Req_EM_T (Cnorm2 (a i j)) 0 then []
    else [fun r c => if (r =? i) && (c =? j) then RtoC (fst (a i j)) else RtoC 0%R]) (seq 0 n)) (seq 0 n).

(** 138-173 [get_simplified_collapse_operators_from_a_matrix] for the basis (n0, n1, bands):
    jumps within a band are skipped, as are those with factor * rate < 1 (complex numbers
    compared lexicographically; modelled for real rates).  jump_array[n_0, s0, s1, n_1] is
    element (0, 0, n_0; s0, s1, n_1) with numpy's negative indices; IndexError if a shift is
    out of range for a short axis. *)
Definition get_simplified_collapse_operators (n0 n1 nb : nat) (a : ndarray) (factor : R)
  : option (list (nat -> nat -> C)) :=
  match reshape a [n0; n1; nb; n0; n1; nb] with
  | None => None
  | Some arr =>
      if (n0 =? 0) || (n1 =? 0) then None else
      match all_some (map (fun t =>
        let b0 := t / (9 * nb) in let b1 := (t / 9) mod nb in let hop := t mod 9 in
        if b0 =? b1 then Some []
        else
          match get_hop_shift hop 2, build_hop_operator hop [n0; n1] with
          | Some shift, Some o =>
              match python_index n0 (nth 0 shift 0%Z), python_index n1 (nth 1 shift 0%Z) with
              | Some s0, Some s1 =>
                  let val := Rmult factor (fst (aflat arr (ravel [n0; n1; nb; n0; n1; nb] [0; 0; b0; s0; s1; b1]))) in
                  if Rlt_dec val 1 then Some []
                  else Some [fun r c =>
                    if (r mod nb =? b1) && (c mod nb =? b0)
                    then Cmult (RtoC (sqrt val))
                           (aflat o (ravel [n0; n1; n0; n1] [r / nb / n1; (r / nb) mod n1; c / nb / n1; (c / nb) mod n1]))
                    else RtoC 0%R]
              | _, _ => None
              end
          | _, _ => None
          end) (seq 0 (nb * nb * 9))) with
      | Some l => Some (concat l)
      | None => None
      end
  end.
