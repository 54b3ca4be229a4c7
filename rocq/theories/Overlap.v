(** Model of overlap/calculation.py, overlap/conversion.py, overlap/overlap.py and
    overlap/interpolation.py.  No proofs here. *)
From Coq Require Import Reals Ascii String DecimalString.
From Verif Require Import ZLib Csum DFT NumPy Index Interp Basis Operator Reduce Wavepacket Lattice.
From Verif Require VolumeBasis.
Local Open Scope nat_scope.

(** An index given flat or stacked (types.py [SingleIndexLike]). *)
Inductive index_like := IFlat (i : Z) | IStacked (l : list Z).

(** ** overlap/calculation.py *)

(** [convert_state_vector_to_position_basis(unfurl_wavepacket(w))]: the shape of the
    supercell and the data. *)
Definition unfurled_position (same : basis -> basis -> bool) (laxes saxes : list basis) (data : ndarray)
  : option ndarray :=
  let shape := map2 Nat.mul (map bfund laxes) (map bfund saxes) in
  match unfurl_wavepacket same laxes saxes data,
        convert same (BTuple (map BFundT shape)) (BTuple (map BFund shape)) with
  | Some v, Some F => Some {| ashape := [nprod shape]; aflat := F (aflat v) |}
  | _, _ => None
  end.

(** Product of two 1-D arrays with broadcasting: ValueError unless the lengths agree or
    one of them is one. *)
Definition product1 (a b : ndarray) : option ndarray :=
  let n := nprod (ashape a) in
  let m := nprod (ashape b) in
  if n =? m then Some {| ashape := [n]; aflat := fun x => Cmult (aflat a x) (aflat b x) |}
  else if n =? 1 then Some {| ashape := [m]; aflat := fun x => Cmult (aflat a 0) (aflat b x) |}
  else if m =? 1 then Some {| ashape := [n]; aflat := fun x => Cmult (aflat a x) (aflat b 0) |}
  else None.

(** 46-89 [calculate_wavepacket_overlap], the data. *)
Definition calculate_wavepacket_overlap (same : basis -> basis -> bool) (l0 s0 : list basis) (d0 : ndarray)
    (l1 s1 : list basis) (d1 : ndarray) : option ndarray :=
  match unfurled_position same l0 s0 d0, unfurled_position same l1 s1 d1 with
  | Some u, Some v => product1 {| ashape := ashape u; aflat := fun x => Cconj (aflat u x) |} v
  | _, _ => None
  end.

(** 92-127 [calculate_state_vector_list_overlap]: [n] states over a basis of the given
    shape. *)
Definition calculate_state_vector_list_overlap (n : nat) (shape : list nat) (data : ndarray) (shift : index_like)
  : option ndarray :=
  let size := nprod shape in
  match reshape data [n; size],
        match shift with IFlat s => Some s | IStacked l => option_map Z.of_nat (get_flat_index shape l MWrap) end with
  | Some stacked, Some s =>
      let shifted := fun i => roll size s (at2 stacked i) in
      (* data[i, j, x] = conj(stacked[j, x]) * shifted[i, x], then swapaxes(-1, 0) *)
      Some (ravel_array (array3 size n n (fun x j i => Cmult (Cconj (at2 stacked j x)) (shifted i x))))
  | _, _ => None
  end.

(** 155-195 [calculate_wavepacket_list_overlap] with [basis=None]: [nb] bands. *)
Definition calculate_wavepacket_list_overlap (same : basis -> basis -> bool) (nb : nat) (laxes saxes : list basis)
    (data : ndarray) (shift : index_like) : option ndarray :=
  let shape := map2 Nat.mul (map bfund laxes) (map bfund saxes) in
  match reshape data [nb; nprod (ashape data) / nb] with
  | None => None
  | Some stacked =>
      if nb =? 0 then None   (* as_state_vector_list of nothing *)
      else
      match all_some (map (fun b => unfurl_wavepacket same laxes saxes (select_row stacked b)) (seq 0 nb)),
            convert same (BTuple (map BFundT shape)) (BTuple (map BFund shape)) with
      | Some l, Some F =>
          calculate_state_vector_list_overlap nb shape
            (ravel_array (array2 nb (nprod shape) (fun b => F (aflat (nth b l data))))) shift
      | _, _ => None
      end
  end.

(** ** overlap/conversion.py *)

(** 32-58 [convert_overlap_to_basis]: [m] overlaps over the basis [a]. *)
Definition convert_overlap_to_basis (same : basis -> basis -> bool) (a b : basis) (m : nat) (data : ndarray)
  : option ndarray :=
  match reshape data [bsize a; m], convert same a b with
  | Some d, Some F => Some (ravel_array (array2 (bsize b) m (fun j c => F (fun k => at2 d k c) j)))
  | _, _ => None
  end.

(** The check of [np.fft.ifftn(a, axes=axes, s=s)]: ValueError when [s] and [axes] differ in
    length, IndexError for an axis outside the array. *)
Definition ifftn_accepts (ndim : nat) (axes s : list nat) : bool :=
  (length s =? length axes) && forallb (fun a => a <? ndim) axes.

(** 61-95 [convert_overlap_to_momentum_basis]: the shape of the basis of an overlap has two
    entries, one for the points and one for the pairs of states. *)
Definition convert_overlap_to_momentum_basis (same : basis -> basis -> bool) (a : list basis) (rows cols : basis)
    (data : ndarray) : option ndarray :=
  let pair := BTuple [rows; cols] in
  if ifftn_accepts (length [bsize (BTuple a); bsize pair]) [0; 1; 2] [bfund (BTuple a); bfund pair] then
    convert_overlap_to_basis same (BTuple a) (as_fundamental_transformed a) (bsize pair) data
  else None.

(** 98-122 [convert_overlap_to_position_basis]. *)
Definition convert_overlap_to_position_basis (same : basis -> basis -> bool) (a : list basis) (m : nat)
    (data : ndarray) : option ndarray :=
  convert_overlap_to_basis same (BTuple a) (BTuple (map (fun b => BFund (bfund b)) a)) m data.

(** ** overlap/overlap.py *)

(** 26-53 [get_single_overlap]: [size] points, pairs of [n0] and [n1] states. *)
Definition get_single_overlap (size n0 n1 : nat) (data : ndarray) (idx : index_like) : option ndarray :=
  match reshape data [size; n0 * n1],
        match idx with
        | IFlat i => python_index (n0 * n1) i
        | IStacked l => match get_flat_index [n0; n1] l MRaise with Some i => Some i | None => None end
        end with
  | Some d, Some i => Some {| ashape := [size]; aflat := fun x => at2 d x i |}
  | _, _ => None
  end.

(** 56-86 [get_overlap_cache_filename]. *)
Definition print_int (z : Z) : string := NilZero.string_of_int (Z.to_int z).
Definition get_overlap_cache_filename (i j : Z) (offset_i offset_j : Z * Z) : option string :=
  let '(dx0i, dx1i) := offset_i in
  let '(dx0j, dx1j) := offset_j in
  let small := fun d => (-2 <? d)%Z && (d <? 2)%Z in
  if negb (small dx0i && small dx1i) || negb (small dx0j && small dx1j) || (1 <? i)%Z || (1 <? j)%Z then None
  else
    let p := fun d => print_int (d mod 3) in
    Some ("overlap/overlap_" ++ print_int i ++ "_" ++ p dx0i ++ "_" ++ p dx1i ++ "_" ++
          print_int j ++ "_" ++ p dx0j ++ "_" ++ p dx1j ++ ".npy")%string.

(** ** overlap/interpolation.py *)

(** [wrap_index_around_origin(basis, stacked_nx_points, axes=(0, 1))], point [j]. *)
Definition wrapped_points (shape : list nat) (idx : list nat) : list Z :=
  wrap_index_around_origin shape (map Z.of_nat idx) None (Some [0; 1]).

(** basis/util.py:368-388 [get_x_points_at_index] with 416-420 [dx_stacked]: component [c];
    [delta a c] is component [c] of lattice vector [a]. *)
Definition x_point_at_index (shape : list nat) (delta : nat -> nat -> R) (idx : list Z) : nat -> R :=
  tensordot00 (length shape) (fun a c => delta a c / INR (nth a shape 0%nat))%R (fun a => IZR (nth a idx 0%Z)).

(** 44-77 [get_overlap_momentum_interpolator_k_fractions], at one point. *)
Definition interpolator_k_fractions (shape : list nat) (data : nat -> C) (k : nat -> R) : C :=
  csum (fun j =>
    let w := wrapped_points shape (unravel shape j) in
    let phi := rsum (fun a => IZR (nth a w 0%Z) / INR (nth 0 shape 0%nat) * k a)%R (length shape) in
    Cmult (data j) (cis (2 * PI * phi)%R)) (nprod shape).

(** 80-112 [get_overlap_momentum_interpolator], at one point. *)
Definition momentum_interpolator (shape : list nat) (delta : nat -> nat -> R) (data : nat -> C) (k : nat -> R) : C :=
  csum (fun j =>
    let x := x_point_at_index shape delta (wrapped_points shape (unravel shape j)) in
    Cmult (data j) (cis (rsum (fun c => x c * k c) (length shape))%R)) (nprod shape).

(** 145-176, the body of [get_overlap_momentum_interpolator_flat] after the axis of one point
    has been made, at one point: the axes but the last have shape [front], the last has [last]
    points.  [x_points[:2]] and [k] with two entries: ValueError with a single axis.  [order] is
    what [np.argsort] returned for the moduli of the transformed overlap; a negative [n_points]
    is not modelled. *)
Definition flat_vector (last : nat) (data : nat -> C) : nat -> C :=
  fun t => csum (fun z => data (t * last + z)) last.
Definition flat_term (front : list nat) (last : nat) (delta : nat -> nat -> R) (data : nat -> C) (k : nat -> R)
    (t : nat) : C :=
  let reduced := front ++ [1] in
  let w := wrapped_points (front ++ [last]) (unravel reduced t) in
  let x := x_point_at_index reduced delta w in
  Cmult (flat_vector last data t) (cis (rsum (fun c => x c * k c) 2)%R).
Definition flat_interpolation (front : list nat) (last : nat) (delta : nat -> nat -> R) (data : nat -> C)
    (order : list nat) (n_points : option nat) (k : nat -> R) : option C :=
  match front with
  | [] => None
  | _ =>
      let points := match n_points with
        | None => seq 0 (nprod front)
        | Some n => firstn n (rev order)
        end in
      Some (fold_right (fun t acc => Cplus (flat_term front last delta data k t) acc) (RtoC 0%R) points)
  end.

(** 115-176 [get_overlap_momentum_interpolator_flat]: the axis of one point comes first. *)
Definition momentum_interpolator_flat (front : list nat) (last : nat) (delta : nat -> nat -> R) (data : nat -> C)
    (order : list nat) (n_points : option nat) (k : nat -> R) : option C :=
  match VolumeBasis.basis_as_single_point_basis
          {| VolumeBasis.la_basis := BFund last;
             VolumeBasis.la_delta := map (delta (List.length front)) (seq 0 (S (List.length front))) |} with
  | Some _ => flat_interpolation front last delta data order n_points k
  | None => None
  end.

(** 179-213 [get_angle_averaged_diagonal_overlap_function], at one |q|; np.linspace(0, 2 pi, m)
    with the end point.  Without samples the average is not a number: None. *)
Definition theta_sample (m j : nat) : R := if m =? 1 then 0%R else (2 * PI * INR j / INR (m - 1))%R.
Definition angle_averaged (interpolator : R * R -> C) (q : R) (m : nat) : option R :=
  if m =? 0 then None
  else Some (rsum (fun j => Cnorm2 (interpolator (q * cos (theta_sample m j), q * sin (theta_sample m j))%R)) m / INR m)%R.
