(** Model of state_vector/state_vector.py and state_vector/state_vector_list.py.
    No proofs here. *)
From Coq Require Import Reals.
From Verif Require Import ZLib Csum DFT NumPy Index Basis Operator Reduce Localize.
Local Open Scope nat_scope.

(** state_vector/state_vector.py:15-26 [StateVector], [StateDualVector]. *)
Record vector := { vbasis : basis; vdata : ndarray }.
(** state_vector/state_vector_list.py:46-55 [StateVectorList]: the pair of bases and the data. *)
Record state_list := { slist : basis; sbasis : basis; sdata : ndarray }.

Definition conj_data (a : ndarray) : ndarray := {| ashape := ashape a; aflat := fun t => Cconj (aflat a t) |}.

(** ** state_vector/state_vector.py *)

(** 29-41 [as_vector], 44-56 [as_dual_vector]. *)
Definition as_vector (v : vector) : vector := {| vbasis := vbasis v; vdata := conj_data (vdata v) |}.
Definition as_dual_vector (v : vector) : vector := {| vbasis := vbasis v; vdata := conj_data (vdata v) |}.

(** 59-75 [calculate_normalization]. *)
Definition calculate_normalization (v : vector) : R :=
  rsum (fun t => Cmod (aflat (vdata v) t) ^ 2)%R (nprod (ashape (vdata v))).

(** 78-94 [calculate_inner_product] of two one-dimensional arrays; the second argument is
    the dual vector, whose data are used as they are. *)
Definition calculate_inner_product (v dual : vector) : option C :=
  match ashape (vdata v), ashape (vdata dual) with
  | [n], [m] =>
      if m =? n then Some (csum (fun k => Cmult (aflat (vdata dual) k) (aflat (vdata v) k)) n) else None
  | _, _ => None
  end.

(** ** state_vector/state_vector_list.py *)

(** The data as a matrix, [data.reshape(basis.shape)]. *)
Definition as_matrix (s : state_list) : option ndarray := reshape (sdata s) [bsize (slist s); bsize (sbasis s)].

(** The position in the list meant by an index: a tuple goes through get_flat_index with
    mode "wrap" and needs a stacked list basis. *)
Definition list_position (lb : basis) (p : point) : option nat :=
  match p with
  | Flat i => python_index (bsize lb) i
  | Stacked l =>
      match lb with
      | BTuple axes => get_flat_index (map bsize axes) l MWrap
      | _ => None
      end
  end.

(** 74-99 [get_state_vector]. *)
Definition get_state_vector (s : state_list) (p : point) : option vector :=
  match as_matrix s, list_position (slist s) p with
  | Some a, Some i => Some {| vbasis := sbasis s; vdata := select_row a i |}
  | _, _ => None
  end.

(** 102-122 [get_weighted_state_vector]: tensordot over the list with the weights. *)
Definition get_weighted_state_vector (s : state_list) (w : vector) : option vector :=
  let n := bsize (slist s) in
  if n =? 0 then None
  else if nprod (ashape (sdata s)) mod n =? 0 then
    match ashape (vdata w) with
    | [k] =>
        if k =? n then
          let m := nprod (ashape (sdata s)) / n in
          Some {| vbasis := sbasis s;
                  vdata := {| ashape := [m];
                              aflat := fun t => csum (fun i => Cmult (aflat (vdata w) i) (aflat (sdata s) (i * m + t))) n |} |}
        else None
    | _ => None
    end
  else None.

(** 125-143 [get_state_dual_vector]; flat indices only. *)
Definition get_state_dual_vector (s : state_list) (i : Z) : option vector :=
  match as_matrix s, python_index (bsize (slist s)) i with
  | Some a, Some i => Some {| vbasis := sbasis s; vdata := conj_data (select_row a i) |}
  | _, _ => None
  end.

(** 146-168 [state_vector_list_into_iter]. *)
Definition state_vector_list_into_iter (s : state_list) : option (list vector) :=
  match as_matrix s with
  | Some a => Some (map (fun i => {| vbasis := sbasis s; vdata := select_row a i |}) (seq 0 (bsize (slist s))))
  | None => if bsize (slist s) =? 0 then Some [] else None (* the data are reshaped once per state *)
  end.

(** 171-179 [as_state_vector_list]: the basis of the first state; np.array raises when the
    data do not have one common shape. *)
Definition as_state_vector_list (l : list vector) : option state_list :=
  match l with
  | [] => None
  | v :: _ =>
      if forallb (fun w => if list_eq_dec Nat.eq_dec (ashape (vdata w)) (ashape (vdata v)) then true else false) l then
        let m := nprod (ashape (vdata v)) in
        Some {| slist := BFund (length l); sbasis := vbasis v;
                sdata := {| ashape := [length l * m];
                            aflat := fun t => aflat (vdata (nth (t / m) l v)) (t mod m) |} |}
      else None
  end.

(** state_vector/conversion.py:62-80 [convert_state_vector_list_to_basis]. *)
Definition convert_state_list (same : basis -> basis -> bool) (s : state_list) (b : basis) : option state_list :=
  match as_matrix s, convert same (sbasis s) b with
  | Some a, Some F =>
      Some {| slist := slist s; sbasis := b;
              sdata := ravel_array (array2 (bsize (slist s)) (bsize b) (fun i => F (at2 a i))) |}
  | _, _ => None
  end.

(** state_vector/conversion.py:43-59 [convert_state_vector_to_basis] and 83-99
    [convert_state_dual_vector_to_basis] of one-dimensional data. *)
Definition convert_vector_to (same : basis -> basis -> bool) (v : vector) (b : basis) : option vector :=
  match reshape (vdata v) [bsize (vbasis v)], convert same (vbasis v) b with
  | Some a, Some F => Some {| vbasis := b; vdata := {| ashape := [bsize b]; aflat := F (aflat a) |} |}
  | _, _ => None
  end.
Definition convert_dual_to (same : basis -> basis -> bool) (v : vector) (b : basis) : option vector :=
  match reshape (vdata v) [bsize (vbasis v)], convert_dual same (vbasis v) b with
  | Some a, Some F => Some {| vbasis := b; vdata := {| ashape := [bsize b]; aflat := F (aflat a) |} |}
  | _, _ => None
  end.

(** 182-206 [calculate_inner_products]: einsum "ik, jk -> ij". *)
Definition calculate_inner_products (same : basis -> basis -> bool) (s0 s1 : state_list) : option operator :=
  match convert_state_list same s1 (sbasis s0) with
  | Some c =>
      match as_matrix s0, as_matrix c with
      | Some a, Some d =>
          Some {| orow := slist s0; ocol := slist s1;
                  odata := ravel_array (array2 (bsize (slist s0)) (bsize (slist s1)) (fun i j =>
                    csum (fun k => Cmult (Cconj (at2 a i k)) (at2 d j k)) (bsize (sbasis s0)))) |}
      | _, _ => None
      end
  | None => None
  end.

(** 209-233 [calculate_inner_products_elementwise]: einsum "ik, ik -> i"; in an einsum an
    axis of length one goes with any length. *)
Definition einsum_length (n m : nat) : option nat :=
  if n =? m then Some n else if n =? 1 then Some m else if m =? 1 then Some n else None.
Definition einsum_pos (n i : nat) : nat := if n =? 1 then 0 else i.
Definition calculate_inner_products_elementwise (same : basis -> basis -> bool) (s0 s1 : state_list)
  : option (basis * ndarray) :=
  match convert_state_list same s1 (sbasis s0) with
  | Some c =>
      match as_matrix s0, as_matrix c, einsum_length (bsize (slist s0)) (bsize (slist s1)) with
      | Some a, Some d, Some n =>
          Some (slist s0, {| ashape := [n]; aflat := fun i =>
            csum (fun k => Cmult (Cconj (at2 a (einsum_pos (bsize (slist s0)) i) k))
                                 (at2 d (einsum_pos (bsize (slist s1)) i) k)) (bsize (sbasis s0)) |})
      | _, _, _ => None
      end
  | None => None
  end.

(** 236-262 [calculate_inner_products_eigenvalues]: nothing is converted; the eigenvalues
    have one entry per state (other lengths are not modelled). *)
Definition calculate_inner_products_eigenvalues (s0 : state_list) (e0 : nat -> C) (s1 : state_list) (e1 : nat -> C)
  : option operator :=
  match as_matrix s0, as_matrix s1, einsum_length (bsize (sbasis s0)) (bsize (sbasis s1)) with
  | Some a, Some d, Some n =>
      Some {| orow := slist s0; ocol := slist s1;
              odata := ravel_array (array2 (bsize (slist s0)) (bsize (slist s1)) (fun i j =>
                csum (fun k => Cmult (Cmult (Cmult (Cconj (at2 a i (einsum_pos (bsize (sbasis s0)) k)))
                                                   (at2 d j (einsum_pos (bsize (sbasis s1)) k)))
                                            (Cconj (e0 i))) (e1 j)) n)) |}
  | _, _, _ => None
  end.

(** 265-297 [average_state_vector] without weights, for a stacked list basis. *)
Definition average_state_vector (lb : list basis) (b : basis) (data : ndarray) (axis : option (list Z))
  : option state_list :=
  let axes := match axis with None => range_axes (length lb) | Some l => l end in
  let s := map bsize lb in
  if nprod s =? 0 then None
  else if nprod (ashape data) mod nprod s =? 0 then
    match np_average data (s ++ [nprod (ashape data) / nprod s]) axes with
    | Some d => Some {| slist := BTuple (not_in_axes lb axes); sbasis := b; sdata := d |}
    | None => None
    end
  else None.

(** 300-320 [get_basis_states]. *)
Definition get_basis_states (b : basis) : state_list :=
  {| slist := BFund (bsize b); sbasis := b;
     sdata := ravel_array (array2 (bsize b) (bsize b) (fun i j => if i =? j then RtoC 1%R else RtoC 0%R)) |}.

(** The shape of [data[sl]], and whether numpy accepts the integers in [sl]. *)
Fixpoint sliced_shape (shape : list nat) (sl : list (option nat)) : list nat :=
  match shape, sl with
  | n :: shape, None :: sl => n :: sliced_shape shape sl
  | _ :: shape, Some _ :: sl => sliced_shape shape sl
  | _, _ => shape
  end.
Fixpoint slice_ok (shape : list nat) (sl : list (option nat)) : bool :=
  match shape, sl with
  | n :: shape, None :: sl => slice_ok shape sl
  | n :: shape, Some i :: sl => (i <? n) && slice_ok shape sl
  | _, [] => true
  | [], _ => false
  end.

(** 323-357 [get_state_along_axis], for axes and indices that are not negative.  The basis
    keeps the order of the list basis; the data are in the order of [axes]. *)
Definition get_state_along_axis (lb : list basis) (b : basis) (data : ndarray) (axes : list nat) (idx : option (list nat))
  : option state_list :=
  let nd := length lb in
  let idx := match idx with None => repeat 0 (nd - length axes) | Some l => l end in
  let s := map bsize lb in
  if nprod s =? 0 then None
  else if nprod (ashape data) mod nprod s =? 0 then
    let shape := s ++ [nprod (ashape data) / nprod s] in
    let sl := slice_ignoring_axes idx (axes ++ [nd]) in
    let sliced := sliced_shape shape sl in
    if slice_ok shape sl && (length sliced =? length (axes ++ [nd])) then
      let out := map (fun j => nth j sliced 0) (get_position_in_sorted (axes ++ [nd])) in
      Some {| slist := BTuple (map snd (filter (fun p => existsb (Nat.eqb (fst p)) axes) (combine (seq 0 nd) lb)));
              sbasis := b;
              sdata := {| ashape := [nprod out];
                          aflat := flatten out (get_data_in_axes (stack shape (aflat data)) (axes ++ [nd]) idx) |} |}
    else None
  else None.
