(** Model of sums and averages over axes: operator/operator.py, operator/operator_list.py
    and probability_vector/probability_vector.py.  No proofs here. *)
From Coq Require Import Reals.
From Verif Require Import ZLib Csum DFT NumPy Basis Operator.
Local Open Scope nat_scope.

(** The [axis] argument of np.sum and np.average for an array with [nd] axes: negative
    values count from the end; out of range values and repeated axes raise. *)
Fixpoint has_dup (l : list nat) : bool :=
  match l with [] => false | x :: l => existsb (Nat.eqb x) l || has_dup l end.
Fixpoint all_some {A} (l : list (option A)) : option (list A) :=
  match l with
  | [] => Some []
  | None :: _ => None
  | Some x :: l => match all_some l with Some r => Some (x :: r) | None => None end
  end.
Definition normal_axes (nd : nat) (axes : list Z) : option (list nat) :=
  match all_some (map (python_index nd) axes) with
  | Some l => if has_dup l then None else Some l
  | None => None
  end.

(** One flag per axis: is it summed over? *)
Definition axis_mask (nd : nat) (axes : list nat) : list bool :=
  map (fun i => existsb (Nat.eqb i) axes) (seq 0 nd).

(** The elements of a list at the axes that are kept. *)
Fixpoint keep {A} (mask : list bool) (l : list A) : list A :=
  match mask, l with
  | true :: mask, _ :: l => keep mask l
  | false :: mask, x :: l => x :: keep mask l
  | _, _ => []
  end.
Fixpoint drop {A} (mask : list bool) (l : list A) : list A :=
  match mask, l with
  | true :: mask, x :: l => x :: drop mask l
  | false :: mask, _ :: l => drop mask l
  | _, _ => []
  end.

(** [np.sum] over the flagged axes of an array of shape [s]. *)
Fixpoint reduce_sum (mask : list bool) (s : list nat) (a : list nat -> C) (out : list nat) : C :=
  match mask, s with
  | true :: mask, n :: s => csum (fun i => reduce_sum mask s (fun idx => a (i :: idx)) out) n
  | false :: mask, _ :: s => reduce_sum mask s (fun idx => a (hd 0 out :: idx)) (tl out)
  | _, _ => a []
  end.

(** [np.sum(data.reshape(s), axis=axes).reshape(-1)]. *)
Definition np_sum (a : ndarray) (s : list nat) (axes : list Z) : option ndarray :=
  match reshape a s, normal_axes (length s) axes with
  | Some b, Some ax =>
      let mask := axis_mask (length s) ax in
      let s' := keep mask s in
      Some {| ashape := [nprod s'];
              aflat := fun t => reduce_sum mask s (stack s (aflat b)) (unravel s' t) |}
  | _, _ => None
  end.

(** [np.average(data.reshape(s), axis=axes, weights=None).reshape(-1)]: the sum divided by
    the number of elements summed. *)
Definition np_average (a : ndarray) (s : list nat) (axes : list Z) : option ndarray :=
  match reshape a s, normal_axes (length s) axes, np_sum a s axes with
  | Some _, Some ax, Some r =>
      Some {| ashape := ashape r;
              aflat := fun t => Cdiv (aflat r t) (RtoC (INR (nprod (drop (axis_mask (length s) ax) s)))) |}
  | _, _, _ => None
  end.

(** [tuple(b for (i, b) in enumerate(basis) if i not in axes)]: here a negative axis does
    not match any position. *)
Definition not_in_axes {A} (l : list A) (axes : list Z) : list A :=
  map snd (filter (fun p => negb (existsb (Z.eqb (Z.of_nat (fst p))) axes)) (combine (seq 0 (length l)) l)).

(** [tuple(range(n))]. *)
Definition range_axes (n : nat) : list Z := map Z.of_nat (seq 0 n).

(** ** operator/operator.py *)

(** A diagonal operator whose two bases are the tuple basis [dbasis]. *)
Record diagonal := { dbasis : list basis; ddata : ndarray }.

(** 100-124 [sum_diagonal_operator_over_axes]. *)
Definition sum_diagonal_operator_over_axes (o : diagonal) (axes : list Z) : option diagonal :=
  match np_sum (ddata o) (map bsize (dbasis o)) axes with
  | Some d => Some {| dbasis := not_in_axes (dbasis o) axes; ddata := d |}
  | None => None
  end.

(** 149-179 [average_eigenvalues] without weights.  With [axis=None] the axes are
    [range(eigenvalues["basis"].ndim)], and eigenvalues["basis"] is the pair of the row
    basis and the column basis, so there are two of them. *)
Definition average_eigenvalues (o : diagonal) (axis : option (list Z)) : option diagonal :=
  let axes := match axis with None => range_axes 2 | Some l => l end in
  match np_average (ddata o) (map bsize (dbasis o)) axes with
  | Some d => Some {| dbasis := not_in_axes (dbasis o) axes; ddata := d |}
  | None => None
  end.

(** 182-219 [average_eigenvalues_list]: [lb] is the list basis; again two default axes. *)
Definition average_eigenvalues_list (lb : basis) (o : diagonal) (axis : option (list Z)) : option diagonal :=
  let axes := match axis with None => range_axes 2 | Some l => l end in
  match np_average (ddata o) (bsize lb :: map bsize (dbasis o)) (map (Z.add 1) axes) with
  | Some d => Some {| dbasis := not_in_axes (dbasis o) axes; ddata := d |}
  | None => None
  end.

(** operator/operator_list.py:200-221 [as_flat_operator]: the basis of the operator built
    from a list basis and the basis pair of the list; the data are those of the list. *)
Definition as_flat_operator (o : operator_list) : operator :=
  let b := BTuple [lbasis o; lrow o; lcol o] in
  {| orow := b; ocol := b; odata := ldata o |}.

(** ** probability_vector/probability_vector.py *)

(** 44-56 [from_state_vector], 59-73 [from_state_vector_list]: np.square(np.abs(data)). *)
Definition np_square_abs (z : C) : C := Cmult (RtoC (Cmod z)) (RtoC (Cmod z)).
Definition probability_from_state (data : ndarray) : ndarray :=
  {| ashape := ashape data; aflat := fun t => np_square_abs (aflat data t) |}.

(** 133-157 [sum_probability].  The "basis" of the result is a plain python tuple, not a
    TupleBasis. *)
Inductive basis_value := BasisObject (l : list basis) | PlainTuple (l : list basis).
Definition sum_probability (b : basis_value) (data : ndarray) (axis : option (list Z))
  : option (basis_value * ndarray) :=
  match b with
  | PlainTuple _ => None (* a tuple has neither ndim nor shape *)
  | BasisObject l =>
      let axes := match axis with None => range_axes (length l) | Some ax => ax end in
      match np_sum data (map bsize l) axes with
      | Some d => Some (PlainTuple (not_in_axes l axes), d)
      | None => None
      end
  end.

(** 160-187 [sum_probabilities]: [lb] is the list basis, [l] the state basis; the first
    length is inferred; with [axis=None] the axes are range(2), from the pair of bases. *)
Definition sum_probabilities (lb : basis) (l : list basis) (data : ndarray) (axis : option (list Z))
  : option (list basis * ndarray) :=
  let axes := match axis with None => range_axes 2 | Some ax => ax end in
  match reshape_auto data (map bsize l) with
  | None => None
  | Some d0 =>
      match np_sum d0 (ashape d0) (map (Z.add 1) axes) with
      | Some d => Some (not_in_axes l axes, d)
      | None => None
      end
  end.

(** 190-246 [average_probabilities] without weights: over the whole list, or over axes of
    the list basis. *)
Definition average_probabilities_all (lb b : basis) (data : ndarray) : option (basis * ndarray) :=
  match np_average data [bsize lb; bsize b] [0%Z] with
  | Some d => Some (b, d)
  | None => None
  end.
Definition average_probabilities (lb : list basis) (b : basis) (data : ndarray) (axes : list Z)
  : option (list basis * ndarray) :=
  let s := map bsize lb in
  if nprod s =? 0 then None
  else if nprod (ashape data) mod nprod s =? 0 then
    match np_average data (s ++ [nprod (ashape data) / nprod s]) axes with
    | Some d => Some (not_in_axes lb axes, d)
    | None => None
    end
  else None.

(** 76-97 [get_probability] with a flat index. *)
Definition get_probability (lb b : basis) (data : ndarray) (idx : Z) : option (basis * ndarray) :=
  match reshape data [bsize lb; bsize b], python_index (bsize lb) idx with
  | Some a, Some i => Some (b, select_row a i)
  | _, _ => None
  end.
