(** Model of operator/operator.py, operator/operator_list.py, operator/operations.py,
    operator/conversion.py and of the operator part of
    state_vector/eigenstate_calculation.py.  No proofs here. *)
From Coq Require Import Reals.
From Verif Require Import ZLib Csum DFT NumPy Basis.
Local Open Scope nat_scope.

(** A numpy array: shape and row-major data. *)
Record ndarray := { ashape : list nat; aflat : nat -> C }.

(** [a.reshape(s)]; ValueError when the sizes differ. *)
Definition reshape (a : ndarray) (s : list nat) : option ndarray :=
  if nprod (ashape a) =? nprod s then Some {| ashape := s; aflat := aflat a |} else None.

(** [a.reshape(-1, *s)]: the first length is inferred. *)
Definition reshape_auto (a : ndarray) (s : list nat) : option ndarray :=
  if (nprod s =? 0) then None
  else if nprod (ashape a) mod nprod s =? 0
  then Some {| ashape := nprod (ashape a) / nprod s :: s; aflat := aflat a |} else None.

(** [a.ravel()], [a.reshape(-1)]. *)
Definition ravel_array (a : ndarray) : ndarray :=
  {| ashape := [nprod (ashape a)]; aflat := aflat a |}.

(** Entries of arrays with two and three axes. *)
Definition at2 (a : ndarray) (i j : nat) : C := aflat a (i * nth 1 (ashape a) 0 + j).
Definition at3 (a : ndarray) (m i j : nat) : C :=
  aflat a ((m * nth 1 (ashape a) 0 + i) * nth 2 (ashape a) 0 + j).

(** Arrays from entries. *)
Definition array2 (n m : nat) (f : nat -> nat -> C) : ndarray :=
  {| ashape := [n; m]; aflat := fun t => f (t / m) (t mod m) |}.
Definition array3 (l n m : nat) (f : nat -> nat -> nat -> C) : ndarray :=
  {| ashape := [l; n; m]; aflat := fun t => f (t / m / n) ((t / m) mod n) (t mod m) |}.

(** [np.diag]: builds a matrix from a vector, extracts the diagonal of a matrix. *)
Definition np_diag (a : ndarray) : option ndarray :=
  match ashape a with
  | [n] => Some (array2 n n (fun i j => if i =? j then aflat a i else RtoC 0%R))
  | [n; m] => Some {| ashape := [Nat.min n m]; aflat := fun i => at2 a i i |}
  | _ => None
  end.

(** numpy broadcasting of two arrays.  Shapes are compared from the last axis. *)
Fixpoint broadcast_rev (s t : list nat) : option (list nat) :=
  match s, t with
  | [], t => Some t
  | s, [] => Some s
  | a :: s, b :: t =>
      match broadcast_rev s t with
      | None => None
      | Some r => if a =? b then Some (a :: r) else if a =? 1 then Some (b :: r)
                  else if b =? 1 then Some (a :: r) else None
      end
  end.
(** Index into an array of (reversed) shape [s] for a (reversed) broadcast index. *)
Fixpoint broadcast_index (s idx : list nat) : list nat :=
  match s, idx with
  | a :: s, i :: idx => (if a =? 1 then 0 else i) :: broadcast_index s idx
  | _, _ => []
  end.
Definition broadcast_op (f : C -> C -> C) (a b : ndarray) : option ndarray :=
  match broadcast_rev (rev (ashape a)) (rev (ashape b)) with
  | None => None
  | Some r =>
      let s := rev r in
      let get x idx := aflat x (ravel (ashape x) (rev (broadcast_index (rev (ashape x)) (rev idx)))) in
      Some {| ashape := s; aflat := fun t => f (get a (unravel s t)) (get b (unravel s t)) |}
  end.

(** operator/operator.py:29-47 [Operator], 49-60 [DiagonalOperator]: a basis pair and
    a data array. *)
Record operator := { orow : basis; ocol : basis; odata : ndarray }.

(** operator/operator_list.py:29-38, 66-72: a list basis, a basis pair and data. *)
Record operator_list := { lbasis : basis; lrow : basis; lcol : basis; ldata : ndarray }.

(** ** operator/operator.py *)

(** 69-81 [as_operator]: np.diag of the data. *)
Definition as_operator (o : operator) : option operator :=
  match np_diag (odata o) with
  | Some d => Some {| orow := orow o; ocol := ocol o; odata := d |}
  | None => None
  end.

(** 84-97 [as_diagonal_operator]. *)
Definition as_diagonal_operator (o : operator) : option operator :=
  match reshape (odata o) [bsize (orow o); bsize (ocol o)] with
  | None => None
  | Some a =>
      match np_diag a with
      | Some d => Some {| orow := orow o; ocol := ocol o; odata := ravel_array d |}
      | None => None
      end
  end.

(** 238-246 [matmul_operator]: the result keeps its two axes. *)
Definition matmul_operator (l r : operator) : option operator :=
  match reshape (odata l) [bsize (orow l); bsize (ocol l)],
        reshape (odata r) [bsize (orow r); bsize (ocol r)] with
  | Some a, Some b =>
      if bsize (ocol l) =? bsize (orow r) then
        Some {| orow := orow l; ocol := ocol r;
                odata := array2 (bsize (orow l)) (bsize (ocol r))
                  (fun i j => csum (fun k => Cmult (at2 a i k) (at2 b k j)) (bsize (ocol l))) |}
      else None
  | _, _ => None
  end.

(** 249-263 [add_operator] and 266-280 [subtract_operator]. *)
Definition add_operator (a b : operator) : option operator :=
  match broadcast_op Cplus (odata a) (odata b) with
  | Some d => Some {| orow := orow a; ocol := ocol a; odata := d |}
  | None => None
  end.
Definition subtract_operator (a b : operator) : option operator :=
  match broadcast_op Cminus (odata a) (odata b) with
  | Some d => Some {| orow := orow a; ocol := ocol a; odata := d |}
  | None => None
  end.

(** operations.py:295-309 [scale_operator]. *)
Definition scale_operator (c : C) (o : operator) : operator :=
  {| orow := orow o; ocol := ocol o;
     odata := {| ashape := ashape (odata o); aflat := fun t => Cmult (aflat (odata o) t) c |} |}.

(** operations.py:342-361 [get_commutator] and 364-383 [get_anti_commutator]. *)
Definition get_commutator (l r : operator) : option operator :=
  match matmul_operator l r, matmul_operator r l with
  | Some x, Some y => subtract_operator x y
  | _, _ => None
  end.
Definition get_anti_commutator (l r : operator) : option operator :=
  match matmul_operator l r, matmul_operator r l with
  | Some x, Some y => add_operator x y
  | _, _ => None
  end.

(** operator/operator.py:222-235 [apply_function_to_operator]: V f(lambda) V^-1.
    [lam], [V] and [Vinv] are what np.linalg.eig and np.linalg.inv returned. *)
Definition apply_function_to_operator (o : operator) (f : C -> C)
    (lam : nat -> C) (V Vinv : nat -> nat -> C) : operator :=
  {| orow := orow o; ocol := ocol o;
     odata := array2 (bsize (orow o)) (bsize (orow o))
       (fun a b => csum (fun k => Cmult (Cmult (f (lam k)) (V a k)) (Vinv k b)) (bsize (orow o))) |}.

(** ** operator/conversion.py *)

(** 32-53 [convert_operator_to_basis]. *)
Definition convert_operator_to_basis (same : basis -> basis -> bool) (o : operator)
    (row col : basis) : option operator :=
  match reshape (odata o) [bsize (orow o); bsize (ocol o)],
        convert_matrix same (orow o) row (ocol o) col with
  | Some a, Some F =>
      Some {| orow := row; ocol := col;
              odata := ravel_array (array2 (bsize row) (bsize col) (F (at2 a))) |}
  | _, _ => None
  end.

(** 76-103 [convert_operator_list_to_basis]. *)
Definition convert_operator_list_to_basis (same : basis -> basis -> bool) (o : operator_list)
    (row col : basis) : option operator_list :=
  match reshape (ldata o) [bsize (lbasis o); bsize (lrow o); bsize (lcol o)],
        convert_matrix same (lrow o) row (lcol o) col with
  | Some a, Some F =>
      Some {| lbasis := lbasis o; lrow := row; lcol := col;
              ldata := ravel_array (array3 (bsize (lbasis o)) (bsize row) (bsize col)
                                      (fun m => F (at3 a m))) |}
  | _, _ => None
  end.

(** ** operator/operator_list.py *)

(** 100-121 [diagonal_operator_list_as_full]; [n] is the length of the row basis. *)
Definition diagonal_operator_list_as_full (o : operator_list) : option operator_list :=
  let n := bsize (lrow o) in
  match reshape_auto (ldata o) [n] with
  | None => None
  | Some a =>
      Some {| lbasis := lbasis o; lrow := lrow o; lcol := lcol o;
              ldata := ravel_array (array3 (nth 0 (ashape a) 0) n n
                (fun i j k => Cmult (at2 a i j) (cdelta j k))) |}
  end.

(** 124-145 [operator_list_as_diagonal]. *)
Definition operator_list_as_diagonal (o : operator_list) : option operator_list :=
  let n := bsize (lrow o) in
  match reshape_auto (ldata o) [n; n] with
  | None => None
  | Some a =>
      Some {| lbasis := lbasis o; lrow := lrow o; lcol := lcol o;
              ldata := ravel_array (array2 (nth 0 (ashape a) 0) n (fun i j => at3 a i j j)) |}
  end.

(** 43-63 [select_operator]: row [idx] of the data reshaped to
    (list, rows*columns); a negative index counts from the end, out of range raises. *)
Definition python_index (n : nat) (i : Z) : option nat :=
  if (0 <=? i)%Z && (i <? Z.of_nat n)%Z then Some (Z.to_nat i)
  else if (- Z.of_nat n <=? i)%Z && (i <? 0)%Z then Some (Z.to_nat (i + Z.of_nat n)) else None.

Definition select_row (a : ndarray) (i : nat) : ndarray :=
  {| ashape := tl (ashape a); aflat := fun t => aflat a (i * nprod (tl (ashape a)) + t) |}.

Definition select_operator (o : operator_list) (idx : Z) : option operator :=
  match reshape (ldata o) [bsize (lbasis o); bsize (BTuple [lrow o; lcol o])],
        python_index (bsize (lbasis o)) idx with
  | Some a, Some i =>
      Some {| orow := lrow o; ocol := lcol o; odata := ravel_array (select_row a i) |}
  | _, _ => None
  end.

(** 77-97 [select_diagonal_operator] (and 224-245 [as_diagonal_operator], the same
    code): the row length is inferred. *)
Definition select_diagonal_operator (o : operator_list) (idx : Z) : option operator :=
  let n0 := bsize (lbasis o) in
  if (n0 =? 0) then None
  else if nprod (ashape (ldata o)) mod n0 =? 0 then
    match python_index n0 idx with
    | Some i =>
        Some {| orow := lrow o; ocol := lcol o;
                odata := ravel_array (select_row
                  {| ashape := [n0; nprod (ashape (ldata o)) / n0]; aflat := aflat (ldata o) |} i) |}
    | None => None
    end
  else None.

(** 148-170 [operator_list_from_iter]: IndexError on an empty list, ValueError from
    np.array when the data have different shapes. *)
Definition list_nat_eqb (a b : list nat) : bool :=
  if list_eq_dec Nat.eq_dec a b then true else false.
Definition operator_list_from_iter (l : list operator) : option operator_list :=
  match l with
  | [] => None
  | o :: _ =>
      let s := ashape (odata o) in
      if forallb (fun x => list_nat_eqb (ashape (odata x)) s) l then
        Some {| lbasis := BFund (length l); lrow := orow o; lcol := ocol o;
                ldata := ravel_array
                  {| ashape := length l :: s;
                     aflat := fun t => aflat (odata (nth (t / nprod s) l o)) (t mod nprod s) |} |}
      else None
  end.

(** 173-197 [operator_list_into_iter]. *)
Definition operator_list_into_iter (o : operator_list) : option (list operator) :=
  match reshape (ldata o) [bsize (lbasis o); bsize (BTuple [lrow o; lcol o])] with
  | None => None
  | Some a =>
      Some (map (fun i => {| orow := lrow o; ocol := lcol o; odata := select_row a i |})
                (seq 0 (bsize (lbasis o))))
  end.

(** ** operator/operations.py *)

(** 55-86 [matmul_list_operator]: after conversion the data are reshaped with the
    shape of the operator before conversion. *)
Definition matmul_list_operator (same : basis -> basis -> bool) (l : operator_list) (r : operator)
  : option operator_list :=
  match convert_operator_to_basis same r (lcol l) (ocol r) with
  | None => None
  | Some c =>
      match reshape_auto (ldata l) [bsize (lrow l); bsize (lcol l)],
            reshape (odata c) [bsize (orow r); bsize (ocol r)] with
      | Some a, Some b =>
          if bsize (lcol l) =? bsize (orow r) then
            Some {| lbasis := lbasis l; lrow := lrow l; lcol := ocol r;
                    ldata := ravel_array (array3 (nth 0 (ashape a) 0) (bsize (lrow l)) (bsize (ocol r))
                      (fun m i j => csum (fun k => Cmult (at3 a m i k) (at2 b k j)) (bsize (lcol l)))) |}
          else None
      | _, _ => None
      end
  end.

(** 89-119 [matmul_operator_list]. *)
Definition matmul_operator_list (same : basis -> basis -> bool) (l : operator) (r : operator_list)
  : option operator_list :=
  match convert_operator_list_to_basis same r (ocol l) (lcol r) with
  | None => None
  | Some c =>
      match reshape (odata l) [bsize (orow l); bsize (ocol l)],
            reshape_auto (ldata c) [bsize (lrow c); bsize (lcol c)] with
      | Some a, Some b =>
          Some {| lbasis := lbasis c; lrow := orow l; lcol := lcol c;
                  ldata := ravel_array (array3 (nth 0 (ashape b) 0) (bsize (orow l)) (bsize (lcol c))
                    (fun m i j => csum (fun k => Cmult (at2 a i k) (at3 b m k j)) (bsize (ocol l)))) |}
      | _, _ => None
      end
  end.

(** 122-153 [matmul_diagonal_list_operator]. *)
Definition matmul_diagonal_list_operator (same : basis -> basis -> bool) (l : operator_list) (r : operator)
  : option operator_list :=
  match convert_operator_to_basis same r (lcol l) (ocol r) with
  | None => None
  | Some c =>
      match reshape_auto (ldata l) [bsize (lcol l)],
            reshape (odata c) [bsize (orow c); bsize (ocol c)] with
      | Some a, Some b =>
          Some {| lbasis := lbasis l; lrow := lrow l; lcol := ocol c;
                  ldata := ravel_array (array3 (nth 0 (ashape a) 0) (bsize (lcol l)) (bsize (ocol c))
                    (fun i k j => Cmult (at2 a i k) (at2 b k j))) |}
      | _, _ => None
      end
  end.

(** 156-186 [matmul_operator_diagonal_list]: again reshaped with the shape before
    conversion; einsum "ik,mk->mik" needs equal lengths of k. *)
Definition matmul_operator_diagonal_list (same : basis -> basis -> bool) (l : operator) (r : operator_list)
  : option operator_list :=
  match convert_operator_to_basis same l (orow l) (lrow r) with
  | None => None
  | Some c =>
      match reshape (odata c) [bsize (orow l); bsize (ocol l)],
            reshape_auto (ldata r) [bsize (lrow r)] with
      | Some a, Some b =>
          if bsize (ocol l) =? bsize (lrow r) then
            Some {| lbasis := lbasis r; lrow := orow l; lcol := lcol r;
                    ldata := ravel_array (array3 (nth 0 (ashape b) 0) (bsize (orow l)) (bsize (lrow r))
                      (fun m i k => Cmult (at2 a i k) (at2 b m k))) |}
          else None
      | _, _ => None
      end
  end.

(** 189-208 [subtract_list_list], 256-275 [add_list_list]. *)
Definition combine_list_list (f : C -> C -> C) (same : basis -> basis -> bool) (l r : operator_list)
  : option operator_list :=
  match convert_operator_list_to_basis same r (lrow l) (lcol l) with
  | None => None
  | Some c =>
      match broadcast_op f (ldata l) (ldata c) with
      | Some d => Some {| lbasis := lbasis l; lrow := lrow l; lcol := lcol l; ldata := d |}
      | None => None
      end
  end.
Definition subtract_list_list := combine_list_list Cminus.
Definition add_list_list := combine_list_list Cplus.

(** 211-231 [get_commutator_operator_list]. *)
Definition get_commutator_operator_list (same : basis -> basis -> bool) (l : operator) (r : operator_list)
  : option operator_list :=
  match convert_operator_list_to_basis same r (orow l) (ocol l) with
  | None => None
  | Some c =>
      match matmul_operator_list same l c, matmul_list_operator same c l with
      | Some x, Some y => subtract_list_list same x y
      | _, _ => None
      end
  end.

(** 234-253 [get_commutator_diagonal_operator_list]. *)
Definition get_commutator_diagonal_operator_list (same : basis -> basis -> bool) (l : operator)
    (r : operator_list) : option operator_list :=
  match matmul_operator_diagonal_list same l r, matmul_diagonal_list_operator same r l with
  | Some x, Some y => subtract_list_list same x y
  | _, _ => None
  end.

(** ** state_vector/eigenstate_calculation.py *)

(** 86-102 [operator_from_eigenstates]: [E j i] is component i of state j, [Einv]
    what np.linalg.inv returned, einsum "ji,j,kj->ik". *)
Definition operator_from_eigenstates (b : basis) (E Einv : nat -> nat -> C) (lam : nat -> C) : operator :=
  let n := bsize b in
  {| orow := b; ocol := b;
     odata := ravel_array (array2 n n
       (fun i k => csum (fun j => Cmult (Cmult (E j i) (lam j)) (Einv k j)) n)) |}.

(** 131-156 [calculate_expectation]. *)
Definition calculate_expectation (same : basis -> basis -> bool) (o : operator)
    (b : basis) (state : nat -> C) : option C :=
  match convert_operator_to_basis same o b b with
  | None => None
  | Some c =>
      match reshape (odata c) [bsize (orow c); bsize (ocol c)] with
      | None => None
      | Some a =>
          Some (csum (fun i => csum (fun j =>
            Cmult (Cmult (Cconj (state i)) (at2 a i j)) (state j)) (bsize b)) (bsize b))
      end
  end.

(** 105-128 [calculate_expectation_diagonal]; the operator data has one axis. *)
Definition calculate_expectation_diagonal (same : basis -> basis -> bool) (o : operator)
    (b : basis) (state : nat -> C) : option C :=
  match convert same b (orow o) with
  | None => None
  | Some f =>
      Some (csum (fun j => Cmult (Cmult (Cconj (f state j)) (aflat (odata o) j)) (f state j))
                 (bsize (orow o)))
  end.

(** operations.py:386-405 [exp_operator]: eigenvectors of the operator are the rows
    of E (np.transpose of what np.linalg.eig returned), then
    [operator_from_eigenstates] with the exponentials of the eigenvalues. *)
Definition cexp (z : C) : C := Cmult (RtoC (exp (fst z))) (cis (snd z)).
Definition exp_operator (o : operator) (V : nat -> nat -> C) (Einv : nat -> nat -> C) (lam : nat -> C)
  : operator :=
  operator_from_eigenstates (orow o) (fun j i => V i j) Einv (fun j => cexp (lam j)).

(** operator/operator.py:283-305 [apply_operator_to_state]: (data, eigenvalue). *)
Definition apply_operator_to_state (same : basis -> basis -> bool) (o : operator)
    (b : basis) (state : nat -> C) : option ((nat -> C) * R) :=
  match convert same b (ocol o), reshape (odata o) [bsize (orow o); bsize (ocol o)] with
  | Some f, Some a =>
      let data := fun i => csum (fun k => Cmult (at2 a i k) (f state k)) (bsize (ocol o)) in
      let norm := sqrt (rsum (fun i => Cmod (Cmult (data i) (data i))) (bsize (orow o))) in
      Some (fun i => Cdiv (data i) (RtoC norm), norm)
  | _, _ => None
  end.
