(** Model of potential/potential.py, the potentials read from JSON files.  A file is the object that
    [json.load] gives; the keys are present, and vectors and heights are lists of numbers.  Values
    other than numbers and lists are left out.  Arithmetic is exact.  No proofs here. *)
From Coq Require Import Reals.
From Verif Require Import ZLib Csum DFT NumPy Basis Operator Hamiltonian VolumeBasis.
Local Open Scope nat_scope.

(** The values of [points]: numbers and nested lists. *)
Inductive json : Type := JNumber (x : R) | JList (l : list json).

Fixpoint every {A} (l : list (option A)) : option (list A) :=
  match l with
  | [] => Some []
  | Some x :: l => match every l with Some r => Some (x :: r) | None => None end
  | None :: _ => None
  end.
(** [np.array] of nested lists: the shape and the entries in order.  Lists of different shapes
    raise. *)
Fixpoint np_array (j : json) : option (list nat * list R) :=
  match j with
  | JNumber x => Some ([], [x])
  | JList l =>
      match every (map np_array l) with
      | None => None
      | Some [] => Some ([0], [])
      | Some ((s, d) :: rest) =>
          if forallb (fun p => if list_eq_dec Nat.eq_dec (fst p) s then true else false) rest
          then Some (length l :: s, concat (d :: map snd rest)) else None
      end
  end.

(** potential/potential.py:78-115 [load_potential_grid_json].  Entries of [shape] that are not there
    raise; the vectors are not checked.  The data keep the shape of the points. *)
Definition load_potential_grid_json (delta_x0 delta_x1 delta_x2 : list R) (points : json) : option (list length_axis * ndarray) :=
  match np_array points with
  | Some (shape, data) =>
      match shape with
      | n0 :: n1 :: n2 :: _ =>
          Some ([{| la_basis := BFund n0; la_delta := delta_x0 |}; {| la_basis := BFund n1; la_delta := delta_x1 |}; {| la_basis := BFund n2; la_delta := delta_x2 |}],
            {| ashape := shape; aflat := fun i => RtoC (nth i data 0%R) |})
      | _ => None
      end
  | None => None
  end.

(** 154-186 [load_uneven_potential_json]: two axes, the heights and the data. *)
Definition load_uneven_potential_json (delta_x0 delta_x1 z_points : list R) (points : json) : option (list length_axis * list R * ndarray) :=
  match np_array points with
  | Some (shape, data) =>
      match shape with
      | n0 :: n1 :: _ =>
          Some ([{| la_basis := BFund n0; la_delta := delta_x0 |}; {| la_basis := BFund n1; la_delta := delta_x1 |}], z_points,
            {| ashape := shape; aflat := fun i => RtoC (nth i data 0%R) |})
      | _ => None
      end
  | None => None
  end.
