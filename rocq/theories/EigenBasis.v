(** Model of the bases of eigenstates and of the remaining functions of
    state_vector/eigenstate_calculation.py.  No proofs here. *)
From Coq Require Import Reals.
From Verif Require Import ZLib Csum DFT NumPy Index Basis Operator Wavepacket StateList Localize.
Local Open Scope nat_scope.

(** state_vector/eigenstate_calculation.py:51-67 [calculate_eigenvectors_hermitian] of an
    operator: the data as a matrix, which scipy wants square; [subset_by_index] None means all
    states.  The result is the eigenvalues and the list of states in the row basis. *)
Definition eigenstates_hermitian (eigh : eigh_fn) (o : operator) (subset : option (Z * Z))
  : option (nat * (nat -> R) * (nat -> nat -> C)) :=
  match reshape (odata o) [bsize (orow o); bsize (ocol o)] with
  | None => None
  | Some a =>
      if bsize (orow o) =? bsize (ocol o) then
        let (lo, hi) := match subset with Some s => s | None => (0%Z, Z.of_nat (bsize (orow o)) - 1)%Z end in
        match calculate_eigenvectors_hermitian eigh (bsize (orow o)) (at2 a) lo hi with
        | Some (e, v) => Some (Z.to_nat (hi - lo + 1), e, v)
        | None => None
        end
      else None
  end.

(** 212-230 [get_eigenstate_basis_from_hamiltonian]; 236-254
    [get_eigenstate_basis_stacked_from_hamiltonian] and
    stacked_basis/potential_basis.py:81-99 [get_potential_basis_config_basis] differ in the
    class only. *)
Definition get_eigenstate_basis (eigh : eigh_fn) (o : operator) (subset : option (Z * Z)) : option basis :=
  match eigenstates_hermitian eigh o subset with
  | Some (n, _, v) => Some (BExpl n v (orow o))
  | None => None
  end.

(** basis/explicit_basis.py:259-262 [shape] of ExplicitStackedBasisWithLength: that of the
    basis the vectors are given in. *)
Definition stacked_shape (b : basis) : option (list nat) :=
  match b with BExpl _ _ (BTuple l) => Some (map bsize l) | BTuple l => Some (map bsize l) | _ => None end.

(** 70-81 [calculate_eigenvectors]; [eig n A] stands for np.linalg.eig: eigenvalues and, in
    columns, eigenvectors.  The result is the states, in rows, and the eigenvalues. *)
Definition eig_fn := nat -> (nat -> nat -> C) -> (nat -> C) * (nat -> nat -> C).
Definition calculate_eigenvectors (eig : eig_fn) (o : operator) : option ((nat -> C) * (nat -> nat -> C)) :=
  match reshape (odata o) [bsize (orow o); bsize (ocol o)] with
  | None => None
  | Some a =>
      if bsize (orow o) =? bsize (ocol o) then
        let (e, v) := eig (bsize (orow o)) (at2 a) in Some (e, fun k i => v i k)
      else None
  end.

(** 185-209 [calculate_operator_inner_product]: multi_dot of a row, a matrix and a column. *)
Definition calculate_operator_inner_product (dual : vector) (o : operator) (v : vector) : option C :=
  match ashape (vdata dual), reshape (odata o) [bsize (orow o); bsize (ocol o)], ashape (vdata v) with
  | [n], Some a, [m] =>
      if (n =? bsize (orow o)) && (m =? bsize (ocol o)) then
        Some (csum (fun i => Cmult (aflat (vdata dual) i) (csum (fun j => Cmult (at2 a i j) (aflat (vdata v) j)) m)) n)
      else None
  | _, _, _ => None
  end.

(** operator/operations.py:313-339 [apply_operator_to_states]: einsum "ik,jk->ji", then each
    row is divided by its norm.  The result is the list and the norms. *)
Definition apply_operator_to_states (same : basis -> basis -> bool) (o : operator) (s : state_list)
  : option (state_list * (nat -> R)) :=
  match convert_state_list same s (ocol o) with
  | Some c =>
      match reshape (odata o) [bsize (orow o); bsize (ocol o)], as_matrix c with
      | Some a, Some b =>
          let data := fun j i => csum (fun k => Cmult (at2 a i k) (at2 b j k)) (bsize (ocol o)) in
          let norm := fun j => sqrt (rsum (fun i => Cmod (Cmult (data j i) (data j i))) (bsize (orow o))) in
          Some ({| slist := slist c; sbasis := orow o;
                   sdata := array2 (bsize (slist c)) (bsize (orow o)) (fun j i => Cdiv (data j i) (RtoC (norm j))) |}, norm)
      | _, _ => None
      end
  | None => None
  end.
