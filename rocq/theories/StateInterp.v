(** Model of the position and momentum forms of a state vector, and of the interpolation of a
    state vector in momentum.  No proofs here. *)
From Coq Require Import Reals.
From Verif Require Import ZLib Csum DFT NumPy Index Basis Operator Wavepacket StateList.
Local Open Scope nat_scope.

(** state_vector/conversion.py:103-122 [convert_state_vector_to_position_basis], 125-144
    [convert_state_vector_to_momentum_basis], 147-166
    [convert_state_dual_vector_to_position_basis], 169-188
    [convert_state_dual_vector_to_momentum_basis].  Iterating over the basis needs a stack of
    axes: any other basis raises. *)
Definition state_to_position (same : basis -> basis -> bool) (v : vector) : option vector :=
  match vbasis v with BTuple axes => convert_vector_to same v (as_fundamental_position axes) | _ => None end.
Definition state_to_momentum (same : basis -> basis -> bool) (v : vector) : option vector :=
  match vbasis v with BTuple axes => convert_vector_to same v (as_fundamental_transformed axes) | _ => None end.
Definition dual_to_position (same : basis -> basis -> bool) (v : vector) : option vector :=
  match vbasis v with BTuple axes => convert_dual_to same v (as_fundamental_position axes) | _ => None end.
Definition dual_to_momentum (same : basis -> basis -> bool) (v : vector) : option vector :=
  match vbasis v with BTuple axes => convert_dual_to same v (as_fundamental_transformed axes) | _ => None end.

(** conversion.py:213-223, one axis.  In [idx := next(...) is not None] the comparison binds
    before the assignment, so [idx] is True when [axes] has an entry equal to the number of the
    axis, and [shape[idx]] is [shape[1]]; IndexError when there is none.  The basis asserts
    n <= fundamental_n (basis/basis.py:158-162).  An axis not named is kept; a negative number
    names none. *)
Definition momentum_axis (shape : list nat) (axes : list Z) (iax n : nat) : option basis :=
  if existsb (fun jax => Z.eqb jax (Z.of_nat iax)) axes
  then match nth_error shape 1 with
       | Some m => if n <=? m then Some (BTrans n m) else None
       | None => None
       end
  else Some (BFundT n).
Fixpoint momentum_axes (shape : list nat) (axes : list Z) (iax : nat) (ns : list nat) : option (list basis) :=
  match ns with
  | [] => Some []
  | n :: ns =>
      match momentum_axis shape axes iax n, momentum_axes shape axes (S iax) ns with
      | Some b, Some l => Some (b :: l)
      | _, _ => None
      end
  end.

(** conversion.py:191-226 [interpolate_state_vector_momentum]; the [n] of the converted basis
    is the product of the fundamental sizes. *)
Definition interpolate_state_vector_momentum (same : basis -> basis -> bool) (v : vector) (shape : list nat) (axes : list Z) : option vector :=
  match vbasis v with
  | BTuple saxes =>
      match convert_vector_to same v (as_fundamental_transformed saxes), momentum_axes shape axes 0 (map bfund saxes) with
      | Some c, Some l =>
          Some {| vbasis := BTuple l;
                  vdata := {| ashape := ashape (vdata c);
                              aflat := fun t => Cmult (aflat (vdata c) t)
                                (RtoC (sqrt (INR (nprod shape) / INR (nprod (map bfund saxes))))) |} |}
      | _, _ => None
      end
  | _ => None
  end.
