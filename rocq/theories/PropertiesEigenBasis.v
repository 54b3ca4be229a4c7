(** Properties of bases of eigenstates and of matrix elements (C104). *)
From Coq Require Import Reals.
From Verif Require Import ZLib Csum DFT NumPy Index Spec SpecMatrix Basis SpecBasis Operator SpecOperator StateList SpecStateList
  Localize SpecLocalize EigenBasis SpecEigenBasis EigenBasisProofs EigenBasisFacts.
Local Open Scope R_scope.
Local Open Scope C_scope.

Example ex_C104 : op_wf hop /\ bwf (orow hop) /\ explicit_orthonormal (orow hop) /\ hermitian (bsize (orow hop)) (op_entry hop) /\
  selects (bsize (orow hop)) (Some (1, 1)%Z) 1 1 /\ selects (bsize (orow hop)) None 0 1 /\
  exists E, ascending_spectrum (bsize (orow hop)) (op_entry hop) E.
Proof. exact ex_hop_ok. Qed.

(** The basis holds the chosen eigenstates in ascending order, is orthonormal, and the operator
    converted to it is the diagonal of the eigenvalues. *)
Theorem C104_eigenstate_basis :
  forall same eigh o b, identity_test same -> eigh_ok eigh -> orow o = b -> ocol o = b -> op_wf o -> bwf b ->
  explicit_orthonormal b -> hermitian (bsize b) (op_entry o) ->
  forall subset lo hi E, selects (bsize b) subset lo hi -> (lo <= hi)%nat -> (hi < bsize b)%nat -> ascending_spectrum (bsize b) (op_entry o) E ->
  exists v c, get_eigenstate_basis eigh o subset = Some (BExpl (hi - lo + 1) v b) /\
    bwf (BExpl (hi - lo + 1) v b) /\ explicit_orthonormal (BExpl (hi - lo + 1) v b) /\
    (forall k x, (k < hi - lo + 1)%nat -> (x < bsize b)%nat ->
        csum (fun y => op_entry o x y * v k y) (bsize b) = RtoC (E (lo + k)%nat) * v k x) /\
    convert_operator_to_basis same o (BExpl (hi - lo + 1) v b) (BExpl (hi - lo + 1) v b) = Some c /\
    forall i j, (i < hi - lo + 1)%nat -> (j < hi - lo + 1)%nat -> op_entry c i j = RtoC (E (lo + i)%nat) * cdelta i j.
Proof. exact eigen_basis_states. Qed.
Print Assumptions C104_eigenstate_basis.

Theorem C104_eigenstate_basis_raises :
  forall eigh o b subset, orow o = b -> ocol o = b -> op_wf o -> bwf b -> explicit_orthonormal b ->
  get_eigenstate_basis eigh o subset = None <-> ~ exists lo hi, selects (bsize b) subset lo hi /\ (lo <= hi)%nat /\ (hi < bsize b)%nat.
Proof. exact eigen_basis_none. Qed.
Print Assumptions C104_eigenstate_basis_raises.

(** A vector taken to a basis of states and back is projected on these states ... *)
Theorem C104_projection :
  forall same, identity_test same -> forall b, bwf b -> explicit_orthonormal b ->
  forall n v F G w q, bwf (BExpl n v b) -> explicit_orthonormal (BExpl n v b) ->
  convert same b (BExpl n v b) = Some F -> convert same (BExpl n v b) b = Some G -> (q < bsize b)%nat ->
  G (F w) q = csum (fun i => v i q * inner_product (bsize b) (v i) w) n.
Proof. exact basis_projection. Qed.
Print Assumptions C104_projection.

(** ... and is unchanged when all eigenstates are kept. *)
Theorem C104_all_states_lossless :
  forall same, identity_test same -> forall eigh, eigh_ok eigh -> forall o b, orow o = b -> ocol o = b -> op_wf o -> bwf b ->
  explicit_orthonormal b -> hermitian (bsize b) (op_entry o) ->
  forall B, get_eigenstate_basis eigh o None = Some B ->
  exists F G, convert same b B = Some F /\ convert same B b = Some G /\ bsize B = bsize b /\
    forall w q, (q < bsize b)%nat -> G (F w) q = w q.
Proof. exact basis_lossless. Qed.
Print Assumptions C104_all_states_lossless.

(** The stacked class reports the shape of the basis its vectors are given in (finding): its
    product is the number of states only when all are kept. *)
Theorem C104_stacked_shape :
  forall eigh o subset B l, op_wf o -> orow o = BTuple l -> ocol o = BTuple l -> get_eigenstate_basis eigh o subset = Some B ->
  stacked_shape B = Some (map bsize l) /\ (nprod (map bsize l) = bsize B <-> bsize B = bsize (orow o)).
Proof. exact stacked_shape_spec. Qed.
Print Assumptions C104_stacked_shape.

(** The matrix element between two states does not depend on the bases. *)
Theorem C104_inner_product_any_basis :
  forall same dual o v c0 c1, identity_test same -> op_wf o ->
  bwf (orow o) -> bwf (ocol o) -> explicit_orthonormal (orow o) -> explicit_orthonormal (ocol o) ->
  bwf c0 -> bwf c1 -> complete c0 -> complete c1 -> compatible (orow o) c0 -> compatible (ocol o) c1 ->
  vbasis dual = orow o -> vbasis v = ocol o -> ashape (vdata dual) = [bsize (orow o)] -> ashape (vdata v) = [bsize (ocol o)] ->
  exists dual' o' v', convert_dual_to same dual c0 = Some dual' /\ convert_operator_to_basis same o c0 c1 = Some o' /\
    convert_vector_to same v c1 = Some v' /\
    calculate_operator_inner_product dual' o' v' = calculate_operator_inner_product dual o v /\
    calculate_operator_inner_product dual o v =
      Some (csum (fun i => csum (fun j => aflat (vdata dual) i * op_entry o i j * aflat (vdata v) j) (bsize (ocol o))) (bsize (orow o))).
Proof. exact inner_product_basis. Qed.
Print Assumptions C104_inner_product_any_basis.

(** Every state of the list becomes the normalised image, with the norm beside it. *)
Theorem C104_apply_to_states :
  forall same o s F, op_wf o -> well_formed_list s -> convert same (sbasis s) (ocol o) = Some F ->
  exists r e, apply_operator_to_states same o s = Some (r, e) /\ slist r = slist s /\ sbasis r = orow o /\ well_formed_list r /\
    forall j, (j < bsize (slist s))%nat ->
      let w := fun i => csum (fun k => op_entry o i k * F (state_of s j) k) (bsize (ocol o)) in
      (0 <= e j)%R /\ (e j * e j = rsum (fun i => Cnorm2 (w i)) (bsize (orow o)))%R /\
      (e j <> 0%R -> (forall i, (i < bsize (orow o))%nat -> RtoC (e j) * state_of r j i = w i) /\
        rsum (fun i => Cnorm2 (state_of r j i)) (bsize (orow o)) = 1%R).
Proof. exact apply_states_spec. Qed.
Print Assumptions C104_apply_to_states.

Example ex_C104_eig : (forall k x, (k < 2)%nat -> (x < 2)%nat -> csum (fun y => op_entry hop x y * hop_vectors y k) 2 = hop_values k * hop_vectors x k) /\
  inverse_matrices 2 (fun k i => hop_vectors i k) hop_vectors.
Proof. exact ex_hop_eig. Qed.

(** An operator, Hermitian or not, is rebuilt from what calculate_eigenvectors returns for it
    when the eigenvectors can be inverted. *)
Theorem C104_eigenvectors_rebuild :
  forall (eig : eig_fn) o b e v Einv, op_wf o -> orow o = b -> ocol o = b -> eig (bsize b) (op_entry o) = (e, v) ->
  (forall k x, (k < bsize b)%nat -> (x < bsize b)%nat -> csum (fun y => op_entry o x y * v y k) (bsize b) = e k * v x k) ->
  inverse_matrices (bsize b) (fun k i => v i k) Einv ->
  exists V : nat -> nat -> C, calculate_eigenvectors eig o = Some (e, V) /\
    mat_eq (bsize b) (op_entry (operator_from_eigenstates b V Einv e)) (op_entry o).
Proof. exact eigenvectors_rebuild. Qed.
Print Assumptions C104_eigenvectors_rebuild.
