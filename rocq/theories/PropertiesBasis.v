(** Properties of basis conversion (C09-C15, C48-C50). *)
From Coq Require Import Reals Psatz.
From Verif Require Import ZLib Csum DFT NumPy Spec Basis SpecBasis BasisProofs BasisProofs2 BasisProofs3 BasisFacts.
Local Open Scope R_scope.
Local Open Scope C_scope.

(** ** Example bases used below *)

(** Two low frequencies out of three, stacked with two of four points. *)
Definition ex_a : basis := BTuple [BTrans 2 3; BEven 2 2 1].
(** All points, or all frequencies, of the same grid. *)
Definition ex_b : basis := BTuple [BFund 3; BFundT 4].
(** One normalised explicit vector (1,1)/sqrt 2 in a truncated basis. *)
Definition ex_e : basis := BExpl 1 (fun _ _ => isqrt 2) (BTrans 2 3).

Example ex_a_ok : bwf ex_a /\ explicit_orthonormal ex_a /\ bsize ex_a = 4%nat /\ bfund ex_a = 12%nat.
Proof. simpl. repeat split; lia. Qed.
Example ex_b_ok : bwf ex_b /\ full ex_b /\ bfund ex_b = 12%nat.
Proof. simpl. repeat split; lia. Qed.
Example ex_e_ok : bwf ex_e /\ explicit_orthonormal ex_e.
Proof. exact ex_e_ok_fact. Qed.
Example ex_compatible : compatible ex_a ex_b /\ compatible ex_b ex_a /\ compatible ex_e (BFund 3).
Proof. exact ex_compatible_fact. Qed.
Example ex_not_compatible : ~ compatible (BTuple [BFund 3; BFund 4]) (BTuple [BFund 4; BFund 3]).
Proof. exact ex_not_compatible_fact. Qed.
Example ex_same : identity_test (fun _ _ => false).
Proof. intros a b H. discriminate. Qed.

(** ** C09 *)

Theorem C09_convert_is_projection :
  forall same a b F, identity_test same -> bwf a -> bwf b -> explicit_orthonormal a ->
  convert same a b = Some F ->
  forall v j, (j < bsize b)%nat ->
    F v j = csum (fun k => csum (fun x => Cconj (bstate b j x) * bstate a k x) (bfund a) * v k) (bsize a).
Proof. exact (fun same a b F Hs => convert_orthonormal same Hs a b F). Qed.
Print Assumptions C09_convert_is_projection.

(** Without orthonormality, as long as a basis object is not converted to itself. *)
Theorem C09_convert_is_projection_distinct :
  forall same a b F, (forall c, same c c = false) -> identity_test same -> bwf a -> bwf b ->
  convert same a b = Some F ->
  forall v j, (j < bsize b)%nat ->
    F v j = csum (fun k => overlap b a j k * v k) (bsize a).
Proof. exact convert_distinct. Qed.
Print Assumptions C09_convert_is_projection_distinct.

(** The momentum route and the position route agree. *)
Theorem C09_momentum_route_agrees :
  forall a b, bwf a -> bwf b -> momentum_basis a = momentum_basis b ->
  forall v j, (j < bsize b)%nat ->
    from_transformed b (into_transformed a v) j = from_fundamental b (into_fundamental a v) j.
Proof. exact (fun a b Ha Hb E => momentum_route b a Ha Hb E). Qed.
Print Assumptions C09_momentum_route_agrees.
Example C09_momentum_route_case :
  momentum_basis (BTuple [BTrans 2 3; BFund 4]) = momentum_basis ex_a.
Proof. reflexivity. Qed.

(** The frequencies used in [bstate] are those of the Fourier grid. *)
Theorem C09_signed_frequencies :
  forall n N k, (k < n)%nat -> (n <= N)%nat ->
    is_freq n k (freq n k) /\ is_freq N (slot N (freq n k)) (freq n k) /\ (slot N (freq n k) < N)%nat.
Proof. exact signed_frequencies. Qed.
Print Assumptions C09_signed_frequencies.

(** Dual vectors use the conjugate coefficients. *)
Theorem C09_convert_dual :
  forall same a b G, identity_test same -> bwf a -> bwf b -> explicit_orthonormal a ->
  convert_dual same a b = Some G ->
  forall v j, (j < bsize b)%nat ->
    G v j = csum (fun k => overlap a b k j * v k) (bsize a).
Proof. exact convert_dual_sum. Qed.
Print Assumptions C09_convert_dual.

(** A basis object that is not orthonormal: converting to itself and converting to
    an identical copy give different results. *)
Theorem C09_self_conversion_differs_refuted :
  exists a v j F G, bwf a /\ (j < bsize a)%nat /\
    convert (fun _ _ => false) a a = Some F /\
    (forall same, same a a = true -> convert same a a = Some (convert_generic same a a)) /\
    (forall same, same a a = true -> convert_generic same a a v j = G) /\ F v j <> G.
Proof. exact self_conversion_differs. Qed.
Print Assumptions C09_self_conversion_differs_refuted.

(** ** C10 *)

Theorem C10_round_trip :
  forall same a b F G, identity_test same -> bwf a -> bwf b -> explicit_orthonormal a ->
  explicit_orthonormal b -> complete b ->
  convert same a b = Some F -> convert same b a = Some G ->
  forall v k, (k < bsize a)%nat -> G (F v) k = v k.
Proof. exact (fun same a b F G Hs => convert_round_trip same Hs a b F G). Qed.
Print Assumptions C10_round_trip.

(** Fundamental, fundamental transformed and untruncated bases, and stacks of
    them, are complete (and orthonormal). *)
Theorem C10_full_bases_complete :
  forall b, bwf b -> full b -> complete b /\ explicit_orthonormal b /\ orthonormal b.
Proof. exact full_bases. Qed.
Print Assumptions C10_full_bases_complete.

Theorem C10_bases_orthonormal :
  forall b, bwf b -> explicit_orthonormal b -> orthonormal b.
Proof. exact explicit_orthonormal_sound. Qed.
Print Assumptions C10_bases_orthonormal.
Example C10_case : exists F G,
  convert (fun _ _ => false) ex_a ex_b = Some F /\ convert (fun _ _ => false) ex_b ex_a = Some G /\ complete ex_b.
Proof. do 2 eexists. split; [reflexivity|]. split; [reflexivity|]. apply full_bases; apply ex_b_ok. Qed.

(** ** C11 *)

Theorem C11_inner_product_preserved :
  forall same a b F, identity_test same -> bwf a -> bwf b -> explicit_orthonormal a -> complete b ->
  convert same a b = Some F ->
  forall u v, inner_product (bsize b) (F u) (F v) = inner_product (bsize a) u v.
Proof. exact (fun same a b F Hs => convert_inner same Hs a b F). Qed.
Print Assumptions C11_inner_product_preserved.

Theorem C11_norm_preserved :
  forall same a b F, identity_test same -> bwf a -> bwf b -> explicit_orthonormal a -> complete b ->
  convert same a b = Some F ->
  forall v, rsum (fun k => Cnorm2 (F v k)) (bsize b) = rsum (fun k => Cnorm2 (v k)) (bsize a).
Proof. exact convert_norm. Qed.
Print Assumptions C11_norm_preserved.

(** ** C12 *)

Theorem C12_intermediate_basis :
  forall same a b c F G H, identity_test same -> bwf a -> bwf b -> bwf c ->
  explicit_orthonormal a -> explicit_orthonormal b -> complete b ->
  convert same a b = Some F -> convert same b c = Some G -> convert same a c = Some H ->
  forall v j, (j < bsize c)%nat -> G (F v) j = H v j.
Proof. exact (fun same a b c F G H Hs => convert_compose same Hs a b c F G H). Qed.
Print Assumptions C12_intermediate_basis.

Theorem C12_linear :
  forall same a b F, identity_test same -> bwf a -> bwf b -> explicit_orthonormal a ->
  convert same a b = Some F ->
  forall (p q : C) u v j, (j < bsize b)%nat ->
    F (fun k => p * u k + q * v k) j = p * F u j + q * F v j.
Proof. exact (fun same a b F Hs => convert_linear same Hs a b F). Qed.
Print Assumptions C12_linear.

(** ** C13 *)

Theorem C13_stacked_axis_by_axis :
  forall same la lb F, identity_test same -> bwf (BTuple la) -> bwf (BTuple lb) ->
  explicit_orthonormal (BTuple la) -> convert same (BTuple la) (BTuple lb) = Some F ->
  forall v j, (j < nprod (map bsize lb))%nat ->
    F v j = csum (fun k => axis_overlaps lb la (unravel (map bsize lb) j) (unravel (map bsize la) k) * v k)
                 (nprod (map bsize la)).
Proof. exact convert_stacked. Qed.
Print Assumptions C13_stacked_axis_by_axis.

Theorem C13_product_vectors :
  forall same la lb F Fs vs, identity_test same -> bwf (BTuple la) -> bwf (BTuple lb) ->
  explicit_orthonormal (BTuple la) -> convert same (BTuple la) (BTuple lb) = Some F ->
  Forall2 (fun ab f => convert same (fst ab) (snd ab) = Some f) (combine la lb) Fs ->
  length vs = length la ->
  forall j, (j < nprod (map bsize lb))%nat ->
    F (product_vector (combine (map bsize la) vs)) j =
    product_vector (combine (map bsize lb) (map (fun fv => fst fv (snd fv)) (combine Fs vs))) j.
Proof. exact convert_product_vector. Qed.
Print Assumptions C13_product_vectors.

Theorem C13_raises_iff_incompatible :
  forall same a b, convert same a b = None <-> ~ compatible a b.
Proof. exact convert_none_iff. Qed.
Print Assumptions C13_raises_iff_incompatible.
Example C13_case : exists F G,
  Forall2 (fun ab f => convert (fun _ _ => false) (fst ab) (snd ab) = Some f)
    (combine [BTrans 2 3; BEven 2 2 1] [BFund 3; BFundT 4]) [F; G].
Proof. do 2 eexists. repeat constructor. Qed.

(** ** C14 *)

Theorem C14_matrix_products :
  forall same a b F, identity_test same -> bwf a -> bwf b -> explicit_orthonormal a -> complete b ->
  convert_matrix same a b a b = Some F ->
  forall A B i j, (i < bsize b)%nat -> (j < bsize b)%nat ->
    F (matmul (bsize a) A B) i j = matmul (bsize b) (F A) (F B) i j.
Proof. exact (fun same a b F Hs Ha Hb Oa Cb HF => convert_matrix_mul same Hs a b Ha Hb Oa Cb F HF). Qed.
Print Assumptions C14_matrix_products.

Theorem C14_matrix_adjoint :
  forall same a b F, identity_test same -> bwf a -> bwf b -> explicit_orthonormal a ->
  convert_matrix same a b a b = Some F ->
  forall A i j, (i < bsize b)%nat -> (j < bsize b)%nat -> F (adjoint A) i j = adjoint (F A) i j.
Proof. exact (fun same a b F Hs Ha Hb Oa HF => convert_matrix_adjoint same Hs a b Ha Hb Oa F HF). Qed.
Print Assumptions C14_matrix_adjoint.

Theorem C14_matrix_trace :
  forall same a b F, identity_test same -> bwf a -> bwf b -> explicit_orthonormal a -> complete b ->
  convert_matrix same a b a b = Some F -> forall A, trace (bsize b) (F A) = trace (bsize a) A.
Proof. exact (fun same a b F Hs Ha Hb Oa Cb HF => convert_matrix_trace same Hs a b Ha Hb Oa Cb F HF). Qed.
Print Assumptions C14_matrix_trace.

Theorem C14_matrix_elements :
  forall same a b F f, identity_test same -> bwf a -> bwf b -> explicit_orthonormal a -> complete b ->
  convert_matrix same a b a b = Some F -> convert same a b = Some f ->
  forall A u v,
    matrix_element (bsize b) (f u) (F A) (f v) = matrix_element (bsize a) u A v.
Proof. exact (fun same a b F f Hs Ha Hb Oa Cb HF Hf A u v => convert_matrix_element same Hs a b Ha Hb Oa Cb F HF f A u v Hf). Qed.
Print Assumptions C14_matrix_elements.

(** Components for four different bases. *)
Theorem C14_matrix_components :
  forall same a b a' b' F, identity_test same -> bwf a -> bwf b -> bwf a' -> bwf b' ->
  explicit_orthonormal a -> explicit_orthonormal a' -> convert_matrix same a b a' b' = Some F ->
  forall m i j, (i < bsize b)%nat -> (j < bsize b')%nat ->
    F m i j = csum (fun p => csum (fun q => overlap b a i p * m p q * overlap a' b' q j) (bsize a')) (bsize a).
Proof. exact (fun same a b a' b' F Hs => convert_matrix_sum same Hs a b a' b' F). Qed.
Print Assumptions C14_matrix_components.
Example C14_case : exists F, convert_matrix (fun _ _ => false) ex_a ex_b ex_a ex_b = Some F.
Proof. eexists. reflexivity. Qed.

(** ** C15 *)

Theorem C15_orthonormal_round_trip :
  forall b, bwf b -> explicit_orthonormal b ->
  forall v k, (k < bsize b)%nat -> from_fundamental b (into_fundamental b v) k = v k.
Proof. exact basis_round_trip. Qed.
Print Assumptions C15_orthonormal_round_trip.

Theorem C15_projection_formula :
  forall b, bwf b -> forall w x, (x < bfund b)%nat ->
  into_fundamental b (from_fundamental b w) x =
  csum (fun k => bstate b k x * inner_product (bfund b) (bstate b k) w) (bsize b).
Proof. exact project_sum. Qed.
Print Assumptions C15_projection_formula.

Theorem C15_projection_idempotent :
  forall b, bwf b -> explicit_orthonormal b ->
  let P := fun w => into_fundamental b (from_fundamental b w) in
  forall w x, (x < bfund b)%nat -> P (P w) x = P w x.
Proof. exact project_idempotent. Qed.
Print Assumptions C15_projection_idempotent.

Theorem C15_projection_self_adjoint :
  forall b, bwf b ->
  let P := fun w => into_fundamental b (from_fundamental b w) in
  forall u w, inner_product (bfund b) u (P w) = inner_product (bfund b) (P u) w.
Proof. exact project_self_adjoint. Qed.
Print Assumptions C15_projection_self_adjoint.

Theorem C15_projection_contracts :
  forall b, bwf b -> explicit_orthonormal b ->
  forall w, (rsum (fun x => Cnorm2 (into_fundamental b (from_fundamental b w) x)) (bfund b)
             <= rsum (fun x => Cnorm2 (w x)) (bfund b))%R.
Proof. exact project_norm. Qed.
Print Assumptions C15_projection_contracts.

(** ** C48 *)

(** Real input is treated as the same values in complex form, unless the target
    is the very same object. *)
Theorem C48_real_vector_other_basis :
  forall same a b F v, convert same a b = Some F -> same a b = false ->
    convert_real same a b v = Some (bsize b, F (fun k => RtoC (v k))).
Proof. exact convert_real_other. Qed.
Print Assumptions C48_real_vector_other_basis.

(** Converting a real vector to the same object never returns it: the result has
    half the length, or an exception is raised. *)
Theorem C48_real_vector_same_object_refuted :
  forall same a v, same a a = true -> (0 < bsize a)%nat ->
    (Nat.even (bsize a) = false -> convert_real same a a v = None) /\
    (Nat.even (bsize a) = true -> forall F, convert same a a = Some F ->
       exists w, convert_real same a a v = Some ((bsize a / 2)%nat, w) /\ (bsize a / 2 < bsize a)%nat /\
         forall i, (i < bsize a / 2)%nat -> w i = (v (2 * i)%nat, v (S (2 * i)))).
Proof. exact convert_real_same. Qed.
Print Assumptions C48_real_vector_same_object_refuted.
Example C48_case : exists same, same (BFund 4) (BFund 4) = true /\ identity_test same /\
  exists F, convert same (BFund 4) (BFund 4) = Some F.
Proof.
  exists (fun a b => match a, b with BFund n, BFund m => Nat.eqb n m | _, _ => false end).
  split; [reflexivity|]. split; [|eexists; reflexivity].
  intros [] []; try discriminate. intros E. apply Nat.eqb_eq in E. congruence.
Qed.

(** ** C49 *)

Theorem C49_util_vectors_are_states :
  forall b, bwf b -> forall k x, (k < bsize b)%nat -> (x < bfund b)%nat ->
    util_vectors b k x = bstate b k x.
Proof. exact util_vectors_spec. Qed.
Print Assumptions C49_util_vectors_are_states.

(** ** C50 *)

Theorem C50_into_transformed :
  forall b, bwf b -> forall v p, (p < bfund b)%nat ->
    into_transformed b v p = csum (fun k => overlap (momentum_basis b) b p k * v k) (bsize b).
Proof. exact into_transformed_mat. Qed.
Print Assumptions C50_into_transformed.

Theorem C50_from_transformed :
  forall b, bwf b -> forall w k, (k < bsize b)%nat ->
    from_transformed b w k = csum (fun p => overlap b (momentum_basis b) k p * w p) (bfund b).
Proof. exact from_transformed_mat. Qed.
Print Assumptions C50_from_transformed.

(** The same method of the BasisUtil wrapper of a stacked basis is something else. *)
Theorem C50_util_into_transformed_refuted :
  exists b v p, bwf b /\ (p < bfund b)%nat /\ util_into_transformed b v p <> into_transformed b v p.
Proof. exact util_into_transformed_differs. Qed.
Print Assumptions C50_util_into_transformed_refuted.
