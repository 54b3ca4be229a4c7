(** Bases of eigenstates, matrix elements between states and operators applied to lists. *)
From Coq Require Import Reals Lra.
From Verif Require Import ZLib Csum DFT NumPy Index IndexProofs Spec SpecMatrix LinAlg Basis SpecBasis BasisProofs BasisProofs2 BasisProofs3
  Operator SpecOperator OperatorProofs OperatorProofs2 OperatorProofs3 Wavepacket SpecWavepacket StateList SpecStateList Localize SpecLocalize Spectral EigenBasis SpecEigenBasis.
Local Open Scope R_scope.
Local Open Scope C_scope.

Lemma at2_entry o n m i j : bsize (orow o) = n -> bsize (ocol o) = m ->
  at2 {| ashape := [n; m]; aflat := aflat (odata o) |} i j = op_entry o i j.
Proof. intros _ E. unfold at2, op_entry. cbn [ashape aflat nth]. rewrite E. reflexivity. Qed.

(** ** A basis of vectors given in another *)
Lemma explicit_overlap n v b i p : bwf b -> explicit_orthonormal b -> (p < bsize b)%nat ->
  overlap (BExpl n v b) b i p = Cconj (v i p).
Proof.
  intros Hb Ob Hp. unfold overlap. cbn [bstate].
  rewrite (csum_ext _ (fun x => csum (fun j => Cconj (v i j) * (Cconj (bstate b j x) * bstate b p x)) (bsize b))).
  2:{ intros x _. rewrite Cconj_csum, <- csum_scal_r. apply csum_ext. intros j _. rewrite Cconj_mult. ring. }
  rewrite csum_swap. rewrite (csum_ext _ (fun j => Cconj (v i j) * cdelta j p)).
  - rewrite csum_delta_r' by exact Hp. reflexivity.
  - intros j Hj. rewrite csum_scal_l. f_equal. exact (explicit_orthonormal_sound b Hb Ob j p Hj Hp).
Qed.

Lemma explicit_overlap' n v b i p : bwf b -> explicit_orthonormal b -> (p < bsize b)%nat ->
  overlap b (BExpl n v b) p i = v i p.
Proof.
  intros Hb Ob Hp. rewrite <- (Cconj_conj (v i p)), <- (explicit_overlap n v b i p Hb Ob Hp).
  unfold overlap. rewrite Cconj_csum. cbn [bfund]. apply csum_ext. intros x _. rewrite Cconj_mult, Cconj_conj. ring.
Qed.

Lemma explicit_compatible n v b : compatible b (BExpl n v b) /\ compatible (BExpl n v b) b.
Proof. split; apply compatible_other; try reflexivity; intros la lb [E1 E2]; discriminate. Qed.

Section Basis.
  Variable same : basis -> basis -> bool.
  Hypothesis Hs : identity_test same.
  Variable eigh : eigh_fn.
  Hypothesis He : eigh_ok eigh.
  Variable o : operator.
  Variable b : basis.
  Hypothesis Hr : orow o = b.
  Hypothesis Hc : ocol o = b.
  Hypothesis Hw : op_wf o.
  Hypothesis Hb : bwf b.
  Hypothesis Ob : explicit_orthonormal b.
  Hypothesis HH : hermitian (bsize b) (op_entry o).

  (** First and last state. *)
  Definition limits (subset : option (Z * Z)) : Z * Z := match subset with Some s => s | None => (0, Z.of_nat (bsize b) - 1)%Z end.

  Lemma eigenstates_unfold subset :
    eigenstates_hermitian eigh o subset =
    match calculate_eigenvectors_hermitian eigh (bsize b) (fun i j => op_entry o i j) (fst (limits subset)) (snd (limits subset)) with
    | Some (e, v) => Some (Z.to_nat (snd (limits subset) - fst (limits subset) + 1), e, v)
    | None => None
    end.
  Proof using Hr Hc Hw.
    unfold eigenstates_hermitian. rewrite (op_reshape o Hw). rewrite Hr, Hc, Nat.eqb_refl.
    change (match subset with Some s => s | None => (0%Z, (Z.of_nat (bsize b) - 1)%Z) end) with (limits subset).
    destruct (limits subset) as [lo hi]. cbn [fst snd].
    assert (E : at2 {| ashape := [bsize b; bsize b]; aflat := aflat (odata o) |} = fun i j => op_entry o i j).
    { unfold at2, op_entry. rewrite Hc. reflexivity. }
    rewrite E. reflexivity.
  Qed.

  Lemma basis_raises subset : get_eigenstate_basis eigh o subset = None <->
    ~ (0 <= fst (limits subset) <= snd (limits subset) /\ snd (limits subset) < Z.of_nat (bsize b))%Z.
  Proof using Hr Hc Hw.
    unfold get_eigenstate_basis. rewrite eigenstates_unfold. destruct (limits subset) as [lo hi]. cbn [fst snd].
    unfold calculate_eigenvectors_hermitian.
    destruct (Z.leb_spec 0 lo), (Z.leb_spec lo hi), (Z.ltb_spec hi (Z.of_nat (bsize b))); cbn [andb];
      try (split; [intros _; lia|reflexivity]).
    destruct (eigh _ _ _ _). split; [discriminate|]. lia.
  Qed.

  Lemma basis_spec subset lo hi : limits subset = (Z.of_nat lo, Z.of_nat hi) -> (lo <= hi)%nat -> (hi < bsize b)%nat ->
    exists v, get_eigenstate_basis eigh o subset = Some (BExpl (hi - lo + 1) v b) /\
      bwf (BExpl (hi - lo + 1) v b) /\ explicit_orthonormal (BExpl (hi - lo + 1) v b) /\
      forall E, ascending_spectrum (bsize b) (op_entry o) E -> forall k x, (k < hi - lo + 1)%nat -> (x < bsize b)%nat ->
        csum (fun y => op_entry o x y * v k y) (bsize b) = RtoC (E (lo + k)%nat) * v k x.
  Proof using Hr Hc Hw Hb Ob HH He.
    intros El H1 H2. unfold get_eigenstate_basis. rewrite eigenstates_unfold, El. cbn [fst snd]. unfold calculate_eigenvectors_hermitian.
    rewrite (proj2 (Z.leb_le 0 (Z.of_nat lo))) by lia. rewrite (proj2 (Z.leb_le (Z.of_nat lo) (Z.of_nat hi))) by lia.
    rewrite (proj2 (Z.ltb_lt (Z.of_nat hi) (Z.of_nat (bsize b)))) by lia. cbn [andb]. rewrite !Nat2Z.id.
    assert (K := He (bsize b) (fun i j => op_entry o i j) lo hi HH H1 H2). destruct (eigh _ _ lo hi) as [e v]. destruct K as [K1 [K2 K3]].
    exists (fun k i => v i k). rewrite Hr. replace (Z.to_nat (Z.of_nat hi - Z.of_nat lo + 1)) with (hi - lo + 1)%nat by lia.
    split; [reflexivity|]. split; [cbn; split; [lia|exact Hb]|]. split.
    - cbn [explicit_orthonormal]. split; [|exact Ob]. intros i j Hi Hj. exact (K1 i j Hi Hj).
    - intros E HE k x Hk Hx. rewrite <- (K3 E HE k Hk). exact (K2 k x Hk Hx).
  Qed.

  (** The operator is diagonal in the basis of its eigenstates. *)
  Lemma basis_diagonal subset lo hi E : limits subset = (Z.of_nat lo, Z.of_nat hi) -> (lo <= hi)%nat -> (hi < bsize b)%nat ->
    ascending_spectrum (bsize b) (op_entry o) E ->
    exists B c, get_eigenstate_basis eigh o subset = Some B /\ bsize B = (hi - lo + 1)%nat /\
      convert_operator_to_basis same o B B = Some c /\ orow c = B /\ ocol c = B /\
      forall i j, (i < bsize B)%nat -> (j < bsize B)%nat -> op_entry c i j = RtoC (E (lo + i)%nat) * cdelta i j.
  Proof using Hs Hr Hc Hw Hb Ob HH He.
    intros El H1 H2 HE. destruct (basis_spec subset lo hi El H1 H2) as [v [G [W [O1 Q]]]]. set (B := BExpl (hi - lo + 1) v b) in *.
    assert (CB : compatible b B) by apply explicit_compatible.
    destruct (convert_operator_spec same o B B Hw) as [F [c [HF [Ec [Wc [Rc [Cc Fc]]]]]]]; [rewrite Hr; exact CB|rewrite Hc; exact CB|].
    rewrite Hr, Hc in HF. exists B, c. split; [exact G|]. split; [reflexivity|]. split; [exact Ec|]. split; [exact Rc|]. split; [exact Cc|].
    intros i j Hi Hj. rewrite Fc by exact Hj.
    rewrite (convert_matrix_sum same Hs b B b B F Hb W Hb W Ob Ob HF (op_entry o) i j Hi Hj).
    transitivity (csum (fun p => Cconj (v i p) * (RtoC (E (lo + j)%nat) * v j p)) (bsize b)).
    - apply csum_ext. intros p Hp. rewrite <- (Q E HE j p Hj Hp), <- csum_scal_l. apply csum_ext. intros q Hq.
      unfold B. rewrite explicit_overlap, explicit_overlap' by assumption. ring.
    - rewrite (csum_ext _ (fun p => RtoC (E (lo + j)%nat) * (Cconj (v i p) * v j p))) by (intros; ring). rewrite csum_scal_l.
      destruct O1 as [O1 _]. rewrite (O1 i j Hi Hj : csum (fun p => Cconj (v i p) * v j p) (bsize b) = cdelta i j).
      unfold cdelta. destruct (Nat.eqb_spec i j) as [->|D]; [reflexivity|]. rewrite !Cmult_0_r. reflexivity.
  Qed.

  (** A vector taken to the basis and back is projected on the states. *)
  Lemma basis_projection n v F G w q : bwf (BExpl n v b) -> explicit_orthonormal (BExpl n v b) ->
    convert same b (BExpl n v b) = Some F -> convert same (BExpl n v b) b = Some G -> (q < bsize b)%nat ->
    G (F w) q = csum (fun i => v i q * inner_product (bsize b) (v i) w) n.
  Proof using Hs Hb Ob.
    intros W O1 HF HG Hq. rewrite (convert_orthonormal same Hs _ b G W Hb O1 HG (F w) q Hq). cbn [bsize]. apply csum_ext. intros i Hi.
    rewrite explicit_overlap' by assumption. f_equal.
    rewrite (convert_orthonormal same Hs b _ F Hb W Ob HF w i Hi). unfold inner_product. apply csum_ext. intros p Hp.
    rewrite explicit_overlap by assumption. reflexivity.
  Qed.

  Lemma basis_lossless B : get_eigenstate_basis eigh o None = Some B ->
    exists F G, convert same b B = Some F /\ convert same B b = Some G /\ bsize B = bsize b /\
      forall w q, (q < bsize b)%nat -> G (F w) q = w q.
  Proof using Hs Hr Hc Hw Hb Ob HH He.
    intros EB. destruct (Nat.eq_dec (bsize b) 0) as [Z0|NZ].
    { exfalso. assert (N : get_eigenstate_basis eigh o None = None); [|congruence]. apply basis_raises. cbn [limits fst snd]. lia. }
    destruct (basis_spec None 0 (bsize b - 1)) as [v [G [W [O1 _]]]]; [cbn [limits]; f_equal; lia|lia|lia|].
    rewrite G in EB. injection EB as <-. replace (bsize b - 1 - 0 + 1)%nat with (bsize b) in * by lia.
    destruct (explicit_compatible (bsize b) v b) as [C1 C2].
    destruct (proj2 (convert_some_iff same _ _) C1) as [F HF]. destruct (proj2 (convert_some_iff same _ _) C2) as [F' HF'].
    exists F, F'. split; [exact HF|]. split; [exact HF'|]. split; [reflexivity|]. intros w q Hq.
    rewrite (basis_projection _ v F F' w q W O1 HF HF' Hq).
    assert (U : orthonormal_columns (bsize b) (bsize b) (fun i x => Cconj (v i x))).
    { apply orthonormal_square. intros i j Hi Hj. destruct O1 as [O1 _]. rewrite <- (O1 i j Hi Hj). unfold inner_product.
      apply csum_ext. intros k _. rewrite Cconj_conj. reflexivity. }
    unfold inner_product.
    rewrite (csum_ext _ (fun i => csum (fun p => w p * (Cconj (Cconj (v i q)) * Cconj (v i p))) (bsize b))).
    2:{ intros i _. rewrite <- csum_scal_l. apply csum_ext. intros p _. rewrite Cconj_conj. ring. }
    rewrite csum_swap. rewrite (csum_ext _ (fun p => w p * cdelta q p)).
    - apply csum_delta_r. exact Hq.
    - intros p Hp. rewrite csum_scal_l. f_equal. exact (U q p Hq Hp).
  Qed.
End Basis.

(** The shape of the stacked class. *)
Lemma stacked_shape_spec eigh o subset B l : op_wf o -> orow o = BTuple l -> ocol o = BTuple l -> get_eigenstate_basis eigh o subset = Some B ->
  stacked_shape B = Some (map bsize l) /\ (nprod (map bsize l) = bsize B <-> bsize B = bsize (orow o)).
Proof.
  intros W R1 R2 E. unfold get_eigenstate_basis in E. destruct (eigenstates_hermitian eigh o subset) as [[[n e] v]|]; [|discriminate].
  injection E as <-. rewrite R1. cbn. split; [reflexivity|]. split; intros Q; symmetry; exact Q.
Qed.

(** ** Matrix elements *)
Lemma back_and_forth same a c p f : identity_test same -> bwf a -> bwf c -> explicit_orthonormal a -> complete c -> compatible a c -> (p < bsize a)%nat ->
  csum (fun j => overlap a c p j * csum (fun q => overlap c a j q * f q) (bsize a)) (bsize c) = f p.
Proof.
  intros Hs Ha Hc Oa Cc Hac Hp. destruct (convert_matrix_exists same a c a c Hac Hac) as [F HF].
  rewrite (csum_ext _ (fun j => csum (fun q => f q * (overlap a c p j * overlap c a j q)) (bsize a))).
  2:{ intros j _. rewrite <- csum_scal_l. apply csum_ext. intros q _. ring. }
  rewrite csum_swap. rewrite (csum_ext _ (fun q => f q * cdelta p q)).
  - apply csum_delta_r. exact Hp.
  - intros q Hq. rewrite csum_scal_l. f_equal. exact (overlap_delta same a c Ha Oa Cc F HF p q Hp Hq).
Qed.

Lemma reshape1 a n : nprod (ashape a) = n -> reshape a [n] = Some {| ashape := [n]; aflat := aflat a |}.
Proof. intros E. unfold reshape. cbn [nprod]. rewrite Nat.mul_1_r, E, Nat.eqb_refl. reflexivity. Qed.

Lemma overlap_flip a c p j : bfund a = bfund c -> Cconj (overlap c a j p) = overlap a c p j.
Proof. intros E. unfold overlap. rewrite Cconj_csum, E. apply csum_ext. intros x _. rewrite Cconj_mult, Cconj_conj. ring. Qed.

Lemma inner_product_basis same dual o v c0 c1 : identity_test same -> op_wf o ->
  bwf (orow o) -> bwf (ocol o) -> explicit_orthonormal (orow o) -> explicit_orthonormal (ocol o) ->
  bwf c0 -> bwf c1 -> complete c0 -> complete c1 -> compatible (orow o) c0 -> compatible (ocol o) c1 ->
  vbasis dual = orow o -> vbasis v = ocol o -> ashape (vdata dual) = [bsize (orow o)] -> ashape (vdata v) = [bsize (ocol o)] ->
  exists dual' o' v', convert_dual_to same dual c0 = Some dual' /\ convert_operator_to_basis same o c0 c1 = Some o' /\
    convert_vector_to same v c1 = Some v' /\
    calculate_operator_inner_product dual' o' v' = calculate_operator_inner_product dual o v /\
    calculate_operator_inner_product dual o v =
      Some (csum (fun i => csum (fun j => aflat (vdata dual) i * op_entry o i j * aflat (vdata v) j) (bsize (ocol o))) (bsize (orow o))).
Proof.
  intros Hs W B0 B1 O0 O1 W0 W1 C0 C1 K0 K1 E0 E1 S0 S1.
  destruct (proj2 (convert_some_iff same _ _) K0) as [f Hf]. destruct (proj2 (convert_some_iff same _ _) K1) as [g Hg].
  destruct (convert_operator_spec same o c0 c1 W K0 K1) as [F [o' [HF [Eo' [W' [R' [C' Fo']]]]]]].
  do 2 eexists. exists {| vbasis := c1; vdata := {| ashape := [bsize c1]; aflat := g (aflat (vdata v)) |} |}.
  split; [|split; [exact Eo'|split; [|split]]].
  - unfold convert_dual_to, convert_dual. rewrite E0, Hf. rewrite (reshape1 (vdata dual) (bsize (orow o))); [reflexivity|].
    rewrite S0. cbn. lia.
  - unfold convert_vector_to. rewrite E1, Hg. rewrite (reshape1 (vdata v) (bsize (ocol o))); [reflexivity|]. rewrite S1. cbn. lia.
  - unfold calculate_operator_inner_product. rewrite (op_reshape o W), (op_reshape o' W'), S0, S1, R', C'. cbn [vdata ashape aflat].
    rewrite !Nat.eqb_refl. cbn [andb]. f_equal.
    transitivity (csum (fun i => Cconj (f (fun k => Cconj (aflat (vdata dual) k)) i) *
      csum (fun p => overlap c0 (orow o) i p * csum (fun q => op_entry o p q * aflat (vdata v) q) (bsize (ocol o))) (bsize (orow o))) (bsize c0)).
    + apply csum_ext. intros i Hi. f_equal.
      rewrite (csum_ext _ (fun j => csum (fun p => csum (fun q =>
         overlap c0 (orow o) i p * op_entry o p q * (overlap (ocol o) c1 q j * csum (fun r => overlap c1 (ocol o) j r * aflat (vdata v) r) (bsize (ocol o))))
         (bsize (ocol o))) (bsize (orow o)))).
      2:{ intros j Hj. assert (Q : at2 {| ashape := [bsize c0; bsize c1]; aflat := aflat (odata o') |} i j = op_entry o' i j)
            by (unfold at2, op_entry; rewrite C'; reflexivity).
          rewrite Q, (Fo' i j Hj), (convert_matrix_sum same Hs _ _ _ _ F B0 W0 B1 W1 O0 O1 HF _ i j Hi Hj).
          rewrite <- csum_scal_r. apply csum_ext. intros p _. rewrite <- csum_scal_r. apply csum_ext. intros q _.
          rewrite (convert_orthonormal same Hs _ _ g B1 W1 O1 Hg _ j Hj). ring. }
      rewrite csum_swap. apply csum_ext. intros p Hp. rewrite csum_swap, <- csum_scal_l. apply csum_ext. intros q Hq.
      rewrite csum_scal_l. rewrite (back_and_forth same (ocol o) c1 q (aflat (vdata v)) Hs B1 W1 O1 C1 K1 Hq). ring.
    + rewrite (csum_ext _ (fun i => csum (fun p => csum (fun q => op_entry o p q * aflat (vdata v) q) (bsize (ocol o)) *
         Cconj (overlap (orow o) c0 p i * csum (fun r => overlap c0 (orow o) i r * Cconj (aflat (vdata dual) r)) (bsize (orow o)))) (bsize (orow o)))).
      2:{ intros i Hi. rewrite <- csum_scal_l. apply csum_ext. intros p Hp.
          rewrite (convert_orthonormal same Hs _ _ f B0 W0 O0 Hf _ i Hi). rewrite Cconj_mult.
          rewrite (overlap_flip c0 (orow o) i p) by (symmetry; apply (convert_some_fund _ _ _ _ Hf)). ring. }
      rewrite csum_swap. apply csum_ext. intros p Hp. rewrite csum_scal_l, <- Cconj_csum.
      rewrite (back_and_forth same (orow o) c0 p (fun r => Cconj (aflat (vdata dual) r)) Hs B0 W0 O0 C0 K0 Hp), Cconj_conj.
      rewrite Cmult_comm. f_equal.
  - unfold calculate_operator_inner_product. rewrite (op_reshape o W), S0, S1, !Nat.eqb_refl. cbn [andb]. f_equal.
    apply csum_ext. intros i _. rewrite <- csum_scal_l. apply csum_ext. intros j _. unfold at2, op_entry. cbn [ashape aflat nth]. ring.
Qed.

(** ** Operators applied to lists *)
Lemma apply_states_spec same o s F : op_wf o -> well_formed_list s -> convert same (sbasis s) (ocol o) = Some F ->
  exists r e, apply_operator_to_states same o s = Some (r, e) /\ slist r = slist s /\ sbasis r = orow o /\ well_formed_list r /\
    forall j, (j < bsize (slist s))%nat ->
      let w := fun i => csum (fun k => op_entry o i k * F (state_of s j) k) (bsize (ocol o)) in
      (0 <= e j)%R /\ (e j * e j = rsum (fun i => Cnorm2 (w i)) (bsize (orow o)))%R /\
      (e j <> 0%R -> (forall i, (i < bsize (orow o))%nat -> RtoC (e j) * state_of r j i = w i) /\
        rsum (fun i => Cnorm2 (state_of r j i)) (bsize (orow o)) = 1%R).
Proof.
  intros W Ws HF. unfold apply_operator_to_states, convert_state_list, as_matrix.
  assert (Rs : reshape (sdata s) [bsize (slist s); bsize (sbasis s)] = Some {| ashape := [bsize (slist s); bsize (sbasis s)]; aflat := aflat (sdata s) |}).
  { apply reshape_some. rewrite Ws. cbn. lia. }
  rewrite Rs, HF. cbn [slist sbasis sdata]. rewrite (op_reshape o W).
  set (A2 := fun j : nat => F (at2 {| ashape := [bsize (slist s); bsize (sbasis s)]; aflat := aflat (sdata s) |} j)).
  set (m := bsize (ocol o)) in *. set (n := bsize (orow o)) in *. set (L := bsize (slist s)) in *.
  assert (R2 : reshape (ravel_array (array2 L m A2)) [L; m] = Some {| ashape := [L; m]; aflat := aflat (array2 L m A2) |}).
  { unfold reshape, ravel_array. cbn [ashape aflat nprod array2]. replace (L * (m * 1) * 1)%nat with (L * (m * 1))%nat by lia. rewrite Nat.eqb_refl. reflexivity. }
  rewrite R2. do 2 eexists. split; [reflexivity|]. cbn [slist sbasis sdata]. split; [reflexivity|]. split; [reflexivity|]. split.
  { unfold well_formed_list. cbn [slist sbasis sdata array2 ashape nprod]. fold n L. lia. }
  intros j Hj. set (w := fun i => csum (fun k => op_entry o i k * F (state_of s j) k) m).
  set (B2 := {| ashape := [L; m]; aflat := aflat (array2 L m A2) |}).
  set (A := {| ashape := [n; m]; aflat := aflat (odata o) |}).
  assert (D : forall i, csum (fun k => at2 A i k * at2 B2 j k) m = w i).
  { intros i. unfold w. apply csum_ext. intros k Hk. f_equal.
    transitivity (A2 j k); [|reflexivity]. unfold at2, B2. cbn [ashape aflat nth]. exact (array2_flat L m A2 j k Hk). }
  destruct (apply_operator_to_state_spec same o (sbasis s) (state_of s j) F W HF) as [d [e [E [e0 [e1 e2]]]]].
  unfold apply_operator_to_state in E. rewrite HF, (op_reshape o W) in E. fold n m in E.
  injection E as Ed Ee. cbv zeta in e1, e2.
  assert (Norm : sqrt (rsum (fun i => Cmod (csum (fun k => at2 A i k * at2 B2 j k) m * csum (fun k => at2 A i k * at2 B2 j k) m)) n) = e).
  { rewrite <- Ee. f_equal. apply rsum_ext. intros i _. rewrite D. reflexivity. }
  assert (St : forall i, (i < n)%nat -> state_of {| slist := slist s; sbasis := orow o;
       sdata := array2 L n (fun j i => csum (fun k => at2 A i k * at2 B2 j k) m /
         RtoC (sqrt (rsum (fun i => Cmod (csum (fun k => at2 A i k * at2 B2 j k) m * csum (fun k => at2 A i k * at2 B2 j k) m)) n))) |} j i = d i).
  { intros i Hi. unfold state_of, row. cbn [sbasis sdata]. fold n. rewrite array2_flat by exact Hi. rewrite Norm, D, <- Ed, Ee. reflexivity. }
  cbv beta. split; [|split].
  - exact (eq_rect_r (fun z => 0 <= z)%R e0 Norm).
  - rewrite Norm. exact e1.
  - rewrite Norm. intros NZ. destruct (e2 NZ) as [e3 e4]. split.
    + intros i Hi. transitivity (RtoC e * d i); [f_equal; exact (St i Hi)|]. apply e3.
    + transitivity (rsum (fun i => Cnorm2 (d i)) n); [|exact e4]. apply rsum_ext. intros i Hi. f_equal. exact (St i Hi).
Qed.

(** ** Operators that need not be Hermitian *)
Lemma eigenvectors_spec eig o e v : op_wf o -> bsize (orow o) = bsize (ocol o) -> eig (bsize (orow o)) (op_entry o) = (e, v) ->
  calculate_eigenvectors eig o = Some (e, fun k i => v i k).
Proof.
  intros W Sq E. unfold calculate_eigenvectors. rewrite (op_reshape o W), Sq, Nat.eqb_refl.
  assert (Q : at2 {| ashape := [bsize (ocol o); bsize (ocol o)]; aflat := aflat (odata o) |} = op_entry o) by (unfold at2, op_entry; reflexivity).
  rewrite Q, <- Sq, E. reflexivity.
Qed.

Lemma eigenvectors_rebuild (eig : eig_fn) o b e v Einv : op_wf o -> orow o = b -> ocol o = b -> eig (bsize b) (op_entry o) = (e, v) ->
  (forall k x, (k < bsize b)%nat -> (x < bsize b)%nat -> csum (fun y => op_entry o x y * v y k) (bsize b) = e k * v x k) ->
  inverse_matrices (bsize b) (fun k i => v i k) Einv ->
  exists V : nat -> nat -> C, calculate_eigenvectors eig o = Some (e, V) /\ mat_eq (bsize b) (op_entry (operator_from_eigenstates b V Einv e)) (op_entry o).
Proof.
  intros W R1 R2 E H I1. exists (fun k i => v i k). split.
  - apply eigenvectors_spec; [exact W|congruence|]. rewrite R1. exact E.
  - apply from_eigenstates_spec; [exact I1|]. intros j i Hj Hi. apply (H j i Hj Hi).
Qed.

(** ** The statements for a choice of states *)
Lemma selects_limits b subset lo hi : selects (bsize b) subset lo hi -> limits b subset = (Z.of_nat lo, Z.of_nat hi).
Proof. intros [->|[-> [-> H]]]; cbn [limits]; [reflexivity|]. f_equal. lia. Qed.

Lemma eigen_basis_states same eigh o b : identity_test same -> eigh_ok eigh -> orow o = b -> ocol o = b -> op_wf o -> bwf b ->
  explicit_orthonormal b -> hermitian (bsize b) (op_entry o) ->
  forall subset lo hi E, selects (bsize b) subset lo hi -> (lo <= hi)%nat -> (hi < bsize b)%nat -> ascending_spectrum (bsize b) (op_entry o) E ->
  exists v c, get_eigenstate_basis eigh o subset = Some (BExpl (hi - lo + 1) v b) /\ bwf (BExpl (hi - lo + 1) v b) /\ explicit_orthonormal (BExpl (hi - lo + 1) v b) /\
    (forall k x, (k < hi - lo + 1)%nat -> (x < bsize b)%nat ->
        csum (fun y => op_entry o x y * v k y) (bsize b) = RtoC (E (lo + k)%nat) * v k x) /\ convert_operator_to_basis same o (BExpl (hi - lo + 1) v b) (BExpl (hi - lo + 1) v b) = Some c /\
    forall i j, (i < hi - lo + 1)%nat -> (j < hi - lo + 1)%nat -> op_entry c i j = RtoC (E (lo + i)%nat) * cdelta i j.
Proof.
  intros Hs He R1 R2 W Hb Ob HH subset lo hi E Hsel H1 H2 HE. assert (El := selects_limits b subset lo hi Hsel).
  destruct (basis_spec eigh He o b R1 R2 W Hb Ob HH subset lo hi El H1 H2) as [v [G [Wv [Ov Q]]]].
  destruct (basis_diagonal same Hs eigh He o b R1 R2 W Hb Ob HH subset lo hi E El H1 H2 HE) as [B [c [G' [_ [Ec [_ [_ D]]]]]]].
  rewrite G in G'. injection G' as <-. exists v, c. split; [exact G|]. split; [exact Wv|]. split; [exact Ov|].
  split; [exact (Q E HE)|]. split; [exact Ec|]. exact D.
Qed.

Lemma eigen_basis_none eigh o b subset : orow o = b -> ocol o = b -> op_wf o -> bwf b -> explicit_orthonormal b ->
  get_eigenstate_basis eigh o subset = None <-> ~ exists lo hi, selects (bsize b) subset lo hi /\ (lo <= hi)%nat /\ (hi < bsize b)%nat.
Proof.
  intros R1 R2 W Hb Ob. rewrite (basis_raises eigh o b R1 R2 W). apply not_iff_compat. split.
  - intros H. exists (Z.to_nat (fst (limits b subset))), (Z.to_nat (snd (limits b subset))). split; [|lia].
    destruct subset as [[lo hi]|]; cbn [limits fst snd] in *; [left; f_equal; f_equal; lia|]. right. split; [reflexivity|]. lia.
  - intros [lo [hi [Hsel [H1 H2]]]]. rewrite (selects_limits b subset lo hi Hsel). cbn [fst snd]. lia.
Qed.
