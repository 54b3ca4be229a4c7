(** Remaining lemmas behind PropertiesBasis.v. *)
From Coq Require Import Reals Psatz.
From Verif Require Import ZLib Csum DFT NumPy Interp Spec InterpProofs Index IndexProofs Basis SpecBasis BasisProofs BasisProofs2 BasisProofs3.
Local Open Scope R_scope.
Local Open Scope C_scope.

Lemma ex_e_ok_fact : let ex_e := BExpl 1 (fun _ _ => isqrt 2) (BTrans 2 3) in
  bwf ex_e /\ explicit_orthonormal ex_e.
Proof.
  simpl. split; [lia|]. split; [|exact I]. intros i j Hi Hj.
  assert (i = 0)%nat by lia. assert (j = 0)%nat by lia. subst.
  unfold inner_product. simpl. rewrite cdelta_refl, isqrt_conj.
  generalize (isqrt_sqr 2 ltac:(lia)). intros H.
  transitivity (isqrt 2 * isqrt 2 * RtoC (INR 2)); [simpl INR; rewrite RtoC_plus; ring|exact H].
Qed.

Lemma ex_compatible_fact :
  let ex_a := BTuple [BTrans 2 3; BEven 2 2 1] in
  let ex_b := BTuple [BFund 3; BFundT 4] in
  let ex_e := BExpl 1 (fun _ _ => isqrt 2) (BTrans 2 3) in
  compatible ex_a ex_b /\ compatible ex_b ex_a /\ compatible ex_e (BFund 3).
Proof.
  repeat split; cbv zeta; apply (convert_some_iff never); eexists; reflexivity.
Qed.

Lemma ex_not_compatible_fact : ~ compatible (BTuple [BFund 3; BFund 4]) (BTuple [BFund 4; BFund 3]).
Proof. apply (convert_none_iff never). reflexivity. Qed.

Lemma convert_distinct same a b F : (forall c, same c c = false) -> identity_test same -> bwf a -> bwf b ->
  convert same a b = Some F ->
  forall v j, (j < bsize b)%nat -> F v j = csum (fun k => overlap b a j k * v k) (bsize a).
Proof.
  intros Hn Hs Ha Hb HF. apply (convert_mat same Hs a b F Ha Hb); [|assumption].
  intros c _ H. rewrite Hn in H. discriminate.
Qed.

Lemma signed_frequencies n N k : (k < n)%nat -> (n <= N)%nat ->
  is_freq n k (freq n k) /\ is_freq N (slot N (freq n k)) (freq n k) /\ (slot N (freq n k) < N)%nat.
Proof.
  intros Hk HN. split; [|split]; [apply freq_is_freq|apply slot_is_freq|apply slot_lt]; try assumption. lia.
Qed.

Lemma convert_dual_sum same a b G : identity_test same -> bwf a -> bwf b -> explicit_orthonormal a ->
  convert_dual same a b = Some G ->
  forall v j, (j < bsize b)%nat -> G v j = csum (fun k => overlap a b k j * v k) (bsize a).
Proof.
  intros Hs Ha Hb Oa HG v j Hj. unfold convert_dual in HG.
  destruct (convert same a b) as [F|] eqn:HF; [|discriminate]. inversion HG; subst G.
  rewrite (convert_orthonormal same Hs a b F Ha Hb Oa HF _ j Hj), Cconj_csum.
  apply csum_ext; intros k Hk.
  rewrite Cconj_mult, Cconj_conj, overlap_conj by (eapply convert_some_fund; eassumption). reflexivity.
Qed.

Lemma self_conversion_differs :
  exists a v j F G, bwf a /\ (j < bsize a)%nat /\
    convert (fun _ _ => false) a a = Some F /\
    (forall same, same a a = true -> convert same a a = Some (convert_generic same a a)) /\
    (forall same, same a a = true -> convert_generic same a a v j = G) /\ F v j <> G.
Proof.
  exists (BExpl 1 (fun _ _ => RtoC 2) (BFund 1)), (fun _ => RtoC 1), 0%nat.
  eexists. exists (RtoC 1). split; [simpl; lia|]. split; [simpl; lia|].
  split; [reflexivity|]. split; [|split].
  - intros same H. reflexivity.
  - intros same H. unfold convert_generic. rewrite H. reflexivity.
  - cbn. unfold from_state_basis, into_state_basis. simpl. rewrite Cconj_RtoC.
    rewrite <- !RtoC_mult, <- !RtoC_plus, <- !RtoC_mult, <- !RtoC_plus. intros E. apply RtoC_inj in E. lra.
Qed.

Lemma full_bases b : bwf b -> full b -> complete b /\ explicit_orthonormal b /\ orthonormal b.
Proof.
  intros Hw Hf. assert (He := full_explicit_orthonormal b Hf).
  split; [apply full_complete; assumption|]. split; [assumption|]. apply explicit_orthonormal_sound; assumption.
Qed.

Lemma convert_norm same a b F : identity_test same -> bwf a -> bwf b -> explicit_orthonormal a -> complete b ->
  convert same a b = Some F ->
  forall v, rsum (fun k => Cnorm2 (F v k)) (bsize b) = rsum (fun k => Cnorm2 (v k)) (bsize a).
Proof.
  intros Hs Ha Hb Oa Cb HF v. apply RtoC_inj. rewrite <- !csum_norm2.
  apply (convert_inner same Hs a b F Ha Hb Oa Cb HF).
Qed.

Lemma convert_stacked same la lb F : identity_test same -> bwf (BTuple la) -> bwf (BTuple lb) ->
  explicit_orthonormal (BTuple la) -> convert same (BTuple la) (BTuple lb) = Some F ->
  forall v j, (j < nprod (map bsize lb))%nat ->
    F v j = csum (fun k => axis_overlaps lb la (unravel (map bsize lb) j) (unravel (map bsize la) k) * v k)
                 (nprod (map bsize la)).
Proof.
  intros Hs Ha Hb Oa HF v j Hj.
  rewrite (convert_orthonormal same Hs _ _ F Ha Hb Oa HF v j Hj).
  apply csum_ext; intros k Hk. rewrite axis_overlaps_unravel; [reflexivity|].
  apply compatible_axes_fund, compatible_tuple_inv, (convert_some_iff same). exists F; assumption.
Qed.

Lemma convert_product_vector same la lb F Fs vs : identity_test same -> bwf (BTuple la) -> bwf (BTuple lb) ->
  explicit_orthonormal (BTuple la) -> convert same (BTuple la) (BTuple lb) = Some F ->
  Forall2 (fun ab f => convert same (fst ab) (snd ab) = Some f) (combine la lb) Fs ->
  length vs = length la ->
  forall j, (j < nprod (map bsize lb))%nat ->
    F (product_vector (combine (map bsize la) vs)) j =
    product_vector (combine (map bsize lb) (map (fun fv => fst fv (snd fv)) (combine Fs vs))) j.
Proof.
  intros Hs Ha Hb Oa HF HFs Hl j Hj.
  rewrite (convert_orthonormal same Hs _ _ F Ha Hb Oa HF _ j Hj).
  assert (Hc : Forall2 compatible la lb)
    by (apply compatible_tuple_inv, (convert_some_iff same); exists F; assumption).
  cbn [bsize]. rewrite product_vector_sum by (try assumption; apply compatible_axes_fund; assumption).
  apply bwf_tuple in Ha. apply bwf_tuple in Hb. apply explicit_orthonormal_tuple in Oa.
  clear HF F.
  revert Fs vs HFs Hl j Hj. induction Hc as [|a b la lb Hab Hc IH]; intros Fs vs HFs Hl j Hj; [reflexivity|].
  destruct vs as [|v vs]; [discriminate|]. simpl in HFs. inversion HFs as [|? f ? Fs' Hf HFs']; subst.
  inversion Ha; subst. inversion Hb; subst. inversion Oa; subst. simpl in Hl, Hf.
  assert (Ll : length la = length lb) by (clear -Hc; induction Hc; simpl; congruence).
  assert (Lf : length Fs' = length la).
  { clear -HFs' Ll. assert (L : length (combine la lb) = length Fs') by (induction HFs'; simpl; congruence).
    rewrite combine_length in L. lia. }
  assert (F1 : forall (l : list basis) (vs : list (nat -> C)), length vs = length l ->
        map fst (combine (map bsize l) vs) = map bsize l).
  { clear. induction l as [|c l IH]; intros [|v vs] E; try discriminate; [reflexivity|].
    simpl in *. rewrite IH by lia. reflexivity. }
  cbn [map combine product_vector fst snd nprod] in *.
  rewrite !F1 by (rewrite map_length, !combine_length; lia).
  assert (Hp : (0 < nprod (map bsize lb))%nat) by (apply (bsize_pos (BTuple lb)), bwf_tuple; assumption).
  assert (Hm : (j mod nprod (map bsize lb) < nprod (map bsize lb))%nat) by (apply Nat.mod_upper_bound; lia).
  assert (Hv : length vs = length la) by lia.
  rewrite (IH ltac:(assumption) ltac:(assumption) ltac:(assumption) Fs' vs HFs' Hv _ Hm).
  f_equal. symmetry. apply (convert_orthonormal same Hs a b f); try assumption.
  apply Nat.div_lt_upper_bound; nia.
Qed.

Lemma convert_real_other same a b F v : convert same a b = Some F -> same a b = false ->
  convert_real same a b v = Some (bsize b, F (fun k => RtoC (v k))).
Proof. intros HF HS. unfold convert_real. rewrite HF, HS. reflexivity. Qed.

Lemma convert_real_same same a v : same a a = true -> (0 < bsize a)%nat ->
    (Nat.even (bsize a) = false -> convert_real same a a v = None) /\
    (Nat.even (bsize a) = true -> forall F, convert same a a = Some F ->
       exists w, convert_real same a a v = Some ((bsize a / 2)%nat, w) /\ (bsize a / 2 < bsize a)%nat /\
         forall i, (i < bsize a / 2)%nat -> w i = (v (2 * i)%nat, v (S (2 * i)))).
Proof.
  intros HS Hp. unfold convert_real, view_complex. rewrite HS. split.
  - intros ->. destruct (convert same a a); reflexivity.
  - intros -> F ->. eexists; split; [reflexivity|]. split; [apply Nat.div_lt; lia|reflexivity].
Qed.

Lemma util_vectors_spec b : bwf b -> forall k x, (k < bsize b)%nat -> (x < bfund b)%nat ->
    util_vectors b k x = bstate b k x.
Proof.
  intros Hw k x Hk Hx. unfold util_vectors. rewrite (into_fundamental_mat b Hw _ x Hx).
  apply (csum_delta_r (fun k => bstate b k x)). assumption.
Qed.

Lemma util_into_transformed_differs :
  exists b v p, bwf b /\ (p < bfund b)%nat /\ util_into_transformed b v p <> into_transformed b v p.
Proof.
  exists (BTuple [BFund 2; BFund 2]), (cdelta 1), 1%nat.
  split; [simpl; lia|]. split; [simpl; lia|].
  assert (Hw : bwf (BTuple [BFund 2; BFund 2])) by (simpl; lia).
  assert (E1 : util_into_transformed (BTuple [BFund 2; BFund 2]) (cdelta 1) 1 = isqrt 4 * omega 4 (-1)).
  { unfold util_into_transformed, dft. simpl. unfold apply_axis, cdelta. simpl. ring. }
  assert (E2 : into_transformed (BTuple [BFund 2; BFund 2]) (cdelta 1) 1 = isqrt 2 * isqrt 2 * omega 2 (-1)).
  { simpl. unfold apply_axis. simpl. unfold dft. simpl. unfold cdelta. simpl. rewrite !omega_0. ring. }
  rewrite E1, E2. clear E1 E2. intros E.
  change 4%nat with (2 * 2)%nat in E. rewrite isqrt_mul in E.
  assert (H2 : isqrt 2 <> 0) by (apply isqrt_neq0; lia).
  assert (E' : omega (2 * 2) (-1) = omega 2 (-1)).
  { apply (f_equal (fun z => z / (isqrt 2 * isqrt 2))) in E.
    replace (isqrt 2 * isqrt 2 * omega (2 * 2) (-1) / (isqrt 2 * isqrt 2)) with (omega (2 * 2) (-1)) in E
      by (field; assumption).
    replace (isqrt 2 * isqrt 2 * omega 2 (-1) / (isqrt 2 * isqrt 2)) with (omega 2 (-1)) in E
      by (field; assumption). exact E. }
  apply (omega_neq_1 2 1); [lia|lia|].
  assert (S : omega (2 * 2) (-1) * omega (2 * 2) (-1) = omega 2 (-1) * omega 2 (-1)) by (rewrite E'; reflexivity).
  rewrite <- !omega_add in S. change (-1 + -1)%Z with (-1 * Z.of_nat 2)%Z in S.
  rewrite omega_scale, omega_mult_N in S by lia.
  rewrite <- S. apply omega_cong; [lia|]. exists 1%Z. reflexivity.
Qed.
