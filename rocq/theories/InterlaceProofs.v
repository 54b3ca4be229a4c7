(** Eigenvalues of an operator restricted to fewer states. *)
From Coq Require Import Reals Psatz.
From Verif Require Import ZLib Csum DFT NumPy Basis SpecBasis BasisProofs BasisProofs2 BasisProofs3 Operator SpecOperator OperatorProofs OperatorProofs2
  SpecMatrix LinAlg Polar Localize SpecLocalize Spectral Spectral2 Spectral3 EigenBasis SpecEigenBasis EigenBasisProofs SpecInterlace.
Local Open Scope R_scope.
Local Open Scope C_scope.

(** ** Matrices *)

  (** A vector orthogonal to given eigenvectors has a form between the remaining eigenvalues. *)
  Lemma form_above N M V E x k : unitary N V ->
    (forall i j, (i < N)%nat -> (j < N)%nat -> M i j = csum (fun k => V i k * RtoC (E k) * Cconj (V j k)) N) ->
    (forall i j, (i <= j)%nat -> (j < N)%nat -> (E i <= E j)%R) ->
    (forall r, (r < k)%nat -> (r < N)%nat -> csum (fun i => Cconj (V i r) * x i) N = 0) ->
    (E k * nrm N x <= form N M x)%R.
  Proof.
    intros HV HM SE Z. rewrite (diag_form N M V E x HV HM), (diag_nrm N V x HV), <- rsum_scal_l. apply rsum_le. intros r Hr.
    destruct (Nat.le_gt_cases k r) as [L|G].
    - apply Rmult_le_compat_r; [apply Cnorm2_nonneg|]. apply SE; lia.
    - rewrite Z by lia. replace (Cnorm2 0) with 0%R by (unfold Cnorm2; cbn; ring). lra.
  Qed.
  Lemma form_below N M V E x k : unitary N V -> (k < N)%nat ->
    (forall i j, (i < N)%nat -> (j < N)%nat -> M i j = csum (fun k => V i k * RtoC (E k) * Cconj (V j k)) N) ->
    (forall i j, (i <= j)%nat -> (j < N)%nat -> (E i <= E j)%R) ->
    (forall r, (k < r)%nat -> (r < N)%nat -> csum (fun i => Cconj (V i r) * x i) N = 0) ->
    (form N M x <= E k * nrm N x)%R.
  Proof.
    intros HV Hk HM SE Z. rewrite (diag_form N M V E x HV HM), (diag_nrm N V x HV), <- rsum_scal_l. apply rsum_le. intros r Hr.
    destruct (Nat.le_gt_cases r k) as [L|G].
    - apply Rmult_le_compat_r; [apply Cnorm2_nonneg|]. apply SE; lia.
    - rewrite Z by lia. replace (Cnorm2 0) with 0%R by (unfold Cnorm2; cbn; ring). lra.
  Qed.

Section Restrict.
  Context (n m : nat) (A B P : nat -> nat -> C).
  Hypothesis HP : forall i j, (i < m)%nat -> (j < m)%nat -> csum (fun p => Cconj (P p i) * P p j) n = cdelta i j.
  Let lift (x : nat -> C) (p : nat) : C := csum (fun j => P p j * x j) m.

  Lemma lift_nrm x : nrm n (lift x) = nrm m x.
  Proof using HP.
    apply RtoC_inj. rewrite <- !ip_nrm. unfold inner_product, lift.
    transitivity (csum (fun p => csum (fun i => csum (fun j => Cconj (x i) * x j * (Cconj (P p i) * P p j)) m) m) n).
    { apply csum_ext. intros p _. rewrite Cconj_csum, csum_mult. apply csum_ext. intros i _. apply csum_ext. intros j _.
      rewrite Cconj_mult. ring. }
    rewrite csum_swap. apply csum_ext. intros i Hi. rewrite csum_swap.
    rewrite (csum_ext _ (fun j => (Cconj (x i) * x j) * cdelta i j)).
    - rewrite (csum_delta_r (fun j => Cconj (x i) * x j)) by exact Hi. reflexivity.
    - intros j Hj. rewrite csum_scal_l, HP by assumption. reflexivity.
  Qed.

  Lemma fewer : (m <= n)%nat.
  Proof using HP.
    destruct (Nat.le_gt_cases m n) as [L|L]; [exact L|]. exfalso. destruct (kernel_exists n m P L) as [x [Hx Hz]].
    destruct (normalise m x Hx) as [Q _]. rewrite <- lift_nrm in Q.
    replace (nrm n (lift x)) with 0%R in Q; [lra|]. symmetry. unfold nrm. rewrite (rsum_ext _ (fun _ => 0%R)).
    - clear. induction n as [|k IH]; cbn; [reflexivity|rewrite IH; ring].
    - intros p Hp. unfold lift. rewrite Hz by exact Hp. unfold Cnorm2; cbn; ring.
  Qed.

  (** Component of a lifted vector along a vector. *)
  Lemma lift_component (v : nat -> C) x :
    csum (fun p => Cconj (v p) * lift x p) n = csum (fun j => csum (fun p => Cconj (v p) * P p j) n * x j) m.
  Proof using.
    unfold lift. transitivity (csum (fun p => csum (fun j => Cconj (v p) * P p j * x j) m) n).
    - apply csum_ext. intros p _. rewrite <- csum_scal_l. apply csum_ext. intros. ring.
    - rewrite csum_swap. apply csum_ext. intros j _. rewrite csum_scal_r. reflexivity.
  Qed.

  Lemma lower E E' d : (forall x, (form n A (lift x) <= form m B x + d * nrm m x)%R) -> ascending_spectrum n A E -> ascending_spectrum m B E' ->
    forall k, (k < m)%nat -> (E k <= E' k + d)%R.
  Proof using HP.
    intros Hf [SE [V [HV HA]]] [SE' [V' [HV' HB']]] k Hk. assert (Hmn := fewer).
    set (rows := fun r j => if (r <? k)%nat then csum (fun p => Cconj (V p r) * P p j) n else Cconj (V' j (r + 1)%nat)).
    destruct (kernel_exists (m - 1) m rows ltac:(lia)) as [x [Hx Hz]].
    destruct (normalise m x Hx) as [Q _].
    assert (F1 : (E k * nrm n (lift x) <= form n A (lift x))%R).
    { apply (form_above n A V E (lift x) k HV HA SE). intros r Hr Hn. rewrite (lift_component (fun p => V p r)).
      rewrite <- (Hz r ltac:(lia)). apply csum_ext. intros j _. unfold rows.
      replace (r <? k)%nat with true by (symmetry; apply Nat.ltb_lt; exact Hr). reflexivity. }
    assert (F2 : (form m B x <= E' k * nrm m x)%R).
    { apply (form_below m B V' E' x k HV' Hk HB' SE'). intros r Hr Hn. rewrite <- (Hz (r - 1)%nat ltac:(lia)). apply csum_ext. intros j _. unfold rows.
      replace (r - 1 <? k)%nat with false by (symmetry; apply Nat.ltb_ge; lia). replace (r - 1 + 1)%nat with r by lia. reflexivity. }
    assert (F3 := Hf x). rewrite lift_nrm in F1. apply (Rmult_le_reg_r (nrm m x)); [exact Q|]. lra.
  Qed.

  Lemma upper E E' : (forall x, (form m B x <= form n A (lift x))%R) -> ascending_spectrum n A E -> ascending_spectrum m B E' ->
    forall k, (k < m)%nat -> (E' k <= E (k + (n - m))%nat)%R.
  Proof using HP.
    intros Hf [SE [V [HV HA]]] [SE' [V' [HV' HB']]] k Hk. assert (Hmn := fewer).
    set (rows := fun r j => if (r <? k)%nat then Cconj (V' j r) else csum (fun p => Cconj (V p (r + (n - m) + 1)%nat) * P p j) n).
    destruct (kernel_exists (m - 1) m rows ltac:(lia)) as [x [Hx Hz]].
    destruct (normalise m x Hx) as [Q _].
    assert (F1 : (E' k * nrm m x <= form m B x)%R).
    { apply (form_above m B V' E' x k HV' HB' SE'). intros r Hr Hn.
      rewrite <- (Hz r ltac:(lia)). apply csum_ext. intros j _. unfold rows.
      replace (r <? k)%nat with true by (symmetry; apply Nat.ltb_lt; exact Hr). reflexivity. }
    assert (F2 : (form n A (lift x) <= E (k + (n - m))%nat * nrm n (lift x))%R).
    { apply (form_below n A V E (lift x) (k + (n - m)) HV ltac:(lia) HA SE). intros r Hr Hn. rewrite (lift_component (fun p => V p r)).
      rewrite <- (Hz (r - (n - m) - 1)%nat ltac:(lia)). apply csum_ext. intros j _. unfold rows.
      replace (r - (n - m) - 1 <? k)%nat with false by (symmetry; apply Nat.ltb_ge; lia).
      replace (r - (n - m) - 1 + (n - m) + 1)%nat with r by lia. reflexivity. }
    assert (F3 := Hf x). rewrite lift_nrm in F2. apply (Rmult_le_reg_r (nrm m x)); [exact Q|]. lra.
  Qed.

  Hypothesis HB : forall i j, (i < m)%nat -> (j < m)%nat ->
    B i j = csum (fun p => csum (fun q => Cconj (P p i) * A p q * P q j) n) n.

  Lemma lift_form x : form m B x = form n A (lift x).
  Proof using HB.
    unfold form. f_equal. unfold inner_product, mv, lift.
    transitivity (csum (fun i => csum (fun j => csum (fun p => csum (fun q =>
      (Cconj (x i) * Cconj (P p i)) * (A p q * (P q j * x j))) n) n) m) m).
    { apply csum_ext. intros i Hi. rewrite <- csum_scal_l. apply csum_ext. intros j Hj. rewrite HB by assumption.
      rewrite <- csum_scal_r, <- csum_scal_l. apply csum_ext. intros p _. rewrite <- csum_scal_r, <- csum_scal_l.
      apply csum_ext. intros q _. ring. }
    transitivity (csum (fun p => csum (fun i => csum (fun j => csum (fun q =>
      (Cconj (x i) * Cconj (P p i)) * (A p q * (P q j * x j))) n) m) m) n).
    { symmetry. rewrite csum_swap. apply csum_ext. intros i _. apply csum_swap. }
    apply csum_ext. intros p _. rewrite Cconj_csum, csum_mult.
    transitivity (csum (fun i => csum (fun q => (Cconj (x i) * Cconj (P p i)) * (A p q * csum (fun j => P q j * x j) m)) n) m).
    { apply csum_ext. intros i _. rewrite csum_swap. apply csum_ext. intros q _. rewrite <- !csum_scal_l. reflexivity. }
    apply csum_ext. intros i _. apply csum_ext. intros q _. rewrite Cconj_mult. ring.
  Qed.

  Lemma interlace E E' : ascending_spectrum n A E -> ascending_spectrum m B E' ->
    forall k, (k < m)%nat -> (E k <= E' k)%R /\ (E' k <= E (k + (n - m))%nat)%R.
  Proof using HP HB.
    intros HE HE' k Hk. split.
    - rewrite <- (Rplus_0_r (E' k)). apply (lower E E'); try assumption. intros x. rewrite lift_form, Rmult_0_l, Rplus_0_r. apply Rle_refl.
    - apply (upper E E'); try assumption. intros x. rewrite lift_form. apply Rle_refl.
  Qed.
End Restrict.

(** ** Operators *)

Lemma columns a b : bwf a -> explicit_orthonormal a -> bwf b -> explicit_orthonormal b -> bfund b = bfund a -> states_within b a ->
  forall i j, (i < bsize b)%nat -> (j < bsize b)%nat ->
    csum (fun p => Cconj (overlap a b p i) * overlap a b p j) (bsize a) = cdelta i j.
  Proof.
    intros Ha Oa Hb Ob G Sp i j Hi Hj. rewrite <- (explicit_orthonormal_sound b Hb Ob i j Hi Hj).
    destruct (Sp j Hj) as [c Hcj].
    assert (OV : forall p, (p < bsize a)%nat -> overlap a b p j = c p).
    { intros p Hp. unfold overlap.
      transitivity (csum (fun x => csum (fun q => c q * (Cconj (bstate a p x) * bstate a q x)) (bsize a)) (bfund b)).
      - apply csum_ext. intros x Hx. rewrite Hcj by lia. rewrite <- csum_scal_l. apply csum_ext. intros. ring.
      - rewrite csum_swap. rewrite (csum_ext _ (fun q => c q * cdelta p q)).
        + apply csum_delta_r. exact Hp.
        + intros q Hq. rewrite csum_scal_l. rewrite <- (explicit_orthonormal_sound a Ha Oa p q Hp Hq). unfold overlap. rewrite G. reflexivity. }
    transitivity (csum (fun p => csum (fun x => Cconj (bstate b i x) * (c p * bstate a p x)) (bfund b)) (bsize a)).
    - apply csum_ext. intros p Hp. rewrite OV by exact Hp. rewrite (overlap_conj b a) by exact G. unfold overlap. rewrite <- G.
      rewrite <- csum_scal_r. apply csum_ext. intros. ring.
    - rewrite csum_swap. apply csum_ext. intros x Hx. rewrite csum_scal_l. rewrite <- Hcj by lia. reflexivity.
  Qed.

Section Operators.
  Context (same : basis -> basis -> bool) (eigh : eigh_fn) (o : operator) (a b : basis).
  Hypothesis Hs : identity_test same.
  Hypothesis He : eigh_ok eigh.
  Hypothesis Hr : orow o = a.
  Hypothesis Hc : ocol o = a.
  Hypothesis Hw : op_wf o.
  Hypothesis Ha : bwf a.
  Hypothesis Oa : explicit_orthonormal a.
  Hypothesis Hb : bwf b.
  Hypothesis Ob : explicit_orthonormal b.
  Hypothesis HH : hermitian (bsize a) (op_entry o).
  Hypothesis Cab : compatible a b.
  Hypothesis Sp : states_within b a.

  Lemma same_fund : bfund b = bfund a.
  Proof using Cab Hs. destruct (proj2 (convert_some_iff same a b) Cab) as [F HF]. symmetry. exact (convert_some_fund _ _ _ _ HF). Qed.

  Lemma overlap_columns i j : (i < bsize b)%nat -> (j < bsize b)%nat ->
    csum (fun p => Cconj (overlap a b p i) * overlap a b p j) (bsize a) = cdelta i j.
  Proof using Ha Oa Hb Ob Cab Sp Hs. exact (columns a b Ha Oa Hb Ob same_fund Sp i j). Qed.

  Lemma restricted : exists o', convert_operator_to_basis same o b b = Some o' /\ orow o' = b /\ ocol o' = b /\ op_wf o' /\
    hermitian (bsize b) (op_entry o') /\ (bsize b <= bsize a)%nat /\
    forall E E', ascending_spectrum (bsize a) (op_entry o) E -> ascending_spectrum (bsize b) (op_entry o') E' ->
      forall k, (k < bsize b)%nat -> (E k <= E' k)%R /\ (E' k <= E (k + (bsize a - bsize b))%nat)%R.
  Proof using Hs Hr Hc Hw Ha Oa Hb Ob HH Cab Sp.
    destruct (convert_operator_spec same o b b Hw) as [F [o' [HF [Eo [Wo [Ro [Co Fo]]]]]]]; [rewrite Hr; exact Cab|rewrite Hc; exact Cab|].
    rewrite Hr, Hc in HF. exists o'. split; [exact Eo|]. split; [exact Ro|]. split; [exact Co|]. split; [exact Wo|].
    assert (HB : forall i j, (i < bsize b)%nat -> (j < bsize b)%nat -> op_entry o' i j =
      csum (fun p => csum (fun q => Cconj (overlap a b p i) * op_entry o p q * overlap a b q j) (bsize a)) (bsize a)).
    { intros i j Hi Hj. rewrite Fo by exact Hj. rewrite (convert_matrix_sum same Hs a b a b F Ha Hb Ha Hb Oa Oa HF (op_entry o) i j Hi Hj).
      apply csum_ext. intros p Hp. apply csum_ext. intros q Hq. rewrite (overlap_conj b a) by apply same_fund. reflexivity. }
    split; [|split].
    - intros i j Hi Hj. unfold adjoint. rewrite !HB by assumption. rewrite Cconj_csum. 
      rewrite (csum_ext (fun k => Cconj _) (fun p => csum (fun q => Cconj (overlap a b q i) * op_entry o q p * overlap a b p j) (bsize a))).
      + rewrite csum_swap. reflexivity.
      + intros p Hp. rewrite Cconj_csum. apply csum_ext. intros q Hq. rewrite !Cconj_mult, Cconj_conj.
        assert (K := HH q p Hq Hp). unfold adjoint in K. rewrite K. ring.
    - exact (fewer (bsize a) (bsize b) (overlap a b) overlap_columns).
    - intros E E'. exact (interlace (bsize a) (bsize b) (op_entry o) (op_entry o') (overlap a b) overlap_columns HB E E').
  Qed.

End Operators.

Lemma spectrum_of (n : nat) M : hermitian n M -> exists E, ascending_spectrum n M E.
Proof.
  intros H. destruct (spectral _ _ H) as [[V E] [A1 [A2 [_ A4]]]]. cbn [fst snd] in *. exists E. split; [exact A1|]. exists V. split; [exact A2|exact A4].
Qed.

(** The eigenvalues the eigensolver returns. *)
Lemma energies_spec eigh o b subset lo hi : eigh_ok eigh -> orow o = b -> ocol o = b -> op_wf o -> hermitian (bsize b) (op_entry o) ->
  selects (bsize b) subset lo hi -> (lo <= hi)%nat -> (hi < bsize b)%nat ->
  exists e v, eigenstates_hermitian eigh o subset = Some ((hi - lo + 1)%nat, e, v) /\
    forall E, ascending_spectrum (bsize b) (op_entry o) E -> forall k, (k < hi - lo + 1)%nat -> e k = E (lo + k)%nat.
Proof.
  intros He Hr Hc Hw HH Sel H1 H2. rewrite (eigenstates_unfold eigh o b Hr Hc Hw subset).
  replace (limits b subset) with (Z.of_nat lo, Z.of_nat hi).
  2:{ destruct Sel as [->|[-> [-> E]]]; [reflexivity|]. unfold limits. f_equal. lia. }
  cbn [fst snd]. unfold calculate_eigenvectors_hermitian.
  rewrite (proj2 (Z.leb_le 0 (Z.of_nat lo))) by lia. rewrite (proj2 (Z.leb_le (Z.of_nat lo) (Z.of_nat hi))) by lia.
  rewrite (proj2 (Z.ltb_lt (Z.of_nat hi) (Z.of_nat (bsize b)))) by lia. cbn [andb]. rewrite !Nat2Z.id.
  assert (K := He (bsize b) (fun i j => op_entry o i j) lo hi HH H1 H2). destruct (eigh _ _ lo hi) as [e v]. destruct K as [K1 [K2 K3]].
  replace (Z.to_nat (Z.of_nat hi - Z.of_nat lo + 1)) with (hi - lo + 1)%nat by lia.
  eexists. eexists. split; [reflexivity|]. exact K3.
Qed.

Lemma energies_bound same eigh o a b : identity_test same -> eigh_ok eigh ->
  orow o = a -> ocol o = a -> op_wf o -> hermitian (bsize a) (op_entry o) ->
  bwf a -> explicit_orthonormal a -> bwf b -> explicit_orthonormal b -> compatible a b -> states_within b a ->
  exists o', convert_operator_to_basis same o b b = Some o' /\ (bsize b <= bsize a)%nat /\
  (forall lo hi, (lo <= hi)%nat -> (hi < bsize b)%nat -> exists e v e' v',
    eigenstates_hermitian eigh o (Some (Z.of_nat lo, Z.of_nat hi)) = Some ((hi - lo + 1)%nat, e, v) /\
    eigenstates_hermitian eigh o' (Some (Z.of_nat lo, Z.of_nat hi)) = Some ((hi - lo + 1)%nat, e', v') /\
    forall k, (k < hi - lo + 1)%nat -> (e k <= e' k)%R) /\
  exists e v e' v', eigenstates_hermitian eigh o None = Some (bsize a, e, v) /\
    eigenstates_hermitian eigh o' None = Some (bsize b, e', v') /\
    forall k, (k < bsize b)%nat -> (e k <= e' k)%R /\ (e' k <= e (k + (bsize a - bsize b))%nat)%R.
Proof.
  intros Hs He Hr Hc Hw HH Ha Oa Hb Ob Cab Sp.
  destruct (restricted same o a b Hs Hr Hc Hw Ha Oa Hb Ob HH Cab Sp) as [o' [E1 [R1 [C1 [W1 [H1 [L1 I1]]]]]]].
  destruct (spectrum_of _ _ HH) as [E HE]. destruct (spectrum_of _ _ H1) as [E' HE'].
  assert (Pb := bsize_pos b Hb). exists o'. split; [exact E1|]. split; [exact L1|]. split.
  - intros lo hi Hl Hh.
    destruct (energies_spec eigh o a (Some (Z.of_nat lo, Z.of_nat hi)) lo hi He Hr Hc Hw HH (or_introl eq_refl) Hl ltac:(lia)) as [e [v [G K]]].
    destruct (energies_spec eigh o' b (Some (Z.of_nat lo, Z.of_nat hi)) lo hi He R1 C1 W1 H1 (or_introl eq_refl) Hl Hh) as [e' [v' [G' K']]].
    exists e, v, e', v'. split; [exact G|]. split; [exact G'|]. intros k Hk. rewrite (K E HE k Hk), (K' E' HE' k Hk). apply (I1 E E' HE HE'). lia.
  - destruct (energies_spec eigh o a None 0 (bsize a - 1) He Hr Hc Hw HH) as [e [v [G K]]]; [right; repeat split; lia|lia|lia|].
    destruct (energies_spec eigh o' b None 0 (bsize b - 1) He R1 C1 W1 H1) as [e' [v' [G' K']]]; [right; repeat split; lia|lia|lia|].
    replace (bsize a - 1 - 0 + 1)%nat with (bsize a) in G, K by lia. replace (bsize b - 1 - 0 + 1)%nat with (bsize b) in G', K' by lia.
    exists e, v, e', v'. split; [exact G|]. split; [exact G'|]. intros k Hk. rewrite (K E HE k), (K' E' HE' k Hk), (K E HE _) by lia.
    exact (I1 E E' HE HE' k Hk).
Qed.
