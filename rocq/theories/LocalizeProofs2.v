(** Projection localisation (C31). *)
From Coq Require Import Reals Psatz.
From Verif Require Import ZLib Csum DFT NumPy Interp Index IndexProofs AxesProofs Spec Basis SpecBasis BasisProofs BasisProofs2
  BasisProofs3 BasisFacts Operator SpecOperator OperatorProofs Reduce ReduceProofs IndexSum Wavepacket SpecWavepacket WavepacketProofs
  WavepacketProofs2 WavepacketProofs3 SpecMatrix LinAlg Polar Localize SpecLocalize LocalizeProofs.
Local Open Scope R_scope.
Local Open Scope C_scope.

Lemma compatible_to_sampled ls : forall ss s paxes, length ls = length ss -> in_shape s ls ->
  map bfund paxes = supercell ls ss -> compatible (BTuple paxes) (BTuple (sampled ls ss s)).
Proof.
  intros ss s paxes Hl Hs E. constructor.
  - cbn [bfund]. rewrite E, (proj2 (sampled_shapes ls ss s Hl Hs)). reflexivity.
  - revert ss s paxes Hl Hs E. induction ls as [|n ls IH]; intros [|m ss] s paxes Hl Hs E; try discriminate;
      inversion Hs as [|i ? s' ? Hi Hs']; subst; cbn [sampled supercell map] in *.
    + destruct paxes; [constructor|discriminate].
    + destruct paxes as [|p paxes]; [discriminate|]. cbn [map] in E. injection E as E1 E2. constructor.
      * constructor; [intros la lb [_ X]; discriminate|]. cbn [bfund]. lia.
      * apply IH; auto.
Qed.

Section Projection.
  Context (same : basis -> basis -> bool) (Hsame : identity_test same).
  Context (laxes saxes paxes : list basis).
  Context (Hw : bwf (BTuple saxes)) (He : explicit_orthonormal (BTuple saxes)).
  Context (Hl : length laxes = length saxes).
  Let ls := map bsize laxes.
  Let ss := map bfund saxes.
  Let N := bsize (BTuple saxes).
  Let ns := bsize (BTuple laxes).
  Context (Hwp : bwf (BTuple paxes)) (Hep : explicit_orthonormal (BTuple paxes)) (Hp : map bfund paxes = supercell ls ss).

  Lemma Hll : length ls = length ss. Proof. unfold ls, ss. rewrite !map_length. exact Hl. Qed.

  Lemma states_at_spec nb data s : nprod (ashape data) = (nb * ns * N)%nat -> (s < ns)%nat ->
    exists d G, states_at_bloch_idx same nb laxes saxes data (Z.of_nat s) = Some (sampled ls ss (unravel ls s), d) /\
      convert same (BTuple saxes) (momenta ss) = Some G /\
      ashape d = [(nb * nprod ss)%nat] /\
      forall l k, (l < nb)%nat -> (k < nprod ss)%nat ->
        row (nprod ss) (aflat d) l k = G (band_state ns N data s l) k.
  Proof.
    intros Hd Hs. unfold states_at_bloch_idx. fold ls ss.
    rewrite reshape_some by (rewrite Hd; unfold ns, N; cbn [nprod bsize]; fold ls; lia).
    rewrite as_fundamental_transformed_momenta. fold ss.
    destruct (proj2 (convert_some_iff same (BTuple saxes) (momenta ss)) (compatible_momenta saxes)) as [G HG]. rewrite HG.
    assert (Hs' : (s < nprod ls)%nat) by exact Hs.
    unfold get_stacked_index, python_index. rewrite !Nat2Z.id.
    replace ((0 <=? Z.of_nat s)%Z && (Z.of_nat s <? Z.of_nat (nprod ls))%Z)%bool with true
      by (symmetry; apply andb_true_intro; split; [apply Z.leb_le|apply Z.ltb_lt]; lia).
    rewrite sampled_basis_eq by (try exact Hll; apply unravel_in_shape; exact Hs').
    eexists; exists G. split; [reflexivity|]. split; [reflexivity|].
    split; [cbn [ravel_array array2 ashape nprod]; f_equal; lia|].
    intros l k Hlb Hk. unfold row at 1. cbn [ravel_array aflat]. rewrite array2_flat by exact Hk. reflexivity.
  Qed.

  Lemma states_at_inner nb data s d b : nprod (ashape data) = (nb * ns * N)%nat -> (s < ns)%nat ->
    states_at_bloch_idx same nb laxes saxes data (Z.of_nat s) = Some (b, d) ->
    forall l m, (l < nb)%nat -> (m < nb)%nat ->
      inner_product (nprod ss) (row (nprod ss) (aflat d) l) (row (nprod ss) (aflat d) m) =
      inner_product N (band_state ns N data s l) (band_state ns N data s m).
  Proof.
    intros Hd Hs E l m Hlb Hm. destruct (states_at_spec nb data s Hd Hs) as [d' [G [E' [HG [_ Hr]]]]].
    rewrite E in E'. injection E' as -> ->.
    unfold N. rewrite <- (convert_inner same Hsame _ _ G Hw (momenta_wf ss (fund_shape_pos _ Hw)) He (momenta_ss_complete saxes Hw) HG).
    rewrite momenta_size. unfold inner_product. apply csum_ext. intros k Hk. rewrite !Hr by assumption. reflexivity.
  Qed.

  Context (np : nat) (projections : ndarray) (Hpr : nprod (ashape projections) = (np * bsize (BTuple paxes))%nat).
  Let q (s p : nat) (F : (nat -> C) -> nat -> C) : nat -> C := F (row (bsize (BTuple paxes)) (aflat projections) p).

  Lemma inner_products_spec nb s d : (s < ns)%nat -> nprod (ashape d) = (nb * nprod ss)%nat ->
    exists A F, inner_products same nb np (BTuple (sampled ls ss (unravel ls s))) (BTuple paxes) d projections = Some A /\
      convert same (BTuple paxes) (BTuple (sampled ls ss (unravel ls s))) = Some F /\
      forall i j, A i j = csum (fun k => Cconj (row (nprod ss) (aflat d) i k) * F (row (bsize (BTuple paxes)) (aflat projections) j) k) (nprod ss).
  Proof.
    intros Hs Hd. assert (Hs' : in_shape (unravel ls s) ls) by (apply unravel_in_shape; exact Hs).
    assert (Ss : bsize (BTuple (sampled ls ss (unravel ls s))) = nprod ss)
      by (cbn [bsize]; rewrite (proj1 (sampled_shapes ls ss _ Hll Hs')); reflexivity).
    unfold inner_products. rewrite Ss. rewrite !reshape_some by (rewrite ?Hd, ?Hpr; cbn [nprod]; lia).
    destruct (proj2 (convert_some_iff same _ _) (compatible_to_sampled ls ss (unravel ls s) paxes Hll Hs' Hp)) as [F HF].
    rewrite HF. eexists; exists F. split; [reflexivity|]. split; [reflexivity|]. intros i j. reflexivity.
  Qed.

  Context (svd : svd_fn) (Hsvd : svd_ok svd) (nb : nat) (data : ndarray) (Hd : nprod (ashape data) = (nb * ns * N)%nat).

  Lemma projections_spec : exists op,
    localization_operator_for_projections same svd nb np laxes saxes data (BTuple paxes) projections = Some op /\
    ashape op = [(ns * np * nb)%nat] /\
    forall s, (s < ns)%nat -> exists d A,
      states_at_bloch_idx same nb laxes saxes data (Z.of_nat s) = Some (sampled ls ss (unravel ls s), d) /\
      inner_products same nb np (BTuple (sampled ls ss (unravel ls s))) (BTuple paxes) d projections = Some A /\
      forall p c, (p < np)%nat -> (c < nb)%nat ->
        at_sample np nb op s p c = polar (Nat.min nb np) (fst (fst (svd nb np A))) (snd (svd nb np A)) p c.
  Proof.
    unfold localization_operator_for_projections. fold ns.
    set (g := fun i => match states_at_bloch_idx same nb laxes saxes data (Z.of_nat i) with
                       | Some (b, d) => inner_products same nb np (BTuple b) (BTuple paxes) d projections | None => None end).
    assert (Hg : forall s, (s < ns)%nat -> exists d A,
      states_at_bloch_idx same nb laxes saxes data (Z.of_nat s) = Some (sampled ls ss (unravel ls s), d) /\
      inner_products same nb np (BTuple (sampled ls ss (unravel ls s))) (BTuple paxes) d projections = Some A /\ g s = Some A).
    { intros s Hs. destruct (states_at_spec nb data s Hd Hs) as [d [G [E [_ [Sd _]]]]].
      destruct (inner_products_spec nb s d Hs ltac:(rewrite Sd; cbn [nprod]; lia)) as [A [F [EA _]]].
      exists d, A. split; [exact E|]. split; [exact EA|]. unfold g. rewrite E. exact EA. }
    destruct (all_some_map g (fun _ _ => RtoC 0%R) (seq 0 ns) 0%nat) as [r [Er [Lr Nr]]].
    { intros s Hs. apply in_seq in Hs. destruct (Hg s ltac:(lia)) as [d [A [_ [_ EA]]]]. exists A. exact EA. }
    rewrite Er. eexists. split; [reflexivity|]. split; [cbn [ravel_array array3 ashape nprod]; f_equal; lia|].
    intros s Hs. destruct (Hg s Hs) as [d [A [E1 [E2 E3]]]]. exists d, A. split; [exact E1|]. split; [exact E2|].
    intros p c Hpp Hc. unfold at_sample. cbn [ravel_array aflat]. rewrite array3_flat by assumption.
    assert (Hn := Nr s ltac:(rewrite seq_length; exact Hs)). rewrite seq_nth in Hn by exact Hs. rewrite Nat.add_0_l in Hn.
    rewrite E3 in Hn. injection Hn as <-.
    unfold orthogonal_projected_states, polar. destruct (svd nb np A) as [[u sg] vd]. reflexivity.
  Qed.

  Lemma projections_isometry op : (np <= nb)%nat ->
    localization_operator_for_projections same svd nb np laxes saxes data (BTuple paxes) projections = Some op ->
    forall s, (s < ns)%nat -> orthonormal_rows np nb (at_sample np nb op s).
  Proof.
    intros Hnp E s Hs. destruct projections_spec as [o [Eo [_ S]]]. rewrite E in Eo. injection Eo as <-.
    destruct (S s Hs) as [d [A [_ [_ P]]]]. specialize (Hsvd nb np A). destruct (svd nb np A) as [[u sg] vd].
    destruct Hsvd as [H0 [Hu [Hv HA]]]. cbn [fst snd] in P.
    intros i j Hi Hj. rewrite (csum_ext _ (fun x => polar (Nat.min nb np) u vd i x * Cconj (polar (Nat.min nb np) u vd j x)))
      by (intros x Hx; rewrite !P by assumption; reflexivity).
    apply (polar_rows nb np (Nat.min nb np) u vd Hu Hv); [lia|exact Hi|exact Hj].
  Qed.

  Lemma projections_unitary op : np = nb ->
    localization_operator_for_projections same svd nb np laxes saxes data (BTuple paxes) projections = Some op ->
    forall s, (s < ns)%nat -> unitary nb (at_sample np nb op s).
  Proof.
    intros En E s Hs. assert (H := projections_isometry op ltac:(lia) E s Hs). rewrite En in H at 1. split; [exact H|].
    apply orthonormal_square. exact H.
  Qed.

  Context (Hpos : (0 < nb * ns)%nat).

  (** The localised states at sample [s] in terms of the band states there. *)
  Lemma localized_states_at op w s : nprod (ashape op) = (ns * np * nb)%nat ->
    localized_wavepackets np nb ns op data = Some w -> (s < ns)%nat ->
    exists d dw, states_at_bloch_idx same nb laxes saxes data (Z.of_nat s) = Some (sampled ls ss (unravel ls s), d) /\
      states_at_bloch_idx same np laxes saxes w (Z.of_nat s) = Some (sampled ls ss (unravel ls s), dw) /\
      nprod (ashape dw) = (np * nprod ss)%nat /\
      forall p k, (p < np)%nat -> (k < nprod ss)%nat ->
        row (nprod ss) (aflat dw) p k = csum (fun b => at_sample np nb op s p b * row (nprod ss) (aflat d) b k) nb.
  Proof.
    intros Hop Ew Hs. destruct (states_at_spec nb data s Hd Hs) as [d [G [E [HG [_ Hr]]]]].
    destruct (localized_spec np nb ns N op data Hop Hd Hpos) as [w' [Ew' [Sw Hw']]]. rewrite Ew in Ew'. injection Ew' as <-.
    destruct (states_at_spec np w s ltac:(rewrite Sw; cbn [nprod]; lia) Hs) as [dw [G' [E' [HG' [Sd Hr']]]]].
    rewrite HG in HG'. injection HG' as <-.
    exists d, dw. split; [exact E|]. split; [exact E'|]. split; [rewrite Sd; cbn [nprod]; lia|].
    intros p k Hpp Hk. rewrite Hr' by assumption.
    assert (EG := convert_orthonormal same Hsame _ _ G Hw (momenta_wf ss (fund_shape_pos _ Hw)) He HG).
    rewrite EG by (rewrite momenta_size; exact Hk). fold N.
    rewrite (csum_ext _ (fun b => csum (fun j => overlap (momenta ss) (BTuple saxes) k j * (at_sample np nb op s p b * band_state ns N data s b j)) N) nb).
    - rewrite csum_swap. apply csum_ext. intros j Hj. rewrite csum_scal_l. f_equal. apply Hw'; assumption.
    - intros b Hb. rewrite Hr by assumption. rewrite EG by (rewrite momenta_size; exact Hk). fold N. rewrite <- csum_scal_l.
      apply csum_ext. intros j Hj. ring.
  Qed.

  Lemma projections_overlap op : 
    localization_operator_for_projections same svd nb np laxes saxes data (BTuple paxes) projections = Some op ->
    exists w, localized_wavepackets np nb ns op data = Some w /\
    forall s, (s < ns)%nat -> exists b d M,
      states_at_bloch_idx same np laxes saxes w (Z.of_nat s) = Some (b, d) /\
      inner_products same np np (BTuple b) (BTuple paxes) d projections = Some M /\
      hermitian np M /\ positive_semidefinite np M.
  Proof.
    intros E. destruct projections_spec as [o [Eo [So S]]]. rewrite E in Eo. injection Eo as <-.
    assert (Hop : nprod (ashape op) = (ns * np * nb)%nat) by (rewrite So; cbn [nprod]; lia).
    destruct (localized_spec np nb ns N op data Hop Hd Hpos) as [w [Ew _]].
    exists w. split; [exact Ew|]. intros s Hs.
    destruct (localized_states_at op w s Hop Ew Hs) as [d [dw [E1 [E2 [Sd Hr]]]]].
    destruct (S s Hs) as [d' [A [E3 [E4 P]]]]. rewrite E1 in E3. injection E3 as <-.
    destruct (states_at_spec nb data s Hd Hs) as [d2 [G [E5 [_ [Sd2 _]]]]]. rewrite E1 in E5. injection E5 as <-.
    destruct (inner_products_spec nb s d Hs ltac:(rewrite Sd2; cbn [nprod]; lia)) as [A' [F [E6 [HF VA]]]].
    rewrite E4 in E6. injection E6 as <-.
    destruct (inner_products_spec np s dw Hs Sd) as [M [F' [E7 [HF' VM]]]]. rewrite HF in HF'. injection HF' as <-.
    exists (sampled ls ss (unravel ls s)), dw, M. split; [exact E2|]. split; [exact E7|].
    specialize (Hsvd nb np A). destruct (svd nb np A) as [[u sg] vd]. destruct Hsvd as [H0 [Hu [Hv HA]]]. cbn [fst snd] in P.
    assert (VM2 : forall i j, (i < np)%nat -> (j < np)%nat ->
      M i j = csum (fun b => Cconj (polar (Nat.min nb np) u vd i b) * A b j) nb).
    { intros i j Hi Hj. rewrite VM.
      transitivity (csum (fun k => csum (fun b => Cconj (at_sample np nb op s i b) * (Cconj (row (nprod ss) (aflat d) b k) * F (row (bsize (BTuple paxes)) (aflat projections) j) k)) nb) (nprod ss)).
      - apply csum_ext. intros k Hk. rewrite Hr by assumption. rewrite Cconj_csum, <- csum_scal_r. apply csum_ext. intros b Hb.
        rewrite Cconj_mult. ring.
      - rewrite csum_swap. apply csum_ext. intros b Hb. rewrite csum_scal_l, <- VA. rewrite P by assumption. reflexivity. }
    split.
    - intros i j Hi Hj. unfold adjoint. rewrite !VM2 by assumption. eapply polar_hermitian; eassumption.
    - intros x. destruct (polar_psd nb np (Nat.min nb np) A u vd sg H0 Hu HA x) as [t [Ht Et]].
      exists t. split; [exact Ht|]. rewrite <- Et. apply csum_ext. intros p Hpp. apply csum_ext. intros q' Hq.
      rewrite VM2 by assumption. reflexivity.
  Qed.

  Lemma projections_closest op : (np <= nb)%nat ->
    localization_operator_for_projections same svd nb np laxes saxes data (BTuple paxes) projections = Some op ->
    exists w, localized_wavepackets np nb ns op data = Some w /\
    forall s, (s < ns)%nat ->
      (forall l m, (l < nb)%nat -> (m < nb)%nat ->
         inner_product N (band_state ns N data s l) (band_state ns N data s m) = cdelta l m) ->
      exists b d dw F,
        states_at_bloch_idx same nb laxes saxes data (Z.of_nat s) = Some (b, d) /\
        states_at_bloch_idx same np laxes saxes w (Z.of_nat s) = Some (b, dw) /\
        convert same (BTuple paxes) (BTuple b) = Some F /\
        forall W, orthonormal_rows np nb W ->
          (rsum (fun p => distance2 (bsize (BTuple b)) (row (bsize (BTuple b)) (aflat dw) p)
                            (F (row (bsize (BTuple paxes)) (aflat projections) p))) np <=
           rsum (fun p => distance2 (bsize (BTuple b))
                            (fun k => csum (fun c => (W p c * row (bsize (BTuple b)) (aflat d) c k)%C) nb)
                            (F (row (bsize (BTuple paxes)) (aflat projections) p))) np)%R.
  Proof.
    intros Hnp E. destruct projections_spec as [o [Eo [So S]]]. rewrite E in Eo. injection Eo as <-.
    assert (Hop : nprod (ashape op) = (ns * np * nb)%nat) by (rewrite So; cbn [nprod]; lia).
    destruct (localized_spec np nb ns N op data Hop Hd Hpos) as [w [Ew _]].
    exists w. split; [exact Ew|]. intros s Hs Horth.
    destruct (localized_states_at op w s Hop Ew Hs) as [d [dw [E1 [E2 [Sd Hr]]]]].
    destruct (S s Hs) as [d' [A [E3 [E4 P]]]]. rewrite E1 in E3. injection E3 as <-.
    destruct (states_at_spec nb data s Hd Hs) as [d2 [G [E5 [_ [Sd2 _]]]]]. rewrite E1 in E5. injection E5 as <-.
    destruct (inner_products_spec nb s d Hs ltac:(rewrite Sd2; cbn [nprod]; lia)) as [A' [F [E6 [HF VA]]]].
    rewrite E4 in E6. injection E6 as <-.
    assert (Hs' : in_shape (unravel ls s) ls) by (apply unravel_in_shape; exact Hs).
    assert (Ss : bsize (BTuple (sampled ls ss (unravel ls s))) = nprod ss)
      by (cbn [bsize]; rewrite (proj1 (sampled_shapes ls ss _ Hll Hs')); reflexivity).
    exists (sampled ls ss (unravel ls s)), d, dw, F. split; [exact E1|]. split; [exact E2|]. split; [exact HF|].
    intros W HW. rewrite Ss. unfold distance2.
    specialize (Hsvd nb np A). destruct (svd nb np A) as [[u sg] vd]. destruct Hsvd as [H0 [Hu [Hv HA]]]. cbn [fst snd] in P.
    rewrite (rsum_ext _ (fun p => rsum (fun k => Cnorm2 (csum (fun c => polar (Nat.min nb np) u vd p c * row (nprod ss) (aflat d) c k)%C nb - F (row (bsize (BTuple paxes)) (aflat projections) p) k)%C) (nprod ss))).
    - apply (polar_closest nb np (Nat.min nb np) A u vd sg H0 Hu Hv HA (nprod ss) (row (nprod ss) (aflat d))
        (fun p => F (row (bsize (BTuple paxes)) (aflat projections) p)) W); [lia| | |exact HW].
      + intros i j Hi Hj.
        assert (X := states_at_inner nb data s d _ Hd Hs E1 j i Hj Hi). rewrite Horth in X by assumption.
        rewrite cdelta_sym, <- X. unfold inner_product. apply csum_ext. intros k Hk. ring.
      + intros b p Hb Hpp. symmetry. apply VA.
    - intros p Hpp. apply rsum_ext. intros k Hk. rewrite Hr by assumption. f_equal. f_equal. apply csum_ext. intros c Hc.
      rewrite P by assumption. reflexivity.
  Qed.
End Projection.
