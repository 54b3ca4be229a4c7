(** Localisation operators (C30) and projections (C31). *)
From Coq Require Import Reals Psatz.
From Verif Require Import ZLib Csum DFT NumPy Interp Index IndexProofs AxesProofs Spec Basis SpecBasis BasisProofs BasisProofs2
  BasisProofs3 BasisFacts Operator SpecOperator OperatorProofs Reduce ReduceProofs IndexSum Wavepacket SpecWavepacket WavepacketProofs
  WavepacketProofs2 WavepacketProofs3 SpecMatrix LinAlg Polar Localize SpecLocalize.
Local Open Scope R_scope.
Local Open Scope C_scope.

(** ** C30 *)

Section Localized.
  Context (nw nb ns n : nat) (op data : ndarray).
  Context (Hop : nprod (ashape op) = (ns * nw * nb)%nat) (Hd : nprod (ashape data) = (nb * ns * n)%nat).
  Context (Hpos : (0 < nb * ns)%nat).

  Lemma localized_spec : exists out, localized_wavepackets nw nb ns op data = Some out /\
    ashape out = [(nw * ns * n)%nat] /\
    forall i s k, (i < nw)%nat -> (s < ns)%nat -> (k < n)%nat ->
      band_state ns n out s i k = csum (fun l => at_sample nw nb op s i l * band_state ns n data s l k) nb.
  Proof.
    unfold localized_wavepackets. rewrite reshape_some by (rewrite Hop; cbn [nprod]; lia).
    destruct (Nat.eqb_spec (nb * ns) 0) as [E0|_]; [lia|].
    rewrite Hd. replace (nb * ns * n)%nat with (n * (nb * ns))%nat by lia.
    rewrite Nat.mod_mul, Nat.div_mul, Nat.eqb_refl by lia.
    eexists. split; [reflexivity|]. split; [cbn [ravel_array array3 ashape nprod]; f_equal; lia|].
    intros i s k Hi Hs Hk. unfold band_state, row. cbn [ravel_array aflat].
    rewrite array3_flat by assumption. apply csum_ext. intros l Hl. unfold at3, at_sample. cbn [ashape aflat nth].
    reflexivity.
  Qed.

  Lemma localized_inner out : localized_wavepackets nw nb ns op data = Some out ->
    forall s i j, (s < ns)%nat -> (i < nw)%nat -> (j < nw)%nat ->
      inner_product n (band_state ns n out s i) (band_state ns n out s j) =
      csum (fun l => csum (fun m => Cconj (at_sample nw nb op s i l) * at_sample nw nb op s j m *
        inner_product n (band_state ns n data s l) (band_state ns n data s m)) nb) nb.
  Proof.
    intros E s i j Hs Hi Hj. destruct localized_spec as [o [Eo [_ S]]]. rewrite E in Eo. injection Eo as <-.
    unfold inner_product.
    transitivity (csum (fun k => csum (fun l => csum (fun m => Cconj (at_sample nw nb op s i l) * at_sample nw nb op s j m *
        (Cconj (band_state ns n data s l k) * band_state ns n data s m k)) nb) nb) n).
    - apply csum_ext. intros k Hk. rewrite !S by assumption. rewrite Cconj_csum, csum_mult. apply csum_ext. intros l Hl.
      apply csum_ext. intros m Hm. rewrite Cconj_mult. ring.
    - rewrite csum_swap. apply csum_ext. intros l Hl. rewrite csum_swap. apply csum_ext. intros m Hm. apply csum_scal_l.
  Qed.

  Lemma localized_orthonormal out : localized_wavepackets nw nb ns op data = Some out ->
    forall s, (s < ns)%nat -> orthonormal_rows nw nb (at_sample nw nb op s) ->
    (forall l m, (l < nb)%nat -> (m < nb)%nat ->
       inner_product n (band_state ns n data s l) (band_state ns n data s m) = cdelta l m) ->
    forall i j, (i < nw)%nat -> (j < nw)%nat ->
      inner_product n (band_state ns n out s i) (band_state ns n out s j) = cdelta i j.
  Proof.
    intros E s Hs Ho Hv i j Hi Hj. rewrite (localized_inner out E s i j Hs Hi Hj).
    transitivity (Cconj (csum (fun l => at_sample nw nb op s i l * Cconj (at_sample nw nb op s j l)) nb)).
    - rewrite Cconj_csum. apply csum_ext. intros l Hl.
      rewrite (csum_ext _ (fun m => Cconj (at_sample nw nb op s i l) * at_sample nw nb op s j m * cdelta l m))
        by (intros m Hm; rewrite Hv by assumption; reflexivity).
      rewrite (csum_delta_r (fun m => Cconj (at_sample nw nb op s i l) * at_sample nw nb op s j m)) by exact Hl.
      rewrite Cconj_mult, Cconj_conj. reflexivity.
    - rewrite Ho by assumption. apply Cconj_cdelta.
  Qed.

  Context (ham : ndarray) (Hh : nprod (ashape ham) = (nb * ns)%nat).
  Lemma hamiltonian_spec : exists out, localized_hamiltonian nw nb ns op ham = Some out /\
    ashape out = [(ns * nw * nw)%nat] /\
    forall s i j, (s < ns)%nat -> (i < nw)%nat -> (j < nw)%nat ->
      at_sample nw nw out s i j =
      csum (fun c => at_sample nw nb op s i c * aflat ham (c * ns + s) * Cconj (at_sample nw nb op s j c)) nb.
  Proof using Hop Hh. clear Hd Hpos data n.
    unfold localized_hamiltonian. rewrite !reshape_some by (rewrite ?Hop, ?Hh; cbn [nprod]; lia).
    eexists. split; [reflexivity|]. split; [cbn [ravel_array array3 ashape nprod]; f_equal; lia|].
    intros s i j Hs Hi Hj. unfold at_sample at 1. cbn [ravel_array aflat]. rewrite array3_flat by assumption. reflexivity.
  Qed.

  Lemma hamiltonian_hermitian out : localized_hamiltonian nw nb ns op ham = Some out ->
    (forall t, (t < nb * ns)%nat -> snd (aflat ham t) = 0%R) ->
    forall s, (s < ns)%nat -> hermitian nw (at_sample nw nw out s).
  Proof using Hop Hh. clear Hd Hpos data n.
    intros E Hr s Hs i j Hi Hj. destruct hamiltonian_spec as [o [Eo [_ S]]]. rewrite E in Eo. injection Eo as <-.
    unfold adjoint. rewrite !S by assumption. rewrite Cconj_csum. apply csum_ext. intros c Hc.
    assert (R : Cconj (aflat ham (c * ns + s)) = aflat ham (c * ns + s)).
    { specialize (Hr (c * ns + s)%nat ltac:(nia)). destruct (aflat ham (c * ns + s)) as [x y]. cbn in Hr. subst y.
      unfold Cconj. cbn. f_equal. lra. }
    rewrite !Cconj_mult, Cconj_conj, R. ring.
  Qed.

  Lemma hamiltonian_trace out : localized_hamiltonian nw nb ns op ham = Some out ->
    forall s, (s < ns)%nat -> orthonormal_columns nw nb (at_sample nw nb op s) ->
    csum (fun i => at_sample nw nw out s i i) nw = csum (fun c => aflat ham (c * ns + s)) nb.
  Proof using Hop Hh. clear Hd Hpos data n.
    intros E s Hs Ho. destruct hamiltonian_spec as [o [Eo [_ S]]]. rewrite E in Eo. injection Eo as <-.
    rewrite (csum_ext _ _ nw (fun i Hi => S s i i Hs Hi Hi)). rewrite csum_swap. apply csum_ext. intros c Hc.
    rewrite (csum_ext _ (fun i => aflat ham (c * ns + s) * (Cconj (at_sample nw nb op s i c) * at_sample nw nb op s i c))) by (intros; ring).
    rewrite csum_scal_l, Ho by exact Hc. rewrite cdelta_refl. ring.
  Qed.

  (** Entry (i, j) is <w_j| H |w_i> for H = sum_c h_c |v_c><v_c|. *)
  Lemma hamiltonian_elements out w : localized_hamiltonian nw nb ns op ham = Some out ->
    localized_wavepackets nw nb ns op data = Some w ->
    forall s, (s < ns)%nat ->
    (forall l m, (l < nb)%nat -> (m < nb)%nat ->
       inner_product n (band_state ns n data s l) (band_state ns n data s m) = cdelta l m) ->
    forall i j, (i < nw)%nat -> (j < nw)%nat ->
      at_sample nw nw out s i j =
      csum (fun c => aflat ham (c * ns + s) *
        (inner_product n (band_state ns n w s j) (band_state ns n data s c) *
         inner_product n (band_state ns n data s c) (band_state ns n w s i))) nb.
  Proof.
    intros E Ew s Hs Hv i j Hi Hj. destruct hamiltonian_spec as [o [Eo [_ S]]]. rewrite E in Eo. injection Eo as <-.
    destruct localized_spec as [o2 [Eo2 [_ S2]]]. rewrite Ew in Eo2. injection Eo2 as <-.
    rewrite S by assumption. apply csum_ext. intros c Hc.
    assert (P : forall i, (i < nw)%nat -> inner_product n (band_state ns n data s c) (band_state ns n w s i) = at_sample nw nb op s i c).
    { clear i j Hi Hj. intros i Hi. unfold inner_product.
      rewrite (csum_ext _ (fun k => csum (fun l => at_sample nw nb op s i l * (Cconj (band_state ns n data s c k) * band_state ns n data s l k)) nb)).
      - rewrite csum_swap.
        rewrite (csum_ext _ (fun l => at_sample nw nb op s i l * cdelta c l)).
        + apply csum_delta_r. exact Hc.
        + intros l Hl. rewrite csum_scal_l. f_equal. apply Hv; assumption.
      - intros k Hk. rewrite S2 by assumption. rewrite <- csum_scal_l. apply csum_ext. intros l Hl. ring. }
    assert (Q : inner_product n (band_state ns n w s j) (band_state ns n data s c) = Cconj (at_sample nw nb op s j c)).
    { rewrite <- P by exact Hj. unfold inner_product. rewrite Cconj_csum. apply csum_ext. intros k Hk.
      rewrite Cconj_mult, Cconj_conj. ring. }
    rewrite P, Q by assumption. ring.
  Qed.
End Localized.

Lemma diagonal_localized_spec nb ns n op data : nprod (ashape op) = (ns * nb)%nat -> nprod (ashape data) = (nb * ns * n)%nat ->
  (0 < nb * ns)%nat ->
  exists out, diagonal_localized_wavepackets nb ns op data = Some out /\ ashape out = [(nb * ns * n)%nat] /\
    forall b s k, (b < nb)%nat -> (s < ns)%nat -> (k < n)%nat ->
      band_state ns n out s b k = aflat op (s * nb + b) * band_state ns n data s b k.
Proof.
  intros Hop Hd Hpos. unfold diagonal_localized_wavepackets. rewrite reshape_some by (rewrite Hop; cbn [nprod]; lia).
  destruct (Nat.eqb_spec (nb * ns) 0) as [E0|_]; [lia|].
  rewrite Hd. replace (nb * ns * n)%nat with (n * (nb * ns))%nat by lia.
  rewrite Nat.mod_mul, Nat.div_mul, Nat.eqb_refl by lia.
  eexists. split; [reflexivity|]. split; [cbn [ravel_array array3 ashape nprod]; f_equal; lia|].
  intros b s k Hb Hs Hk. unfold band_state, row. cbn [ravel_array aflat]. rewrite array3_flat by assumption. reflexivity.
Qed.

Lemma identity_square bands samples : bsize bands = bsize samples -> (0 < bsize bands)%nat ->
  exists o, identity_operator bands samples = Some o /\ bsize (lrow o) = bsize bands /\
    list_wf o /\
    forall s i l, (s < bsize samples)%nat -> (i < bsize bands)%nat -> (l < bsize bands)%nat ->
      at_sample (bsize bands) (bsize bands) (ldata o) s i l = cdelta i l.
Proof.
  intros E Hp. unfold identity_operator, diagonal_operator_list_as_full. cbn [lrow ldata lbasis lcol bsize].
  rewrite (reshape_auto_some _ _ (bsize bands)) by (cbn [ashape nprod]; lia).
  eexists. split; [reflexivity|]. cbn [lrow lcol lbasis ldata bsize ashape nth ravel_array array3].
  split; [symmetry; exact E|]. split; [unfold list_wf; cbn [lrow lcol lbasis ldata bsize ashape nprod]; cbn [ravel_array array3 ashape nprod]; rewrite E; ring|].
  intros s i l Hs Hi Hl. unfold at_sample. rewrite <- E. cbn [aflat].
  cbn [ravel_array aflat]. rewrite array3_flat by assumption. unfold at2. cbn [aflat]. ring.
Qed.

(** One band and two samples: the first "localised" band vanishes at the second sample. *)
Lemma identity_refuted : exists o, identity_operator (BFund 1) (BFund 2) = Some o /\ bsize (lrow o) = 2%nat /\
  at_sample 2 1 (ldata o) 1 0 0 = 0.
Proof.
  eexists. split; [reflexivity|]. split; [reflexivity|]. unfold at_sample. cbn. unfold cdelta. cbn. ring.
Qed.
