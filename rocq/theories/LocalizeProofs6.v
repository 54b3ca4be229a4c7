(** The Hamiltonian between Wannier states (C64). *)
From Coq Require Import Reals Psatz.
From Verif Require Import ZLib Csum DFT NumPy Interp Index IndexProofs AxesProofs Spec InterpProofs Basis SpecBasis BasisProofs BasisProofs2
  BasisProofs3 BasisFacts Operator SpecOperator OperatorProofs Reduce ReduceProofs IndexSum Wavepacket SpecWavepacket WavepacketProofs
  WavepacketProofs2 WavepacketProofs3 WavepacketFacts SpecMatrix LinAlg Localize SpecLocalize LocalizeProofs LocalizeProofs3 LocalizeProofs4
  LocalizeProofs5.
Local Open Scope R_scope.
Local Open Scope C_scope.

Lemma plane_freqs ls : Forall (fun n => (0 < n)%nat) ls -> forall s x, in_shape s ls ->
  plane ls (map Z.of_nat s) x = plane ls (sample_freqs ls s) x.
Proof.
  induction 1 as [|n ls Hn Hp IH]; intros s x Hs; inversion Hs as [|i ? s' ? Hi Hs']; subst; [reflexivity|].
  destruct x as [|a x]; [reflexivity|]. cbn [map plane sample_freqs]. rewrite IH by assumption. f_equal.
  apply omega_cong; [exact Hn|]. destruct (freq_cong n i Hi) as [q Hq]. exists (- (q * a))%Z. rewrite Hq. ring.
Qed.

Lemma isqrt_nprod_cons n l : isqrt (nprod (n :: l)) = isqrt n * isqrt (nprod l).
Proof. cbn [nprod]. apply isqrt_mul. Qed.

Lemma ifftn_ortho_spec ls : forall v x, length x = length ls ->
  ifftn_ortho ls v x = isqrt (nprod ls) * isum ls (fun s => v s * plane ls (map Z.of_nat s) (map Z.of_nat x)).
Proof.
  induction ls as [|n ls IH]; intros v [|a x] Hx; cbn in Hx; try lia.
  - cbn. unfold isqrt. cbn [INR]. rewrite sqrt_1, Rinv_1. ring.
  - rewrite isqrt_nprod_cons. cbn [ifftn_ortho isum map plane]. unfold idft. rewrite <- Cmult_assoc. f_equal.
    rewrite <- csum_scal_l. apply csum_ext. intros k Hk. rewrite IH by lia.
    rewrite <- !isum_scal_l, <- isum_scal_r. apply isum_ext. intros s Hs. ring.
Qed.
Lemma fftn_ortho_spec ls : forall v x, length x = length ls ->
  fftn_ortho ls v x = isqrt (nprod ls) * isum ls (fun s => v s * Cconj (plane ls (map Z.of_nat s) (map Z.of_nat x))).
Proof.
  induction ls as [|n ls IH]; intros v [|a x] Hx; cbn in Hx; try lia.
  - cbn. unfold isqrt. cbn [INR]. rewrite sqrt_1, Rinv_1, Cconj_1. ring.
  - rewrite isqrt_nprod_cons. cbn [fftn_ortho isum map plane]. unfold dft. rewrite <- Cmult_assoc. f_equal.
    rewrite <- csum_scal_l. apply csum_ext. intros k Hk. rewrite IH by lia.
    rewrite <- !isum_scal_l, <- isum_scal_r. apply isum_ext. intros s Hs.
    rewrite Cconj_mult, omega_conj, (Z.mul_comm (Z.of_nat a)). ring.
Qed.

(** Entry (R, k; R', l): the localised Hamiltonians with the phases of the two cells. *)
Lemma full_hamiltonian_entry nw nb ls op ham h : Forall (fun n => (0 < n)%nat) ls ->
  localized_hamiltonian nw nb (nprod ls) op ham = Some h ->
  exists out, full_wannier_hamiltonian nw nb ls op ham = Some out /\
    ashape out = [(nprod ls * nw * nprod ls * nw)%nat] /\
    forall R k R' l, (R < nprod ls)%nat -> (k < nw)%nat -> (R' < nprod ls)%nat -> (l < nw)%nat ->
      aflat out (((R * nw + k) * nprod ls + R') * nw + l) =
      RtoC (/ INR (nprod ls)) * csum (fun s => at_sample nw nw h s k l *
        (plane ls (sample_freqs ls (unravel ls s)) (map Z.of_nat (unravel ls R)) *
         Cconj (plane ls (sample_freqs ls (unravel ls s)) (map Z.of_nat (unravel ls R'))))) (nprod ls).
Proof.
  intros Hp Eh. unfold full_wannier_hamiltonian. rewrite Eh. eexists. split; [reflexivity|]. split; [reflexivity|].
  intros R k R' l HR Hk HR' Hl. cbn [aflat]. set (ns := nprod ls) in *.
  assert (E1 : ((((R * nw + k) * ns + R') * nw + l) / (nw * ns * nw))%nat = R).
  { replace (((R * nw + k) * ns + R') * nw + l)%nat with (R * (nw * ns * nw) + ((k * ns + R') * nw + l))%nat by ring.
    apply div_add_small. nia. }
  assert (E2 : (((((R * nw + k) * ns + R') * nw + l) / nw) mod ns)%nat = R').
  { rewrite div_add_small by exact Hl. apply mod_add_small. exact HR'. }
  assert (E3 : (((((R * nw + k) * ns + R') * nw + l) / (ns * nw)) mod nw)%nat = k).
  { replace (((R * nw + k) * ns + R') * nw + l)%nat with ((R * nw + k) * (ns * nw) + (R' * nw + l))%nat by ring.
    rewrite div_add_small by nia. apply mod_add_small. exact Hk. }
  assert (E4 : ((((R * nw + k) * ns + R') * nw + l) mod nw)%nat = l) by (apply mod_add_small; exact Hl).
  rewrite E1, E2, E3, E4. rewrite fftn_ortho_spec by apply unravel_length. fold ns.
  rewrite (isum_ext ls _ (fun j => isqrt ns * (at_sample nw nw h (ravel ls j) k l *
     (plane ls (sample_freqs ls j) (map Z.of_nat (unravel ls R)) * Cconj (plane ls (sample_freqs ls j) (map Z.of_nat (unravel ls R'))))))).
  - rewrite isum_scal_l, inv_isqrt by (apply nprod_pos; exact Hp). fold ns. rewrite <- Cmult_assoc. f_equal. f_equal.
    rewrite <- isum_flat. apply csum_ext. intros s Hs. rewrite ravel_unravel by exact Hs. reflexivity.
  - intros j Hj. rewrite ifftn_ortho_spec by apply unravel_length. fold ns.
    rewrite (isum_ext ls _ (fun i => idelta j i * (aflat h ((ravel ls i * nw + k) * nw + l) * plane ls (map Z.of_nat i) (map Z.of_nat (unravel ls R))))).
    + rewrite (isum_idelta ls j (fun i => aflat h ((ravel ls i * nw + k) * nw + l) * plane ls (map Z.of_nat i) (map Z.of_nat (unravel ls R)))) by exact Hj.
      rewrite !plane_freqs by assumption. unfold at_sample. ring.
    + intros i Hi. rewrite idelta_sym. rewrite <- Cmult_assoc.
      replace (cdelta (ravel ls i) (ravel ls j)) with (idelta i j); [ring|].
      destruct (list_eq_dec Nat.eq_dec i j) as [->|Hn]; [rewrite idelta_refl, cdelta_refl; reflexivity|].
      rewrite idelta_neq by exact Hn. rewrite cdelta_neq; [reflexivity|]. intros E. apply Hn.
      rewrite <- (unravel_ravel ls i Hi), E. apply unravel_ravel. exact Hj.
Qed.

Lemma amplitude_csum b (c : nat -> C) (v : nat -> nat -> C) n x :
  amplitude b (fun k => csum (fun l => c l * v l k) n) x = csum (fun l => c l * amplitude b (v l) x) n.
Proof.
  unfold amplitude. rewrite (csum_ext _ (fun k => csum (fun l => c l * (v l k * bstate b k x)) n)).
  - rewrite csum_swap. apply csum_ext. intros l _. apply csum_scal_l.
  - intros k _. rewrite <- csum_scal_r. apply csum_ext. intros l _. ring.
Qed.

Section Full.
  Context (same : basis -> basis -> bool) (Hsame : identity_test same).
  Context (ls : list nat) (saxes : list basis).
  Context (Hls : Forall (fun n => (0 < n)%nat) ls) (Hw : bwf (BTuple saxes)) (He : explicit_orthonormal (BTuple saxes)).
  Context (Hlen : length ls = length saxes).
  Let ss := map bfund saxes.
  Let N := bsize (BTuple saxes).
  Let ns := nprod ls.
  Let F := supercell ls ss.
  Context (nw nb : nat) (op data ham : ndarray).
  Context (Hnw : (0 < nw)%nat) (Hnb : (0 < nb)%nat).
  Context (Hop : nprod (ashape op) = (ns * nw * nb)%nat) (Hd : nprod (ashape data) = (nb * ns * N)%nat).
  Context (Hh : nprod (ashape ham) = (nb * ns)%nat).
  Context (Hfull : map bsize saxes = ss).
  Context (st out : ndarray) (Es : get_bloch_states same (BFund nb) (map BFundT ls) saxes data = Some st)
    (Eo : wannier_states same nw nb (map BFundT ls) saxes op data = Some out).
  Let B (c s : nat) : nat -> C := amplitude (momenta F) (row (nprod F) (aflat st) (c * ns + s)).
  Let W (k R : nat) : nat -> C := row (nprod F) (aflat out) (k * ns + R).

  Lemma fns_pos : (0 < ns)%nat. Proof using Hls. apply nprod_pos. exact Hls. Qed.

  (** The Wannier state in terms of the Bloch states of the bands. *)
  Lemma wannier_bands k R x : (k < nw)%nat -> (R < ns)%nat -> (x < nprod F)%nat ->
    W k R x = csum (fun s => csum (fun l => isqrt ns * plane ls (sample_freqs ls (unravel ls s)) (map Z.of_nat (unravel ls R)) *
      at_sample nw nb op s k l * B l s x) nb) ns.
  Proof.
    intros Hk HR Hx. assert (Hns := fns_pos).
    destruct (wannier_bloch same Hsame ls saxes Hls Hw He Hlen nw nb op data Hnw Hnb Hop Hd Hfull) as [loc [sl [o [El [Esl [Eo' V]]]]]].
    rewrite Eo in Eo'. injection Eo' as <-.
    destruct (localized_spec nw nb ns N op data Hop Hd ltac:(nia)) as [loc' [El' [Sl L]]].
    fold ns in El. rewrite El in El'. injection El' as <-.
    assert (HR' := unravel_in_shape ls R HR). specialize (V k (unravel ls R) x Hk HR' Hx). rewrite ravel_unravel in V by exact HR.
    fold ss in V. fold F in V. fold ns in V. unfold W. rewrite V. rewrite <- csum_scal_l. apply csum_ext. intros s Hs.
    assert (Hxs := unravel_in_shape F x Hx).
    assert (Hloc : nprod (ashape loc) = (bsize (BFund nw) * nprod ls * bsize (BTuple saxes))%nat) by (rewrite Sl; cbn [nprod bsize]; fold ns; unfold N; cbn [bsize]; lia).
    assert (Hdat : nprod (ashape data) = (bsize (BFund nb) * nprod ls * bsize (BTuple saxes))%nat) by (rewrite Hd; cbn [nprod bsize]; fold ns; unfold N; cbn [bsize]; lia).
    assert (A := bloch_states_amplitude same Hsame (BFund nw) ls saxes Hls Hw He Hlen loc sl Hloc Esl k s (unravel F x) Hk Hs Hxs).
    fold ss in A. fold F in A. rewrite ravel_unravel in A by exact Hx. fold ns in A. rewrite A.
    assert (A2 := fun l (Hl : (l < nb)%nat) => bloch_states_amplitude same Hsame (BFund nb) ls saxes Hls Hw He Hlen data st Hdat Es l s (unravel F x) Hl Hs Hxs).
    fold ss in A2. fold F in A2. rewrite ravel_unravel in A2 by exact Hx. fold ns in A2.
    rewrite (csum_ext (fun l => _ * B l s x) (fun l => isqrt ns * plane ls (sample_freqs ls (unravel ls s)) (map Z.of_nat (unravel ls R)) * isqrt ns *
      plane F (sample_freqs ls (unravel ls s)) (map Z.of_nat (unravel F x)) *
      (at_sample nw nb op s k l * amplitude (BTuple saxes) (row N (aflat data) (l * ns + s)) (ravel ss (in_cell ss (unravel F x)))))).
    - rewrite csum_scal_l, <- (amplitude_csum (BTuple saxes) (at_sample nw nb op s k) (fun l => row N (aflat data) (l * ns + s)) nb).
      rewrite (amplitude_ext _ (row (bsize (BTuple saxes)) (aflat loc) (k * ns + s)) (fun k0 => csum (fun l => at_sample nw nb op s k l * row N (aflat data) (l * ns + s) k0) nb)).
      + ring.
      + intros m Hm. apply (L k s m Hk Hs Hm).
    - intros l Hl. unfold B. rewrite A2 by exact Hl. fold N. ring.
  Qed.

  Lemma bands_inner c s l t : (c < nb)%nat -> (l < nb)%nat -> (s < ns)%nat -> (t < ns)%nat ->
    inner_product (nprod F) (B c s) (B l t) = cdelta s t * inner_product N (band_state ns N data s c) (band_state ns N data t l).
  Proof.
    intros Hc Hl Hs Ht.
    assert (Ho : orthonormal (momenta F)).
    { apply full_bases; [apply momenta_wf|apply momenta_full]. apply supercell_pos; [exact Hls|apply fund_shape_pos; exact Hw|unfold ss; rewrite map_length; exact Hlen]. }
    assert (I := amplitude_inner (momenta F) (row (nprod F) (aflat st) (c * ns + s)) (row (nprod F) (aflat st) (l * ns + t)) Ho).
    rewrite momenta_fund, momenta_size in I. fold (B c s) (B l t) in I. rewrite I.
    assert (Hdat : nprod (ashape data) = (bsize (BFund nb) * nprod ls * bsize (BTuple saxes))%nat) by (rewrite Hd; cbn [nprod bsize]; fold ns; unfold N; cbn [bsize]; lia).
    exact (bloch_states_inner same Hsame (BFund nb) ls saxes Hls Hw He Hlen data st Hdat Es c s l t Hc Hl Hs Ht).
  Qed.

  Context (Horth : forall s l m, (s < ns)%nat -> (l < nb)%nat -> (m < nb)%nat ->
       inner_product N (band_state ns N data s l) (band_state ns N data s m) = cdelta l m).

  Lemma bloch_wannier c s k R : (c < nb)%nat -> (s < ns)%nat -> (k < nw)%nat -> (R < ns)%nat ->
    inner_product (nprod F) (B c s) (W k R) =
    isqrt ns * plane ls (sample_freqs ls (unravel ls s)) (map Z.of_nat (unravel ls R)) * at_sample nw nb op s k c.
  Proof.
    intros Hc Hs Hk HR. unfold inner_product.
    rewrite (csum_ext _ (fun x => csum (fun t => csum (fun l => (isqrt ns * plane ls (sample_freqs ls (unravel ls t)) (map Z.of_nat (unravel ls R)) *
      at_sample nw nb op t k l) * (Cconj (B c s x) * B l t x)) nb) ns)).
    2:{ intros x Hx. rewrite wannier_bands by assumption. rewrite <- csum_scal_l. apply csum_ext. intros t Ht.
        rewrite <- csum_scal_l. apply csum_ext. intros l Hl. ring. }
    rewrite csum_swap.
    rewrite (csum_ext _ (fun t => cdelta s t * (isqrt ns * plane ls (sample_freqs ls (unravel ls t)) (map Z.of_nat (unravel ls R)) * at_sample nw nb op t k c))).
    - apply (csum_delta_l (fun t => isqrt ns * plane ls (sample_freqs ls (unravel ls t)) (map Z.of_nat (unravel ls R)) * at_sample nw nb op t k c)). exact Hs.
    - intros t Ht. rewrite csum_swap.
      rewrite (csum_ext _ (fun l => (isqrt ns * plane ls (sample_freqs ls (unravel ls t)) (map Z.of_nat (unravel ls R)) *
         at_sample nw nb op t k l) * (cdelta s t * cdelta c l))).
      + rewrite (csum_ext _ (fun l => (cdelta s t * (isqrt ns * plane ls (sample_freqs ls (unravel ls t)) (map Z.of_nat (unravel ls R)) *
         at_sample nw nb op t k l)) * cdelta c l)) by (intros; ring).
        apply (csum_delta_r (fun l => cdelta s t * (isqrt ns * plane ls (sample_freqs ls (unravel ls t)) (map Z.of_nat (unravel ls R)) *
         at_sample nw nb op t k l))). exact Hc.
      + intros l Hl. rewrite csum_scal_l. f_equal. assert (I := bands_inner c s l t Hc Hl Hs Ht). unfold inner_product at 1 in I. rewrite I.
        destruct (Nat.eq_dec s t) as [<-|Hn]; [rewrite Horth by assumption; reflexivity|]. rewrite cdelta_neq by exact Hn. ring.
  Qed.

  Lemma inner_swap n u v : inner_product n u v = Cconj (inner_product n v u).
  Proof. unfold inner_product. rewrite Cconj_csum. apply csum_ext. intros x _. rewrite Cconj_mult, Cconj_conj. ring. Qed.

  Lemma full_hamiltonian_spec : exists H, full_wannier_hamiltonian nw nb ls op ham = Some H /\
    ashape H = [(ns * nw * ns * nw)%nat] /\
    forall R k R' l, (R < ns)%nat -> (k < nw)%nat -> (R' < ns)%nat -> (l < nw)%nat ->
      aflat H (((R * nw + k) * ns + R') * nw + l) =
      csum (fun c => csum (fun s => aflat ham (c * ns + s) *
        (inner_product (nprod F) (W l R') (B c s) * inner_product (nprod F) (B c s) (W k R))) ns) nb.
  Proof.
    assert (Hns := fns_pos).
    destruct (hamiltonian_spec nw nb ns op Hop ham Hh) as [h [Eh [_ Vh]]].
    destruct (full_hamiltonian_entry nw nb ls op ham h Hls Eh) as [H [EH [SH VH]]].
    exists H. split; [exact EH|]. split; [exact SH|]. intros R k R' l HR Hk HR' Hl. rewrite VH by assumption. fold ns.
    rewrite <- csum_scal_l. rewrite (csum_swap _ nb ns). apply csum_ext. intros s Hs. rewrite Vh by assumption.
    rewrite <- csum_scal_r, <- csum_scal_l. apply csum_ext. intros c Hc.
    rewrite (inner_swap _ (W l R') (B c s)). rewrite !bloch_wannier by assumption.
    rewrite inv_isqrt by exact Hns. rewrite !Cconj_mult, isqrt_conj. ring.
  Qed.
End Full.
