(** The spectrum of the Wannier Hamiltonian, and its elements from the supercell. *)
From Coq Require Import Reals Psatz.
From Verif Require Import ZLib Csum DFT NumPy Spec Index IndexProofs IndexSum SpecReal Lattice LatticeProofs LinAlg SpecMatrix
  Basis SpecBasis BasisProofs BasisProofs2 BasisProofs3 BasisFacts Operator SpecOperator OperatorProofs OperatorProofs2
  Wavepacket SpecWavepacket WavepacketProofs WavepacketProofs2 WavepacketProofs3 WavepacketFacts Hamiltonian SpecHamiltonian HamiltonianProofs
  HamiltonianProofs2 HamiltonianProofs3 WannierBasisProofs Localize SpecLocalize LocalizeFacts2 LocalizeProofs5 LocalizeProofs6
  SpecSupercellHamiltonian SupercellProofs SupercellProofs2 SupercellProofs3 SupercellProofs4 SupercellProofs5 SpecWannierSupercell WannierSupercell.
Local Open Scope R_scope.
Local Open Scope C_scope.

Lemma sum_cells ns nw (f : nat -> nat -> C) : (0 < nw)%nat ->
  csum (fun j => f (j mod nw)%nat (j / nw)%nat) (ns * nw) = csum (fun R => csum (fun k => f k R) nw) ns.
Proof. intros H. exact (csum_div_mod (fun R k => f k R) ns nw). Qed.

Lemma index_of ls nb r : Forall (fun n => (0 < n)%nat) ls -> (r < nb * nprod ls)%nat ->
  (r / nprod ls < nb)%nat /\ (r mod nprod ls < nprod ls)%nat /\ r = (r / nprod ls * nprod ls + r mod nprod ls)%nat.
Proof.
  intros Hls Hr. assert (Pn : (0 < nprod ls)%nat) by (apply nprod_pos; exact Hls). split; [apply Nat.div_lt_upper_bound; lia|]. split; [apply Nat.mod_upper_bound; lia|].
  rewrite (Nat.mul_comm (r / nprod ls)). apply Nat.div_mod. lia.
Qed.

Section Spectrum.
  Context (same : basis -> basis -> bool) (Hsame : identity_test same).
  Context (ls : list nat) (saxes : list basis).
  Context (Hls : Forall (fun n => (0 < n)%nat) ls) (Hw : bwf (BTuple saxes)) (He : explicit_orthonormal (BTuple saxes)).
  Context (Hlen : length ls = length saxes).
  Let ss := map bfund saxes.
  Let N := bsize (BTuple saxes).
  Let ns := nprod ls.
  Let F := supercell ls ss.
  Context (nw nb : nat) (op data ham : ndarray).
  Context (Hnw : (0 < nw)%nat) (Hnb : (0 < nb)%nat).
  Context (Hop : nprod (ashape op) = (ns * nw * nb)%nat) (Hd : nprod (ashape data) = (nb * ns * N)%nat).
  Context (Hh : nprod (ashape ham) = (nb * ns)%nat).
  Context (Hfull : map bsize saxes = ss).
  Context (st out : ndarray) (Es : get_bloch_states same (BFund nb) (map BFundT ls) saxes data = Some st)
    (Eo : wannier_states same nw nb (map BFundT ls) saxes op data = Some out).
  Context (Horth : forall s l m, (s < ns)%nat -> (l < nb)%nat -> (m < nb)%nat ->
       inner_product N (band_state ns N data s l) (band_state ns N data s m) = cdelta l m).
  Let B (r : nat) : nat -> C := amplitude (momenta F) (row (nprod F) (aflat st) r).
  Let W (k R : nat) : nat -> C := row (nprod F) (aflat out) (k * ns + R).
  Let Y (r : nat) : nat -> C := fun a => inner_product (nprod F) (B r) (W (a mod nw) (a / nw)).

  Lemma PF : Forall (fun n => (0 < n)%nat) F.
  Proof using Hls Hw Hlen. apply supercell_pos; [exact Hls|apply fund_shape_pos; exact Hw]. Qed.

  Lemma component r k R : (r < nb * ns)%nat -> (k < nw)%nat -> (R < ns)%nat ->
    inner_product (nprod F) (B r) (W k R) =
    isqrt ns * plane ls (sample_freqs ls (unravel ls (r mod ns))) (map Z.of_nat (unravel ls R)) * at_sample nw nb op (r mod ns) k (r / ns).
  Proof using Hsame Hls Hw He Hlen Hnw Hnb Hop Hd Hh Hfull Es Eo Horth.
    intros Hr Hk HR. destruct (index_of ls nb r Hls Hr) as [Db [Ds Er]]; fold ns in Db, Ds, Er.
    pose proof (bloch_wannier same Hsame ls saxes Hls Hw He Hlen nw nb op data ham Hnw Hnb Hop Hd Hh Hfull st out Es Eo Horth
      (r / ns) (r mod ns) k R Db Ds Hk HR) as X. cbv beta in X. fold ss in X. fold F in X. fold ns in X. rewrite <- Er in X. exact X.
  Qed.

  Context (Hiso : forall s, (s < ns)%nat -> orthonormal_columns nw nb (at_sample nw nb op s)).

  Lemma components_orth r r' : (r < nb * ns)%nat -> (r' < nb * ns)%nat ->
    csum (fun R => csum (fun k => Cconj (inner_product (nprod F) (B r) (W k R)) * inner_product (nprod F) (B r') (W k R)) nw) ns = cdelta r r'.
  Proof using Hsame Hls Hw He Hlen Hnw Hnb Hop Hd Hh Hfull Es Eo Horth Hiso.
    intros Hr Hr'. destruct (index_of ls nb r Hls Hr) as [Db [Ds Er]]; fold ns in Db, Ds, Er. destruct (index_of ls nb r' Hls Hr') as [Db' [Ds' Er']]; fold ns in Db', Ds', Er'.
    rewrite (csum_ext _ (fun R => (isqrt ns * isqrt ns * (Cconj (plane ls (sample_freqs ls (unravel ls (r mod ns))) (map Z.of_nat (unravel ls R))) *
      plane ls (sample_freqs ls (unravel ls (r' mod ns))) (map Z.of_nat (unravel ls R)))) *
      csum (fun k => Cconj (at_sample nw nb op (r mod ns) k (r / ns)) * at_sample nw nb op (r' mod ns) k (r' / ns)) nw)).
    2:{ intros R HR. rewrite <- csum_scal_l. apply csum_ext. intros k Hk. rewrite !component by assumption.
        rewrite !Cconj_mult, isqrt_conj. ring. }
    rewrite csum_scal_r. pose proof (samples_orth ls (r mod ns) (r' mod ns) Hls Ds Ds') as So. fold ns in So. rewrite So.
    destruct (Nat.eq_dec (r mod ns) (r' mod ns)) as [Em|Em].
    - rewrite Em, cdelta_refl, (Hiso (r' mod ns) Ds' _ _ Db Db').
      destruct (Nat.eq_dec (r / ns) (r' / ns)) as [Ed|Ed].
      + assert (Err : r = r') by (rewrite Er, Er', Em, Ed; reflexivity). rewrite Err, !cdelta_refl. ring.
      + rewrite !cdelta_neq; [ring| |exact Ed]. intros ->. apply Ed. reflexivity.
    - rewrite !cdelta_neq; [ring| |exact Em]. intros ->. apply Em. reflexivity.
  Qed.

  Lemma spectrum : exists H, full_wannier_hamiltonian nw nb ls op ham = Some H /\ ashape H = [(ns * nw * ns * nw)%nat] /\
    (forall r, (r < nb * ns)%nat -> forall i, (i < ns * nw)%nat -> csum (fun j => as_matrix (ns * nw) H i j * Y r j) (ns * nw) = aflat ham r * Y r i) /\
    forall r r', (r < nb * ns)%nat -> (r' < nb * ns)%nat -> inner_product (ns * nw) (Y r) (Y r') = cdelta r r'.
  Proof using Hsame Hls Hw He Hlen Hnw Hnb Hop Hd Hh Hfull Es Eo Horth Hiso.
    destruct (full_hamiltonian_spec same Hsame ls saxes Hls Hw He Hlen nw nb op data ham Hnw Hnb Hop Hd Hh Hfull st out Es Eo Horth) as [H [EH [SH V]]].
    exists H. split; [exact EH|]. split; [exact SH|]. split.
    - intros r Hr i Hi. assert (Hi1 : (i mod nw < nw)%nat) by (apply Nat.mod_upper_bound; lia).
      assert (Hi2 : (i / nw < ns)%nat) by (apply Nat.div_lt_upper_bound; lia).
      assert (Ei : i = (i / nw * nw + i mod nw)%nat) by (rewrite (Nat.mul_comm (i / nw)); apply Nat.div_mod; lia).
      rewrite csum_mul. unfold as_matrix.
      rewrite (csum_ext _ (fun R' => csum (fun l => csum (fun t => aflat ham t * inner_product (nprod F) (B t) (W (i mod nw) (i / nw)) *
        (Cconj (inner_product (nprod F) (B t) (W l R')) * inner_product (nprod F) (B r) (W l R'))) (nb * ns)) nw)).
      2:{ intros R' HR'. apply csum_ext. intros l Hl0. unfold Y.
          rewrite (div_add_small R' nw l Hl0), (mod_add_small R' nw l Hl0).
          replace (i * (ns * nw) + (R' * nw + l))%nat with (((i / nw * nw + i mod nw) * ns + R') * nw + l)%nat by (rewrite <- Ei; ring).
          specialize (V (i / nw)%nat (i mod nw)%nat R' l Hi2 Hi1 HR' Hl0). fold ss in V. fold F in V. fold ns in V.
          rewrite V, csum_mul, <- csum_scal_r. apply csum_ext. intros c Hc. rewrite <- csum_scal_r. apply csum_ext. intros s Hs.
          rewrite (inner_swap _ (row (nprod F) (aflat out) (l * ns + R')) _). unfold B, W. ring. }
      rewrite (csum_ext _ (fun R' => csum (fun t => csum (fun l => aflat ham t * inner_product (nprod F) (B t) (W (i mod nw) (i / nw)) *
        (Cconj (inner_product (nprod F) (B t) (W l R')) * inner_product (nprod F) (B r) (W l R'))) nw) (nb * ns))) by (intros; apply csum_swap).
      rewrite csum_swap.
      rewrite (csum_ext _ (fun t => aflat ham t * inner_product (nprod F) (B t) (W (i mod nw) (i / nw)) * cdelta r t)).
      2:{ intros t Ht. rewrite cdelta_sym, <- (components_orth t r Ht Hr), <- csum_scal_l. apply csum_ext. intros R' HR'. apply csum_scal_l. }
      apply (csum_delta_r (fun t => aflat ham t * inner_product (nprod F) (B t) (W (i mod nw) (i / nw)))). exact Hr.
    - intros r r' Hr Hr'. rewrite <- (components_orth r r' Hr Hr'). unfold inner_product at 1, Y.
      exact (sum_cells ns nw (fun k R => Cconj (inner_product (nprod F) (B r) (W k R)) * inner_product (nprod F) (B r') (W k R)) Hnw).
  Qed.
End Spectrum.

Section Elements.
  Context (same : basis -> basis -> bool) (Hsame : identity_test same).
  Context (ls : list nat) (saxes : list basis).
  Context (Hls : Forall (fun n => (0 < n)%nat) ls) (Hw : bwf (BTuple saxes)) (He : explicit_orthonormal (BTuple saxes)).
  Context (Hlen : length ls = length saxes).
  Let ss := map bfund saxes.
  Let N := bsize (BTuple saxes).
  Let ns := nprod ls.
  Let F := supercell ls ss.
  Context (nw nb : nat) (op data ham : ndarray).
  Context (Hnw : (0 < nw)%nat) (Hnb : (0 < nb)%nat).
  Context (Hop : nprod (ashape op) = (ns * nw * nb)%nat) (Hd : nprod (ashape data) = (nb * ns * N)%nat).
  Context (Hh : nprod (ashape ham) = (nb * ns)%nat).
  Context (Hfull : map bsize saxes = ss).
  Context (st out : ndarray) (Es : get_bloch_states same (BFund nb) (map BFundT ls) saxes data = Some st)
    (Eo : wannier_states same nw nb (map BFundT ls) saxes op data = Some out).
  Context (Horth : forall s l m, (s < ns)%nat -> (l < nb)%nat -> (m < nb)%nat ->
       inner_product N (band_state ns N data s l) (band_state ns N data s m) = cdelta l m).
  Context (A : nat -> nat -> C) (Heig : forall r, (r < nb * ns)%nat -> forall i, (i < nprod F)%nat ->
    csum (fun j => A i j * row (nprod F) (aflat st) r j) (nprod F) = aflat ham r * row (nprod F) (aflat st) r i).
  Let wannier (k R : nat) : nat -> C := plane_coefficients F (row (nprod F) (aflat out) (k * ns + R)).

  (** The Wannier Hamiltonian has the elements of any matrix with the Bloch states as
      eigenvectors. *)
  Lemma wannier_elements : exists H, full_wannier_hamiltonian nw nb ls op ham = Some H /\ ashape H = [(ns * nw * ns * nw)%nat] /\
    forall R k R' l, (R < ns)%nat -> (k < nw)%nat -> (R' < ns)%nat -> (l < nw)%nat ->
      aflat H (((R * nw + k) * ns + R') * nw + l) = matrix_element (nprod F) (wannier l R') A (wannier k R).
  Proof using Hsame Hls Hw He Hlen Hnw Hnb Hop Hd Hh Hfull Es Eo Horth Heig.
    destruct (full_hamiltonian_spec same Hsame ls saxes Hls Hw He Hlen nw nb op data ham Hnw Hnb Hop Hd Hh Hfull st out Es Eo Horth) as [H [EH [SH V]]].
    exists H. split; [exact EH|]. split; [exact SH|]. intros R k R' l HR Hk HR' Hl0.
    specialize (V R k R' l HR Hk HR' Hl0). fold ss in V. fold F in V. fold ns in V. rewrite V.
    assert (PF' : Forall (fun n => (0 < n)%nat) F) by (apply supercell_pos; [exact Hls|apply fund_shape_pos; exact Hw]).
    pose (a := fun s c => isqrt ns * plane ls (sample_freqs ls (unravel ls s)) (map Z.of_nat (unravel ls R)) * at_sample nw nb op s k c).
    assert (Wc : forall j, (j < nprod F)%nat -> wannier k R j = csum (fun s => csum (fun c => a s c * row (nprod F) (aflat st) (c * ns + s) j) nb) ns).
    { intros j Hj. unfold wannier. rewrite <- (plane_coefficients_sum F PF' ns nb a (fun s c => row (nprod F) (aflat st) (c * ns + s)) j Hj).
      apply plane_coefficients_ext. intros x Hx.
      exact (wannier_bands same Hsame ls saxes Hls Hw He Hlen nw nb op data ham Hnw Hnb Hop Hd Hh Hfull st out Es Eo k R x Hk HR Hx). }
    unfold matrix_element.
    rewrite (inner_ext (nprod F) (wannier l R') (wannier l R') _ (fun i => csum (fun s => csum (fun c => a s c * aflat ham (c * ns + s) * row (nprod F) (aflat st) (c * ns + s) i) nb) ns) (fun _ _ => eq_refl)).
    2:{ intros i Hi. rewrite (csum_ext _ (fun j => csum (fun s => csum (fun c => a s c * (A i j * row (nprod F) (aflat st) (c * ns + s) j)) nb) ns)).
        2:{ intros j Hj. rewrite (Wc j Hj), <- csum_scal_l. apply csum_ext. intros s Hs. rewrite <- csum_scal_l. apply csum_ext. intros; ring. }
        rewrite csum_swap. apply csum_ext. intros s Hs. rewrite csum_swap. apply csum_ext. intros c Hc.
        rewrite csum_scal_l, Heig; [ring|nia|exact Hi]. }
    unfold inner_product at 3. symmetry.
    rewrite (csum_ext _ (fun i => csum (fun s => csum (fun c => a s c * aflat ham (c * ns + s) * (Cconj (wannier l R' i) * row (nprod F) (aflat st) (c * ns + s) i)) nb) ns)).
    2:{ intros i Hi. rewrite <- csum_scal_l. apply csum_ext. intros s Hs. rewrite <- csum_scal_l. apply csum_ext. intros; ring. }
    rewrite csum_swap. symmetry. rewrite (csum_swap _ nb ns). apply csum_ext. intros s Hs. symmetry. rewrite csum_swap. apply csum_ext. intros c Hc.
    rewrite csum_scal_l.
    change (csum (fun i => Cconj (wannier l R' i) * row (nprod F) (aflat st) (c * ns + s) i) (nprod F)) with
      (inner_product (nprod F) (plane_coefficients F (row (nprod F) (aflat out) (l * ns + R'))) (row (nprod F) (aflat st) (c * ns + s))).
    rewrite (plane_coefficients_inner F).
    pose proof (bloch_wannier same Hsame ls saxes Hls Hw He Hlen nw nb op data ham Hnw Hnb Hop Hd Hh Hfull st out Es Eo Horth c s k R Hc Hs Hk HR) as X.
    cbv beta in X. fold ss in X. fold F in X. fold ns in X. rewrite X. unfold a. ring.
  Qed.
End Elements.
