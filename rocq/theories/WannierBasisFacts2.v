(** Diagonal localisation operators and the operator of the tight binding states (C109). *)
From Coq Require Import Reals Psatz.
From Verif Require Import ZLib Csum DFT NumPy Index IndexProofs AxesProofs Spec Basis SpecBasis BasisProofs BasisProofs2
  BasisProofs3 BasisFacts Operator SpecOperator OperatorProofs OperatorProofs2 Reduce ReduceProofs IndexSum StateList SpecStateList StateListProofs Wavepacket SpecWavepacket WavepacketProofs
  WavepacketProofs2 WavepacketProofs3 SpecMatrix LinAlg Polar Localize SpecLocalize LocalizeProofs LocalizeProofs2 LocalizeFacts LocalizeProofs5 LocalizeProofs6 BlochProofs3 TightCell SpecTightCell TightCellProofs3
  WannierBasis SpecWannierBasis WannierBasisProofs WannierBasisFacts.
Local Open Scope R_scope.
Local Open Scope C_scope.

Lemma as_full_spec d : dl_wf d -> (0 < bsize (dl_bands d))%nat ->
  exists o, localization_as_full d = Some o /\ list_wf o /\ lbasis o = dl_samples d /\ lrow o = dl_bands d /\ lcol o = dl_bands d /\
    forall s i j, (s < bsize (dl_samples d))%nat -> (i < bsize (dl_bands d))%nat -> (j < bsize (dl_bands d))%nat ->
      list_entry o s i j = if Nat.eqb i j then aflat (dl_data d) (s * bsize (dl_bands d) + i) else 0.
Proof.
  intros H P. unfold localization_as_full.
  destruct (diagonal_as_full_spec {| lbasis := dl_samples d; lrow := dl_bands d; lcol := dl_bands d; ldata := dl_data d |}) as [o [E [W [E1 [E2 [E3 V]]]]]].
  - split; [reflexivity|exact H].
  - exact P.
  - exists o. split; [exact E|]. split; [exact W|]. split; [exact E1|]. split; [exact E2|]. split; [exact E3|]. exact V.
Qed.

Lemma as_diagonal_converted same o : list_wf o -> compatible (lcol o) (lrow o) -> (0 < bsize (lrow o))%nat ->
  exists F d, convert_matrix same (lrow o) (lrow o) (lcol o) (lrow o) = Some F /\
    localization_as_diagonal same o = Some d /\ dl_wf d /\ dl_samples d = lbasis o /\ dl_bands d = lrow o /\
    forall s i, (s < bsize (lbasis o))%nat -> (i < bsize (lrow o))%nat -> aflat (dl_data d) (s * bsize (lrow o) + i) = F (list_entry o s) i i.
Proof.
  intros W C P. unfold localization_as_diagonal.
  destruct (OperatorProofs2.convert_list_spec same o (lrow o) (lrow o) W (compatible_refl _) C) as [F [r [HF [Hr [Wr [E1 [E2 [E3 [Es E4]]]]]]]]].
  rewrite Hr. destruct (as_diagonal_spec r Wr) as [D [HD [WD [D1 [D2 [D3 D4]]]]]]; [congruence|rewrite E2; exact P|].
  rewrite HD. exists F. eexists. split; [exact HF|]. split; [reflexivity|]. destruct WD as [_ WD].
  split; [unfold dl_wf; cbn; rewrite WD; reflexivity|]. cbn [dl_samples dl_bands dl_data].
  split; [congruence|]. split; [congruence|]. intros s i Hs Hi. rewrite <- E4 by exact Hi. rewrite <- D4 by (rewrite ?E1, ?E2; assumption).
  unfold diag_entry. rewrite D2, E2. reflexivity.
Qed.

Lemma full_to_diagonal same d o : identity_test same -> bwf (dl_bands d) -> explicit_orthonormal (dl_bands d) -> dl_wf d -> (0 < bsize (dl_bands d))%nat ->
  localization_as_full d = Some o ->
  exists d', localization_as_diagonal same o = Some d' /\ dl_samples d' = dl_samples d /\ dl_bands d' = dl_bands d /\ dl_wf d' /\
    forall t, (t < bsize (dl_samples d) * bsize (dl_bands d))%nat -> aflat (dl_data d') t = aflat (dl_data d) t.
Proof.
  intros Hs Hb Ho W P E. destruct (as_full_spec d W P) as [o' [E' [Wo [E1 [E2 [E3 V]]]]]]. rewrite E in E'. injection E' as <-.
  destruct (as_diagonal_converted same o Wo) as [F [d' [HF [Ed [Wd [D1 [D2 D3]]]]]]]; [rewrite E2, E3; apply compatible_refl|rewrite E2; exact P|].
  exists d'. split; [exact Ed|]. split; [congruence|]. split; [congruence|]. split; [exact Wd|]. intros t Ht.
  rewrite E1, E2 in *. rewrite E3 in HF.
  assert (Et : t = (t / bsize (dl_bands d) * bsize (dl_bands d) + t mod bsize (dl_bands d))%nat) by (rewrite (Nat.div_mod t (bsize (dl_bands d))) at 1; lia).
  assert (Q : (t / bsize (dl_bands d) < bsize (dl_samples d))%nat) by (apply Nat.div_lt_upper_bound; lia).
  assert (M := Nat.mod_upper_bound t (bsize (dl_bands d)) ltac:(lia)).
  rewrite Et. rewrite D3 by assumption. rewrite (convert_self same Hs (dl_bands d) F Hb Ho HF _ _ _ M M). rewrite V by assumption.
  rewrite Nat.eqb_refl. reflexivity.
Qed.

Lemma diagonal_to_full same o : identity_test same -> bwf (lrow o) -> explicit_orthonormal (lrow o) -> list_wf o -> lcol o = lrow o -> (0 < bsize (lrow o))%nat ->
  exists d o', localization_as_diagonal same o = Some d /\ localization_as_full d = Some o' /\ list_wf o' /\
    lbasis o' = lbasis o /\ lrow o' = lrow o /\ lcol o' = lrow o /\
    forall s i j, (s < bsize (lbasis o))%nat -> (i < bsize (lrow o))%nat -> (j < bsize (lrow o))%nat ->
      list_entry o' s i j = if Nat.eqb i j then list_entry o s i j else 0.
Proof.
  intros Hs Hb Ho W Ec P. destruct (as_diagonal_converted same o W) as [F [d [HF [Ed [Wd [D1 [D2 D3]]]]]]]; [rewrite Ec; apply compatible_refl|exact P|].
  rewrite Ec in HF. destruct (as_full_spec d Wd) as [o' [E' [Wo [E1 [E2 [E3 V]]]]]]; [rewrite D2; exact P|].
  exists d, o'. split; [exact Ed|]. split; [exact E'|]. split; [exact Wo|]. split; [congruence|]. split; [congruence|]. split; [congruence|].
  intros s i j Hs' Hi Hj. rewrite V by (rewrite ?D1, ?D2; assumption). destruct (Nat.eqb_spec i j) as [->|]; [|reflexivity].
  rewrite D2, D3 by assumption. apply (convert_self same Hs (lrow o) F Hb Ho HF); assumption.
Qed.

(** Applying the full operator is applying the diagonal one. *)
Lemma diagonal_applied d o n data : dl_wf d -> (0 < bsize (dl_bands d) * bsize (dl_samples d))%nat ->
  nprod (ashape data) = (bsize (dl_bands d) * bsize (dl_samples d) * n)%nat ->
  localization_as_full d = Some o ->
  exists w w', localized_wavepackets (bsize (dl_bands d)) (bsize (dl_bands d)) (bsize (dl_samples d)) (ldata o) data = Some w /\
    diagonal_localized_wavepackets (bsize (dl_bands d)) (bsize (dl_samples d)) (dl_data d) data = Some w' /\ ashape w = ashape w' /\
    forall t, (t < bsize (dl_bands d) * bsize (dl_samples d) * n)%nat -> aflat w t = aflat w' t.
Proof.
  intros W P Hd E. destruct (as_full_spec d W ltac:(nia)) as [o' [E' [Wo [E1 [E2 [E3 V]]]]]]. rewrite E in E'. injection E' as <-.
  set (nb := bsize (dl_bands d)) in *. set (ns := bsize (dl_samples d)) in *.
  assert (Hop : nprod (ashape (ldata o)) = (ns * nb * nb)%nat) by (unfold list_wf in Wo; rewrite E1, E2, E3 in Wo; rewrite Wo; unfold nb, ns; ring).
  destruct (localized_spec nb nb ns n (ldata o) data Hop Hd P) as [w [Ew [Sw Vw]]].
  destruct (diagonal_localized_spec nb ns n (dl_data d) data W Hd P) as [w' [Ew' [Sw' Vw']]].
  exists w, w'. split; [exact Ew|]. split; [exact Ew'|]. split; [congruence|]. intros t Ht.
  assert (Pn : (0 < n)%nat) by nia. assert (Pns : (0 < ns)%nat) by nia.
  assert (Et : t = (t / n * n + t mod n)%nat) by (rewrite (Nat.div_mod t n) at 1; lia).
  assert (Eq : (t / n)%nat = ((t / n) / ns * ns + (t / n) mod ns)%nat) by (rewrite (Nat.div_mod (t / n) ns) at 1; lia).
  assert (B : (t / n / ns < nb)%nat) by (apply Nat.div_lt_upper_bound; [lia|]; apply Nat.div_lt_upper_bound; [lia|]; nia).
  assert (Ms := Nat.mod_upper_bound (t / n) ns ltac:(lia)). assert (Mn := Nat.mod_upper_bound t n ltac:(lia)).
  set (b := (t / n / ns)%nat) in *. set (s := ((t / n) mod ns)%nat) in *. set (k := (t mod n)%nat) in *.
  rewrite Et, Eq. change (band_state ns n w s b k = band_state ns n w' s b k). rewrite Vw, Vw' by assumption.
  rewrite (csum_ext _ (fun l => cdelta b l * (aflat (dl_data d) (s * nb + l) * band_state ns n data s l k))).
  - apply csum_delta_l. exact B.
  - intros l Hl. assert (X := V s b l Ms B Hl). unfold list_entry in X. rewrite E2, E3 in X. fold nb in X. unfold at_sample. rewrite X.
    destruct (Nat.eqb_spec b l) as [->|Hn]; [rewrite cdelta_refl; ring|rewrite cdelta_neq by exact Hn; ring].
Qed.

Lemma momentum_compatible F : compatible (BTuple (map BFund F)) (BTuple (map BFundT F)).
Proof.
  apply compatible_stacked.
  - cbn [bfund]. f_equal. induction F as [|n F IH]; cbn; [|rewrite IH]; reflexivity.
  - induction F as [|n F IH]; cbn; constructor; [|exact IH]. apply compatible_other; [intros ? ? [? ?]; discriminate|reflexivity].
Qed.

Section Tight.
  Variable same : basis -> basis -> bool.
  Hypothesis Hsame : identity_test same.
  Variables (ls : list nat) (saxes : list basis).
  Hypothesis Hls : Forall (fun n => (0 < n)%nat) ls.
  Hypothesis Hw : bwf (BTuple saxes).
  Hypothesis He : explicit_orthonormal (BTuple saxes).
  Hypothesis Hl : length ls = length saxes.
  Hypothesis Hnd : length saxes = 1%nat \/ length saxes = 2%nat.
  Hypothesis Hfull : map bsize saxes = map bfund saxes.
  Notation ns := (nprod ls).
  Notation N := (bsize (BTuple saxes)).
  Notation F := (supercell ls (map bfund saxes)).
  Variable svd : svd_fn.
  Hypothesis Hsvd : svd_ok svd.
  Variables (bands : basis) (data : ndarray).
  Notation nb := (bsize bands).
  Hypothesis Hnb : (0 < nb)%nat.
  Hypothesis Hdata : nprod (ashape data) = (nb * ns * N)%nat.

  Lemma tight_operator_spec : exists op, tight_binding_operator same svd bands (map BFundT ls) saxes data = Some op /\
    nprod (ashape op) = (ns * nb * nb)%nat /\ forall s, (s < ns)%nat -> unitary nb (at_sample nb nb op s).
  Proof using Hsame Hls Hw He Hl Hnd Hfull Hsvd Hnb Hdata.
    assert (Pn := nprod_pos ls Hls).
    destruct (tight_bands same Hsame ls saxes Hls Hw He Hl Hnd Hfull bands data 0%Z None Hnb ltac:(rewrite Hdata; ring) ltac:(lia) Logic.I) as [st [Es [L [B [Wf _]]]]].
    unfold tight_binding_operator. rewrite Es. rewrite map_bfund_T, map2_supercell.
    destruct (StateListProofs.convert_list_spec same st (BTuple (map BFundT F)) Wf ltac:(rewrite B; apply momentum_compatible)) as [G [c [EG [Ec [Lc [Bc [Wc _]]]]]]].
    rewrite Ec, Lc, L, Bc.
    assert (Hp : nprod (ashape (sdata c)) = (nb * bsize (BTuple (map BFundT F)))%nat) by (unfold well_formed_list in Wc; rewrite Lc, L, Bc in Wc; exact Wc).
    assert (Hlen : length (map BFundT ls) = length saxes) by (rewrite map_length; exact Hl).
    assert (Hfu : map bfund (map BFundT F) = supercell (map bsize (map BFundT ls)) (map bfund saxes)) by (rewrite map_bsize_T, map_bfund_T; reflexivity).
    assert (Hd : nprod (ashape data) = (nb * bsize (BTuple (map BFundT ls)) * N)%nat) by (rewrite size_T; exact Hdata).
    destruct (projections_exist same (map BFundT ls) saxes (map BFundT F) Hlen Hfu nb (sdata c) Hp svd nb data Hd) as [op [Eo So]].
    exists op. split; [exact Eo|]. rewrite size_T in So. split; [rewrite So; cbn [nprod]; ring|]. intros s Hs.
    refine (projections_unitary same (map BFundT ls) saxes (map BFundT F) Hlen Hfu nb (sdata c) Hp svd Hsvd nb data Hd op eq_refl Eo s _).
    rewrite size_T. exact Hs.
  Qed.
End Tight.
