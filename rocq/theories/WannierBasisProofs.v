(** The basis of Wannier states (C109). *)
From Coq Require Import Reals Psatz.
From Verif Require Import ZLib Csum DFT NumPy Index IndexProofs AxesProofs Spec Basis SpecBasis BasisProofs BasisProofs2
  BasisProofs3 BasisFacts Operator SpecOperator OperatorProofs OperatorProofs2 Reduce ReduceProofs IndexSum StateList SpecStateList StateListProofs Wavepacket SpecWavepacket WavepacketProofs
  WavepacketProofs2 WavepacketProofs3 SpecMatrix LinAlg Localize SpecLocalize LocalizeProofs LocalizeProofs2 LocalizeProofs5 LocalizeProofs6 EigenBasisProofs BlochProofs3 TightCell SpecTightCell TightCellProofs3 WannierBasis.
Local Open Scope R_scope.
Local Open Scope C_scope.

Lemma square_complete b : bwf b -> explicit_orthonormal b -> bsize b = bfund b -> complete b.
Proof.
  intros Hw Ho E x y Hx Hy. assert (O := explicit_orthonormal_sound b Hw Ho).
  assert (Oc : orthonormal_columns (bfund b) (bfund b) (bstate b)).
  { apply orthonormal_square. intros r r' Hr Hr'. rewrite cdelta_sym, <- (O r' r) by lia. unfold overlap. apply csum_ext. intros z _. ring. }
  rewrite E, cdelta_sym, <- (Oc y x Hy Hx). apply csum_ext. intros k _. ring.
Qed.

Lemma map2_supercell ls : forall ss, map2 Nat.mul ls ss = supercell ls ss.
Proof. induction ls as [|n ls IH]; intros [|m ss]; cbn; try reflexivity. rewrite IH. reflexivity. Qed.
Lemma map_bfund_T ls : map bfund (map BFundT ls) = ls.
Proof. induction ls as [|n ls IH]; cbn; [|rewrite IH]; reflexivity. Qed.
Lemma map_bsize_T ls : map bsize (map BFundT ls) = ls.
Proof. induction ls as [|n ls IH]; cbn; [|rewrite IH]; reflexivity. Qed.
Lemma map_bsize_F ls : map bsize (map BFund ls) = ls.
Proof. induction ls as [|n ls IH]; cbn; [|rewrite IH]; reflexivity. Qed.
Lemma size_T ls : bsize (BTuple (map BFundT ls)) = nprod ls.
Proof. cbn [bsize]. rewrite map_bsize_T. reflexivity. Qed.
Lemma size_F ls : bsize (BTuple (map BFund ls)) = nprod ls.
Proof. cbn [bsize]. rewrite map_bsize_F. reflexivity. Qed.
Lemma positions_ok F : Forall (fun n => (0 < n)%nat) F -> bwf (BTuple (map BFund F)) /\ full (BTuple (map BFund F)) /\ bfund (BTuple (map BFund F)) = nprod F.
Proof.
  intros H. split; [|split].
  - induction H; cbn; [exact Logic.I|]. split; [exact H|exact IHForall].
  - clear H. induction F; cbn; [exact Logic.I|]. split; [reflexivity|exact IHF].
  - cbn [bfund]. f_equal. clear H. induction F; cbn; [|rewrite IHF]; reflexivity.
Qed.

Section WannierBasis.
  Variable same : basis -> basis -> bool.
  Hypothesis Hsame : identity_test same.
  Variables (ls : list nat) (saxes : list basis).
  Hypothesis Hls : Forall (fun n => (0 < n)%nat) ls.
  Hypothesis Hw : bwf (BTuple saxes).
  Hypothesis He : explicit_orthonormal (BTuple saxes).
  Hypothesis Hl : length ls = length saxes.
  Variables (nw nb : nat) (op data : ndarray).
  Hypothesis Hnw : (0 < nw)%nat.
  Hypothesis Hnb : (0 < nb)%nat.
  Notation ns := (nprod ls).
  Notation N := (bsize (BTuple saxes)).
  Notation F := (supercell ls (map bfund saxes)).
  Hypothesis Hop : nprod (ashape op) = (ns * nw * nb)%nat.
  Hypothesis Hdata : nprod (ashape data) = (nb * ns * N)%nat.
  Hypothesis Hfull : map bsize saxes = map bfund saxes.
  Hypothesis Hrows : forall s, (s < ns)%nat -> orthonormal_rows nw nb (at_sample nw nb op s).
  Hypothesis Hbands : forall s l m, (s < ns)%nat -> (l < nb)%nat -> (m < nb)%nat ->
     inner_product N (band_state ns N data s l) (band_state ns N data s m) = cdelta l m.

  Lemma wannier_basis_spec : exists out,
    wannier_states same nw nb (map BFundT ls) saxes op data = Some out /\
    wannier_basis same nw nb (map BFundT ls) saxes op data = Some (BExpl (nw * ns) (row (nprod F) (aflat out)) (BTuple (map BFund F))) /\
    bwf (BExpl (nw * ns) (row (nprod F) (aflat out)) (BTuple (map BFund F))) /\
    explicit_orthonormal (BExpl (nw * ns) (row (nprod F) (aflat out)) (BTuple (map BFund F))) /\
    (nw = N -> complete (BExpl (nw * ns) (row (nprod F) (aflat out)) (BTuple (map BFund F)))).
  Proof using Hsame Hls Hw He Hl Hnw Hnb Hop Hdata Hfull Hrows Hbands.
    destruct (wannier_spec same Hsame ls saxes Hls Hw He Hl nw nb op data Hnw Hnb Hop Hdata) as [loc [out [_ [Eo [_ _]]]]].
    exists out. split; [exact Eo|].
    assert (Pss : Forall (fun n => (0 < n)%nat) (map bfund saxes)) by exact (wss_pos saxes Hw).
    assert (PF : Forall (fun n => (0 < n)%nat) F) by (apply supercell_pos; [exact Hls|exact Pss|rewrite map_length; exact Hl]).
    destruct (positions_ok F PF) as [W [Fu Bf]].
    assert (Pn : (0 < ns)%nat) by (apply nprod_pos; exact Hls).
    split.
    { unfold wannier_basis. rewrite Eo, map_bfund_T, map2_supercell, size_T. reflexivity. }
    assert (B : bwf (BExpl (nw * ns) (row (nprod F) (aflat out)) (BTuple (map BFund F)))) by (split; [nia|exact W]).
    assert (O : explicit_orthonormal (BExpl (nw * ns) (row (nprod F) (aflat out)) (BTuple (map BFund F)))).
    { split; [|apply full_explicit_orthonormal; exact Fu]. intros i j Hi Hj. rewrite size_F.
      assert (Ei : i = (i / ns * ns + i mod ns)%nat) by (rewrite (Nat.div_mod i ns) at 1; lia).
      assert (Ej : j = (j / ns * ns + j mod ns)%nat) by (rewrite (Nat.div_mod j ns) at 1; lia).
      assert (Di : (i / ns < nw)%nat) by (apply Nat.div_lt_upper_bound; lia).
      assert (Dj : (j / ns < nw)%nat) by (apply Nat.div_lt_upper_bound; lia).
      assert (Mi := Nat.mod_upper_bound i ns ltac:(lia)). assert (Mj := Nat.mod_upper_bound j ns ltac:(lia)).
      rewrite Ei at 1. rewrite Ej at 1.
      rewrite (wannier_orthonormal same Hsame ls saxes Hls Hw He Hl nw nb op data Hnw Hnb Hop Hdata Hfull out Eo Hrows Hbands _ _ _ _ Di Dj Mi Mj).
      destruct (Nat.eq_dec i j) as [->|Hn]; [rewrite !cdelta_refl; ring|]. rewrite (cdelta_neq i j) by exact Hn.
      destruct (Nat.eq_dec (i / ns) (j / ns)) as [E1|E1]; [|rewrite (cdelta_neq _ _ E1); ring].
      destruct (Nat.eq_dec (i mod ns) (j mod ns)) as [E2|E2]; [|rewrite (cdelta_neq _ _ E2); ring].
      exfalso. apply Hn. rewrite Ei, Ej, E1, E2. reflexivity. }
    split; [exact B|]. split; [exact O|]. intros En. apply square_complete; [exact B|exact O|].
    cbn [bsize]. change (bfund (BExpl (nw * ns) (row (nprod F) (aflat out)) (BTuple (map BFund F)))) with (bfund (BTuple (map BFund F))). rewrite Bf.
    rewrite nprod_supercell by (rewrite map_length; exact Hl). rewrite En. cbn [bsize]. rewrite Hfull. lia.
  Qed.

  (** Coefficients in the basis are inner products with the Wannier states; back: their sums;
      with all bands nothing is lost. *)
  Lemma wannier_conversion : exists out B G H,
    wannier_states same nw nb (map BFundT ls) saxes op data = Some out /\
    wannier_basis same nw nb (map BFundT ls) saxes op data = Some B /\ bsize B = (nw * ns)%nat /\
    convert same (BTuple (map BFund F)) B = Some G /\ convert same B (BTuple (map BFund F)) = Some H /\
    (forall v r, (r < nw * ns)%nat -> G v r = inner_product (nprod F) (row (nprod F) (aflat out) r) v) /\
    (forall v x, (x < nprod F)%nat -> H v x = csum (fun r => v r * row (nprod F) (aflat out) r x) (nw * ns)) /\
    (forall v r, (r < nw * ns)%nat -> G (H v) r = v r) /\
    (nw = N -> forall v x, (x < nprod F)%nat -> H (G v) x = v x).
  Proof using Hsame Hls Hw He Hl Hnw Hnb Hop Hdata Hfull Hrows Hbands.
    destruct wannier_basis_spec as [out [Eo [Eb [W [O Cm]]]]]. set (B := BExpl _ _ _) in *.
    assert (Pss : Forall (fun n => (0 < n)%nat) (map bfund saxes)) by exact (wss_pos saxes Hw).
    assert (PF : Forall (fun n => (0 < n)%nat) F) by (apply supercell_pos; [exact Hls|exact Pss|rewrite map_length; exact Hl]).
    destruct (positions_ok F PF) as [Wp [Fu Bf]]. assert (Op := full_explicit_orthonormal _ Fu). assert (Cp := full_complete _ Wp Fu).
    destruct (explicit_compatible (nw * ns) (row (nprod F) (aflat out)) (BTuple (map BFund F))) as [C1 C2].
    destruct (proj2 (convert_some_iff same _ _) C1) as [G EG]. destruct (proj2 (convert_some_iff same _ _) C2) as [H EH].
    exists out, B, G, H. split; [exact Eo|]. split; [exact Eb|]. split; [reflexivity|]. split; [exact EG|]. split; [exact EH|].
    split; [|split; [|split]].
    - intros v r Hr. rewrite (convert_orthonormal same Hsame _ _ G Wp W Op EG v r Hr). unfold inner_product. rewrite size_F. apply csum_ext. intros x Hx.
      f_equal. rewrite <- (size_F F) in Hx. exact (explicit_overlap (nw * ns) (row (nprod F) (aflat out)) (BTuple (map BFund F)) r x Wp Op Hx).
    - intros v x Hx. assert (Hx' : (x < bsize (BTuple (map BFund F)))%nat) by (rewrite size_F; exact Hx).
      rewrite (convert_orthonormal same Hsame _ _ H W Wp O EH v x Hx'). cbn [bsize]. apply csum_ext. intros r Hr.
      rewrite <- (explicit_overlap' (nw * ns) (row (nprod F) (aflat out)) (BTuple (map BFund F)) r x Wp Op Hx'). apply Cmult_comm.
    - intros v r Hr. exact (convert_round_trip same Hsame B _ H G W Wp O Op Cp EH EG v r Hr).
    - intros En v x Hx. apply (convert_round_trip same Hsame _ B G H Wp W Op O (Cm En) EG EH v x). rewrite size_F. exact Hx.
  Qed.
End WannierBasis.
