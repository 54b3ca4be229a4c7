(** BlochBasis: amplitudes, components, round trips. *)
From Coq Require Import Reals.
From Verif Require Import ZLib Csum DFT NumPy Interp Index IndexProofs AxesProofs Spec Basis SpecBasis BasisProofs BasisProofs2
  BasisProofs3 BasisFacts Operator SpecOperator OperatorProofs Reduce ReduceProofs IndexSum Wavepacket SpecWavepacket WavepacketProofs
  WavepacketProofs2 WavepacketProofs3 SpecMatrix LinAlg BlochBasis SpecBloch BlochProofs BlochProofs2.
Local Open Scope R_scope.
Local Open Scope C_scope.

Lemma nprod_supercell ls : forall ss, length ls = length ss -> nprod (supercell ls ss) = (nprod ls * nprod ss)%nat.
Proof.
  induction ls as [|n ls IH]; intros [|m ss] H; try discriminate; [reflexivity|].
  cbn [supercell nprod]. rewrite IH by (cbn in H; lia). lia.
Qed.

Section BlochBasis3.
  Context (same : basis -> basis -> bool) (Hsame : identity_test same).
  Context (nb : nat) (ls : list nat) (saxes : list basis).
  Context (Hls : Forall (fun n => (0 < n)%nat) ls) (Hw : bwf (BTuple saxes)) (He : explicit_orthonormal (BTuple saxes)).
  Context (Hl : length ls = length saxes).
  Let bb := BFund nb.
  Let ss := map bfund saxes.
  Let N := bsize (BTuple saxes).
  Let F := supercell ls ss.
  Let P : (0 < nprod ls)%nat := nprod_pos ls Hls.

  Lemma states_exist d : nprod (ashape d) = (nb * nprod ls * N)%nat ->
    exists st, get_bloch_states same bb (map BFundT ls) saxes d = Some st.
  Proof using Hsame Hls Hw He Hl.
    intros Hd. destruct (bloch_states_spec same Hsame bb ls saxes Hls Hw He Hl d Hd) as [o [G [Eo _]]]. exists o. exact Eo.
  Qed.

  Lemma states_wave d st r x : nprod (ashape d) = (nb * nprod ls * N)%nat ->
    get_bloch_states same bb (map BFundT ls) saxes d = Some st -> (r < nb * nprod ls)%nat -> in_shape x F ->
    amplitude (momenta F) (row (nprod F) (aflat st) r) (ravel F x) = bloch_wave ls saxes d r x.
  Proof using Hsame Hls Hw He Hl P.
    intros Hd E Hr Hx. assert (Hb : (r / nprod ls < nb)%nat) by (apply Nat.div_lt_upper_bound; lia).
    assert (Hm : (r mod nprod ls < nprod ls)%nat) by (apply Nat.mod_upper_bound; lia).
    assert (Er : r = (r / nprod ls * nprod ls + r mod nprod ls)%nat) by (rewrite (Nat.div_mod r (nprod ls)) at 1; lia).
    assert (X := bloch_states_amplitude same Hsame bb ls saxes Hls Hw He Hl d st Hd E _ _ x Hb Hm Hx).
    rewrite <- Er in X. exact X.
  Qed.

  Lemma explicit_into st v x : (x < nprod F)%nat ->
    into_fundamental (explicit_bloch_basis nb ls saxes st) v x =
    csum (fun r => v r * amplitude (momenta F) (row (nprod F) (aflat st) r) x) (nb * nprod ls).
  Proof using Hls Hw Hl.
    intros Hx. unfold explicit_bloch_basis. rewrite unfurled_momenta. fold ss F. rewrite momenta_size. cbn [into_fundamental].
    rewrite (into_fundamental_mat (momenta F)); [|apply momenta_wf, supercell_pos;
      [unfold ss; rewrite map_length; exact Hl|exact Hls|apply fund_shape_pos; exact Hw]|rewrite momenta_fund; exact Hx].
    unfold into_state_basis.
    transitivity (csum (fun k => csum (fun r => bstate (momenta F) k x * (v r * row (nprod F) (aflat st) r k)) (nb * nprod ls)) (bsize (momenta F))).
    { apply csum_ext. intros k _. rewrite csum_scal_l. reflexivity. }
    rewrite csum_swap. apply csum_ext. intros r _. unfold amplitude. rewrite <- csum_scal_l. apply csum_ext. intros k _. ring.
  Qed.
  Lemma explicit_from st v r :
    from_fundamental (explicit_bloch_basis nb ls saxes st) v r =
    csum (fun x => Cconj (amplitude (momenta F) (row (nprod F) (aflat st) r) x) * v x) (nprod F).
  Proof using Hls Hw Hl.
    unfold explicit_bloch_basis. rewrite unfurled_momenta. fold ss F. rewrite momenta_size. cbn [from_fundamental].
    unfold from_state_basis.
    assert (Wf : bwf (momenta F)) by (apply momenta_wf, supercell_pos;
      [unfold ss; rewrite map_length; exact Hl|exact Hls|apply fund_shape_pos; exact Hw]).
    transitivity (csum (fun k => csum (fun x => Cconj (row (nprod F) (aflat st) r k) * (Cconj (bstate (momenta F) k x) * v x)) (nprod F)) (nprod F)).
    { rewrite momenta_size. apply csum_ext. intros k Hk. rewrite (from_fundamental_mat (momenta F) Wf) by (rewrite momenta_size; exact Hk).
      rewrite momenta_fund, csum_scal_l. reflexivity. }
    rewrite csum_swap. apply csum_ext. intros x _. unfold amplitude. rewrite momenta_size, Cconj_csum, <- csum_scal_r.
    apply csum_ext. intros k _. rewrite Cconj_mult. ring.
  Qed.

  Lemma bloch_into_waves d v : nprod (ashape d) = (nb * nprod ls * N)%nat -> map bsize saxes = ss ->
    exists out, bloch_into_fundamental same nb ls saxes d v = Some out /\
      forall x, in_shape x F -> out (ravel F x) = csum (fun r => v r * bloch_wave ls saxes d r x) (nb * nprod ls).
  Proof using Hsame Hls Hw He Hl P.
    intros Hd Hf. destruct (states_exist d Hd) as [st E].
    destruct (bloch_into_explicit same Hsame bb ls saxes Hls Hw He Hl d st v Hd Hf E) as [out [Eo Ho]].
    exists out. split; [exact Eo|]. intros x Hx. assert (R := ravel_lt F x Hx). rewrite Ho by exact R.
    change (bsize bb) with nb. rewrite explicit_into by exact R. apply csum_ext. intros r Hr. f_equal. apply states_wave; assumption.
  Qed.
  Lemma bloch_from_waves d v : nprod (ashape d) = (nb * nprod ls * N)%nat ->
    exists out, bloch_from_fundamental same nb ls saxes d v = Some out /\
      forall r, (r < nb * nprod ls)%nat ->
        out r = csum (fun t => Cconj (bloch_wave ls saxes d r (unravel F t)) * v t) (nprod F).
  Proof using Hsame Hls Hw He Hl P.
    intros Hd. destruct (states_exist d Hd) as [st E].
    destruct (bloch_from_explicit same Hsame bb ls saxes Hls Hw He Hl d st v Hd E) as [out [Eo Ho]].
    exists out. split; [exact Eo|]. intros r Hr. rewrite Ho by exact Hr.
    change (bsize bb) with nb. rewrite explicit_from. apply csum_ext. intros t Ht. f_equal. f_equal.
    rewrite <- (states_wave d st r (unravel F t) Hd E Hr (unravel_in_shape F t Ht)). rewrite ravel_unravel by exact Ht. reflexivity.
  Qed.

  Lemma wave_inner d r r' : nprod (ashape d) = (nb * nprod ls * N)%nat -> bands_orthonormal nb ls saxes d ->
    (r < nb * nprod ls)%nat -> (r' < nb * nprod ls)%nat ->
    csum (fun t => Cconj (bloch_wave ls saxes d r (unravel F t)) * bloch_wave ls saxes d r' (unravel F t)) (nprod F) = cdelta r r'.
  Proof using Hsame Hls Hw He Hl P.
    intros Hd Ho Hr Hr'. destruct (states_exist d Hd) as [st E].
    assert (Lss : length ls = length ss) by (unfold ss; rewrite map_length; exact Hl).
    transitivity (inner_product (nprod F) (row (nprod F) (aflat st) r) (row (nprod F) (aflat st) r')).
    - transitivity (inner_product (nprod F) (amplitude (momenta F) (row (nprod F) (aflat st) r)) (amplitude (momenta F) (row (nprod F) (aflat st) r'))).
      + unfold inner_product. apply csum_ext. intros t Ht.
        rewrite <- (states_wave d st r (unravel F t) Hd E Hr (unravel_in_shape F t Ht)).
        rewrite <- (states_wave d st r' (unravel F t) Hd E Hr' (unravel_in_shape F t Ht)). rewrite ravel_unravel by exact Ht. reflexivity.
      + rewrite <- (momenta_size F) at 2.
        assert (Fp : Forall (fun n => (0 < n)%nat) F) by (apply supercell_pos; [exact Lss|exact Hls|apply fund_shape_pos; exact Hw]).
        assert (O : orthonormal (momenta F)) by (apply full_bases; [apply momenta_wf; exact Fp|apply momenta_full]).
        unfold inner_product, amplitude. rewrite momenta_size.
        transitivity (csum (fun t => csum (fun k => csum (fun k' => Cconj (row (nprod F) (aflat st) r k) * row (nprod F) (aflat st) r' k' *
           (Cconj (bstate (momenta F) k t) * bstate (momenta F) k' t)) (nprod F)) (nprod F)) (nprod F)).
        { apply csum_ext. intros t _. rewrite Cconj_csum. rewrite csum_mult. apply csum_ext. intros k _. apply csum_ext. intros k' _.
          rewrite Cconj_mult. ring. }
        rewrite csum_swap. apply csum_ext. intros k Hk. rewrite csum_swap.
        rewrite (csum_ext _ (fun k' => cdelta k k' * (Cconj (row (nprod F) (aflat st) r k) * row (nprod F) (aflat st) r' k'))).
        * apply csum_delta_l. exact Hk.
        * intros k' Hk'. rewrite csum_scal_l. rewrite <- (momenta_size F) in Hk, Hk'. rewrite <- (O k k' Hk Hk'). unfold overlap.
          rewrite momenta_fund. ring.
    - assert (Er : r = (r / nprod ls * nprod ls + r mod nprod ls)%nat) by (rewrite (Nat.div_mod r (nprod ls)) at 1; lia).
      assert (Er' : r' = (r' / nprod ls * nprod ls + r' mod nprod ls)%nat) by (rewrite (Nat.div_mod r' (nprod ls)) at 1; lia).
      assert (Hb : (r / nprod ls < nb)%nat) by (apply Nat.div_lt_upper_bound; lia).
      assert (Hb' : (r' / nprod ls < nb)%nat) by (apply Nat.div_lt_upper_bound; lia).
      assert (Hm : (r mod nprod ls < nprod ls)%nat) by (apply Nat.mod_upper_bound; lia).
      assert (Hm' : (r' mod nprod ls < nprod ls)%nat) by (apply Nat.mod_upper_bound; lia).
      set (b := (r / nprod ls)%nat) in *. set (s := (r mod nprod ls)%nat) in *.
      set (b' := (r' / nprod ls)%nat) in *. set (s' := (r' mod nprod ls)%nat) in *.
      clearbody b s b' s'. subst r r'.
      unfold F. unfold ss. rewrite (bloch_states_inner same Hsame bb ls saxes Hls Hw He Hl d st Hd E b s b' s' Hb Hb' Hm Hm').
      destruct (Nat.eq_dec s s') as [->|Hn].
      + rewrite cdelta_refl, Cmult_1_l. rewrite (Ho b b' s' Hb Hb' Hm').
        destruct (Nat.eq_dec b b') as [->|Hn]; [rewrite !cdelta_refl; reflexivity|]. rewrite !cdelta_neq by (try exact Hn; nia). reflexivity.
      + rewrite (cdelta_neq s s') by exact Hn. rewrite cdelta_neq; [ring|]. intros X. apply Hn.
        assert (Y : ((b * nprod ls + s) mod nprod ls = (b' * nprod ls + s') mod nprod ls)%nat) by (rewrite X; reflexivity).
        rewrite !mod_add_small in Y by assumption. exact Y.
  Qed.

  Lemma bloch_round_trip d v out : nprod (ashape d) = (nb * nprod ls * N)%nat -> bands_orthonormal nb ls saxes d ->
    bloch_into_fundamental same nb ls saxes d v = Some out -> map bsize saxes = ss ->
    exists back, bloch_from_fundamental same nb ls saxes d out = Some back /\
      forall r, (r < nb * nprod ls)%nat -> back r = v r.
  Proof using Hsame Hls Hw He Hl P.
    intros Hd Ho E Hf. destruct (bloch_into_waves d v Hd Hf) as [o [Eo Io]]. rewrite E in Eo. injection Eo as <-.
    destruct (bloch_from_waves d out Hd) as [back [Eb Ib]]. exists back. split; [exact Eb|]. intros r Hr. rewrite Ib by exact Hr.
    transitivity (csum (fun t => csum (fun r' => v r' * (Cconj (bloch_wave ls saxes d r (unravel F t)) * bloch_wave ls saxes d r' (unravel F t))) (nb * nprod ls)) (nprod F)).
    { apply csum_ext. intros t Ht. rewrite <- (ravel_unravel F t Ht) at 2. rewrite Io by (apply unravel_in_shape; exact Ht).
      rewrite <- csum_scal_l. apply csum_ext. intros r' _. ring. }
    rewrite csum_swap. rewrite (csum_ext _ (fun r' => cdelta r r' * v r')).
    - apply csum_delta_l. exact Hr.
    - intros r' Hr'. rewrite csum_scal_l, wave_inner by assumption. ring.
  Qed.

  Lemma bloch_resolution d v : nprod (ashape d) = (nb * nprod ls * N)%nat -> bands_orthonormal nb ls saxes d ->
    map bsize saxes = ss -> nb = N ->
    exists comps out, bloch_from_fundamental same nb ls saxes d v = Some comps /\
      bloch_into_fundamental same nb ls saxes d comps = Some out /\
      forall t, (t < nprod F)%nat -> out t = v t.
  Proof using Hsame Hls Hw He Hl P.
    intros Hd Ho Hf En. destruct (bloch_from_waves d v Hd) as [cs [Ec Ic]]. destruct (bloch_into_waves d cs Hd Hf) as [out [Eo Io]].
    exists cs, out. split; [exact Ec|]. split; [exact Eo|]. intros t Ht.
    assert (Sz : (nb * nprod ls = nprod F)%nat).
    { unfold F. rewrite nprod_supercell by (unfold ss; rewrite map_length; exact Hl). rewrite En. unfold N. cbn [bsize]. rewrite Hf. lia. }
    rewrite <- (ravel_unravel F t Ht). rewrite Io by (apply unravel_in_shape; exact Ht). rewrite Sz in Ic |- *.
    assert (Oc : orthonormal_columns (nprod F) (nprod F) (fun r t => bloch_wave ls saxes d r (unravel F t))).
    { apply orthonormal_square. intros r r' Hr Hr'. rewrite (cdelta_sym r r'), <- (wave_inner d r' r Hd Ho) by lia. apply csum_ext. intros x _. ring. }
    transitivity (csum (fun r => csum (fun u => v u * (Cconj (bloch_wave ls saxes d r (unravel F u)) * bloch_wave ls saxes d r (unravel F t))) (nprod F)) (nprod F)).
    { apply csum_ext. intros r Hr. rewrite Ic by lia. rewrite <- csum_scal_r. apply csum_ext. intros u _. ring. }
    rewrite csum_swap. rewrite (csum_ext _ (fun u => cdelta u t * v u)).
    - rewrite csum_delta_l' by exact Ht. rewrite ravel_unravel by exact Ht. reflexivity.
    - intros u Hu. rewrite csum_scal_l. rewrite (Oc u t Hu Ht). ring.
  Qed.

  Lemma bloch_into_truncated d v : N <> nprod ss -> bloch_into_fundamental same nb ls saxes d v = None.
  Proof using Hls Hl P.
    intros Hn. unfold bloch_into_fundamental. destruct (length ls =? length (map bsize saxes)); [|reflexivity].
    destruct (reshape d _); [|reflexivity]. destruct (convert same _ _); [|reflexivity].
    unfold reshape. cbn [ashape]. rewrite nprod_app. unfold fundamental_wavepacket_basis.
    rewrite !as_fundamental_transformed_momenta, map_bfund_FundT. fold ss. cbn [bsize map nprod]. rewrite !momenta_size.
    change (nprod (map bsize saxes)) with N.
    destruct (Nat.eqb_spec (nprod ls * (nprod ss * 1) * 1) (nprod ls * N)) as [X|X]; [|reflexivity].
    exfalso. nia.
  Qed.
End BlochBasis3.

Lemma vectors_at_spec nb ls saxes d idx : (0 < nb)%nat -> Forall (fun n => (0 < n)%nat) ls -> length idx = length ls ->
  nprod (ashape d) = (nb * nprod ls * bsize (BTuple saxes))%nat ->
  exists s out, vectors_at_bloch_k nb ls saxes d idx = Some out /\ in_shape s ls /\
    Forall2 (fun n p => Zcong (Z.of_nat n) (Z.of_nat (fst p)) (snd p)) ls (combine s idx) /\
    ashape out = [(nb * bsize (BTuple saxes))%nat] /\
    forall b k, (b < nb)%nat -> (k < bsize (BTuple saxes))%nat ->
      aflat out (b * bsize (BTuple saxes) + k)%nat = row (bsize (BTuple saxes)) (aflat d) (b * nprod ls + ravel ls s) k.
Proof.
  intros Hn Hls Hi Hd. set (N := bsize (BTuple saxes)) in *.
  assert (P := nprod_pos ls Hls).
  assert (X : exists s, indices_in_mode MWrap ls idx = Some s /\ in_shape s ls /\
    Forall2 (fun n p => Zcong (Z.of_nat n) (Z.of_nat (fst p)) (snd p)) ls (combine s idx)).
  { clear - Hls Hi. revert idx Hi. induction Hls as [|n ls Hn H IH]; intros [|i idx] Hi; try discriminate.
    - exists []. repeat split; constructor.
    - destruct (IH idx ltac:(cbn in Hi; lia)) as [s [Es [Is Cs]]].
      exists (Z.to_nat (i mod Z.of_nat n) :: s). cbn [indices_in_mode index_in_mode].
      destruct (Nat.eqb_spec n 0); [lia|]. rewrite Es. assert (B := Z.mod_pos_bound i (Z.of_nat n) ltac:(lia)).
      split; [reflexivity|]. split.
      + constructor; [lia|exact Is].
      + cbn [combine]. constructor; [|exact Cs]. cbn [fst snd]. rewrite Z2Nat.id by lia. apply Zcong_mod. lia. }
  destruct X as [s [Es [Is Cs]]].
  assert (En : (nprod (ashape d) / (nb * nprod ls) = N)%nat) by (rewrite Hd, Nat.mul_comm; apply Nat.div_mul; nia).
  exists s. eexists. split; [|split; [exact Is|split; [exact Cs|]]].
  - unfold vectors_at_bloch_k, get_flat_index. rewrite Es. destruct (Nat.eqb_spec (nb * nprod ls) 0); [nia|].
    rewrite En. rewrite Hd. rewrite (Nat.mul_comm _ N), Nat.mod_mul by assumption. rewrite Nat.eqb_refl. reflexivity.
  - cbn [ashape aflat]. split; [reflexivity|]. intros b k Hb Hk. rewrite div_add_small, mod_add_small by exact Hk. reflexivity.
Qed.
