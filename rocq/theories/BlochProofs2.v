(** BlochBasis converts like the explicit basis of the Bloch states. *)
From Coq Require Import Reals.
From Verif Require Import ZLib Csum DFT NumPy Interp Index IndexProofs AxesProofs Spec Basis SpecBasis BasisProofs BasisProofs2
  BasisProofs3 BasisFacts Operator SpecOperator OperatorProofs Reduce ReduceProofs IndexSum Wavepacket SpecWavepacket WavepacketProofs
  WavepacketProofs2 WavepacketProofs3 LocalizeProofs3 BlochBasis BlochProofs.
Local Open Scope R_scope.
Local Open Scope C_scope.

Lemma supercell_pos ls : forall ss, length ls = length ss -> Forall (fun n => (0 < n)%nat) ls -> Forall (fun n => (0 < n)%nat) ss ->
  Forall (fun n => (0 < n)%nat) (supercell ls ss).
Proof.
  induction ls as [|n ls IH]; intros [|m ss] E P Q; try discriminate; [constructor|].
  inversion P; inversion Q; subst. cbn [supercell]. constructor; [nia|]. apply IH; [cbn in E; lia|assumption..].
Qed.

Section BlochBasis.
  Context (same : basis -> basis -> bool) (Hsame : identity_test same).
  Context (bb : basis) (ls : list nat) (saxes : list basis).
  Context (Hls : Forall (fun n => (0 < n)%nat) ls) (Hw : bwf (BTuple saxes)) (He : explicit_orthonormal (BTuple saxes)).
  Context (Hl : length ls = length saxes).
  Let nb := bsize bb.
  Let ss := map bfund saxes.
  Let N := bsize (BTuple saxes).
  Let F := supercell ls ss.

  Lemma Hls2 : length ls = length ss. Proof. unfold ss. rewrite map_length. exact Hl. Qed.
  Lemma ss_pos : Forall (fun m => (0 < m)%nat) ss. Proof. apply fund_shape_pos. exact Hw. Qed.
  Lemma F_pos : Forall (fun m => (0 < m)%nat) F.
  Proof using Hls Hl Hw. apply supercell_pos; [apply Hls2|exact Hls|apply ss_pos]. Qed.

  Lemma into_convert : exists cv G, convert same (wavepacket_basis ls saxes) (fundamental_wavepacket_basis ls saxes) = Some cv /\
    convert same (BTuple saxes) (momenta ss) = Some G /\
    forall v i j, (i < nprod ls)%nat -> (j < nprod ss)%nat -> cv v (i * nprod ss + j)%nat = G (fun k => v (i * N + k)%nat) j.
  Proof using Hsame Hls Hw He.
    unfold wavepacket_basis, fundamental_wavepacket_basis. rewrite !as_fundamental_transformed_momenta, map_bfund_FundT. fold ss.
    destruct (convert_momenta_self same ls Hsame Hls) as [L [HL IL]].
    destruct (proj2 (convert_some_iff same (BTuple saxes) (momenta ss)) (compatible_momenta saxes)) as [G HG].
    assert (Mg : is_mat N (bsize (momenta ss)) (overlap (momenta ss) (BTuple saxes)) G).
    { intros v j Hj. apply (convert_orthonormal same Hsame _ _ G Hw (momenta_wf ss ss_pos) He HG v j Hj). }
    destruct (convert_pair same (momenta ls) (BTuple saxes) (momenta ls) (momenta ss) L G HL HG) as [cv [Hc Ec]].
    { intros v w j Hj E. apply (is_mat_ext _ _ _ _ v w j Mg Hj). exact E. }
    exists cv, G. split; [exact Hc|]. split; [exact HG|]. intros v i j Hi Hj.
    rewrite !momenta_size in Ec. rewrite Ec by assumption. rewrite <- (momenta_size ss) in Hj. apply (is_mat_ext _ _ _ _ _ _ j Mg Hj).
    intros k _. rewrite IL by exact Hi. reflexivity.
  Qed.
  Lemma from_convert : exists cv G, convert same (fundamental_wavepacket_basis ls saxes) (wavepacket_basis ls saxes) = Some cv /\
    convert same (momenta ss) (BTuple saxes) = Some G /\
    forall v i j, (i < nprod ls)%nat -> (j < N)%nat -> cv v (i * N + j)%nat = G (fun k => v (i * nprod ss + k)%nat) j.
  Proof using Hsame Hls Hw He.
    unfold wavepacket_basis, fundamental_wavepacket_basis. rewrite !as_fundamental_transformed_momenta, map_bfund_FundT. fold ss.
    destruct (convert_momenta_self same ls Hsame Hls) as [L [HL IL]].
    destruct (proj2 (convert_some_iff same (momenta ss) (BTuple saxes))) as [G HG].
    { apply compatible_from_momenta. }
    assert (Mg : is_mat (bsize (momenta ss)) N (overlap (BTuple saxes) (momenta ss)) G).
    { intros v j Hj. apply (convert_orthonormal same Hsame _ _ G (momenta_wf ss ss_pos) Hw); [|exact HG|exact Hj].
      unfold momenta. clear. induction ss as [|m s IH]; [exact I|]. split; [exact I|exact IH]. }
    destruct (convert_pair same (momenta ls) (momenta ss) (momenta ls) (BTuple saxes) L G HL HG) as [cv [Hc Ec]].
    { intros v w j Hj E. apply (is_mat_ext _ _ _ _ v w j Mg Hj). exact E. }
    exists cv, G. split; [exact Hc|]. split; [exact HG|]. intros v i j Hi Hj.
    rewrite !momenta_size in Ec. fold N in Ec. rewrite Ec by assumption. apply (is_mat_ext _ _ _ _ _ _ j Mg Hj).
    intros k _. rewrite IL by exact Hi. reflexivity.
  Qed.

  Lemma bloch_into_explicit d states v : nprod (ashape d) = (nb * nprod ls * N)%nat ->
    map bsize saxes = ss ->
    get_bloch_states same bb (map BFundT ls) saxes d = Some states ->
    exists out, bloch_into_fundamental same nb ls saxes d v = Some out /\
      forall x, (x < nprod F)%nat ->
        out x = into_fundamental (explicit_bloch_basis nb ls saxes states) v x.
  Proof using Hsame Hls Hw He Hl.
    intros Hd Hf E. destruct (bloch_states_spec same Hsame bb ls saxes Hls Hw He Hl d Hd) as [o [G [Eo [HG [_ Hr]]]]].
    rewrite E in Eo. injection Eo as <-. fold nb in Hr. fold ss in Hr. fold N in Hr. fold F in Hr.
    unfold bloch_into_fundamental. rewrite Hf. rewrite Hls2, Nat.eqb_refl. fold N.
    rewrite reshape_some by (rewrite Hd; cbn [nprod]; lia).
    destruct into_convert as [cv [G' [Hc [HG' Ec]]]]. rewrite Hc. fold ss in HG. rewrite HG in HG'. injection HG' as <-.
    rewrite reshape_some.
    2:{ cbn [ashape]. unfold fundamental_wavepacket_basis. rewrite !as_fundamental_transformed_momenta, map_bfund_FundT. fold ss.
        cbn [bsize map nprod]. rewrite !momenta_size. rewrite nprod_app. cbn [nprod]. lia. }
    cbv zeta. cbn [aflat].
    match goal with |- context [cv ?a] => set (w := a) end.
    eexists. split; [reflexivity|]. intros x Hx.
    change (flatten (map2 Nat.mul ls ss) _) with (into_shuffle ls ss (cv w)).
    rewrite unfurled_momenta. fold ss F. unfold explicit_bloch_basis. rewrite unfurled_momenta. fold ss F. rewrite momenta_size.
    cbn [into_fundamental].
    apply (is_mat_ext _ _ _ _ _ _ x (into_fundamental_mat (momenta F) (momenta_wf F F_pos))); [rewrite momenta_fund; exact Hx|].
    intros f Hfb. rewrite momenta_size in Hfb.
    destruct (unfurl_once ls ss (unravel F f) Hls2 (unravel_in_shape F f Hfb)) as [s [k [Hs [Hk [Eu _]]]]].
    assert (Ef : f = ravel F (unfurl_slot ls ss s k)) by (rewrite Eu; symmetry; apply ravel_unravel; exact Hfb).
    clear Eu. subst f. unfold F at 1. rewrite into_shuffle_spec by (try exact Hls2; assumption).
    assert (Rs := ravel_lt ls s Hs). assert (Rk := ravel_lt ss k Hk).
    rewrite Ec by assumption.
    assert (Mg : is_mat N (bsize (momenta ss)) (overlap (momenta ss) (BTuple saxes)) G).
    { intros u j Hj. apply (convert_orthonormal same Hsame _ _ G Hw (momenta_wf ss ss_pos) He HG u j Hj). }
    assert (Rk' : (ravel ss k < bsize (momenta ss))%nat) by (rewrite momenta_size; exact Rk).
    rewrite (is_mat_ext _ _ _ _ _ (fun k0 => csum (fun i => v (i * nprod ls + ravel ls s)%nat * row N (aflat d) (i * nprod ls + ravel ls s) k0) nb)
       _ Mg Rk').
    2:{ intros k0 Hk0. unfold w. rewrite div_add_small, mod_add_small by exact Hk0. apply csum_ext. intros i Hi.
        unfold at3, row. cbn [ashape nth aflat]. reflexivity. }
    rewrite Mg by exact Rk'.
    unfold into_state_basis.
    transitivity (csum (fun i => v (i * nprod ls + ravel ls s)%nat * G (row N (aflat d) (i * nprod ls + ravel ls s)) (ravel ss k)) nb).
    { rewrite (csum_ext (fun k0 => _ * csum _ nb) (fun k0 => csum (fun i => overlap (momenta ss) (BTuple saxes) (ravel ss k) k0 *
         (v (i * nprod ls + ravel ls s)%nat * row N (aflat d) (i * nprod ls + ravel ls s) k0)) nb))
        by (intros k0 _; rewrite csum_scal_l; reflexivity).
      rewrite csum_swap. apply csum_ext. intros i Hi. rewrite Mg by exact Rk'. rewrite <- csum_scal_l. apply csum_ext. intros k0 _. ring. }
    symmetry. rewrite csum_mul. apply csum_ext. intros b Hb.
    rewrite (csum_ext _ (fun s' => cdelta (ravel ls s) s' * (v (b * nprod ls + s')%nat * G (row N (aflat d) (b * nprod ls + s')) (ravel ss k)))).
    - rewrite csum_delta_l by exact Rs. reflexivity.
    - intros s' Hs'. assert (U := unravel_in_shape ls s' Hs'). assert (X := Hr b (unravel ls s') s k Hb U Hs Hk).
      rewrite (ravel_unravel ls s' Hs') in X. unfold row at 1 in X. rewrite X.
      destruct (Nat.eq_dec (ravel ls s) s') as [Es|Hn].
      + rewrite <- Es, unravel_ravel by exact Hs. rewrite idelta_refl, cdelta_refl. ring.
      + rewrite idelta_neq, cdelta_neq by (try exact Hn; intros Y; apply Hn; rewrite Y; apply ravel_unravel; exact Hs'). ring.
  Qed.

  Lemma bloch_from_explicit d states v : nprod (ashape d) = (nb * nprod ls * N)%nat ->
    get_bloch_states same bb (map BFundT ls) saxes d = Some states ->
    exists out, bloch_from_fundamental same nb ls saxes d v = Some out /\
      forall t, (t < nb * nprod ls)%nat ->
        out t = from_fundamental (explicit_bloch_basis nb ls saxes states) v t.
  Proof using Hsame Hls Hw He Hl.
    intros Hd E. destruct (bloch_states_spec same Hsame bb ls saxes Hls Hw He Hl d Hd) as [o [G [Eo [HG [_ Hr]]]]].
    rewrite E in Eo. injection Eo as <-. fold nb in Hr. fold ss in Hr, HG. fold N in Hr. fold F in Hr.
    unfold bloch_from_fundamental. fold ss. rewrite Hls2, Nat.eqb_refl. fold N.
    rewrite reshape_some by (rewrite Hd; cbn [nprod]; lia).
    destruct from_convert as [cv [G' [Hc [HG' Ec]]]]. rewrite Hc.
    cbv zeta. rewrite unfurled_momenta. fold ss F.
    change (flatten _ (ifftshift_axes _ _)) with (from_shuffle ls ss (from_fundamental (momenta F) v)).
    set (w := from_fundamental (momenta F) v).
    eexists. split; [reflexivity|]. intros t Ht. cbv beta.
    set (b := (t / nprod ls)%nat). set (s := (t mod nprod ls)%nat).
    assert (Hp : (0 < nprod ls)%nat) by (apply nprod_pos; exact Hls).
    assert (Hs : (s < nprod ls)%nat) by (apply Nat.mod_upper_bound; lia).
    assert (Hb : (b < nb)%nat) by (apply Nat.div_lt_upper_bound; lia).
    assert (Et : t = (b * nprod ls + s)%nat) by (unfold b, s; rewrite (Nat.div_mod t (nprod ls)) at 1; lia).
    clearbody b s. subst t.
    unfold explicit_bloch_basis. rewrite unfurled_momenta. fold ss F. cbn [from_fundamental]. rewrite momenta_size. fold w.
    unfold from_state_basis.
    assert (Us := unravel_in_shape ls s Hs). assert (Rs := ravel_unravel ls s Hs).
    (* right hand side *)
    symmetry. rewrite isum_ravel. etransitivity; [apply (isum_unfurl ls ss _ Hls2)|]. cbv beta. fold F.
    rewrite (isum_ext ls _ (fun s' => idelta (unravel ls s) s' * isum ss (fun k => Cconj (G (row N (aflat d) (b * nprod ls + s)) (ravel ss k)) *
       w (ravel F (unfurl_slot ls ss s' k))))).
    2:{ intros s' Hs'. rewrite <- isum_scal_l. apply isum_ext. intros k Hk.
        assert (X := Hr b (unravel ls s) s' k Hb Us Hs' Hk). rewrite Rs in X. unfold row at 1 in X. rewrite X.
        rewrite Cconj_mult.
        assert (Ed : Cconj (idelta s' (unravel ls s)) = idelta (unravel ls s) s').
        { clear. revert s'. generalize (unravel ls s). induction l as [|a l IH]; intros [|c u]; cbn [idelta]; rewrite ?Cconj_0, ?Cconj_1; try reflexivity.
          rewrite Cconj_mult, Cconj_cdelta, IH, cdelta_sym. reflexivity. }
        rewrite Ed. ring. }
    rewrite (isum_idelta ls (unravel ls s) (fun s' => isum ss (fun k => Cconj (G (row N (aflat d) (b * nprod ls + s)) (ravel ss k)) *
       w (ravel F (unfurl_slot ls ss s' k)))) Us).
    (* left hand side *)
    assert (Mg : is_mat N (bsize (momenta ss)) (overlap (momenta ss) (BTuple saxes)) G).
    { intros u j Hj. apply (convert_orthonormal same Hsame _ _ G Hw (momenta_wf ss ss_pos) He HG u j Hj). }
    assert (Mg' : is_mat (bsize (momenta ss)) N (overlap (BTuple saxes) (momenta ss)) G').
    { intros u j Hj. apply (convert_orthonormal same Hsame _ _ G' (momenta_wf ss ss_pos) Hw); [|exact HG'|exact Hj].
      unfold momenta. clear. induction ss as [|m q IH]; [exact I|]. split; [exact I|exact IH]. }
    assert (Ef : bfund (BTuple saxes) = bfund (momenta ss)) by (eapply convert_some_fund; exact HG).
    symmetry.
    transitivity (csum (fun k => csum (fun j => overlap (BTuple saxes) (momenta ss) k j *
       w (ravel F (unfurl_slot ls ss (unravel ls s) (unravel ss j))) * Cconj (row N (aflat d) (b * nprod ls + s) k)) (nprod ss)) N).
    { apply csum_ext. intros k Hk. rewrite Ec by assumption. rewrite Mg' by exact Hk. rewrite momenta_size. rewrite <- csum_scal_r.
      apply csum_ext. intros j Hj.
      assert (X := from_shuffle_spec ls ss w (unravel ls s) (unravel ss j) Hls2 Us (unravel_in_shape ss j Hj)).
      rewrite Rs, (ravel_unravel ss j Hj) in X. rewrite X. fold F.
      unfold at3, row. cbn [ashape nth aflat]. reflexivity. }
    rewrite csum_swap. rewrite <- (isum_flat ss (fun k => Cconj (G (row N (aflat d) (b * nprod ls + s)) (ravel ss k)) *
       w (ravel F (unfurl_slot ls ss (unravel ls s) k)))).
    apply csum_ext. intros j Hj. rewrite ravel_unravel by exact Hj. rewrite Mg by (rewrite momenta_size; exact Hj).
    rewrite Cconj_csum, <- csum_scal_r. apply csum_ext. intros k Hk. rewrite Cconj_mult, overlap_conj by exact Ef. ring.
  Qed.
End BlochBasis.
