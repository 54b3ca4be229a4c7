(** Overlaps of Bloch waves with projections and the localisation of one band. *)
From Coq Require Import Reals Lra.
From Verif Require Import ZLib Csum DFT NumPy Spec Index IndexProofs IndexSum Basis SpecBasis BasisProofs BasisProofs2 Operator SpecOperator OperatorProofs
  LinAlg Reduce StateList Wavepacket SpecWavepacket WavepacketProofs2 WavepacketProofs3 HamiltonianProofs3 SpecMatrix Polar Localize SpecLocalize LocalizeProofs LocalizeProofs2 LocalizeProofs4
  SpecBloch SpecTightCell TightCell Projections SpecProjections.
Local Open Scope R_scope.
Local Open Scope C_scope.

Section Overlaps.
  Context (same : basis -> basis -> bool) (Hsame : identity_test same).
  Context (laxes saxes paxes : list basis).
  Context (Hw : bwf (BTuple saxes)) (He : explicit_orthonormal (BTuple saxes)).
  Context (Hl : length laxes = length saxes).
  Notation ls := (map bsize laxes).
  Notation ss := (map bfund saxes).
  Notation N := (bsize (BTuple saxes)).
  Notation ns := (bsize (BTuple laxes)).
  Notation F := (supercell ls ss).
  Context (Hwp : bwf (BTuple paxes)) (Hep : explicit_orthonormal (BTuple paxes)) (Hp : map bfund paxes = F).

  Let Hl2 : length ls = length ss.
  Proof. rewrite !map_length. exact Hl. Qed.

  Lemma sampled_wave s v x : in_shape s ls -> in_shape x F ->
    amplitude (BTuple (sampled ls ss s)) v (ravel F x) =
    isqrt (nprod ls) * plane F (sample_freqs ls s) (map Z.of_nat x) * amplitude (momenta ss) v (ravel ss (in_cell ss x)).
  Proof using Hl.
    intros Hs Hx. destruct (sampled_shapes ls ss s Hl2 Hs) as [S1 S2].
    rewrite <- S2 at 1. rewrite amplitude_isum by (rewrite S2; exact Hx). rewrite S1.
    rewrite amplitude_momenta by (apply (in_cell_in ss ls); assumption).
    rewrite <- isum_scal_l. apply isum_ext. intros k Hk. rewrite axis_states_sampled by assumption. ring.
  Qed.

  (** Entries of the matrix of inner products at sample [s]. *)
  Lemma overlap_entry nb np data projections s b d A : nprod (ashape data) = (nb * ns * N)%nat -> (s < ns)%nat ->
    nprod (ashape projections) = (np * bsize (BTuple paxes))%nat ->
    states_at_bloch_idx same nb laxes saxes data (Z.of_nat s) = Some (b, d) ->
    inner_products same nb np (BTuple b) (BTuple paxes) d projections = Some A ->
    forall i j, (i < nb)%nat ->
      A i j = wave_overlap ls saxes data (i * ns + s) (amplitude (BTuple paxes) (row (bsize (BTuple paxes)) (aflat projections) j)).
  Proof using Hsame Hw He Hl Hwp Hep Hp.
    intros Hd Hs Hpr E1 E2 i j Hi.
    destruct (states_at_spec same laxes saxes Hl nb data s Hd Hs) as [d' [G [E1' [EG [Sh HG]]]]].
    rewrite E1 in E1'. injection E1' as -> <-.
    destruct (inner_products_spec same laxes saxes paxes Hl Hp np projections Hpr nb s d Hs) as [A' [Fc [E2' [EF HA]]]].
    { rewrite Sh. cbn. lia. }
    rewrite E2 in E2'. injection E2' as <-. rewrite HA.
    set (sb := sampled ls ss (unravel ls s)) in *. set (phi := row (bsize (BTuple paxes)) (aflat projections) j) in *.
    assert (Hss : Forall (fun m => (0 < m)%nat) ss) by (apply fund_shape_pos; exact Hw).
    assert (Hu : in_shape (unravel ls s) ls) by (apply unravel_in_shape; exact Hs).
    assert (Hsb : bwf (BTuple sb)) by (apply sampled_wf; assumption).
    destruct (sampled_shapes ls ss (unravel ls s) Hl2 Hu) as [S1 S2].
    assert (Bs : bsize (BTuple sb) = nprod ss) by (cbn [bsize]; unfold sb; rewrite S1; reflexivity).
    assert (Bp : bfund (BTuple paxes) = nprod F) by (cbn [bfund]; rewrite Hp; reflexivity).
    transitivity (csum (fun k => csum (fun t => Cconj (G (band_state ns N data s i) k * bstate (BTuple sb) k t) * amplitude (BTuple paxes) phi t) (nprod F)) (nprod ss)).
    { apply csum_ext. intros k Hk. rewrite HG by assumption.
      rewrite (convert_orthonormal same Hsame (BTuple paxes) (BTuple sb) Fc Hwp Hsb Hep EF) by (rewrite Bs; exact Hk).
      unfold overlap, amplitude. rewrite Bp. rewrite <- csum_scal_l.
      transitivity (csum (fun j0 => csum (fun t => Cconj (G (band_state ns N data s i) k) * (Cconj (bstate (BTuple sb) k t) * bstate (BTuple paxes) j0 t * phi j0)) (nprod F)) (bsize (BTuple paxes))).
      - apply csum_ext. intros j0 Hj0. rewrite <- csum_scal_r. rewrite <- csum_scal_l. reflexivity.
      - rewrite csum_swap. apply csum_ext. intros t Ht. rewrite <- csum_scal_l. apply csum_ext. intros j0 Hj0. rewrite Cconj_mult. ring. }
    rewrite csum_swap. unfold wave_overlap. apply csum_ext. intros t Ht. rewrite csum_scal_r. f_equal.
    rewrite <- Cconj_csum. f_equal. unfold bloch_wave.
    assert (Hx : in_shape (unravel F t) F) by (apply unravel_in_shape; exact Ht).
    assert (Em : ((i * ns + s) mod nprod ls = s)%nat) by exact (mod_add_small i (nprod ls) s Hs). rewrite Em.
    assert (Sw := sampled_wave (unravel ls s) (G (band_state ns N data s i)) (unravel F t) Hu Hx).
    rewrite ravel_unravel in Sw by exact Ht. unfold amplitude at 1 in Sw. fold sb in Sw. rewrite Bs in Sw. rewrite Sw.
    f_equal. apply (convert_amplitude same (BTuple saxes) (momenta ss) G); auto.
    - apply momenta_wf; exact Hss.
    - apply momenta_complete. exact Hss.
    - cbn [momenta bfund]. rewrite map_bfund_FundT. apply ravel_lt. apply (in_cell_in ss ls); assumption.
  Qed.
End Overlaps.

Lemma Cmod_conj z : Cmod (Cconj z) = Cmod z.
Proof. unfold Cmod, Cconj. cbn [fst snd]. f_equal. ring. Qed.

Lemma positive_ext n M M' : (forall i j, (i < n)%nat -> (j < n)%nat -> M i j = M' i j) ->
  positive_semidefinite n M -> positive_semidefinite n M'.
Proof.
  intros H P x. destruct (P x) as [t [T E]]. exists t. split; [exact T|]. rewrite <- E.
  apply csum_ext. intros i Hi. apply csum_ext. intros j Hj. rewrite H by assumption. reflexivity.
Qed.

Section Bands.
  Context (same : basis -> basis -> bool) (Hsame : identity_test same).
  Context (laxes saxes paxes : list basis).
  Context (Hw : bwf (BTuple saxes)) (He : explicit_orthonormal (BTuple saxes)).
  Context (Hl : length laxes = length saxes).
  Notation ls := (map bsize laxes).
  Notation ss := (map bfund saxes).
  Notation N := (bsize (BTuple saxes)).
  Notation ns := (bsize (BTuple laxes)).
  Notation F := (supercell ls ss).
  Context (Hwp : bwf (BTuple paxes)) (Hep : explicit_orthonormal (BTuple paxes)) (Hp : map bfund paxes = F).
  Context (svd : svd_fn) (Hsvd : svd_ok svd).

  Lemma bands_overlap np nb data projections : nprod (ashape projections) = (np * bsize (BTuple paxes))%nat ->
    nprod (ashape data) = (nb * ns * N)%nat -> (0 < nb * ns)%nat ->
    exists op w, localization_operator_for_projections same svd nb np laxes saxes data (BTuple paxes) projections = Some op /\
      localized_wavepackets np nb ns op data = Some w /\
      forall s, (s < ns)%nat ->
        let M p q := wave_overlap ls saxes w (p * ns + s) (amplitude (BTuple paxes) (row (bsize (BTuple paxes)) (aflat projections) q)) in
        (forall p q, (p < np)%nat -> (q < np)%nat -> M p q = Cconj (M q p)) /\ positive_semidefinite np M.
  Proof using Hsame Hw He Hl Hwp Hep Hp Hsvd.
    intros Hpr Hd Hpos.
    destruct (projections_spec same laxes saxes paxes Hl Hp np projections Hpr svd nb data Hd) as [op [Eo [Sh _]]].
    destruct (projections_overlap same Hsame laxes saxes paxes Hw He Hl Hp np projections Hpr svd Hsvd nb data Hd Hpos op Eo) as [w [Ew HM]].
    exists op, w. split; [exact Eo|]. split; [exact Ew|]. intros s Hs M.
    destruct (HM s Hs) as [b [d [M0 [E1 [E2 [H0 P0]]]]]].
    assert (Hsw : nprod (ashape w) = (np * ns * N)%nat).
    { destruct (localized_spec np nb ns N op data) as [w' [Ew' [Shw _]]]; try assumption; [rewrite Sh; cbn; lia|].
      rewrite Ew in Ew'. injection Ew' as <-. rewrite Shw. cbn. lia. }
    assert (EM : forall p q, (p < np)%nat -> (q < np)%nat -> M0 p q = M p q).
    { intros p q Hp0 Hq. exact (overlap_entry same Hsame laxes saxes paxes Hw He Hl Hwp Hep Hp np np w projections s b d M0 Hsw Hs Hpr E1 E2 p q Hp0). }
    split; [|exact (positive_ext np M0 M EM P0)].
    intros p q Hp0 Hq. rewrite <- !EM by assumption. apply H0; assumption.
  Qed.

  Lemma wave_scale n d w s z x : (s < nprod ls)%nat -> n = N -> (forall k, (k < n)%nat -> aflat w (s * n + k)%nat = z * aflat d (s * n + k)%nat) ->
    bloch_wave ls saxes w s x = z * bloch_wave ls saxes d s x.
  Proof using.
    intros Hs -> H. unfold bloch_wave, amplitude, row.
    transitivity (isqrt (nprod ls) * plane F (sample_freqs ls (unravel ls (s mod nprod ls))) (map Z.of_nat x) *
      csum (fun k => z * (aflat d (s * N + k)%nat * bstate (BTuple saxes) k (ravel ss (in_cell ss x)))) N).
    - f_equal. apply csum_ext. intros k Hk. rewrite H by exact Hk. ring.
    - rewrite csum_scal_l. ring.
  Qed.

  Lemma overlap_scale d w s z f : (s < nprod ls)%nat -> (forall k, (k < N)%nat -> aflat w (s * N + k)%nat = z * aflat d (s * N + k)%nat) ->
    wave_overlap ls saxes w s f = Cconj z * wave_overlap ls saxes d s f.
  Proof using.
    intros Hs H. unfold wave_overlap. rewrite <- csum_scal_l. apply csum_ext. intros t Ht.
    rewrite (wave_scale N d w s z) by auto. rewrite Cconj_mult. ring.
  Qed.

  Lemma one_by_one A u vd (sv : nat -> R) : (0 <= sv 0%nat)%R -> orthonormal_columns 1 1 u -> orthonormal_rows 1 1 vd ->
    A = u 0%nat 0%nat * RtoC (sv 0%nat) * vd 0%nat 0%nat ->
    let z := u 0%nat 0%nat * vd 0%nat 0%nat in Cmod z = 1%R /\ Cconj z * A = RtoC (Cmod A).
  Proof using.
    intros H0 Hu Hv EA z. assert (U := Hu 0%nat 0%nat Nat.lt_0_1 Nat.lt_0_1). assert (V := Hv 0%nat 0%nat Nat.lt_0_1 Nat.lt_0_1).
    cbn [csum] in U, V. rewrite cdelta_refl in U, V. rewrite Cplus_0_l in U, V.
    assert (Z1 : Cconj z * z = 1) by (unfold z; rewrite Cconj_mult; transitivity ((Cconj (u 0%nat 0%nat) * u 0%nat 0%nat) * (vd 0%nat 0%nat * Cconj (vd 0%nat 0%nat))); [ring|rewrite U, V; ring]).
    assert (Zm : Cmod z = 1%R).
    { rewrite Cconj_mult_self, Cnorm2_Cmod in Z1. apply RtoC_inj in Z1. pose proof (Cmod_ge_0 z). nra. }
    assert (EC : Cconj z * A = RtoC (sv 0%nat)).
    { rewrite EA. transitivity (RtoC (sv 0%nat) * (Cconj z * z)); [unfold z; ring|rewrite Z1; ring]. }
    split; [exact Zm|]. rewrite EC. f_equal. transitivity (Cmod (Cconj z * A)).
    - rewrite EC, Cmod_R, Rabs_pos_eq by exact H0. reflexivity.
    - rewrite Cmod_mult, Cmod_conj, Zm. ring.
  Qed.

  (** One band: phases only, after which the overlaps with the projection are real and not
      negative. *)
  Lemma single_band d p : vbasis p = BTuple paxes -> nprod (ashape (vdata p)) = bsize (BTuple paxes) -> nprod (ashape d) = (ns * N)%nat -> (0 < ns)%nat ->
    exists w z, localize_single_band_projection same svd laxes saxes d p = Some w /\ phases_of ns N d w z /\
      forall s, (s < ns)%nat ->
        Cconj (z s) * wave_overlap ls saxes d s (amplitude (BTuple paxes) (aflat (vdata p))) =
          RtoC (Cmod (wave_overlap ls saxes d s (amplitude (BTuple paxes) (aflat (vdata p))))).
  Proof using Hsame Hw He Hl Hwp Hep Hp Hsvd.
    intros Eb Hv Hd Hns. unfold localize_single_band_projection, as_wavepacket_list, as_state_vector_list.
    cbn [forallb length]. unfold same_shape. destruct (list_eq_dec Nat.eq_dec (ashape d) (ashape d)); [|congruence].
    destruct (list_eq_dec Nat.eq_dec (ashape (vdata p)) (ashape (vdata p))); [|congruence]. cbn [andb slist sbasis sdata].
    rewrite Eb, Hv, Hd. set (d1 := {| ashape := [(1 * (ns * N))%nat]; aflat := _ |}). set (p1 := {| ashape := [(1 * bsize (BTuple paxes))%nat]; aflat := _ |}).
    change (bsize (BFund 1)) with 1%nat.
    assert (Hd1 : nprod (ashape d1) = (1 * ns * N)%nat) by (cbn [d1 ashape nprod]; lia).
    assert (Hp1 : nprod (ashape p1) = (1 * bsize (BTuple paxes))%nat) by (cbn [p1 ashape nprod]; lia).
    assert (Pd : forall k, (k < ns * N)%nat -> aflat d1 k = aflat d k).
    { intros k Hk. cbn [d1 aflat]. rewrite Nat.div_small, Nat.mod_small by exact Hk. reflexivity. }
    assert (Pp : forall k, (k < bsize (BTuple paxes))%nat -> aflat p1 k = aflat (vdata p) k).
    { intros k Hk. cbn [p1 aflat]. rewrite Nat.div_small, Nat.mod_small by exact Hk. reflexivity. }
    clearbody d1 p1.
    destruct (projections_spec same laxes saxes paxes Hl Hp 1 p1 Hp1 svd 1 d1 Hd1) as [op [Eo [Sh HO]]]. rewrite Eo.
    destruct (localized_spec 1 1 ns N op d1) as [w [Ew [Shw HW]]]; [rewrite Sh; cbn; lia|exact Hd1|lia|]. rewrite Ew.
    unfold get_wavepacket. change (bsize (BFund 1)) with 1%nat. cbn [Nat.eqb]. rewrite Nat.mod_1_r, Nat.eqb_refl.
    change (python_index 1 0) with (Some 0%nat). rewrite Nat.div_1_r, Shw. cbn [nprod]. 
    exists (select_row {| ashape := [1%nat; (1 * ns * N * 1)%nat]; aflat := aflat w |} 0), (fun s => at_sample 1 1 op s 0%nat 0%nat).
    split; [reflexivity|].
    assert (K : forall s, (s < ns)%nat ->
      Cmod (at_sample 1 1 op s 0%nat 0%nat) = 1%R /\
      Cconj (at_sample 1 1 op s 0%nat 0%nat) * wave_overlap ls saxes d s (amplitude (BTuple paxes) (aflat (vdata p))) =
          RtoC (Cmod (wave_overlap ls saxes d s (amplitude (BTuple paxes) (aflat (vdata p)))))).
    { intros s Hs. destruct (HO s Hs) as [ds [A [E1 [E2 HP]]]].
      assert (HA := overlap_entry same Hsame laxes saxes paxes Hw He Hl Hwp Hep Hp 1 1 d1 p1 s _ _ A Hd1 Hs Hp1 E1 E2 0%nat 0%nat Nat.lt_0_1).
      assert (EA : A 0%nat 0%nat = wave_overlap ls saxes d s (amplitude (BTuple paxes) (aflat (vdata p)))).
      { rewrite HA. unfold wave_overlap. apply csum_ext. intros t Ht. f_equal.
        - f_equal. rewrite Nat.mul_0_l, Nat.add_0_l. transitivity (1 * bloch_wave ls saxes d s (unravel F t)); [|ring].
          apply (wave_scale N); auto. intros k Hk. rewrite Pd by nia. ring.
        - unfold amplitude, row. apply csum_ext. intros k Hk. rewrite Nat.mul_0_l, Nat.add_0_l, Pp by exact Hk. reflexivity. }
      rewrite (HP 0%nat 0%nat Nat.lt_0_1 Nat.lt_0_1), <- EA. assert (Q := Hsvd 1%nat 1%nat A). destruct (svd 1%nat 1%nat A) as [[u sv] vd].
      cbn [Nat.min fst snd] in *. destruct Q as [Q1 [Q2 [Q3 Q4]]].
      assert (E0 := Q4 0%nat 0%nat Nat.lt_0_1 Nat.lt_0_1). cbn [csum] in E0. rewrite Cplus_0_l in E0.
      unfold polar. cbn [csum]. rewrite Cplus_0_l.
      exact (one_by_one (A 0%nat 0%nat) u vd sv (Q1 0%nat Nat.lt_0_1) Q2 Q3 E0). }
    split; [|intros s Hs; exact (proj2 (K s Hs))].
    split; [unfold select_row; cbn [ashape tl]; f_equal; lia|]. intros s Hs. split; [exact (proj1 (K s Hs))|]. intros k Hk.
    assert (R0 := HW 0%nat s k Nat.lt_0_1 Hs Hk). cbn [csum] in R0. rewrite Cplus_0_l in R0. unfold band_state, row in R0. rewrite Nat.mul_0_l, Nat.add_0_l in R0.
    unfold select_row. cbn [aflat]. rewrite Nat.mul_0_l, Nat.add_0_l. rewrite R0, Pd by nia. reflexivity.
  Qed.
End Bands.
