(** The file of projections, the operator of separate bands and the operator read back. *)
From Coq Require Import Reals Ascii String.
From Verif Require Import OperatorProofs2 ZLib Csum DFT NumPy Interp Index IndexProofs AxesProofs Spec Basis SpecBasis BasisProofs BasisProofs2
  BasisProofs3 BasisFacts Operator SpecOperator OperatorProofs LinAlg IndexSum Reduce Wavepacket SpecWavepacket WavepacketProofs WavepacketProofs2
  WavepacketProofs3 SpecMatrix Localize SpecLocalize LocalizeProofs LocalizeProofs2 LocalizeProofs3 Wannier SpecWannier WannierProofs WannierProofs2
  WannierProofs3 WannierProofs4.
Local Open Scope R_scope.
Local Open Scope C_scope.

(** The product of a converted vector with coefficients is the sum over the points. *)
Lemma convert_points same a b F (u v : nat -> C) : identity_test same -> bwf a -> bwf b -> explicit_orthonormal a ->
  bfund a = bfund b -> convert same a b = Some F ->
  csum (fun k => Cconj (u k) * F v k) (bsize b) =
  csum (fun x => Cconj (amplitude b u x) * amplitude a v x) (bfund b).
Proof.
  intros Hs Wa Wb Oa E HF.
  transitivity (csum (fun k => csum (fun j => csum (fun x => Cconj (u k) * Cconj (bstate b k x) * (v j * bstate a j x)) (bfund a)) (bsize a)) (bsize b)).
  - apply csum_ext. intros k Hk. rewrite (convert_orthonormal same Hs a b F Wa Wb Oa HF) by exact Hk.
    rewrite <- csum_scal_l. apply csum_ext. intros j Hj. unfold overlap. rewrite <- csum_scal_r, <- csum_scal_l.
    apply csum_ext. intros x Hx. ring.
  - rewrite <- E. transitivity (csum (fun x => csum (fun k => csum (fun j => Cconj (u k) * Cconj (bstate b k x) * (v j * bstate a j x)) (bsize a)) (bsize b)) (bfund a)).
    + transitivity (csum (fun k => csum (fun x => csum (fun j => Cconj (u k) * Cconj (bstate b k x) * (v j * bstate a j x)) (bsize a)) (bfund a)) (bsize b)).
      * apply csum_ext. intros k Hk. apply (csum_swap (fun j x => Cconj (u k) * Cconj (bstate b k x) * (v j * bstate a j x))).
      * apply (csum_swap (fun k x => csum (fun j => Cconj (u k) * Cconj (bstate b k x) * (v j * bstate a j x)) (bsize a))).
    + apply csum_ext. intros x Hx. unfold amplitude. rewrite Cconj_csum, csum_mult. apply csum_ext. intros k Hk.
      apply csum_ext. intros j Hj. rewrite Cconj_mult. reflexivity.
Qed.

Section Amn.
  Context (same : basis -> basis -> bool) (Hsame : identity_test same).
  Context (laxes saxes paxes : list basis).
  Context (Hw : bwf (BTuple saxes)) (He : explicit_orthonormal (BTuple saxes)).
  Context (Hl : length laxes = length saxes).
  Let ls := map bsize laxes.
  Let ss := map bfund saxes.
  Let N := bsize (BTuple saxes).
  Let ns := nprod ls.
  Context (Hwp : bwf (BTuple paxes)) (Hep : explicit_orthonormal (BTuple paxes)) (Hp : map bfund paxes = supercell ls ss).
  Context (nb np : nat) (data projections : ndarray).
  Context (Hd : nprod (ashape data) = (nb * ns * N)%nat) (Hpr : nprod (ashape projections) = (np * bsize (BTuple paxes))%nat).

  Let Hl2 : length ls = length ss := Hll laxes saxes Hl.

  Lemma states_wave s d G m x : (s < ns)%nat -> (m < nb)%nat -> in_shape x (supercell ls ss) ->
    convert same (BTuple saxes) (momenta ss) = Some G ->
    (forall l k, (l < nb)%nat -> (k < nprod ss)%nat -> row (nprod ss) (aflat d) l k = G (band_state ns N data s l) k) ->
    amplitude (BTuple (sampled ls ss (unravel ls s))) (row (nprod ss) (aflat d) m) (ravel (supercell ls ss) x) =
    bloch_wave ls saxes data s m (ravel (supercell ls ss) x).
  Proof.
    intros Hs Hm Hx HG Hr. assert (Hs' : in_shape (unravel ls s) ls) by (apply unravel_in_shape; exact Hs).
    destruct (sampled_shapes ls ss (unravel ls s) Hl2 Hs') as [S1 S2].
    rewrite <- S2 at 1. rewrite amplitude_isum by (rewrite S2; exact Hx). rewrite S1.
    unfold bloch_wave. fold ss. rewrite unravel_ravel by exact Hx. fold N ns.
    assert (Hc : in_shape (in_cell ss x) ss) by (apply (in_cell_in ss ls); assumption).
    rewrite <- (convert_amplitude same _ _ G Hsame Hw (momenta_wf ss (fund_shape_pos _ Hw)) He (momenta_ss_complete saxes Hw) HG)
      by (rewrite momenta_fund; apply ravel_lt; exact Hc).
    rewrite amplitude_momenta by exact Hc. rewrite <- isum_scal_l. apply isum_ext. intros k Hk.
    rewrite axis_states_sampled by assumption. rewrite Hr by (try assumption; apply ravel_lt; exact Hk). fold ns. ring.
  Qed.

  Lemma amn_spec : exists lines, build_amn_file same nb np laxes saxes (BTuple paxes) data projections = Some (nb, ns, np, lines) /\
    length lines = (np * nb * ns)%nat /\
    forall k m n, (k < ns)%nat -> (m < nb)%nat -> (n < np)%nat ->
      nth ((k * nb + m) * np + n) lines (0%nat, 0%nat, 0%nat, RtoC 0) =
      ((m + 1)%nat, (n + 1)%nat, (k + 1)%nat,
       csum (fun x => Cconj (bloch_wave ls saxes data k m x) *
         amplitude (BTuple paxes) (row (bsize (BTuple paxes)) (aflat projections) n) x) (nprod (supercell ls ss))).
  Proof.
    unfold build_amn_file. fold ls ns.
    set (g := fun i => match states_at_bloch_idx same nb laxes saxes data (Z.of_nat i) with
                       | Some (b, d) => inner_products same nb np (BTuple b) (BTuple paxes) d projections | None => None end).
    assert (Hg : forall s, (s < ns)%nat -> exists A, g s = Some A /\ forall m n, (m < nb)%nat ->
      A m n = csum (fun x => Cconj (bloch_wave ls saxes data s m x) *
         amplitude (BTuple paxes) (row (bsize (BTuple paxes)) (aflat projections) n) x) (nprod (supercell ls ss))).
    { intros s Hs. destruct (states_at_spec same laxes saxes Hl nb data s Hd Hs) as [d [G [E [HG [Sd Hr]]]]]. fold ls ss N in E, HG, Sd, Hr.
      assert (Hs' : in_shape (unravel ls s) ls) by (apply unravel_in_shape; exact Hs).
      destruct (sampled_shapes ls ss (unravel ls s) Hl2 Hs') as [S1 S2].
      assert (Hdd : nprod (ashape d) = (nb * nprod (map bfund saxes))%nat) by (rewrite Sd; cbn [nprod]; fold ss; lia).
      destruct (inner_products_spec same laxes saxes paxes Hl Hp np projections Hpr nb s d Hs Hdd) as [A [F [EA [HF VA]]]].
      fold ls ss in EA, HF, VA. exists A. split; [unfold g; rewrite E; exact EA|].
      intros m n Hm. rewrite VA.
      assert (Q := convert_points same _ _ F (row (nprod ss) (aflat d) m) (row (bsize (BTuple paxes)) (aflat projections) n) Hsame Hwp
        (sampled_wf ls ss _ Hl2 Hs' (fund_shape_pos _ Hw)) Hep
        ltac:(cbn [bfund]; rewrite S2, Hp; reflexivity) HF).
      cbn [bsize] in Q. rewrite S1 in Q. cbn [bsize]. rewrite Q. cbn [bfund]. rewrite S2.
      apply csum_ext. intros x Hx. f_equal. f_equal.
      assert (Hx' : in_shape (unravel (supercell ls ss) x) (supercell ls ss)) by (apply unravel_in_shape; exact Hx).
      assert (W := states_wave s d G m _ Hs Hm Hx' HG Hr). rewrite ravel_unravel in W by exact Hx. exact W. }
    destruct (WavepacketProofs3.all_some_map g (fun _ _ => RtoC 0%R) (seq 0 ns) 0%nat) as [r [Er [Lr Nr]]].
    { intros s Hs. apply in_seq in Hs. destruct (Hg s ltac:(lia)) as [A [EA _]]. exists A. exact EA. }
    rewrite Er. eexists. split; [reflexivity|].
    set (row_of := fun t n => ((t mod nb + 1)%nat, (n + 1)%nat, (t / nb + 1)%nat, nth (t / nb) r (fun _ _ => RtoC 0%R) (t mod nb) n)).
    assert (EQ : flat_map (fun k => flat_map (fun m => map (fun n =>
          ((m + 1)%nat, (n + 1)%nat, (k + 1)%nat, nth k r (fun _ _ => RtoC 0%R) m n)) (seq 0 np)) (seq 0 nb)) (seq 0 ns) =
        flat_map (fun t => map (row_of t) (seq 0 np)) (seq 0 (nb * ns))).
    { assert (Q : forall h s0, flat_map (fun k => flat_map (fun m => map (fun n =>
          ((m + 1)%nat, (n + 1)%nat, (k + 1)%nat, nth k r (fun _ _ => RtoC 0%R) m n)) (seq 0 np)) (seq 0 nb)) (seq s0 h) =
        flat_map (fun t => map (row_of t) (seq 0 np)) (seq (nb * s0) (nb * h))).
      { induction h as [|h IH]; intros s0; [rewrite Nat.mul_0_r; reflexivity|]. cbn [seq flat_map]. rewrite IH.
        replace (nb * S h)%nat with (nb + nb * h)%nat by lia. rewrite seq_app, flat_map_app.
        replace (nb * S s0)%nat with (nb * s0 + nb)%nat by lia. f_equal.
        assert (Q2 : forall j j0, (j0 + j <= nb)%nat -> flat_map (fun m => map (fun n =>
            ((m + 1)%nat, (n + 1)%nat, (s0 + 1)%nat, nth s0 r (fun _ _ => RtoC 0%R) m n)) (seq 0 np)) (seq j0 j) =
          flat_map (fun t => map (row_of t) (seq 0 np)) (seq (nb * s0 + j0) j)).
        { induction j as [|j IHj]; intros j0 Hj; [reflexivity|]. cbn [seq flat_map]. rewrite IHj by lia.
          replace (nb * s0 + S j0)%nat with (S (nb * s0 + j0)) by lia. f_equal. apply map_ext. intros n. unfold row_of.
          replace ((nb * s0 + j0) mod nb)%nat with j0 by (apply (Nat.mod_unique _ _ s0); lia).
          replace ((nb * s0 + j0) / nb)%nat with s0 by (apply (Nat.div_unique _ _ _ j0); lia). reflexivity. }
        rewrite (Q2 nb 0%nat) by lia. rewrite Nat.add_0_r. reflexivity. }
      rewrite Q. rewrite Nat.mul_0_r. reflexivity. }
    rewrite EQ. split; [rewrite rows_length; lia|]. intros k m n Hk Hm Hn.
    replace ((k * nb + m) * np + n)%nat with (np * (k * nb + m) + n)%nat by lia.
    rewrite (nth_rows row_of np) by (try exact Hn; nia). rewrite Nat.add_0_l. unfold row_of.
    replace ((k * nb + m) mod nb)%nat with m by (apply (Nat.mod_unique _ _ k); lia).
    replace ((k * nb + m) / nb)%nat with k by (apply (Nat.div_unique _ _ _ m); lia).
    destruct (Hg k Hk) as [A [EA VA]]. assert (Hn2 := Nr k ltac:(rewrite seq_length; exact Hk)).
    rewrite seq_nth in Hn2 by exact Hk. rewrite Nat.add_0_l, EA in Hn2. injection Hn2 as <-. rewrite VA by exact Hm. reflexivity.
  Qed.
End Amn.

(** ** The operator read from the result of Wannier90 *)
Lemma read_localized float nk nw U n file data : u_mat_file float nk nw U file -> (0 < nw)%nat -> (0 < nk)%nat ->
  nprod (ashape data) = (nw * nk * n)%nat ->
  exists op w, localization_operator_from_u_mat_file float file = Some op /\
    localized_wavepackets nw nw nk op data = Some w /\
    (forall s i k, (s < nk)%nat -> (i < nw)%nat -> (k < n)%nat ->
       band_state nk n w s i k = csum (fun l => U s l i * band_state nk n data s l k) nw) /\
    forall s, (s < nk)%nat -> unitary nw (U s) ->
      (forall l m, (l < nw)%nat -> (m < nw)%nat ->
         inner_product n (band_state nk n data s l) (band_state nk n data s m) = cdelta l m) ->
      forall i j, (i < nw)%nat -> (j < nw)%nat ->
        inner_product n (band_state nk n w s i) (band_state nk n w s j) = cdelta i j.
Proof.
  intros HU Hnw Hnk Hd. destruct (u_mat_spec float nk nw U file HU Hnw) as [op [Eop [Sop Vop]]].
  assert (Hop : nprod (ashape op) = (nk * nw * nw)%nat) by (rewrite Sop; cbn [nprod]; lia).
  destruct (localized_spec nw nw nk n op data Hop Hd ltac:(nia)) as [w [Ew [_ Sw]]].
  exists op, w. split; [exact Eop|]. split; [exact Ew|]. split.
  - intros s i k Hs Hi Hk. rewrite Sw by assumption. apply csum_ext. intros l Hl. rewrite Vop by assumption. reflexivity.
  - intros s Hs [_ Hu] Ho i j Hi Hj.
    apply (localized_orthonormal nw nw nk n op data Hop Hd ltac:(nia) w Ew s Hs); [|exact Ho|exact Hi|exact Hj].
    intros a b Ha Hb. rewrite <- (Cconj_cdelta a b), <- (Hu a b Ha Hb), Cconj_csum. apply csum_ext. intros x Hx.
    rewrite !Vop by assumption. rewrite Cconj_mult, Cconj_conj. reflexivity.
Qed.

(** ** Bands taken one at a time *)
Lemma individual_spec nb ns ops : length ops = nb -> (0 < nb)%nat -> (0 < ns)%nat ->
  Forall (fun o => ashape o = [ns]) ops ->
  exists op, individual_bands_operator nb ns ops = Some op /\ ashape op = [(ns * nb * nb)%nat] /\
    forall s i l, (s < ns)%nat -> (i < nb)%nat -> (l < nb)%nat ->
      at_sample nb nb op s i l = if (i =? l)%nat then aflat (nth i ops {| ashape := []; aflat := fun _ => 0 |}) s else 0.
Proof.
  intros Hlen Hnb Hns Hsh. destruct ops as [|o ops]; [cbn in Hlen; lia|].
  unfold individual_bands_operator. assert (Eo : ashape o = [ns]) by (inversion Hsh; assumption).
  rewrite Eo. cbn [nprod]. rewrite Nat.mul_1_r.
  replace (forallb (fun b => same_shape (ashape b) [ns]) (o :: ops)) with true.
  2:{ symmetry. apply forallb_forall. intros b Hb. rewrite (proj1 (Forall_forall _ _) Hsh b Hb). unfold same_shape. destruct list_eq_dec; [reflexivity|congruence]. }
  rewrite Hlen, Nat.eqb_refl. cbn [andb].
  eexists. split; [reflexivity|]. split; [cbn [ravel_array array3 ashape nprod]; f_equal; lia|].
  intros s i l Hs Hi Hll. unfold at_sample. cbn [ravel_array aflat]. rewrite array3_flat by assumption.
  destruct (Nat.eqb_spec i l) as [->|]; [|reflexivity].
  replace ((l * ns + s) / ns)%nat with l by (apply (Nat.div_unique _ _ _ s); lia).
  replace ((l * ns + s) mod ns)%nat with s by (apply (Nat.mod_unique _ _ l); lia).
  f_equal. apply nth_indep. rewrite Hlen. exact Hll.
Qed.

Lemma individual_localized nb ns n ops data : length ops = nb -> (0 < nb)%nat -> (0 < ns)%nat ->
  Forall (fun o => ashape o = [ns]) ops -> nprod (ashape data) = (nb * ns * n)%nat ->
  exists op w, individual_bands_operator nb ns ops = Some op /\ localized_wavepackets nb nb ns op data = Some w /\
    forall s i k, (s < ns)%nat -> (i < nb)%nat -> (k < n)%nat ->
      band_state ns n w s i k = aflat (nth i ops {| ashape := []; aflat := fun _ => 0 |}) s * band_state ns n data s i k.
Proof.
  intros Hlen Hnb Hns Hsh Hd. destruct (individual_spec nb ns ops Hlen Hnb Hns Hsh) as [op [Eop [Sop Vop]]].
  destruct (localized_spec nb nb ns n op data ltac:(rewrite Sop; cbn [nprod]; lia) Hd ltac:(nia)) as [w [Ew [_ Sw]]].
  exists op, w. split; [exact Eop|]. split; [exact Ew|]. intros s i k Hs Hi Hk. rewrite Sw by assumption.
  set (c := aflat (nth i ops {| ashape := []; aflat := fun _ => 0 |}) s).
  rewrite (csum_ext _ (fun l => c * band_state ns n data s l k * cdelta i l)).
  - rewrite (csum_delta_r (fun l => c * band_state ns n data s l k)) by exact Hi. reflexivity.
  - intros l Hll. rewrite Vop by assumption. unfold cdelta. destruct (Nat.eqb_spec i l) as [->|]; [fold c|]; ring.
Qed.
