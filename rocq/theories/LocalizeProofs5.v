(** Wannier states and their Hamiltonian (C62, C64). *)
From Coq Require Import Reals Psatz.
From Verif Require Import ZLib Csum DFT NumPy Interp Index IndexProofs AxesProofs Spec InterpProofs Basis SpecBasis BasisProofs BasisProofs2
  BasisProofs3 BasisFacts Operator SpecOperator OperatorProofs Reduce ReduceProofs IndexSum Wavepacket SpecWavepacket WavepacketProofs
  WavepacketProofs2 WavepacketProofs3 WavepacketFacts SpecMatrix LinAlg Localize SpecLocalize LocalizeProofs LocalizeProofs3 LocalizeProofs4.
Local Open Scope R_scope.
Local Open Scope C_scope.

(** ** Translations *)

(** Point [x] moved by [R] cells with [ks] points each, modulo the shape [F]. *)
Lemma roll_moved F : forall ks R x, length ks = length F -> length R = length F -> length x = length F ->
  roll_indices F (map2 (fun n o => (- (Z.of_nat n * Z.of_nat o))%Z) ks R) x = moved F ks R x.
Proof.
  induction F as [|n F IH]; intros [|k ks] [|r R] [|a x] H1 H2 H3; cbn in H1, H2, H3; try lia; [reflexivity|].
  cbn [map2 roll_indices moved]. rewrite IH by lia. f_equal.
  rewrite Z.sub_opp_r, <- Nat2Z.inj_mul, <- Nat2Z.inj_add, <- Nat2Z.inj_mod, Nat2Z.id. reflexivity.
Qed.

Lemma moved_in_shape F : forall ks R x, length ks = length F -> length R = length F -> in_shape x F -> in_shape (moved F ks R x) F.
Proof.
  induction F as [|n F IH]; intros [|k ks] [|r R] x H1 H2 H; cbn in H1, H2; try lia; inversion H as [|a ? x' ? Ha Hx]; subst; cbn [moved]; [constructor|].
  constructor; [apply Nat.mod_upper_bound; lia|]. apply IH; auto; lia.
Qed.

Lemma supercell_length ls : forall ss, length ls = length ss -> length (supercell ls ss) = length ls.
Proof. induction ls as [|n ls IH]; intros [|m ss] H; try discriminate; [reflexivity|]. cbn in *. rewrite IH by lia. reflexivity. Qed.

Lemma plane_moved ls : forall ss f R x, Forall (fun n => (0 < n)%nat) ls -> Forall (fun n => (0 < n)%nat) ss ->
  length ls = length ss -> length f = length ls -> length R = length ls -> length x = length ls ->
  plane (supercell ls ss) f (map Z.of_nat (moved (supercell ls ss) ss R x)) =
  plane ls f (map Z.of_nat R) * plane (supercell ls ss) f (map Z.of_nat x).
Proof.
  induction ls as [|n ls IH]; intros [|m ss] [|f1 f] [|r R] [|a x] Hl Hs H1 H2 H3 H4; cbn in H1, H2, H3, H4; try lia.
  - cbn. ring.
  - inversion Hl; subst. inversion Hs; subst. cbn [supercell moved map plane]. rewrite (IH ss f R x) by (auto; lia).
    transitivity (omega n (f1 * Z.of_nat r) * omega (n * m) (f1 * Z.of_nat a) *
      (plane ls f (map Z.of_nat R) * plane (supercell ls ss) f (map Z.of_nat x))); [|ring].
    f_equal. rewrite <- (omega_scale n m) by assumption. rewrite <- omega_add. apply omega_cong; [nia|].
    destruct (Zcong_mod (Z.of_nat (n * m)) (Z.of_nat (a + m * r)) ltac:(nia)) as [q Hq]. rewrite Nat2Z.inj_mod, Hq.
    exists (f1 * q)%Z. rewrite Nat2Z.inj_add, !Nat2Z.inj_mul. ring.
Qed.

Lemma in_cell_moved ls : forall ss R x, Forall (fun n => (0 < n)%nat) ls -> Forall (fun n => (0 < n)%nat) ss ->
  length ls = length ss -> length R = length ls -> length x = length ls ->
  in_cell ss (moved (supercell ls ss) ss R x) = in_cell ss x.
Proof.
  induction ls as [|n ls IH]; intros [|m ss] [|r R] [|a x] Hl Hs H1 H3 H4; cbn in H1, H3, H4; try lia; [reflexivity|].
  inversion Hl; subst. inversion Hs; subst. cbn [supercell moved in_cell]. rewrite (IH ss R x) by (auto; lia). f_equal.
  rewrite (Nat.mul_comm n m), Nat.mod_mul_r by lia.
  rewrite (Nat.mul_comm m (_ mod n)), Nat.mod_add, Nat.mod_mod, (Nat.mul_comm m r), Nat.mod_add by lia. reflexivity.
Qed.

(** ** Orthogonality of the phases *)
Lemma sample_freqs_length ls : forall s, length s = length ls -> length (sample_freqs ls s) = length ls.
Proof. induction ls as [|n ls IH]; intros [|i s] H; cbn in *; try lia. rewrite IH by lia. reflexivity. Qed.

Lemma plane_orth ls : Forall (fun n => (0 < n)%nat) ls -> forall R R', in_shape R ls -> in_shape R' ls ->
  isum ls (fun s => Cconj (plane ls (sample_freqs ls s) (map Z.of_nat R)) * plane ls (sample_freqs ls s) (map Z.of_nat R')) =
  RtoC (INR (nprod ls)) * idelta R R'.
Proof.
  induction 1 as [|n ls Hn Hp IH]; intros R R' HR HR'; inversion HR as [|r ? R1 ? Hr HR1]; subst; inversion HR' as [|r' ? R1' ? Hr' HR1']; subst.
  - cbn. rewrite Cconj_1. ring.
  - cbn [isum sample_freqs map plane nprod idelta].
    rewrite (csum_ext _ (fun i => omega n (Z.of_nat i * (Z.of_nat r' - Z.of_nat r)) * (RtoC (INR (nprod ls)) * idelta R1 R1'))).
    + rewrite csum_scal_r.
      assert (E : csum (fun i => omega n (Z.of_nat i * (Z.of_nat r' - Z.of_nat r))) n = RtoC (INR n) * cdelta r r').
      { rewrite (csum_ext _ (fun i => omega n ((Z.of_nat r' - Z.of_nat r) * Z.of_nat i))) by (intros i _; f_equal; ring).
        rewrite cdelta_sym. apply omega_orth; assumption. }
      rewrite E, mult_INR, RtoC_mult. ring.
    + intros i Hi. rewrite <- (IH R1 R1' HR1 HR1'), <- isum_scal_l. apply isum_ext. intros s Hs.
      rewrite Cconj_mult, omega_conj.
      transitivity (omega n (- (freq n i * Z.of_nat r)) * omega n (freq n i * Z.of_nat r') *
        (Cconj (plane ls (sample_freqs ls s) (map Z.of_nat R1)) * plane ls (sample_freqs ls s) (map Z.of_nat R1'))); [ring|].
      f_equal. rewrite <- omega_add. apply omega_cong; [exact Hn|].
      destruct (freq_cong n i Hi) as [q Hq]. rewrite Hq. exists (q * (Z.of_nat r' - Z.of_nat r))%Z. ring.
Qed.

(** ** Values of states in a complete orthonormal basis keep inner products *)
Lemma amplitude_inner b u v : orthonormal b ->
  inner_product (bfund b) (amplitude b u) (amplitude b v) = inner_product (bsize b) u v.
Proof.
  intros Ho. unfold inner_product, amplitude.
  rewrite (csum_ext _ (fun x => csum (fun k => csum (fun l => Cconj (u k) * v l * (Cconj (bstate b k x) * bstate b l x)) (bsize b)) (bsize b))).
  - rewrite csum_swap. apply csum_ext. intros k Hk. rewrite csum_swap.
    rewrite (csum_ext _ (fun l => Cconj (u k) * v l * cdelta k l)).
    + apply (csum_delta_r (fun l => Cconj (u k) * v l)). exact Hk.
    + intros l Hl. rewrite csum_scal_l. f_equal. apply (Ho k l Hk Hl).
  - intros x _. rewrite Cconj_csum, csum_mult. apply csum_ext. intros k _. apply csum_ext. intros l _. rewrite Cconj_mult. ring.
Qed.

Lemma unravel_length shape : forall i, length (unravel shape i) = length shape.
Proof. induction shape as [|n shape IH]; intros i; cbn [unravel length]; [reflexivity|]. rewrite IH. reflexivity. Qed.

Lemma supercell_pos ls : forall ss, Forall (fun n => (0 < n)%nat) ls -> Forall (fun n => (0 < n)%nat) ss -> length ls = length ss ->
  Forall (fun n => (0 < n)%nat) (supercell ls ss).
Proof.
  induction ls as [|n ls IH]; intros [|m ss] H H' L; try discriminate; cbn [supercell]; constructor; inversion H; inversion H'; subst; [nia|].
  apply IH; auto.
Qed.

Section Wannier.
  Context (same : basis -> basis -> bool) (Hsame : identity_test same).
  Context (ls : list nat) (saxes : list basis).
  Context (Hls : Forall (fun n => (0 < n)%nat) ls) (Hw : bwf (BTuple saxes)) (He : explicit_orthonormal (BTuple saxes)).
  Context (Hlen : length ls = length saxes).
  Let ss := map bfund saxes.
  Let N := bsize (BTuple saxes).
  Let ns := nprod ls.
  Let F := supercell ls ss.
  Context (nw nb : nat) (op data : ndarray).
  Context (Hnw : (0 < nw)%nat) (Hnb : (0 < nb)%nat).
  Context (Hop : nprod (ashape op) = (ns * nw * nb)%nat) (Hd : nprod (ashape data) = (nb * ns * N)%nat).

  Lemma wns_pos : (0 < ns)%nat. Proof using Hls. apply nprod_pos. exact Hls. Qed.
  Lemma wss_len : length ls = length ss. Proof using Hlen. unfold ss. rewrite map_length. exact Hlen. Qed.
  Lemma wss_pos : Forall (fun n => (0 < n)%nat) ss. Proof using Hw. apply fund_shape_pos. exact Hw. Qed.
  Lemma wF_pos : Forall (fun n => (0 < n)%nat) F.
  Proof using Hls Hw Hlen. apply supercell_pos; [exact Hls|exact wss_pos|exact wss_len]. Qed.

  Lemma wannier_spec : exists loc out,
    localized_wavepackets nw nb ns op data = Some loc /\
    wannier_states same nw nb (map BFundT ls) saxes op data = Some out /\
    ashape out = [(nw * ns * nprod F)%nat] /\
    forall i R x, (i < nw)%nat -> in_shape R ls -> in_shape x F ->
      row (nprod F) (aflat out) (i * ns + ravel ls R) (ravel F x) =
      RtoC (/ INR ns) * csum (fun s =>
        plane F (sample_freqs ls (unravel ls s)) (map Z.of_nat (moved F (map bsize saxes) R x)) *
        amplitude (BTuple saxes) (band_state ns N loc s i) (ravel ss (in_cell ss (moved F (map bsize saxes) R x)))) ns.
  Proof.
    assert (Hns := wns_pos). unfold wannier_states. fold (momenta ls). rewrite momenta_size. fold ns.
    destruct (localized_spec nw nb ns N op data Hop Hd ltac:(nia)) as [loc [El [Sl _]]]. rewrite El.
    rewrite map_bfund_FundT, map_bsize_FundT, map2_supercell. fold ss. fold F.
    assert (Hu : forall w, (w < nw)%nat -> exists u,
      unfurl_wavepacket same (map BFundT ls) saxes (select_row {| ashape := [nw; (nprod (ashape loc) / nw)%nat]; aflat := aflat loc |} w) = Some u /\
      forall y, in_shape y F -> amplitude (momenta F) (aflat u) (ravel F y) =
        RtoC (/ INR ns) * csum (fun s => plane F (sample_freqs ls (unravel ls s)) (map Z.of_nat y) *
          amplitude (BTuple saxes) (band_state ns N loc s w) (ravel ss (in_cell ss y))) ns).
    { intros w Hww.
      assert (Ed : (nprod (ashape loc) / nw)%nat = (ns * N)%nat).
      { rewrite Sl. cbn [nprod]. replace (nw * ns * N * 1)%nat with (ns * N * nw)%nat by ring. apply Nat.div_mul. lia. }
      rewrite Ed. set (sel := select_row _ w).
      assert (Hsel : nprod (ashape sel) = (nprod ls * bsize (BTuple saxes))%nat) by (unfold sel, select_row; cbn [ashape tl nprod]; fold ns N; lia).
      destruct (unfurl_wavepacket_amplitude same Hsame ls saxes Hls Hw He Hlen sel Hsel) as [u [Eu [_ Au]]].
      exists u. split; [exact Eu|]. intros y Hy. fold ss F in Au. rewrite (Au y Hy). fold ns. f_equal. apply csum_ext. intros s Hs. f_equal.
      apply amplitude_ext. intros k Hk. unfold row, band_state, row, sel, select_row. cbn [aflat ashape tl nprod]. f_equal. fold N. ring. }
    unfold unfurl_wavepacket_list, wavepacket_list_into_iter. cbn [bsize].
    destruct (Nat.eqb_spec nw 0) as [E0|_]; [lia|].
    assert (Em : (nprod (ashape loc) mod nw)%nat = 0%nat).
    { rewrite Sl. cbn [nprod]. replace (nw * ns * N * 1)%nat with (ns * N * nw)%nat by ring. apply Nat.mod_mul. lia. }
    rewrite Em, Nat.eqb_refl. rewrite map_map.
    destruct (all_some_map (fun w => unfurl_wavepacket same (map BFundT ls) saxes
        (select_row {| ashape := [nw; (nprod (ashape loc) / nw)%nat]; aflat := aflat loc |} w))
        {| ashape := []; aflat := fun _ => RtoC 0%R |} (seq 0 nw) 0%nat) as [st [Est [Lst Nst]]].
    { intros w Hww. apply in_seq in Hww. destruct (Hu w ltac:(lia)) as [u [Eu _]]. exists u. exact Eu. }
    rewrite Est. rewrite seq_length in Lst, Nst.
    assert (Hex : explicit_orthonormal (momenta F)) by (apply full_explicit_orthonormal, momenta_full).
    destruct (convert_position same (map BFundT F) Hsame (momenta_wf F wF_pos) Hex) as [P [EP VP]].
    rewrite as_fundamental_position_tuple, map_bfund_FundT in EP. rewrite map_bfund_FundT in VP. rewrite EP.
    exists loc. eexists. split; [reflexivity|]. split; [reflexivity|].
    split; [cbn [ravel_array array3 ashape nprod]; apply (f_equal (fun t => [t])); unfold ns; ring|].
    intros i R x Hi HR Hx. unfold row at 1. cbn [ravel_array aflat].
    assert (LR := ravel_lt _ _ HR). assert (Lx := ravel_lt _ _ Hx).
    rewrite array3_flat by assumption.
    unfold flatten. rewrite !unravel_ravel by assumption. unfold roll_axes.
    assert (LF : length F = length ls) by (apply supercell_length, wss_len).
    rewrite roll_moved.
    2:{ rewrite map_length, LF. symmetry; exact Hlen. }
    2:{ rewrite LF. eapply in_shape_length; eassumption. }
    2:{ eapply in_shape_length; eassumption. }
    assert (Hmv : in_shape (moved F (map bsize saxes) R x) F).
    { apply moved_in_shape; [rewrite map_length, LF; symmetry; exact Hlen|rewrite LF; eapply in_shape_length; eassumption|exact Hx]. }
    unfold stack. rewrite VP by (apply ravel_lt; exact Hmv).
    specialize (Nst i Hi). rewrite seq_nth in Nst by exact Hi. cbn [Nat.add] in Nst.
    destruct (Hu i Hi) as [u [Eu Au]]. rewrite Eu in Nst. injection Nst as <-. apply Au. exact Hmv.
  Qed.

  (** From here on every state axis has as many states as points. *)
  Context (Hfull : map bsize saxes = ss).

  Lemma wannier_bloch : exists loc st out,
    localized_wavepackets nw nb ns op data = Some loc /\
    get_bloch_states same (BFund nw) (map BFundT ls) saxes loc = Some st /\
    wannier_states same nw nb (map BFundT ls) saxes op data = Some out /\
    forall i R x, (i < nw)%nat -> in_shape R ls -> (x < nprod F)%nat ->
      row (nprod F) (aflat out) (i * ns + ravel ls R) x =
      isqrt ns * csum (fun s => plane ls (sample_freqs ls (unravel ls s)) (map Z.of_nat R) *
        amplitude (momenta F) (row (nprod F) (aflat st) (i * ns + s)) x) ns.
  Proof.
    destruct wannier_spec as [loc [out [El [Eo [_ V]]]]].
    destruct (localized_spec nw nb ns N op data Hop Hd ltac:(assert (H := wns_pos); nia)) as [loc' [El' [Sl _]]].
    rewrite El in El'. injection El' as <-.
    assert (Hloc : nprod (ashape loc) = (bsize (BFund nw) * nprod ls * bsize (BTuple saxes))%nat) by (rewrite Sl; cbn [nprod bsize]; fold ns; unfold N; cbn [bsize]; lia).
    destruct (bloch_states_spec same Hsame (BFund nw) ls saxes Hls Hw He Hlen loc Hloc) as [st [G [Es _]]].
    exists loc, st, out. split; [exact El|]. split; [exact Es|]. split; [exact Eo|].
    intros i R x Hi HR Hx. assert (Hxs := unravel_in_shape F x Hx).
    rewrite <- (ravel_unravel F x) at 1 by exact Hx. rewrite (V i R _ Hi HR Hxs).
    rewrite <- !csum_scal_l. apply csum_ext. intros s Hs.
    assert (B := bloch_states_amplitude same Hsame (BFund nw) ls saxes Hls Hw He Hlen loc st Hloc Es i s (unravel F x) Hi Hs Hxs).
    fold ss in B. fold F in B. rewrite ravel_unravel in B by exact Hx. fold ns in B. rewrite B.
    assert (LF : length F = length ls) by (apply supercell_length, wss_len).
    assert (LR : length R = length ls) by (eapply in_shape_length; eassumption).
    assert (Lx : length (unravel F x) = length ls) by (rewrite unravel_length; exact LF).
    rewrite Hfull. unfold F at 1 2. rewrite plane_moved; try assumption;
      [|exact wss_pos|exact wss_len|apply sample_freqs_length, unravel_length].
    unfold F at 2. rewrite in_cell_moved; try assumption; [|exact wss_pos|exact wss_len].
    fold F. rewrite inv_isqrt by exact wns_pos. unfold band_state, N. ring.
  Qed.

  Lemma csum_plane_orth R R' : in_shape R ls -> in_shape R' ls ->
    csum (fun s => Cconj (plane ls (sample_freqs ls (unravel ls s)) (map Z.of_nat R)) *
                   plane ls (sample_freqs ls (unravel ls s)) (map Z.of_nat R')) ns = RtoC (INR ns) * cdelta (ravel ls R) (ravel ls R').
  Proof using Hls.
    intros HR HR'. unfold ns. rewrite (isum_flat ls (fun s => Cconj (plane ls (sample_freqs ls s) (map Z.of_nat R)) *
                   plane ls (sample_freqs ls s) (map Z.of_nat R'))). rewrite plane_orth by assumption. f_equal.
    destruct (list_eq_dec Nat.eq_dec R R') as [->|Hn]; [rewrite idelta_refl, cdelta_refl; reflexivity|].
    rewrite idelta_neq by exact Hn. rewrite cdelta_neq; [reflexivity|]. intros E. apply Hn.
    rewrite <- (unravel_ravel ls R HR), E. apply unravel_ravel. exact HR'.
  Qed.

  (** Overlap of two sums of Bloch states. *)
  Lemma bloch_sum_inner loc st (A B : nat -> C) i j : nprod (ashape loc) = (nw * ns * N)%nat ->
    get_bloch_states same (BFund nw) (map BFundT ls) saxes loc = Some st -> (i < nw)%nat -> (j < nw)%nat ->
    inner_product (nprod F)
      (fun x => csum (fun s => A s * amplitude (momenta F) (row (nprod F) (aflat st) (i * ns + s)) x) ns)
      (fun x => csum (fun s => B s * amplitude (momenta F) (row (nprod F) (aflat st) (j * ns + s)) x) ns) =
    csum (fun s => Cconj (A s) * B s * inner_product N (band_state ns N loc s i) (band_state ns N loc s j)) ns.
  Proof.
    intros Hloc Es Hi Hj. unfold inner_product at 1.
    rewrite (csum_ext _ (fun x => csum (fun s => csum (fun t => Cconj (A s) * B t *
      (Cconj (amplitude (momenta F) (row (nprod F) (aflat st) (i * ns + s)) x) *
       amplitude (momenta F) (row (nprod F) (aflat st) (j * ns + t)) x)) ns) ns)).
    - rewrite csum_swap. apply csum_ext. intros s Hs. rewrite csum_swap.
      rewrite (csum_ext _ (fun t => Cconj (A s) * B t * inner_product N (band_state ns N loc s i) (band_state ns N loc t j) * cdelta s t)).
      + apply (csum_delta_r (fun t => Cconj (A s) * B t * inner_product N (band_state ns N loc s i) (band_state ns N loc t j))). exact Hs.
      + intros t Ht. rewrite csum_scal_l.
        assert (Ho : orthonormal (momenta F)) by (apply full_bases; [apply momenta_wf, wF_pos|apply momenta_full]).
        assert (I := amplitude_inner (momenta F) (row (nprod F) (aflat st) (i * ns + s)) (row (nprod F) (aflat st) (j * ns + t)) Ho).
        rewrite momenta_fund, momenta_size in I. unfold inner_product at 1 in I. rewrite I.
        assert (J := bloch_states_inner same Hsame (BFund nw) ls saxes Hls Hw He Hlen loc st
          ltac:(rewrite Hloc; cbn [bsize]; fold ns; unfold N; cbn [bsize]; lia) Es i s j t Hi Hj Hs Ht).
        fold ss in J. fold F in J. fold ns in J. rewrite J. unfold band_state, N. ring.
    - intros x Hx. rewrite Cconj_csum, csum_mult. apply csum_ext. intros s Hs. apply csum_ext. intros t Ht. rewrite Cconj_mult. ring.
  Qed.

  Lemma wannier_orthonormal out : wannier_states same nw nb (map BFundT ls) saxes op data = Some out ->
    (forall s, (s < ns)%nat -> orthonormal_rows nw nb (at_sample nw nb op s)) ->
    (forall s l m, (s < ns)%nat -> (l < nb)%nat -> (m < nb)%nat ->
       inner_product N (band_state ns N data s l) (band_state ns N data s m) = cdelta l m) ->
    forall i j R R', (i < nw)%nat -> (j < nw)%nat -> (R < ns)%nat -> (R' < ns)%nat ->
      inner_product (nprod F) (row (nprod F) (aflat out) (i * ns + R)) (row (nprod F) (aflat out) (j * ns + R')) =
      cdelta i j * cdelta R R'.
  Proof.
    intros E Ho Hv i j R R' Hi Hj HR HR'. destruct wannier_bloch as [loc [st [o [El [Es [Eo V]]]]]].
    rewrite E in Eo. injection Eo as <-.
    assert (Hp : (0 < nb * ns)%nat) by (assert (H := wns_pos); nia).
    destruct (localized_spec nw nb ns N op data Hop Hd Hp) as [loc' [El' [Sl _]]].
    rewrite El in El'. injection El' as <-.
    assert (IR := unravel_in_shape ls R HR). assert (IR' := unravel_in_shape ls R' HR').
    assert (V1 := fun x => V i (unravel ls R) x Hi IR). assert (V2 := fun x => V j (unravel ls R') x Hj IR').
    rewrite !ravel_unravel in V1 by exact HR. rewrite !ravel_unravel in V2 by exact HR'.
    transitivity (inner_product (nprod F)
      (fun x => csum (fun s => (isqrt ns * plane ls (sample_freqs ls (unravel ls s)) (map Z.of_nat (unravel ls R))) *
         amplitude (momenta F) (row (nprod F) (aflat st) (i * ns + s)) x) ns)
      (fun x => csum (fun s => (isqrt ns * plane ls (sample_freqs ls (unravel ls s)) (map Z.of_nat (unravel ls R'))) *
         amplitude (momenta F) (row (nprod F) (aflat st) (j * ns + s)) x) ns)).
    { unfold inner_product. apply csum_ext. intros x Hx. rewrite V1, V2 by exact Hx. 
      apply (f_equal2 Cmult); [apply (f_equal Cconj)|]; rewrite <- csum_scal_l; apply csum_ext; intros s Hs; ring. }
    rewrite (bloch_sum_inner loc st _ _ i j) by (auto; rewrite Sl; cbn [nprod]; lia).
    rewrite (csum_ext _ (fun s => isqrt ns * isqrt ns * cdelta i j *
      (Cconj (plane ls (sample_freqs ls (unravel ls s)) (map Z.of_nat (unravel ls R))) *
       plane ls (sample_freqs ls (unravel ls s)) (map Z.of_nat (unravel ls R'))))).
    - rewrite csum_scal_l, csum_plane_orth by assumption. rewrite !ravel_unravel by assumption.
      rewrite <- inv_isqrt by exact wns_pos.
      transitivity (RtoC (/ INR ns) * RtoC (INR ns) * (cdelta i j * cdelta R R')); [ring|].
      rewrite <- RtoC_mult, Rinv_l; [ring|]. assert (H := wns_pos). apply not_0_INR. lia.
    - intros s Hs. rewrite (localized_orthonormal nw nb ns N op data Hop Hd Hp loc El s Hs (Ho s Hs) (fun l m => Hv s l m Hs) i j Hi Hj).
      rewrite Cconj_mult, isqrt_conj. ring.
  Qed.
End Wannier.
