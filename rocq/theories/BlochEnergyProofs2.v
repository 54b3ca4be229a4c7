(** Proofs: the states of all samples, energies, averages. *)
From Coq Require Import Reals Lra.
From Verif Require Import ZLib Csum DFT NumPy Interp Index IndexProofs AxesProofs Spec Basis SpecBasis BasisProofs BasisProofs2
  BasisProofs3 BasisFacts Operator SpecOperator OperatorProofs Reduce SpecReduce ReduceProofs ReduceProofs2 IndexSum Wavepacket SpecWavepacket
  WavepacketProofs WavepacketProofs2 WavepacketProofs3 SpecMatrix LinAlg BlochBasis SpecBloch BlochProofs BlochProofs2 BlochProofs3
  BlochEnergies SpecBlochEnergy.
From Verif Require Polar.
Local Open Scope R_scope.
Local Open Scope C_scope.

(** ** Offsets *)

Lemma wrap_is_freq n i o : (i < n)%nat -> is_freq n i o -> wrap_index o (Z.of_nat n) 0 = freq n i.
Proof.
  intros H [Co Ro]. rewrite <- wrap_freq by exact H. destruct (wrap_index_spec (Z.of_nat i) (Z.of_nat n) 0 ltac:(lia)) as [C1 R1].
  apply wrap_index_unique; [lia| |exact R1]. eapply Zcong_trans; [exact C1|]. apply Zcong_sym. exact Co.
Qed.
Lemma sampled_basis_freqs ls : forall ss s os, length ls = length ss -> in_shape s ls ->
  Forall2 (fun p o => is_freq (fst p) (snd p) o) (combine ls s) os ->
  sampled_basis ls ss os = Some (sampled ls ss s).
Proof.
  induction ls as [|n ls IH]; intros [|m ss] s os Hl Hs Ho; try discriminate; inversion Hs as [|i ? s' ? Hi Hs']; subst.
  - cbn in Ho. inversion Ho; subst. reflexivity.
  - cbn [combine] in Ho. inversion Ho as [|? o ? os' H1 H2]; subst. cbn [sampled_basis sampled].
    rewrite (IH ss s' os') by (auto; cbn in Hl; lia). rewrite (wrap_is_freq n i o Hi H1). reflexivity.
Qed.
Lemma Forall2_nth_intro {A B} (P : A -> B -> Prop) (a : A) (b : B) : forall l m, length l = length m ->
  (forall i, (i < length l)%nat -> P (nth i l a) (nth i m b)) -> Forall2 P l m.
Proof.
  induction l as [|x l IH]; intros [|y m] H Hp; try discriminate; constructor.
  - apply (Hp 0%nat). cbn. lia.
  - apply IH; [cbn in H; lia|]. intros i Hi. apply (Hp (S i)). cbn. lia.
Qed.
Lemma nth_combine {A B} (a : A) (b : B) : forall l m i, length l = length m -> nth i (combine l m) (a, b) = (nth i l a, nth i m b).
Proof.
  induction l as [|x l IH]; intros [|y m] i H; try discriminate; [destruct i; reflexivity|].
  destruct i as [|i]; [reflexivity|]. cbn. apply IH. cbn in H. lia.
Qed.
Lemma sample_offsets_freq ls i : (i < nprod ls)%nat ->
  Forall2 (fun p o => is_freq (fst p) (snd p) o) (combine ls (unravel ls i)) (sample_offsets ls i).
Proof.
  intros Hi. pose proof (unravel_in_shape ls i Hi) as Hs.
  assert (Hul : length (unravel ls i) = length ls) by (apply (Forall2_length Hs) || (clear -Hs; induction Hs; cbn; lia)).
  apply (Forall2_nth_intro _ (0%nat, 0%nat) 0%Z).
  - unfold sample_offsets. rewrite combine_length, map_length, seq_length. lia.
  - intros ax Hax. rewrite combine_length in Hax. rewrite nth_combine by lia. cbn [fst snd]. unfold sample_offsets.
    rewrite nth_indep with (d' := stacked_nk_points ls 0 i) by (rewrite map_length, seq_length; lia).
    rewrite (map_nth (fun ax => stacked_nk_points ls ax i)), seq_nth by lia. cbn [Nat.add].
    destruct (stacked_nk_points_spec ls ax i Hi ltac:(lia)) as [idx [E Hf]].
    unfold get_stacked_index in E. destruct (_ && _)%bool in E; [|discriminate]. injection E as <-. rewrite Nat2Z.id in Hf. exact Hf.
Qed.

Lemma all_some_map_some {A B} (f : A -> B) l : all_some (map (fun x => Some (f x)) l) = Some (map f l).
Proof. induction l as [|x l IH]; [reflexivity|]. cbn. rewrite IH. reflexivity. Qed.
Lemma all_some_in_none {A} (l : list (option A)) : In None l -> all_some l = None.
Proof.
  induction l as [|[a|] l IH]; intros H; [contradiction| |reflexivity].
  destruct H as [H|H]; [discriminate|]. simpl. rewrite (IH H). reflexivity.
Qed.

Section States.
  Context (same : basis -> basis -> bool) (Hsame : identity_test same).
  Context (ls : list nat) (saxes : list basis).
  Context (Hls : Forall (fun n => (0 < n)%nat) ls) (Hw : bwf (BTuple saxes)) (He : explicit_orthonormal (BTuple saxes)).
  Context (Hl : length ls = length saxes).
  Let ss := map bfund saxes.
  Let N := bsize (BTuple saxes).
  Let F := supercell ls ss.

  Lemma all_states_vectors d : nprod (ashape d) = (nprod ls * N)%nat ->
    exists l, get_all_wavepacket_states same (map BFundT ls) saxes d = Some l /\ length l = nprod ls /\
      forall i b0, (i < nprod ls)%nat ->
        get_wavepacket_state_vector same (map BFundT ls) saxes d (Z.of_nat i) = Some (nth i l b0).
  Proof using Hsame Hls Hw He Hl.
    intros Hd. destruct (convert_wavepacket_rows same Hsame ls saxes Hls Hw He d Hd) as [d' [G [E [HG [Hd' Hr]]]]].
    fold ss in HG, Hd', Hr. unfold get_all_wavepacket_states, get_wavepacket_state_vector. rewrite E, map_bfund_FundT. fold ss.
    rewrite reshape_some by (rewrite Hd'; cbn [nprod]; lia).
    assert (Hl2 : length ls = length ss) by (unfold ss; rewrite map_length; exact Hl).
    set (d2 := {| ashape := [nprod ls; nprod ss]; aflat := aflat d' |}).
    exists (map (fun i => (sampled ls ss (unravel ls i), select_row d2 i)) (seq 0 (nprod ls))).
    split; [|split].
    - rewrite <- all_some_map_some. f_equal. apply map_ext_in. intros i Hi. apply in_seq in Hi.
      rewrite (sampled_basis_freqs ls ss (unravel ls i)); [reflexivity|exact Hl2|apply unravel_in_shape; lia|apply sample_offsets_freq; lia].
    - rewrite map_length, seq_length. reflexivity.
    - intros i b0 Hi. unfold get_stacked_index, python_index.
      replace ((0 <=? Z.of_nat i)%Z && (Z.of_nat i <? Z.of_nat (nprod ls))%Z)%bool with true
        by (symmetry; apply andb_true_intro; split; [apply Z.leb_le|apply Z.ltb_lt]; lia).
      rewrite Nat2Z.id, sampled_basis_eq by (try assumption; apply unravel_in_shape; exact Hi). f_equal.
      rewrite nth_indep with (d' := (sampled ls ss (unravel ls 0), select_row d2 0)) by (rewrite map_length, seq_length; exact Hi).
      rewrite (map_nth (fun i => (sampled ls ss (unravel ls i), select_row d2 i))), seq_nth by exact Hi. reflexivity.
  Qed.

  Lemma all_states_waves d : nprod (ashape d) = (nprod ls * N)%nat ->
    exists l, get_all_wavepacket_states same (map BFundT ls) saxes d = Some l /\ length l = nprod ls /\
      forall i b0, (i < nprod ls)%nat -> let bv := nth i l b0 in
        get_wavepacket_state_vector same (map BFundT ls) saxes d (Z.of_nat i) = Some bv /\
        map bfund (fst bv) = F /\ ashape (snd bv) = [bsize (BTuple (fst bv))] /\
        forall x, in_shape x F -> amplitude (BTuple (fst bv)) (aflat (snd bv)) (ravel F x) = bloch_wave ls saxes d i x.
  Proof using Hsame Hls Hw He Hl.
    intros Hd. destruct (all_states_vectors d Hd) as [l [E [L H]]]. exists l. split; [exact E|]. split; [exact L|].
    intros i b0 Hi bv. pose proof (H i b0 Hi) as V.
    destruct (state_vector_spec same Hsame ls saxes Hls Hw He Hl d (Z.of_nat i) Hd ltac:(lia)) as [b [v [E2 [H1 [H2 H3]]]]].
    fold bv in V. rewrite V in E2. injection E2 as Eb. split; [exact V|]. rewrite Eb. cbn [fst snd].
    split; [exact H1|]. split; [exact H2|]. intros x Hx. unfold F, ss in *. rewrite H3 by exact Hx. unfold bloch_wave.
    rewrite Nat2Z.id, Nat.mod_small by exact Hi. reflexivity.
  Qed.

  Lemma all_eigenstates_raise d eig : nprod ss <> 1%nat ->
    get_all_eigenstates same (map BFundT ls) saxes d eig = None.
  Proof using Hls.
    intros Hn. unfold get_all_eigenstates, convert_wavepacket. destruct (reshape _ _); [|reflexivity].
    destruct (convert _ _ _); [|reflexivity]. destruct (convert _ _ _); [|reflexivity].
    rewrite map_bfund_FundT. unfold ravel_array, array2. cbn [ashape nprod].
    assert (Z1 : bsize (as_fundamental_transformed (map BFundT ls)) = nprod ls).
    { unfold as_fundamental_transformed. cbn [bsize]. f_equal. rewrite !map_map. cbn [bfund bsize]. apply map_id. }
    assert (Z2 : bsize (as_fundamental_transformed saxes) = nprod ss).
    { unfold as_fundamental_transformed. cbn [bsize]. f_equal. rewrite !map_map. reflexivity. }
    rewrite Z1, Z2. pose proof (nprod_pos ls Hls) as P.
    replace (nprod ls * (nprod ss * 1) * 1 =? nprod ls)%nat with false; [reflexivity|].
    symmetry. apply Nat.eqb_neq. clear -P Hn. nia.
  Qed.
End States.

Lemma localize_raises {A} same (finish : list (list basis * C * C) -> option (list A)) w ls :
  w_list w = map BFundT ls -> Forall (fun n => (0 < n)%nat) ls -> nprod (map bfund (w_state w)) <> 1%nat ->
  localize_position_operator same finish w = None.
Proof.
  intros E Hls Hn. unfold localize_position_operator. rewrite E, (all_eigenstates_raise same ls (w_state w) Hls) by exact Hn. reflexivity.
Qed.
Lemma localize_many_raises {A} same (finish : list (list (list basis * C * C)) -> option A) ws :
  (exists w ls, In w ws /\ w_list w = map BFundT ls /\ Forall (fun n => (0 < n)%nat) ls /\ nprod (map bfund (w_state w)) <> 1%nat) ->
  localize_position_operator_many_band same finish ws = None.
Proof.
  intros [w [ls [Hi [E [Hls Hn]]]]]. unfold localize_position_operator_many_band. destruct ws as [|w0 ws']; [contradiction|].
  rewrite all_some_in_none; [reflexivity|]. apply in_map_iff. exists w. split; [|exact Hi].
  rewrite E. apply (all_eigenstates_raise same ls (w_state w) Hls). exact Hn.
Qed.
Lemma localize_individual_raises {A B} same (finish : list (list basis * C * C) -> option (list A)) (finish' : list A -> option B) ws :
  (exists w ls, In w ws /\ w_list w = map BFundT ls /\ Forall (fun n => (0 < n)%nat) ls /\ nprod (map bfund (w_state w)) <> 1%nat) ->
  localize_position_operator_individual same finish finish' ws = None.
Proof.
  intros [w [ls [Hi [E [Hls Hn]]]]]. unfold localize_position_operator_individual. destruct ws as [|w0 ws']; [contradiction|].
  rewrite all_some_in_none; [reflexivity|]. apply in_map_iff. exists w. split; [|exact Hi].
  rewrite (localize_raises same finish w ls E Hls Hn). reflexivity.
Qed.

(** ** Energies *)

Section Energies.
  Context (same : basis -> basis -> bool) (Hsame : identity_test same).
  Context (nb : nat) (ls : list nat) (saxes : list basis).
  Context (Hls : Forall (fun n => (0 < n)%nat) ls) (Hw : bwf (BTuple saxes)) (He : explicit_orthonormal (BTuple saxes)).
  Context (Hl : length ls = length saxes).
  Let ss := map bfund saxes.
  Let N := bsize (BTuple saxes).
  Let F := supercell ls ss.

  Lemma energy_spec d eig sb v : nprod (ashape d) = (nb * nprod ls * N)%nat -> nprod (ashape eig) = (nb * nprod ls)%nat ->
    bwf sb -> bfund sb = nprod F ->
    bloch_energy same nb ls saxes d eig sb v =
      Some (csum (fun r => aflat eig r * RtoC (Cnorm2 (bloch_component ls saxes d (amplitude sb v) r))) (nb * nprod ls)).
  Proof using Hsame Hls Hw He Hl.
    intros Hd Heig Hsb Hf. unfold bloch_energy.
    destruct (bloch_from_waves same Hsame nb ls saxes Hls Hw He Hl d (into_fundamental sb v) Hd) as [c [E Ic]].
    rewrite E, Heig, Nat.eqb_refl. f_equal. apply csum_ext. intros r Hr.
    assert (Er : c r = bloch_component ls saxes d (amplitude sb v) r).
    { rewrite Ic by exact Hr. unfold bloch_component. apply csum_ext. intros t Ht. f_equal.
      rewrite (into_fundamental_mat sb Hsb v t) by (rewrite Hf; exact Ht). unfold amplitude. apply csum_ext. intros k _. ring. }
    rewrite Er. rewrite <- Cconj_mult_self. ring.
  Qed.

  Lemma energy_bloch_state d eig sb v r : nprod (ashape d) = (nb * nprod ls * N)%nat -> nprod (ashape eig) = (nb * nprod ls)%nat ->
    bands_orthonormal nb ls saxes d -> bwf sb -> bfund sb = nprod F -> (r < nb * nprod ls)%nat ->
    (forall x, in_shape x F -> amplitude sb v (ravel F x) = bloch_wave ls saxes d r x) ->
    bloch_energy same nb ls saxes d eig sb v = Some (aflat eig r).
  Proof using Hsame Hls Hw He Hl.
    intros Hd Heig Ho Hsb Hf Hr Hv. rewrite energy_spec by assumption. f_equal.
    assert (Hc : forall r', (r' < nb * nprod ls)%nat -> bloch_component ls saxes d (amplitude sb v) r' = cdelta r' r).
    { intros r' Hr'. rewrite <- (wave_inner same Hsame nb ls saxes Hls Hw He Hl d r' r Hd Ho Hr' Hr).
      unfold bloch_component. fold ss F. apply csum_ext. intros t Ht. f_equal. rewrite <- Hv by (apply unravel_in_shape; exact Ht).
      rewrite ravel_unravel by exact Ht. reflexivity. }
    rewrite (csum_ext _ (fun r' => cdelta r' r * aflat eig r')).
    - apply csum_delta_l'. exact Hr.
    - intros r' Hr'. rewrite Hc by exact Hr'. unfold cdelta. destruct (Nat.eqb r' r).
      + unfold Cnorm2. cbn [fst snd RtoC]. replace (1 * 1 + 0 * 0)%R with 1%R by ring. ring.
      + unfold Cnorm2. cbn [fst snd RtoC]. replace (0 * 0 + 0 * 0)%R with 0%R by ring. ring.
  Qed.

  Lemma component_parseval d (f : nat -> C) : nprod (ashape d) = (nb * nprod ls * N)%nat -> bands_orthonormal nb ls saxes d ->
    nb = nprod ss ->
    csum (fun r => RtoC (Cnorm2 (bloch_component ls saxes d f r))) (nb * nprod ls) = inner_product (nprod F) f f.
  Proof using Hsame Hls Hw He Hl.
    intros Hd Ho En.
    assert (Sz : (nb * nprod ls = nprod F)%nat).
    { unfold F. rewrite nprod_supercell by (unfold ss; rewrite map_length; exact Hl). rewrite En. lia. }
    assert (Oc : orthonormal_columns (nprod F) (nprod F) (fun r t => bloch_wave ls saxes d r (unravel F t))).
    { apply orthonormal_square. intros r r' Hr Hr'.
      rewrite (cdelta_sym r r'), <- (wave_inner same Hsame nb ls saxes Hls Hw He Hl d r' r Hd Ho) by lia. fold ss; fold F; apply csum_ext; intros x _; ring. }
    rewrite Sz. set (B := fun r t => bloch_wave ls saxes d r (unravel F t)) in *.
    transitivity (csum (fun r => csum (fun u => csum (fun t => (Cconj (f u) * f t) * (Cconj (B r t) * B r u)) (nprod F)) (nprod F)) (nprod F)).
    { apply csum_ext. intros r Hr. rewrite <- Cconj_mult_self. unfold bloch_component. fold ss F.
      rewrite Cconj_csum, <- csum_scal_r. apply csum_ext. intros u Hu. rewrite <- csum_scal_l. apply csum_ext. intros t Ht.
      unfold B. rewrite Cconj_mult, Cconj_conj. ring. }
    rewrite csum_swap. unfold inner_product. apply csum_ext. intros u Hu. rewrite csum_swap.
    rewrite (csum_ext _ (fun t => cdelta t u * (Cconj (f u) * f t))).
    - rewrite csum_delta_l' by exact Hu. reflexivity.
    - intros t Ht. rewrite csum_scal_l. rewrite (Oc t u Ht Hu). ring.
  Qed.

  Lemma energy_bounds d eig sb v lo hi : nprod (ashape d) = (nb * nprod ls * N)%nat -> nprod (ashape eig) = (nb * nprod ls)%nat ->
    bands_orthonormal nb ls saxes d -> nb = nprod ss -> bwf sb -> bfund sb = nprod F ->
    (forall r, (r < nb * nprod ls)%nat -> exists e, aflat eig r = RtoC e /\ (lo <= e <= hi)%R) ->
    inner_product (nprod F) (amplitude sb v) (amplitude sb v) = 1 ->
    exists e, bloch_energy same nb ls saxes d eig sb v = Some (RtoC e) /\ (lo <= e <= hi)%R.
  Proof using Hsame Hls Hw He Hl.
    intros Hd Heig Ho En Hsb Hf Hr Hn. rewrite energy_spec by assumption.
    set (w := fun r => Cnorm2 (bloch_component ls saxes d (amplitude sb v) r)).
    assert (Hs : rsum w (nb * nprod ls) = 1%R).
    { apply RtoC_inj. rewrite <- csum_RtoC. unfold w. rewrite (component_parseval d _ Hd Ho En). exact Hn. }
    assert (Hwn : forall r, (0 <= w r)%R) by (intros; apply Cnorm2_nonneg).
    assert (Hre : forall r, (r < nb * nprod ls)%nat -> aflat eig r = RtoC (fst (aflat eig r)) /\ (lo <= fst (aflat eig r) <= hi)%R).
    { intros r H. destruct (Hr r H) as [e [E B]]. rewrite E. cbn [fst RtoC]. split; [reflexivity|exact B]. }
    exists (rsum (fun r => (fst (aflat eig r) * w r)%R) (nb * nprod ls)). split.
    - f_equal. rewrite <- csum_RtoC. apply csum_ext. intros r H. destruct (Hre r H) as [E _]. rewrite E at 1. rewrite RtoC_mult. reflexivity.
    - split.
      + replace lo with (rsum (fun r => (lo * w r)%R) (nb * nprod ls)) by (rewrite Polar.rsum_scal_l, Hs; ring).
        apply rsum_le. intros r H. destruct (Hre r H) as [_ B]. apply Rmult_le_compat_r; [apply Hwn|apply B].
      + replace hi with (rsum (fun r => (hi * w r)%R) (nb * nprod ls)) by (rewrite Polar.rsum_scal_l, Hs; ring).
        apply rsum_le. intros r H. destruct (Hre r H) as [_ B]. apply Rmult_le_compat_r; [apply Hwn|apply B].
  Qed.
End Energies.

(** ** Averages *)

Lemma average_eigenvalues_bands bands samples eig : nprod (ashape eig) = (bsize bands * bsize samples)%nat ->
  exists out, get_average_eigenvalues bands samples eig = Some (bands, out) /\ ashape out = [bsize bands] /\
    forall b, (b < bsize bands)%nat ->
      aflat out b = csum (fun s => aflat eig (b * bsize samples + s)%nat) (bsize samples) / RtoC (INR (bsize samples)).
Proof.
  intros He. set (o := {| dbasis := [bands; samples]; ddata := eig |}).
  assert (Hg : good_axes 2 [1%nat]) by (split; repeat constructor; cbn; intuition lia).
  destruct (average_eigenvalues_spec o [1%nat]) as [r [E [Hb [Hs H]]]]; [cbn; rewrite He; lia|exact Hg|].
  unfold get_average_eigenvalues. fold o. cbn [map] in E. change (Z.of_nat 1) with 1%Z in E. rewrite E.
  assert (Eb : dbasis r = [bands]) by (rewrite Hb; reflexivity). rewrite Eb in *.
  exists (ddata r). split; [reflexivity|]. split; [rewrite Hs; cbn; f_equal; lia|].
  intros b Hlt. specialize (H [b]). cbn [map] in H. rewrite (ltac:(cbn; lia) : ravel [bsize bands] [b] = b) in H.
  rewrite H by (repeat constructor; exact Hlt). cbn [map dbasis ddata o].
  f_equal.
  - change [1%nat] with (map S [0%nat]). rewrite sum_matching_cons by exact Hlt. unfold sum_matching.
    rewrite (ltac:(cbn; lia) : nprod [bsize samples] = bsize samples). apply csum_ext. intros s Hs'.
    destruct (list_eq_dec _ _ _) as [X|X]; [reflexivity|]. exfalso. apply X. cbn. reflexivity.
  - cbn. rewrite Nat.mul_1_r. reflexivity.
Qed.
