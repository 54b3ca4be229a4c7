(** States at a Bloch sample and Bloch states. *)
From Coq Require Import Reals.
From Verif Require Import ZLib Csum DFT NumPy Interp Index IndexProofs AxesProofs Spec Basis SpecBasis BasisProofs BasisProofs2
  BasisProofs3 BasisFacts Operator SpecOperator OperatorProofs Reduce ReduceProofs IndexSum Wavepacket SpecWavepacket WavepacketProofs
  WavepacketProofs2.
Local Open Scope R_scope.
Local Open Scope C_scope.

Fixpoint sampled (ls ss s : list nat) : list basis :=
  match ls, ss, s with
  | n :: ls, m :: ss, i :: s => BEvenT m n (freq n i) :: sampled ls ss s
  | _, _, _ => []
  end.

Lemma wrap_freq n i : (i < n)%nat -> wrap_index (Z.of_nat i) (Z.of_nat n) 0 = freq n i.
Proof.
  intros H. destruct (freq_is_freq n i H) as [C R]. apply wrap_index_unique; [lia|exact C|].
  assert (Z.of_nat n = 2 * (Z.of_nat n / 2) + Z.of_nat n mod 2)%Z by (apply Z.div_mod; lia).
  assert (Z.of_nat n - 1 = 2 * ((Z.of_nat n - 1) / 2) + (Z.of_nat n - 1) mod 2)%Z by (apply Z.div_mod; lia).
  assert (0 <= Z.of_nat n mod 2 < 2)%Z by (apply Z.mod_pos_bound; lia).
  assert (0 <= (Z.of_nat n - 1) mod 2 < 2)%Z by (apply Z.mod_pos_bound; lia). lia.
Qed.
Lemma sampled_basis_eq ls : forall ss s, length ls = length ss -> in_shape s ls ->
  sampled_basis ls ss (map Z.of_nat s) = Some (sampled ls ss s).
Proof.
  induction ls as [|n ls IH]; intros [|m ss] s Hl Hs; try discriminate; inversion Hs as [|i ? s' ? Hi Hs']; subst; [reflexivity|].
  cbn [map sampled_basis sampled]. rewrite IH by (auto; cbn in Hl; lia). rewrite wrap_freq by assumption. reflexivity.
Qed.
Lemma sampled_shapes ls : forall ss s, length ls = length ss -> in_shape s ls ->
  map bsize (sampled ls ss s) = ss /\ map bfund (sampled ls ss s) = supercell ls ss.
Proof.
  induction ls as [|n ls IH]; intros [|m ss] s Hl Hs; try discriminate; inversion Hs as [|i ? s' ? Hi Hs']; subst; [split; reflexivity|].
  cbn [sampled map supercell bsize bfund]. destruct (IH ss s' ltac:(cbn in Hl; lia) Hs') as [-> ->].
  split; [reflexivity|]. rewrite Nat.mul_comm. reflexivity.
Qed.

Lemma even_slot n m i k : (i < n)%nat -> (k < m)%nat ->
  sample_pos m n (freq n i) k = slot (n * m) (Z.of_nat n * freq m k + freq n i).
Proof.
  intros Hi Hk. apply Nat2Z.inj. apply (Zcong_range_eq (Z.of_nat (n * m)) 0).
  - unfold sample_pos. replace (Z.of_nat m * Z.of_nat n)%Z with (Z.of_nat (n * m)) by (rewrite Nat2Z.inj_mul; ring).
    assert (Hp : (0 < Z.of_nat (n * m))%Z) by nia.
    rewrite Z2Nat.id by (apply Z.mod_pos_bound; exact Hp).
    eapply Zcong_trans; [apply Zcong_mod; exact Hp|]. apply Zcong_sym.
    eapply Zcong_trans; [apply slot_cong; nia|]. destruct (freq_cong m k Hk) as [q ->]. exists q. rewrite Nat2Z.inj_mul. ring.
  - split; [apply Nat2Z.is_nonneg|]. apply inj_lt. rewrite Nat.mul_comm. apply sample_pos_lt; lia.
  - split; [apply Nat2Z.is_nonneg|]. apply inj_lt. apply slot_lt. nia.
Qed.

Lemma axis_states_sampled ls : forall ss s k x, length ls = length ss -> in_shape s ls -> in_shape k ss ->
  in_shape x (supercell ls ss) ->
  axis_states (sampled ls ss s) k x =
  isqrt (nprod ls) * plane (supercell ls ss) (sample_freqs ls s) (map Z.of_nat x) *
  axis_states (map BFundT ss) k (in_cell ss x).
Proof.
  induction ls as [|n ls IH]; intros [|m ss] s k x Hl Hs Hk Hx; try discriminate;
    inversion Hs as [|i ? s' ? Hi Hs']; subst; inversion Hk as [|j ? k' ? Hj Hk']; subst;
    inversion Hx as [|y ? x' ? Hy Hx']; subst.
  - cbn. unfold isqrt. change (INR 1) with 1%R. rewrite sqrt_1, Rinv_1. ring.
  - cbn [supercell map sampled axis_states bstate sample_freqs plane in_cell nprod].
    rewrite IH by (auto; cbn in Hl; lia). rewrite even_slot by assumption. rewrite (Nat.mul_comm m n).
    rewrite (plane_wave_cong (n * m) _ (Z.of_nat n * freq m j + freq n i)%Z); [|nia|apply slot_cong; nia].
    rewrite plane_wave_bloch by lia. rewrite (isqrt_mul n (nprod ls)). ring.
Qed.

Section States.
  Context (same : basis -> basis -> bool) (Hsame : identity_test same).
  Context (ls : list nat) (saxes : list basis).
  Context (Hls : Forall (fun n => (0 < n)%nat) ls) (Hw : bwf (BTuple saxes)) (He : explicit_orthonormal (BTuple saxes)).
  Context (Hl : length ls = length saxes).
  Let ss := map bfund saxes.
  Let N := bsize (BTuple saxes).

  Lemma state_vector_spec d idx : nprod (ashape d) = (nprod ls * N)%nat ->
    (0 <= idx < Z.of_nat (nprod ls))%Z ->
    exists b v, get_wavepacket_state_vector same (map BFundT ls) saxes d idx = Some (b, v) /\
      map bfund b = supercell ls ss /\ ashape v = [bsize (BTuple b)] /\
      forall x, in_shape x (supercell ls ss) ->
        amplitude (BTuple b) (aflat v) (ravel (supercell ls ss) x) =
        isqrt (nprod ls) * plane (supercell ls ss) (sample_freqs ls (unravel ls (Z.to_nat idx))) (map Z.of_nat x) *
        amplitude (BTuple saxes) (row N (aflat d) (Z.to_nat idx)) (ravel ss (in_cell ss x)).
  Proof.
    intros Hd Hi. destruct (convert_wavepacket_rows same Hsame ls saxes Hls Hw He d Hd) as [d' [G [E [HG [Hd' Hr]]]]].
    fold ss in HG, Hd', Hr. fold N in Hr. unfold get_wavepacket_state_vector. rewrite E, map_bfund_FundT. fold ss.
    unfold get_stacked_index, python_index.
    replace ((0 <=? idx)%Z && (idx <? Z.of_nat (nprod ls))%Z)%bool with true by (symmetry; apply andb_true_intro; split; [apply Z.leb_le|apply Z.ltb_lt]; lia).
    set (i := Z.to_nat idx). assert (Hii : (i < nprod ls)%nat) by lia.
    assert (Hs : in_shape (unravel ls i) ls) by (apply unravel_in_shape; exact Hii).
    assert (Hl2 : length ls = length ss) by (unfold ss; rewrite map_length; exact Hl).
    rewrite sampled_basis_eq by assumption. rewrite reshape_some by (rewrite Hd'; cbn [nprod]; lia).
    destruct (sampled_shapes ls ss (unravel ls i) Hl2 Hs) as [S1 S2].
    do 2 eexists. split; [reflexivity|]. split; [exact S2|].
    unfold select_row. cbn [ashape tl aflat nprod]. cbn [bsize]. rewrite S1. split; [reflexivity|].
    intros x Hx. rewrite <- S2 at 1. rewrite amplitude_isum by (rewrite S2; exact Hx). rewrite S1.
    rewrite <- (convert_rows_amplitude same Hsame ls saxes Hw He d d' G i _ HG Hr Hii)
      by (apply ravel_lt; apply (in_cell_in ss ls); assumption).
    fold ss. rewrite amplitude_momenta by (apply (in_cell_in ss ls); assumption).
    rewrite <- isum_scal_l. apply isum_ext. intros k Hk. rewrite axis_states_sampled by assumption.
    unfold row. rewrite Nat.mul_1_r. ring.
  Qed.

  Lemma state_vector_out_of_range d idx : ~ (0 <= idx < Z.of_nat (nprod ls))%Z ->
    get_wavepacket_state_vector same (map BFundT ls) saxes d idx = None.
  Proof.
    intros Hi. unfold get_wavepacket_state_vector. destruct (convert_wavepacket _ _ _ _ _ _); [|reflexivity].
    rewrite map_bfund_FundT. unfold get_stacked_index.
    replace ((0 <=? idx)%Z && (idx <? Z.of_nat (nprod ls))%Z)%bool with false; [reflexivity|].
    symmetry. apply andb_false_iff. rewrite Z.leb_gt, Z.ltb_ge. lia.
  Qed.
End States.

(** ** Bloch states *)
Lemma sampled_wf ls : forall ss s, length ls = length ss -> in_shape s ls -> Forall (fun m => (0 < m)%nat) ss ->
  bwf (BTuple (sampled ls ss s)).
Proof.
  induction ls as [|n ls IH]; intros [|m ss] s Hl Hs Hp; try discriminate; inversion Hs as [|i ? s' ? Hi Hs']; subst; [exact I|].
  inversion Hp; subst. cbn [sampled bwf]. split; [split; [assumption|lia]|]. apply (IH ss s'); auto.
Qed.
Lemma sampled_explicit ls : forall ss s, explicit_orthonormal (BTuple (sampled ls ss s)).
Proof.
  induction ls as [|n ls IH]; intros ss s; destruct ss; destruct s; try exact I.
  cbn [sampled explicit_orthonormal]. split; [exact I|]. apply (IH ss s).
Qed.

(** Indicator of equal indices. *)
Fixpoint idelta (i j : list nat) : C :=
  match i, j with
  | a :: i, b :: j => cdelta a b * idelta i j
  | [], [] => 1
  | _, _ => 0
  end.
Lemma idelta_refl i : idelta i i = 1.
Proof. induction i as [|a i IH]; cbn [idelta]; [reflexivity|]. rewrite cdelta_refl, IH. ring. Qed.
Lemma idelta_neq i : forall j, i <> j -> idelta i j = 0.
Proof.
  induction i as [|a i IH]; intros [|b j] H; cbn [idelta]; try reflexivity; [congruence|].
  destruct (Nat.eq_dec a b) as [->|Hab].
  - rewrite IH by congruence. ring.
  - rewrite cdelta_neq by assumption. ring.
Qed.
Lemma isum_idelta shape : forall k f, in_shape k shape -> isum shape (fun i => idelta k i * f i) = f k.
Proof.
  induction shape as [|n shape IH]; intros k f Hk; inversion Hk as [|a ? k' ? Ha Hk']; subst; cbn [isum idelta]; [ring|].
  rewrite (csum_ext _ (fun i => cdelta a i * f (i :: k'))).
  - apply csum_delta_l. exact Ha.
  - intros i Hi. rewrite <- (IH k' (fun idx => f (i :: idx)) Hk'), <- isum_scal_l. apply isum_ext. intros idx _. ring.
Qed.

Lemma overlap_sampled ls : forall ss s f k, length ls = length ss -> in_shape s ls -> in_shape k ss -> in_shape f (supercell ls ss) ->
  axis_overlaps (map BFundT (supercell ls ss)) (sampled ls ss s) f k = idelta f (unfurl_slot ls ss s k).
Proof.
  induction ls as [|n ls IH]; intros [|m ss] s f k Hl Hs Hk Hf; try discriminate;
    inversion Hs as [|i ? s' ? Hi Hs']; subst; inversion Hk as [|j ? k' ? Hj Hk']; subst;
    inversion Hf as [|t ? f' ? Ht Hf']; subst; [reflexivity|].
  cbn [supercell map sampled axis_overlaps unfurl_slot idelta]. rewrite IH by (auto; cbn in Hl; lia). f_equal.
  unfold overlap. cbn [bfund bstate]. rewrite (Nat.mul_comm m n), even_slot by assumption.
  set (q := slot _ _). assert (Hq : (q < n * m)%nat) by (apply slot_lt; nia).
  rewrite <- (plane_wave_orth (n * m) t q Ht Hq). apply csum_ext. intros x _. f_equal. f_equal.
  apply plane_wave_cong; [nia|]. apply freq_cong. exact Ht.
Qed.

Lemma all_some_map {A B} (f : A -> option B) (d : B) (l : list A) (a : A) : (forall x, In x l -> exists y, f x = Some y) ->
  exists r, all_some (map f l) = Some r /\ length r = length l /\
    forall i, (i < length l)%nat -> f (nth i l a) = Some (nth i r d).
Proof.
  induction l as [|x l IH]; intros H.
  - exists []. split; [reflexivity|]. split; [reflexivity|]. intros i Hi. inversion Hi.
  - destruct (H x (or_introl eq_refl)) as [y Hy]. destruct IH as [r [E [L N]]]; [intros z Hz; apply H; right; exact Hz|].
    exists (y :: r). cbn [map all_some]. rewrite Hy, E. split; [reflexivity|]. split; [cbn; lia|].
    intros [|i] Hi; cbn [nth]; [exact Hy|]. apply N. cbn in Hi. lia.
Qed.

Lemma compatible_sampled ls : forall ss s, length ls = length ss -> in_shape s ls ->
  compatible (BTuple (sampled ls ss s)) (momenta (supercell ls ss)).
Proof.
  intros ss s Hl Hs. constructor.
  - change (bfund (BTuple (map BFundT (supercell ls ss)))) with (bfund (momenta (supercell ls ss))).
    rewrite momenta_fund. cbn [bfund]. rewrite (proj2 (sampled_shapes ls ss s Hl Hs)). reflexivity.
  - revert ss s Hl Hs. induction ls as [|n ls IH]; intros [|m ss] s Hl Hs; try discriminate;
      inversion Hs as [|i ? s' ? Hi Hs']; subst; cbn [sampled supercell map]; constructor.
    + constructor; [intros la lb [_ E]; discriminate|]. cbn [bfund]. lia.
    + apply IH; auto.
Qed.

Lemma convert_sampled same ls ss s : identity_test same -> length ls = length ss -> in_shape s ls ->
  Forall (fun m => (0 < m)%nat) ss -> Forall (fun m => (0 < m)%nat) ls ->
  exists F, convert same (BTuple (sampled ls ss s)) (momenta (supercell ls ss)) = Some F /\
    (forall v f, in_shape f (supercell ls ss) -> F v (ravel (supercell ls ss) f) =
      isum ss (fun k => idelta f (unfurl_slot ls ss s k) * v (ravel ss k))).
Proof.
  intros Hsame Hl Hs Hp Hp'. destruct (proj2 (convert_some_iff same _ _) (compatible_sampled ls ss s Hl Hs)) as [F HF].
  exists F. split; [exact HF|]. intros v f Hf.
  assert (Hsc : Forall (fun m => (0 < m)%nat) (supercell ls ss)).
  { clear - Hl Hp Hp'. revert ss Hl Hp. induction Hp' as [|n ls Hn Hp' IH]; intros [|m ss] Hl Hp; try discriminate; cbn [supercell]; constructor.
    - inversion Hp; subst. nia.
    - inversion Hp; subst. apply IH; auto. }
  destruct (sampled_shapes ls ss s Hl Hs) as [S1 S2].
  unfold momenta in HF.
  rewrite (convert_stacked same _ _ F Hsame (sampled_wf ls ss s Hl Hs Hp) (momenta_wf _ Hsc) (sampled_explicit ls ss s) HF v)
    by (rewrite map_bsize_FundT; apply ravel_lt; exact Hf).
  rewrite S1, map_bsize_FundT, isum_ravel. apply isum_ext. intros k Hk.
  rewrite !unravel_ravel by assumption. rewrite overlap_sampled by assumption. reflexivity.
Qed.

Lemma idelta_unfurl ls ss s k s' k' : length ls = length ss -> in_shape s ls -> in_shape k ss -> in_shape s' ls -> in_shape k' ss ->
  idelta (unfurl_slot ls ss s' k') (unfurl_slot ls ss s k) = idelta s' s * idelta k' k.
Proof.
  intros Hl Hs Hk Hs' Hk'. destruct (list_eq_dec Nat.eq_dec s' s) as [->|Hn].
  - destruct (list_eq_dec Nat.eq_dec k' k) as [->|Hn].
    + rewrite !idelta_refl. ring.
    + rewrite (idelta_neq k' k Hn), idelta_neq; [ring|]. intros E.
      destruct (unfurl_once ls ss _ Hl (unfurl_slot_in ls ss s k Hl Hs Hk)) as [a [b [_ [_ [_ U]]]]].
      destruct (U s k' Hs Hk' E) as [_ ->]. destruct (U s k Hs Hk eq_refl) as [_ ->]. congruence.
  - rewrite (idelta_neq s' s Hn), idelta_neq; [ring|]. intros E.
    destruct (unfurl_once ls ss _ Hl (unfurl_slot_in ls ss s k Hl Hs Hk)) as [a [b [_ [_ [_ U]]]]].
    destruct (U s' k' Hs' Hk' E) as [-> _]. destruct (U s k Hs Hk eq_refl) as [-> _]. congruence.
Qed.

Section Bloch.
  Context (same : basis -> basis -> bool) (Hsame : identity_test same).
  Context (bb : basis) (ls : list nat) (saxes : list basis).
  Context (Hls : Forall (fun n => (0 < n)%nat) ls) (Hw : bwf (BTuple saxes)) (He : explicit_orthonormal (BTuple saxes)).
  Context (Hl : length ls = length saxes).
  Let ss := map bfund saxes.
  Let N := bsize (BTuple saxes).
  Let F := supercell ls ss.
  Lemma Hl2 : length ls = length ss. Proof. unfold ss. rewrite map_length. exact Hl. Qed.

  Lemma bloch_states_spec d : nprod (ashape d) = (bsize bb * nprod ls * N)%nat ->
    exists out G, get_bloch_states same bb (map BFundT ls) saxes d = Some out /\
      convert same (BTuple saxes) (momenta ss) = Some G /\
      ashape out = [(bsize bb * nprod ls * nprod F)%nat] /\
      forall b s s' k, (b < bsize bb)%nat -> in_shape s ls -> in_shape s' ls -> in_shape k ss ->
        row (nprod F) (aflat out) (b * nprod ls + ravel ls s) (ravel F (unfurl_slot ls ss s' k)) =
        idelta s' s * G (row N (aflat d) (b * nprod ls + ravel ls s)) (ravel ss k).
  Proof.
    intros Hd. unfold get_bloch_states. rewrite map_bfund_FundT. fold ss.
    rewrite Hl2, Nat.eqb_refl. rewrite map2_supercell. fold F. fold (momenta F).
    fold (momenta ls). rewrite momenta_size.
    rewrite reshape_some by (rewrite Hd; cbn [nprod]; fold N; lia).
    rewrite !as_fundamental_transformed_momenta, map_bfund_FundT. fold ss.
    destruct (convert_momenta_self same ls Hsame Hls) as [L [HL IL]]. rewrite HL.
    destruct (proj2 (convert_some_iff same (BTuple saxes) (momenta ss)) (compatible_momenta saxes)) as [G HG]. rewrite HG.
    cbv zeta.
    match goal with |- context [all_some (map ?g _)] => set (full := g) end.
    assert (Hpos : Forall (fun m => (0 < m)%nat) ss) by (apply fund_shape_pos; exact Hw).
    assert (Hfull : forall s, (s < nprod ls)%nat -> exists C0, full s = Some C0 /\
      (forall v f, in_shape f F -> C0 v (ravel F f) = isum ss (fun k => idelta f (unfurl_slot ls ss (unravel ls s) k) * v (ravel ss k)))).
    { intros s Hs. assert (Hu := unravel_in_shape ls s Hs). unfold full. rewrite sampled_basis_eq by (try exact Hl2; exact Hu).
      apply convert_sampled; auto. exact Hl2. }
    destruct (all_some_map full (fun v => v) (seq 0 (nprod ls)) 0%nat) as [fs [Ef [Lf Nf]]].
    { intros s Hs. apply in_seq in Hs. destruct (Hfull s ltac:(lia)) as [C0 [H0 _]]. exists C0. exact H0. }
    rewrite Ef. exists (ravel_array (array3 (bsize bb) (nprod ls) (bsize (momenta F))
      (fun b s f => nth s fs (fun v => v) (fun k => G (fun k' => L (fun s' => at3 {| ashape := [bsize bb; nprod ls; bsize (BTuple saxes)]; aflat := aflat d |} b s' k') s) k) f))), G.
    split; [reflexivity|]. split; [reflexivity|]. split; [cbn [ravel_array array3 ashape nprod]; rewrite momenta_size; f_equal; lia|].
    intros b s s' k Hb Hs Hs' Hk. assert (Hr := ravel_lt ls s Hs).
    assert (Hf := unfurl_slot_in ls ss s' k Hl2 Hs' Hk). fold F in Hf. assert (Hrf := ravel_lt F _ Hf).
    unfold row at 1. cbn [aflat ravel_array]. rewrite momenta_size. rewrite array3_flat by assumption.
    destruct (Hfull (ravel ls s) Hr) as [C0 [HC CC]]. assert (Hn := Nf (ravel ls s) ltac:(rewrite seq_length; exact Hr)).
    rewrite seq_nth in Hn by exact Hr. rewrite Nat.add_0_l in Hn. rewrite HC in Hn. injection Hn as <-.
    rewrite CC by exact Hf. rewrite unravel_ravel by exact Hs.
    assert (EG := convert_orthonormal same Hsame _ _ G Hw (momenta_wf ss Hpos) He HG).
    rewrite (isum_ext ss _ (fun k0 => idelta k k0 * (idelta s' s * G (row N (aflat d) (b * nprod ls + ravel ls s)) (ravel ss k0)))).
    - rewrite (isum_idelta ss k (fun k0 => idelta s' s * G (row N (aflat d) (b * nprod ls + ravel ls s)) (ravel ss k0)) Hk). reflexivity.
    - intros k0 Hk0. rewrite idelta_unfurl by (try exact Hl2; assumption).
      transitivity (idelta s' s * idelta k k0 * G (row N (aflat d) (b * nprod ls + ravel ls s)) (ravel ss k0)); [|ring].
      f_equal. assert (Hrk := ravel_lt ss k0 Hk0). rewrite !EG by (rewrite momenta_size; exact Hrk).
      apply csum_ext. intros j Hj. rewrite IL by exact Hr. reflexivity.
  Qed.

  Lemma bloch_states_inner d out : nprod (ashape d) = (bsize bb * nprod ls * N)%nat ->
    get_bloch_states same bb (map BFundT ls) saxes d = Some out ->
    forall b s b' s', (b < bsize bb)%nat -> (b' < bsize bb)%nat -> (s < nprod ls)%nat -> (s' < nprod ls)%nat ->
      inner_product (nprod F) (row (nprod F) (aflat out) (b * nprod ls + s)) (row (nprod F) (aflat out) (b' * nprod ls + s')) =
      cdelta s s' * inner_product N (row N (aflat d) (b * nprod ls + s)) (row N (aflat d) (b' * nprod ls + s')).
  Proof.
    intros Hd E b s b' s' Hb Hb' Hs Hs'. destruct (bloch_states_spec d Hd) as [o [G [Eo [HG [_ Hr]]]]].
    rewrite E in Eo. injection Eo as <-.
    assert (Us := unravel_in_shape ls s Hs). assert (Us' := unravel_in_shape ls s' Hs').
    assert (Rs := ravel_unravel ls s Hs). assert (Rs' := ravel_unravel ls s' Hs').
    unfold inner_product at 1. rewrite isum_ravel. etransitivity; [apply (isum_unfurl ls ss _ Hl2)|]. cbv beta. fold F.
    rewrite (isum_ext ls _ (fun t => idelta (unravel ls s) t * (idelta t (unravel ls s') * inner_product (nprod ss)
      (G (row N (aflat d) (b * nprod ls + s))) (G (row N (aflat d) (b' * nprod ls + s')))))).
    - rewrite (isum_idelta ls (unravel ls s) (fun t => idelta t (unravel ls s') * inner_product (nprod ss)
        (G (row N (aflat d) (b * nprod ls + s))) (G (row N (aflat d) (b' * nprod ls + s')))) Us).
      f_equal.
      + destruct (Nat.eq_dec s s') as [->|Hn]; [rewrite idelta_refl, cdelta_refl; reflexivity|].
        rewrite idelta_neq, cdelta_neq; [reflexivity|exact Hn|]. intros X. apply Hn. congruence.
      + rewrite <- (momenta_size ss). apply (convert_inner same Hsame _ _ G Hw (momenta_wf ss (fund_shape_pos _ Hw)) He); [|exact HG].
        apply full_bases; [apply momenta_wf, fund_shape_pos; exact Hw|apply momenta_full].
    - intros t Ht. unfold inner_product. rewrite isum_ravel, <- !isum_scal_l. apply isum_ext. intros k Hk.
      assert (H1 := Hr b (unravel ls s) t k Hb Us Ht Hk). assert (H2 := Hr b' (unravel ls s') t k Hb' Us' Ht Hk).
      rewrite Rs in H1. rewrite Rs' in H2. rewrite H1, H2. rewrite Cconj_mult.
      assert (Ec : Cconj (idelta t (unravel ls s)) = idelta (unravel ls s) t).
      { clear. revert t. generalize (unravel ls s). induction l as [|a l IH]; intros [|c t]; cbn [idelta]; rewrite ?Cconj_0, ?Cconj_1; try reflexivity.
        rewrite Cconj_mult, Cconj_cdelta, IH, cdelta_sym. reflexivity. }
      rewrite Ec. ring.
  Qed.

  Lemma bloch_states_amplitude d out : nprod (ashape d) = (bsize bb * nprod ls * N)%nat ->
    get_bloch_states same bb (map BFundT ls) saxes d = Some out ->
    forall b s x, (b < bsize bb)%nat -> (s < nprod ls)%nat -> in_shape x F ->
      amplitude (momenta F) (row (nprod F) (aflat out) (b * nprod ls + s)) (ravel F x) =
      isqrt (nprod ls) * plane F (sample_freqs ls (unravel ls s)) (map Z.of_nat x) *
      amplitude (BTuple saxes) (row N (aflat d) (b * nprod ls + s)) (ravel ss (in_cell ss x)).
  Proof.
    intros Hd E b s x Hb Hs Hx. destruct (bloch_states_spec d Hd) as [o [G [Eo [HG [_ Hr]]]]].
    rewrite E in Eo. injection Eo as <-.
    assert (Us := unravel_in_shape ls s Hs). assert (Rs := ravel_unravel ls s Hs).
    assert (Hc := in_cell_in ss ls x Hl2 Hx).
    rewrite amplitude_momenta by exact Hx. etransitivity; [apply (isum_unfurl ls ss _ Hl2)|]. cbv beta. fold F.
    rewrite <- (convert_amplitude same _ _ G Hsame Hw (momenta_wf ss (fund_shape_pos _ Hw)) He (momenta_ss_complete saxes Hw) HG)
      by (rewrite momenta_fund; apply ravel_lt; exact Hc).
    rewrite amplitude_momenta by exact Hc.
    rewrite (isum_ext ls _ (fun t => idelta (unravel ls s) t * (isum ss (fun k => G (row N (aflat d) (b * nprod ls + s)) (ravel ss k) *
       axis_states (map BFundT F) (unfurl_slot ls ss t k) x)))).
    - rewrite (isum_idelta ls (unravel ls s) (fun t => isum ss (fun k => G (row N (aflat d) (b * nprod ls + s)) (ravel ss k) *
       axis_states (map BFundT F) (unfurl_slot ls ss t k) x)) Us).
      rewrite <- isum_scal_l. apply isum_ext. intros k Hk. unfold F. rewrite axis_states_unfurl by (try exact Hl2; assumption). ring.
    - intros t Ht. rewrite <- isum_scal_l. apply isum_ext. intros k Hk.
      assert (H1 := Hr b (unravel ls s) t k Hb Us Ht Hk). rewrite Rs in H1. rewrite H1.
      assert (Ec : idelta t (unravel ls s) = idelta (unravel ls s) t).
      { clear. revert t. generalize (unravel ls s). induction l as [|a l IH]; intros [|c t]; cbn [idelta]; try reflexivity.
        rewrite IH, cdelta_sym. reflexivity. }
      rewrite Ec. ring.
  Qed.
End Bloch.
