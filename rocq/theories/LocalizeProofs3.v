(** Sample fractions and generated wavepackets (C29). *)
From Coq Require Import Reals Psatz.
From Verif Require Import ZLib Csum DFT NumPy Interp Index IndexProofs AxesProofs Spec InterpProofs Basis SpecBasis BasisProofs BasisProofs2
  BasisProofs3 BasisFacts Operator SpecOperator OperatorProofs Reduce ReduceProofs IndexSum Wavepacket SpecWavepacket WavepacketProofs
  WavepacketProofs2 WavepacketProofs3 SpecMatrix LinAlg Localize SpecLocalize.
Local Open Scope R_scope.
Local Open Scope C_scope.

(** ** Sample fractions *)

Fixpoint tslots (l : list basis) (k : list nat) : list nat :=
  match l, k with b :: l, i :: k => tslot b i :: tslots l k | _, _ => [] end.

Lemma compatible_from_momenta l : compatible (momenta (map bfund l)) (BTuple l).
Proof.
  constructor.
  - change (bfund (BTuple (map BFundT (map bfund l)))) with (bfund (momenta (map bfund l))). rewrite momenta_fund. reflexivity.
  - induction l as [|b l IH]; cbn [map]; constructor; [|exact IH]. constructor; [intros la lb [E _]; discriminate|reflexivity].
Qed.

Lemma tslots_in_shape l : forall k, bwf (BTuple l) -> Forall (fun b => is_transformed b = true) l ->
  in_shape k (map bsize l) -> in_shape (tslots l k) (map bfund l).
Proof.
  induction l as [|b l IH]; intros k Hw Ht Hk; inversion Hk as [|i ? k' ? Hi Hk']; subst; [constructor|].
  inversion Ht; subst. destruct Hw. cbn [tslots map]. constructor; [apply tslot_lt; assumption|]. apply IH; assumption.
Qed.

Lemma transformed_overlaps l : forall j k, bwf (BTuple l) -> Forall (fun b => is_transformed b = true) l ->
  in_shape j (map bsize l) -> in_shape k (map bfund l) ->
  axis_overlaps l (map BFundT (map bfund l)) j k = idelta (tslots l j) k.
Proof.
  induction l as [|b l IH]; intros j k Hw Ht Hj Hk; inversion Hj as [|j1 ? j' ? Hj1 Hj']; subst;
    inversion Hk as [|k1 ? k' ? Hk1 Hk']; subst; [reflexivity|].
  inversion Ht; subst. destruct Hw as [Hwb Hw]. cbn [map axis_overlaps tslots idelta]. rewrite IH by assumption. f_equal.
  unfold overlap. cbn [bfund bstate]. rewrite <- (plane_wave_orth (bfund b) (tslot b j1) k1) by (try apply tslot_lt; assumption).
  apply csum_ext. intros x _. rewrite (bstate_transformed b j1 x) by assumption. f_equal.
  apply plane_wave_cong; [assert (H := bfund_pos b Hwb); assumption|]. apply freq_cong. exact Hk1.
Qed.

Lemma convert_from_momenta same l : identity_test same -> bwf (BTuple l) -> Forall (fun b => is_transformed b = true) l ->
  exists F, convert same (momenta (map bfund l)) (BTuple l) = Some F /\
    forall v j, in_shape j (map bsize l) -> F v (ravel (map bsize l) j) = v (ravel (map bfund l) (tslots l j)).
Proof.
  intros Hs Hw Ht. destruct (proj2 (convert_some_iff same _ _) (compatible_from_momenta l)) as [F HF]. exists F. split; [exact HF|].
  intros v j Hj. assert (Hp := fund_shape_pos l Hw).
  destruct (full_bases _ (momenta_wf _ Hp) (momenta_full (map bfund l))) as [_ [Oe _]].
  rewrite (convert_stacked same _ _ F Hs (momenta_wf _ Hp) Hw Oe HF v _ (ravel_lt _ _ Hj)).
  rewrite map_bsize_FundT, unravel_ravel by exact Hj.
  rewrite isum_ravel.
  rewrite (isum_ext _ _ (fun k => idelta (tslots l j) k * v (ravel (map bfund l) k))).
  - apply isum_idelta with (f := fun k => v (ravel (map bfund l) k)). apply tslots_in_shape; assumption.
  - intros k Hk. rewrite unravel_ravel by exact Hk. rewrite transformed_overlaps by assumption. reflexivity.
Qed.

Lemma nth_tslots l : forall j ax, (ax < length l)%nat -> length j = length l ->
  nth ax (tslots l j) 0%nat = tslot (nth ax l (BFund 0)) (nth ax j 0%nat).
Proof.
  induction l as [|b l IH]; intros [|i j] [|ax] Ha Hj; cbn in *; try lia. apply IH; lia.
Qed.

(** The fraction of a sample along an axis is f / n for the list state of that sample
    along that axis, the plane wave of frequency f on n points. *)
Lemma sample_fractions_spec same l : identity_test same -> bwf (BTuple l) -> Forall (fun b => is_transformed b = true) l ->
  exists fr, sample_fractions same l = Some fr /\
    forall s ax, in_shape s (map bsize l) -> (ax < length l)%nat ->
    let b := nth ax l (BFund 0) in
    exists f, is_freq (bfund b) (tslot b (nth ax s 0%nat)) f /\
      (forall x, bstate b (nth ax s 0%nat) x = plane_wave (bfund b) f x) /\
      fr ax (ravel (map bsize l) s) = (IZR f / INR (bfund b))%R.
Proof.
  intros Hs Hw Ht. unfold sample_fractions. rewrite as_fundamental_transformed_momenta.
  destruct (convert_from_momenta same l Hs Hw Ht) as [F [HF V]]. rewrite HF. eexists. split; [reflexivity|].
  intros s ax Hin Hax. cbv beta zeta. set (b := nth ax l (BFund 0)). rewrite V by exact Hin. cbn [RtoC fst].
  assert (HT := tslots_in_shape l s Hw Ht Hin).
  destruct (stacked_nk_points_spec (map bfund l) ax (ravel (map bfund l) (tslots l s)) (ravel_lt _ _ HT) ltac:(rewrite map_length; exact Hax))
    as [idx [Ei Hf]].
  unfold get_stacked_index in Ei. destruct (_ && _)%bool; [|discriminate]. injection Ei as <-.
  rewrite Nat2Z.id, unravel_ravel in Hf by exact HT.
  assert (Hls : length s = length l) by (apply in_shape_length in Hin; rewrite map_length in Hin; exact Hin).
  rewrite nth_tslots in Hf by assumption.
  assert (En : nth ax (map bfund l) 0%nat = bfund b) by (unfold b; apply (map_nth bfund l (BFund 0))).
  rewrite En in *. fold b in Hf. exists (stacked_nk_points (map bfund l) ax (ravel (map bfund l) (tslots l s))).
  split; [exact Hf|]. split; [|reflexivity].
  intros x. assert (Hb : bwf b) by (apply (proj1 (Forall_nth _ _) (tuple_wf_forall l Hw)); exact Hax).
  assert (Hbt : is_transformed b = true) by (apply (proj1 (Forall_nth _ _) Ht); exact Hax).
  assert (Hi : (nth ax s 0 < bsize b)%nat).
  { assert (X : (nth ax s 0 < nth ax (map bsize l) 0)%nat).
    { clear -Hin Hax. revert ax Hax. remember (map bsize l) as sh eqn:E. revert l E. induction Hin as [|a n s sh Ha Hin IH]; intros l E ax Hax.
      - destruct l; [cbn in Hax; lia|discriminate].
      - destruct l as [|c l]; [discriminate|]. injection E as E1 E2. destruct ax as [|ax]; cbn; [exact Ha|]. apply (IH l E2). cbn in Hax. lia. }
    rewrite (map_nth bsize l (BFund 0)) in X. exact X. }
  rewrite (bstate_transformed b _ x Hb Hbt Hi). apply plane_wave_cong; [apply bfund_pos; exact Hb|].
  apply Zcong_sym. exact (proj1 Hf).
Qed.

Lemma in_shape_nth s sh ax : in_shape s sh -> (ax < length sh)%nat -> (nth ax s 0 < nth ax sh 0)%nat.
Proof.
  intros H. revert ax. induction H as [|a n s sh Ha H IH]; intros ax Hax; [cbn in Hax; lia|].
  destruct ax; cbn; [exact Ha|]. apply IH. cbn in Hax. lia.
Qed.

Lemma fundt_wf ls : Forall (fun n => (0 < n)%nat) ls -> Forall (fun b => is_transformed b = true) (map BFundT ls).
Proof. intros H. induction H; constructor; auto. Qed.

Lemma sample_fractions_fundamental same ls : identity_test same -> Forall (fun n => (0 < n)%nat) ls ->
  exists fr, sample_fractions same (map BFundT ls) = Some fr /\
    forall s ax f, in_shape s ls -> (ax < length ls)%nat -> is_freq (nth ax ls 0%nat) (nth ax s 0%nat) f ->
      fr ax (ravel ls s) = (IZR f / INR (nth ax ls 0%nat))%R.
Proof.
  intros Hs Hp. destruct (sample_fractions_spec same (map BFundT ls) Hs (momenta_wf ls Hp) (fundt_wf ls Hp)) as [fr [E V]].
  exists fr. split; [exact E|]. intros s ax f Hin Hax Hf.
  rewrite map_bsize_FundT in V. specialize (V s ax Hin ltac:(rewrite map_length; exact Hax)). cbv zeta in V.
  assert (Eb : nth ax (map BFundT ls) (BFund 0) = BFundT (nth ax ls 0%nat)).
  { rewrite (nth_indep _ _ (BFundT 0)) by (rewrite map_length; exact Hax). apply (map_nth BFundT). }
  rewrite Eb in V. cbn [bfund tslot] in V. destruct V as [g [Hg [_ Ev]]]. rewrite (is_freq_unique _ _ _ _ Hf Hg). exact Ev.
Qed.

(** Position-type list axes: the fractions of an odd axis are all zero. *)
Lemma freq_opp n k : (k < n)%nat -> Nat.Odd n -> freq n ((n - k) mod n) = (- freq n k)%Z.
Proof.
  intros Hk Ho. assert (H0 := freq_is_freq n k Hk).
  apply (is_freq_unique n ((n - k) mod n)); [apply freq_is_freq, Nat.mod_upper_bound; lia|].
  destruct H0 as [[q Hq] Hr]. split.
  - apply Zcong_trans with (b := Z.of_nat (n - k)).
    + exists (- q - 1)%Z. rewrite Nat2Z.inj_sub by lia. lia.
    + rewrite Nat2Z.inj_mod. apply Zcong_sym. apply Zcong_mod. lia.
  - destruct Ho as [m Hm]. subst n. Z.div_mod_to_equations. lia.
Qed.

Lemma overlap_position n i k : (i < n)%nat -> (k < n)%nat -> overlap (BFund n) (BFundT n) i k = plane_wave n (freq n k) i.
Proof.
  intros Hi Hk. unfold overlap. cbn [bfund bstate]. rewrite (csum_ext _ (fun x => cdelta i x * plane_wave n (freq n k) x)).
  - apply csum_delta_l. exact Hi.
  - intros x _. rewrite Cconj_cdelta. reflexivity.
Qed.

Lemma sample_fractions_position same n : identity_test same -> Nat.Odd n ->
  exists fr, sample_fractions same [BFund n] = Some fr /\ forall i, (i < n)%nat -> fr 0%nat i = 0%R.
Proof.
  intros Hs Ho. assert (Hn : (0 < n)%nat) by (destruct Ho; lia).
  unfold sample_fractions. rewrite as_fundamental_transformed_momenta.
  destruct (proj2 (convert_some_iff same _ _) (compatible_from_momenta [BFund n])) as [F HF]. rewrite HF.
  eexists. split; [reflexivity|]. intros i Hi. cbv beta. cbn [map bfund nth] in *.
  set (v := fun t => RtoC (IZR (stacked_nk_points [n] 0 t) / INR n)).
  assert (Hw : bwf (BTuple [BFund n])) by (cbn; lia).
  assert (Hp : Forall (fun n => (0 < n)%nat) [n]) by (repeat constructor; exact Hn).
  destruct (full_bases _ (momenta_wf _ Hp) (momenta_full [n])) as [_ [Oe _]].
  assert (E : F v i = csum (fun k => plane_wave n (freq n k) i * RtoC (IZR (freq n k) / INR n)) n).
  { rewrite (convert_stacked same _ _ F Hs (momenta_wf _ Hp) Hw Oe HF v i) by (cbn; lia).
    cbn [map bsize nprod]. rewrite Nat.mul_1_r. apply csum_ext. intros k Hk. cbn [unravel nprod axis_overlaps].
    rewrite !Nat.div_1_r. rewrite overlap_position by assumption. unfold v.
    destruct (stacked_nk_points_spec [n] 0 k ltac:(cbn; lia) ltac:(cbn; lia)) as [idx [Ei Hf]].
    unfold get_stacked_index in Ei. destruct (_ && _)%bool; [|discriminate]. injection Ei as <-.
    rewrite Nat2Z.id in Hf. change (is_freq n (k / 1) (stacked_nk_points [n] 0 k)) in Hf. rewrite Nat.div_1_r in Hf.
    rewrite (is_freq_unique _ _ _ _ Hf (freq_is_freq n k Hk)). ring. }
  rewrite E. set (S := csum _ n).
  assert (C : Cconj S = (- (1)) * S).
  { unfold S. rewrite Cconj_csum, <- csum_scal_l.
    rewrite <- (csum_bij (fun k => - (1) * (plane_wave n (freq n k) i * RtoC (IZR (freq n k) / INR n))) n n
       (fun k => (n - k) mod n)%nat (fun k => (n - k) mod n)%nat).
    - apply csum_ext. intros k Hk. rewrite freq_opp by assumption. rewrite Cconj_mult, plane_wave_conj, Cconj_RtoC, opp_IZR.
      replace (- IZR (freq n k) / INR n)%R with (- (IZR (freq n k) / INR n))%R by (unfold Rdiv; ring).
      rewrite RtoC_opp. unfold plane_wave. rewrite Z.mul_opp_l. ring.
    - intros k Hk. split; [apply Nat.mod_upper_bound; lia|]. destruct k as [|k].
      + rewrite Nat.sub_0_r, Nat.mod_same, Nat.sub_0_r, Nat.mod_same by lia. reflexivity.
      + rewrite (Nat.mod_small (n - Datatypes.S k)) by lia. rewrite Nat.mod_small by lia. lia.
    - intros k Hk. split; [apply Nat.mod_upper_bound; lia|]. destruct k as [|k].
      + rewrite Nat.sub_0_r, Nat.mod_same, Nat.sub_0_r, Nat.mod_same by lia. reflexivity.
      + rewrite (Nat.mod_small (n - Datatypes.S k)) by lia. rewrite Nat.mod_small by lia. lia. }
  clearbody S. destruct S as [x y]. apply (f_equal fst) in C. cbn in C |- *. lra.
Qed.

(** ** Generated wavepackets *)

Lemma eigenvectors_some eigh n A lo hi : (lo <= hi)%nat -> (hi < n)%nat ->
  calculate_eigenvectors_hermitian eigh n A (Z.of_nat lo) (Z.of_nat hi) =
  Some (fst (eigh n A lo hi), fun k i => snd (eigh n A lo hi) i k).
Proof.
  intros H1 H2. unfold calculate_eigenvectors_hermitian.
  rewrite (proj2 (Z.leb_le 0 (Z.of_nat lo))), (proj2 (Z.leb_le (Z.of_nat lo) (Z.of_nat hi))), (proj2 (Z.ltb_lt (Z.of_nat hi) (Z.of_nat n))) by lia.
  cbn [andb]. rewrite !Nat2Z.id. destruct (eigh n A lo hi). reflexivity.
Qed.

Lemma python_index_nat n i : (i < n)%nat -> python_index n (Z.of_nat i) = Some i.
Proof.
  intros H. unfold python_index.
  destruct (Z.leb_spec 0 (Z.of_nat i)); [|lia]. destruct (Z.ltb_spec (Z.of_nat i) (Z.of_nat n)); [|lia].
  cbn [andb]. rewrite Nat2Z.id. reflexivity.
Qed.

Section Generate.
  Context (eigh : eigh_fn) (Heigh : eigh_ok eigh).
  Context (ns n nb step offset : nat) (frac : nat -> list R) (ham : list R -> nat -> nat -> C).
  Context (Hns : (0 < ns)%nat) (Hnb : (0 < nb)%nat) (Hstep : (0 < step)%nat) (Hoff : (offset + step * (nb - 1) < n)%nat).
  Context (Hh : forall i, (i < ns)%nat -> hermitian n (ham (frac i))).

  Lemma generate_spec : exists vectors energies,
    generate_uneven_wavepacket eigh ns frac n ham nb (Z.of_nat step) (Z.of_nat offset) = Some (vectors, energies) /\
    ashape vectors = [(nb * ns * n)%nat] /\ ashape energies = [(nb * ns)%nat] /\
    forall i, (i < ns)%nat ->
      (forall b, (b < nb)%nat -> exists e : R,
        aflat energies (b * ns + i) = RtoC e /\
        (forall E, ascending_spectrum n (ham (frac i)) E -> e = E (offset + step * b)%nat) /\
        forall x, (x < n)%nat ->
          csum (fun y => ham (frac i) x y * band_state ns n vectors i b y) n = RtoC e * band_state ns n vectors i b x) /\
      forall b c, (b < nb)%nat -> (c < nb)%nat ->
        inner_product n (band_state ns n vectors i b) (band_state ns n vectors i c) = cdelta b c.
  Proof.
    unfold generate_uneven_wavepacket. destruct (Nat.eqb_spec ns 0) as [E0|_]; [lia|].
    replace (Z.of_nat offset + Z.of_nat step * (Z.of_nat nb - 1))%Z with (Z.of_nat (offset + step * (nb - 1))) by nia.
    set (hi := (offset + step * (nb - 1))%nat) in *. assert (Hlo : (offset <= hi)%nat) by apply Nat.le_add_r.
    destruct (all_some_map (fun i => calculate_eigenvectors_hermitian eigh n (ham (frac i)) (Z.of_nat offset) (Z.of_nat hi))
      (fun _ => 0%R, fun _ _ => RtoC 0%R) (seq 0 ns) 0%nat) as [l [El [Ll Nl]]].
    { intros x _. eexists. apply eigenvectors_some; assumption. }
    rewrite El.
    destruct (all_some_map (fun b => python_index (Z.to_nat (Z.of_nat hi - Z.of_nat offset + 1)) (Z.of_nat step * Z.of_nat b)) 0%nat (seq 0 nb) 0%nat)
      as [idx [Ei [Li Ni]]].
    { intros b Hb. apply in_seq in Hb. exists (step * b)%nat. rewrite <- Nat2Z.inj_mul. apply python_index_nat. unfold hi. nia. }
    rewrite Ei. rewrite seq_length in Ll, Nl, Li, Ni.
    assert (Vi : forall b, (b < nb)%nat -> nth b idx 0%nat = (step * b)%nat).
    { intros b Hb. specialize (Ni b Hb). rewrite seq_nth in Ni by exact Hb. cbn in Ni. rewrite <- Nat2Z.inj_mul, python_index_nat in Ni by (unfold hi; nia).
      injection Ni as <-. reflexivity. }
    assert (Vl : forall i, (i < ns)%nat -> nth i l (fun _ => 0%R, fun _ _ => RtoC 0%R) =
      (fst (eigh n (ham (frac i)) offset hi), fun k j => snd (eigh n (ham (frac i)) offset hi) j k)).
    { intros i Hi. specialize (Nl i Hi). rewrite seq_nth in Nl by exact Hi. cbn [Nat.add] in Nl.
      rewrite eigenvectors_some in Nl by assumption. injection Nl as <-. reflexivity. }
    eexists; eexists. split; [reflexivity|]. split; [cbn [ravel_array array3 ashape nprod]; f_equal; lia|].
    split; [cbn [ravel_array array2 ashape nprod]; f_equal; lia|].
    intros i Hi.
    specialize (Heigh n (ham (frac i)) offset hi (Hh i Hi) Hlo Hoff).
    destruct (eigh n (ham (frac i)) offset hi) as [e v] eqn:Ee. cbn [fst snd] in *.
    destruct Heigh as [Ho [Hv HE]].
    assert (B : forall b y, (b < nb)%nat -> (y < n)%nat ->
      band_state ns n (ravel_array (array3 nb ns n (fun b i k => snd (nth i l (fun _ => 0%R, fun _ _ => RtoC 0%R)) (nth b idx 0%nat) k))) i b y
      = v y (step * b)%nat).
    { intros b y Hb Hy. unfold band_state, row. cbn [ravel_array aflat]. rewrite array3_flat by assumption.
      rewrite Vl by exact Hi. rewrite Ee. cbn [snd]. rewrite Vi by exact Hb. reflexivity. }
    assert (Hk : forall b, (b < nb)%nat -> (step * b < hi - offset + 1)%nat) by (intros b Hb; unfold hi; nia).
    split.
    - intros b Hb. exists (e (step * b)%nat). split.
      + cbn [ravel_array aflat]. rewrite array2_flat by exact Hi. rewrite Vl by exact Hi. rewrite Ee. cbn [fst]. rewrite Vi by exact Hb. reflexivity.
      + split; [intros E HEs; apply (HE E HEs), Hk, Hb|]. intros x Hx. rewrite B by assumption.
        rewrite <- (Hv (step * b)%nat x (Hk b Hb) Hx). apply csum_ext. intros y Hy. rewrite B by assumption. reflexivity.
    - intros b c Hb Hc. unfold inner_product. rewrite (csum_ext _ (fun y => Cconj (v y (step * b)%nat) * v y (step * c)%nat)).
      + rewrite Ho by (apply Hk; assumption). unfold cdelta.
        destruct (Nat.eqb_spec (step * b) (step * c)), (Nat.eqb_spec b c); try reflexivity; nia.
      + intros y Hy. rewrite !B by assumption. reflexivity.
  Qed.
End Generate.

Lemma generate_raises eigh ns frac n ham nb (step offset : Z) : (0 < step)%Z ->
  (ns = 0%nat \/ nb = 0%nat \/ (offset < 0)%Z \/ (Z.of_nat n <= offset + step * (Z.of_nat nb - 1))%Z) ->
  generate_uneven_wavepacket eigh ns frac n ham nb step offset = None.
Proof.
  intros Hst H. unfold generate_uneven_wavepacket. destruct (Nat.eqb_spec ns 0) as [E0|Hns]; [reflexivity|].
  assert (N : forall i, calculate_eigenvectors_hermitian eigh n (ham (frac i)) offset (offset + step * (Z.of_nat nb - 1)) = None).
  { intros i. unfold calculate_eigenvectors_hermitian.
    destruct (Z.leb_spec 0 offset); [|reflexivity]. cbn [andb].
    destruct (Z.leb_spec offset (offset + step * (Z.of_nat nb - 1))); [|reflexivity]. cbn [andb].
    destruct (Z.ltb_spec (offset + step * (Z.of_nat nb - 1)) (Z.of_nat n)); [|reflexivity].
    exfalso. nia. }
  destruct ns as [|m]; [lia|]. cbn [seq map all_some]. rewrite N. reflexivity.
Qed.
