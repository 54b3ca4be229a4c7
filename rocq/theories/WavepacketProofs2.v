(** Wavepackets in position space: Bloch states. *)
From Coq Require Import Reals.
From Verif Require Import ZLib Csum DFT NumPy Interp Index IndexProofs AxesProofs Spec Basis SpecBasis BasisProofs BasisProofs2
  BasisProofs3 BasisFacts Operator SpecOperator OperatorProofs IndexSum Wavepacket SpecWavepacket WavepacketProofs.
Local Open Scope R_scope.
Local Open Scope C_scope.

(** ** Stacked basis states by axis *)
Fixpoint axis_states (l : list basis) (k x : list nat) : C :=
  match l, k, x with
  | b :: l, k1 :: k, x1 :: x => bstate b k1 x1 * axis_states l k x
  | _, _, _ => 1
  end.

Lemma bstate_ravel l : forall k x, in_shape k (map bsize l) -> in_shape x (map bfund l) ->
  bstate (BTuple l) (ravel (map bsize l) k) (ravel (map bfund l) x) = axis_states l k x.
Proof.
  induction l as [|b l IH]; intros k x Hk Hx; inversion Hk as [|k1 ? k' ? Hk1 Hk']; subst;
    inversion Hx as [|x1 ? x' ? Hx1 Hx']; subst; [reflexivity|].
  cbn [map bstate product_states axis_states ravel nprod]. rewrite !map_map. cbn [fst snd].
  assert (Lk := ravel_lt _ _ Hk'). assert (Lx := ravel_lt _ _ Hx').
  rewrite (div_add_small k1 (nprod (map bsize l))), (mod_add_small k1 (nprod (map bsize l))) by assumption.
  rewrite (div_add_small x1 (nprod (map bfund l))), (mod_add_small x1 (nprod (map bfund l))) by assumption.
  f_equal. apply (IH k' x' Hk' Hx').
Qed.

Lemma amplitude_isum l v x : in_shape x (map bfund l) ->
  amplitude (BTuple l) v (ravel (map bfund l) x) =
  isum (map bsize l) (fun k => v (ravel (map bsize l) k) * axis_states l k x).
Proof.
  intros Hx. unfold amplitude. change (bsize (BTuple l)) with (nprod (map bsize l)).
  rewrite isum_ravel. apply isum_ext. intros k Hk. rewrite bstate_ravel by assumption. reflexivity.
Qed.

Lemma convert_amplitude same a b F : identity_test same -> bwf a -> bwf b -> explicit_orthonormal a -> complete b ->
  convert same a b = Some F -> forall v x, (x < bfund b)%nat -> amplitude b (F v) x = amplitude a v x.
Proof.
  intros Hs Ha Hb Oa Cb HF v x Hx. assert (E := convert_some_fund _ _ _ _ HF). unfold amplitude.
  rewrite (csum_ext _ (fun j => csum (fun k => csum (fun y =>
     v k * (bstate a k y * (bstate b j x * Cconj (bstate b j y)))) (bfund a)) (bsize a))).
  2:{ intros j Hj. rewrite (convert_orthonormal same Hs a b F Ha Hb Oa HF v j Hj).
      rewrite <- csum_scal_r. apply csum_ext. intros k Hk. unfold overlap.
      rewrite <- !csum_scal_r. apply csum_ext. intros y Hy. ring. }
  rewrite csum_swap. apply csum_ext. intros k Hk. rewrite csum_swap.
  rewrite (csum_ext _ (fun y => v k * bstate a k y * cdelta x y)).
  2:{ intros y Hy. rewrite <- (Cb x y) by lia. rewrite <- csum_scal_l. apply csum_ext. intros j _. ring. }
  rewrite csum_delta_r by lia. reflexivity.
Qed.

(** ** One axis *)
Lemma plane_wave_bloch n m f g x : (0 < n)%nat -> (0 < m)%nat ->
  plane_wave (n * m) (Z.of_nat n * f + g) x =
  isqrt n * omega (n * m) (g * Z.of_nat x) * plane_wave m f (x mod m).
Proof.
  intros Hn Hm. unfold plane_wave. rewrite isqrt_mul.
  replace ((Z.of_nat n * f + g) * Z.of_nat x)%Z with (f * Z.of_nat x * Z.of_nat n + g * Z.of_nat x)%Z by ring.
  rewrite omega_add. replace (n * m)%nat with (m * n)%nat at 1 by lia. rewrite omega_scale by assumption.
  rewrite (omega_cong m (f * Z.of_nat x) (f * Z.of_nat (x mod m))); [ring|assumption|].
  rewrite Nat2Z.inj_mod. destruct (Zcong_mod (Z.of_nat m) (Z.of_nat x) ltac:(lia)) as [q Hq].
  exists (- (f * q))%Z. rewrite Hq. ring.
Qed.

Lemma axis_states_unfurl ls : forall ss s k x, length ls = length ss -> in_shape s ls -> in_shape k ss ->
  in_shape x (supercell ls ss) ->
  axis_states (map BFundT (supercell ls ss)) (unfurl_slot ls ss s k) x =
  isqrt (nprod ls) * plane (supercell ls ss) (sample_freqs ls s) (map Z.of_nat x) *
  axis_states (map BFundT ss) k (in_cell ss x).
Proof.
  induction ls as [|n ls IH]; intros [|m ss] s k x Hl Hs Hk Hx; try discriminate;
    inversion Hs as [|i ? s' ? Hi Hs']; subst; inversion Hk as [|j ? k' ? Hj Hk']; subst;
    inversion Hx as [|y ? x' ? Hy Hx']; subst.
  - cbn. unfold isqrt. change (INR 1) with 1%R. rewrite sqrt_1, Rinv_1. ring.
  - cbn [supercell map unfurl_slot axis_states bstate sample_freqs plane in_cell nprod].
    rewrite IH by (auto; cbn in Hl; lia).
    assert (Ht : (slot (n * m) (Z.of_nat n * freq m j + freq n i) < n * m)%nat) by (apply slot_lt; nia).
    rewrite (plane_wave_cong (n * m) _ (Z.of_nat n * freq m j + freq n i)%Z);
      [|nia|eapply Zcong_trans; [apply freq_cong; exact Ht|apply slot_cong; nia]].
    rewrite plane_wave_bloch by lia. rewrite (isqrt_mul n (nprod ls)). ring.
Qed.

Lemma in_cell_in ss : forall ls x, length ls = length ss -> in_shape x (supercell ls ss) -> in_shape (in_cell ss x) ss.
Proof.
  induction ss as [|m ss IH]; intros [|n ls] x Hl Hx; try discriminate; inversion Hx as [|y ? x' ? Hy Hx']; subst; cbn [in_cell].
  - constructor.
  - constructor; [apply Nat.mod_upper_bound; nia|]. apply (IH ls); auto.
Qed.
Lemma map_bsize_FundT l : map bsize (map BFundT l) = l.
Proof. rewrite map_map. apply map_id. Qed.
Lemma map_bfund_FundT l : map bfund (map BFundT l) = l.
Proof. rewrite map_map. apply map_id. Qed.

Lemma inv_isqrt n : (0 < n)%nat -> RtoC (/ INR n) = isqrt n * isqrt n.
Proof.
  intros Hp. assert (E := isqrt_sqr n Hp).
  rewrite <- (Cmult_1_r (RtoC (/ _))), <- E. rewrite RtoC_inv by (apply not_0_INR; lia). field.
  intros Z. apply RtoC_inj in Z. revert Z. apply not_0_INR. lia.
Qed.

Lemma amplitude_momenta ss v x : in_shape x ss ->
  amplitude (momenta ss) v (ravel ss x) = isum ss (fun k => v (ravel ss k) * axis_states (map BFundT ss) k x).
Proof.
  intros Hx. unfold momenta. assert (H := amplitude_isum (map BFundT ss) v x).
  rewrite map_bfund_FundT, map_bsize_FundT in H. apply H. exact Hx.
Qed.

Lemma unfurl_momentum_amplitude ls ss d out x : length ls = length ss ->
  nprod (ashape d) = (nprod ls * nprod ss)%nat -> unfurl_momentum ls ss d = Some out -> in_shape x (supercell ls ss) ->
  amplitude (momenta (supercell ls ss)) (aflat out) (ravel (supercell ls ss) x) =
  RtoC (/ INR (nprod ls)) * csum (fun s =>
     plane (supercell ls ss) (sample_freqs ls (unravel ls s)) (map Z.of_nat x) *
     amplitude (momenta ss) (row (nprod ss) (aflat d) s) (ravel ss (in_cell ss x))) (nprod ls).
Proof.
  intros Hl Hd E Hx. destruct (unfurl_momentum_spec ls ss d Hl Hd) as [u2 [E2 [_ Su]]]. rewrite E in E2. injection E2 as <-.
  rewrite amplitude_momenta by assumption. rewrite isum_unfurl by assumption.
  rewrite isum_ravel, <- isum_scal_l. apply isum_ext. intros s Hs.
  assert (Hp : (0 < nprod ls)%nat) by (assert (Hr := ravel_lt ls s Hs); lia).
  rewrite amplitude_momenta by (apply (in_cell_in ss ls); assumption).
  rewrite unravel_ravel by assumption. rewrite <- !isum_scal_l. apply isum_ext. intros k Hk.
  rewrite Su, axis_states_unfurl by assumption. rewrite inv_isqrt by assumption. unfold row. ring.
Qed.

(** ** Conversion of a wavepacket to the momentum basis *)
Lemma momenta_wf ls : Forall (fun n => (0 < n)%nat) ls -> bwf (momenta ls).
Proof. intros H. unfold momenta. cbn [bwf]. induction H; cbn; auto. Qed.
Lemma momenta_full ls : full (momenta ls).
Proof. unfold momenta. cbn [full]. induction ls; cbn; auto. Qed.
Lemma momenta_size ls : bsize (momenta ls) = nprod ls.
Proof. unfold momenta. cbn [bsize]. rewrite map_bsize_FundT. reflexivity. Qed.
Lemma momenta_fund ls : bfund (momenta ls) = nprod ls.
Proof. unfold momenta. cbn [bfund]. rewrite map_bfund_FundT. reflexivity. Qed.
Lemma as_fundamental_transformed_momenta l : as_fundamental_transformed l = momenta (map bfund l).
Proof. unfold as_fundamental_transformed, momenta. rewrite map_map. reflexivity. Qed.
Lemma compatible_momenta l : compatible (BTuple l) (momenta (map bfund l)).
Proof.
  constructor.
  - change (bfund (BTuple (map BFundT (map bfund l)))) with (bfund (momenta (map bfund l))). rewrite momenta_fund. reflexivity.
  - induction l as [|b l IH]; cbn [map]; constructor; [|exact IH]. constructor; [intros la lb [_ E]; discriminate|reflexivity].
Qed.
Lemma convert_momenta_self same ls : identity_test same -> Forall (fun n => (0 < n)%nat) ls ->
  exists F, convert same (momenta ls) (momenta ls) = Some F /\ forall v j, (j < nprod ls)%nat -> F v j = v j.
Proof.
  intros Hs Hp. assert (Hc := compatible_momenta (map BFundT ls)). rewrite map_bfund_FundT in Hc. fold (momenta ls) in Hc.
  apply (convert_some_iff same) in Hc. destruct Hc as [F HF]. exists F. split; [exact HF|]. intros v j Hj.
  destruct (full_bases (momenta ls) (momenta_wf ls Hp) (momenta_full ls)) as [_ [Oe Oo]].
  rewrite (convert_orthonormal same Hs _ _ F (momenta_wf ls Hp) (momenta_wf ls Hp) Oe HF v j) by (rewrite momenta_size; exact Hj).
  rewrite (csum_ext _ (fun k => cdelta j k * v k)).
  - apply csum_delta_l. rewrite momenta_size; exact Hj.
  - intros k Hk. rewrite Oo by (rewrite ?momenta_size in *; assumption). reflexivity.
Qed.


Lemma tuple_wf_forall l : bwf (BTuple l) -> Forall bwf l.
Proof. cbn [bwf]. induction l as [|b l IH]; intros H; [constructor|]. destruct H. constructor; auto. Qed.
Lemma fund_shape_pos l : bwf (BTuple l) -> Forall (fun n => (0 < n)%nat) (map bfund l).
Proof. intros H. apply tuple_wf_forall in H. induction H; cbn [map]; constructor; [apply bfund_pos; assumption|assumption]. Qed.

Section Wavepacket.
  Context (same : basis -> basis -> bool) (Hsame : identity_test same).
  Context (ls : list nat) (saxes : list basis).
  Context (Hls : Forall (fun n => (0 < n)%nat) ls) (Hw : bwf (BTuple saxes)) (He : explicit_orthonormal (BTuple saxes)).
  Let ss := map bfund saxes.
  Let N := bsize (BTuple saxes).

  Lemma convert_wavepacket_rows d : nprod (ashape d) = (nprod ls * N)%nat ->
    exists d' G, convert_wavepacket same (BTuple (map BFundT ls)) (BTuple saxes)
        (as_fundamental_transformed (map BFundT ls)) (as_fundamental_transformed saxes) d = Some d' /\
      convert same (BTuple saxes) (momenta ss) = Some G /\
      nprod (ashape d') = (nprod ls * nprod ss)%nat /\
      forall s k, (s < nprod ls)%nat -> (k < nprod ss)%nat ->
        row (nprod ss) (aflat d') s k = G (row N (aflat d) s) k.
  Proof.
    intros Hd. unfold convert_wavepacket. rewrite !as_fundamental_transformed_momenta, map_bfund_FundT. fold (momenta ls) ss.
    rewrite reshape_some by (rewrite Hd, momenta_size; unfold N; cbn [nprod]; lia).
    destruct (convert_momenta_self same ls Hsame Hls) as [F [HF IF]]. rewrite HF.
    destruct (proj2 (convert_some_iff same (BTuple saxes) (momenta ss)) (compatible_momenta saxes)) as [G HG]. rewrite HG.
    eexists; exists G. split; [reflexivity|]. split; [reflexivity|].
    cbn [ashape ravel_array array2]. rewrite !momenta_size. split; [cbn [nprod]; lia|].
    intros s k Hs Hk. unfold row. cbn [aflat ravel_array].
    rewrite array2_flat by exact Hk.
    assert (EG := convert_orthonormal same Hsame _ _ G Hw (momenta_wf ss (fund_shape_pos _ Hw)) He HG).
    rewrite !EG by (rewrite momenta_size; exact Hk). apply csum_ext. intros k' Hk'.
    rewrite IF by exact Hs. f_equal.
  Qed.

  Lemma momenta_ss_complete : complete (momenta ss).
  Proof. apply full_bases; [apply momenta_wf, fund_shape_pos; exact Hw|apply momenta_full]. Qed.

  Lemma convert_rows_amplitude d d' G s x :
    convert same (BTuple saxes) (momenta ss) = Some G ->
    (forall s k, (s < nprod ls)%nat -> (k < nprod ss)%nat -> row (nprod ss) (aflat d') s k = G (row N (aflat d) s) k) ->
    (s < nprod ls)%nat -> (x < nprod ss)%nat ->
    amplitude (momenta ss) (row (nprod ss) (aflat d') s) x = amplitude (BTuple saxes) (row N (aflat d) s) x.
  Proof.
    intros HG Hr Hs Hx.
    rewrite <- (convert_amplitude same _ _ G Hsame Hw (momenta_wf ss (fund_shape_pos _ Hw)) He momenta_ss_complete HG)
      by (rewrite momenta_fund; exact Hx).
    unfold amplitude. rewrite momenta_size. apply csum_ext. intros k Hk. rewrite Hr by assumption. reflexivity.
  Qed.

  Lemma convert_rows_inner d d' e e' G s t :
    convert same (BTuple saxes) (momenta ss) = Some G ->
    (forall s k, (s < nprod ls)%nat -> (k < nprod ss)%nat -> row (nprod ss) (aflat d') s k = G (row N (aflat d) s) k) ->
    (forall s k, (s < nprod ls)%nat -> (k < nprod ss)%nat -> row (nprod ss) (aflat e') s k = G (row N (aflat e) s) k) ->
    (s < nprod ls)%nat -> (t < nprod ls)%nat ->
    inner_product (nprod ss) (row (nprod ss) (aflat d') s) (row (nprod ss) (aflat e') t) =
    inner_product N (row N (aflat d) s) (row N (aflat e) t).
  Proof.
    intros HG Hr Hr' Hs Ht.
    unfold N. rewrite <- (convert_inner same Hsame _ _ G Hw (momenta_wf ss (fund_shape_pos _ Hw)) He momenta_ss_complete HG).
    rewrite momenta_size. unfold inner_product. apply csum_ext. intros k Hk. rewrite Hr, Hr' by assumption. reflexivity.
  Qed.

  Context (Hl : length ls = length saxes).
  Lemma Hl' : length ls = length ss. Proof. unfold ss. rewrite map_length. exact Hl. Qed.
  Lemma nls_pos : (0 < nprod ls)%nat. Proof. apply nprod_pos. exact Hls. Qed.

  Lemma unfurl_wavepacket_amplitude d : nprod (ashape d) = (nprod ls * N)%nat ->
    exists out, unfurl_wavepacket same (map BFundT ls) saxes d = Some out /\
      ashape out = [nprod (supercell ls ss)] /\
      forall x, in_shape x (supercell ls ss) ->
        amplitude (momenta (supercell ls ss)) (aflat out) (ravel (supercell ls ss) x) =
        RtoC (/ INR (nprod ls)) * csum (fun s =>
          plane (supercell ls ss) (sample_freqs ls (unravel ls s)) (map Z.of_nat x) *
          amplitude (BTuple saxes) (row N (aflat d) s) (ravel ss (in_cell ss x))) (nprod ls).
  Proof.
    intros Hd. destruct (convert_wavepacket_rows d Hd) as [d' [G [E [HG [Hd' Hr]]]]].
    unfold unfurl_wavepacket. rewrite E, map_bfund_FundT. fold ss.
    destruct (unfurl_momentum_spec ls ss d' Hl' Hd') as [out [Eo [So _]]].
    exists out. split; [exact Eo|]. split; [exact So|]. intros x Hx.
    rewrite (unfurl_momentum_amplitude ls ss d' out x Hl' Hd' Eo Hx). f_equal. apply csum_ext. intros s Hs. f_equal.
    apply (convert_rows_amplitude d d' G); auto. apply ravel_lt. apply (in_cell_in ss ls); [exact Hl'|exact Hx].
  Qed.

  Lemma unfurl_wavepacket_inner u v u' v' : nprod (ashape u) = (nprod ls * N)%nat -> nprod (ashape v) = (nprod ls * N)%nat ->
    unfurl_wavepacket same (map BFundT ls) saxes u = Some u' -> unfurl_wavepacket same (map BFundT ls) saxes v = Some v' ->
    inner_product (nprod (supercell ls ss)) (aflat u') (aflat v') =
    RtoC (/ INR (nprod ls)) * csum (fun s => inner_product N (row N (aflat u) s) (row N (aflat v) s)) (nprod ls).
  Proof.
    intros Hu Hv Eu Ev.
    destruct (convert_wavepacket_rows u Hu) as [d [G [E [HG [Hd Hr]]]]].
    destruct (convert_wavepacket_rows v Hv) as [e [G' [E' [HG' [He' Hr']]]]]. rewrite HG in HG'. injection HG' as <-.
    unfold unfurl_wavepacket in Eu, Ev. rewrite E, map_bfund_FundT in Eu. rewrite E', map_bfund_FundT in Ev. fold ss in Eu, Ev.
    rewrite (unfurl_inner ls ss d e u' v' Hl' Hd He' Eu Ev nls_pos). f_equal. apply csum_ext. intros s Hs.
    apply (convert_rows_inner u d v e G); assumption.
  Qed.
End Wavepacket.
