(** Position and momentum forms of a state vector, and its interpolation. *)
From Coq Require Import Reals Lra.
From Verif Require Import ZLib Csum DFT NumPy Interp Index IndexProofs Spec Basis SpecBasis BasisProofs BasisProofs2 BasisProofs3 BasisFacts
  Operator SpecOperator OperatorProofs IndexSum Wavepacket SpecWavepacket WavepacketProofs WavepacketProofs2
  InterpProofs InterpProofs2 HamiltonianProofs3 LocalizeProofs4 LocalizeProofs6 StateList SpecFourier FourierProofs2 FourierProofs4 StateInterp SpecStateInterp.
Local Open Scope R_scope.
Local Open Scope C_scope.

Lemma as_transformed_momenta l : as_fundamental_transformed l = momenta (map bfund l).
Proof. unfold as_fundamental_transformed, momenta. rewrite map_map. reflexivity. Qed.

Lemma reshape_vector a n : nprod (ashape a) = n -> reshape a [n] = Some {| ashape := [n]; aflat := aflat a |}.
Proof. intros E. unfold reshape. cbn [nprod]. rewrite Nat.mul_1_r, E, Nat.eqb_refl. reflexivity. Qed.
Lemma reshape_vector_none a n : nprod (ashape a) <> n -> reshape a [n] = None.
Proof. intros E. unfold reshape. cbn [nprod]. rewrite Nat.mul_1_r. apply Nat.eqb_neq in E. rewrite E. reflexivity. Qed.

(** Coefficients: inner products with the states of the new basis. *)
Lemma convert_coefficient same a b F v j : identity_test same -> bwf a -> bwf b -> explicit_orthonormal a -> convert same a b = Some F ->
  (j < bsize b)%nat -> F v j = csum (fun x => Cconj (bstate b j x) * amplitude a v x) (bfund a).
Proof.
  intros Hs Ha Hb Oa HF Hj. rewrite (convert_orthonormal same Hs a b F Ha Hb Oa HF v j Hj). unfold overlap, amplitude.
  rewrite (csum_ext _ (fun k => csum (fun x => Cconj (bstate b j x) * (v k * bstate a k x)) (bfund a))).
  - rewrite csum_swap. apply csum_ext. intros x _. rewrite csum_scal_l. reflexivity.
  - intros k _. rewrite <- csum_scal_r. apply csum_ext. intros x _. ring.
Qed.

Section Forms.
  Variable same : basis -> basis -> bool.
  Hypothesis Hs : identity_test same.
  Variable saxes : list basis.
  Hypothesis Hw : bwf (BTuple saxes).
  Hypothesis He : explicit_orthonormal (BTuple saxes).
  Notation ns := (map bfund saxes).
  Variable d : ndarray.
  Hypothesis Hd : nprod (ashape d) = bsize (BTuple saxes).

  Lemma momentum_form :
    exists out, state_to_momentum same {| vbasis := BTuple saxes; vdata := d |} =
        Some {| vbasis := momenta ns; vdata := {| ashape := [nprod ns]; aflat := out |} |} /\
      forall k, (k < nprod ns)%nat -> out k = csum (fun x => Cconj (bstate (momenta ns) k x) * amplitude (BTuple saxes) (aflat d) x) (nprod ns).
  Proof using Hs Hw He Hd.
    destruct (proj2 (convert_some_iff same _ _) (compatible_momenta saxes)) as [F HF].
    exists (F (aflat d)). split.
    - unfold state_to_momentum, convert_vector_to. cbn [vbasis vdata]. rewrite as_transformed_momenta, HF, (reshape_vector d _ Hd), momenta_size.
      reflexivity.
    - intros k Hk. rewrite (convert_coefficient same (BTuple saxes) (momenta ns) F) by
        (try assumption; try (apply momenta_wf, fund_shape_pos; exact Hw); rewrite momenta_size; exact Hk). reflexivity.
  Qed.

  Lemma position_form :
    exists out, state_to_position same {| vbasis := BTuple saxes; vdata := d |} =
        Some {| vbasis := BTuple (map BFund ns); vdata := {| ashape := [nprod ns]; aflat := out |} |} /\
      forall x, (x < nprod ns)%nat -> out x = amplitude (BTuple saxes) (aflat d) x.
  Proof using Hs Hw He Hd.
    destruct (convert_position same saxes Hs Hw He) as [G [HG EG]]. exists (G (aflat d)). split.
    - unfold state_to_position, convert_vector_to. cbn [vbasis vdata]. rewrite HG, (reshape_vector d _ Hd), as_fundamental_position_tuple.
      cbn [bsize]. rewrite map_bsize_Fund. reflexivity.
    - intros x Hx. apply EG. exact Hx.
  Qed.

  Lemma dual_position_form :
    exists out, dual_to_position same {| vbasis := BTuple saxes; vdata := d |} =
        Some {| vbasis := BTuple (map BFund ns); vdata := {| ashape := [nprod ns]; aflat := out |} |} /\
      forall x, (x < nprod ns)%nat -> out x = csum (fun k => aflat d k * Cconj (bstate (BTuple saxes) k x)) (bsize (BTuple saxes)).
  Proof using Hs Hw He Hd.
    destruct (convert_position same saxes Hs Hw He) as [G [HG EG]]. exists (fun x => Cconj (G (fun k => Cconj (aflat d k)) x)). split.
    - unfold dual_to_position, convert_dual_to, convert_dual. cbn [vbasis vdata]. rewrite HG, (reshape_vector d _ Hd), as_fundamental_position_tuple.
      cbn [bsize]. rewrite map_bsize_Fund. reflexivity.
    - intros x Hx. rewrite EG by exact Hx. unfold amplitude. rewrite Cconj_csum. apply csum_ext. intros k _.
      rewrite Cconj_mult, Cconj_conj. reflexivity.
  Qed.

  Lemma dual_momentum_form :
    exists out, dual_to_momentum same {| vbasis := BTuple saxes; vdata := d |} =
        Some {| vbasis := momenta ns; vdata := {| ashape := [nprod ns]; aflat := out |} |} /\
      forall k, (k < nprod ns)%nat -> out k = csum (fun x => bstate (momenta ns) k x *
        csum (fun j => aflat d j * Cconj (bstate (BTuple saxes) j x)) (bsize (BTuple saxes))) (nprod ns).
  Proof using Hs Hw He Hd.
    destruct (proj2 (convert_some_iff same _ _) (compatible_momenta saxes)) as [F HF].
    exists (fun x => Cconj (F (fun k => Cconj (aflat d k)) x)). split.
    - unfold dual_to_momentum, convert_dual_to, convert_dual. cbn [vbasis vdata]. rewrite as_transformed_momenta, HF, (reshape_vector d _ Hd), momenta_size.
      reflexivity.
    - intros k Hk. rewrite (convert_coefficient same (BTuple saxes) (momenta ns) F) by
        (try assumption; try (apply momenta_wf, fund_shape_pos; exact Hw); rewrite momenta_size; exact Hk). cbn [bfund].
      rewrite Cconj_csum. apply csum_ext. intros x _. rewrite Cconj_mult, Cconj_conj. f_equal. unfold amplitude.
      rewrite Cconj_csum. apply csum_ext. intros j _. rewrite Cconj_mult, Cconj_conj. reflexivity.
  Qed.
End Forms.

(** ** The new axes *)
Lemma named_spec axes k : existsb (fun jax => Z.eqb jax (Z.of_nat k)) axes = true <-> In (Z.of_nat k) axes.
Proof.
  rewrite existsb_exists. split.
  - intros [z [H E]]. apply Z.eqb_eq in E. now subst.
  - intros H. exists (Z.of_nat k). split; [exact H|apply Z.eqb_refl].
Qed.

Lemma momentum_axes_spec shape axes : forall ns iax l,
  momentum_axes shape axes iax ns = Some l <->
  length l = length ns /\ forall k, (k < length ns)%nat -> momentum_axis shape axes (iax + k) (nth k ns 0%nat) = Some (nth k l (BFund 0)).
Proof.
  induction ns as [|n ns IH]; intros iax l; cbn [momentum_axes].
  - split; [intros E; injection E as <-; split; [reflexivity|cbn; intros; lia]|].
    intros [L _]. destruct l; [reflexivity|cbn in L; lia].
  - split.
    + destruct (momentum_axis shape axes iax n) as [b|] eqn:Eb; [|discriminate].
      destruct (momentum_axes shape axes (S iax) ns) as [l'|] eqn:El; [|discriminate].
      intros E. injection E as <-. apply IH in El. destruct El as [L H]. split; [cbn; lia|].
      intros [|k] Hk; cbn [nth]; [rewrite Nat.add_0_r; exact Eb|]. rewrite <- plus_n_Sm. apply H. cbn in Hk. lia.
    + intros [L H]. destruct l as [|b l]; cbn in L; [lia|].
      assert (H0 := H 0%nat ltac:(cbn; lia)). cbn [nth] in H0. rewrite Nat.add_0_r in H0. rewrite H0.
      assert (E : momentum_axes shape axes (S iax) ns = Some l).
      { apply IH. split; [lia|]. intros k Hk. assert (H1 := H (S k) ltac:(cbn; lia)). cbn [nth] in H1. rewrite <- plus_n_Sm in H1. exact H1. }
      rewrite E. reflexivity.
Qed.

Lemma momentum_axes_exists shape axes : forall ns iax,
  (forall k, (k < length ns)%nat -> momentum_axis shape axes (iax + k) (nth k ns 0%nat) <> None) ->
  exists l, momentum_axes shape axes iax ns = Some l.
Proof.
  induction ns as [|n ns IH]; intros iax H; cbn [momentum_axes]; [eexists; reflexivity|].
  assert (H0 := H 0%nat ltac:(cbn; lia)). cbn [nth] in H0. rewrite Nat.add_0_r in H0.
  destruct (momentum_axis shape axes iax n) as [b|]; [|contradiction].
  destruct (IH (S iax)) as [l El].
  - intros k Hk. assert (H1 := H (S k) ltac:(cbn; lia)). cbn [nth] in H1. rewrite <- plus_n_Sm in H1. exact H1.
  - rewrite El. eexists; reflexivity.
Qed.

Lemma momentum_axis_none shape axes k n : momentum_axis shape axes k n = None <->
  In (Z.of_nat k) axes /\ forall m, nth_error shape 1 = Some m -> (m < n)%nat.
Proof.
  unfold momentum_axis. assert (N := named_spec axes k). destruct (existsb _ axes).
  - destruct (nth_error shape 1) as [m|] eqn:E.
    + destruct (Nat.leb_spec n m).
      * split; [discriminate|]. intros [_ H1]. specialize (H1 m eq_refl). lia.
      * split; [|reflexivity]. intros _. split; [now apply N|]. intros m' E'. injection E' as <-. lia.
    + split; [|reflexivity]. intros _. split; [now apply N|discriminate].
  - split; [discriminate|]. intros [H _]. apply N in H. discriminate.
Qed.

Lemma classic_axes shape axes ns : (exists l, momentum_axes shape axes 0 ns = Some l) \/
  (exists k, (k < length ns)%nat /\ momentum_axis shape axes k (nth k ns 0%nat) = None).
Proof.
  enough (H : forall ns iax, (exists l, momentum_axes shape axes iax ns = Some l) \/
    (exists k, (k < length ns)%nat /\ momentum_axis shape axes (iax + k) (nth k ns 0%nat) = None)) by exact (H ns 0%nat).
  clear. induction ns as [|n ns IH]; intros iax; cbn [momentum_axes]; [left; eexists; reflexivity|].
  destruct (momentum_axis shape axes iax n) as [b|] eqn:Eb.
  - destruct (IH (S iax)) as [[l El]|[k [Hk N]]].
    + left. rewrite El. eexists; reflexivity.
    + right. exists (S k). split; [cbn; lia|]. rewrite <- plus_n_Sm. exact N.
  - right. exists 0%nat. split; [cbn; lia|]. rewrite Nat.add_0_r. exact Eb.
Qed.

Lemma momentum_axis_resize shape axes m resize k n b : nth_error shape 1 = Some m -> given_points m axes resize ->
  momentum_axis shape axes k n = Some b ->
  match resize k with Some m' => m' = m /\ b = BTrans n m /\ (n <= m)%nat | None => b = BFundT n end.
Proof.
  intros E [G1 G2]. unfold momentum_axis. assert (N := named_spec axes k). destruct (existsb _ axes).
  - rewrite (G1 k) by now apply N. rewrite E. destruct (Nat.leb_spec n m); [|discriminate]. intros Eb. injection Eb as <-. auto.
  - rewrite (G2 k). { intros Eb. injection Eb as <-. reflexivity. } intros H. apply N in H. discriminate.
Qed.

(** ** The kernel of one axis *)
Lemma plane_wave_resample n m y x : (0 < n)%nat -> (n <= m)%nat ->
  csum (fun k => plane_wave m (freq n k) y * Cconj (plane_wave n (freq n k) x)) n = RtoC (sqrt (INR n / INR m)) * resample n m y x.
Proof.
  intros Hn Hm. assert (Pn : (0 < INR n)%R) by (apply lt_0_INR; lia). assert (Pm : (0 < INR m)%R) by (apply lt_0_INR; lia).
  assert (Sn := sqrt_lt_R0 _ Pn). assert (Sm := sqrt_lt_R0 _ Pm).
  unfold resample. rewrite Cmult_assoc, <- csum_scal_l. apply csum_ext. intros k Hk.
  rewrite (fits_larger n m) by (try assumption; now apply freq_fits).
  unfold plane_wave, isqrt. rewrite Cconj_mult, !position_omega, cis_conj.
  replace (2 * PI * IZR (freq n k) * (position m y - position n x))%R
    with (2 * PI * IZR (freq n k) * position m y + - (2 * PI * IZR (freq n k) * position n x))%R by ring.
  rewrite cis_plus. rewrite sqrt_div_alt by exact Pm.
  replace (Cconj (RtoC (/ sqrt (INR n)))) with (RtoC (/ sqrt (INR n))) by (symmetry; apply (isqrt_conj n)).
  replace (RtoC (sqrt (INR n) / sqrt (INR m)) * RtoC (/ INR n)) with (RtoC (/ sqrt (INR m)) * RtoC (/ sqrt (INR n))).
  - ring.
  - rewrite <- !RtoC_mult. f_equal. rewrite <- (sqrt_sqrt (INR n)) at 3 by lra. field. lra.
Qed.

Lemma kept_axis n y x : (y < n)%nat -> (x < n)%nat ->
  csum (fun k => plane_wave n (freq n k) y * Cconj (plane_wave n (freq n k) x)) n = cdelta y x.
Proof.
  intros Hy Hx. assert (W : bwf (BFundT n)) by (cbn; lia). assert (F : full (BFundT n)) by reflexivity.
  exact (proj1 (full_bases (BFundT n) W F) y x Hy Hx).
Qed.

Lemma axis_kernel shape axes m resize k n b y x : nth_error shape 1 = Some m -> given_points m axes resize ->
  momentum_axis shape axes k n = Some b -> (y < bfund b)%nat -> (x < n)%nat ->
  bsize b = n /\ bfund b = new_len (resize k) n /\ (0 < bfund b)%nat /\
  csum (fun j => bstate b j y * Cconj (plane_wave n (freq n j) x)) n = RtoC (sqrt (INR n / INR (bfund b))) * keep resize resample k n y x.
Proof.
  intros E G Eb Hy Hx. assert (A := momentum_axis_resize _ _ _ _ _ _ _ E G Eb). unfold keep, new_len. destruct (resize k) as [m'|].
  - destruct A as [-> [-> L]]. cbn [bsize bfund bstate] in *. repeat split; try lia. apply plane_wave_resample; lia.
  - subst b. cbn [bsize bfund bstate] in *. repeat split; try lia. rewrite kept_axis by assumption.
    replace (INR n / INR n)%R with 1%R by (field; apply not_0_INR; lia). rewrite sqrt_1. ring.
Qed.

Lemma axes_kernel shape axes m resize : nth_error shape 1 = Some m -> given_points m axes resize ->
  forall ns iax l, Forall (fun n => (0 < n)%nat) ns -> momentum_axes shape axes iax ns = Some l ->
  map bsize l = ns /\ map bfund l = new_shape resize iax ns /\ Forall (fun n => (0 < n)%nat) (map bfund l) /\
  forall y x, in_shape y (map bfund l) -> in_shape x ns ->
    isum ns (fun k => axis_states l k y * Cconj (axis_states (map BFundT ns) k x)) =
    RtoC (sqrt (INR (nprod ns) / INR (nprod (map bfund l)))) * axes_product (keep resize resample) iax ns y x.
Proof.
  intros E G. induction ns as [|n ns IH]; intros iax l P H; cbn [momentum_axes] in H.
  - injection H as <-. split; [reflexivity|]. split; [reflexivity|]. split; [constructor|]. intros y x Hy Hx.
    cbn. replace (1 / 1)%R with 1%R by field. rewrite sqrt_1. apply injective_projections; cbn; ring.
  - destruct (momentum_axis shape axes iax n) as [b|] eqn:Eb; [|discriminate].
    destruct (momentum_axes shape axes (S iax) ns) as [l'|] eqn:El; [|discriminate]. injection H as <-.
    inversion P as [|? ? Pn Pns]; subst. destruct (IH _ _ Pns El) as [S1 [S2 [S3 S4]]].
    assert (Pb : (0 < bfund b)%nat).
    { assert (A := momentum_axis_resize _ _ _ _ _ _ _ E G Eb). destruct (resize iax); [destruct A as [_ [-> ?]]|subst b]; cbn; lia. }
    destruct (axis_kernel _ _ _ _ _ _ _ 0%nat 0%nat E G Eb Pb Pn) as [B1 [B2 _]].
    split; [cbn [map]; congruence|]. split; [cbn [map new_shape]; congruence|]. split; [constructor; assumption|].
    clear B1 B2 S1 S2. intros y x Hy Hx. inversion Hy as [|y1 ? y' ? Hy1 Hy']; subst. inversion Hx as [|x1 ? x' ? Hx1 Hx']; subst.
    cbn [isum axes_product map axis_states nprod].
    destruct (axis_kernel _ _ _ _ _ _ _ y1 x1 E G Eb Hy1 Hx1) as [_ [_ [_ K]]].
    rewrite (csum_ext _ (fun j => (bstate b j y1 * Cconj (plane_wave n (freq n j) x1)) *
       isum ns (fun k => axis_states l' k y' * Cconj (axis_states (map BFundT ns) k x'))) n).
    2:{ intros j Hj. rewrite <- isum_scal_l. apply isum_ext. intros k Hk. cbn [bstate]. rewrite Cconj_mult. ring. }
    rewrite csum_scal_r, K, (S4 y' x' Hy' Hx').
    replace (sqrt (INR (n * nprod ns) / INR (bfund b * nprod (map bfund l')))) with
      (sqrt (INR n / INR (bfund b)) * sqrt (INR (nprod ns) / INR (nprod (map bfund l'))))%R; [rewrite RtoC_mult; ring|].
    assert (Q1 : (0 < INR (bfund b))%R) by (apply lt_0_INR; exact Pb).
    assert (Q2 : (0 < INR (nprod (map bfund l')))%R) by (apply lt_0_INR, nprod_pos; exact S3).
    rewrite <- sqrt_mult.
    + f_equal. rewrite !mult_INR. field. lra.
    + apply Rmult_le_pos; [apply pos_INR|left; apply Rinv_0_lt_compat; exact Q1].
    + apply Rmult_le_pos; [apply pos_INR|left; apply Rinv_0_lt_compat; exact Q2].
Qed.

(** ** The interpolated state *)
Section Interpolate.
  Variable same : basis -> basis -> bool.
  Hypothesis Hs : identity_test same.
  Variable saxes : list basis.
  Hypothesis Hw : bwf (BTuple saxes).
  Hypothesis He : explicit_orthonormal (BTuple saxes).
  Notation ns := (map bfund saxes).
  Variable d : ndarray.
  Hypothesis Hd : nprod (ashape d) = bsize (BTuple saxes).
  Variables (shape : list nat) (axes : list Z).

  Lemma interpolate_raises :
    interpolate_state_vector_momentum same {| vbasis := BTuple saxes; vdata := d |} shape axes = None <->
    exists k, (k < length saxes)%nat /\ In (Z.of_nat k) axes /\ forall m, nth_error shape 1 = Some m -> (m < nth k ns 0)%nat.
  Proof using Hs Hw He Hd.
    destruct (momentum_form same Hs saxes Hw He d Hd) as [out [Eout _]]. unfold state_to_momentum in Eout. cbn [vbasis vdata] in Eout.
    unfold interpolate_state_vector_momentum. cbn [vbasis vdata]. rewrite Eout. split.
    - intros H. destruct (classic_axes shape axes ns) as [[l El]|[k [Hk N]]].
      + rewrite El in H. discriminate.
      + exists k. rewrite map_length in Hk. split; [exact Hk|]. apply momentum_axis_none. exact N.
    - intros [k [Hk N]]. destruct (momentum_axes shape axes 0 ns) as [l|] eqn:El; [|reflexivity]. exfalso.
      apply momentum_axes_spec in El. destruct El as [_ El]. specialize (El k ltac:(rewrite map_length; exact Hk)). cbn [Nat.add] in El.
      apply momentum_axis_none in N. congruence.
  Qed.

  Lemma interpolate_spec m resize : nth_error shape 1 = Some m -> given_points m axes resize -> not_shorter resize ns ->
    exists l out, interpolate_state_vector_momentum same {| vbasis := BTuple saxes; vdata := d |} shape axes =
        Some {| vbasis := BTuple l; vdata := {| ashape := [nprod ns]; aflat := out |} |} /\
      map bsize l = ns /\ resized_shape resize ns (map bfund l) /\
      forall y, in_shape y (map bfund l) ->
        amplitude (BTuple l) out (ravel (map bfund l) y) =
        RtoC (sqrt (INR (nprod shape) / INR (nprod (map bfund l)))) *
          interpolant resize ns (fun x => amplitude (BTuple saxes) (aflat d) (ravel ns x)) y.
  Proof using Hs Hw He Hd.
    intros Em G NS. assert (Pn := fund_shape_pos saxes Hw).
    destruct (momentum_form same Hs saxes Hw He d Hd) as [c [Ec Hc]]. unfold state_to_momentum in Ec. cbn [vbasis vdata] in Ec.
    destruct (momentum_axes_exists shape axes ns 0) as [l El].
    { intros k Hk N. apply momentum_axis_none in N. destruct N as [N1 N2]. specialize (N2 m Em). cbn [Nat.add] in N1.
      assert (Q := NS k m Hk (proj1 G k N1)). lia. }
    destruct (axes_kernel shape axes m resize Em G ns 0%nat l Pn El) as [S1 [S2 [S3 S4]]].
    set (sc := RtoC (sqrt (INR (nprod shape) / INR (nprod ns)))).
    exists l, (fun t => c t * sc). split; [|split; [exact S1|split]].
    - unfold interpolate_state_vector_momentum. cbn [vbasis vdata]. rewrite Ec, El. reflexivity.
    - apply resized_shape_new. exact S2.
    - intros y Hy. rewrite amplitude_isum by exact Hy. rewrite S1.
      transitivity (sc * isum ns (fun x => amplitude (BTuple saxes) (aflat d) (ravel ns x) *
        isum ns (fun k => axis_states l k y * Cconj (axis_states (map BFundT ns) k x)))).
      + rewrite <- isum_scal_l.
        transitivity (isum ns (fun k => isum ns (fun x => sc * (amplitude (BTuple saxes) (aflat d) (ravel ns x) *
            (axis_states l k y * Cconj (axis_states (map BFundT ns) k x)))))).
        * apply isum_ext. intros k Hk. rewrite Hc by (apply ravel_lt; exact Hk).
          rewrite isum_ravel, <- !isum_scal_r. apply isum_ext. intros x Hx.
          assert (B := bstate_ravel (map BFundT ns) k x). rewrite map_bsize_FundT, map_bfund_FundT in B.
          unfold momenta. rewrite (B Hk Hx). ring.
        * rewrite isum_swap. apply isum_ext. intros x Hx. rewrite <- !isum_scal_l. apply isum_ext. intros k Hk. ring.
      + unfold interpolant. rewrite <- !isum_scal_l. apply isum_ext. intros x Hx. rewrite (S4 y x Hy Hx). unfold sc.
        assert (Q1 : (0 < INR (nprod ns))%R) by (apply lt_0_INR, nprod_pos; exact Pn).
        assert (Q2 : (0 < INR (nprod (map bfund l)))%R) by (apply lt_0_INR, nprod_pos; exact S3).
        replace (sqrt (INR (nprod shape) / INR (nprod (map bfund l)))) with
          (sqrt (INR (nprod shape) / INR (nprod ns)) * sqrt (INR (nprod ns) / INR (nprod (map bfund l))))%R; [rewrite RtoC_mult; ring|].
        rewrite <- sqrt_mult.
        * f_equal. field. lra.
        * apply Rmult_le_pos; [apply pos_INR|left; apply Rinv_0_lt_compat; exact Q1].
        * apply Rmult_le_pos; [apply pos_INR|left; apply Rinv_0_lt_compat; exact Q2].
  Qed.

  Lemma interpolate_common m resize v : nth_error shape 1 = Some m -> given_points m axes resize -> not_shorter resize ns ->
    interpolate_state_vector_momentum same {| vbasis := BTuple saxes; vdata := d |} shape axes = Some v ->
    exists l, vbasis v = BTuple l /\
      forall y x, in_shape y (map bfund l) -> in_shape x ns -> same_point resize ns y x ->
        amplitude (vbasis v) (aflat (vdata v)) (ravel (map bfund l) y) =
        RtoC (sqrt (INR (nprod shape) / INR (bfund (vbasis v)))) * amplitude (BTuple saxes) (aflat d) (ravel ns x).
  Proof using Hs Hw He Hd.
    intros Em G NS E. destruct (interpolate_spec m resize Em G NS) as [l [out [E' [S1 [S2 H]]]]]. rewrite E' in E. injection E as <-.
    exists l. split; [reflexivity|]. intros y x Hy Hx Sp. cbn [vbasis vdata aflat bfund]. rewrite (H y Hy). f_equal. unfold interpolant.
    apply (kernel_through resize ns (fun x => amplitude (BTuple saxes) (aflat d) (ravel ns x)) y x); try assumption.
    rewrite (in_shape_length _ _ Hy). exact (proj1 S2).
  Qed.
End Interpolate.
