(** The integral over the potential. *)
From Coq Require Import Reals Lra Lia Psatz.
From Coquelicot Require Import Coquelicot.
From Verif Require Import Csum DFT GammaIntegral SpecGamma GammaProofs GammaProofs2.
Local Open Scope R_scope.

Definition weight (c : constants) (k_f phi : R) : R := gamma_prefactor c k_f * sin phi * (coulomb_potential c (k_f * sin (phi / 2))) ^ 2.

Lemma cos_half_le t : 0 <= t -> t <= PI / 2 -> 0 <= sin t <= 1.
Proof. intros H1 H2. assert (P := PI_RGT_0). split; [apply sin_ge_0; lra|apply SIN_bound]. Qed.

Section Potential.
  Variables (c : constants) (k_f : R).
  Hypothesis Hc : physical c.
  Hypothesis Hk : 0 < k_f.

  (** the angle at which the expression changes *)
  Lemma switch_angle (e : R) : 0 < e -> exists p, 0 <= p <= PI /\
    (forall phi, 0 < phi < p -> k_f * sin (phi / 2) <= e) /\ (forall phi, p < phi < PI -> e < k_f * sin (phi / 2)).
  Proof using Hk.
    intros He. assert (P := PI_RGT_0). destruct (Rle_lt_dec k_f e) as [H|H].
    - exists PI. split; [lra|]. split; [|intros phi Hp; lra]. intros phi Hp.
      assert (B := cos_half_le (phi / 2)). nra.
    - assert (Q : 0 < e / k_f < 1).
      { split; [apply Rdiv_lt_0_compat; lra|]. apply (Rmult_lt_reg_r k_f); [exact Hk|]. unfold Rdiv. rewrite Rmult_assoc, Rinv_l by lra. lra. }
      assert (A := asin_bound (e / k_f)).
      assert (S1 : sin (asin (e / k_f)) = e / k_f) by (apply sin_asin; lra).
      assert (A0 : 0 < asin (e / k_f)).
      { destruct (Rlt_le_dec 0 (asin (e / k_f))) as [G|G]; [exact G|]. exfalso.
        assert (Z : sin (asin (e / k_f)) <= 0); [|lra].
        rewrite <- sin_0. apply sin_incr_1; lra. }
      exists (2 * asin (e / k_f)). split; [lra|]. split; intros phi Hp.
      + assert (Z : sin (phi / 2) <= e / k_f) by (rewrite <- S1; apply sin_incr_1; lra).
        apply Rmult_le_compat_l with (r := k_f) in Z; [|lra]. unfold Rdiv in Z. replace (k_f * (e * / k_f)) with e in Z by (field; lra). exact Z.
      + assert (Z : e / k_f < sin (phi / 2)) by (rewrite <- S1; apply sin_increasing_1; lra).
        apply Rmult_lt_compat_l with (r := k_f) in Z; [|lra]. unfold Rdiv in Z. replace (k_f * (e * / k_f)) with e in Z by (field; lra). exact Z.
  Qed.

  Let small (q : R) := - (2) * ((elementary_charge c) ^ 2 / (epsilon_0 c * (alpha c) ^ 2)) * (1 - 3 / 2 * (q / alpha c) ^ 2).

  Lemma coulomb_cases q : 0 <= q ->
    (q <= / 100000000 * alpha c -> coulomb_potential c q = small q) /\ (/ 100000000 * alpha c < q -> coulomb_potential c q = screened c q).
  Proof using Hc.
    intros Hq. assert (A := alpha_pos c Hc).
    assert (X : Rabs (q / alpha c) = q / alpha c) by (apply Rabs_pos_eq, Rmult_le_pos; [exact Hq|left; apply Rinv_0_lt_compat; exact A]).
    split; intros H.
    - unfold coulomb_potential, small. destruct (Rle_dec (Rabs (q / alpha c)) (/ 100000000)) as [G|G]; [reflexivity|]. exfalso. apply G. rewrite X.
      apply (Rmult_le_reg_r (alpha c)); [exact A|]. unfold Rdiv. rewrite Rmult_assoc, Rinv_l by lra. lra.
    - apply (coulomb_close c Hc). rewrite X. apply (Rmult_lt_reg_r (alpha c)); [exact A|]. unfold Rdiv at 1. rewrite Rmult_assoc, Rinv_l by lra. lra.
  Qed.

  Lemma q_continuous phi : continuous (fun phi => k_f * sin (phi / 2)) phi.
  Proof. apply (@ex_derive_continuous R_AbsRing R_NormedModule). auto_derive. trivial. Qed.

  Lemma small_continuous q : continuous small q.
  Proof. apply (@ex_derive_continuous R_AbsRing R_NormedModule). unfold small. auto_derive. trivial. Qed.

  Lemma piece_continuous (V o : R -> R) phi : (forall q, continuous V q) -> (forall q, continuous o q) ->
    continuous (fun phi => gamma_prefactor c k_f * sin phi * (V (k_f * sin (phi / 2))) ^ 2 * o (k_f * sin (phi / 2))) phi.
  Proof.
    intros HV Ho.
    assert (CV : continuous (fun phi => V (k_f * sin (phi / 2))) phi) by (apply (continuous_comp (fun phi => k_f * sin (phi / 2)) V); [apply q_continuous|apply HV]).
    assert (CO : continuous (fun phi => o (k_f * sin (phi / 2))) phi) by (apply (continuous_comp (fun phi => k_f * sin (phi / 2)) o); [apply q_continuous|apply Ho]).
    apply (@continuous_mult R_UniformSpace R_AbsRing); [|exact CO]. apply (@continuous_mult R_UniformSpace R_AbsRing).
    - apply (@ex_derive_continuous R_AbsRing R_NormedModule). auto_derive. trivial.
    - apply (continuous_ext (fun phi => mult (V (k_f * sin (phi / 2))) (V (k_f * sin (phi / 2))))); [intros y; cbn; unfold mult; cbn; ring|].
      apply (@continuous_mult R_UniformSpace R_AbsRing); exact CV.
  Qed.

  Lemma weight_integrable (o : R -> R) : (forall q, continuous o q) -> ex_RInt (fun phi => weight c k_f phi * o (k_f * sin (phi / 2))) 0 PI.
  Proof using Hc Hk.
    intros Ho. assert (A := alpha_pos c Hc). destruct (switch_angle (/ 100000000 * alpha c)) as [p [Hp [H1 H2]]]; [apply Rmult_lt_0_compat; lra|].
    assert (P := PI_RGT_0). assert (Q : forall phi, 0 < phi < PI -> 0 <= k_f * sin (phi / 2)).
    { intros phi Hphi. apply Rmult_le_pos; [lra|]. apply sin_ge_0; lra. }
    apply (@ex_RInt_Chasles R_NormedModule _ 0 p PI).
    - apply (@ex_RInt_ext R_NormedModule (fun phi => gamma_prefactor c k_f * sin phi * (small (k_f * sin (phi / 2))) ^ 2 * o (k_f * sin (phi / 2)))).
      + rewrite Rmin_left, Rmax_right by lra. intros phi Hphi. unfold weight.
        rewrite (proj1 (coulomb_cases (k_f * sin (phi / 2)) (Q phi ltac:(lra)))); [reflexivity|]. apply H1. exact Hphi.
      + apply (@ex_RInt_continuous R_CompleteNormedModule). intros phi _. apply piece_continuous; [apply small_continuous|exact Ho].
    - apply (@ex_RInt_ext R_NormedModule (fun phi => gamma_prefactor c k_f * sin phi * (screened c (k_f * sin (phi / 2))) ^ 2 * o (k_f * sin (phi / 2)))).
      + rewrite Rmin_left, Rmax_right by lra. intros phi Hphi. unfold weight.
        rewrite (proj2 (coulomb_cases (k_f * sin (phi / 2)) (Q phi ltac:(lra)))); [reflexivity|]. apply H2. exact Hphi.
      + apply (@ex_RInt_continuous R_CompleteNormedModule). intros phi _. apply piece_continuous; [apply screened_continuous; exact Hc|exact Ho].
  Qed.

  Lemma prefactor_pos : 0 < gamma_prefactor c k_f.
  Proof using Hc Hk.
    destruct Hc as [H1 [H2 _]]. assert (P := PI_RGT_0). unfold gamma_prefactor. apply Rdiv_lt_0_compat.
    - apply Rmult_lt_0_compat; [lra|apply pow_lt; exact Hk].
    - apply Rmult_lt_0_compat; apply pow_lt; lra.
  Qed.

  Lemma coulomb_bounds q : - (2 * ((elementary_charge c) ^ 2 / (epsilon_0 c * (alpha c) ^ 2))) <= coulomb_potential c q < 0.
  Proof using Hc.
    assert (P := U_pos c Hc). assert (A := alpha_pos c Hc).
    destruct (Rlt_le_dec (/ 100000000) (Rabs (q / alpha c))) as [H|H].
    - rewrite (proj2 (coulomb_close c Hc q) H). apply screened_bounds. exact Hc.
    - unfold coulomb_potential. destruct (Rle_dec (Rabs (q / alpha c)) (/ 100000000)) as [_|G]; [|lra].
      set (u := elementary_charge c ^ 2 / (epsilon_0 c * alpha c ^ 2)) in *.
      assert (X : 0 <= (q / alpha c) ^ 2 <= 1).
      { split; [apply pow2_ge_0|]. rewrite <- (pow2_abs (q / alpha c)). replace 1 with (1 ^ 2) by ring. apply pow_incr. split; [apply Rabs_pos|]. lra. }
      assert (X' : (q / alpha c) ^ 2 <= (/ 100000000) ^ 2).
      { rewrite <- (pow2_abs (q / alpha c)). apply pow_incr. split; [apply Rabs_pos|exact H]. }
      set (y := (q / alpha c) ^ 2) in *. assert (y < 1 / 2) by lra. split; nra.
  Qed.

  Lemma weight_bounds phi : 0 < phi < PI ->
    0 < weight c k_f phi <= gamma_prefactor c k_f * sin phi * (2 * ((elementary_charge c) ^ 2 / (epsilon_0 c * (alpha c) ^ 2))) ^ 2.
  Proof using Hc Hk.
    intros Hphi. assert (G := prefactor_pos). assert (S1 : 0 < sin phi) by (apply sin_gt_0; lra).
    assert (V := coulomb_bounds (k_f * sin (phi / 2))). unfold weight. set (v := coulomb_potential c _) in *.
    assert (GS : 0 < gamma_prefactor c k_f * sin phi) by (apply Rmult_lt_0_compat; assumption). split.
    - apply Rmult_lt_0_compat; [exact GS|]. nra.
    - apply Rmult_le_compat_l; [lra|]. nra.
  Qed.

  Lemma integrand_parts (o : R -> C) phi :
    fst (hopping_integrand c k_f o phi) = weight c k_f phi * fst (o (k_f * sin (phi / 2))) /\
    snd (hopping_integrand c k_f o phi) = weight c k_f phi * snd (o (k_f * sin (phi / 2))).
  Proof. unfold hopping_integrand. fold (weight c k_f phi). unfold Cmult, RtoC. cbn. split; ring. Qed.

  Lemma potential_parts (o : R -> C) : continuous_overlap o ->
    is_RInt (fun phi => weight c k_f phi * fst (o (k_f * sin (phi / 2)))) 0 PI (fst (potential_integral c k_f o)) /\
    is_RInt (fun phi => weight c k_f phi * snd (o (k_f * sin (phi / 2)))) 0 PI (snd (potential_integral c k_f o)).
  Proof using Hc Hk.
    intros Ho. split; unfold potential_integral, complex_quad; cbn [fst snd].
    - rewrite (RInt_ext _ (fun phi => weight c k_f phi * fst (o (k_f * sin (phi / 2))))) by (intros phi _; apply integrand_parts).
      apply (@RInt_correct R_CompleteNormedModule). apply (weight_integrable (fun q => fst (o q))). intros q. apply Ho.
    - rewrite (RInt_ext _ (fun phi => weight c k_f phi * snd (o (k_f * sin (phi / 2))))) by (intros phi _; apply integrand_parts).
      apply (@RInt_correct R_CompleteNormedModule). apply (weight_integrable (fun q => snd (o q))). intros q. apply Ho.
  Qed.

  Lemma potential_unique (o : R -> C) (x y : R) : continuous_overlap o ->
    is_RInt (fun phi => weight c k_f phi * fst (o (k_f * sin (phi / 2)))) 0 PI x ->
    is_RInt (fun phi => weight c k_f phi * snd (o (k_f * sin (phi / 2)))) 0 PI y -> potential_integral c k_f o = (x, y).
  Proof using Hc Hk.
    intros Ho Hx Hy. destruct (potential_parts o Ho) as [Px Py]. rewrite (surjective_pairing (potential_integral c k_f o)). f_equal.
    - rewrite <- (is_RInt_unique _ _ _ _ Px), <- (is_RInt_unique _ _ _ _ Hx). reflexivity.
    - rewrite <- (is_RInt_unique _ _ _ _ Py), <- (is_RInt_unique _ _ _ _ Hy). reflexivity.
  Qed.

  Lemma conj_continuous (o : R -> C) : continuous_overlap o -> continuous_overlap (fun q => Cconj (o q)).
  Proof.
    intros Ho q. destruct (Ho q) as [H1 H2]. split; cbn [Cconj fst snd].
    - exact H1.
    - apply (@continuous_opp R_UniformSpace R_AbsRing R_NormedModule (fun q => snd (o q))). exact H2.
  Qed.

  Lemma potential_conj (o : R -> C) : continuous_overlap o -> potential_integral c k_f (fun q => Cconj (o q)) = Cconj (potential_integral c k_f o).
  Proof using Hc Hk.
    intros Ho. destruct (potential_parts o Ho) as [Px Py]. unfold Cconj at 2. apply potential_unique; [apply conj_continuous; exact Ho|exact Px|].
    apply (is_RInt_ext (fun phi => opp (weight c k_f phi * snd (o (k_f * sin (phi / 2)))))); [intros phi _; cbn; unfold opp; cbn; ring|].
    exact (@is_RInt_opp R_NormedModule _ 0 PI _ Py).
  Qed.

  Lemma linear_continuous (z w : C) (o o' : R -> C) : continuous_overlap o -> continuous_overlap o' ->
    continuous_overlap (fun q => (z * o q + w * o' q)%C).
  Proof.
    intros Ho Ho' q. destruct (Ho q) as [H1 H2], (Ho' q) as [H3 H4].
    assert (M : forall (r : R) (g : R -> R), continuous g q -> continuous (fun q => r * g q) q).
    { intros r g Hg. apply (@continuous_mult R_UniformSpace R_AbsRing); [apply continuous_const|exact Hg]. }
    assert (Pl : forall (g h : R -> R), continuous g q -> continuous h q -> continuous (fun q => g q + h q) q).
    { intros g h Hg Hh. exact (@continuous_plus R_UniformSpace R_AbsRing R_NormedModule g h q Hg Hh). }
    assert (Mi : forall (g h : R -> R), continuous g q -> continuous h q -> continuous (fun q => g q - h q) q).
    { intros g h Hg Hh. exact (@continuous_minus R_UniformSpace R_AbsRing R_NormedModule g h q Hg Hh). }
    unfold Cplus, Cmult. cbn [fst snd]. split.
    - apply (Pl (fun q => fst z * fst (o q) - snd z * snd (o q)) (fun q => fst w * fst (o' q) - snd w * snd (o' q)));
        (apply (Mi (fun q => _ * _) (fun q => _ * _)); apply M; assumption).
    - apply (Pl (fun q => fst z * snd (o q) + snd z * fst (o q)) (fun q => fst w * snd (o' q) + snd w * fst (o' q)));
        (apply (Pl (fun q => _ * _) (fun q => _ * _)); apply M; assumption).
  Qed.

  Lemma is_RInt_combine (g1 g2 g3 g4 h : R -> R) r1 r2 r3 r4 i1 i2 i3 i4 :
    is_RInt g1 0 PI i1 -> is_RInt g2 0 PI i2 -> is_RInt g3 0 PI i3 -> is_RInt g4 0 PI i4 ->
    (forall x, h x = r1 * g1 x + r2 * g2 x + (r3 * g3 x + r4 * g4 x)) -> is_RInt h 0 PI (r1 * i1 + r2 * i2 + (r3 * i3 + r4 * i4)).
  Proof.
    intros H1 H2 H3 H4 E. apply (is_RInt_ext (fun x => plus (plus (scal r1 (g1 x)) (scal r2 (g2 x))) (plus (scal r3 (g3 x)) (scal r4 (g4 x))))).
    - intros x _. rewrite E. reflexivity.
    - exact (@is_RInt_plus R_NormedModule _ _ _ _ _ _ (@is_RInt_plus R_NormedModule _ _ _ _ _ _ (@is_RInt_scal R_NormedModule _ _ _ r1 _ H1) (@is_RInt_scal R_NormedModule _ _ _ r2 _ H2))
        (@is_RInt_plus R_NormedModule _ _ _ _ _ _ (@is_RInt_scal R_NormedModule _ _ _ r3 _ H3) (@is_RInt_scal R_NormedModule _ _ _ r4 _ H4))).
  Qed.

  Lemma potential_linear (z w : C) (o o' : R -> C) : continuous_overlap o -> continuous_overlap o' ->
    potential_integral c k_f (fun q => (z * o q + w * o' q)%C) = (z * potential_integral c k_f o + w * potential_integral c k_f o')%C.
  Proof using Hc Hk.
    intros Ho Ho'. destruct (potential_parts o Ho) as [Px Py], (potential_parts o' Ho') as [Px' Py'].
    rewrite (potential_unique _ (fst z * fst (potential_integral c k_f o) + - snd z * snd (potential_integral c k_f o)
        + (fst w * fst (potential_integral c k_f o') + - snd w * snd (potential_integral c k_f o')))
      (fst z * snd (potential_integral c k_f o) + snd z * fst (potential_integral c k_f o)
        + (fst w * snd (potential_integral c k_f o') + snd w * fst (potential_integral c k_f o'))) (linear_continuous z w o o' Ho Ho')).
    - unfold Cplus, Cmult. cbn [fst snd]. f_equal; ring.
    - apply (is_RInt_combine _ _ _ _ _ _ _ _ _ _ _ _ _ Px Py Px' Py'). intros phi. unfold Cplus, Cmult. cbn [fst snd]. ring.
    - apply (is_RInt_combine _ _ _ _ _ _ _ _ _ _ _ _ _ Py Px Py' Px'). intros phi. unfold Cplus, Cmult. cbn [fst snd]. ring.
  Qed.

  Lemma is_RInt_sin : is_RInt sin 0 PI 2.
  Proof.
    replace 2 with (minus (- cos PI) (- cos 0)) by (rewrite cos_PI, cos_0; cbn; unfold minus, plus, opp; cbn; ring).
    apply (is_RInt_derive (fun x => - cos x) sin).
    - intros x _. auto_derive; [trivial|ring].
    - intros x _. apply (@ex_derive_continuous R_AbsRing R_NormedModule). auto_derive. trivial.
  Qed.

  (** weights are positive *)
  Lemma potential_sign (o : R -> C) : continuous_overlap o -> (forall q, 0 <= q <= k_f -> snd (o q) = 0 /\ 0 <= fst (o q) <= 1) ->
    snd (potential_integral c k_f o) = 0 /\
    0 <= fst (potential_integral c k_f o) <= 8 * gamma_prefactor c k_f * ((elementary_charge c) ^ 2 / (epsilon_0 c * (alpha c) ^ 2)) ^ 2.
  Proof using Hc Hk.
    intros Ho H. assert (P := PI_RGT_0). destruct (potential_parts o Ho) as [Px Py]. set (u := elementary_charge c ^ 2 / (epsilon_0 c * alpha c ^ 2)) in *.
    assert (Q : forall phi, 0 < phi < PI -> 0 <= k_f * sin (phi / 2) <= k_f).
    { intros phi Hphi. assert (B := cos_half_le (phi / 2)). nra. }
    split; [|split].
    - rewrite <- (is_RInt_unique _ _ _ _ Py). rewrite (RInt_ext _ (fun _ => 0)).
      + rewrite RInt_const. unfold scal; cbn; unfold mult; cbn. ring.
      + rewrite Rmin_left, Rmax_right by lra. intros phi Hphi. rewrite (proj1 (H _ (Q phi Hphi))). apply Rmult_0_r.
    - apply (is_RInt_le (fun _ => 0) (fun phi : R => weight c k_f phi * fst (o (k_f * sin (phi / 2)))) 0 PI 0 (fst (potential_integral c k_f o))); [lra| |exact Px|].
      + assert (Z := @is_RInt_const R_NormedModule 0 PI 0). assert (E : (PI - 0) * 0 = 0) by ring. change (is_RInt (fun _ : R => 0) 0 PI ((PI - 0) * 0)) in Z. rewrite E in Z. exact Z.
      + intros phi Hphi. apply Rmult_le_pos; [left; apply weight_bounds; exact Hphi|]. apply (H _ (Q phi Hphi)).
    - replace (8 * gamma_prefactor c k_f * u ^ 2) with ((gamma_prefactor c k_f * (2 * u) ^ 2) * 2) by ring.
      apply (is_RInt_le (fun phi => weight c k_f phi * fst (o (k_f * sin (phi / 2)))) (fun phi => scal (gamma_prefactor c k_f * (2 * u) ^ 2) (sin phi)) 0 PI); [lra|exact Px| |].
      + exact (@is_RInt_scal R_NormedModule sin 0 PI _ _ is_RInt_sin).
      + intros phi Hphi. destruct (weight_bounds phi Hphi) as [W1 W2]. fold u in W2. destruct (proj2 (H _ (Q phi Hphi))) as [O1 O2].
        unfold scal; cbn -[pow]; unfold mult; cbn -[pow]. nra.
  Qed.

  Lemma potential_pos (o : R -> C) : continuous_overlap o -> (forall q, 0 <= q <= k_f -> 0 < fst (o q)) -> 0 < fst (potential_integral c k_f o).
  Proof using Hc Hk.
    intros Ho H. assert (P := PI_RGT_0). destruct (potential_parts o Ho) as [Px _]. rewrite <- (is_RInt_unique _ _ _ _ Px).
    assert (Q : forall phi, 0 < phi < PI -> 0 <= k_f * sin (phi / 2) <= k_f).
    { intros phi Hphi. assert (B := cos_half_le (phi / 2)). nra. }
    assert (A := alpha_pos c Hc). assert (U := U_pos c Hc). set (u := elementary_charge c ^ 2 / (epsilon_0 c * alpha c ^ 2)) in *.
    (* below by a continuous function, on half of the interval *)
    set (g := fun phi : R => weight c k_f phi * fst (o (k_f * sin (phi / 2)))) in *.
    set (low := fun phi : R => gamma_prefactor c k_f * sin phi * (screened c (k_f * sin (phi / 2)) / 2) ^ 2 * fst (o (k_f * sin (phi / 2)))).
    assert (HV : forall q, continuous (fun q => screened c q / 2) q).
    { intros q. apply (@continuous_mult R_UniformSpace R_AbsRing (screened c) (fun _ => / 2)); [apply screened_continuous; exact Hc|apply continuous_const]. }
    assert (CL : forall phi, continuous low phi).
    { intros phi. apply (piece_continuous (fun q => screened c q / 2) (fun q => fst (o q))); [exact HV|intros q; apply Ho]. }
    assert (EL : ex_RInt low 0 PI) by (apply (@ex_RInt_continuous R_CompleteNormedModule); intros phi _; apply CL).
    apply Rlt_le_trans with (RInt low 0 PI).
    - apply RInt_gt_0; [lra| |intros phi _; apply CL]. intros phi Hphi. unfold low. assert (G := prefactor_pos). assert (S1 : 0 < sin phi) by (apply sin_gt_0; lra).
      assert (B := screened_bounds c Hc (k_f * sin (phi / 2))). assert (O := H _ (Q phi Hphi)).
      assert (SQ : 0 < (screened c (k_f * sin (phi / 2)) / 2) ^ 2) by nra.
      apply Rmult_lt_0_compat; [apply Rmult_lt_0_compat; [apply Rmult_lt_0_compat; assumption|exact SQ]|exact O].
    - apply RInt_le; [lra|exact EL|exists (fst (potential_integral c k_f o)); exact Px|]. intros phi Hphi. unfold low, g, weight.
      apply Rmult_le_compat_r; [left; apply H, Q; exact Hphi|].
      assert (G := prefactor_pos). assert (S1 : 0 < sin phi) by (apply sin_gt_0; lra). apply Rmult_le_compat_l; [nra|].
      assert (B := screened_bounds c Hc (k_f * sin (phi / 2))). assert (B' := coulomb_bounds (k_f * sin (phi / 2))).
      assert (D : Rabs (coulomb_potential c (k_f * sin (phi / 2)) - screened c (k_f * sin (phi / 2))) <= - screened c (k_f * sin (phi / 2)) / 2).
      { destruct (Rlt_le_dec (/ 100000000) (Rabs (k_f * sin (phi / 2) / alpha c))) as [L|L].
        - rewrite (proj2 (coulomb_close c Hc _) L), Rminus_diag_eq by reflexivity. rewrite Rabs_R0. lra.
        - apply Rle_trans with (1 := proj1 (coulomb_close c Hc _)). fold u. unfold screened. fold u. set (x := k_f * sin (phi / 2) / alpha c) in *.
          assert (X : x ^ 2 <= 1 / 100) by (rewrite <- (pow2_abs x); apply Rle_trans with ((/ 100000000) ^ 2); [apply pow_incr; split; [apply Rabs_pos|exact L]|lra]).
          assert (Y : 0 <= x ^ 2) by apply pow2_ge_0. set (y := x ^ 2) in *.
          assert (Z : 1 <= (2 + y) / (1 + y) ^ 2).
          { apply (Rmult_le_reg_r ((1 + y) ^ 2)); [apply pow_lt; lra|]. unfold Rdiv. rewrite Rmult_assoc, Rinv_l by (apply pow_nonzero; lra). nra. }
          assert (T : 4 * / 100000000 ^ 4 <= / 2) by lra. nra. }
      set (v := coulomb_potential c _) in *. set (s := screened c _) in *. apply Rabs_le_between in D. nra.
  Qed.
End Potential.
