(** The friction integrals in the words of SpecGamma. *)
From Coq Require Import Reals Lra Lia Psatz.
From Coquelicot Require Import Coquelicot.
From Verif Require Import Csum DFT GammaIntegral SpecGamma GammaProofs GammaProofs2 GammaProofs3.
Local Open Scope R_scope.

Lemma fermi_spec c k_f kT k : physical c -> fermi_occupation c k_f kT k = fermi_dirac kT (electron_energy c k_f) (electron_energy c k).
Proof. intros Hc. unfold fermi_occupation, fermi_dirac. rewrite delta_energy by exact Hc. unfold Rdiv at 1. apply Rmult_1_l. Qed.

Lemma fermi_facts c k_f kT : physical c -> 0 < kT ->
  fermi_occupation c k_f kT k_f = / 2 /\
  (forall k, 0 < fermi_occupation c k_f kT k < 1 /\ fermi_occupation c k_f kT k = fermi_dirac kT (electron_energy c k_f) (electron_energy c k)) /\
  (forall k k', Rabs k < Rabs k' -> fermi_occupation c k_f kT k' < fermi_occupation c k_f kT k) /\
  (forall k k', electron_energy c k + electron_energy c k' = 2 * electron_energy c k_f ->
     fermi_occupation c k_f kT k + fermi_occupation c k_f kT k' = 1).
Proof.
  intros Hc HT. split; [rewrite (fermi_half c k_f kT); lra|]. split; [|split].
  - intros k. split; [apply fermi_pos|apply fermi_spec; exact Hc].
  - intros k k' H. apply (fermi_decreasing c k_f kT Hc HT). rewrite <- (pow2_abs k), <- (pow2_abs k'). assert (0 <= Rabs k) by apply Rabs_pos. nra.
  - intros k k' H. apply (fermi_symmetric c k_f kT Hc HT). exact H.
Qed.

Lemma occupation_spec c omega k_f kT : physical c -> 0 < k_f -> 0 < kT ->
  let half := 40 * kT * electron_mass c / ((hbar c) ^ 2 * k_f) in
  let n := fermi_dirac kT (electron_energy c k_f) in let E := electron_energy c in
  ((forall k, k_f - half <= k <= k_f + half -> 0 <= E k + omega) ->
    exists i, occupation_integral c omega k_f kT = Some i /\ 0 < i < 2 * half /\
      is_RInt (fun k => n (E k) * (1 - n (E k + omega))) (k_f - half) (k_f + half) i /\
      is_RInt (fun k => n (E k + omega) * (1 - n (E k))) (k_f - half) (k_f + half) (exp (- (omega / kT)) * i)) /\
  ((exists k, k_f - half <= k <= k_f + half /\ E k + omega < 0) -> occupation_integral c omega k_f kT = None).
Proof.
  intros Hc Hk HT half n E.
  assert (Eh : 20 * d_k c k_f kT = half) by (unfold d_k, half; destruct Hc as [H1 _]; field; lra).
  split.
  - intros Hom. rewrite <- Eh in Hom.
    destruct (occupation_value c omega k_f kT Hc Hk HT Hom) as [V1 V2]. assert (B := occupation_bounds c omega k_f kT Hc Hk HT).
    assert (D := occupation_balance c omega k_f kT Hc Hk HT Hom). rewrite Eh in *.
    assert (L : - half <= half) by (assert (P := d_k_pos c k_f kT Hc Hk HT); lra).
    eexists. split; [exact V1|]. split; [lra|]. split.
    + apply (is_RInt_ext (fun k => fermi_occupation c k_f kT k * (1 - fermi_occupation c k_f kT (sqrt (final_square c omega k))))); [|exact V2].
      rewrite Rmin_left, Rmax_right by lra. intros k Hk'. rewrite !fermi_spec by exact Hc.
      rewrite final_energy; [reflexivity|exact Hc|apply (integrand_some c k_f kT Hc); apply Hom; lra].
    + apply (is_RInt_ext (fun k => fermi_occupation c k_f kT (sqrt (final_square c omega k)) * (1 - fermi_occupation c k_f kT k))); [|exact D].
      rewrite Rmin_left, Rmax_right by lra. intros k Hk'. rewrite !fermi_spec by exact Hc.
      rewrite final_energy; [reflexivity|exact Hc|apply (integrand_some c k_f kT Hc); apply Hom; lra].
  - intros H. rewrite <- Eh in H. apply occupation_none; assumption.
Qed.

Lemma integrand_spec c omega k_f kT k : physical c -> 0 < kT ->
  let n := fermi_dirac kT (electron_energy c k_f) in let e := electron_energy c k in
  (0 <= e + omega -> occupation_integrand c omega k_f kT k = Some (n e * (1 - n (e + omega)))) /\
  (e + omega < 0 -> occupation_integrand c omega k_f kT k = None) /\
  n e * (1 - n (e + omega)) = exp (omega / kT) * (n (e + omega) * (1 - n e)).
Proof.
  intros Hc HT n e. split; [|split].
  - intros H. destruct (integrand_some c k_f kT Hc omega k H) as [E F]. rewrite E, !fermi_spec, final_energy by assumption. reflexivity.
  - apply integrand_none. exact Hc.
  - unfold n, fermi_dirac. set (mu := electron_energy c k_f). replace ((e + omega - mu) / kT) with (omega / kT + (e - mu) / kT) by (field; lra).
    rewrite exp_plus. assert (P := exp_pos (omega / kT)). assert (Q := exp_pos ((e - mu) / kT)). field. split; nra.
Qed.

Lemma transfer_half k_f phi : 0 <= k_f -> 0 <= phi <= PI -> transfer k_f phi / 2 = k_f * sin (phi / 2).
Proof.
  intros Hk Hp. unfold transfer.
  replace ((k_f - k_f * cos phi) ^ 2 + (k_f * sin phi) ^ 2) with ((2 * (k_f * sin (phi / 2))) ^ 2).
  - rewrite sqrt_pow2; [field|]. apply Rmult_le_pos; [lra|]. apply Rmult_le_pos; [exact Hk|]. apply sin_ge_0; lra.
  - replace phi with (2 * (phi / 2)) at 2 3 by field. rewrite cos_2a_sin, sin_2a.
    assert (T : cos (phi / 2) * cos (phi / 2) = 1 - sin (phi / 2) * sin (phi / 2)) by (assert (Z := sin2_cos2 (phi / 2)); unfold Rsqr in Z; lra).
    set (s := sin (phi / 2)) in *. set (t := cos (phi / 2)) in *.
    replace ((k_f - k_f * (1 - 2 * s * s)) ^ 2 + (k_f * (2 * s * t)) ^ 2) with (4 * k_f ^ 2 * (s * s) * (s * s + t * t)) by ring. rewrite T. ring.
Qed.

Lemma coulomb_spec c q : physical c ->
  Rabs (coulomb_potential c q - screened c q) <= 4 * strength c / 10 ^ 32 /\
  (/ 10 ^ 8 < Rabs (q / alpha c) -> coulomb_potential c q = screened c q) /\
  - (2 * strength c) <= coulomb_potential c q < 0 /\ coulomb_potential c (- q) = coulomb_potential c q /\
  alpha c = (elementary_charge c) ^ 2 * electron_mass c / (2 * PI * epsilon_0 c * (hbar c) ^ 2).
Proof.
  intros Hc. destruct (coulomb_close c Hc q) as [H1 H2]. unfold strength.
  split; [|split; [|split]].
  - apply Rle_trans with (1 := H1). right. replace 100000000 with (10 ^ 8) by ring. rewrite <- pow_mult. reflexivity.
  - intros H. apply H2. replace 100000000 with (10 ^ 8) by ring. exact H.
  - apply coulomb_bounds. exact Hc.
  - split; [apply coulomb_even|]. assert (P := PI_RGT_0). destruct Hc as [G1 [G2 [G3 G4]]]. unfold alpha, bohr_radius. field. repeat split; lra.
Qed.

Section Compare.
  Variables (c : constants) (k_f M : R).
  Hypothesis Hc : physical c.
  Hypothesis Hk : 0 < k_f.

  Lemma component_close (o : R -> R) (x y : R) :
    (forall q, 0 <= q <= k_f -> Rabs (o q) <= M) ->
    is_RInt (fun phi => weight c k_f phi * o (k_f * sin (phi / 2))) 0 PI y ->
    is_RInt (fun phi => documented_prefactor c k_f * sin phi * (screened c (transfer k_f phi / 2)) ^ 2 * o (transfer k_f phi / 2)) 0 PI x ->
    Rabs (y - x / (hbar c) ^ 2) <= 32 / 10 ^ 32 * M * gamma_prefactor c k_f * (strength c) ^ 2.
  Proof using Hc Hk.
    intros HM Hy Hx. assert (P := PI_RGT_0). assert (G := prefactor_pos c k_f Hc Hk). assert (U := U_pos c Hc).
    assert (H0 : 0 < hbar c) by apply Hc.
    assert (Hx' := @is_RInt_scal R_NormedModule _ 0 PI (/ hbar c ^ 2) _ Hx).
    assert (D := @is_RInt_minus R_NormedModule _ _ 0 PI _ _ Hy Hx').
    assert (B := @is_RInt_scal R_NormedModule sin 0 PI (16 / 10 ^ 32 * M * gamma_prefactor c k_f * (strength c) ^ 2) _ is_RInt_sin).
    assert (N : norm (minus y (scal (/ hbar c ^ 2) x)) <= scal (16 / 10 ^ 32 * M * gamma_prefactor c k_f * (strength c) ^ 2) 2).
    { apply (norm_RInt_le _ _ 0 PI _ _ ltac:(lra)) with (2 := D) (3 := B). intros phi Hphi. rewrite transfer_half by lra.
      assert (Q : 0 <= k_f * sin (phi / 2) <= k_f) by (assert (Z := cos_half_le (phi / 2)); nra).
      assert (O := HM _ Q). assert (S1 : 0 <= sin phi) by (apply sin_ge_0; lra).
      destruct (coulomb_spec c (k_f * sin (phi / 2)) Hc) as [C1 [_ [C2 _]]]. assert (C3 := screened_bounds c Hc (k_f * sin (phi / 2))).
      fold (strength c) in C3, U. unfold weight.
      set (v := coulomb_potential c _) in *. set (s := screened c _) in *. set (w := o _) in *. set (u := strength c) in *. set (g := gamma_prefactor c k_f) in *.
      assert (E : documented_prefactor c k_f = g * hbar c ^ 2) by (unfold documented_prefactor, g, gamma_prefactor; field; split; lra).
      rewrite E. change (Rabs (g * sin phi * v ^ 2 * w - / hbar c ^ 2 * (g * hbar c ^ 2 * sin phi * s ^ 2 * w)) <= 16 / 10 ^ 32 * M * g * u ^ 2 * sin phi).
      replace (g * sin phi * v ^ 2 * w - / hbar c ^ 2 * (g * hbar c ^ 2 * sin phi * s ^ 2 * w)) with ((g * sin phi) * ((v - s) * (v + s) * w)) by (field; lra).
      rewrite Rabs_mult, (Rabs_pos_eq (g * sin phi)) by (apply Rmult_le_pos; lra).
      replace (16 / 10 ^ 32 * M * g * u ^ 2 * sin phi) with ((g * sin phi) * ((4 * u / 10 ^ 32) * (4 * u) * M)) by (field; apply pow_nonzero; lra).
      apply Rmult_le_compat_l; [apply Rmult_le_pos; lra|]. rewrite !Rabs_mult.
      assert (VS : Rabs (v + s) <= 4 * u) by (apply Rabs_le_between; lra).
      apply Rmult_le_compat; [apply Rmult_le_pos; apply Rabs_pos|apply Rabs_pos| |exact O].
      apply Rmult_le_compat; [apply Rabs_pos|apply Rabs_pos|exact C1|exact VS]. }
    change (Rabs (y - / hbar c ^ 2 * x) <= 16 / 10 ^ 32 * M * gamma_prefactor c k_f * (strength c) ^ 2 * 2) in N.
    replace (y - x / hbar c ^ 2) with (y - / hbar c ^ 2 * x) by (unfold Rdiv; ring).
    apply Rle_trans with (1 := N). right. field.
  Qed.
End Compare.

Lemma potential_close c k_f M o x y : physical c -> 0 < k_f -> continuous_overlap o -> (forall q, 0 <= q <= k_f -> Cmod (o q) <= M) ->
  is_RInt (fun phi => documented_prefactor c k_f * sin phi * (screened c (transfer k_f phi / 2)) ^ 2 * fst (o (transfer k_f phi / 2))) 0 PI x ->
  is_RInt (fun phi => documented_prefactor c k_f * sin phi * (screened c (transfer k_f phi / 2)) ^ 2 * snd (o (transfer k_f phi / 2))) 0 PI y ->
  let bound := 32 / 10 ^ 32 * M * (documented_prefactor c k_f / (hbar c) ^ 2) * (strength c) ^ 2 in
  Rabs (fst (potential_integral c k_f o) - x / (hbar c) ^ 2) <= bound /\ Rabs (snd (potential_integral c k_f o) - y / (hbar c) ^ 2) <= bound.
Proof.
  intros Hc Hk Ho HM Hx Hy bound. destruct (potential_parts c k_f Hc Hk o Ho) as [Px Py].
  assert (E : documented_prefactor c k_f / hbar c ^ 2 = gamma_prefactor c k_f).
  { assert (P := PI_RGT_0). destruct Hc as [H1 _]. unfold documented_prefactor, gamma_prefactor. field. split; lra. }
  unfold bound. rewrite E. split.
  - apply (component_close c k_f M Hc Hk (fun q => fst (o q))); [|exact Px|exact Hx]. intros q Hq. apply Rle_trans with (2 := HM q Hq).
    apply Rle_trans with (2 := Rmax_Cmod (o q)). apply Rmax_l.
  - apply (component_close c k_f M Hc Hk (fun q => snd (o q))); [|exact Py|exact Hy]. intros q Hq. apply Rle_trans with (2 := HM q Hq).
    apply Rle_trans with (2 := Rmax_Cmod (o q)). apply Rmax_r.
Qed.

Lemma potential_algebra c k_f : physical c -> 0 < k_f -> forall o, continuous_overlap o ->
  potential_integral c k_f (fun q => Cconj (o q)) = Cconj (potential_integral c k_f o) /\
  (forall o' z w, continuous_overlap o' ->
     potential_integral c k_f (fun q => (z * o q + w * o' q)%C) = (z * potential_integral c k_f o + w * potential_integral c k_f o')%C) /\
  ((forall q, 0 <= q <= k_f -> snd (o q) = 0 /\ 0 <= fst (o q) <= 1) ->
     snd (potential_integral c k_f o) = 0 /\
     0 <= fst (potential_integral c k_f o) <= 8 * (documented_prefactor c k_f / (hbar c) ^ 2) * (strength c) ^ 2) /\
  ((forall q, 0 <= q <= k_f -> 0 < fst (o q)) -> 0 < fst (potential_integral c k_f o)).
Proof.
  intros Hc Hk o Ho. split; [apply potential_conj; assumption|]. split; [intros o' z w Ho'; apply potential_linear; assumption|]. split.
  - intros H. assert (E : documented_prefactor c k_f / hbar c ^ 2 = gamma_prefactor c k_f).
    { assert (P := PI_RGT_0). destruct Hc as [H1 _]. unfold documented_prefactor, gamma_prefactor. field. split; lra. }
    rewrite E. apply potential_sign; assumption.
  - intros H. apply potential_pos; assumption.
Qed.

Lemma total_spec c omega k_f kT o :
  real_gamma_integral c omega k_f kT o = None <-> occupation_integral c omega k_f kT = None.
Proof. unfold real_gamma_integral. destruct (occupation_integral c omega k_f kT); split; intros H; congruence. Qed.

Lemma total_facts c omega k_f kT : physical c -> 0 < k_f -> 0 < kT -> forall o, continuous_overlap o -> forall g,
  real_gamma_integral c omega k_f kT o = Some g ->
  (exists i, occupation_integral c omega k_f kT = Some i /\ g = (potential_integral c k_f o * RtoC i)%C) /\
  real_gamma_integral c omega k_f kT (fun q => Cconj (o q)) = Some (Cconj g) /\
  ((forall q, 0 <= q <= k_f -> 0 < fst (o q)) -> 0 < fst g) /\
  (forall omega' g', omega < omega' -> real_gamma_integral c omega' k_f kT o = Some g' ->
     (forall q, 0 <= q <= k_f -> 0 < fst (o q)) -> fst g < fst g').
Proof.
  intros Hc Hk HT o Ho g E. unfold real_gamma_integral in *. destruct (occupation_integral c omega k_f kT) as [i|] eqn:Ei; [|discriminate].
  injection E as <-.
  assert (I : 0 < i).
  { destruct (occupation_spec c omega k_f kT Hc Hk HT) as [S1 S2].
    set (half := 40 * kT * electron_mass c / (hbar c ^ 2 * k_f)) in *.
    destruct S1 as [j [Ej [Bj _]]].
    - intros k Hk'. destruct (Rle_lt_dec 0 (electron_energy c k + omega)) as [L|L]; [exact L|]. exfalso.
      rewrite S2 in Ei; [discriminate|]. exists k. split; assumption.
    - rewrite Ei in Ej. injection Ej as ->. lra. }
  assert (F : forall z (r : R), fst (z * RtoC r)%C = fst z * r) by (intros z r; unfold Cmult, RtoC; cbn; ring).
  split; [exists i; split; reflexivity|]. split; [|split].
  - rewrite (potential_conj c k_f Hc Hk o Ho). f_equal. rewrite Cconj_mult. f_equal. unfold Cconj, RtoC. cbn. f_equal. ring.
  - intros H. rewrite F. apply Rmult_lt_0_compat; [apply potential_pos; assumption|exact I].
  - intros omega' g' Hw E' H. destruct (occupation_integral c omega' k_f kT) as [i'|] eqn:Ei'; [|discriminate]. injection E' as <-.
    rewrite !F. apply Rmult_lt_compat_l; [apply potential_pos; assumption|].
    apply (occupation_increasing c omega omega' k_f kT); assumption.
Qed.

Lemma documented_integrable c k_f (o : R -> R) : physical c -> 0 < k_f -> (forall q, continuous o q) ->
  ex_RInt (fun phi => documented_prefactor c k_f * sin phi * (screened c (transfer k_f phi / 2)) ^ 2 * o (transfer k_f phi / 2)) 0 PI.
Proof.
  intros Hc Hk Ho. assert (P := PI_RGT_0).
  apply (@ex_RInt_ext R_NormedModule (fun phi => scal (hbar c ^ 2) (gamma_prefactor c k_f * sin phi * (screened c (k_f * sin (phi / 2))) ^ 2 * o (k_f * sin (phi / 2))))).
  - rewrite Rmin_left, Rmax_right by lra. intros phi Hphi. rewrite transfer_half by lra.
    change (scal (hbar c ^ 2) ?x) with (hbar c ^ 2 * x).
    assert (E : documented_prefactor c k_f = gamma_prefactor c k_f * hbar c ^ 2) by (destruct Hc as [H1 _]; unfold documented_prefactor, gamma_prefactor; field; split; lra).
    rewrite E. match goal with |- ?a = ?b => change (@eq R a b) end. ring.
  - apply (@ex_RInt_scal R_NormedModule). apply (@ex_RInt_continuous R_CompleteNormedModule). intros phi _.
    apply piece_continuous; [apply screened_continuous; exact Hc|exact Ho].
Qed.

Lemma potential_spec c k_f M o : physical c -> 0 < k_f -> continuous_overlap o -> (forall q, 0 <= q <= k_f -> Cmod (o q) <= M) ->
  let bound := 32 / 10 ^ 32 * M * (documented_prefactor c k_f / (hbar c) ^ 2) * (strength c) ^ 2 in
  exists x y,
  is_RInt (fun phi => documented_prefactor c k_f * sin phi * (screened c (transfer k_f phi / 2)) ^ 2 * fst (o (transfer k_f phi / 2))) 0 PI x /\
  is_RInt (fun phi => documented_prefactor c k_f * sin phi * (screened c (transfer k_f phi / 2)) ^ 2 * snd (o (transfer k_f phi / 2))) 0 PI y /\
  Rabs (fst (potential_integral c k_f o) - x / (hbar c) ^ 2) <= bound /\ Rabs (snd (potential_integral c k_f o) - y / (hbar c) ^ 2) <= bound.
Proof.
  intros Hc Hk Ho HM bound.
  destruct (documented_integrable c k_f (fun q => fst (o q)) Hc Hk) as [x Hx]; [intros q; apply Ho|].
  destruct (documented_integrable c k_f (fun q => snd (o q)) Hc Hk) as [y Hy]; [intros q; apply Ho|].
  exists x, y. split; [exact Hx|]. split; [exact Hy|]. exact (potential_close c k_f M o x y Hc Hk Ho HM Hx Hy).
Qed.
