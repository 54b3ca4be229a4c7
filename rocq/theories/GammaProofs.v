(** Occupations of the electrons. *)
From Coq Require Import Reals Lra Lia Psatz.
From Coquelicot Require Import Coquelicot.
From Verif Require Import Csum DFT GammaIntegral SpecGamma.
Local Open Scope R_scope.

Section Fermi.
  Variables (c : constants) (k_f kT : R).
  Hypothesis Hc : physical c.
  Hypothesis HT : 0 < kT.

  Lemma delta_energy k k' : delta_e c k k' = electron_energy c k - electron_energy c k'.
  Proof using Hc. destruct Hc as [H1 [H2 _]]. unfold delta_e, electron_energy. field. lra. Qed.

  Lemma fermi_pos k : 0 < fermi_occupation c k_f kT k < 1.
  Proof.
    unfold fermi_occupation. assert (P := exp_pos (delta_e c k k_f / kT)). set (e := exp _) in *. split.
    - unfold Rdiv. rewrite Rmult_1_l. apply Rinv_0_lt_compat. lra.
    - apply (Rmult_lt_reg_r (1 + e)); [lra|]. unfold Rdiv. rewrite Rmult_1_l, Rinv_l by lra. lra.
  Qed.

  Lemma fermi_hole k : 1 - fermi_occupation c k_f kT k = exp (delta_e c k k_f / kT) * fermi_occupation c k_f kT k.
  Proof. unfold fermi_occupation. assert (P := exp_pos (delta_e c k k_f / kT)). set (e := exp _) in *. field. lra. Qed.

  Lemma fermi_half : fermi_occupation c k_f kT k_f = 1 / 2.
  Proof. unfold fermi_occupation, delta_e. rewrite Rminus_diag_eq by reflexivity. unfold Rdiv at 2. rewrite Rmult_0_l, exp_0. lra. Qed.

  Lemma energy_lt k k' : k ^ 2 < k' ^ 2 -> electron_energy c k < electron_energy c k'.
  Proof using Hc.
    destruct Hc as [H1 [H2 _]]. intros H. unfold electron_energy. apply Rmult_lt_compat_r; [apply Rinv_0_lt_compat; lra|].
    apply Rmult_lt_compat_l; [|exact H]. apply pow_lt. exact H1.
  Qed.

  Lemma fermi_decreasing k k' : k ^ 2 < k' ^ 2 -> fermi_occupation c k_f kT k' < fermi_occupation c k_f kT k.
  Proof using Hc HT.
    intros H. apply energy_lt in H. unfold fermi_occupation.
    assert (E : exp (delta_e c k k_f / kT) < exp (delta_e c k' k_f / kT)).
    { apply exp_increasing. rewrite !delta_energy. apply Rmult_lt_compat_r; [apply Rinv_0_lt_compat; exact HT|]. lra. }
    assert (P := exp_pos (delta_e c k k_f / kT)). unfold Rdiv. rewrite !Rmult_1_l. apply Rinv_lt_contravar; [|lra]. apply Rmult_lt_0_compat; lra.
  Qed.

  Lemma fermi_symmetric k k' : electron_energy c k + electron_energy c k' = 2 * electron_energy c k_f ->
    fermi_occupation c k_f kT k + fermi_occupation c k_f kT k' = 1.
  Proof using Hc HT.
    intros H. unfold fermi_occupation. rewrite !delta_energy.
    replace ((electron_energy c k' - electron_energy c k_f) / kT) with (- ((electron_energy c k - electron_energy c k_f) / kT)).
    2:{ replace (electron_energy c k' - electron_energy c k_f) with (- (electron_energy c k - electron_energy c k_f)) by lra. unfold Rdiv. ring. }
    rewrite exp_Ropp. assert (P := exp_pos ((electron_energy c k - electron_energy c k_f) / kT)). set (e := exp _) in *. field. lra.
  Qed.

  (** ** Transitions *)
  Lemma final_energy omega k : 0 <= final_square c omega k ->
    electron_energy c (sqrt (final_square c omega k)) = electron_energy c k + omega.
  Proof using Hc.
    destruct Hc as [H1 [H2 _]]. intros H. unfold electron_energy. rewrite <- (Rsqr_pow2 (sqrt _)), Rsqr_sqrt by exact H.
    unfold final_square. field. lra.
  Qed.

  Lemma integrand_some omega k : 0 <= electron_energy c k + omega ->
    occupation_integrand c omega k_f kT k =
    Some (fermi_occupation c k_f kT k * (1 - fermi_occupation c k_f kT (sqrt (final_square c omega k)))) /\
    0 <= final_square c omega k.
  Proof using Hc.
    intros H. assert (N : 0 <= final_square c omega k).
    { destruct Hc as [H1 [H2 _]]. unfold electron_energy in H. unfold final_square.
      assert (Q : 0 < 2 * electron_mass c / hbar c ^ 2) by (apply Rdiv_lt_0_compat; [lra|apply pow_lt; exact H1]).
      replace (k ^ 2 + 2 * electron_mass c * omega / hbar c ^ 2) with (2 * electron_mass c / hbar c ^ 2 * (hbar c ^ 2 * k ^ 2 / (2 * electron_mass c) + omega)) by (field; lra).
      apply Rmult_le_pos; lra. }
    split; [|exact N]. unfold occupation_integrand. destruct (Rle_dec 0 (final_square c omega k)); [reflexivity|lra].
  Qed.

  Lemma integrand_none omega k : electron_energy c k + omega < 0 -> occupation_integrand c omega k_f kT k = None.
  Proof using Hc.
    intros H. unfold occupation_integrand. destruct (Rle_dec 0 (final_square c omega k)) as [N|N]; [|reflexivity]. exfalso.
    assert (E := final_energy omega k N). destruct Hc as [H1 [H2 _]].
    assert (0 <= electron_energy c (sqrt (final_square c omega k))); [|lra].
    unfold electron_energy. apply Rmult_le_pos; [apply Rmult_le_pos; apply pow2_ge_0|left; apply Rinv_0_lt_compat; lra].
  Qed.

  (** The balance between a transition and its reverse. *)
  Lemma integrand_balance omega k y : occupation_integrand c omega k_f kT k = Some y ->
    exists k', 0 <= k' /\ electron_energy c k' = electron_energy c k + omega /\
      y = fermi_occupation c k_f kT k * (1 - fermi_occupation c k_f kT k') /\ 0 < y < 1 /\
      y = exp (omega / kT) * (fermi_occupation c k_f kT k' * (1 - fermi_occupation c k_f kT k)).
  Proof using Hc HT.
    intros H. unfold occupation_integrand in H. destruct (Rle_dec 0 (final_square c omega k)) as [N|N]; [|discriminate]. injection H as <-.
    exists (sqrt (final_square c omega k)). split; [apply sqrt_pos|]. assert (E := final_energy omega k N). split; [exact E|]. split; [reflexivity|].
    set (k' := sqrt _) in *. assert (A := fermi_pos k). assert (B := fermi_pos k'). split.
    - split; [apply Rmult_lt_0_compat; lra|]. nra.
    - rewrite !fermi_hole, !delta_energy, E.
      replace ((electron_energy c k + omega - electron_energy c k_f) / kT) with (omega / kT + (electron_energy c k - electron_energy c k_f) / kT) by (field; lra).
      rewrite exp_plus. ring.
  Qed.

  Lemma integrand_increasing omega omega' k y y' : omega < omega' ->
    occupation_integrand c omega k_f kT k = Some y -> occupation_integrand c omega' k_f kT k = Some y' -> y < y'.
  Proof using Hc HT.
    unfold occupation_integrand. intros Ho. destruct (Rle_dec 0 (final_square c omega k)) as [N|N]; [|discriminate].
    destruct (Rle_dec 0 (final_square c omega' k)) as [N'|N']; [|discriminate]. intros E E'. injection E as <-. injection E' as <-.
    apply Rmult_lt_compat_l; [apply fermi_pos|].
    assert (D : fermi_occupation c k_f kT (sqrt (final_square c omega' k)) < fermi_occupation c k_f kT (sqrt (final_square c omega k))); [|lra].
    apply fermi_decreasing. rewrite <- !Rsqr_pow2, !Rsqr_sqrt by assumption. unfold final_square. destruct Hc as [H1 [H2 _]].
    assert (Q : 0 < / hbar c ^ 2) by (apply Rinv_0_lt_compat, pow_lt; exact H1). unfold Rdiv.
    assert (0 < 2 * electron_mass c * / hbar c ^ 2) by (apply Rmult_lt_0_compat; lra). nra.
  Qed.

  (** ** Continuity *)
  Lemma fermi_continuous k : continuous (fermi_occupation c k_f kT) k.
  Proof.
    apply (@ex_derive_continuous R_AbsRing R_NormedModule). unfold fermi_occupation, delta_e. auto_derive.
    set (e := exp _). assert (P : 0 < e) by apply exp_pos. lra.
  Qed.

  Lemma integrand_total_continuous omega k :
    continuous (fun k => fermi_occupation c k_f kT k * (1 - fermi_occupation c k_f kT (sqrt (final_square c omega k)))) k.
  Proof.
    apply (continuous_mult (fermi_occupation c k_f kT) (fun k => 1 - fermi_occupation c k_f kT (sqrt (final_square c omega k)))); [apply fermi_continuous|].
    apply (continuous_minus (fun _ => 1) (fun k => fermi_occupation c k_f kT (sqrt (final_square c omega k)))); [apply continuous_const|].
    apply (continuous_comp (fun k => sqrt (final_square c omega k)) (fermi_occupation c k_f kT)); [|apply fermi_continuous].
    apply (continuous_comp (final_square c omega) sqrt); [|apply continuous_sqrt].
    apply (@ex_derive_continuous R_AbsRing R_NormedModule). unfold final_square. auto_derive. exact I.
  Qed.
End Fermi.
