(** The integral over the occupations, and the potential. *)
From Coq Require Import Reals Lra Lia Psatz.
From Coquelicot Require Import Coquelicot.
From Verif Require Import Csum DFT GammaIntegral SpecGamma GammaProofs.
Local Open Scope R_scope.

Lemma nearest_in a b : a <= b -> a <= nearest_to_zero a b <= b.
Proof. intros H. unfold nearest_to_zero. destruct (Rle_dec 0 a), (Rle_dec b 0); lra. Qed.
Lemma nearest_least a b k : a <= k <= b -> (nearest_to_zero a b) ^ 2 <= k ^ 2.
Proof. intros H. unfold nearest_to_zero. destruct (Rle_dec 0 a), (Rle_dec b 0); nra. Qed.

Section Occupation.
  Variables (c : constants) (omega k_f kT : R).
  Hypothesis Hc : physical c.
  Hypothesis Hk : 0 < k_f.
  Hypothesis HT : 0 < kT.
  Let a := k_f - 20 * d_k c k_f kT.
  Let b := k_f + 20 * d_k c k_f kT.
  Let f k := fermi_occupation c k_f kT k * (1 - fermi_occupation c k_f kT (sqrt (final_square c omega k))).

  Lemma d_k_pos : 0 < d_k c k_f kT.
  Proof using Hc Hk HT.
    destruct Hc as [H1 [H2 _]]. unfold d_k. apply Rdiv_lt_0_compat; [apply Rmult_lt_0_compat; lra|].
    apply Rmult_lt_0_compat; [apply pow_lt; exact H1|exact Hk].
  Qed.

  Lemma energy_le k k' : k ^ 2 <= k' ^ 2 -> electron_energy c k <= electron_energy c k'.
  Proof using Hc.
    destruct Hc as [H1 [H2 _]]. intros H. unfold electron_energy. apply Rmult_le_compat_r; [left; apply Rinv_0_lt_compat; lra|].
    apply Rmult_le_compat_l; [|exact H]. left. apply pow_lt. exact H1.
  Qed.

  Lemma occupation_none : (exists k, a <= k <= b /\ electron_energy c k + omega < 0) -> occupation_integral c omega k_f kT = None.
  Proof using Hc.
    intros [k [Hk1 Hk2]]. unfold occupation_integral. fold a b. rewrite (integrand_none c k_f kT Hc); [reflexivity|].
    assert (L := energy_le _ _ (nearest_least a b k Hk1)). lra.
  Qed.

  Hypothesis Hom : forall k, a <= k <= b -> 0 <= electron_energy c k + omega.

  Lemma ab : a < b. Proof using Hc Hk HT. unfold a, b. assert (P := d_k_pos). lra. Qed.

  Lemma occupation_value : occupation_integral c omega k_f kT = Some (RInt f a b) /\ is_RInt f a b (RInt f a b).
  Proof using Hc Hk HT Hom.
    assert (L := ab). split.
    - unfold occupation_integral. fold a b. destruct (integrand_some c k_f kT Hc omega (nearest_to_zero a b)) as [E _]; [apply Hom, nearest_in; lra|].
      rewrite E. f_equal. apply RInt_ext. rewrite Rmin_left, Rmax_right by lra. intros k Hk'.
      destruct (integrand_some c k_f kT Hc omega k) as [E' _]; [apply Hom; lra|]. rewrite E'. reflexivity.
    - apply (RInt_correct f a b). apply (@ex_RInt_continuous R_CompleteNormedModule). intros k _. apply integrand_total_continuous.
  Qed.

  Lemma occupation_bounds : 0 < RInt f a b < b - a.
  Proof using Hc Hk HT.
    assert (L := ab). assert (B : forall k, 0 < f k < 1).
    { intros k. unfold f. assert (P := fermi_pos c k_f kT k). assert (Q := fermi_pos c k_f kT (sqrt (final_square c omega k))). split; nra. }
    split.
    - apply RInt_gt_0; [exact L|intros k _; apply B|intros k _; apply integrand_total_continuous].
    - replace (b - a) with (RInt (fun _ => 1) a b) by (rewrite RInt_const; unfold scal; cbn; unfold mult; cbn; ring).
      apply RInt_lt; [exact L|intros k _; apply continuous_const|intros k _; apply integrand_total_continuous|intros k _; apply B].
  Qed.

  Lemma occupation_balance :
    is_RInt (fun k => fermi_occupation c k_f kT (sqrt (final_square c omega k)) * (1 - fermi_occupation c k_f kT k)) a b
      (exp (- (omega / kT)) * RInt f a b).
  Proof using Hc Hk HT Hom.
    assert (L := ab). destruct occupation_value as [_ V].
    apply (is_RInt_ext (fun k => scal (exp (- (omega / kT))) (f k))).
    - rewrite Rmin_left, Rmax_right by lra. intros k Hk'. destruct (integrand_some c k_f kT Hc omega k) as [E N]; [apply Hom; lra|].
      unfold f, scal; cbn; unfold mult; cbn. rewrite !(fermi_hole c k_f kT), !(delta_energy c Hc), (final_energy c Hc) by exact N.
      set (n := fermi_occupation c k_f kT k). set (n' := fermi_occupation c k_f kT (sqrt _)).
      replace ((electron_energy c k + omega - electron_energy c k_f) / kT) with (omega / kT + (electron_energy c k - electron_energy c k_f) / kT) by (field; lra).
      rewrite exp_plus, exp_Ropp. assert (P := exp_pos (omega / kT)). field. lra.
    - apply (is_RInt_scal f a b). exact V.
  Qed.
End Occupation.

Lemma occupation_increasing c omega omega' k_f kT i i' : physical c -> 0 < k_f -> 0 < kT -> omega < omega' ->
  occupation_integral c omega k_f kT = Some i -> occupation_integral c omega' k_f kT = Some i' -> i < i'.
Proof.
  intros Hc Hk HT Ho E E'.
  assert (D : forall w j, occupation_integral c w k_f kT = Some j ->
    forall k, k_f - 20 * d_k c k_f kT <= k <= k_f + 20 * d_k c k_f kT -> 0 <= electron_energy c k + w).
  { intros w j Ej k Hk'. destruct (Rle_lt_dec 0 (electron_energy c k + w)) as [H|H]; [exact H|]. exfalso.
    rewrite (occupation_none c w k_f kT Hc) in Ej; [discriminate|]. exists k. split; assumption. }
  destruct (occupation_value c omega k_f kT Hc Hk HT (D _ _ E)) as [V _]. destruct (occupation_value c omega' k_f kT Hc Hk HT (D _ _ E')) as [V' _].
  rewrite V in E. rewrite V' in E'. injection E as <-. injection E' as <-.
  assert (L := ab c k_f kT Hc Hk HT). apply RInt_lt; [exact L|intros k _; apply integrand_total_continuous|intros k _; apply integrand_total_continuous|].
  intros k Hk'. destruct (integrand_some c k_f kT Hc omega k) as [F _]; [apply (D _ _ V); lra|].
  destruct (integrand_some c k_f kT Hc omega' k) as [F' _]; [apply (D _ _ V'); lra|].
  exact (integrand_increasing c k_f kT Hc HT omega omega' k _ _ Ho F F').
Qed.

(** ** The potential *)
Section Coulomb.
  Variable c : constants.
  Hypothesis Hc : physical c.

  Lemma bohr_pos : 0 < bohr_radius c.
  Proof using Hc.
    destruct Hc as [H1 [H2 [H3 H4]]]. assert (P := PI_RGT_0). unfold bohr_radius. apply Rdiv_lt_0_compat.
    - assert (0 < hbar c ^ 2) by (apply pow_lt; assumption). assert (0 < 4 * PI) by lra.
      repeat (apply Rmult_lt_0_compat; try assumption).
    - apply Rmult_lt_0_compat; [apply pow_lt|]; assumption.
  Qed.
  Lemma alpha_pos : 0 < alpha c. Proof using Hc. unfold alpha. apply Rdiv_lt_0_compat; [lra|apply bohr_pos]. Qed.

  Let U := (elementary_charge c) ^ 2 / (epsilon_0 c * (alpha c) ^ 2).
  Lemma U_pos : 0 < U.
  Proof using Hc.
    destruct Hc as [H1 [H2 [H3 H4]]]. unfold U. apply Rdiv_lt_0_compat; [apply pow_lt; assumption|].
    apply Rmult_lt_0_compat; [assumption|apply pow_lt, alpha_pos].
  Qed.

  Lemma screened_full q : q <> 0 ->
    (elementary_charge c) ^ 2 / (epsilon_0 c * q ^ 2) * ((1 / (1 + (q / alpha c) ^ 2)) ^ 2 - 1) = screened c q.
  Proof using Hc.
    intros Hq. assert (A := alpha_pos). destruct Hc as [_ [_ [_ H4]]]. unfold screened.
    assert (Q : 0 < alpha c ^ 2 + q ^ 2) by (assert (0 < alpha c ^ 2) by (apply pow_lt; exact A); assert (0 <= q ^ 2) by apply pow2_ge_0; lra).
    field. repeat split; try lra; try exact Hq.
  Qed.

  Lemma screened_bounds q : - (2 * U) <= screened c q < 0.
  Proof using Hc.
    assert (P := U_pos). unfold screened. fold U. set (y := (q / alpha c) ^ 2). assert (Y : 0 <= y) by apply pow2_ge_0.
    assert (D : 0 < (1 + y) ^ 2) by (apply pow_lt; lra).
    assert (B : 0 < (2 + y) / (1 + y) ^ 2 <= 2).
    { split; [apply Rdiv_lt_0_compat; lra|]. apply (Rmult_le_reg_r ((1 + y) ^ 2)); [exact D|]. unfold Rdiv. rewrite Rmult_assoc, Rinv_l by lra. nra. }
    split; nra.
  Qed.

  Lemma coulomb_close q : Rabs (coulomb_potential c q - screened c q) <= 4 * U * / 100000000 ^ 4 /\
    (/ 100000000 < Rabs (q / alpha c) -> coulomb_potential c q = screened c q).
  Proof using Hc.
    assert (P := U_pos). assert (A := alpha_pos). unfold coulomb_potential. fold U. destruct (Rle_dec (Rabs (q / alpha c)) (/ 100000000)) as [H|H].
    - split; [|lra]. unfold screened. fold U. set (x := q / alpha c) in *.
      assert (X : x ^ 2 <= (/ 100000000) ^ 2) by (rewrite <- (pow2_abs x); apply pow_incr; split; [apply Rabs_pos|exact H]).
      set (y := x ^ 2) in *. assert (Y : 0 <= y) by apply pow2_ge_0. assert (D : 0 < (1 + y) ^ 2) by (apply pow_lt; lra).
      replace (- (2) * U * (1 - 3 / 2 * y) - - U * ((2 + y) / (1 + y) ^ 2)) with (U * ((4 * y ^ 2 + 3 * y ^ 3) / (1 + y) ^ 2)) by (field; lra).
      rewrite Rabs_pos_eq.
      2:{ apply Rmult_le_pos; [lra|]. apply Rmult_le_pos; [|left; apply Rinv_0_lt_compat; exact D]. assert (0 <= y ^ 2) by apply pow2_ge_0. assert (0 <= y ^ 3) by (apply pow_le; exact Y). lra. }
      replace (4 * U * / 100000000 ^ 4) with (U * (4 * ((/ 100000000) ^ 2) ^ 2)) by (field; lra).
      apply Rmult_le_compat_l; [lra|]. apply Rle_trans with (4 * y ^ 2).
      + apply (Rmult_le_reg_r ((1 + y) ^ 2)); [exact D|]. unfold Rdiv. rewrite Rmult_assoc, Rinv_l by lra.
        assert (0 <= y ^ 3) by (apply pow_le; exact Y). assert (0 <= y ^ 4) by (apply pow_le; exact Y). nra.
      + apply Rmult_le_compat_l; [lra|]. apply pow_incr. lra.
    - assert (Q : q <> 0).
      { intros ->. apply H. unfold Rdiv. rewrite Rmult_0_l, Rabs_R0. lra. }
      rewrite screened_full by exact Q. split; [|reflexivity].
      rewrite Rminus_diag_eq by reflexivity. rewrite Rabs_R0. apply Rmult_le_pos; [lra|]. left. apply Rinv_0_lt_compat. apply pow_lt. lra.
  Qed.

  Lemma coulomb_even q : coulomb_potential c (- q) = coulomb_potential c q.
  Proof.
    unfold coulomb_potential. replace (- q / alpha c) with (- (q / alpha c)) by (unfold Rdiv; ring). rewrite Rabs_Ropp.
    replace ((- (q / alpha c)) ^ 2) with ((q / alpha c) ^ 2) by ring. replace ((- q) ^ 2) with (q ^ 2) by ring. reflexivity.
  Qed.

  Lemma screened_continuous q : continuous (screened c) q.
  Proof using Hc.
    apply (@ex_derive_continuous R_AbsRing R_NormedModule). unfold screened. assert (A := alpha_pos). auto_derive.
    assert (0 <= (q / alpha c) * ((q / alpha c) * 1)) by (assert (Z := pow2_ge_0 (q / alpha c)); cbn in Z; exact Z).
    rewrite ?Rmult_1_r in *. unfold Rdiv in *. apply Rgt_not_eq. apply Rmult_lt_0_compat; lra.
  Qed.

  Lemma screened_increasing q q' : 0 <= q < q' -> screened c q < screened c q'.
  Proof using Hc.
    intros H. assert (P := U_pos). assert (A := alpha_pos). unfold screened. fold U.
    assert (X : (q / alpha c) ^ 2 < (q' / alpha c) ^ 2).
    { unfold Rdiv. rewrite !Rpow_mult_distr. apply Rmult_lt_compat_r; [apply pow_lt, Rinv_0_lt_compat; exact A|]. nra. }
    set (y := (q / alpha c) ^ 2) in *. set (y' := (q' / alpha c) ^ 2) in *. assert (Y : 0 <= y) by apply pow2_ge_0.
    assert (D : 0 < (1 + y) ^ 2) by (apply pow_lt; lra). assert (D' : 0 < (1 + y') ^ 2) by (apply pow_lt; lra).
    assert (B : (2 + y') / (1 + y') ^ 2 < (2 + y) / (1 + y) ^ 2); [|nra].
    replace ((2 + y) / (1 + y) ^ 2) with (/ (1 + y) + / (1 + y) ^ 2) by (field; lra).
    replace ((2 + y') / (1 + y') ^ 2) with (/ (1 + y') + / (1 + y') ^ 2) by (field; lra).
    apply Rplus_lt_compat; apply Rinv_lt_contravar; try nra; apply Rmult_lt_0_compat; lra.
  Qed.
End Coulomb.
