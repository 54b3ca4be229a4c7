(** The scattering function of the Fey model. *)
From Coq Require Import Reals Psatz.
From Coquelicot Require Import Coquelicot.
From Verif Require Import ZLib Csum DFT NumPy Lattice Spectral SpecHamiltonian Dynamics SpecDynamics DynamicsProofs DynamicsProofs2.
Local Open Scope R_scope.
Local Open Scope C_scope.

Lemma cexp_real x : cexp (RtoC x) = RtoC (exp x).
Proof. unfold cexp. cbn [fst snd RtoC]. rewrite cis_0. ring. Qed.

Section Fey.
  Context (slow fast lam : R) (T : C) (y : R).
  Context (Hs : (0 < slow)%R) (Hf : (0 < fast)%R) (Hl : lam = (slow / fast)%R) (Hy0 : (0 <= y)%R)
    (Hy : (9 * (y * y) = 9 * ((lam - 1) * (lam - 1)) + 4 * lam * Cnorm2 T)%R) (HT : (0 < Cnorm2 T <= 9)%R).
  Definition DD : R := (3 * lam - 3 + 3 * y)%R.
  Definition EE : R := (3 * lam - 3 - 3 * y)%R.
  Definition q0 : C := RtoC 2 * T / RtoC DD.
  Definition q1 : C := RtoC 2 * T / RtoC EE.
  Definition w0 : R := (Cnorm2 (1 - RtoC lam * q0)%C / (1 + lam * Cnorm2 q0))%R.
  Definition w1 : R := (Cnorm2 (1 - RtoC lam * q1)%C / (1 + lam * Cnorm2 q1))%R.
  Definition r0 : R := (slow * (lam + 1 + y) / (2 * lam))%R.
  Definition r1 : R := (slow * (lam + 1 - y) / (2 * lam))%R.
  Definition fey (t : R) : R := (/ (1 + lam) * (w0 * exp (- r0 * t) + w1 * exp (- r1 * t)))%R.

  Lemma lam_pos : (0 < lam)%R. Proof using slow fast lam T y Hs Hf Hl Hy0 Hy HT. rewrite Hl. apply Rdiv_lt_0_compat; assumption. Qed.
  Lemma DE : (DD * EE = - (4 * lam * Cnorm2 T))%R. Proof using slow fast lam T y Hs Hf Hl Hy0 Hy HT. unfold DD, EE. nra. Qed.
  Lemma DmE : (DD - EE = 6 * y)%R. Proof using slow fast lam T y Hs Hf Hl Hy0 Hy HT. unfold DD, EE. ring. Qed.
  Lemma DE_neg : (DD * EE < 0)%R. Proof using slow fast lam T y Hs Hf Hl Hy0 Hy HT. rewrite DE. pose proof lam_pos. nra. Qed.
  Lemma D_nz : DD <> 0%R. Proof using slow fast lam T y Hs Hf Hl Hy0 Hy HT. pose proof DE_neg. intros E. rewrite E in *. lra. Qed.
  Lemma E_nz : EE <> 0%R. Proof using slow fast lam T y Hs Hf Hl Hy0 Hy HT. pose proof DE_neg. intros E. rewrite E in *. lra. Qed.
  Lemma y_pos : (0 < y)%R. Proof using slow fast lam T y Hs Hf Hl Hy0 Hy HT. pose proof lam_pos. destruct Hy0 as [H'|H']; [exact H'|]. rewrite <- H' in Hy.
    pose proof (Rle_0_sqr (lam - 1)) as Q. unfold Rsqr in Q. assert (0 < 4 * lam * Cnorm2 T)%R by (apply Rmult_lt_0_compat; lra). lra. Qed.
  Lemma y_le : (y <= lam + 1)%R.
  Proof using slow fast lam T y Hs Hf Hl Hy0 Hy HT.
    pose proof lam_pos. assert (lam * Cnorm2 T <= lam * 9)%R by (apply Rmult_le_compat_l; lra).
    assert (y * y <= (lam + 1) * (lam + 1))%R by nra. nra.
  Qed.
  Lemma RtoC_nz x : x <> 0%R -> RtoC x <> 0.
  Proof using slow fast lam T y Hs Hf Hl Hy0 Hy HT. intros H E. apply H. apply (f_equal fst) in E. exact E. Qed.
  Lemma TT : Cconj T * T = RtoC (Cnorm2 T). Proof using slow fast lam T y Hs Hf Hl Hy0 Hy HT. apply Cconj_mult_self. Qed.
  Lemma norm_q0 : (1 + lam * Cnorm2 q0 = (DD - EE) / DD)%R.
  Proof using slow fast lam T y Hs Hf Hl Hy0 Hy HT.
    pose proof D_nz as Hd. pose proof DE as He.
    assert (Q : Cnorm2 q0 = (4 * Cnorm2 T / (DD * DD))%R).
    { unfold q0, Cdiv. rewrite <- RtoC_inv by exact Hd. rewrite !Cnorm2_mult, !Cnorm2_RtoC. field. exact Hd. }
    rewrite Q. assert (K : (lam * (4 * Cnorm2 T / (DD * DD)) = - (DD * EE) / (DD * DD))%R) by (rewrite He; field; exact Hd).
    rewrite K. field. exact Hd.
  Qed.
  Lemma norm_q1 : (1 + lam * Cnorm2 q1 = (EE - DD) / EE)%R.
  Proof using slow fast lam T y Hs Hf Hl Hy0 Hy HT.
    pose proof E_nz as Hd. pose proof DE as He.
    assert (Q : Cnorm2 q1 = (4 * Cnorm2 T / (EE * EE))%R).
    { unfold q1, Cdiv. rewrite <- RtoC_inv by exact Hd. rewrite !Cnorm2_mult, !Cnorm2_RtoC. field. exact Hd. }
    rewrite Q. assert (K : (lam * (4 * Cnorm2 T / (EE * EE)) = - (DD * EE) / (EE * EE))%R) by (rewrite He; field; exact Hd).
    rewrite K. field. exact Hd.
  Qed.
  Lemma n0_pos : (0 < 1 + lam * Cnorm2 q0)%R.
  Proof using slow fast lam T y Hs Hf Hl Hy0 Hy HT. pose proof lam_pos. pose proof (Cnorm2_nonneg q0). nra. Qed.
  Lemma n1_pos : (0 < 1 + lam * Cnorm2 q1)%R.
  Proof using slow fast lam T y Hs Hf Hl Hy0 Hy HT. pose proof lam_pos. pose proof (Cnorm2_nonneg q1). nra. Qed.
  Lemma w0_nonneg : (0 <= w0)%R.
  Proof using slow fast lam T y Hs Hf Hl Hy0 Hy HT. unfold w0. apply Rmult_le_pos; [apply Cnorm2_nonneg|]. left. apply Rinv_0_lt_compat. apply n0_pos. Qed.
  Lemma w1_nonneg : (0 <= w1)%R.
  Proof using slow fast lam T y Hs Hf Hl Hy0 Hy HT. unfold w1. apply Rmult_le_pos; [apply Cnorm2_nonneg|]. left. apply Rinv_0_lt_compat. apply n1_pos. Qed.

  (** Coefficients of the equilibrium in the eigenvectors (1, - lam q). *)
  Definition c0 : C := Cconj (1 - RtoC lam * q0) / RtoC ((1 + lam * Cnorm2 q0) * (1 + lam))%R.
  Definition c1 : C := Cconj (1 - RtoC lam * q1) / RtoC ((1 + lam * Cnorm2 q1) * (1 + lam))%R.
  Lemma l1_nz : (1 + lam <> 0)%R. Proof using slow fast lam T y Hs Hf Hl Hy0 Hy HT. pose proof lam_pos. lra. Qed.
  Lemma conj_q0 : Cconj q0 = RtoC 2 * Cconj T / RtoC DD.
  Proof using slow fast lam T y Hs Hf Hl Hy0 Hy HT. unfold q0, Cdiv. rewrite <- RtoC_inv by apply D_nz. rewrite !Cconj_mult, !Cconj_RtoC. reflexivity. Qed.
  Lemma conj_q1 : Cconj q1 = RtoC 2 * Cconj T / RtoC EE.
  Proof using slow fast lam T y Hs Hf Hl Hy0 Hy HT. unfold q1, Cdiv. rewrite <- RtoC_inv by apply E_nz. rewrite !Cconj_mult, !Cconj_RtoC. reflexivity. Qed.
  Lemma Cconj_1m z : Cconj (1 - z) = 1 - Cconj z.
  Proof using slow fast lam T y Hs Hf Hl Hy0 Hy HT. unfold Cminus. rewrite Cconj_plus, Cconj_opp, Cconj_RtoC. reflexivity. Qed.
  Lemma DmE_nz : RtoC DD - RtoC EE <> 0.
  Proof using slow fast lam T y Hs Hf Hl Hy0 Hy HT. rewrite <- RtoC_minus. apply RtoC_nz. rewrite DmE. pose proof y_pos. lra. Qed.
  Lemma EmD_nz : RtoC EE - RtoC DD <> 0.
  Proof using slow fast lam T y Hs Hf Hl Hy0 Hy HT. rewrite <- RtoC_minus. apply RtoC_nz. pose proof DmE. pose proof y_pos. lra. Qed.
  Lemma c0_eq : c0 = (RtoC DD - RtoC 2 * RtoC lam * Cconj T) / ((RtoC DD - RtoC EE) * (1 + RtoC lam)).
  Proof using slow fast lam T y Hs Hf Hl Hy0 Hy HT.
    unfold c0. rewrite norm_q0, Cconj_1m, Cconj_mult, Cconj_RtoC, conj_q0.
    pose proof (RtoC_nz _ D_nz). pose proof DmE_nz. pose proof l1_nz.
    assert (1 + RtoC lam <> 0) by (rewrite <- RtoC_plus; apply RtoC_nz; exact l1_nz).
    unfold Rdiv. rewrite !RtoC_mult, RtoC_inv, RtoC_minus, RtoC_plus by apply D_nz. field. repeat split; assumption.
  Qed.
  Lemma c1_eq : c1 = (RtoC EE - RtoC 2 * RtoC lam * Cconj T) / ((RtoC EE - RtoC DD) * (1 + RtoC lam)).
  Proof using slow fast lam T y Hs Hf Hl Hy0 Hy HT.
    unfold c1. rewrite norm_q1, Cconj_1m, Cconj_mult, Cconj_RtoC, conj_q1.
    pose proof (RtoC_nz _ E_nz). pose proof EmD_nz. pose proof l1_nz.
    assert (1 + RtoC lam <> 0) by (rewrite <- RtoC_plus; apply RtoC_nz; exact l1_nz).
    unfold Rdiv. rewrite !RtoC_mult, RtoC_inv, RtoC_minus, RtoC_plus by apply E_nz. field. repeat split; assumption.
  Qed.
  Lemma start_a : c0 + c1 = / (1 + RtoC lam).
  Proof using slow fast lam T y Hs Hf Hl Hy0 Hy HT.
    rewrite c0_eq, c1_eq. pose proof DmE_nz. pose proof EmD_nz.
    assert (1 + RtoC lam <> 0) by (rewrite <- RtoC_plus; apply RtoC_nz; exact l1_nz). field. repeat split; assumption.
  Qed.
  Lemma DE_C : RtoC DD * RtoC EE = - (RtoC 4 * RtoC lam * (Cconj T * T)).
  Proof using slow fast lam T y Hs Hf Hl Hy0 Hy HT. rewrite TT, <- !RtoC_mult, DE, RtoC_opp. reflexivity. Qed.
  Lemma start_b : c0 * (- RtoC lam * q0) + c1 * (- RtoC lam * q1) = RtoC lam / (1 + RtoC lam).
  Proof using slow fast lam T y Hs Hf Hl Hy0 Hy HT.
    rewrite c0_eq, c1_eq. pose proof DmE_nz. pose proof EmD_nz. pose proof (RtoC_nz _ D_nz). pose proof (RtoC_nz _ E_nz).
    assert (1 + RtoC lam <> 0) by (rewrite <- RtoC_plus; apply RtoC_nz; exact l1_nz).
    unfold q0, q1.
    transitivity (- RtoC lam * - (RtoC 4 * RtoC lam * (Cconj T * T)) / (RtoC DD * RtoC EE * (1 + RtoC lam)) * - RtoC 1).
    - replace (RtoC 4) with (RtoC 2 * RtoC 2) by (rewrite <- RtoC_mult; f_equal; ring). field. repeat split; assumption.
    - pose proof DE_C as Q.
      replace (RtoC 4 * RtoC lam * (Cconj T * T)) with (- (RtoC DD * RtoC EE)) by (rewrite Q; ring).
      field. repeat split; assumption.
  Qed.
  Lemma fast_eq : (fast * lam = slow)%R. Proof using slow fast lam T y Hs Hf Hl Hy0 Hy HT. rewrite Hl. field. lra. Qed.
  Lemma fast_C : RtoC fast * RtoC lam = RtoC slow. Proof using slow fast lam T y Hs Hf Hl Hy0 Hy HT. rewrite <- RtoC_mult, fast_eq. reflexivity. Qed.
  Lemma row_a0 : - RtoC slow + RtoC (fast / 3)%R * Cconj T * (- RtoC lam * q0) = RtoC (- r0)%R.
  Proof using slow fast lam T y Hs Hf Hl Hy0 Hy HT.
    transitivity (- RtoC slow - RtoC (1 / 3)%R * (RtoC fast * RtoC lam) * (Cconj T * q0)).
    { unfold Rdiv. rewrite !RtoC_mult. ring. }
    rewrite fast_C. unfold q0. replace (Cconj T * (RtoC 2 * T / RtoC DD)) with (RtoC 2 * (Cconj T * T) / RtoC DD) by (unfold Cdiv; ring).
    rewrite TT. unfold Cdiv. rewrite <- RtoC_inv by apply D_nz. rewrite <- !RtoC_mult, <- RtoC_opp, <- RtoC_minus. f_equal.
    pose proof lam_pos. pose proof D_nz. unfold r0.
    assert (K : (Cnorm2 T = - (DD * EE) / (4 * lam))%R) by (rewrite DE; field; lra). rewrite K.
    transitivity (- slow + slow * EE / (6 * lam))%R; [field; split; [lra|assumption]|]. unfold EE. field. lra.
  Qed.
  Lemma row_a1 : - RtoC slow + RtoC (fast / 3)%R * Cconj T * (- RtoC lam * q1) = RtoC (- r1)%R.
  Proof using slow fast lam T y Hs Hf Hl Hy0 Hy HT.
    transitivity (- RtoC slow - RtoC (1 / 3)%R * (RtoC fast * RtoC lam) * (Cconj T * q1)).
    { unfold Rdiv. rewrite !RtoC_mult. ring. }
    rewrite fast_C. unfold q1. replace (Cconj T * (RtoC 2 * T / RtoC EE)) with (RtoC 2 * (Cconj T * T) / RtoC EE) by (unfold Cdiv; ring).
    rewrite TT. unfold Cdiv. rewrite <- RtoC_inv by apply E_nz. rewrite <- !RtoC_mult, <- RtoC_opp, <- RtoC_minus. f_equal.
    pose proof lam_pos. pose proof E_nz. unfold r1.
    assert (K : (Cnorm2 T = - (DD * EE) / (4 * lam))%R) by (rewrite DE; field; lra). rewrite K.
    transitivity (- slow + slow * DD / (6 * lam))%R; [field; split; [lra|assumption]|]. unfold DD. field. lra.
  Qed.
  Lemma row_b0 : RtoC (slow / 3)%R * T - RtoC fast * (- RtoC lam * q0) = RtoC (- r0)%R * (- RtoC lam * q0).
  Proof using slow fast lam T y Hs Hf Hl Hy0 Hy HT.
    transitivity (RtoC (slow / 3)%R * T + (RtoC fast * RtoC lam) * q0); [ring|]. rewrite fast_C.
    assert (ET : T = q0 * RtoC (DD / 2)%R).
    { unfold q0, Rdiv. rewrite RtoC_mult, RtoC_inv by lra. field. split; [apply RtoC_nz; lra|apply RtoC_nz; apply D_nz]. }
    rewrite ET at 1. transitivity (q0 * RtoC (slow / 3 * (DD / 2) + slow)%R); [rewrite RtoC_plus, RtoC_mult; ring|].
    transitivity (q0 * RtoC (r0 * lam)%R); [|rewrite RtoC_mult, RtoC_opp; ring]. f_equal. f_equal.
    pose proof lam_pos. unfold r0, DD. field. lra.
  Qed.
  Lemma row_b1 : RtoC (slow / 3)%R * T - RtoC fast * (- RtoC lam * q1) = RtoC (- r1)%R * (- RtoC lam * q1).
  Proof using slow fast lam T y Hs Hf Hl Hy0 Hy HT.
    transitivity (RtoC (slow / 3)%R * T + (RtoC fast * RtoC lam) * q1); [ring|]. rewrite fast_C.
    assert (ET : T = q1 * RtoC (EE / 2)%R).
    { unfold q1, Rdiv. rewrite RtoC_mult, RtoC_inv by lra. field. split; [apply RtoC_nz; lra|apply RtoC_nz; apply E_nz]. }
    rewrite ET at 1. transitivity (q1 * RtoC (slow / 3 * (EE / 2) + slow)%R); [rewrite RtoC_plus, RtoC_mult; ring|].
    transitivity (q1 * RtoC (r1 * lam)%R); [|rewrite RtoC_mult, RtoC_opp; ring]. f_equal. f_equal.
    pose proof lam_pos. unfold r1, EE. field. lra.
  Qed.

  Definition pa (t : R) : C := c0 * cexp (RtoC (- r0)%R * RtoC t) + c1 * cexp (RtoC (- r1)%R * RtoC t).
  Definition pb (t : R) : C := c0 * (- RtoC lam * q0) * cexp (RtoC (- r0)%R * RtoC t) + c1 * (- RtoC lam * q1) * cexp (RtoC (- r1)%R * RtoC t).
  Lemma cderivative_plus f g t a b : cderivative f t a -> cderivative g t b -> cderivative (fun s => f s + g s) t (a + b).
  Proof using slow fast lam T y Hs Hf Hl Hy0 Hy HT.
    intros [F1 F2] [G1 G2]. split.
    - apply (is_derive_plus (fun s => fst (f s)) (fun s => fst (g s))); assumption.
    - apply (is_derive_plus (fun s => snd (f s)) (fun s => snd (g s))); assumption.
  Qed.
  Lemma pa_derivative t : cderivative pa t (- RtoC slow * pa t + RtoC (fast / 3)%R * Cconj T * pb t).
  Proof using slow fast lam T y Hs Hf Hl Hy0 Hy HT.
    replace (- RtoC slow * pa t + RtoC (fast / 3)%R * Cconj T * pb t) with
      (c0 * (RtoC (- r0)%R * cexp (RtoC (- r0)%R * RtoC t)) + c1 * (RtoC (- r1)%R * cexp (RtoC (- r1)%R * RtoC t))).
    - apply cderivative_plus; apply cderivative_scal; apply cderivative_cexp.
    - unfold pa, pb. generalize (cexp (RtoC (- r0)%R * RtoC t)) (cexp (RtoC (- r1)%R * RtoC t)). intros e0 e1.
      rewrite <- row_a0, <- row_a1. ring.
  Qed.
  Lemma pb_derivative t : cderivative pb t (RtoC (slow / 3)%R * T * pa t - RtoC fast * pb t).
  Proof using slow fast lam T y Hs Hf Hl Hy0 Hy HT.
    replace (RtoC (slow / 3)%R * T * pa t - RtoC fast * pb t) with
      (c0 * (- RtoC lam * q0) * (RtoC (- r0)%R * cexp (RtoC (- r0)%R * RtoC t)) + c1 * (- RtoC lam * q1) * (RtoC (- r1)%R * cexp (RtoC (- r1)%R * RtoC t))).
    - apply cderivative_plus; apply cderivative_scal; apply cderivative_cexp.
    - unfold pa, pb. generalize (cexp (RtoC (- r0)%R * RtoC t)) (cexp (RtoC (- r1)%R * RtoC t)). intros e0 e1.
      transitivity (c0 * e0 * (RtoC (- r0)%R * (- RtoC lam * q0)) + c1 * e1 * (RtoC (- r1)%R * (- RtoC lam * q1))); [ring|].
      rewrite <- row_b0, <- row_b1. ring.
  Qed.
  Lemma weight0 : c0 * (1 + - RtoC lam * q0) = RtoC (w0 / (1 + lam))%R.
  Proof using slow fast lam T y Hs Hf Hl Hy0 Hy HT.
    unfold c0, w0. replace (1 + - RtoC lam * q0) with (1 - RtoC lam * q0) by ring. unfold Cdiv.
    replace (Cconj (1 - RtoC lam * q0) * / RtoC ((1 + lam * Cnorm2 q0) * (1 + lam))%R * (1 - RtoC lam * q0))
      with (Cconj (1 - RtoC lam * q0) * (1 - RtoC lam * q0) * / RtoC ((1 + lam * Cnorm2 q0) * (1 + lam))%R) by ring.
    rewrite Cconj_mult_self. pose proof n0_pos. pose proof l1_nz. rewrite <- RtoC_inv, <- RtoC_mult by nra. f_equal. field. split; [lra|exact l1_nz].
  Qed.
  Lemma weight1 : c1 * (1 + - RtoC lam * q1) = RtoC (w1 / (1 + lam))%R.
  Proof using slow fast lam T y Hs Hf Hl Hy0 Hy HT.
    unfold c1, w1. replace (1 + - RtoC lam * q1) with (1 - RtoC lam * q1) by ring. unfold Cdiv.
    replace (Cconj (1 - RtoC lam * q1) * / RtoC ((1 + lam * Cnorm2 q1) * (1 + lam))%R * (1 - RtoC lam * q1))
      with (Cconj (1 - RtoC lam * q1) * (1 - RtoC lam * q1) * / RtoC ((1 + lam * Cnorm2 q1) * (1 + lam))%R) by ring.
    rewrite Cconj_mult_self. pose proof n1_pos. pose proof l1_nz. rewrite <- RtoC_inv, <- RtoC_mult by nra. f_equal. field. split; [lra|exact l1_nz].
  Qed.
  Lemma fey_sum t : RtoC (fey t) = pa t + pb t.
  Proof using slow fast lam T y Hs Hf Hl Hy0 Hy HT.
    unfold pa, pb, fey. rewrite <- !RtoC_mult, !cexp_real.
    transitivity (c0 * (1 + - RtoC lam * q0) * RtoC (exp (- r0 * t)) + c1 * (1 + - RtoC lam * q1) * RtoC (exp (- r1 * t))); [|ring].
    rewrite weight0, weight1, <- !RtoC_mult, <- RtoC_plus. f_equal. field. exact l1_nz.
  Qed.
  Lemma pa_0 : pa 0 = / (1 + RtoC lam).
  Proof using slow fast lam T y Hs Hf Hl Hy0 Hy HT. unfold pa. rewrite !Cmult_0_r, cexp_0, <- start_a. ring. Qed.
  Lemma pb_0 : pb 0 = RtoC lam / (1 + RtoC lam).
  Proof using slow fast lam T y Hs Hf Hl Hy0 Hy HT. unfold pb. rewrite !Cmult_0_r, cexp_0, <- start_b. ring. Qed.
  Lemma fey_0 : fey 0 = 1%R.
  Proof using slow fast lam T y Hs Hf Hl Hy0 Hy HT.
    assert (Q : RtoC (fey 0) = 1).
    { rewrite fey_sum, pa_0, pb_0. assert (1 + RtoC lam <> 0) by (rewrite <- RtoC_plus; apply RtoC_nz; exact l1_nz). field. assumption. }
    apply (f_equal fst) in Q. exact Q.
  Qed.
  Lemma r0_pos : (0 < r0)%R.
  Proof using slow fast lam T y Hs Hf Hl Hy0 Hy HT. pose proof lam_pos. unfold r0. apply Rdiv_lt_0_compat; [apply Rmult_lt_0_compat; lra|lra]. Qed.
  Lemma r1_nonneg : (0 <= r1)%R.
  Proof using slow fast lam T y Hs Hf Hl Hy0 Hy HT. pose proof lam_pos. pose proof y_le. unfold r1. apply Rmult_le_pos; [apply Rmult_le_pos; lra|].
    left. apply Rinv_0_lt_compat. lra. Qed.
  Lemma exp_le x z : (x <= z)%R -> (exp x <= exp z)%R.
  Proof using slow fast lam T y Hs Hf Hl Hy0 Hy HT. intros [H| ->]; [left; apply exp_increasing; exact H|right; reflexivity]. Qed.
  Lemma fey_decreasing s t : (s <= t)%R -> (fey t <= fey s)%R.
  Proof using slow fast lam T y Hs Hf Hl Hy0 Hy HT.
    intros H. unfold fey. pose proof lam_pos. apply Rmult_le_compat_l; [left; apply Rinv_0_lt_compat; lra|].
    pose proof r0_pos. pose proof r1_nonneg.
    apply Rplus_le_compat; apply Rmult_le_compat_l; try apply w0_nonneg; try apply w1_nonneg; apply exp_le; nra.
  Qed.
  Lemma w_total : (w0 + w1 = 1 + lam)%R.
  Proof using slow fast lam T y Hs Hf Hl Hy0 Hy HT.
    pose proof fey_0 as H. unfold fey in H. rewrite !Rmult_0_r, !exp_0, !Rmult_1_r in H. pose proof l1_nz.
    apply (f_equal (Rmult (1 + lam))) in H. rewrite <- Rmult_assoc, Rinv_r, Rmult_1_l, Rmult_1_r in H by assumption. exact H.
  Qed.
  Lemma fey_positive t : (0 < fey t)%R.
  Proof using slow fast lam T y Hs Hf Hl Hy0 Hy HT.
    unfold fey. pose proof lam_pos. apply Rmult_lt_0_compat; [apply Rinv_0_lt_compat; lra|].
    pose proof w0_nonneg as H0. pose proof w1_nonneg as H1. pose proof w_total. pose proof (exp_pos (- r0 * t)) as P0. pose proof (exp_pos (- r1 * t)) as P1.
    destruct H0 as [H0|H0].
    - assert (0 < w0 * exp (- r0 * t))%R by (apply Rmult_lt_0_compat; assumption).
      assert (0 <= w1 * exp (- r1 * t))%R by (apply Rmult_le_pos; lra). lra.
    - rewrite <- H0, Rmult_0_l, Rplus_0_l. apply Rmult_lt_0_compat; lra.
  Qed.
  Lemma fey_still : T = 3 -> forall t, fey t = 1%R.
  Proof using slow fast lam T y Hs Hf Hl Hy0 Hy HT.
    intros ET t. pose proof lam_pos as Hlp.
    assert (N : Cnorm2 T = 9%R) by (rewrite ET; unfold Cnorm2; cbn; ring).
    assert (Ey : y = (lam + 1)%R) by (rewrite N in Hy; nra).
    assert (Er : r1 = 0%R) by (unfold r1; rewrite Ey; field; lra).
    assert (Ew : w0 = 0%R).
    { unfold w0. assert (Q : 1 - RtoC lam * q0 = 0).
      { unfold q0, DD. rewrite Ey, ET. replace (3 * lam - 3 + 3 * (lam + 1))%R with (6 * lam)%R by ring. rewrite RtoC_mult.
        replace (RtoC 6) with (RtoC 2 * RtoC 3) by (rewrite <- RtoC_mult; f_equal; ring).
        field. repeat split; apply RtoC_nz; lra. }
      rewrite Q. unfold Cnorm2. cbn. unfold Rdiv. ring. }
    pose proof w_total as Hw. unfold fey. rewrite Er, Ew in *. rewrite Ropp_0, Rmult_0_l, Rmult_0_l, exp_0, Rplus_0_l, Rmult_1_r.
    rewrite Rplus_0_l in Hw. rewrite Hw. apply Rinv_l. exact l1_nz.
  Qed.
End Fey.

Lemma rdiv_some x z : z <> 0%R -> rdiv x z = Some (x / z)%R.
Proof. intros H. unfold rdiv. destruct (Req_EM_T z 0); [contradiction|reflexivity]. Qed.
Lemma cdiv_some x z : z <> 0%R -> cdiv_real x z = Some (x / RtoC z).
Proof. intros H. unfold cdiv_real. destruct (Req_EM_T z 0); [contradiction|reflexivity]. Qed.
Lemma rsqrt_some x : (0 <= x)%R -> rsqrt x = Some (sqrt x).
Proof. intros H. unfold rsqrt. destruct (Rlt_dec x 0); [exfalso; lra|reflexivity]. Qed.

(** What both functions have in common. *)
Lemma fey_facts slow fast T y (g : R -> option R) : (0 < slow)%R -> (0 < fast)%R -> (0 <= y)%R ->
  (9 * (y * y) = 9 * ((slow / fast - 1) * (slow / fast - 1)) + 4 * (slow / fast) * Cnorm2 T)%R -> (0 < Cnorm2 T <= 9)%R ->
  (forall t, g t = Some (fey slow (slow / fast) T y t)) ->
  exists f, (forall t, g t = Some (f t)) /\ scattering_function slow fast T f /\ f 0%R = 1%R /\
    (forall t, (0 < f t)%R) /\ (forall s t, (s <= t)%R -> (f t <= f s)%R) /\ (T = 3 -> forall t, f t = 1%R).
Proof.
  intros Hs Hf Hy0 Hy HT Hg. set (lam := (slow / fast)%R) in *.
  assert (Hl : lam = (slow / fast)%R) by reflexivity. clearbody lam.
  assert (Hp : (0 < lam)%R) by (rewrite Hl; apply Rdiv_lt_0_compat; assumption).
  exists (fey slow lam T y). split; [exact Hg|]. split.
  - exists (pa slow lam T y), (pb slow lam T y). split; [|split; [|split]].
    + intros t. split; [apply pa_derivative; assumption|apply pb_derivative; assumption].
    + rewrite (pa_0 slow fast) by assumption. rewrite <- RtoC_plus, <- RtoC_inv by lra. f_equal. rewrite Hl. field. lra.
    + rewrite (pb_0 slow fast) by assumption. unfold Cdiv. rewrite <- RtoC_plus, <- RtoC_inv, <- RtoC_mult by lra. f_equal. rewrite Hl. field. lra.
    + intros t. apply (fey_sum slow fast); assumption.
  - split; [apply (fey_0 slow fast); assumption|]. split; [intros t; apply (fey_positive slow fast); assumption|].
    split; [intros s t H; apply (fey_decreasing slow fast); assumption|]. intros ET t. apply (fey_still slow fast); assumption.
Qed.

Lemma cos_bounds x : (-1 <= cos x <= 1)%R. Proof. apply COS_bound. Qed.

Lemma phases_110_eq a : phases_110 a = RtoC (2 * cos (a / 2) + 1)%R.
Proof. unfold phases_110. apply injective_projections; cbn; rewrite ?cos_neg, ?sin_neg; ring. Qed.
Lemma phases_110_norm a : Cnorm2 (phases_110 a) = ((2 * cos (a / 2) + 1) * (2 * cos (a / 2) + 1))%R.
Proof. rewrite phases_110_eq. unfold Cnorm2. cbn. ring. Qed.

Lemma fey_110_value slow fast a : (0 < slow)%R -> (0 < fast)%R -> cos (a / 2) <> (- / 2)%R ->
  exists y, (0 <= y)%R /\
  (9 * (y * y) = 9 * ((slow / fast - 1) * (slow / fast - 1)) + 4 * (slow / fast) * Cnorm2 (phases_110 a))%R /\ (0 < Cnorm2 (phases_110 a) <= 9)%R /\
  forall t, calculate_isf_fey_model_110 t fast slow a = Some (fey slow (slow / fast) (phases_110 a) y t).
Proof.
  intros Hs Hf Hc.
  assert (Hlp : (0 < slow / fast)%R) by (apply Rdiv_lt_0_compat; assumption).
  set (lam := (slow / fast)%R) in *. pose proof (cos_bounds (a / 2)) as Hb.
  pose proof (phases_110_norm a) as HN.
  set (X := (9 * lam ^ 2 + 16 * lam * cos (a / 2) ^ 2 + 16 * lam * cos (a / 2) - 14 * lam + 9)%R).
  assert (HX : X = (9 * ((lam - 1) * (lam - 1)) + 4 * lam * Cnorm2 (phases_110 a))%R) by (unfold X; rewrite HN; ring).
  assert (HT : (0 < Cnorm2 (phases_110 a) <= 9)%R).
  { rewrite HN. split; [|nra]. assert (Q : (2 * cos (a / 2) + 1 <> 0)%R) by lra. pose proof (Rsqr_pos_lt _ Q) as P. unfold Rsqr in P. exact P. }
  assert (HX0 : (0 <= X)%R).
  { rewrite HX. pose proof (Rle_0_sqr (lam - 1)) as P. unfold Rsqr in P. assert (0 < lam * Cnorm2 (phases_110 a))%R by (apply Rmult_lt_0_compat; lra). lra. }
  set (y := (sqrt X / 3)%R). assert (Ez : sqrt X = (3 * y)%R) by (unfold y; field).
  assert (Hy0 : (0 <= y)%R) by (pose proof (sqrt_pos X); lra).
  assert (Hy : (9 * (y * y) = 9 * ((lam - 1) * (lam - 1)) + 4 * lam * Cnorm2 (phases_110 a))%R).
  { rewrite <- HX, <- (sqrt_sqrt X HX0), Ez. ring. }
  exists y. split; [exact Hy0|]. split; [exact Hy|]. split; [exact HT|].
    intros t. unfold calculate_isf_fey_model_110. rewrite rdiv_some by lra. cbn [obind]. fold lam. fold X. rewrite rsqrt_some by exact HX0. cbn [obind].
    rewrite Ez. cbv zeta.
    pose proof (D_nz slow fast lam (phases_110 a) y Hs Hf eq_refl Hy0 Hy HT) as Hd. pose proof (E_nz slow fast lam (phases_110 a) y Hs Hf eq_refl Hy0 Hy HT) as He.
    pose proof (n0_pos slow fast lam (phases_110 a) y Hs Hf eq_refl Hy0 Hy HT) as N0. pose proof (n1_pos slow fast lam (phases_110 a) y Hs Hf eq_refl Hy0 Hy HT) as N1.
    change (3 * lam - 3 + 3 * y)%R with (DD lam y). change (3 * lam - 3 - 3 * y)%R with (EE lam y).
    rewrite ?(rdiv_some _ (DD lam y)) by exact Hd. cbn [obind]. rewrite ?(rdiv_some _ (EE lam y)) by exact He. cbn [obind].
    rewrite ?(rdiv_some _ (DD lam y)) by exact Hd. cbn [obind]. rewrite ?(rdiv_some _ (EE lam y)) by exact He. cbn [obind].
    rewrite (rdiv_some _ (1 + lam)) by lra. cbn [obind].
    assert (Q0 : q0 lam (phases_110 a) y = RtoC ((4 * cos (a / 2) + 2) / DD lam y)%R).
    { unfold q0. rewrite phases_110_eq. unfold Cdiv, Rdiv. rewrite <- RtoC_inv by exact Hd. rewrite <- !RtoC_mult. f_equal. ring. }
    assert (Q1 : q1 lam (phases_110 a) y = RtoC ((4 * cos (a / 2) + 2) / EE lam y)%R).
    { unfold q1. rewrite phases_110_eq. unfold Cdiv, Rdiv. rewrite <- RtoC_inv by exact He. rewrite <- !RtoC_mult. f_equal. ring. }
    assert (M0 : (1 + lam * ((4 * cos (a / 2) + 2) / DD lam y * ((4 * cos (a / 2) + 2) / DD lam y)) = 1 + lam * Cnorm2 (q0 lam (phases_110 a) y))%R).
    { rewrite Q0, Cnorm2_RtoC. reflexivity. }
    assert (M1 : (1 + lam * ((4 * cos (a / 2) + 2) / EE lam y * ((4 * cos (a / 2) + 2) / EE lam y)) = 1 + lam * Cnorm2 (q1 lam (phases_110 a) y))%R).
    { rewrite Q1, Cnorm2_RtoC. reflexivity. }
    rewrite M0, M1. rewrite (rdiv_some _ (1 + lam * Cnorm2 (q0 lam (phases_110 a) y))) by lra. cbn [obind].
    rewrite (rdiv_some _ (1 + lam * Cnorm2 (q1 lam (phases_110 a) y))) by lra. cbn [obind].
    rewrite ?(rdiv_some _ (6 * lam)) by lra. cbn [obind]. rewrite ?(rdiv_some _ (6 * lam)) by lra. cbn [obind].
    f_equal. unfold fey. f_equal; [field; lra|]. f_equal; f_equal.
    - unfold w0. f_equal. rewrite Q0, <- RtoC_mult, <- RtoC_minus, Cnorm2_RtoC. rewrite <- Rabs_mult, Rabs_right by (apply Rle_ge, Rle_0_sqr).
      field. exact Hd.
    - f_equal. unfold r0. field. lra.
    - unfold w1. f_equal. rewrite Q1, <- RtoC_mult, <- RtoC_minus, Cnorm2_RtoC. rewrite <- Rabs_mult, Rabs_right by (apply Rle_ge, Rle_0_sqr).
      field. exact He.
    - f_equal. unfold r1. field. lra.
Qed.
Lemma fey_110_some slow fast a : (0 < slow)%R -> (0 < fast)%R -> cos (a / 2) <> (- / 2)%R ->
  exists f, (forall t, calculate_isf_fey_model_110 t fast slow a = Some (f t)) /\ scattering_function slow fast (phases_110 a) f /\ f 0%R = 1%R /\
    (forall t, (0 < f t)%R) /\ (forall s t, (s <= t)%R -> (f t <= f s)%R) /\ (a = 0%R -> forall t, f t = 1%R).
Proof.
  intros Hs Hf Hc. destruct (fey_110_value slow fast a Hs Hf Hc) as [y [Hy0 [Hy [HT G]]]].
  destruct (fey_facts slow fast (phases_110 a) y (fun t => calculate_isf_fey_model_110 t fast slow a) Hs Hf Hy0 Hy HT G) as [f [F1 [F2 [F3 [F4 [F5 F6]]]]]].
  exists f. split; [exact F1|]. split; [exact F2|]. split; [exact F3|]. split; [exact F4|]. split; [exact F5|]. intros Ea. apply F6.
  rewrite phases_110_eq, Ea. unfold Rdiv. rewrite Rmult_0_l, cos_0. f_equal. ring.
Qed.

Lemma fey_110_none slow fast a t : (0 < slow)%R -> (0 < fast)%R -> cos (a / 2) = (- / 2)%R -> calculate_isf_fey_model_110 t fast slow a = None.
Proof.
  intros Hs Hf Hc. assert (Hlp : (0 < slow / fast)%R) by (apply Rdiv_lt_0_compat; assumption).
  unfold calculate_isf_fey_model_110. rewrite rdiv_some by lra. cbn [obind]. set (lam := (slow / fast)%R) in *. rewrite Hc.
  replace (9 * lam ^ 2 + 16 * lam * (- / 2) ^ 2 + 16 * lam * (- / 2) - 14 * lam + 9)%R with (Rsqr (3 * (lam - 1))) by (unfold Rsqr; field).
  rewrite rsqrt_some by apply Rle_0_sqr. cbn [obind]. rewrite sqrt_Rsqr_abs. cbv zeta. unfold rdiv at 1.
  destruct (Req_EM_T (3 * lam - 3 + Rabs (3 * (lam - 1))) 0) as [E|E]; [reflexivity|]. cbn [obind].
  unfold rdiv at 1. destruct (Req_EM_T (3 * lam - 3 - Rabs (3 * (lam - 1))) 0) as [E'|E']; [reflexivity|].
  exfalso. destruct (Rcase_abs (3 * (lam - 1))) as [Q|Q].
  - rewrite Rabs_left in E by exact Q. lra.
  - rewrite Rabs_right in E' by exact Q. lra.
Qed.

Lemma sqrt_12 : sqrt 12 = (2 * sqrt 3)%R.
Proof. replace 12%R with (2 * 2 * 3)%R by ring. rewrite sqrt_mult by lra. rewrite sqrt_square by lra. reflexivity. Qed.
Lemma phases_112_top a : Cplus (cis (a / sqrt 3)%R) (Cmult (RtoC 2%R) (cis (- (a / sqrt 12))%R)) = phases_112bar a.
Proof. unfold phases_112bar. rewrite sqrt_12. replace (RtoC 2) with (1 + 1) by (rewrite <- RtoC_plus; f_equal; ring). ring. Qed.
Lemma phases_112_norm a : Cnorm2 (phases_112bar a) = (5 + 4 * cos (a * sqrt 3 / 2))%R.
Proof.
  rewrite <- phases_112_top, sqrt_12.
  replace (a * sqrt 3 / 2)%R with (a / sqrt 3 - - (a / (2 * sqrt 3)))%R.
  - rewrite cos_minus. unfold Cnorm2. cbn. 
    set (c1 := cos (a / sqrt 3)). set (s1 := sin (a / sqrt 3)). set (c2 := cos (- (a / (2 * sqrt 3)))). set (s2 := sin (- (a / (2 * sqrt 3)))).
    assert (P1 : (s1 * s1 + c1 * c1 = 1)%R) by (unfold s1, c1; apply (sin2_cos2 (a / sqrt 3))).
    assert (P2 : (s2 * s2 + c2 * c2 = 1)%R) by (unfold s2, c2; apply (sin2_cos2 (- (a / (2 * sqrt 3))))).
    clearbody c1 c2 s1 s2. transitivity ((s1 * s1 + c1 * c1) + 4 * (s2 * s2 + c2 * c2) + 4 * (c1 * c2 + s1 * s2))%R; [ring|]. rewrite P1, P2. ring.
  - assert (Q : (sqrt 3 * sqrt 3 = 3)%R) by (apply sqrt_sqrt; lra). assert (sqrt 3 <> 0)%R by (intros E; rewrite E in Q; lra).
    transitivity (a * 3 / (2 * sqrt 3))%R; [field; assumption|]. rewrite <- Q at 1. field. assumption.
Qed.

Lemma fey_112_value slow fast a : (0 < slow)%R -> (0 < fast)%R ->
  exists y, (0 <= y)%R /\
  (9 * (y * y) = 9 * ((slow / fast - 1) * (slow / fast - 1)) + 4 * (slow / fast) * Cnorm2 (phases_112bar a))%R /\ (0 < Cnorm2 (phases_112bar a) <= 9)%R /\
  forall t, calculate_isf_fey_model_112bar t fast slow a = Some (fey slow (slow / fast) (phases_112bar a) y t).
Proof.
  intros Hs Hf.
  assert (Hlp : (0 < slow / fast)%R) by (apply Rdiv_lt_0_compat; assumption).
  set (lam := (slow / fast)%R) in *. pose proof (cos_bounds (a * sqrt 3 / 2)) as Hb.
  pose proof (phases_112_norm a) as HN. set (T := phases_112bar a) in *.
  set (X := (lam ^ 2 + 2 * lam * (8 * cos (a * sqrt 3 / 2) + 1) / 9 + 1)%R).
  assert (HX : (9 * X = 9 * ((lam - 1) * (lam - 1)) + 4 * lam * Cnorm2 T)%R) by (unfold X; rewrite HN; field).
  assert (HT : (0 < Cnorm2 T <= 9)%R) by (rewrite HN; lra).
  assert (HX0 : (0 <= X)%R).
  { pose proof (Rle_0_sqr (lam - 1)) as P. unfold Rsqr in P. assert (0 < lam * Cnorm2 T)%R by (apply Rmult_lt_0_compat; lra). lra. }
  set (y := sqrt X). assert (Hy0 : (0 <= y)%R) by apply sqrt_pos.
  assert (Hy : (9 * (y * y) = 9 * ((lam - 1) * (lam - 1)) + 4 * lam * Cnorm2 T)%R) by (rewrite <- HX; unfold y; rewrite sqrt_sqrt by exact HX0; reflexivity).
  exists y. split; [exact Hy0|]. split; [exact Hy|]. split; [exact HT|].
    intros t. unfold calculate_isf_fey_model_112bar. rewrite rdiv_some by lra. cbn [obind]. fold lam. fold X. rewrite rsqrt_some by exact HX0. cbn [obind].
    fold y. rewrite phases_112_top. fold T. cbv zeta.
    pose proof (D_nz slow fast lam T y Hs Hf eq_refl Hy0 Hy HT) as Hd. pose proof (E_nz slow fast lam T y Hs Hf eq_refl Hy0 Hy HT) as He.
    pose proof (n0_pos slow fast lam T y Hs Hf eq_refl Hy0 Hy HT) as N0. pose proof (n1_pos slow fast lam T y Hs Hf eq_refl Hy0 Hy HT) as N1.
    change (3 * lam - 3 + 3 * y)%R with (DD lam y). change (3 * lam - 3 - 3 * y)%R with (EE lam y).
    rewrite ?(cdiv_some _ (DD lam y)) by exact Hd. cbn [obind]. rewrite ?(cdiv_some _ (EE lam y)) by exact He. cbn [obind].
    rewrite ?(cdiv_some _ (DD lam y)) by exact Hd. cbn [obind]. rewrite ?(cdiv_some _ (EE lam y)) by exact He. cbn [obind].
    rewrite (rdiv_some _ (1 + lam)) by lra. cbn [obind].
    assert (Q0 : q0 lam T y = RtoC 2 * (T / RtoC (DD lam y))) by (unfold q0, Cdiv; ring).
    assert (Q1 : q1 lam T y = RtoC 2 * (T / RtoC (EE lam y))) by (unfold q1, Cdiv; ring).
    assert (M0 : (1 + 4 * lam * (Cmod (T / RtoC (DD lam y))%C * Cmod (T / RtoC (DD lam y))%C) = 1 + lam * Cnorm2 (q0 lam T y))%R).
    { rewrite Q0, Cnorm2_mult, Cnorm2_RtoC, !Cnorm2_Cmod. ring. }
    assert (M1 : (1 + 4 * lam * (Cmod (T / RtoC (EE lam y))%C * Cmod (T / RtoC (EE lam y))%C) = 1 + lam * Cnorm2 (q1 lam T y))%R).
    { rewrite Q1, Cnorm2_mult, Cnorm2_RtoC, !Cnorm2_Cmod. ring. }
    rewrite M0, M1. rewrite (rdiv_some _ (1 + lam * Cnorm2 (q0 lam T y))) by lra. cbn [obind].
    rewrite (rdiv_some _ (1 + lam * Cnorm2 (q1 lam T y))) by lra. cbn [obind].
    rewrite ?(rdiv_some _ (2 * lam)) by lra. cbn [obind]. rewrite ?(rdiv_some _ (2 * lam)) by lra. cbn [obind].
    f_equal. unfold fey. f_equal; [field; lra|]. f_equal; f_equal.
    - unfold w0. f_equal. rewrite Cnorm2_Cmod. replace (RtoC (2 * lam)%R * T / RtoC (DD lam y)) with (RtoC lam * q0 lam T y) by (unfold q0, Cdiv; rewrite RtoC_mult; ring). ring.
    - f_equal. unfold r0. field. lra.
    - unfold w1. f_equal. rewrite Cnorm2_Cmod. replace (RtoC (2 * lam)%R * T / RtoC (EE lam y)) with (RtoC lam * q1 lam T y) by (unfold q1, Cdiv; rewrite RtoC_mult; ring). ring.
    - f_equal. unfold r1. field. lra.
Qed.
Lemma fey_112_some slow fast a : (0 < slow)%R -> (0 < fast)%R ->
  exists f, (forall t, calculate_isf_fey_model_112bar t fast slow a = Some (f t)) /\ scattering_function slow fast (phases_112bar a) f /\ f 0%R = 1%R /\
    (forall t, (0 < f t)%R) /\ (forall s t, (s <= t)%R -> (f t <= f s)%R) /\ (a = 0%R -> forall t, f t = 1%R).
Proof.
  intros Hs Hf. destruct (fey_112_value slow fast a Hs Hf) as [y [Hy0 [Hy [HT G]]]].
  destruct (fey_facts slow fast (phases_112bar a) y (fun t => calculate_isf_fey_model_112bar t fast slow a) Hs Hf Hy0 Hy HT G) as [f [F1 [F2 [F3 [F4 [F5 F6]]]]]].
  exists f. split; [exact F1|]. split; [exact F2|]. split; [exact F3|]. split; [exact F4|]. split; [exact F5|]. intros Ea. apply F6.
  unfold phases_112bar. rewrite Ea. unfold Rdiv. rewrite !Rmult_0_l, Ropp_0, cis_0, <- !RtoC_plus. f_equal. ring.
Qed.
