(** Angles, periodic positions and restored trajectories. *)
From Coq Require Import Reals Lra Lia Psatz.
From Coquelicot Require Import Rcomplements.
From Verif Require Import ZLib Csum DFT NumPy Index Spec IndexProofs Basis SpecBasis Lattice LatticeProofs Kernel KernelProofs3 StateList SpecStateList Wavepacket SpecWavepacket
  FourierProofs4 Observables SpecObservables ObservablesProofs ObservablesProofs2.
Local Open Scope R_scope.

Lemma angle_spec z : - PI < np_angle z <= PI /\ z = Cmult (RtoC (Cmod z)) (cis (np_angle z)).
Proof.
  unfold np_angle. destruct (Req_EM_T (Cmod z) 0) as [E|E].
  - pose proof PI_RGT_0. split; [lra|]. rewrite E. rewrite (Cmod_eq_0 z E). rewrite Cmult_0_l. reflexivity.
  - fold (carg z). assert (Hz : z <> RtoC 0) by (intros ->; apply E, Cmod_0).
    split; [|symmetry; apply (polar z Hz)].
    unfold carg. pose proof PI_RGT_0. pose proof (acos_bound (fst z / Cmod z)) as A.
    destruct (Rle_dec 0 (snd z)) as [H0|H0]; [lra|]. split; [|lra].
    destruct (Rle_lt_or_eq_dec _ _ (proj2 A)) as [L|L]; [lra|]. exfalso.
    assert (Hc : fst z / Cmod z = -1).
    { assert (B : -1 <= fst z / Cmod z <= 1).
      { assert (P : 0 < Cmod z) by (pose proof (Cmod_ge_0 z); lra).
        assert (Q : Cmod z * Cmod z = fst z * fst z + snd z * snd z) by (unfold Cmod; rewrite sqrt_sqrt by nra; ring).
        set (r := fst z / Cmod z). assert (Hr : r * Cmod z = fst z) by (unfold r; field; lra).
        split; apply Rmult_le_reg_r with (Cmod z); try assumption; rewrite Hr; nra. }
      rewrite <- (cos_acos _ B), L. apply cos_PI. }
    assert (P : 0 < Cmod z) by (pose proof (Cmod_ge_0 z); lra).
    assert (Q : Cmod z * Cmod z = fst z * fst z + snd z * snd z) by (unfold Cmod; rewrite sqrt_sqrt by nra; ring).
    assert (F : fst z = - Cmod z) by (apply (f_equal (fun t => t * Cmod z)) in Hc; unfold Rdiv in Hc; rewrite Rmult_assoc, Rinv_l in Hc by lra; lra).
    rewrite F in Q. nra.
Qed.

(** Equal phases differ by full turns. *)
Lemma cis_eq_turns a b : cis a = cis b -> exists z : Z, a = b + IZR z * (2 * PI).
Proof.
  intros H. unfold cis in H. injection H as Hc Hs.
  assert (S0 : sin (a - b) = 0) by (rewrite sin_minus, Hc, Hs; ring).
  assert (C0 : cos (a - b) = 1) by (rewrite cos_minus, Hc, Hs; pose proof (sin2_cos2 b) as Q; unfold Rsqr in Q; lra).
  destruct (sin_eq_0_0 _ S0) as (k & Hk).
  destruct (Z.Even_or_Odd k) as [[m ->]|[m ->]].
  - exists m. rewrite mult_IZR in Hk. lra.
  - exfalso. rewrite Hk in C0. rewrite plus_IZR, mult_IZR in C0.
    replace ((2 * IZR m + 1) * PI) with (2 * PI * IZR m + PI) in C0 by ring.
    pose proof (cis_2PI_Z m) as Q. unfold cis in Q. injection Q as Q1 Q2.
    rewrite cos_plus, Q1, Q2, cos_PI in C0. lra.
Qed.

Lemma cis_shift (a : R) (z : Z) : cis (a + IZR z * (2 * PI)) = cis a.
Proof. replace (IZR z * (2 * PI)) with (2 * PI * IZR z) by ring. rewrite cis_plus, cis_2PI_Z. apply Cmult_1_r. Qed.

Lemma angle_unique z t r : z = Cmult (RtoC r) (cis t) -> 0 < r -> exists k : Z, np_angle z = t + IZR k * (2 * PI).
Proof.
  intros E Hr. destruct (angle_spec z) as (_ & A).
  assert (Hm : Cmod z = r) by (rewrite E, Cmod_mult, cis_mod, Cmod_R, Rabs_right by lra; ring).
  apply cis_eq_turns.
  assert (N : RtoC r <> RtoC 0) by (intros Q; apply RtoC_inj in Q; lra).
  assert (A' : Cmult (RtoC r) (cis (np_angle z)) = Cmult (RtoC r) (cis t)).
  { rewrite <- E. rewrite <- Hm at 1. symmetry. exact A. }
  apply (f_equal (Cmult (Cinv (RtoC r)))) in A'. rewrite !Cmult_assoc, Cinv_l, !Cmult_1_l in A' by exact N. exact A'.
Qed.

(** ** The periodic average position *)
Definition periodic_position (L : R) (z : C) : R := rmod (np_angle z) (2 * PI) * L / (2 * PI).

Lemma periodic_position_spec L z : 0 < L ->
  0 <= periodic_position L z < L /\ z = Cmult (RtoC (Cmod z)) (cis (2 * PI * (periodic_position L z / L))).
Proof.
  intros HL. pose proof PI_RGT_0 as HP. destruct (rmod_spec (np_angle z) (2 * PI) ltac:(lra)) as (H1 & k & H2).
  unfold periodic_position. split.
  - split.
    + apply Rmult_le_pos; [apply Rmult_le_pos; lra|]. left. apply Rinv_0_lt_compat. lra.
    + apply Rmult_lt_reg_r with (2 * PI); [lra|]. unfold Rdiv. rewrite Rmult_assoc, Rinv_l by lra. nra.
  - replace (2 * PI * (rmod (np_angle z) (2 * PI) * L / (2 * PI) / L)) with (rmod (np_angle z) (2 * PI)) by (field; lra).
    rewrite H2, cis_shift. apply angle_spec.
Qed.

Lemma periodic_position_unique L z r x : 0 < L -> 0 < r -> z = Cmult (RtoC r) (cis (2 * PI * (x / L))) -> periodic_position L z = rmod x L.
Proof.
  intros HL Hr E. pose proof PI_RGT_0 as HP.
  destruct (angle_unique _ _ _ E Hr) as (k & Hk).
  destruct (rmod_spec (np_angle z) (2 * PI) ltac:(lra)) as (H1 & m & H2).
  symmetry. apply (rmod_unique x L _ (k + m)); [exact HL| |].
  - apply periodic_position_spec. exact HL.
  - unfold periodic_position. rewrite H2, Hk, plus_IZR. field. lra.
Qed.

(** ** Unwrapping *)
Lemma unwrap_step_spec dd : Rabs (dd + unwrap_step dd) <= PI /\ exists k : Z, unwrap_step dd = IZR k * (2 * PI).
Proof.
  pose proof PI_RGT_0 as HP. unfold unwrap_step. destruct (Rlt_dec (Rabs dd) PI) as [L|L].
  - split; [rewrite Rplus_0_r; lra|]. exists 0%Z. lra.
  - destruct (rmod_spec (dd + PI) (2 * PI) ltac:(lra)) as (H1 & k & H2).
    destruct (Req_EM_T (rmod (dd + PI) (2 * PI) - PI) (- PI)) as [E|E]; [destruct (Rlt_dec 0 dd)|].
    + split; [replace (dd + (PI - dd)) with PI by ring; rewrite Rabs_right; lra|].
      exists (k + 1)%Z. rewrite plus_IZR. lra.
    + split; [rewrite E; replace (dd + (- PI - dd)) with (- PI) by ring; rewrite Rabs_left; lra|].
      exists k. rewrite H2. ring.
    + split; [|exists k; rewrite H2; ring]. apply Rabs_le. lra.
Qed.

Lemma unwrap_step_small dd y k : dd = y + IZR k * (2 * PI) -> Rabs y < PI -> dd + unwrap_step dd = y.
Proof.
  intros E Hy. pose proof PI_RGT_0 as HP. destruct (unwrap_step_spec dd) as (H1 & m & H2).
  rewrite H2, E in *. apply Rabs_def2 in Hy. apply Rabs_le_between in H1.
  assert (Q : IZR (k + m) * (2 * PI) = IZR k * (2 * PI) + IZR m * (2 * PI)) by (rewrite plus_IZR; ring).
  assert (IZR (k + m) * (2 * PI) < 2 * PI) by lra. assert (- (2 * PI) < IZR (k + m) * (2 * PI)) by lra.
  assert (Z0 : (k + m = 0)%Z).
  { assert (IZR (k + m) < 1) by (apply Rmult_lt_reg_r with (2 * PI); lra).
    assert (-1 < IZR (k + m)) by (apply Rmult_lt_reg_r with (2 * PI); lra).
    apply lt_IZR in H3. apply lt_IZR in H4. lia. }
  rewrite Z0 in Q. lra.
Qed.

Lemma unwrap_zero p : np_unwrap p 0 = p 0%nat.
Proof. unfold np_unwrap. cbn. ring. Qed.

Lemma unwrap_next p i : np_unwrap p (S i) - np_unwrap p i = (p (S i) - p i) + unwrap_step (p (S i) - p i).
Proof. unfold np_unwrap. cbn [rsum]. ring. Qed.

Lemma unwrap_congruent p i : exists k : Z, np_unwrap p i = p i + IZR k * (2 * PI).
Proof.
  induction i as [|i (k & IH)]; [exists 0%Z; rewrite unwrap_zero; lra|].
  destruct (unwrap_step_spec (p (S i) - p i)) as (_ & m & Hm).
  exists (k + m)%Z. pose proof (unwrap_next p i). rewrite plus_IZR. lra.
Qed.

Lemma unwrap_close p i : Rabs (np_unwrap p (S i) - np_unwrap p i) <= PI.
Proof. rewrite unwrap_next. apply unwrap_step_spec. Qed.

Lemma unwrap_true_path p y n : (forall i, (i < n)%nat -> exists k : Z, p i = y i + IZR k * (2 * PI)) ->
  (forall i, (S i < n)%nat -> Rabs (y (S i) - y i) < PI) ->
  forall i, (i < n)%nat -> np_unwrap p i = y i + (p 0%nat - y 0%nat).
Proof.
  intros Hp Hy i. induction i as [|i IH]; intros Hi; [rewrite unwrap_zero; ring|].
  pose proof (unwrap_next p i) as N. destruct (Hp i ltac:(lia)) as (k & Hk). destruct (Hp (S i) Hi) as (m & Hm).
  rewrite (unwrap_step_small _ (y (S i) - y i) (m - k)) in N; [|rewrite minus_IZR; lra|apply Hy; exact Hi].
  rewrite IH in N by lia. lra.
Qed.
