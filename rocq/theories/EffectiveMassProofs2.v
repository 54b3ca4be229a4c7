(** Proofs about effective masses: the bands of a free particle and of a chain with hopping between
    neighbouring cells. *)
From Coq Require Import Reals Lia Lra List Arith ZArith.
From Verif Require Import ZLib Csum DFT NumPy Index IndexProofs SpecEffectiveMass.
Import ListNotations.
Local Open Scope R_scope.
Local Open Scope C_scope.

Section Circle.
  Variables (n : nat) (G : nat -> R).
  Hypothesis Hn : (2 <= n)%nat.
  Hypothesis G0 : G n = G 0%nat.
  Hypothesis G1 : G (S n) = G 1%nat.
  Notation h := (2 * PI / INR n)%R.
  Notation w s := (omega n (Z.of_nat s)).

  Lemma once_round (F : nat -> C) : forall m, csum (fun s => F (S s)) m = csum F m + F m - F 0%nat.
  Proof. induction m as [|m IH]; [cbn; ring|]. rewrite !csum_S, IH. ring. Qed.

  Lemma second_difference :
    csum (fun s => RtoC (G (S (S s)) - 2 * G (S s) + G s) * w (S s)) n = RtoC (2 * cos h - 2) * csum (fun s => RtoC (G s) * w s) n.
  Proof using All.
    set (S0 := csum (fun s => RtoC (G s) * w s) n).
    assert (wn : w n = 1) by (replace (Z.of_nat n) with (1 * Z.of_nat n)%Z by ring; apply omega_mult_N; lia).
    assert (wS : forall s, w (S s) = w s * omega n 1) by (intros s; rewrite <- omega_add; f_equal; lia).
    assert (w0 : w 0%nat = 1) by apply omega_0.
    assert (A1 : csum (fun s => RtoC (G (S s)) * w (S s)) n = S0).
    { rewrite (once_round (fun s => RtoC (G s) * w s)). unfold S0. rewrite G0, wn, w0. ring. }
    assert (A2 : csum (fun s => RtoC (G (S (S s))) * w (S (S s))) n = S0).
    { rewrite (once_round (fun s => RtoC (G (S s)) * w (S s))), A1. rewrite G1, (wS n), (wS 0%nat), wn, w0. ring. }
    assert (I1 : omega n (-1) * omega n 1 = 1) by exact (omega_opp_mult n 1).
    rewrite (csum_ext _ (fun s => omega n (-1) * (RtoC (G (S (S s))) * w (S (S s))) - RtoC 2 * (RtoC (G (S s)) * w (S s)) + omega n 1 * (RtoC (G s) * w s))).
    - rewrite csum_plus, csum_minus, !csum_scal_l, A1, A2. fold S0.
      assert (E : omega n (-1) + omega n 1 = RtoC (2 * cos h)).
      { unfold omega, cis. apply injective_projections; cbn [fst snd Cplus].
        - replace (2 * PI * IZR (-1) / INR n)%R with (- (2 * PI * 1 / INR n))%R by (unfold Rdiv; ring). rewrite cos_neg.
          replace (2 * PI * 1 / INR n)%R with h by (unfold Rdiv; ring). cbn. ring.
        - replace (2 * PI * IZR (-1) / INR n)%R with (- (2 * PI * 1 / INR n))%R by (unfold Rdiv; ring). rewrite sin_neg. cbn. ring. }
      rewrite RtoC_minus, <- E. ring.
    - intros s _. rewrite RtoC_plus, RtoC_minus, RtoC_mult, (wS (S s)).
      transitivity (RtoC (G (S (S s))) * (w (S s) * (omega n (-1) * omega n 1)) - RtoC 2 * (RtoC (G (S s)) * w (S s)) + RtoC (G s) * w (S s)); [rewrite I1; ring|]. rewrite (wS s). ring.
  Qed.

  (** The second differences of a sum of a constant and of weights at some points. *)
  Lemma kinks c (K : nat -> R) : (forall s, (s < n)%nat -> (G (S (S s)) - 2 * G (S s) + G s = c + K (S s))%R) ->
    RtoC (2 * cos h - 2) * csum (fun s => RtoC (G s) * w s) n = csum (fun s => RtoC (K (S s)) * w (S s)) n.
  Proof using All.
    intros HK. rewrite <- second_difference.
    rewrite (csum_ext _ (fun s => RtoC c * w (S s) + RtoC (K (S s)) * w (S s))) by (intros s Hs; rewrite HK by exact Hs; rewrite RtoC_plus; ring).
    rewrite csum_plus, csum_scal_l. enough (E : csum (fun s => w (S s)) n = 0) by (rewrite E; ring).
    rewrite (csum_ext _ (fun s => omega n 1 * omega n (1 * Z.of_nat s))) by (intros s _; rewrite <- omega_add; f_equal; lia).
    rewrite csum_scal_l, omega_sum_neq; [ring|lia|]. intros [q Hq]. destruct (Z.le_gt_cases q 0); nia.
  Qed.
End Circle.

(** The distance on the circle of sample [s] from the first, continued a little past [n]. *)
Definition dist (n s : nat) : nat := if (2 * s <=? n)%nat then s else if (s <=? n)%nat then (n - s)%nat else (s - n)%nat.

Ltac dist_cases := unfold dist; repeat match goal with |- context [(?a <=? ?b)%nat] => destruct (Nat.leb_spec a b); try lia end.

Lemma signs x y : RtoC x * - (1) + RtoC y * 1 - RtoC 0 * 1 = RtoC (y - x).
Proof. apply injective_projections; cbn; ring. Qed.

Section Free.
  Variables (n : nat) (A sg : R).
  Hypothesis Hn : (2 <= n)%nat.
  Hypothesis Hsg : (sg * sg = 1)%R.
  Notation h := (2 * PI / INR n)%R.
  Definition G0 (s : nat) : R := ((A + sg * (h * INR (dist n s))) ^ 2)%R.
  Notation w s := (omega n (Z.of_nat s)).

  Lemma round_G : G0 n = G0 0%nat /\ G0 (S n) = G0 1%nat.
  Proof using Hn.
    unfold G0. split; do 5 f_equal; dist_cases.
  Qed.

  Lemma dist_at s d : dist n s = d -> G0 s = ((A + sg * (h * INR d)) ^ 2)%R.
  Proof. intros <-. reflexivity. Qed.

  Lemma free_even m : n = (2 * m)%nat ->
    RtoC (2 * cos h - 2) * csum (fun s => RtoC (G0 s) * w s) n = RtoC (4 * h * sg * (2 * A + sg * PI)).
  Proof using Hn Hsg.
    intros En. destruct round_G as [R0 R1].
    assert (Hh : (h * INR m = PI)%R).
    { rewrite En, mult_INR. cbn [INR]. field. apply not_0_INR. lia. }
    set (K := fun s => if (s =? m)%nat then (- 4 * sg * h * (A + sg * PI))%R else if (s =? n)%nat then (4 * A * sg * h)%R else 0%R).
    rewrite (kinks n G0 Hn R0 R1 (2 * h ^ 2) K).
    - rewrite (once_round (fun s => RtoC (K s) * w s)). replace n with (m + m)%nat at 1 by lia.
      assert (Km : w m = - (1)).
      { unfold omega. rewrite <- INR_IZR_INZ. replace (2 * PI * INR m / INR n)%R with PI by (rewrite <- Hh at 1; unfold Rdiv; ring).
        unfold cis. rewrite cos_PI, sin_PI. apply injective_projections; cbn; ring. }
      assert (wn : w n = 1) by (replace (Z.of_nat n) with (1 * Z.of_nat n)%Z by ring; apply omega_mult_N; lia).
      rewrite (csum_single _ (m + m) m); [|lia|].
      + unfold K. rewrite Nat.eqb_refl. replace (n =? m)%nat with false by (symmetry; apply Nat.eqb_neq; lia). rewrite Nat.eqb_refl.
        replace (0 =? m)%nat with false by (symmetry; apply Nat.eqb_neq; lia). replace (0 =? n)%nat with false by (symmetry; apply Nat.eqb_neq; lia).
        rewrite Km, wn. change (Z.of_nat 0) with 0%Z. rewrite omega_0. rewrite signs. f_equal. ring.
      + intros s Hs Hne. unfold K. replace (s =? m)%nat with false by (symmetry; apply Nat.eqb_neq; lia). replace (s =? n)%nat with false by (symmetry; apply Nat.eqb_neq; lia). ring.
    - intros s Hs. unfold K. destruct (Nat.eqb_spec (S s) m) as [E|NE].
      + rewrite (dist_at (S (S s)) s), (dist_at (S s) (S s)), (dist_at s s) by (dist_cases). rewrite !S_INR.
        assert (Hs' : (h * INR s = PI - h)%R) by (assert (Q : (h * INR (S s) = PI)%R) by (rewrite E; exact Hh); rewrite S_INR, Rmult_plus_distr_l, Rmult_1_r in Q; lra).
        rewrite Rmult_plus_distr_l, Hs'. 
        replace (sg * (PI - h + h * 1))%R with (sg * PI)%R by ring.
        transitivity (2 * (sg * sg) * h ^ 2 + (- 4 * sg * h * (A + sg * PI)))%R; [ring|rewrite Hsg; ring].
      + destruct (Nat.eqb_spec (S s) n) as [E|NE2].
        * rewrite (dist_at (S (S s)) 1), (dist_at (S s) 0), (dist_at s 1) by (dist_cases). cbn [INR].
          transitivity (2 * (sg * sg) * h ^ 2 + (4 * A * sg * h))%R; [ring|rewrite Hsg; ring].
        * destruct (Nat.lt_ge_cases (S s) m).
          -- rewrite (dist_at (S (S s)) (S (S s))), (dist_at (S s) (S s)), (dist_at s s) by (dist_cases). rewrite !S_INR.
             transitivity (2 * (sg * sg) * h ^ 2 + 0)%R; [ring|rewrite Hsg; ring].
          -- rewrite (dist_at (S (S s)) (n - S (S s))), (dist_at (S s) (S (n - S (S s)))), (dist_at s (S (S (n - S (S s))))) by (dist_cases). rewrite !S_INR.
             transitivity (2 * (sg * sg) * h ^ 2 + 0)%R; [ring|rewrite Hsg; ring].
  Qed.

  Lemma free_odd m : n = (2 * m + 1)%nat ->
    RtoC (2 * cos h - 2) * csum (fun s => RtoC (G0 s) * w s) n = RtoC (4 * h * sg * (A + (A + sg * PI) * cos (PI / INR n))).
  Proof using Hn Hsg.
    intros En. destruct round_G as [R0 R1].
    assert (Hi : (0 < INR n)%R) by (apply lt_0_INR; lia).
    assert (Hh : (h * INR m = PI - PI / INR n)%R).
    { assert (Q : INR n = (2 * INR m + 1)%R) by (rewrite En, plus_INR, mult_INR; cbn [INR]; ring). replace (INR m) with ((INR n - 1) / 2)%R by lra. field. lra. }
    set (v := (- 2 * sg * h * (A + sg * PI))%R).
    set (K := fun s => ((if (s =? m)%nat then v else 0) + (if (s =? S m)%nat then v else 0) + (if (s =? n)%nat then 4 * A * sg * h else 0))%R).
    rewrite (kinks n G0 Hn R0 R1 (2 * h ^ 2) K).
    - rewrite (once_round (fun s => RtoC (K s) * w s)).
      assert (Km : w m + w (S m) = RtoC (- 2 * cos (PI / INR n))).
      { unfold omega. rewrite <- !INR_IZR_INZ.
        assert (E1 : (2 * PI * INR m / INR n = PI - PI / INR n)%R) by (rewrite <- Hh; unfold Rdiv; ring).
        assert (E2 : (2 * PI * INR (S m) / INR n = PI / INR n + PI)%R).
        { rewrite S_INR. replace (2 * PI * (INR m + 1) / INR n)%R with (2 * PI * INR m / INR n + 2 * (PI / INR n))%R by (unfold Rdiv; ring). rewrite E1. ring. }
        rewrite E1, E2. unfold cis. rewrite (Rtrigo_facts.cos_pi_minus), (Rtrigo_facts.sin_pi_minus), neg_cos, neg_sin. apply injective_projections; cbn; ring. }
      assert (wn : w n = 1) by (replace (Z.of_nat n) with (1 * Z.of_nat n)%Z by ring; apply omega_mult_N; lia).
      rewrite (csum_ext _ (fun s => RtoC (if (s =? m)%nat then v else 0) * w s + RtoC (if (s =? S m)%nat then v else 0) * w s)).
      + rewrite csum_plus. rewrite (csum_single _ n m); [|lia|intros s Hs Hne; replace (s =? m)%nat with false by (symmetry; apply Nat.eqb_neq; lia); ring].
        rewrite (csum_single _ n (S m)); [|lia|intros s Hs Hne; replace (s =? S m)%nat with false by (symmetry; apply Nat.eqb_neq; lia); ring].
        unfold K. rewrite !Nat.eqb_refl. replace (n =? m)%nat with false by (symmetry; apply Nat.eqb_neq; lia). replace (n =? S m)%nat with false by (symmetry; apply Nat.eqb_neq; lia).
        replace (0 =? m)%nat with false by (symmetry; apply Nat.eqb_neq; lia). replace (0 =? n)%nat with false by (symmetry; apply Nat.eqb_neq; lia). replace (0 =? S m)%nat with false by reflexivity.
        rewrite wn. change (Z.of_nat 0) with 0%Z. rewrite omega_0.
        transitivity (RtoC v * (w m + w (S m)) + RtoC (4 * A * sg * h) * 1); [rewrite !Rplus_0_l; ring|].
        rewrite Km. unfold v. rewrite <- !RtoC_mult, <- RtoC_plus. f_equal. ring.
      + intros s Hs. unfold K. replace (s =? n)%nat with false by (symmetry; apply Nat.eqb_neq; lia). rewrite Rplus_0_r, RtoC_plus. ring.
    - intros s Hs. unfold K. destruct (Nat.eqb_spec (S s) m) as [E|NE].
      + replace (S s =? S m)%nat with false by (symmetry; apply Nat.eqb_neq; lia). replace (S s =? n)%nat with false by (symmetry; apply Nat.eqb_neq; lia).
        rewrite (dist_at (S (S s)) m), (dist_at (S s) m), (dist_at s s) by (dist_cases).
        assert (Hs' : (h * INR s = PI - PI / INR n - h)%R) by (assert (Q : (h * INR (S s) = PI - PI / INR n)%R) by (rewrite E; exact Hh); rewrite S_INR, Rmult_plus_distr_l, Rmult_1_r in Q; lra).
        rewrite Hh, Hs'. unfold v. replace (PI / INR n)%R with (h / 2)%R by (unfold Rdiv; field; lra).
        transitivity (2 * (sg * sg) * h ^ 2 + (- 2 * sg * h * (A + sg * PI)))%R; [field; lra|rewrite Hsg; ring].
      + destruct (Nat.eqb_spec (S s) (S m)) as [E|NE1].
        * replace (S s =? n)%nat with false by (symmetry; apply Nat.eqb_neq; lia).
          rewrite (dist_at (S (S s)) (m - 1)), (dist_at (S s) m), (dist_at s m) by (dist_cases).
          assert (Hs' : (h * INR (m - 1) = PI - PI / INR n - h)%R) by (rewrite minus_INR by lia; cbn [INR]; lra).
          rewrite Hh, Hs'. unfold v. replace (PI / INR n)%R with (h / 2)%R by (unfold Rdiv; field; lra).
          transitivity (2 * (sg * sg) * h ^ 2 + (- 2 * sg * h * (A + sg * PI)))%R; [field; lra|rewrite Hsg; ring].
        * destruct (Nat.eqb_spec (S s) n) as [E|NE2].
          -- rewrite (dist_at (S (S s)) 1), (dist_at (S s) 0), (dist_at s 1) by (dist_cases). cbn [INR].
             transitivity (2 * (sg * sg) * h ^ 2 + (4 * A * sg * h))%R; [ring|rewrite Hsg; ring].
          -- destruct (Nat.lt_ge_cases (S s) m).
             ++ rewrite (dist_at (S (S s)) (S (S s))), (dist_at (S s) (S s)), (dist_at s s) by (dist_cases). rewrite !S_INR.
                transitivity (2 * (sg * sg) * h ^ 2 + 0)%R; [ring|rewrite Hsg; ring].
             ++ rewrite (dist_at (S (S s)) (n - S (S s))), (dist_at (S s) (S (n - S (S s)))), (dist_at s (S (S (n - S (S s))))) by (dist_cases). rewrite !S_INR.
                transitivity (2 * (sg * sg) * h ^ 2 + 0)%R; [ring|rewrite Hsg; ring].
  Qed.
End Free.

(** The factor by which the mass of band [N] of a free particle, sampled [n] times, is out. *)
Definition weight (n N : nat) : R :=
  if Nat.even n then (2 * INR N + 1)%R
  else if Nat.even N then (INR N + (INR N + 1) * cos (PI / INR n))%R
  else ((INR N + 1) + INR N * cos (PI / INR n))%R.

Lemma half_angle n : (0 < n)%nat -> (2 * cos (2 * PI / INR n) - 2 = - 4 * sin (PI / INR n) ^ 2)%R.
Proof.
  intros Hn. replace (2 * PI / INR n)%R with (2 * (PI / INR n))%R by (field; apply not_0_INR; lia). rewrite cos_2a_sin. ring.
Qed.
Lemma dist_momentum delta n s : (0 < delta)%R -> (0 < n)%nat -> (s < n)%nat ->
  Rabs (sample_momentum delta n s) = (2 * PI / INR n * INR (dist n s) / delta)%R.
Proof.
  intros Hd Hn Hs. assert (Hi : (0 < INR n)%R) by (apply lt_0_INR; lia). assert (P := PI_RGT_0).
  unfold sample_momentum. destruct (Nat.ltb_spec (2 * s) n).
  - replace (dist n s) with s by dist_cases. rewrite Rabs_pos_eq; [field; lra|].
    apply Rmult_le_pos; [|left; apply Rinv_0_lt_compat, Rmult_lt_0_compat; assumption]. assert (Q := pos_INR s). nra.
  - destruct (Nat.eq_dec (2 * s) n) as [E|NE].
    + replace (dist n s) with (n - s)%nat by dist_cases. rewrite minus_INR by lia.
      replace (2 * PI * (INR s - INR n) / (INR n * delta))%R with (- (2 * PI * (INR n - INR s) / (INR n * delta)))%R by (field; lra).
      rewrite Rabs_Ropp, Rabs_pos_eq; [field; lra|].
      apply Rmult_le_pos; [|left; apply Rinv_0_lt_compat, Rmult_lt_0_compat; assumption]. assert (Q : (INR s <= INR n)%R) by (apply le_INR; lia). nra.
    + replace (dist n s) with (n - s)%nat by dist_cases. rewrite minus_INR by lia.
      replace (2 * PI * (INR s - INR n) / (INR n * delta))%R with (- (2 * PI * (INR n - INR s) / (INR n * delta)))%R by (field; lra).
      rewrite Rabs_Ropp, Rabs_pos_eq; [field; lra|].
      apply Rmult_le_pos; [|left; apply Rinv_0_lt_compat, Rmult_lt_0_compat; assumption]. assert (Q : (INR s <= INR n)%R) by (apply le_INR; lia). nra.
Qed.

Definition base (N : nat) : R := if Nat.even N then (INR N * PI)%R else (INR (N + 1) * PI)%R.
Definition slope (N : nat) : R := if Nat.even N then 1%R else (- 1)%R.
Lemma slope2 N : (slope N * slope N = 1)%R. Proof. unfold slope. destruct (Nat.even N); ring. Qed.
Lemma free_band_G delta n N s : (0 < delta)%R -> (0 < n)%nat -> (s < n)%nat ->
  free_band delta N (sample_momentum delta n s) = (G0 n (base N) (slope N) s / delta ^ 2)%R.
Proof.
  intros Hd Hn Hs. unfold free_band. rewrite (dist_momentum delta n s Hd Hn Hs). unfold G0, base, slope.
  assert (Hi : (0 < INR n)%R) by (apply lt_0_INR; lia). destruct (Nat.even N); field; split; lra.
Qed.

Lemma free_sum n N : (2 <= n)%nat ->
  RtoC (- 4 * sin (PI / INR n) ^ 2) * csum (fun s => RtoC (G0 n (base N) (slope N) s) * omega n (Z.of_nat s)) n =
  RtoC (4 * (2 * PI / INR n) * (slope N * PI * weight n N)).
Proof.
  intros Hn. rewrite <- half_angle by lia. unfold weight. destruct (Nat.even n) eqn:En.
  - apply Nat.even_spec in En. destruct En as [m Em]. rewrite (free_even n (base N) (slope N) Hn (slope2 N) m Em).
    f_equal. unfold base, slope. rewrite plus_INR. cbn [INR]. destruct (Nat.even N); ring.
  - assert (O : Nat.Odd n) by (apply Nat.odd_spec; rewrite <- Nat.negb_even, En; reflexivity). destruct O as [m Em].
    rewrite (free_odd n (base N) (slope N) Hn (slope2 N) m Em). f_equal. unfold base, slope. rewrite plus_INR. cbn [INR]. destruct (Nat.even N); ring.
Qed.
