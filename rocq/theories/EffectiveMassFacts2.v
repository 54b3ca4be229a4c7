(** Facts about effective masses: the masses of a free particle, of a chain, and examples. *)
From Coq Require Import Reals Lia Lra List Arith ZArith.
From Verif Require Import ZLib Csum DFT NumPy Index IndexProofs Lattice Basis SpecBasis BasisFacts Operator Wavepacket Dynamics DynamicsProofs8 VolumeBasis SpecVolumeBasis WaveLists
  EffectiveMass SpecEffectiveMass EffectiveMassProofs EffectiveMassProofs2 EffectiveMassFacts.
Import ListNotations.
Local Open Scope R_scope.
Local Open Scope C_scope.

Lemma norm_nonneg' nd v : (0 <= norm nd v)%R.
Proof. unfold norm. apply sqrt_pos. Qed.
Lemma ex_is_identity : identity_test (fun _ _ => false).
Proof. intros a b. discriminate. Qed.

Section Chain.
  Variables (same : basis -> basis -> bool) (hbar : R) (nb n : nat) (la : length_axis) (data ev : ndarray).
  Notation delta := (norm 1 (lattice_of [la] 0)).
  Hypothesis Hid : identity_test same.
  Hypothesis Hhbar : hbar <> 0%R.
  Hypothesis Hn : (2 <= n)%nat.
  Hypothesis Hw : bwf (stacked [la]).
  Hypothesis Ho : explicit_orthonormal (stacked [la]).
  Hypothesis Hd : nprod (ashape data) = (nb * n * bsize (stacked [la]))%nat.
  Hypothesis He : nprod (ashape ev) = (nb * n)%nat.
  Hypothesis Hdelta : delta <> 0%R.

  Lemma chain_mass E : (forall b s, (b < nb)%nat -> (s < n)%nat -> aflat ev (b * n + s)%nat = RtoC (E b s)) ->
    exists M, get_wavepacket_transformed_energy_effective_mass same hbar nb [BFundT n] [la] data ev 0 = Some M /\
    forall b, (b < nb)%nat -> M b = rdiv (hbar ^ 2 * (2 * INR b + 1))%R (delta ^ 2 * Cmod (neighbour_component [n] 0 (E b)))%R.
  Proof using Hid Hn Hw Ho Hd He Hdelta.
    intros HE. assert (Q := transformed_mass same hbar nb [n] [la] data ev 0 E Hid). cbn [length nprod nth map] in Q. rewrite Nat.mul_1_r in Q.
    apply Q; try assumption; try lia. apply Forall_cons; [lia|apply Forall_nil].
  Qed.

  Lemma free_mass m : (0 < m)%R ->
    (forall b s, (b < nb)%nat -> (s < n)%nat -> aflat ev (b * n + s)%nat = RtoC (hbar ^ 2 / (2 * m) * free_band delta b (sample_momentum delta n s))) ->
    exists M, get_wavepacket_transformed_energy_effective_mass same hbar nb [BFundT n] [la] data ev 0 = Some M /\
    forall b, (b < nb)%nat -> exists x, M b = Some x /\
      (Nat.Even n -> x = m * (sin (PI / INR n) / (PI / INR n)) ^ 2)%R /\
      (m * (1 - (PI / INR n) ^ 2 / 3) <= x)%R /\ (x * cos (PI / INR n) <= m)%R.
  Proof using All.
    intros Hm HE. destruct (chain_mass _ HE) as (M & E1 & V). exists M. split; [exact E1|]. intros b Hb. rewrite (V b Hb).
    assert (Hpos : (0 < delta)%R) by (assert (Q := norm_nonneg' 1 (lattice_of [la] 0)); lra).
    assert (Hi : (0 < INR n)%R) by (apply lt_0_INR; lia). assert (P := PI_RGT_0). assert (Hs := sin_small n Hn).
    assert (Hh : (0 < hbar ^ 2)%R) by (assert (Q := Rsqr_pos_lt hbar Hhbar); unfold Rsqr in Q; lra).
    rewrite free_component by assumption. destruct (weight_bounds n b Hn) as [[W0 W1] W2]. rewrite (Rabs_pos_eq (weight n b)) by lra.
    assert (Hc : (0 < hbar ^ 2 / (2 * m))%R) by (apply Rdiv_lt_0_compat; lra). rewrite (Rabs_pos_eq (hbar ^ 2 / (2 * m))) by lra.
    assert (Hns : (0 < INR n * sin (PI / INR n))%R) by (apply Rmult_lt_0_compat; assumption).
    set (sc := (sin (PI / INR n) / (PI / INR n))%R).
    assert (X : rdiv (hbar ^ 2 * (2 * INR b + 1))%R (delta ^ 2 * (hbar ^ 2 / (2 * m) / delta ^ 2 * (2 * PI ^ 2 * weight n b) / (INR n * sin (PI / INR n)) ^ 2))%R =
      Some (m * sc ^ 2 * ((2 * INR b + 1) / weight n b))%R).
    { rewrite rdiv_some.
      - f_equal. unfold sc. field. repeat split; try lra.
      - apply Rgt_not_eq. apply Rmult_lt_0_compat; [apply pow_lt, Hpos|]. apply Rdiv_lt_0_compat; [|apply pow_lt, Hns].
        apply Rmult_lt_0_compat; [apply Rdiv_lt_0_compat; [exact Hc|apply pow_lt, Hpos]|]. apply Rmult_lt_0_compat; [|exact W0]. apply Rmult_lt_0_compat; [lra|apply pow_lt, P]. }
    rewrite X. eexists. split; [reflexivity|].
    assert (Hx : (0 < PI / INR n <= 2)%R).
    { split; [apply Rdiv_lt_0_compat; lra|]. assert (H2 : (2 <= INR n)%R) by (apply (le_INR 2); exact Hn). assert (P4 := PI_4).
      apply (Rmult_le_reg_r (INR n)); [lra|]. unfold Rdiv. rewrite Rmult_assoc, Rinv_l by lra. lra. }
    assert (B := sinc_bounds (PI / INR n) Hx). fold sc in B. assert (Qb := pos_INR b).
    assert (R1 : (1 <= (2 * INR b + 1) / weight n b)%R) by (apply (Rmult_le_reg_r (weight n b)); [lra|]; unfold Rdiv; rewrite Rmult_assoc, Rinv_l by lra; lra).
    assert (R2 : ((2 * INR b + 1) / weight n b * cos (PI / INR n) <= 1)%R).
    { apply (Rmult_le_reg_r (weight n b)); [lra|]. replace ((2 * INR b + 1) / weight n b * cos (PI / INR n) * weight n b)%R with ((2 * INR b + 1) * cos (PI / INR n))%R by (field; lra). lra. }
    assert (S2 : (0 <= sc ^ 2)%R) by (apply pow2_ge_0).
    split; [|split].
    - intros Ev. unfold weight. apply Nat.even_spec in Ev. rewrite Ev. field. lra.
    - set (r := ((2 * INR b + 1) / weight n b)%R) in *. assert (m * (1 - (PI / INR n) ^ 2 / 3) <= m * sc ^ 2)%R by (apply Rmult_le_compat_l; lra).
      assert (0 <= m * sc ^ 2)%R by (apply Rmult_le_pos; lra). nra.
    - set (r := ((2 * INR b + 1) / weight n b)%R) in *. replace (m * sc ^ 2 * r * cos (PI / INR n))%R with (m * (sc ^ 2 * (r * cos (PI / INR n))))%R by ring.
      rewrite <- (Rmult_1_r m) at 2. apply Rmult_le_compat_l; [lra|]. nra.
  Qed.

  Lemma hopping_mass (e0 J : nat -> R) : (3 <= n)%nat -> (forall b, (b < nb)%nat -> J b <> 0%R) ->
    (forall b s, (b < nb)%nat -> (s < n)%nat -> aflat ev (b * n + s)%nat = RtoC (e0 b - 2 * J b * cos (sample_momentum delta n s * delta))) ->
    exists M, get_wavepacket_transformed_energy_effective_mass same hbar nb [BFundT n] [la] data ev 0 = Some M /\
    forall b, (b < nb)%nat -> M b = Some (2 * (2 * INR b + 1) * (hbar ^ 2 / (2 * Rabs (J b) * delta ^ 2)))%R.
  Proof using Hid Hn Hw Ho Hd He Hdelta.
    intros H3 HJ HE. destruct (chain_mass (fun b s => e0 b - 2 * J b * cos (2 * PI * INR s / INR n))%R) as (M & E1 & V).
    - intros b s Hb Hs. rewrite HE by assumption. do 3 f_equal. assert (Hi : (0 < INR n)%R) by (apply lt_0_INR; lia). unfold sample_momentum.
      destruct (2 * s <? n)%nat; [f_equal; field; split; (exact Hdelta || lra)|].
      replace (2 * PI * (INR s - INR n) / (INR n * delta) * delta)%R with (2 * PI * INR s / INR n - 2 * PI)%R by (field; split; (exact Hdelta || lra)).
      rewrite cos_minus, cos_2PI, sin_2PI. ring.
    - exists M. split; [exact E1|]. intros b Hb. rewrite (V b Hb), hopping_component, Cmod_R, Rabs_Ropp by exact H3.
      assert (Hr : Rabs (J b) <> 0%R) by (apply Rabs_no_R0, HJ, Hb). rewrite rdiv_some.
      + f_equal. field. split; assumption.
      + apply Rmult_integral_contrapositive. split; [apply pow_nonzero, Hdelta|exact Hr].
  Qed.
End Chain.

(** The bands of a free particle. *)
Definition lattice_wave_number (k : R) (N : nat) : Z :=
  let g := if Nat.even N then Z.of_nat (N / 2) else (- Z.of_nat (S N / 2))%Z in if Rle_dec 0 k then g else (- g)%Z.

Lemma parity N : (Nat.even N = true /\ N = 2 * (N / 2))%nat \/ (Nat.even N = false /\ S N = 2 * (S N / 2))%nat.
Proof.
  destruct (Nat.even N) eqn:Ev; [left|right]; split; try reflexivity.
  - apply Nat.even_spec in Ev. destruct Ev as [m ->]. replace (2 * m)%nat with (m * 2)%nat by lia. rewrite Nat.div_mul by lia. lia.
  - assert (O : Nat.Odd N) by (apply Nat.odd_spec; rewrite <- Nat.negb_even, Ev; reflexivity). destruct O as [m ->].
    replace (S (2 * m + 1)) with (S m * 2)%nat by lia. rewrite Nat.div_mul by lia. lia.
Qed.
Lemma free_bands delta k : (0 < delta)%R -> (Rabs k <= PI / delta)%R ->
  exists g : nat -> Z, (forall z, exists N, g N = z) /\ (forall N N', g N = g N' -> N = N') /\
    (forall N, free_band delta N k = (k + 2 * PI * IZR (g N) / delta) ^ 2)%R /\
    (forall N, (free_band delta N k <= free_band delta (S N) k)%R).
Proof.
  intros Hd Hk. exists (lattice_wave_number k). assert (P := PI_RGT_0). assert (Pd : (0 < PI / delta)%R) by (apply Rdiv_lt_0_compat; lra).
  split; [|split; [|split]].
  - assert (G : forall z, exists N, (if Nat.even N then Z.of_nat (N / 2) else (- Z.of_nat (S N / 2))%Z) = z).
    { intros z. destruct (Z.le_gt_cases 0 z).
      - exists (Z.to_nat z * 2)%nat. rewrite (proj2 (Nat.even_spec (Z.to_nat z * 2))) by (exists (Z.to_nat z); lia). rewrite Nat.div_mul by lia. lia.
      - exists (Z.to_nat (- z) * 2 - 1)%nat. destruct (parity (Z.to_nat (- z) * 2 - 1)) as [[E D]|[E D]]; [lia|]. rewrite E. lia. }
    intros z. unfold lattice_wave_number. destruct (Rle_dec 0 k); [apply G|]. destruct (G (- z)%Z) as [N HN]. exists N. rewrite HN. lia.
  - intros N N' H. assert (G : (if Nat.even N then Z.of_nat (N / 2) else (- Z.of_nat (S N / 2))%Z) = (if Nat.even N' then Z.of_nat (N' / 2) else (- Z.of_nat (S N' / 2))%Z)).
    { unfold lattice_wave_number in H. destruct (Rle_dec 0 k); lia. }
    destruct (parity N) as [[E D]|[E D]]; destruct (parity N') as [[E' D']|[E' D']]; rewrite E, E' in G; lia.
  - intros N. unfold free_band, lattice_wave_number. destruct (parity N) as [[E D]|[E D]]; rewrite E.
    + replace (INR N * PI / delta)%R with (2 * PI * INR (N / 2) / delta)%R by (rewrite D at 2; rewrite mult_INR; cbn [INR]; field; lra).
      destruct (Rle_dec 0 k); [rewrite Rabs_pos_eq by lra|rewrite Rabs_left by lra; rewrite opp_IZR]; rewrite <- INR_IZR_INZ; field; lra.
    + replace (INR (N + 1) * PI / delta)%R with (2 * PI * INR (S N / 2) / delta)%R by (replace (N + 1)%nat with (S N) by lia; rewrite D at 2; rewrite mult_INR; cbn [INR]; field; lra).
      destruct (Rle_dec 0 k); [rewrite Rabs_pos_eq by lra|rewrite Rabs_left by lra; rewrite opp_IZR]; rewrite opp_IZR, <- INR_IZR_INZ; field; lra.
  - intros N. unfold free_band. rewrite Nat.even_succ, <- Nat.negb_even. assert (Qk := Rabs_pos k). assert (Qn := pos_INR N).
    replace (S N + 1)%nat with (S (S N)) by lia. replace (N + 1)%nat with (S N) by lia. rewrite !S_INR.
    unfold Rdiv in *. set (u := (PI * / delta)%R) in *. rewrite !Rmult_assoc. fold u.
    destruct (Nat.even N); cbn [negb]; apply pow_incr; nra.
Qed.

(** Example: a chain with cells of length two. *)
Definition ex_chain : length_axis := {| la_basis := BFundT 3; la_delta := [2%R] |}.
Lemma ex_chain_length : norm 1 (lattice_of [ex_chain] 0) = 2%R.
Proof. unfold norm, lattice_of. cbn. replace (_ + _)%R with (2 * 2)%R by ring. apply sqrt_square. lra. Qed.
Lemma ex_chain_ok : identity_test (fun _ _ => false) /\ bwf (stacked [ex_chain]) /\ explicit_orthonormal (stacked [ex_chain]) /\ norm 1 (lattice_of [ex_chain] 0) <> 0%R.
Proof. split; [exact ex_is_identity|]. split; [cbn; split; [lia|exact I]|]. split; [cbn; split; exact I|]. rewrite ex_chain_length. lra. Qed.
