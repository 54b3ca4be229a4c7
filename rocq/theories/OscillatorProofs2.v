(** Proofs about oscillator states: the integer recursion for the Hermite coefficients. *)
From Coq Require Import Reals ZArith List Arith Lia Lra Psatz Bool.
From Coquelicot Require Import Coquelicot.
From Verif Require Import ZLib Csum NumPy Lattice LatticeProofs GaussianIntegral Oscillator SpecOscillator HamiltonianProofs3 KernelProofs3 OscillatorProofs.
Import ListNotations.
Local Open Scope R_scope.

(** The coefficients without wrapping. *)
Fixpoint hcoef (n m : nat) : Z :=
  match n with
  | O => match m with O => 1 | S _ => 0 end
  | S n' => match m with O => 0 | S m' => 2 * hcoef n' m' end - (Z.of_nat m + 1) * hcoef n' (S m)
  end%Z.

Lemma hcoef_high n : forall m, (n < m)%nat -> hcoef n m = 0%Z.
Proof.
  induction n as [|n IH]; intros m Hm; destruct m as [|m]; try lia; [reflexivity|].
  cbn [hcoef]. rewrite !IH by lia. lia.
Qed.

Definition next_row (l : list Z) : list Z :=
  map (fun m => match m with O => 0 | S m' => 2 * nth m' l 0 end - (Z.of_nat m + 1) * nth (S m) l 0)%Z (seq 0 (S (length l))).
Fixpoint hrow (n : nat) : list Z := match n with O => [1%Z] | S n' => next_row (hrow n') end.

Lemma hrow_length n : length (hrow n) = S n.
Proof. induction n as [|n IH]; [reflexivity|]. cbn [hrow]. unfold next_row. rewrite map_length, seq_length, IH. reflexivity. Qed.

Lemma hrow_nth n : forall m, nth m (hrow n) 0%Z = hcoef n m.
Proof.
  induction n as [|n IH]; intros m.
  - destruct m as [|[|m]]; reflexivity.
  - destruct (Nat.lt_ge_cases m (S (S n))) as [Hm|Hm].
    + cbn [hrow]. unfold next_row. rewrite hrow_length.
      rewrite nth_map_seq' by exact Hm. cbn [hcoef]. rewrite IH. destruct m as [|m]; [reflexivity|]. rewrite IH. reflexivity.
    + rewrite nth_overflow by (rewrite hrow_length; lia). symmetry. apply hcoef_high. lia.
Qed.

(** ** The polynomial *)

Definition hpoly (n : nat) (x : R) : R := rsum (fun m => IZR (hcoef n m) * x ^ m) (S n).

Definition hdpoly (n : nat) (x : R) : R := rsum (fun m => INR (S m) * IZR (hcoef n (S m)) * x ^ m) n.

Lemma rsum_S_head (f : nat -> R) n : rsum f (S n) = f 0%nat + rsum (fun m => f (S m)) n.
Proof. induction n as [|n IH]; [cbn; ring|]. cbn [rsum] in *. rewrite IH. ring. Qed.

Lemma hpoly_derive n x : is_derive (hpoly n) x (hdpoly n x).
Proof.
  unfold hpoly.
  apply (is_derive_ext (fun x => IZR (hcoef n 0) + rsum (fun m => IZR (hcoef n (S m)) * x ^ S m) n)).
  { intros t. rewrite rsum_S_head. cbn [pow]. rewrite Rmult_1_r. reflexivity. }
  replace (hdpoly n x) with (0 + hdpoly n x) by ring.
  apply (is_derive_plus (fun _ => IZR (hcoef n 0)) (fun x => rsum (fun m => IZR (hcoef n (S m)) * x ^ S m) n)).
  - apply (is_derive_const (IZR (hcoef n 0))).
  - unfold hdpoly. apply (derive_rsum (fun m x => IZR (hcoef n (S m)) * x ^ S m) (fun m x => INR (S m) * IZR (hcoef n (S m)) * x ^ m)).
    intros m Hm. replace (INR (S m) * IZR (hcoef n (S m)) * x ^ m) with (IZR (hcoef n (S m)) * (INR (S m) * 1 * x ^ pred (S m))) by (cbn [pred]; ring).
    apply is_derive_scal. apply (is_derive_pow (fun y => y) (S m) x 1). apply (is_derive_id x).
Qed.

Lemma rsum_extend (f : nat -> R) n k : (forall m, (n <= m)%nat -> f m = 0) -> rsum f (n + k) = rsum f n.
Proof.
  intros H. induction k as [|k IH]; [rewrite Nat.add_0_r; reflexivity|].
  rewrite Nat.add_succ_r. cbn [rsum]. rewrite IH, H by lia. ring.
Qed.

Lemma hpoly_step n x : hpoly (S n) x = 2 * x * hpoly n x - hdpoly n x.
Proof.
  unfold hpoly, hdpoly.
  assert (E : forall m, IZR (hcoef (S n) m) * x ^ m
    = match m with O => 0 | S m' => 2 * x * (IZR (hcoef n m') * x ^ m') end - INR (S m) * IZR (hcoef n (S m)) * x ^ m).
  { intros m. cbn [hcoef]. rewrite minus_IZR, mult_IZR, plus_IZR, <- INR_IZR_INZ, S_INR. destruct m as [|m].
    - ring.
    - rewrite mult_IZR. rewrite <- (tech_pow_Rmult x m). ring. }
  rewrite (rsum_ext _ (fun m => match m with O => 0 | S m' => 2 * x * (IZR (hcoef n m') * x ^ m') end + - 1 * (INR (S m) * IZR (hcoef n (S m)) * x ^ m)))
    by (intros m Hm; rewrite E; destruct m; ring).
  rewrite rsum_plus, (rsum_S_head (fun m => match m with O => _ | S _ => _ end)). rewrite !rsum_scal_l.
  replace (S (S n)) with (n + 2)%nat by lia.
  rewrite (rsum_extend (fun m => INR (S m) * IZR (hcoef n (S m)) * x ^ m) n 2).
  - ring.
  - intros m Hm. rewrite hcoef_high by lia. ring.
Qed.

Lemma hermite_poly h : is_hermite h -> forall n x, h n x = hpoly n x.
Proof.
  intros Hh n. induction n as [|n IH]; intros x.
  - rewrite (h0 h Hh). cbn. ring.
  - rewrite (hS h Hh), hpoly_step, IH. f_equal.
    pose proof (hder h Hh n x) as D. pose proof (hpoly_derive n x) as D'.
    assert (D2 : is_derive (hpoly n) x (2 * INR n * h (pred n) x)) by (apply (is_derive_ext (h n)); [exact IH|exact D]).
    rewrite <- (is_derive_unique _ _ _ D'). symmetry. apply is_derive_unique. exact D2.
Qed.

(** ** Wrapping *)

Definition cong (a b : Z) : Prop := (a mod 2 ^ 64 = b mod 2 ^ 64)%Z.

Lemma i64_cong z : cong (i64 z) z.
Proof. unfold cong, i64. rewrite Zminus_mod_idemp_l. f_equal. lia. Qed.
Lemma i64_range z : (- 2 ^ 63 <= i64 z < 2 ^ 63)%Z.
Proof. unfold i64. pose proof (Z.mod_pos_bound (z + 2 ^ 63) (2 ^ 64) ltac:(lia)). lia. Qed.
Lemma cong_trans a b c : cong a b -> cong b c -> cong a c.
Proof. unfold cong. congruence. Qed.
Lemma cong_sub a b c d : cong a b -> cong c d -> cong (a - c) (b - d).
Proof. unfold cong. intros H1 H2. rewrite (Zminus_mod a c), (Zminus_mod b d), H1, H2. reflexivity. Qed.
Lemma cong_mul a b c d : cong a b -> cong c d -> cong (a * c) (b * d).
Proof. unfold cong. intros H1 H2. rewrite (Zmult_mod a c), (Zmult_mod b d), H1, H2. reflexivity. Qed.
Lemma cong_opp a b : cong a b -> cong (- a) (- b).
Proof. intros H. replace (- a)%Z with (0 - a)%Z by lia. replace (- b)%Z with (0 - b)%Z by lia. apply cong_sub; [reflexivity|exact H]. Qed.
Lemma cong_range a b : cong a b -> (- 2 ^ 63 <= a < 2 ^ 63)%Z -> (- 2 ^ 63 <= b < 2 ^ 63)%Z -> a = b.
Proof. unfold cong. intros H Ha Hb. Z.div_mod_to_equations. lia. Qed.

Lemma coefficient_cong n : forall m, cong (hermite_coefficient n m) (hcoef n m).
Proof.
  induction n as [|n IH]; intros m; [destruct m; reflexivity|].
  destruct n as [|n].
  - destruct m as [|[|m]]; [reflexivity|reflexivity|]. cbn [hermite_coefficient].
    rewrite hcoef_high by lia. destruct (S (S m) <=? 1)%nat eqn:E; [apply Nat.leb_le in E; lia|]. reflexivity.
  - remember (S n) as k eqn:Ek. assert (Ec : hermite_coefficient (S k) m = match m with
        | O => i64 (- hermite_coefficient k 1)
        | S m' => if (m <=? S k)%nat then i64 (i64 (2 * hermite_coefficient k m') - i64 (i64 (Z.of_nat m + 1) * hermite_coefficient k (S m))) else 0
        end%Z) by (rewrite Ek; destruct m; reflexivity).
    rewrite Ec. cbn [hcoef]. destruct m as [|m].
    + eapply cong_trans; [apply i64_cong|]. replace (0 - (Z.of_nat 0 + 1) * hcoef k 1)%Z with (- hcoef k 1)%Z by (cbn [Z.of_nat]; lia).
      apply cong_opp, IH.
    + destruct (S m <=? S k)%nat eqn:E.
      * eapply cong_trans; [apply i64_cong|]. apply cong_sub.
        -- eapply cong_trans; [apply i64_cong|]. apply cong_mul; [reflexivity|apply IH].
        -- eapply cong_trans; [apply i64_cong|]. apply cong_mul; [apply i64_cong|apply IH].
      * apply Nat.leb_gt in E. rewrite !hcoef_high by lia. replace (2 * 0 - (Z.of_nat (S m) + 1) * 0)%Z with 0%Z by lia. reflexivity.
Qed.

Lemma coefficient_range n m : (- 2 ^ 63 <= hermite_coefficient n m < 2 ^ 63)%Z.
Proof.
  destruct n as [|[|n]]; [destruct m; cbn; lia|destruct m as [|[|m]]; cbn; lia|].
  destruct m as [|m]; [apply i64_range|]. change (hermite_coefficient (S (S n)) (S m)) with
    (if (S m <=? S (S n))%nat then i64 (i64 (2 * hermite_coefficient (S n) m) - i64 (i64 (Z.of_nat (S m) + 1) * hermite_coefficient (S n) (S (S m)))) else 0)%Z.
  destruct (S m <=? S (S n))%nat; [apply i64_range|lia].
Qed.

Definition fits (z : Z) : bool := ((- 2 ^ 63 <=? z) && (z <? 2 ^ 63))%Z%bool.

Lemma coefficient_exact n : forallb fits (hrow n) = true -> forall m, hermite_coefficient n m = hcoef n m.
Proof.
  intros H m. apply cong_range; [apply coefficient_cong|apply coefficient_range|].
  rewrite <- hrow_nth. destruct (Nat.lt_ge_cases m (length (hrow n))) as [Hm|Hm].
  - rewrite forallb_forall in H. specialize (H _ (nth_In _ 0%Z Hm)). unfold fits in H.
    apply andb_true_iff in H. destruct H as [H1 H2]. apply Z.leb_le in H1. apply Z.ltb_lt in H2. lia.
  - rewrite nth_overflow by exact Hm. lia.
Qed.

Lemma rows_fit n : (n <= 25)%nat -> forallb fits (hrow n) = true.
Proof.
  intros H. assert (K : forallb (fun n => forallb fits (hrow n)) (seq 0 26) = true) by (vm_compute; reflexivity).
  rewrite forallb_forall in K. apply K. apply in_seq. lia.
Qed.

Lemma hermite_val_exact h : is_hermite h -> forall n x, (n <= 25)%nat -> hermite_val x n = h n x.
Proof.
  intros Hh n x Hn. rewrite (hermite_poly h Hh). unfold hermite_val, hpoly. apply rsum_ext. intros m _.
  rewrite (coefficient_exact n (rows_fit n Hn)). reflexivity.
Qed.

(** ** The factorial *)

Lemma u64_cong z : cong (u64 z) z.
Proof. unfold cong, u64. apply Zmod_mod. Qed.

Lemma rust_factorial_cong n : cong (rust_factorial n) (Z.of_nat (fact n)).
Proof.
  induction n as [|n IH]; [reflexivity|]. unfold rust_factorial. rewrite seq_S, fold_left_app. cbn [fold_left].
  fold (rust_factorial n). eapply cong_trans; [apply u64_cong|].
  replace (fact (S n)) with (fact n * S n)%nat by (cbn [fact]; lia). rewrite Nat2Z.inj_mul. apply cong_mul; [exact IH|reflexivity].
Qed.

Fixpoint zfact (n : nat) : Z := match n with O => 1 | S n' => zfact n' * Z.of_nat n end%Z.
Lemma zfact_fact n : zfact n = Z.of_nat (fact n).
Proof. induction n as [|n IH]; [reflexivity|]. cbn [zfact fact]. rewrite IH. lia. Qed.

Lemma rust_factorial_exact n : (n <= 20)%nat -> rust_factorial n = Z.of_nat (fact n).
Proof.
  intros H. rewrite <- zfact_fact.
  assert (K : forallb (fun n => (rust_factorial n =? zfact n)%Z) (seq 0 21) = true) by (vm_compute; reflexivity).
  rewrite forallb_forall in K. apply Z.eqb_eq. apply K. apply in_seq. lia.
Qed.

(** ** Evaluation by the recurrence *)

Lemma eval_hermite_pair_spec n x : eval_hermite_pair n x = (eval_hermite n x, eval_hermite (S n) x).
Proof. unfold eval_hermite. cbn [eval_hermite_pair]. destruct (eval_hermite_pair n x) as [a b]. reflexivity. Qed.

Lemma eval_hermite_is : is_hermite eval_hermite.
Proof.
  intros x. split; [reflexivity|]. split; [reflexivity|]. intros n.
  unfold eval_hermite at 1. cbn [eval_hermite_pair]. rewrite eval_hermite_pair_spec. cbn [fst snd]. rewrite S_INR. reflexivity.
Qed.

Lemma scale_pos hbar omega mass : 0 < hbar -> 0 < mass -> 0 < omega -> 0 < sqrt (omega * mass / hbar).
Proof. intros. apply sqrt_lt_R0. apply Rdiv_lt_0_compat; [nra|assumption]. Qed.

Definition amplitude_of (s : R) (n : nat) : R := sqrt (s / 2 ^ n / (INR (fact n) * sqrt PI)).

Lemma python_state hbar omega mass n x : calculate_sho_wavefunction hbar x omega mass n
  = state eval_hermite (amplitude_of (sqrt (omega * mass / hbar)) n) (sqrt (omega * mass / hbar)) n x.
Proof. reflexivity. Qed.

Lemma sqrt_PI_pos : 0 < sqrt PI.
Proof. apply sqrt_lt_R0, PI_RGT_0. Qed.

Lemma amplitude_square s n : 0 < s -> amplitude_of s n * amplitude_of s n = s / (2 ^ n * INR (fact n) * sqrt PI).
Proof.
  intros Hs. unfold amplitude_of. pose proof sqrt_PI_pos. pose proof (INR_fact_lt_0 n). assert (0 < 2 ^ n) by (apply pow_lt; lra).
  rewrite sqrt_sqrt; [field; repeat split; lra|].
  apply Rdiv_le_0_compat; [apply Rdiv_le_0_compat; lra|nra].
Qed.

Lemma python_solves hbar omega mass n : 0 < hbar -> 0 < mass -> 0 < omega ->
  solves_schrodinger hbar mass (fun x => mass * omega ^ 2 * x ^ 2 / 2) (hbar * omega * (INR n + 1 / 2))
    (fun x => calculate_sho_wavefunction hbar x omega mass n).
Proof. intros. apply (state_solves eval_hermite eval_hermite_is); assumption. Qed.

Lemma python_orthonormal hbar omega mass m n : 0 < hbar -> 0 < mass -> 0 < omega ->
  line_integral (fun x => calculate_sho_wavefunction hbar x omega mass m * calculate_sho_wavefunction hbar x omega mass n)
    (if (m =? n)%nat then 1 else 0).
Proof.
  intros. apply (state_orthonormal eval_hermite eval_hermite_is _ (amplitude_of (sqrt (omega * mass / hbar)))).
  - apply scale_pos; assumption.
  - intros k. apply amplitude_square. apply scale_pos; assumption.
Qed.

Lemma rust_python hbar omega mass n x : 0 < hbar -> 0 < mass -> 0 < omega -> (n <= 20)%nat ->
  rust_sho_wavefunction hbar x omega mass n = calculate_sho_wavefunction hbar x omega mass n.
Proof.
  intros H1 H2 H3 Hn. unfold rust_sho_wavefunction, calculate_sho_wavefunction.
  rewrite (hermite_val_exact _ eval_hermite_is) by lia. rewrite rust_factorial_exact by exact Hn. rewrite <- INR_IZR_INZ.
  pose proof sqrt_PI_pos. pose proof (INR_fact_lt_0 n). assert (0 < 2 ^ n) by (apply pow_lt; lra).
  f_equal; [f_equal|].
  - f_equal. field. repeat split; lra.
  - unfold Rsqr. f_equal. cbn [pow]. field.
Qed.

Lemma rust_21 hbar omega mass : 0 < hbar -> 0 < mass -> 0 < omega ->
  line_integral (fun x => rust_sho_wavefunction hbar x omega mass 21 * rust_sho_wavefunction hbar x omega mass 21)
    (51090942171709440000 / 14197454024290336768).
Proof.
  intros H1 H2 H3. pose proof (python_orthonormal hbar omega mass 21 21 H1 H2 H3) as K. cbn [Nat.eqb] in K.
  apply (line_integral_scal _ (51090942171709440000 / 14197454024290336768)) in K. rewrite Rmult_1_r in K.
  eapply line_integral_ext; [|exact K]. intros x. cbn beta.
  unfold rust_sho_wavefunction, calculate_sho_wavefunction.
  rewrite (hermite_val_exact _ eval_hermite_is) by lia.
  assert (Ef : rust_factorial 21 = 14197454024290336768%Z) by (vm_compute; reflexivity). rewrite Ef.
  assert (Eg : INR (fact 21) = 51090942171709440000).
  { rewrite INR_IZR_INZ, <- zfact_fact. f_equal. }
  pose proof sqrt_PI_pos as Hp. assert (H2n : 0 < 2 ^ 21) by (apply pow_lt; lra).
  pose proof (scale_pos hbar omega mass H1 H2 H3) as Hs. revert Hs. set (s := sqrt (omega * mass / hbar)). intros Hs.
  replace (- (x * s) ^ 2 / 2) with (- Rsqr (x * s) / 2) by (unfold Rsqr; cbn [pow]; field).
  set (e := exp _). set (y := eval_hermite 21 (x * s)). rewrite Eg.
  assert (S1 : sqrt (s / 14197454024290336768 / (sqrt PI * 2 ^ 21)) * sqrt (s / 14197454024290336768 / (sqrt PI * 2 ^ 21)) = s / 14197454024290336768 / (sqrt PI * 2 ^ 21)).
  { apply sqrt_sqrt. apply Rdiv_le_0_compat; [lra|nra]. }
  assert (S2 : sqrt (s / 2 ^ 21 / (51090942171709440000 * sqrt PI)) * sqrt (s / 2 ^ 21 / (51090942171709440000 * sqrt PI)) = s / 2 ^ 21 / (51090942171709440000 * sqrt PI)).
  { apply sqrt_sqrt. apply Rdiv_le_0_compat; [apply Rdiv_le_0_compat; lra|nra]. }
  set (a := sqrt (s / 14197454024290336768 / (sqrt PI * 2 ^ 21))) in *.
  set (b := sqrt (s / 2 ^ 21 / (51090942171709440000 * sqrt PI))) in *.
  replace (a * y * e * (a * y * e)) with (a * a * (y * e * (y * e))) by ring.
  replace (b * y * e * (b * y * e)) with (b * b * (y * e * (y * e))) by ring. rewrite S1, S2.
  set (q := y * e * (y * e)). clearbody q. clear a b S1 S2. field. lra.
Qed.
