(** Times of a time basis. *)
From Coq Require Import Reals Lra Lia ZArith Psatz.
From Verif Require Import ZLib Csum DFT NumPy Index Spec IndexProofs TimeBasis.
Local Open Scope R_scope.

Lemma nt_points_spec b : (0 < tstep b)%nat ->
  nt_points b = Some (map (fun i => (toffset b + Z.of_nat i * Z.of_nat (tstep b))%Z) (seq 0 (tn b))).
Proof.
  intros Hs. unfold nt_points, arange. destruct (Z.eqb_spec (Z.of_nat (tstep b)) 0) as [E|_]; [lia|].
  do 3 f_equal. replace (toffset b - (Z.of_nat (tn b) * Z.of_nat (tstep b) + toffset b))%Z with (- Z.of_nat (tn b) * Z.of_nat (tstep b))%Z by ring.
  rewrite Z.div_mul by lia. lia.
Qed.

Lemma times_spec b : (0 < tn b)%nat -> (0 < tstep b)%nat ->
  exists l, times b = Some l /\ length l = tn b /\
    (forall i d, (i < tn b)%nat -> nth i l d = tspan b * (IZR (toffset b) + INR i * INR (tstep b)) / (INR (tn b) * INR (tstep b))) /\
    (exists h small, dt b = Some h /\ fundamental_dt b = Some small /\ h = INR (tstep b) * small /\ tspan b = INR (tn b) * h /\
       forall i d, (S i < tn b)%nat -> nth (S i) l d - nth i l d = h).
Proof.
  intros Hn Hs. assert (Hn' : 0 < INR (tn b)) by (apply lt_0_INR; exact Hn). assert (Hs' : 0 < INR (tstep b)) by (apply lt_0_INR; exact Hs).
  unfold times. rewrite nt_points_spec by exact Hs. unfold fundamental_dt, dt, tfund.
  destruct (Nat.eqb_spec (tn b * tstep b) 0) as [E|_]; [nia|]. destruct (Nat.eqb_spec (tn b) 0) as [E|_]; [lia|].
  eexists. split; [reflexivity|]. split; [rewrite !map_length, seq_length; reflexivity|].
  assert (V : forall i d, (i < tn b)%nat -> nth i (map (fun j => tspan b / INR (tn b * tstep b) * IZR j)
      (map (fun i => (toffset b + Z.of_nat i * Z.of_nat (tstep b))%Z) (seq 0 (tn b)))) d
    = tspan b * (IZR (toffset b) + INR i * INR (tstep b)) / (INR (tn b) * INR (tstep b))).
  { intros i d Hi. rewrite map_map. rewrite (nth_indep _ d (tspan b / INR (tn b * tstep b) * IZR (toffset b + Z.of_nat 0 * Z.of_nat (tstep b)))) by (rewrite map_length, seq_length; exact Hi).
    rewrite (map_nth (fun x => tspan b / INR (tn b * tstep b) * IZR (toffset b + Z.of_nat x * Z.of_nat (tstep b))) (seq 0 (tn b)) 0%nat i), seq_nth by exact Hi.
    rewrite plus_IZR, mult_IZR, <- !INR_IZR_INZ, mult_INR. cbn [Nat.add]. field. lra. }
  split; [exact V|]. eexists. eexists. split; [reflexivity|]. split; [reflexivity|]. split; [rewrite mult_INR; field; lra|]. split; [field; lra|].
  intros i d Hi. rewrite !V by lia. rewrite S_INR. field. lra.
Qed.

Lemma times_raise b : times b = None <-> (tn b * tstep b = 0)%nat.
Proof.
  unfold times, fundamental_dt, tfund. destruct (Nat.eqb_spec (tn b * tstep b) 0) as [E|E]; [tauto|].
  rewrite nt_points_spec by nia. split; [discriminate|tauto].
Qed.

Lemma times_span b l : (0 < tn b)%nat -> (0 < tstep b)%nat -> 0 < tspan b -> times b = Some l ->
  ((forall i, (i < tn b)%nat -> 0 <= nth i l 0 < tspan b) <-> (0 <= toffset b < Z.of_nat (tstep b))%Z) /\
  (nth 0 l 0 = 0 <-> toffset b = 0%Z) /\ (forall i, (i < tn b)%nat -> nth i l 0 = tspan b -> exists j, (Z.of_nat (tn b * tstep b) = toffset b + Z.of_nat j * Z.of_nat (tstep b))%Z /\ j = i).
Proof.
  intros Hn Hs HT E. destruct (times_spec b Hn Hs) as [l' [E' [_ [V _]]]]. rewrite E in E'. injection E' as <-.
  assert (Hn' : 0 < INR (tn b)) by (apply lt_0_INR; exact Hn). assert (Hs' : 0 < INR (tstep b)) by (apply lt_0_INR; exact Hs).
  assert (V' : forall i, (i < tn b)%nat -> nth i l 0 = tspan b / IZR (Z.of_nat (tn b) * Z.of_nat (tstep b)) * IZR (toffset b + Z.of_nat i * Z.of_nat (tstep b))).
  { intros i Hi. rewrite V by exact Hi. rewrite plus_IZR, !mult_IZR, <- !INR_IZR_INZ. field. lra. }
  set (N := (Z.of_nat (tn b) * Z.of_nat (tstep b))%Z) in *. assert (HN : (0 < N)%Z) by (unfold N; nia).
  assert (HN' : 0 < IZR N) by (apply IZR_lt; exact HN). assert (Hq : 0 < tspan b / IZR N) by (apply Rdiv_lt_0_compat; assumption).
  assert (T : tspan b = tspan b / IZR N * IZR N) by (field; lra).
  set (q := tspan b / IZR N) in *. clearbody q.
  assert (B : forall z, 0 <= q * IZR z < tspan b <-> (0 <= z < N)%Z).
  { intros z. rewrite T. split.
    - intros [H1 H2]. split.
      + apply le_IZR. apply (Rmult_le_reg_l q); [exact Hq|]. lra.
      + apply lt_IZR. apply (Rmult_lt_reg_l q); [exact Hq|exact H2].
    - intros [H1 H2]. apply IZR_le in H1. apply IZR_lt in H2. split; [apply Rmult_le_pos; lra|apply Rmult_lt_compat_l; assumption]. }
  split; [|split].
  - split.
    + intros H. assert (H0 := H 0%nat Hn). rewrite V' in H0 by exact Hn. apply B in H0.
      assert (H1 := H (tn b - 1)%nat ltac:(lia)). rewrite V' in H1 by lia. apply B in H1. unfold N in *. nia.
    + intros H i Hi. rewrite V' by exact Hi. apply B. unfold N. nia.
  - rewrite V' by exact Hn. split.
    + intros H. apply Rmult_integral in H. destruct H as [H|H]; [lra|]. apply eq_IZR in H. lia.
    + intros ->. cbn [Z.of_nat]. rewrite Z.mul_0_l. cbn. lra.
  - intros i Hi H. exists i. split; [|reflexivity]. rewrite V' in H by exact Hi. rewrite T in H. apply Rmult_eq_reg_l in H; [|lra].
    apply eq_IZR in H. unfold N in H. rewrite Nat2Z.inj_mul. lia.
Qed.

Lemma linspace_nth s e n i d : (i < n)%nat -> nth i (linspace s e n) d = s + (e - s) * INR i / INR (n - 1).
Proof.
  intros Hi. unfold linspace. rewrite (nth_indep _ d (s + (e - s) * INR 0 / INR (n - 1))) by (rewrite map_length, seq_length; exact Hi).
  rewrite (map_nth (fun i => s + (e - s) * INR i / INR (n - 1)) (seq 0 n) 0%nat i), seq_nth by exact Hi. reflexivity.
Qed.

Lemma fundamental_times_spec b l : (0 < tn b)%nat -> (0 < tstep b)%nat -> (1 < tfund b)%nat -> times b = Some l ->
  length (fundamental_times b) = tfund b /\ nth (tfund b - 1) (fundamental_times b) 0 = tspan b /\
  (forall j, (S j < tfund b)%nat -> nth (S j) (fundamental_times b) 0 - nth j (fundamental_times b) 0 = tspan b / INR (tfund b - 1)) /\
  forall i j, (i < tn b)%nat -> (j < tfund b)%nat -> Z.of_nat j = (toffset b + Z.of_nat i * Z.of_nat (tstep b))%Z ->
    nth i l 0 = nth j (fundamental_times b) 0 * (1 - / INR (tfund b)).
Proof.
  intros Hn Hs HN E. assert (HM : 0 < INR (tfund b - 1)) by (apply lt_0_INR; lia).
  assert (HN' : 0 < INR (tfund b)) by (apply lt_0_INR; lia).
  split; [unfold fundamental_times, linspace; rewrite map_length, seq_length; reflexivity|]. unfold fundamental_times. split; [|split].
  - rewrite linspace_nth by lia. field. lra.
  - intros j Hj. rewrite !linspace_nth by lia. rewrite S_INR. field. lra.
  - intros i j Hi Hj Hij. destruct (times_spec b Hn Hs) as [l' [E' [_ [V _]]]]. rewrite E in E'. injection E' as <-. rewrite V by exact Hi.
    rewrite linspace_nth by exact Hj.
    assert (J : INR j = IZR (toffset b) + INR i * INR (tstep b)) by (rewrite INR_IZR_INZ, Hij, plus_IZR, mult_IZR, <- !INR_IZR_INZ; reflexivity).
    rewrite J. replace (INR (tn b) * INR (tstep b)) with (INR (tfund b)) by (unfold tfund; apply mult_INR).
    assert (M : INR (tfund b - 1) = INR (tfund b) - 1) by (rewrite minus_INR by lia; reflexivity). rewrite M in *. field. lra.
Qed.

Lemma explicit_span b l : (1 < tn b)%nat -> (0 < tstep b)%nat -> times b = Some l ->
  exists h, explicit_delta_t l = Some h /\ tspan b = INR (tn b) * h /\ (h = tspan b <-> tspan b = 0).
Proof.
  intros Hn Hs E. destruct (times_spec b ltac:(lia) Hs) as [l' [E' [L [V [h [small [_ [_ [_ [T D]]]]]]]]]]. rewrite E in E'. injection E' as <-.
  destruct l as [|t0 [|t1 l]]; [cbn in L; lia|cbn in L; lia|]. cbn [explicit_delta_t]. eexists. split; [reflexivity|].
  assert (D0 := D 0%nat 0 Hn). cbn [nth] in D0. rewrite D0. split; [exact T|].
  assert (N2 : 2 <= INR (tn b)) by (change 2 with (INR 2); apply le_INR; lia). split; intros H; nra.
Qed.

Lemma explicit_raises l : explicit_delta_t l = None <-> (length l < 2)%nat.
Proof. destruct l as [|t0 [|t1 l]]; cbn; split; intros H; try reflexivity; try lia; discriminate. Qed.

(** The times wrapped into the span are those of the samples. *)
Lemma times_samples b l : (0 < tn b)%nat -> (0 < tstep b)%nat -> times b = Some l -> forall i, (i < tn b)%nat ->
  exists c small, fundamental_dt b = Some small /\ nth i l 0 = small * INR (sample_pos (tn b) (tstep b) (toffset b) i) + IZR c * tspan b.
Proof.
  intros Hn Hs E i Hi. assert (Hn' : 0 < INR (tn b)) by (apply lt_0_INR; exact Hn). assert (Hs' : 0 < INR (tstep b)) by (apply lt_0_INR; exact Hs).
  destruct (times_spec b Hn Hs) as [l' [E' [L [V _]]]]. rewrite E in E'. injection E' as <-.
  set (N := (Z.of_nat (tn b) * Z.of_nat (tstep b))%Z). assert (HN : (0 < N)%Z) by (unfold N; nia).
  exists ((Z.of_nat i * Z.of_nat (tstep b) + toffset b) / N)%Z. unfold fundamental_dt, tfund. destruct (Nat.eqb_spec (tn b * tstep b) 0) as [Z|_]; [nia|].
  eexists. split; [reflexivity|]. rewrite V by exact Hi. unfold sample_pos. fold N. rewrite (INR_IZR_INZ (Z.to_nat _)), Z2Nat.id by (apply Z.mod_pos_bound; exact HN).
  assert (D := Z.div_mod (Z.of_nat i * Z.of_nat (tstep b) + toffset b) N ltac:(lia)). apply (f_equal IZR) in D. rewrite !plus_IZR, !mult_IZR, <- !INR_IZR_INZ in D.
  assert (EN : IZR N = INR (tn b) * INR (tstep b)) by (unfold N; rewrite mult_IZR, <- !INR_IZR_INZ; reflexivity). rewrite EN in *.
  set (r := IZR (_ mod _)) in *. set (q := IZR (_ / _)) in *.
  replace (IZR (toffset b) + INR i * INR (tstep b)) with (INR i * INR (tstep b) + IZR (toffset b)) by ring. rewrite D, mult_INR. field. lra.
Qed.

Lemma fractions_spec n step offset : (0 < n)%nat -> (0 < step)%nat ->
  forall i, (i < n)%nat -> exists q c, bloch_fractions n step offset i = RtoC q /\ - (1 / 2) <= q < 1 / 2 /\
    (q + IZR c = INR i / INR n + IZR offset / (INR n * INR step) - 1 / 2)%R.
Proof.
  intros Hn Hs i Hi. assert (Hn' : 0 < INR n) by (apply lt_0_INR; exact Hn). assert (Hs' : 0 < INR step) by (apply lt_0_INR; exact Hs).
  assert (P : 0 < INR n * INR step) by nra.
  set (N := (Z.of_nat n * Z.of_nat step)%Z). assert (HN : (0 < N)%Z) by (unfold N; nia).
  unfold bloch_fractions. rewrite truncate_sample_axis_spec by assumption. eexists. exists ((Z.of_nat i * Z.of_nat step + offset) / N)%Z. split; [reflexivity|].
  assert (B := Z.mod_pos_bound (Z.of_nat i * Z.of_nat step + offset) N HN).
  unfold sample_pos. fold N. rewrite (INR_IZR_INZ (Z.to_nat _)), Z2Nat.id, mult_INR by lia.
  assert (D := Z.div_mod (Z.of_nat i * Z.of_nat step + offset) N ltac:(lia)). apply (f_equal IZR) in D. rewrite !plus_IZR, !mult_IZR, <- !INR_IZR_INZ in D.
  destruct B as [B0 B1]. apply IZR_le in B0. apply IZR_lt in B1. 
  assert (EN : IZR N = INR n * INR step) by (unfold N; rewrite mult_IZR, <- !INR_IZR_INZ; reflexivity). rewrite EN in *.
  set (r := IZR (_ mod _)) in *. set (q := IZR (_ / _)) in *. split.
  - assert (0 <= r / (INR n * INR step) < 1); [|lra]. split; [apply Rmult_le_pos; [exact B0|left; apply Rinv_0_lt_compat; exact P]|].
    apply (Rmult_lt_reg_r (INR n * INR step)); [exact P|]. unfold Rdiv. rewrite Rmult_assoc, Rinv_l by lra. lra.
  - replace (INR i / INR n + IZR offset / (INR n * INR step)) with ((INR i * INR step + IZR offset) / (INR n * INR step)) by (field; lra). rewrite D. field. lra.
Qed.

Lemma fractions_distinct n step offset i j : (0 < n)%nat -> (0 < step)%nat -> (i < n)%nat -> (j < n)%nat ->
  bloch_fractions n step offset i = bloch_fractions n step offset j -> i = j.
Proof.
  intros Hn Hs Hi Hj E. destruct (fractions_spec n step offset Hn Hs i Hi) as [q [c [Eq [_ Q]]]]. destruct (fractions_spec n step offset Hn Hs j Hj) as [r [d [Er [_ R]]]].
  rewrite Eq, Er in E. apply RtoC_inj in E. subst r. assert (Hn' : 0 < INR n) by (apply lt_0_INR; exact Hn).
  assert (F : INR n * (IZR c - IZR d) = INR i - INR j).
  { replace (IZR c - IZR d) with (INR i / INR n - INR j / INR n) by lra. field. lra. }
  rewrite !INR_IZR_INZ, <- !minus_IZR, <- mult_IZR in F. apply eq_IZR in F.
  assert (c - d = 0)%Z by (destruct (Z.lt_trichotomy (c - d) 0) as [G|[G|G]]; [nia|exact G|nia]). nia.
Qed.

(** The fundamental ones start at minus one half. *)
Lemma fractions_fundamental n i : (i < n)%nat -> bloch_fractions n 1 0 i = RtoC (INR i / INR n - 1 / 2).
Proof.
  intros Hi. unfold bloch_fractions. rewrite truncate_sample_axis_spec by lia. f_equal. unfold sample_pos.
  rewrite Z.add_0_r, !Z.mul_1_r, Z.mod_small, Nat2Z.id, Nat.mul_1_r by lia. ring.
Qed.
