(** Single points, truncated momenta, translations. *)
From Coq Require Import Reals Lra Lia.
From Verif Require Import ZLib Csum DFT NumPy Index IndexProofs Spec Basis SpecBasis BasisProofs
  BasisProofs2 LatticeProofs Operator SpecOperator OperatorProofs IndexSum Wavepacket SpecWavepacket WavepacketProofs WavepacketProofs2 HamiltonianProofs DynamicsProofs
  LocalizeProofs4 LocalizeProofs5 OverlapProofs3 StateList SpecStateList StateListProofs3 SeedStates SpecSeed.
Local Open Scope R_scope.
Local Open Scope C_scope.

(** ** One point *)
Lemma single_exact_spec b idx :
  (forall i, (i < bsize b)%nat -> idx = Z.of_nat i \/ idx = (Z.of_nat i - Z.of_nat (bsize b))%Z ->
     exists v, single_point_exact b idx = Some v /\ is_vector v b (cdelta i)) /\
  ((idx < - Z.of_nat (bsize b) \/ Z.of_nat (bsize b) <= idx)%Z -> single_point_exact b idx = None).
Proof.
  unfold single_point_exact, python_index. split.
  - intros i Hi [E|E]; subst idx.
    + rewrite (proj2 (Z.leb_le 0 _)), (proj2 (Z.ltb_lt _ _)) by lia. cbn [andb]. rewrite Nat2Z.id. eexists. split; [reflexivity|].
      split; [reflexivity|]. split; [reflexivity|]. intros t Ht. cbn [vdata aflat]. unfold cdelta. rewrite Nat.eqb_sym. reflexivity.
    + rewrite (proj2 (Z.leb_gt 0 _)) by lia. cbn [andb]. rewrite (proj2 (Z.leb_le _ _)), (proj2 (Z.ltb_lt _ _)) by lia. cbn [andb].
      replace (Z.of_nat i - Z.of_nat (bsize b) + Z.of_nat (bsize b))%Z with (Z.of_nat i) by ring. rewrite Nat2Z.id. eexists. split; [reflexivity|].
      split; [reflexivity|]. split; [reflexivity|]. intros t Ht. cbn [vdata aflat]. unfold cdelta. rewrite Nat.eqb_sym. reflexivity.
  - intros H. destruct (Z.leb_spec 0 idx), (Z.ltb_spec idx (Z.of_nat (bsize b))), (Z.leb_spec (- Z.of_nat (bsize b)) idx), (Z.ltb_spec idx 0);
      cbn [andb]; try reflexivity; lia.
Qed.

Lemma set_points_spec nb m : (0 < nb)%nat -> forall turns a i,
  ((forall j, (i <= j < i + turns)%nat -> (j < nb /\ j * nb < m)%nat) ->
   exists r, set_points nb m a i turns = Some r /\
     forall i' n', r i' n' = if ((i <=? i') && (i' <? i + turns) && (n' =? i' * nb))%nat then 1 else a i' n') /\
  ((exists j, (i <= j < i + turns)%nat /\ ~ (j < nb /\ j * nb < m)%nat) -> set_points nb m a i turns = None).
Proof.
  intros Hnb. induction turns as [|t IH]; intros a i.
  - split.
    + intros _. exists a. split; [reflexivity|]. intros i' n'.
      destruct (Nat.leb_spec i i'), (Nat.ltb_spec i' (i + 0)); cbn [andb]; try reflexivity; lia.
    + intros [j [H _]]. lia.
  - cbn [set_points]. unfold set_one. split.
    + intros H. destruct (H i) as [H1 H2]; [lia|]. rewrite (proj2 (Nat.ltb_lt _ _) H1), (proj2 (Nat.ltb_lt _ _) H2). cbn [andb].
      destruct (IH (fun i' n' => if ((i' =? i) && (n' =? i * nb))%nat then RtoC 1 else a i' n') (S i)) as [K _].
      destruct K as [r [E1 E2]]; [intros j Hj; apply H; lia|]. exists r. split; [exact E1|]. intros i' n'. rewrite E2.
      destruct (Nat.leb_spec (S i) i'), (Nat.ltb_spec i' (S i + t)), (Nat.eqb_spec n' (i' * nb)), (Nat.leb_spec i i'),
        (Nat.ltb_spec i' (i + S t)), (Nat.eqb_spec i' i), (Nat.eqb_spec n' (i * nb)); cbn [andb]; try reflexivity; try lia; subst; try lia; congruence.
    + intros [j [Hj H]]. destruct (Nat.eq_dec j i) as [->|Hne].
      * destruct (Nat.ltb_spec i nb), (Nat.ltb_spec (i * nb) m); cbn [andb]; try reflexivity; tauto.
      * destruct ((i <? nb) && (i * nb <? m))%nat; [|reflexivity]. apply IH. exists j. split; [lia|exact H].
Qed.

Lemma turns_iff m nb j : (0 < nb)%nat -> (j < (m + nb - 1) / nb <-> j * nb < m)%nat.
Proof.
  intros Hnb. split; intros H.
  - assert ((j + 1) * nb <= m + nb - 1)%nat; [|nia].
    apply Nat.le_trans with (((m + nb - 1) / nb) * nb)%nat; [apply Nat.mul_le_mono_r; lia|].
    rewrite Nat.mul_comm. apply Nat.mul_div_le. lia.
  - apply Nat.lt_le_trans with (j + 1)%nat; [lia|]. apply Nat.div_le_lower_bound; nia.
Qed.

Section Single.
  Variables (laxes saxes : list basis) (nb : nat).
  Let shape := map2 Nat.mul (map bfund laxes) (map bfund saxes).
  Let m := bsize (BTuple saxes).
  Hypothesis Hlen : (length laxes <= length saxes)%nat.
  Hypothesis Hm : (m <= nprod shape)%nat.

  Lemma single_states_none : single_point_states laxes saxes nb = None <-> (nb = 0 \/ nb * nb < m)%nat.
  Proof using Hlen Hm.
    unfold single_point_states, unfurled_shape. rewrite (proj2 (Nat.leb_le _ _) Hlen). fold shape. fold m.
    destruct (Nat.eqb_spec nb 0) as [->|Hnb]; [tauto|].
    destruct (set_points_spec nb (nprod shape) ltac:(lia) ((m + nb - 1) / nb) (fun _ _ => RtoC 0) 0) as [A B].
    destruct (le_lt_dec m (nb * nb)) as [H|H].
    - destruct A as [r [E _]].
      + intros j [_ Hj]. cbn [plus] in Hj. apply turns_iff in Hj; [|lia]. split; [nia|lia].
      + rewrite E. split; [discriminate|lia].
    - rewrite B; [split; [intros _; right; lia|reflexivity]|]. exists nb. split; [|lia].
      split; [lia|]. cbn [plus]. apply turns_iff; lia.
  Qed.

  Lemma single_states_some s : single_point_states laxes saxes nb = Some s ->
    slist s = BFund nb /\ sbasis s = BTuple (map BFund shape) /\ well_formed_list s /\
    forall i n, (i < nb)%nat -> (n < nprod shape)%nat ->
      state_of s i n = if ((n =? i * nb) && (n <? m))%nat then 1 else 0.
  Proof using Hlen Hm.
    unfold single_point_states, unfurled_shape. rewrite (proj2 (Nat.leb_le _ _) Hlen). fold shape. fold m.
    destruct (Nat.eqb_spec nb 0) as [->|Hnb]; [discriminate|].
    destruct (set_points_spec nb (nprod shape) ltac:(lia) ((m + nb - 1) / nb) (fun _ _ => RtoC 0) 0) as [A B].
    destruct (le_lt_dec m (nb * nb)) as [H|H].
    - destruct A as [r [E F]].
      + intros j [_ Hj]. cbn [plus] in Hj. apply turns_iff in Hj; [|lia]. split; [nia|lia].
      + rewrite E. injection 1 as <-. cbn [slist sbasis sdata]. split; [reflexivity|]. split; [reflexivity|].
        assert (Sz : bsize (BTuple (map BFund shape)) = nprod shape) by (cbn [bsize]; rewrite map_map, map_id; reflexivity).
        split; [unfold well_formed_list; cbn [slist sbasis sdata]; rewrite Sz; cbn; lia|].
        intros i n Hi Hn. unfold state_of, row. cbn [slist sbasis sdata]. rewrite Sz, array2_at by exact Hn. rewrite F. cbn [plus].
        destruct (Nat.leb_spec 0 i); [|lia]. cbn [andb].
        destruct (Nat.eqb_spec n (i * nb)) as [->|]; [|rewrite andb_false_r; reflexivity]. rewrite andb_true_r. cbn [andb].
        destruct (Nat.ltb_spec i ((m + nb - 1) / nb)) as [K|K], (Nat.ltb_spec (i * nb) m) as [K'|K']; try reflexivity.
        * apply turns_iff in K; lia.
        * apply turns_iff in K'; lia.
    - rewrite B; [discriminate|]. exists nb. split; [|lia]. split; [lia|]. cbn [plus]. apply turns_iff; lia.
  Qed.

  Lemma single_states_orthonormal s : single_point_states laxes saxes nb = Some s ->
    (orthonormal_list s <-> ((nb - 1) * nb < m)%nat).
  Proof using Hlen Hm.
    intros E. assert (N0 : nb <> 0%nat).
    { intros Z0. assert (K := proj2 single_states_none (or_introl Z0)). congruence. }
    destruct (single_states_some s E) as [E1 [E2 [_ E3]]]. unfold orthonormal_list. rewrite E1, E2. cbn [bsize].
    rewrite map_map, map_id. unfold inner_product. split.
    - intros H. destruct (le_lt_dec m ((nb - 1) * nb)) as [K|K]; [exfalso|exact K].
      specialize (H (nb - 1)%nat (nb - 1)%nat). rewrite cdelta_refl in H.
      rewrite csum_zero_ext in H; [assert (Z := H ltac:(lia) ltac:(lia)); injection Z; lra|].
      intros n Hn. rewrite E3 by lia. destruct (Nat.eqb_spec n ((nb - 1) * nb)) as [->|]; cbn [andb]; [|ring].
      rewrite (proj2 (Nat.ltb_ge _ _)) by lia. ring.
    - intros H i j Hi Hj. assert (Bi : (i * nb < m)%nat) by nia. assert (Bj : (j * nb < m)%nat) by nia.
      transitivity (csum (fun n => cdelta (i * nb) n * cdelta (j * nb) n) (nprod shape)).
      + apply csum_ext. intros n Hn. rewrite !E3 by lia. unfold cdelta. rewrite (Nat.eqb_sym (i * nb)), (Nat.eqb_sym (j * nb)).
        destruct (Nat.eqb_spec n (i * nb)) as [->|].
        * rewrite (proj2 (Nat.ltb_lt _ _) Bi). cbn [andb]. destruct (i * nb =? j * nb)%nat; cbn [andb]; rewrite Cconj_1; ring.
        * cbn [andb]. rewrite Cconj_0. ring.
      + rewrite csum_delta_l by lia. unfold cdelta. destruct (Nat.eqb_spec (j * nb) (i * nb)) as [K|K], (Nat.eqb_spec i j) as [L|L]; try reflexivity.
        * apply Nat.mul_cancel_r in K; [congruence|lia].
        * subst. lia.
  Qed.
End Single.

(** ** Phases *)
Lemma nx_points_unravel shape a k : stacked_nx_points shape a k = Z.of_nat (nth a (unravel shape k) 0%nat).
Proof. reflexivity. Qed.

Lemma phase_factor_plane shape (f x : nat -> R) (n : nat -> nat) (g : nat -> Z) (w : list Z) :
  Forall (fun m => (0 < m)%nat) shape -> length w = length shape ->
  (forall a, (a < length shape)%nat -> (f a * (x a / INR (n a)) = IZR (g a) * (IZR (nth a w 0%Z) / INR (nth a shape 0%nat)))%R) ->
  phase_factor (length shape) f x n = plane shape (map (fun a => (- g a)%Z) (seq 0 (length shape))) w.
Proof.
  intros Hp Hw H. rewrite <- cis_phase by assumption. unfold phase_factor, phase. f_equal.
  rewrite <- LatticeProofs.rsum_scal_l. apply rsum_ext. intros a Ha. rewrite H by exact Ha. rewrite opp_IZR. ring.
Qed.

Lemma plane_swap shape : forall f x, plane shape f x = plane shape x f.
Proof. induction shape as [|n shape IH]; intros [|f1 f] [|x1 x]; try reflexivity. cbn [plane]. rewrite IH, Z.mul_comm. reflexivity. Qed.

Lemma plane_norm2 shape : forall f x, Cnorm2 (plane shape f x) = 1%R.
Proof.
  assert (One : Cnorm2 1 = 1%R) by (unfold Cnorm2; cbn; ring).
  induction shape as [|n shape IH]; intros [|f1 f] [|x1 x]; try exact One.
  cbn [plane]. rewrite Cnorm2_mult, omega_norm2, IH. ring.
Qed.

Lemma axis_states_cut n : forall N k x, length n = length N -> length k = length N -> length x = length N ->
  axis_states (cut_momenta n N) k x = isqrt (nprod N) * plane N (sample_freqs n k) (map Z.of_nat x).
Proof.
  induction n as [|n1 n IH]; intros [|N1 N] [|k1 k] [|x1 x] L1 L2 L3; cbn in L1, L2, L3; try lia.
  - cbn. unfold isqrt. cbn. rewrite sqrt_1, Rinv_1. ring.
  - cbn [cut_momenta axis_states bstate sample_freqs map plane]. rewrite IH by lia. unfold plane_wave.
    replace (isqrt (nprod (N1 :: N))) with (isqrt N1 * isqrt (nprod N)) by (cbn [nprod]; symmetry; apply isqrt_mul). ring.
Qed.

Lemma axis_states_cut_full N : forall k x, axis_states (map BFundT N) k x = axis_states (cut_momenta N N) k x.
Proof. induction N as [|n N IH]; intros [|k1 k] [|x1 x]; try reflexivity. cbn [map cut_momenta axis_states]. rewrite IH. reflexivity. Qed.

Lemma cut_bsize n : forall N, length n = length N -> map bsize (cut_momenta n N) = n.
Proof. induction n as [|a n IH]; intros [|b N] L; cbn in L; try lia; [reflexivity|]. cbn [cut_momenta map bsize]. rewrite IH by lia. reflexivity. Qed.
Lemma cut_bfund n : forall N, length n = length N -> map bfund (cut_momenta n N) = N.
Proof. induction n as [|a n IH]; intros [|b N] L; cbn in L; try lia; [reflexivity|]. cbn [cut_momenta map bfund]. rewrite IH by lia. reflexivity. Qed.

(** ** Translations *)
Lemma displaced_length N : forall c x, length c = length N -> length x = length N -> length (displaced N c x) = length N.
Proof. induction N as [|n N IH]; intros [|c1 c] [|x1 x] L1 L2; cbn in *; try lia. rewrite IH by lia. reflexivity. Qed.

Lemma displaced_in N : Forall (fun n => (0 < n)%nat) N -> forall c x, length c = length N -> length x = length N -> in_shape (displaced N c x) N.
Proof.
  induction 1 as [|n N Hn HN IH]; intros [|c1 c] [|x1 x] L1 L2; cbn in L1, L2; try lia; [constructor|].
  cbn [displaced]. constructor; [|apply IH; lia].
  assert (B := Z.mod_pos_bound (Z.of_nat x1 - c1) (Z.of_nat n) ltac:(lia)). lia.
Qed.

Lemma plane_displaced N : Forall (fun n => (0 < n)%nat) N -> forall f c x, length c = length N -> length x = length N ->
  plane N f (map Z.of_nat (displaced N c x)) = plane N f (map Z.of_nat x) * plane N f (map Z.opp c).
Proof.
  induction 1 as [|n N Hn HN IH]; intros f [|c1 c] [|x1 x] L1 L2; cbn in L1, L2; try lia; [cbn; ring|].
  destruct f as [|f1 f]; [cbn [plane]; ring|]. cbn [displaced map plane]. rewrite IH by lia.
  assert (B := Z.mod_pos_bound (Z.of_nat x1 - c1) (Z.of_nat n) ltac:(lia)). rewrite Z2Nat.id by lia.
  replace (omega n (f1 * ((Z.of_nat x1 - c1) mod Z.of_nat n))) with (omega n (f1 * Z.of_nat x1) * omega n (f1 * - c1)); [ring|].
  rewrite <- omega_add. apply omega_cong; [lia|]. exists (f1 * ((Z.of_nat x1 - c1) / Z.of_nat n))%Z.
  assert (D := Z.div_mod (Z.of_nat x1 - c1) (Z.of_nat n) ltac:(lia)). nia.
Qed.

Lemma displaced_grid N : Forall (fun n => (0 < n)%nat) N -> forall c, length c = length N ->
  displaced N c (on_grid N c) = map (fun _ => 0%nat) N.
Proof.
  unfold on_grid. induction 1 as [|n N Hn HN IH]; intros [|c1 c] L; cbn in L; try lia; [reflexivity|].
  cbn [map displaced]. rewrite IH by lia. f_equal.
  assert (B := Z.mod_pos_bound (Z.of_nat 0 - - c1) (Z.of_nat n) ltac:(lia)). rewrite Z2Nat.id by lia.
  rewrite Zminus_mod_idemp_l. replace (Z.of_nat 0 - - c1 - c1)%Z with 0%Z by ring. rewrite Z.mod_0_l by lia. reflexivity.
Qed.

Lemma plane_zero N : forall f, plane N f (map Z.of_nat (map (fun _ => 0%nat) N)) = 1.
Proof. induction N as [|n N IH]; intros [|f1 f]; try reflexivity. cbn [map plane]. rewrite IH. rewrite Z.mul_0_r, omega_0. ring. Qed.

Lemma zeros_in N : Forall (fun n => (0 < n)%nat) N -> in_shape (map (fun _ => 0%nat) N) N.
Proof. induction 1; constructor; assumption. Qed.

Lemma rsum_ones k : rsum (fun _ => 1%R) k = INR k.
Proof. induction k as [|k IH]; [reflexivity|]. rewrite rsum_S, S_INR, IH. reflexivity. Qed.

Section Cut.
  Variables (n N : list nat).
  Hypothesis HN : Forall (fun m => (0 < m)%nat) N.
  Hypothesis HL : length n = length N.

  Lemma cut_amplitude v x : in_shape x N ->
    amplitude (BTuple (cut_momenta n N)) v (ravel N x) =
    csum (fun t => v t * (isqrt (nprod N) * plane N (sample_freqs n (unravel n t)) (map Z.of_nat x))) (nprod n).
  Proof using HL.
    intros Hx. assert (A := amplitude_isum (cut_momenta n N) v x). rewrite cut_bsize, cut_bfund in A by exact HL.
    rewrite A by exact Hx. rewrite <- (isum_flat n). apply csum_ext. intros t Ht. rewrite ravel_unravel by exact Ht.
    rewrite axis_states_cut; [reflexivity|exact HL| |apply in_shape_length in Hx; lia].
    rewrite LocalizeProofs5.unravel_length. exact HL.
  Qed.

  Lemma cut_translate v (P : nat -> C) c x : in_shape x N -> length c = length N ->
    (forall t, (t < nprod n)%nat -> P t = plane N (sample_freqs n (unravel n t)) (map Z.opp c)) ->
    amplitude (BTuple (cut_momenta n N)) (fun t => v t * P t) (ravel N x) =
    amplitude (BTuple (cut_momenta n N)) v (ravel N (displaced N c x)).
  Proof using HL HN.
    intros Hx Hc HP. assert (Lx := in_shape_length _ _ Hx). rewrite !cut_amplitude by (try apply displaced_in; assumption || lia).
    apply csum_ext. intros t Ht. rewrite HP by exact Ht. rewrite plane_displaced by (assumption || lia). ring.
  Qed.

  Lemma cut_at_zero v : amplitude (BTuple (cut_momenta n N)) v (ravel N (map (fun _ => 0%nat) N)) = isqrt (nprod N) * csum v (nprod n).
  Proof using HL HN.
    rewrite cut_amplitude by (apply zeros_in; exact HN). rewrite <- csum_scal_l. apply csum_ext. intros t Ht. rewrite plane_zero. ring.
  Qed.

  Lemma cut_bound v x : in_shape x N ->
    (Cnorm2 (amplitude (BTuple (cut_momenta n N)) v (ravel N x)) <= INR (nprod n) / INR (nprod N) * rsum (fun t => Cnorm2 (v t)) (nprod n))%R.
  Proof using HL HN.
    intros Hx. assert (P : (0 < INR (nprod N))%R) by (apply lt_0_INR, nprod_pos; exact HN).
    rewrite cut_amplitude by exact Hx. rewrite Cnorm2_Cmod. set (f := fun t => _). assert (M := Cmod_csum f (nprod n)).
    rewrite (rsum_ext (fun t => Cmod (f t)) (fun t => / sqrt (INR (nprod N)) * Cmod (v t))%R) in M.
    2:{ intros t Ht. unfold f. rewrite !Cmod_mult. unfold isqrt. rewrite Cmod_R, Rabs_pos_eq by (left; apply Rinv_0_lt_compat, sqrt_lt_R0, P).
        assert (Q := plane_norm2 N (sample_freqs n (unravel n t)) (map Z.of_nat x)). rewrite Cnorm2_Cmod in Q.
        assert (0 <= Cmod (plane N (sample_freqs n (unravel n t)) (map Z.of_nat x)))%R by apply Cmod_ge_0.
        replace (Cmod (plane N (sample_freqs n (unravel n t)) (map Z.of_nat x))) with 1%R by nra. ring. }
    assert (Q := cauchy_real (fun _ => / sqrt (INR (nprod N)))%R (fun t => Cmod (v t)) (nprod n)). cbv beta in Q.
    rewrite (rsum_ext (fun t => Cnorm2 (v t)) (fun t => Cmod (v t) * Cmod (v t))%R) by (intros; apply Cnorm2_Cmod).
    assert (E : rsum (fun _ => / sqrt (INR (nprod N)) * / sqrt (INR (nprod N)))%R (nprod n) = (INR (nprod n) / INR (nprod N))%R).
    { rewrite <- Rinv_mult, sqrt_sqrt by lra. rewrite (rsum_ext _ (fun _ => (/ INR (nprod N)) * 1)%R) by (intros; ring). rewrite LatticeProofs.rsum_scal_l.
      rewrite rsum_ones. unfold Rdiv. ring. }
    rewrite E in Q. assert (0 <= Cmod (csum f (nprod n)))%R by apply Cmod_ge_0. nra.
  Qed.
End Cut.
