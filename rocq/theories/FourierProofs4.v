(** Consequences of the kernels: shared points, plane waves, symmetry. *)
From Coq Require Import Reals List ZArith Arith Bool Lia Lra.
From Verif Require Import ZLib Csum DFT NumPy Spec SpecBasis IndexSum IndexProofs InterpProofs InterpProofs2 BasisProofs Interp Fourier SpecFourier FourierProofs FourierProofs2 FourierProofs3.
Import ListNotations.
Local Open Scope R_scope.
Local Open Scope C_scope.

Lemma position_shared n m y x : (0 < n)%nat -> (0 < m)%nat -> (y * n = x * m)%nat -> position m y = position n x.
Proof.
  intros Hn Hm E. unfold position. apply (f_equal INR) in E. rewrite !mult_INR in E.
  assert (INR n <> 0)%R by (apply not_0_INR; lia). assert (INR m <> 0)%R by (apply not_0_INR; lia). apply (Rmult_eq_reg_r (INR n * INR m)); [|now apply Rmult_integral_contrapositive_currified].
  transitivity (INR y * INR n)%R; [field; assumption|]. rewrite E. field. assumption.
Qed.

Lemma fits_larger n m f : (n <= m)%nat -> fits n f = true -> fits m f = true.
Proof.
  unfold fits. intros H E. apply andb_prop in E. destruct E as [A B]. apply Z.leb_le in A, B.
  apply andb_true_intro. split; apply Z.leb_le.
  - assert (Z.of_nat n / 2 <= Z.of_nat m / 2)%Z by (apply Z.div_le_mono; lia). lia.
  - assert ((Z.of_nat n - 1) / 2 <= (Z.of_nat m - 1) / 2)%Z by (apply Z.div_le_mono; lia). lia.
Qed.

Lemma freq_wave n k d : (k < n)%nat -> omega n (freq n k * d) = omega n (Z.of_nat k * d).
Proof. intros Hk. apply omega_cong; [lia|]. pose proof (freq_cong n k Hk) as [q G]. exists (q * d)%Z. nia. Qed.

Lemma wave_difference n f x x' : cis (2 * PI * IZR f * (position n x - position n x')) = omega n (f * (Z.of_nat x - Z.of_nat x')).
Proof.
  replace (f * (Z.of_nat x - Z.of_nat x'))%Z with (f * Z.of_nat x + - (f * Z.of_nat x'))%Z by ring.
  rewrite omega_add, <- (omega_conj n (f * Z.of_nat x')), !position_omega, cis_conj, <- cis_plus. f_equal. ring.
Qed.

Lemma resample_shared n m y x x' : (0 < n)%nat -> (n <= m)%nat -> (x < n)%nat -> (x' < n)%nat -> (y * n = x * m)%nat ->
  resample n m y x' = cdelta x x'.
Proof.
  intros Hn Hm Hx Hx' E. unfold resample. rewrite (position_shared n m y x Hn ltac:(lia) E).
  rewrite (csum_ext _ (fun k => omega n ((Z.of_nat x - Z.of_nat x') * Z.of_nat k)) n).
  - rewrite omega_orth by assumption. rewrite Cmult_assoc, <- RtoC_mult, Rinv_l by (apply not_0_INR; lia). ring.
  - intros k Hk. rewrite (fits_larger n m) by (try assumption; now apply freq_fits). rewrite wave_difference, freq_wave by assumption. f_equal. ring.
Qed.

Lemma axes_product_delta K shape y x x' : length y = length shape -> in_shape x shape -> in_shape x' shape ->
  (forall k j, (k < length shape)%nat -> (j < nth k shape 0)%nat -> K k (nth k shape 0%nat) (nth k y 0%nat) j = cdelta (nth k x 0%nat) j) ->
  axes_product K 0 shape y x' = lprod (repeat cdelta (length shape)) x x'.
Proof.
  intros Ly Hx Hx' H. rewrite axes_product_lprod; [|assumption|exact (Forall2_length Hx')].
  apply (lprod_ext2 shape); try assumption; [now rewrite map_length, seq_length|apply repeat_length|exact (Forall2_length Hx)|].
  intros k j Hk Hj. rewrite nth_repeat_delta, <- H by assumption.
  set (f := fun j0 => K (0 + j0)%nat (nth j0 shape 0%nat)). rewrite (nth_indep _ cdelta (f 0%nat)) by (now rewrite map_length, seq_length).
  rewrite map_nth, seq_nth by assumption. reflexivity.
Qed.

Lemma kernel_through resize shape (v : list nat -> C) y x : length y = length shape -> in_shape x shape -> not_shorter resize shape -> same_point resize shape y x ->
  isum shape (fun x' => v x' * axes_product (keep resize resample) 0 shape y x') = v x.
Proof.
  intros Ly Hx HS HP. rewrite <- (lprod_delta shape x v Hx). apply isum_ext. intros x' Hx'. f_equal.
  apply axes_product_delta; try assumption. intros k j Hk Hj. unfold keep. specialize (HP k Hk).
  destruct (proj1 (in_shape_nth _ _) Hx) as [_ Kx]. specialize (Kx k Hk). destruct (resize k) as [m|] eqn:R.
  - apply resample_shared; try assumption; [lia|]. exact (HS k m Hk R).
  - now rewrite HP.
Qed.

(** ** Plane waves *)

Lemma resample_wave n m y k : (0 < m)%nat -> (k < n)%nat ->
  csum (fun x => cis (2 * PI * IZR (freq n k) * position n x) * resample n m y x) n =
  if fits m (freq n k) then cis (2 * PI * IZR (freq n k) * position m y) else 0.
Proof.
  intros Hm Hk. unfold resample.
  transitivity (csum (fun j => (if fits m (freq n j) then cis (2 * PI * IZR (freq n j) * position m y) else 0) * cdelta k j) n).
  - transitivity (csum (fun x => csum (fun j => (if fits m (freq n j) then cis (2 * PI * IZR (freq n j) * position m y) else 0) * (RtoC (/ INR n) * omega n ((Z.of_nat k - Z.of_nat j) * Z.of_nat x))) n) n).
    + apply csum_ext. intros x Hx. rewrite Cmult_assoc, <- csum_scal_l. apply csum_ext. intros j Hj. destruct (fits m (freq n j)); [|ring].
      replace ((Z.of_nat k - Z.of_nat j) * Z.of_nat x)%Z with (Z.of_nat k * Z.of_nat x + - (Z.of_nat j * Z.of_nat x))%Z by ring.
      rewrite omega_add, (old_wave n j x Hj), <- (freq_wave n k (Z.of_nat x) Hk), position_omega.
      rewrite (Rmult_minus_distr_l (2 * PI * IZR (freq n j))). unfold Rminus. rewrite cis_plus. ring.
    + rewrite csum_swap. apply csum_ext. intros j Hj. rewrite csum_scal_l. f_equal. rewrite csum_scal_l, omega_orth by assumption.
      rewrite Cmult_assoc, <- RtoC_mult, Rinv_l by (apply not_0_INR; lia). ring.
  - rewrite csum_delta_r by assumption. reflexivity.
Qed.

Lemma product_sum K (g h : nat -> nat -> C) : forall shape k y, length y = length shape ->
  (forall j, (j < length shape)%nat -> csum (fun x => g (k + j)%nat x * K (k + j)%nat (nth j shape 0%nat) (nth j y 0%nat) x) (nth j shape 0%nat) = h (k + j)%nat (nth j y 0%nat)) ->
  isum shape (fun x => index_product g k x * axes_product K k shape y x) = index_product h k y.
Proof.
  induction shape as [|n shape IH]; intros k [|i y] HL H; cbn in HL; try lia; [cbn; ring|].
  cbn [isum index_product axes_product].
  rewrite (csum_ext _ (fun x => g k x * K k n i x * isum shape (fun z => index_product g (S k) z * axes_product K (S k) shape y z)) n)
    by (intros x Hx; rewrite <- isum_scal_l; apply isum_ext; intros; ring).
  rewrite csum_scal_r. f_equal.
  - specialize (H 0%nat). cbn [nth] in H. rewrite Nat.add_0_r in H. apply H. cbn. lia.
  - apply IH; [lia|]. intros j Hj. specialize (H (S j)). cbn [nth] in H. rewrite <- plus_n_Sm in H. apply H. cbn. lia.
Qed.

(** ** Real kernels *)

Lemma fst_cis t : fst (cis t) = cos t.
Proof. reflexivity. Qed.

Lemma rsum_split (f : nat -> R) n m : rsum f (n + m) = (rsum f n + rsum (fun i => f (n + i)%nat) m)%R.
Proof. induction m as [|m IH]; [rewrite Nat.add_0_r; cbn; ring|]. rewrite Nat.add_succ_r. cbn [rsum]. rewrite IH. ring. Qed.

Lemma rsum_shift (f : nat -> R) n : rsum f (S n) = (f 0%nat + rsum (fun i => f (S i)) n)%R.
Proof. change (S n) with (1 + n)%nat. rewrite rsum_split. cbn. ring. Qed.

Lemma rsum_rev (f : nat -> R) n : rsum (fun i => f (n - 1 - i)%nat) n = rsum f n.
Proof.
  induction n as [|n IH]; [reflexivity|]. rewrite rsum_shift. replace (S n - 1 - 0)%nat with n by lia. cbn [rsum]. rewrite <- IH. 
  rewrite Rplus_comm. f_equal. apply rsum_ext. intros i Hi. f_equal. lia.
Qed.

Lemma rsum_scal c (f : nat -> R) n : rsum (fun i => (c * f i)%R) n = (c * rsum f n)%R.
Proof. induction n as [|n IH]; cbn; [ring|]. rewrite IH. ring. Qed.

(** Folding a symmetric spectrum. *)
Lemma fold_odd (f : nat -> R) h : (forall k, (0 < k < 2 * h + 1)%nat -> f (2 * h + 1 - k)%nat = f k) ->
  (f 0%nat + 2 * rsum (fun i => f (S i)) h)%R = rsum f (2 * h + 1).
Proof.
  intros H. replace (2 * h + 1)%nat with (S h + h)%nat by lia. rewrite rsum_split, rsum_shift.
  replace (rsum (fun i => f (S h + i)%nat) h) with (rsum (fun i => f (S i)) h); [ring|].
  rewrite <- (rsum_rev (fun i => f (S i))). apply rsum_ext. intros i Hi. rewrite <- H by lia. f_equal. lia.
Qed.

Lemma fold_even (f : nat -> R) h : (0 < h)%nat -> (forall k, (0 < k < 2 * h)%nat -> f (2 * h - k)%nat = f k) ->
  (f 0%nat + 2 * rsum (fun i => f (S i)) h)%R = (rsum f (2 * h) + f h)%R.
Proof.
  intros Hh H. replace (2 * h)%nat with (S h + (h - 1))%nat by lia. rewrite rsum_split, rsum_shift.
  assert (E : rsum (fun i => f (S i)) h = (rsum (fun i => f (S i)) (h - 1) + f h)%R).
  { destruct h as [|h]; [lia|]. cbn [rsum]. replace (S h - 1)%nat with h by lia. reflexivity. }
  replace (rsum (fun i => f (S h + i)%nat) (h - 1)) with (rsum (fun i => f (S i)) (h - 1)); [rewrite E; ring|].
  rewrite <- (rsum_rev (fun i => f (S i))). apply rsum_ext. intros i Hi. rewrite <- H by lia. f_equal. lia.
Qed.

Lemma fst_RtoC_mult (r : R) (z : C) : fst (RtoC r * z) = (r * fst z)%R.
Proof. cbn. ring. Qed.

Definition cosine (n : nat) (d : Z) (k : nat) : R := fst (omega n (Z.of_nat k * d)).

Lemma cosine_mirror n d k : (0 < n)%nat -> (k <= n)%nat -> cosine n d (n - k) = cosine n d k.
Proof.
  intros Hn Hk. unfold cosine. rewrite <- (omega_cong n (- (Z.of_nat k * d)) (Z.of_nat (n - k) * d)) by (try assumption; exists (- d)%Z; rewrite Nat2Z.inj_sub by assumption; ring).
  rewrite <- omega_conj. reflexivity.
Qed.

Lemma cosine_total n d : (0 < n)%nat -> (forall x x', (x < n)%nat -> (x' < n)%nat -> d = (Z.of_nat x - Z.of_nat x')%Z -> (/ INR n * rsum (cosine n d) n)%R = fst (cdelta x x')).
Proof.
  intros Hn x x' Hx Hx' ->.
  assert (E : rsum (cosine n (Z.of_nat x - Z.of_nat x')) n = fst (csum (fun k => omega n ((Z.of_nat x - Z.of_nat x') * Z.of_nat k)) n)).
  { rewrite fst_csum. apply rsum_ext. intros k Hk. unfold cosine. do 2 f_equal. ring. }
  rewrite E, omega_orth, fst_RtoC_mult by assumption. rewrite <- Rmult_assoc, Rinv_l by (apply not_0_INR; lia). ring.
Qed.

Lemma real_resample_shared n m y x x' : (0 < n)%nat -> (n <= m)%nat -> (y * n = x * m)%nat ->
  fst (real_resample n m y x') =
  (/ INR n * rsum (fun k => if (k <=? n / 2)%nat then (half_weight m k * cosine n (Z.of_nat x - Z.of_nat x') k)%R else 0%R) (m / 2 + 1))%R.
Proof.
  intros Hn Hm E. unfold real_resample. rewrite (position_shared n m y x Hn ltac:(lia) E), fst_RtoC_mult, fst_csum. f_equal.
  apply rsum_ext. intros k Hk. destruct (k <=? n / 2)%nat; [|reflexivity]. rewrite fst_RtoC_mult. unfold cosine. rewrite <- wave_difference, <- INR_IZR_INZ.
  unfold half_weight. destruct (k =? 0)%nat, (2 * k =? m)%nat; reflexivity.
Qed.

Lemma rsum_if n b (f : nat -> R) : (b <= n)%nat -> rsum (fun k => if (k <? b)%nat then f k else 0%R) n = rsum f b.
Proof.
  intros H. induction n as [|n IH]; [replace b with 0%nat by lia; reflexivity|]. cbn [rsum].
  destruct (Nat.eq_dec b (S n)) as [->|Hne].
  - cbn [rsum]. destruct (Nat.ltb_spec n (S n)); [|lia]. f_equal. apply rsum_ext. intros i Hi. destruct (Nat.ltb_spec i (S n)); [reflexivity|lia].
  - rewrite IH by lia. destruct (Nat.ltb_spec n b); [lia|]. ring.
Qed.

Lemma real_sum n m (g : nat -> R) : (n <= m)%nat ->
  rsum (fun k => if (k <=? n / 2)%nat then (half_weight m k * g k)%R else 0%R) (m / 2 + 1) = (g 0%nat + rsum (fun i => half_weight m (S i) * g (S i)) (n / 2))%R.
Proof.
  intros H. assert (n / 2 <= m / 2)%nat by (apply Nat.div_le_mono; lia).
  rewrite (rsum_ext _ (fun k => if (k <? n / 2 + 1)%nat then (half_weight m k * g k)%R else 0%R)).
  - rewrite rsum_if by lia. rewrite Nat.add_1_r, rsum_shift. unfold half_weight at 1. cbn [Nat.eqb orb]. ring.
  - intros k Hk. destruct (Nat.leb_spec k (n / 2)), (Nat.ltb_spec k (n / 2 + 1)); try reflexivity; lia.
Qed.

(** Odd length. *)
Lemma real_shared_odd n m y x x' : Nat.odd n = true -> (n <= m)%nat -> (x < n)%nat -> (x' < n)%nat -> (y * n = x * m)%nat ->
  fst (real_resample n m y x') = fst (cdelta x x').
Proof.
  intros Ho Hm Hx Hx' E. apply Nat.odd_spec in Ho. destruct Ho as [h ->]. rewrite (real_resample_shared _ m y x) by (try assumption; lia).
  rewrite real_sum by assumption. replace ((2 * h + 1) / 2)%nat with h by (apply (Nat.div_unique _ 2 h 1); lia).
  rewrite (rsum_ext _ (fun i => (2 * cosine (2 * h + 1) (Z.of_nat x - Z.of_nat x') (S i))%R)).
  - rewrite rsum_scal, fold_odd by (intros k Hk; apply cosine_mirror; lia). apply (cosine_total (2 * h + 1) _ ltac:(lia) x x' Hx Hx' eq_refl).
  - intros i Hi. unfold half_weight. cbn [Nat.eqb orb]. destruct (Nat.eqb_spec (2 * S i) m); [lia|reflexivity].
Qed.

(** The same length. *)
Lemma real_shared_equal n y x x' : (0 < n)%nat -> (x < n)%nat -> (x' < n)%nat -> (y * n = x * n)%nat ->
  fst (real_resample n n y x') = fst (cdelta x x').
Proof.
  intros Hn Hx Hx' E. destruct (Nat.odd n) eqn:Ho; [now apply real_shared_odd|].
  assert (Hev : Nat.even n = true) by (rewrite <- Nat.negb_odd, Ho; reflexivity). apply Nat.even_spec in Hev. destruct Hev as [h ->].
  rewrite (real_resample_shared _ _ y x) by (try assumption; lia). rewrite real_sum by lia. replace (2 * h / 2)%nat with h by (apply (Nat.div_unique _ 2 h 0); lia).
  rewrite <- (cosine_total (2 * h) _ Hn x x' Hx Hx' eq_refl). f_equal. set (f := cosine (2 * h) (Z.of_nat x - Z.of_nat x')).
  assert (F : (f 0%nat + 2 * rsum (fun i => f (S i)) h)%R = (rsum f (2 * h) + f h)%R) by (apply fold_even; [lia|]; intros k Hk; apply cosine_mirror; lia).
  destruct h as [|h]; [lia|]. cbn [rsum]. cbn [rsum] in F.
  rewrite (rsum_ext (fun i => (half_weight (2 * S h) (S i) * f (S i))%R) (fun i => (2 * f (S i))%R)).
  - rewrite rsum_scal. unfold half_weight. rewrite Nat.eqb_refl, orb_true_r. lra.
  - intros i Hi. unfold half_weight. cbn [Nat.eqb orb]. destruct (Nat.eqb_spec (2 * S i) (2 * S h)); [lia|reflexivity].
Qed.

(** Even length, longer target: the highest frequency enters twice. *)
Lemma real_shared_even n m y x x' : (0 < n)%nat -> Nat.even n = true -> (n < m)%nat -> (x < n)%nat -> (x' < n)%nat -> (y * n = x * m)%nat ->
  fst (real_resample n m y x') = (fst (cdelta x x') + / INR n * cos (PI * IZR (Z.of_nat x - Z.of_nat x')))%R.
Proof.
  intros Hn Hev Hm Hx Hx' E. apply Nat.even_spec in Hev. destruct Hev as [h ->].
  rewrite (real_resample_shared _ m y x) by (try assumption; lia). rewrite real_sum by lia. replace (2 * h / 2)%nat with h by (apply (Nat.div_unique _ 2 h 0); lia).
  rewrite <- (cosine_total (2 * h) _ Hn x x' Hx Hx' eq_refl), <- Rmult_plus_distr_l. f_equal. set (f := cosine (2 * h) (Z.of_nat x - Z.of_nat x')).
  assert (F : (f 0%nat + 2 * rsum (fun i => f (S i)) h)%R = (rsum f (2 * h) + f h)%R) by (apply fold_even; [lia|]; intros k Hk; apply cosine_mirror; lia).
  rewrite (rsum_ext _ (fun i => (2 * f (S i))%R)).
  - rewrite rsum_scal, F. f_equal. unfold f, cosine, omega. rewrite fst_cis. f_equal. rewrite mult_IZR, <- INR_IZR_INZ, mult_INR. cbn [INR]. field.
    apply not_0_INR. lia.
  - intros i Hi. unfold half_weight. cbn [Nat.eqb orb]. destruct (Nat.eqb_spec (2 * S i) m); [lia|reflexivity].
Qed.

(** Mirror images. *)
Lemma real_resample_mirror n m y x : (0 < n)%nat -> (0 < m)%nat -> (y <= m)%nat -> (x < n)%nat ->
  fst (real_resample n m (m - y) ((n - x) mod n)) = fst (real_resample n m y x).
Proof.
  intros Hn Hm Hy Hx. unfold real_resample. rewrite !fst_RtoC_mult, !fst_csum. f_equal. apply rsum_ext. intros k Hk.
  destruct (k <=? n / 2)%nat; [|reflexivity]. rewrite !fst_RtoC_mult, !fst_cis. f_equal.
  assert (Nn : INR n <> 0%R) by (apply not_0_INR; lia). assert (Nm : INR m <> 0%R) by (apply not_0_INR; lia).
  rewrite <- (cos_neg (2 * PI * INR k * (position m y - position n x))).
  assert (D : exists q : Z, (position m (m - y) - position n ((n - x) mod n))%R = (IZR q - (position m y - position n x))%R).
  { unfold position. rewrite minus_INR by assumption. destruct (Nat.eq_dec x 0) as [->|Hx0].
    - exists 1%Z. rewrite Nat.sub_0_r, Nat.mod_same by lia. cbn [INR]. field. split; assumption.
    - exists 0%Z. rewrite Nat.mod_small by lia. rewrite minus_INR by lia. field. split; assumption. }
  destruct D as [q ->].
  replace (2 * PI * INR k * (IZR q - (position m y - position n x)))%R with (- (2 * PI * INR k * (position m y - position n x)) + 2 * PI * IZR (Z.of_nat k * q))%R
    by (rewrite mult_IZR, <- INR_IZR_INZ; ring).
  rewrite <- !fst_cis, cis_plus, cis_2PI_Z. rewrite Cmult_1_r. reflexivity.
Qed.
