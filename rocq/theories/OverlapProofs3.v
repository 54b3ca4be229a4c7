(** Interpolators of overlaps in momentum. *)
From Coq Require Import Reals Lra Permutation.
From Verif Require Import ZLib Csum DFT NumPy Interp Index IndexProofs AxesProofs Spec InterpProofs SpecReal Basis SpecBasis BasisProofs
  BasisProofs2 BasisProofs3 Operator SpecOperator OperatorProofs IndexSum SpecWavepacket WavepacketProofs WavepacketProofs2 HamiltonianProofs
  LocalizeProofs4 LocalizeProofs6 DynamicsProofs WannierProofs6 Lattice LatticeProofs Overlap SpecOverlap OverlapProofs.
Local Open Scope R_scope.
Local Open Scope C_scope.

Lemma rsum_front' (f : nat -> R) n : rsum f (S n) = (f 0%nat + rsum (fun i => f (S i)) n)%R.
Proof. induction n as [|n IH]; [simpl; ring|]. rewrite rsum_S, IH, (rsum_S _ n). ring. Qed.

(** ** The wrapped points *)
Lemma wrap_from_nth axes shape : forall ax idx a, length idx = length shape -> (a < length shape)%nat ->
  nth a (wrap_index_from ax shape idx (map (fun _ => 0%Z) shape) axes) 0%Z =
  if match axes with None => true | Some l => existsb (Nat.eqb (ax + a)) l end
  then wrap_index (nth a idx 0%Z) (Z.of_nat (nth a shape 0%nat)) 0 else nth a idx 0%Z.
Proof.
  induction shape as [|n shape IH]; intros ax [|i idx] a L Ha; cbn in L, Ha; try lia.
  cbn [wrap_index_from map]. destruct a as [|a]; cbn [nth]; [rewrite Nat.add_0_r; reflexivity|].
  rewrite IH by lia. replace (S ax + a)%nat with (ax + S a)%nat by lia. reflexivity.
Qed.

Lemma wrapped_nth shape idx a : length idx = length shape -> (a < length shape)%nat ->
  nth a (wrapped_points shape idx) 0%Z =
  if (a <? 2)%nat then wrap_index (Z.of_nat (nth a idx 0%nat)) (Z.of_nat (nth a shape 0%nat)) 0 else Z.of_nat (nth a idx 0%nat).
Proof.
  intros L Ha. unfold wrapped_points, wrap_index_around_origin.
  rewrite wrap_from_nth by (rewrite ?map_length; assumption). cbn [existsb Nat.add].
  replace ((a =? 0) || ((a =? 1) || false))%nat%bool with (a <? 2)%nat by (destruct a as [|[|a]]; reflexivity).
  replace (nth a (map Z.of_nat idx) 0%Z) with (Z.of_nat (nth a idx 0%nat)); [reflexivity|].
  symmetry. change 0%Z with (Z.of_nat 0) at 1. apply map_nth.
Qed.

Lemma wrapped_length shape idx : length idx = length shape -> length (wrapped_points shape idx) = length shape.
Proof.
  unfold wrapped_points, wrap_index_around_origin. intros L. generalize 0%nat (Some [0%nat; 1%nat]). revert idx L.
  induction shape as [|n shape IH]; intros [|i idx] L ax axes; cbn in *; try lia. f_equal. apply IH. lia.
Qed.

Lemma wrapped_cong shape idx a : Forall (fun n => (0 < n)%nat) shape -> length idx = length shape -> (a < length shape)%nat ->
  Zcong (Z.of_nat (nth a shape 0%nat)) (nth a (wrapped_points shape idx) 0%Z) (Z.of_nat (nth a idx 0%nat)).
Proof.
  intros P L Ha. rewrite wrapped_nth by assumption. destruct (a <? 2)%nat.
  - apply wrap_index_spec. assert (H := proj1 (Forall_forall _ _) P (nth a shape 0%nat) (nth_In _ _ Ha)). cbn beta in H. lia.
  - exists 0%Z. ring.
Qed.

(** ** Phases *)
Definition phase (shape : list nat) (w : list Z) (g : nat -> R) : R :=
  rsum (fun a => IZR (nth a w 0%Z) / INR (nth a shape 0%nat) * g a)%R (length shape).

Lemma phase_of_point shape delta w k :
  rsum (fun c => x_point_at_index shape delta w c * k c)%R (length shape) =
  phase shape w (fun a => rsum (fun c => delta a c * k c)%R (length shape)).
Proof.
  unfold x_point_at_index, tensordot00, phase.
  rewrite (rsum_ext _ (fun c => rsum (fun a => delta a c / INR (nth a shape 0%nat) * IZR (nth a w 0%Z) * k c)%R (length shape)))
    by (intros c Hc; rewrite LatticeProofs.rsum_scal_r; reflexivity).
  rewrite rsum_swap. apply rsum_ext. intros a Ha. rewrite <- LatticeProofs.rsum_scal_l. apply rsum_ext. intros c Hc.
  unfold Rdiv. ring.
Qed.

Lemma phase_ext shape w g h : (forall a, (a < length shape)%nat -> g a = h a) -> phase shape w g = phase shape w h.
Proof. intros H. apply rsum_ext. intros a Ha. rewrite H by exact Ha. reflexivity. Qed.

Lemma cis_phase shape : forall w m, Forall (fun n => (0 < n)%nat) shape -> length w = length shape ->
  cis (phase shape w (fun a => 2 * PI * IZR (m a))%R) = plane shape (map m (seq 0 (length shape))) w.
Proof.
  induction shape as [|n shape IH]; intros [|w1 w] m P L; try discriminate.
  - cbn. apply cis_0.
  - inversion P; subst. unfold phase. cbn [length]. rewrite rsum_front', cis_plus. cbn [nth seq map plane]. rewrite <- seq_shift, map_map.
    cbn in L. rewrite <- (IH w (fun a => m (S a))) by (auto; lia). f_equal. unfold omega. f_equal. rewrite mult_IZR. unfold Rdiv. ring.
Qed.

Lemma plane_cong shape : forall f w w', Forall (fun n => (0 < n)%nat) shape -> length f = length shape ->
  length w = length shape -> length w' = length shape ->
  (forall a, (a < length shape)%nat -> Zcong (Z.of_nat (nth a shape 0%nat)) (nth a w 0%Z) (nth a w' 0%Z)) ->
  plane shape f w = plane shape f w'.
Proof.
  induction shape as [|n shape IH]; intros [|f1 f] [|w1 w] [|w1' w'] P L L1 L2 H; cbn in L, L1, L2; try lia; [reflexivity|].
  inversion P; subst. cbn [plane]. f_equal.
  - apply omega_cong; [assumption|]. destruct (H 0%nat ltac:(cbn; lia)) as [q Q]. cbn [nth] in Q. exists (f1 * q)%Z. rewrite Q. ring.
  - apply IH; try lia; [assumption|]. intros a Ha. apply (H (S a)). cbn. lia.
Qed.

Lemma unravel_length shape j : (j < nprod shape)%nat -> length (unravel shape j) = length shape.
Proof. intros H. apply (in_shape_length _ _ (unravel_in_shape shape j H)). Qed.

Lemma nth_map_of_nat l a : nth a (map Z.of_nat l) 0%Z = Z.of_nat (nth a l 0%nat).
Proof. change 0%Z with (Z.of_nat 0) at 1. apply map_nth. Qed.

Lemma interpolator_reciprocal shape delta data m k : Forall (fun n => (0 < n)%nat) shape ->
  reciprocal (length shape) delta m k -> momentum_interpolator shape delta data k = wave_sum shape data m.
Proof.
  intros P Hk. unfold momentum_interpolator, wave_sum. apply csum_ext. intros j Hj. f_equal.
  assert (L := unravel_length shape j Hj).
  rewrite phase_of_point, (phase_ext _ _ _ _ Hk), cis_phase by (try assumption; apply wrapped_length; exact L).
  apply plane_cong; try assumption; rewrite ?map_length, ?seq_length; auto; [apply wrapped_length; exact L|].
  intros a Ha. rewrite nth_map_of_nat. apply wrapped_cong; assumption.
Qed.

(** ** The fractions of the first axis *)
Lemma fractions_equal shape n delta data kappa k : Forall (fun m => m = n) shape ->
  (forall a, (a < length shape)%nat -> rsum (fun c => delta a c * k c)%R (length shape) = (2 * PI * kappa a)%R) ->
  momentum_interpolator shape delta data k = interpolator_k_fractions shape data kappa.
Proof.
  intros P Hk. unfold momentum_interpolator, interpolator_k_fractions. apply csum_ext. intros j Hj. f_equal. f_equal.
  rewrite phase_of_point, (phase_ext _ _ _ _ Hk). unfold phase. rewrite <- LatticeProofs.rsum_scal_l. apply rsum_ext. intros a Ha.
  rewrite !(proj1 (Forall_forall _ _) P (nth _ shape 0%nat)) by (apply nth_In; lia). ring.
Qed.

Lemma fractions_differ : exists data,
  interpolator_k_fractions [1%nat; 2%nat] data (fun a => IZR (nth a [0%Z; 1%Z] 0%Z)) = 1 /\
  wave_sum [1%nat; 2%nat] data (fun a => nth a [0%Z; 1%Z] 0%Z) = -1.
Proof.
  exists (fun j => if (j =? 1)%nat then 1 else 0). split.
  - unfold interpolator_k_fractions. cbn [nprod Nat.mul Nat.add csum Nat.eqb]. 
    replace (wrapped_points [1%nat; 2%nat] (unravel [1%nat; 2%nat] 1)) with [0%Z; (-1)%Z] by reflexivity.
    cbn [length rsum nth INR].
    replace (2 * PI * (0 + 0 / 1 * 0 + -1 / 1 * 1))%R with (2 * PI * IZR (-1))%R by field. rewrite cis_2PI_Z. ring.
  - unfold wave_sum. cbn [nprod Nat.mul Nat.add csum Nat.eqb].
    replace (map Z.of_nat (unravel [1%nat; 2%nat] 1)) with [0%Z; 1%Z] by reflexivity.
    cbn [length seq map nth plane]. rewrite omega_0. unfold omega.
    replace (2 * PI * IZR (1 * 1) / INR 2)%R with PI by (cbn; field).
    unfold cis. rewrite cos_PI, sin_PI. unfold RtoC, Cplus, Cmult, Copp. cbn. f_equal; ring.
Qed.

(** ** The momentum representation *)
Lemma axis_states_plane shape : forall k x, length k = length shape -> length x = length shape ->
  axis_states (map BFundT shape) k x =
  isqrt (nprod shape) * plane shape (map (fun a => freq (nth a shape 0%nat) (nth a k 0%nat)) (seq 0 (length shape))) (map Z.of_nat x).
Proof.
  induction shape as [|n shape IH]; intros [|k1 k] [|x1 x] Lk Lx; cbn in Lk, Lx; try lia.
  - cbn. unfold isqrt. cbn. rewrite sqrt_1, Rinv_1. ring.
  - rewrite isqrt_nprod_cons. cbn [map axis_states length seq nth plane bstate]. rewrite IH by lia.
    rewrite <- seq_shift, map_map. unfold plane_wave. cbn [nth]. ring.
Qed.

Lemma plane_conj shape : forall f x, Cconj (plane shape f x) = plane shape (map Z.opp f) x.
Proof.
  induction shape as [|n shape IH]; intros [|f1 f] [|x1 x]; try (cbn; apply Cconj_1).
  cbn [plane map]. rewrite Cconj_mult, IH, omega_conj. f_equal. f_equal. ring.
Qed.

Lemma plane_freq_cong shape : forall f f' w, Forall (fun n => (0 < n)%nat) shape -> length f = length shape -> length f' = length shape ->
  (forall a, (a < length shape)%nat -> Zcong (Z.of_nat (nth a shape 0%nat)) (nth a f 0%Z) (nth a f' 0%Z)) ->
  plane shape f w = plane shape f' w.
Proof.
  induction shape as [|n shape IH]; intros [|f1 f] [|f1' f'] [|w1 w] P L1 L2 H; cbn in L1, L2; try lia; try reflexivity.
  inversion P; subst. cbn [plane]. f_equal.
  - apply omega_cong; [assumption|]. destruct (H 0%nat ltac:(cbn; lia)) as [q Q]. cbn [nth] in Q. exists (w1 * q)%Z. rewrite Q. ring.
  - apply IH; try lia; [assumption|]. intros a Ha. apply (H (S a)). cbn. lia.
Qed.

Lemma opposite_in_shape shape m : Forall (fun n => (0 < n)%nat) shape -> in_shape (opposite_index shape m) shape.
Proof.
  intros P. unfold opposite_index. revert m. induction P as [|n shape Hn P IH]; intros m; [constructor|].
  cbn [length seq map]. constructor.
  - cbn [nth]. assert (B := Z.mod_pos_bound (- m 0%nat) (Z.of_nat n) ltac:(lia)). lia.
  - rewrite <- seq_shift, map_map. apply (IH (fun a => m (S a))).
Qed.

Lemma interpolator_momentum same shape : identity_test same -> Forall (fun n => (0 < n)%nat) shape ->
  exists F, convert same (BTuple (map BFund shape)) (BTuple (map BFundT shape)) = Some F /\
    forall delta data m k, reciprocal (length shape) delta m k ->
      momentum_interpolator shape delta data k =
      RtoC (sqrt (INR (nprod shape))) * F data (ravel shape (opposite_index shape m)).
Proof.
  intros Hs P.
  assert (W := position_wf shape P). assert (W' := momenta_wf shape P).
  assert (Ex : explicit_orthonormal (BTuple (map BFund shape)))
    by (apply explicit_orthonormal_tuple, Forall_forall; intros b Hb; apply in_map_iff in Hb; destruct Hb as [n [<- _]]; exact I).
  assert (C := compatible_momenta (map BFund shape)). rewrite map_bfund_Fund in C.
  destruct (proj2 (convert_some_iff same _ _) C) as [F HF]. exists F. split; [exact HF|].
  intros delta data m k Hk. rewrite (interpolator_reciprocal shape delta data m k P Hk).
  assert (In := opposite_in_shape shape m P). set (o := opposite_index shape m) in *.
  assert (Ho := ravel_lt shape o In).
  rewrite (convert_orthonormal same Hs _ _ F W W' Ex HF data (ravel shape o)) by (rewrite momenta_size; exact Ho).
  change (bsize (BTuple (map BFund shape))) with (nprod (map bsize (map BFund shape))). rewrite map_bsize_Fund.
  rewrite <- csum_scal_l. unfold wave_sum. apply csum_ext. intros j Hj.
  assert (Hu := unravel_in_shape shape j Hj). assert (Lu := unravel_length shape j Hj).
  assert (OV : overlap (momenta shape) (BTuple (map BFund shape)) (ravel shape o) j = Cconj (bstate (momenta shape) (ravel shape o) j)).
  { assert (Q := overlap_points (map BFundT shape) j (ravel shape o) W'). unfold points in Q.
    rewrite as_fundamental_position_tuple, map_bfund_FundT in Q.
    change (BTuple (map BFundT shape)) with (momenta shape) in Q. rewrite momenta_fund in Q. rewrite <- (Q Hj).
    rewrite overlap_conj; [reflexivity|]. rewrite momenta_fund. cbn [bfund]. rewrite map_bfund_Fund. reflexivity. }
  rewrite OV. assert (Q := bstate_ravel (map BFundT shape) o (unravel shape j)).
  rewrite map_bsize_FundT, map_bfund_FundT in Q. rewrite (ravel_unravel shape j Hj) in Q.
  unfold momenta. rewrite Q by assumption. 
  assert (Lo : length o = length shape) by (apply (in_shape_length _ _ In)).
  rewrite axis_states_plane by assumption. rewrite Cconj_mult, isqrt_conj, plane_conj, map_map.
  assert (N0 : (0 < nprod shape)%nat) by lia.
  assert (SQ : RtoC (sqrt (INR (nprod shape))) * isqrt (nprod shape) = 1).
  { unfold isqrt. rewrite <- RtoC_mult. f_equal. apply Rinv_r. apply Rgt_not_eq, sqrt_lt_R0, lt_0_INR, N0. }
  transitivity ((RtoC (sqrt (INR (nprod shape))) * isqrt (nprod shape)) *
     (data j * plane shape (map (fun a => - freq (nth a shape 0%nat) (nth a o 0%nat))%Z (seq 0 (length shape))) (map Z.of_nat (unravel shape j)))).
  2:{ ring. }
  rewrite SQ, Cmult_1_l. f_equal. apply plane_freq_cong; try assumption; try (rewrite map_length, seq_length; reflexivity).
  intros a Ha. rewrite !WannierProofs6.nth_map_seq by exact Ha.
  assert (Hn : (0 < nth a shape 0)%nat) by (apply (proj1 (Forall_forall _ _) P (nth a shape 0%nat)); apply nth_In; exact Ha).
  assert (Hoa : (nth a o 0 < nth a shape 0)%nat) by (apply IndexProofs.in_shape_nth; [exact In|exact Ha]).
  destruct (freq_cong (nth a shape 0%nat) (nth a o 0%nat) Hoa) as [q Eq].
  assert (Eo : nth a o 0%nat = Z.to_nat ((- m a) mod Z.of_nat (nth a shape 0%nat))).
  { unfold o, opposite_index. rewrite WannierProofs6.nth_map_seq by exact Ha. reflexivity. }
  assert (B := Z.mod_pos_bound (- m a) (Z.of_nat (nth a shape 0%nat)) ltac:(lia)).
  assert (D := Z.div_mod (- m a) (Z.of_nat (nth a shape 0%nat)) ltac:(lia)).
  rewrite Eq, Eo, Z2Nat.id by lia.
  exists (q - (- m a) / Z.of_nat (nth a shape 0%nat))%Z. lia.
Qed.

(** At zero: the sum over the points. *)
Lemma interpolator_zero shape delta data k : (forall c, (c < length shape)%nat -> k c = 0%R) ->
  momentum_interpolator shape delta data k = csum data (nprod shape).
Proof.
  intros Hk. unfold momentum_interpolator. apply csum_ext. intros j Hj.
  rewrite (rsum_ext _ (fun _ => 0%R)) by (intros c Hc; rewrite Hk by exact Hc; ring).
  rewrite rsum_const0, cis_0. ring.
Qed.

Lemma interpolator_conj shape delta d d' k : (forall j, (j < nprod shape)%nat -> d' j = Cconj (d j)) ->
  momentum_interpolator shape delta d' (fun c => - k c)%R = Cconj (momentum_interpolator shape delta d k).
Proof.
  intros H. unfold momentum_interpolator. rewrite Cconj_csum. apply csum_ext. intros j Hj.
  rewrite Cconj_mult, cis_conj, H by exact Hj. f_equal. f_equal.
  replace (- rsum (fun c => x_point_at_index shape delta (wrapped_points shape (unravel shape j)) c * k c) (length shape))%R
    with (-1 * rsum (fun c => x_point_at_index shape delta (wrapped_points shape (unravel shape j)) c * k c) (length shape))%R by ring.
  rewrite <- LatticeProofs.rsum_scal_l. apply rsum_ext. intros c Hc. ring.
Qed.

(** ** A bound *)
Lemma cauchy_real (a b : nat -> R) n :
  (rsum (fun i => a i * b i) n * rsum (fun i => a i * b i) n <= rsum (fun i => a i * a i) n * rsum (fun i => b i * b i) n)%R.
Proof.
  induction n as [|n IH]; [simpl; lra|]. rewrite !rsum_S.
  set (s := rsum (fun i => a i * b i)%R n) in *. set (p := rsum (fun i => a i * a i)%R n) in *. set (q := rsum (fun i => b i * b i)%R n) in *.
  assert (Hp : (0 <= p)%R) by (apply rsum_nonneg; intros; nra). assert (Hq : (0 <= q)%R) by (apply rsum_nonneg; intros; nra).
  generalize (a n) (b n). intros x y.
  assert (K : (2 * s * (x * y) <= p * (y * y) + q * (x * x))%R).
  { apply Rsqr_incr_0_var; [|nra]. unfold Rsqr.
    assert (E : ((2 * s * (x * y)) * (2 * s * (x * y)) <= 4 * (p * q) * ((x * y) * (x * y)))%R).
    { replace ((2 * s * (x * y)) * (2 * s * (x * y)))%R with (4 * (s * s) * ((x * y) * (x * y)))%R by ring.
      apply Rmult_le_compat_r; [nra|]. lra. }
    apply (Rle_trans _ _ _ E).
    assert (Z := Rle_0_sqr (p * (y * y) - q * (x * x))). unfold Rsqr in Z. lra. }
  lra.
Qed.

Lemma interpolator_bound shape delta d (u v : nat -> C) k : (forall j, (j < nprod shape)%nat -> d j = Cconj (u j) * v j) ->
  (Cnorm2 (momentum_interpolator shape delta d k) <= rsum (fun x => Cnorm2 (u x)) (nprod shape) * rsum (fun x => Cnorm2 (v x)) (nprod shape))%R.
Proof.
  intros H. unfold momentum_interpolator. rewrite Cnorm2_Cmod.
  set (f := fun j => _). assert (M := Cmod_csum f (nprod shape)).
  rewrite (rsum_ext (fun i => Cmod (f i)) (fun x => Cmod (u x) * Cmod (v x))%R) in M.
  2:{ intros x Hx. unfold f. rewrite Cmod_mult, cis_mod, H by exact Hx. rewrite Cmod_mult. replace (Cmod (Cconj (u x))) with (Cmod (u x)); [ring|]. unfold Cmod, Cconj. cbn. f_equal. ring. }
  assert (Q := cauchy_real (fun x => Cmod (u x)) (fun x => Cmod (v x)) (nprod shape)). cbv beta in Q.
  rewrite (rsum_ext (fun x => Cnorm2 (u x)) (fun x => Cmod (u x) * Cmod (u x))%R) by (intros; apply Cnorm2_Cmod).
  rewrite (rsum_ext (fun x => Cnorm2 (v x)) (fun x => Cmod (v x) * Cmod (v x))%R) by (intros; apply Cnorm2_Cmod).
  assert (0 <= Cmod (csum f (nprod shape)))%R by apply Cmod_ge_0. nra.
Qed.
