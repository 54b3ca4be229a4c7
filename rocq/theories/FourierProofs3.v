(** Real Fourier interpolation as a product of one-axis kernels. *)
From Coq Require Import Reals List ZArith Arith Bool Lia Lra.
From Verif Require Import ZLib Csum DFT NumPy Spec SpecBasis IndexSum IndexProofs InterpProofs InterpProofs2 BasisProofs Interp Fourier SpecFourier FourierProofs FourierProofs2.
Import ListNotations.
Local Open Scope R_scope.
Local Open Scope C_scope.

Lemma lprod_ext2 : forall sh Ks Ks' y z x, length Ks = length sh -> length Ks' = length sh -> length y = length sh -> length z = length sh -> in_shape x sh ->
  (forall k j, (k < length sh)%nat -> (j < nth k sh 0)%nat -> nth k Ks cdelta (nth k y 0%nat) j = nth k Ks' cdelta (nth k z 0%nat) j) ->
  lprod Ks y x = lprod Ks' z x.
Proof.
  induction sh as [|n sh IH]; intros [|K Ks] [|K' Ks'] [|i y] [|i' z] x L L' Ly Lz Hx H; cbn in L, L', Ly, Lz; try lia; [reflexivity|].
  destruct x as [|j x]; [inversion Hx|]. apply in_shape_cons in Hx. destruct Hx as [Hj Hx]. cbn [lprod]. f_equal.
  - apply (H 0%nat); cbn; [lia|assumption].
  - apply IH; try lia; try assumption. intros k j' Hk. apply (H (S k)). cbn. lia.
Qed.

Lemma csum_if n b f : csum (fun k => if (k <? b)%nat then f k else 0) n = csum f (Nat.min n b).
Proof.
  induction n as [|n IH]; [reflexivity|]. rewrite csum_S, IH. destruct (Nat.ltb_spec n b) as [H|H].
  - rewrite (Nat.min_l n b), (Nat.min_l (S n) b) by lia. reflexivity.
  - rewrite (Nat.min_r n b), (Nat.min_r (S n) b) by lia. ring.
Qed.

Lemma fst_csum f n : fst (csum f n) = rsum (fun i => fst (f i)) n.
Proof. induction n as [|n IH]; [reflexivity|]. cbn [csum rsum]. rewrite <- IH. reflexivity. Qed.

Lemma fst_scal (r : R) z : fst (RtoC r * z) = (r * fst z)%R.
Proof. cbn. ring. Qed.

Definition W_mat (m : nat) : mat := fun y k => if (k <? m / 2 + 1)%nat then RtoC (half_weight m k) * omega m (Z.of_nat k * Z.of_nat y) else 0.

Lemma irfft_mat n m v y : irfft_forward n m v y = fst (csum (fun k => v k * W_mat m y k) n).
Proof.
  unfold irfft_forward, W_mat.
  rewrite (csum_ext _ (fun k => if (k <? m / 2 + 1)%nat then v k * (RtoC (half_weight m k) * omega m (Z.of_nat k * Z.of_nat y)) else 0)) by (intros k Hk; destruct (k <? _)%nat; ring).
  rewrite csum_if, Nat.min_comm, <- csum_if, fst_csum. apply rsum_ext. intros k Hk.
  rewrite <- fst_scal. f_equal. destruct (k <? n)%nat; ring.
Qed.

Lemma real_kernel n m y x : csum (fun t => W_mat m y t * F_mat n t x) (n / 2 + 1) = real_resample n m y x.
Proof.
  unfold real_resample, W_mat, F_mat. rewrite <- csum_scal_l.
  rewrite (csum_ext _ (fun t => if (t <? m / 2 + 1)%nat then RtoC (half_weight m t) * omega m (Z.of_nat t * Z.of_nat y) * (RtoC (/ INR n) * omega n (- (Z.of_nat t * Z.of_nat x))) else 0))
    by (intros t Ht; destruct (t <? _)%nat; ring).
  rewrite csum_if, Nat.min_comm, <- csum_if. apply csum_ext. intros k Hk.
  replace (k <? n / 2 + 1)%nat with (k <=? n / 2)%nat by (destruct (Nat.leb_spec k (n / 2)), (Nat.ltb_spec k (n / 2 + 1)); try reflexivity; lia).
  destruct (k <=? n / 2)%nat; [|ring].
  replace (RtoC (if (k =? 0)%nat then 1 else if (2 * k =? m)%nat then 1 else 2)) with (RtoC (half_weight m k))
    by (unfold half_weight; destruct (k =? 0)%nat, (2 * k =? m)%nat; reflexivity).
  rewrite position_omega. rewrite <- (omega_conj n), position_omega, cis_conj, <- !INR_IZR_INZ.
  rewrite (Rmult_minus_distr_l (2 * PI * INR k)). unfold Rminus. rewrite cis_plus. ring.
Qed.

Lemma nth_update_shape a m (shape : list nat) k : (a < length shape)%nat -> nth k (update a m shape) 0%nat = if (k =? a)%nat then m else nth k shape 0%nat.
Proof. intros H. now apply update_nth. Qed.

Section Core.
  Context (shape : list nat) (points : list nat -> R) (a m : nat) (r' : nat -> option nat).
  Hypothesis Ha : (a < length shape)%nat.
  Hypothesis Hr : r' a = None.

  Let n := nth a shape 0%nat.
  Let half := update a (n / 2 + 1)%nat shape.
  Let shape1 := new_shape r' 0 half.
  Let v := along a (fft_forward n) (fun idx => RtoC (points idx)).
  Let r := fun k => if (k =? a)%nat then Some m else r' k.

  Lemma half_length : length half = length shape.
  Proof using. apply update_length. Qed.

  Lemma shape1_length : length shape1 = length shape.
  Proof using. unfold shape1. now rewrite new_shape_length, half_length. Qed.

  Lemma half_nth k : nth k half 0%nat = if (k =? a)%nat then (n / 2 + 1)%nat else nth k shape 0%nat.
  Proof using Ha. now apply update_nth. Qed.

  Lemma shape1_nth k : (k < length shape)%nat -> nth k shape1 0%nat = if (k =? a)%nat then (n / 2 + 1)%nat else match r' k with Some m => m | None => nth k shape 0%nat end.
  Proof using Ha Hr.
    intros Hk. unfold shape1. rewrite new_shape_nth by (now rewrite half_length). cbn [plus]. rewrite half_nth.
    destruct (Nat.eqb_spec k a) as [->|]; [now rewrite Hr|reflexivity].
  Qed.

  Lemma update_shape1 : update a m shape1 = new_shape r 0 shape.
  Proof using Ha Hr.
    apply (nth_ext _ _ 0%nat 0%nat); [rewrite update_length, shape1_length, new_shape_length; reflexivity|].
    intros k Hk. rewrite update_length, shape1_length in Hk. rewrite nth_update_shape by (now rewrite shape1_length).
    rewrite new_shape_nth by assumption. cbn [plus]. unfold r. destruct (Nat.eqb_spec k a) as [->|Hne]; [reflexivity|].
    rewrite shape1_nth by assumption. destruct (Nat.eqb_spec k a); [contradiction|reflexivity].
  Qed.

  Lemma v_matrices w : in_shape w half -> v w = isum shape (fun x => RtoC (points x) * lprod (single (length shape) a (F_mat n)) w x).
  Proof using Ha.
    intros Hw. destruct (proj1 (in_shape_nth _ _) Hw) as [L K]. rewrite half_length in L, K.
    unfold v, along. rewrite fft_mat. fold n. apply (single_apply shape w a (F_mat n) (fun idx => RtoC (points idx))); try assumption.
    intros k Hk Hne. specialize (K k Hk). rewrite half_nth in K. destruct (Nat.eqb_spec k a); [contradiction|assumption].
  Qed.

  Lemma real_core (G : list nat -> C) :
    (forall z, in_shape z shape1 -> G z = isum half (fun w => v w * axes_product (keep r' resample) 0 half z w)) ->
    forall y, in_shape y (update a m shape1) ->
      along a (irfft_forward (n / 2 + 1) m) G y = fst (isum shape (fun x => RtoC (points x) * axes_product (keep_real a r) 0 shape y x)).
  Proof using Ha Hr.
    intros HG y Hy. pose proof half_length as HL. pose proof shape1_length as L1.
    destruct (proj1 (in_shape_nth _ _) Hy) as [Ly Ky]. rewrite update_length, L1 in Ly. rewrite update_length, L1 in Ky.
    unfold along. rewrite irfft_mat. f_equal.
    set (Ks := map (fun j => keep r' resample (0 + j)%nat (nth j half 0%nat)) (seq 0 (length half))).
    assert (LK : length Ks = length shape) by (unfold Ks; now rewrite map_length, seq_length).
    assert (NK : forall k, (k < length shape)%nat -> nth k Ks cdelta = keep r' resample k (nth k half 0%nat)).
    { intros k Hk. unfold Ks. set (f := fun j => keep r' resample (0 + j)%nat (nth j half 0%nat)).
      rewrite (nth_indep _ cdelta (f 0%nat)) by (rewrite map_length, seq_length; lia). rewrite map_nth, seq_nth by lia. reflexivity. }
    assert (E1 : nth a shape1 0%nat = (n / 2 + 1)%nat) by (rewrite shape1_nth by assumption; now rewrite Nat.eqb_refl).
    rewrite <- E1.
    rewrite (single_apply shape1 y a (W_mat m) G); [|now rewrite L1|now rewrite L1|].
    2:{ intros k Hk Hne. rewrite L1 in Hk. specialize (Ky k Hk). rewrite nth_update_shape in Ky by (now rewrite L1). destruct (Nat.eqb_spec k a); [contradiction|assumption]. }
    rewrite (isum_ext shape1 _ (fun z => isum shape (fun x => RtoC (points x) * lprod (lcomp half Ks (single (length shape) a (F_mat n))) z x) * lprod (single (length shape1) a (W_mat m)) y z)).
    2:{ intros z Hz. f_equal. rewrite HG by assumption.
        rewrite <- (lcomp_apply half shape Ks (single (length shape) a (F_mat n)) z) by (rewrite ?single_length, ?half_length; try assumption; try reflexivity; rewrite (Forall2_length Hz); exact L1).
        apply isum_ext. intros w Hw. rewrite v_matrices by assumption. f_equal.
        rewrite axes_product_lprod; [reflexivity|rewrite (Forall2_length Hz), HL; exact L1|exact (Forall2_length Hw)]. }
    assert (LC : length (lcomp half Ks (single (length shape) a (F_mat n))) = length shape) by (rewrite lcomp_length; rewrite ?single_length, ?half_length; try assumption; reflexivity).
    rewrite lcomp_apply; [|now rewrite single_length|rewrite LC; symmetry; exact L1|symmetry; exact L1|rewrite Ly; symmetry; exact L1].
    apply isum_ext. intros x Hx. f_equal.
    apply (lprod_product _ _ shape (update a m shape1)); try assumption; [rewrite lcomp_length; [exact L1|now rewrite single_length|rewrite LC; symmetry; exact L1]|now rewrite update_length|].
    intros k i j Hk Hi Hj. rewrite (lcomp_nth shape1 (single (length shape1) a (W_mat m)) (lcomp half Ks (single (length shape) a (F_mat n))) k); [|now rewrite single_length|rewrite LC; symmetry; exact L1|rewrite L1; exact Hk]. rewrite single_nth by (rewrite L1; exact Hk).
    rewrite (lcomp_nth half Ks (single (length shape) a (F_mat n)) k); [|rewrite LK; symmetry; exact HL|rewrite single_length; symmetry; exact HL|rewrite HL; exact Hk]. rewrite single_nth, NK by assumption.
    rewrite shape1_nth by assumption. rewrite nth_update_shape in Hi by (now rewrite L1). unfold keep, keep_real, r. rewrite half_nth.
    destruct (Nat.eqb_spec k a) as [->|Hne].
    - rewrite Hr. fold n. rewrite <- real_kernel. apply csum_ext. intros t Ht. rewrite csum_delta_l by assumption. reflexivity.
    - rewrite shape1_nth in Hi by assumption. destruct (Nat.eqb_spec k a); [contradiction|].
      destruct (r' k) as [m'|] eqn:Rk.
      + rewrite csum_delta_l by assumption. rewrite csum_delta_r' by assumption. reflexivity.
      + rewrite csum_delta_l by assumption. rewrite csum_delta_r' by assumption. reflexivity.
  Qed.
End Core.

Lemma keep_real_ext a r r' : (forall k, r k = r' k) -> forall j n i i', keep_real a r j n i i' = keep_real a r' j n i i'.
Proof. intros H j n i i'. unfold keep_real. now rewrite H. Qed.

Lemma last_split (l : list nat) : l <> [] -> l = removelast l ++ [last l 0%nat].
Proof. apply app_removelast_last. Qed.

Lemma NoDup_snoc (l : list nat) a : NoDup (l ++ [a]) -> NoDup l /\ ~ In a l.
Proof.
  intros H. apply NoDup_remove in H. rewrite app_nil_r in H. exact H.
Qed.

Lemma removelast_length (l : list nat) : length (removelast l) = (length l - 1)%nat.
Proof. destruct l as [|x l] using rev_ind; [reflexivity|]. rewrite removelast_last, app_length. cbn. lia. Qed.

Theorem rfftn_interpolation shape points s axes ax resize :
  norm_axes (length shape) (default_axes (length s) axes) = Some ax -> axes_ok shape ax s = true -> length ax = length s -> ax <> [] ->
  Forall (fun a => (a < length shape)%nat) ax -> resizes ax s resize ->
  exists shape' out, interpolate_points_rfftn shape points s axes = Some (shape', out) /\ resized_shape resize shape shape' /\
    forall y, in_shape y shape' -> out y = fst (isum shape (fun x => RtoC (points x) * axes_product (keep_real (last ax 0%nat) resize) 0 shape y x)).
Proof.
  intros HN HO HL HE HF HR. unfold interpolate_points_rfftn. rewrite HN, HO, HL, Nat.eqb_refl.
  replace (length s =? 0)%nat with false by (symmetry; apply Nat.eqb_neq; rewrite <- HL; destruct ax; [contradiction|discriminate]). cbn [andb negb].
  unfold axes_ok in HO. apply andb_prop in HO. destruct HO as [HO HS]. apply andb_prop in HO. destruct HO as [HD _]. apply distinct_spec in HD.
  set (a := last ax 0%nat). set (others := removelast ax). set (m := last s 0%nat). set (s' := removelast s).
  assert (Eax : ax = others ++ [a]) by (now apply last_split).
  assert (HsE : s <> []) by (intros E; subst s; destruct ax; [contradiction|discriminate]).
  assert (Es : s = s' ++ [m]) by (now apply last_split).
  assert (LO : length others = length s') by (unfold others, s'; rewrite !removelast_length; congruence).
  destruct (NoDup_snoc others a) as [ND Na]; [now rewrite <- Eax|].
  rewrite Eax in HF. apply Forall_app in HF. destruct HF as [HF Ha]. inversion Ha; subst x l. clear H2. rename H1 into Ha'.
  assert (HS' : forallb (fun m => (0 <? m)%nat) s' = true) by (rewrite Es, forallb_app in HS; apply andb_prop in HS; tauto).
  set (half := update a (nth a shape 0 / 2 + 1)%nat shape).
  set (v := along a (fft_forward (nth a shape 0%nat)) (fun idx => RtoC (points idx))).
  assert (HF' : Forall (fun a0 => (a0 < length half)%nat) others) by (unfold half; rewrite update_length; exact HF).
  destruct (interpolation_core half v s' others LO ND HF' HS') as [p [E H]]. rewrite E.
  set (r' := axis_target others s') in *.
  assert (Hr : r' a = None).
  { destruct (r' a) eqn:R; [|reflexivity]. exfalso. apply Na. apply (axis_target_in others s' a LO). eexists. exact R. }
  assert (U : forall k, resize k = (if (k =? a)%nat then Some m else r' k)).
  { destruct HR as [HR1 HR2]. pose proof (axis_target_resizes others s' ND LO) as [HT1 HT2]. fold r' in HT1, HT2.
    assert (A : resize a = Some m).
    { specialize (HR1 (length others)). rewrite Eax, Es in HR1. rewrite (app_nth2 others), (app_nth2 s'), <- LO, Nat.sub_diag in HR1 by lia. cbn [nth] in HR1.
      apply HR1. rewrite app_length. cbn. lia. }
    intros k. destruct (Nat.eqb_spec k a) as [->|Hne]; [exact A|].
    destruct (in_dec Nat.eq_dec k others) as [Hin|Hno].
    - destruct (In_nth _ _ 0%nat Hin) as [j [Hj Ej]]. rewrite <- Ej. rewrite HT1 by assumption.
      specialize (HR1 j). rewrite Eax, Es, app_nth1, app_nth1 in HR1 by lia. apply HR1. rewrite app_length. lia.
    - rewrite HT2 by assumption. apply HR2. rewrite Eax. intros Hin. apply in_app_or in Hin. destruct Hin as [?|[?|[]]]; [contradiction|congruence]. }
  pose proof (update_shape1 shape a m r' Ha' Hr) as US. fold half in US.
  assert (E1 : nth a (new_shape r' 0 half) 0%nat = (nth a shape 0 / 2 + 1)%nat) by (unfold half; rewrite (shape1_nth shape a r' Ha' Hr) by assumption; now rewrite Nat.eqb_refl).
  eexists _, _. split; [reflexivity|]. split.
  - rewrite US. apply resized_shape_new. symmetry. apply new_shape_ext. exact U.
  - intros y Hy. rewrite E1. rewrite (real_core shape points a m r' Ha' Hr _ H y Hy). f_equal. apply isum_ext. intros x Hx. f_equal.
    apply axes_product_ext. apply keep_real_ext. intros k. symmetry. apply U.
Qed.
