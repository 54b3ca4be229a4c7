(** Complex Fourier interpolation as a product of one-axis kernels. *)
From Coq Require Import Reals List ZArith Arith Bool Lia Lra.
From Verif Require Import ZLib Csum DFT NumPy Spec SpecBasis IndexSum InterpProofs InterpProofs2 BasisProofs Interp Fourier SpecFourier FourierProofs.
Import ListNotations.
Local Open Scope R_scope.
Local Open Scope C_scope.

Lemma Forall2_length {A B} (P : A -> B -> Prop) (l : list A) (l' : list B) : Forall2 P l l' -> length l = length l'.
Proof. induction 1; cbn; congruence. Qed.
Arguments Forall2_length {A B P l l'} _.

(** ** Padding as matrices *)

Definition pad_mat (t : option nat) (n : nat) : mat :=
  match t with Some m => fun i j => if Z.eqb (freq m i) (freq n j) then 1 else 0 | None => cdelta end.

Fixpoint pad_mats (r : nat -> option nat) (k : nat) (shape : list nat) : list mat :=
  match shape with [] => [] | n :: shape => pad_mat (r k) n :: pad_mats r (S k) shape end.

Lemma pad_mats_length r : forall shape k, length (pad_mats r k shape) = length shape.
Proof. induction shape as [|n shape IH]; intros k; cbn; auto. Qed.

Lemma pad_mats_nth r : forall shape k j, (j < length shape)%nat -> nth j (pad_mats r k shape) cdelta = pad_mat (r (k + j)%nat) (nth j shape 0%nat).
Proof.
  induction shape as [|n shape IH]; intros k [|j] Hj; cbn in *; try lia; [now rewrite Nat.add_0_r|]. rewrite IH by lia. f_equal. f_equal. lia.
Qed.

Lemma pad_axis t n i : (i < new_len t n)%nat ->
  (exists j, (j < n)%nat /\ same_slot t n j i /\ forall j', (j' < n)%nat -> pad_mat t n i j' = cdelta j j') \/
  ((forall j, (j < n)%nat -> ~ same_slot t n j i) /\ forall j, (j < n)%nat -> pad_mat t n i j = 0).
Proof.
  intros Hi. destruct t as [m|]; cbn in *; [|left; exists i; repeat split; try assumption; reflexivity].
  assert (Fi := freq_is_freq m i Hi).
  assert (D : (exists j, (j < n)%nat /\ freq m i = freq n j) \/ (forall j, (j < n)%nat -> freq m i <> freq n j)).
  { clear. induction n as [|n' IH] in |- *; [right; intros; lia|].
    assert (forall n N, (exists j, (j < n)%nat /\ freq m i = freq N j) \/ (forall j, (j < n)%nat -> freq m i <> freq N j)) as G.
    { clear. induction n as [|n IH]; intros N; [right; intros; lia|]. destruct (IH N) as [[j [Hj E]]|Hno]; [left; exists j; split; [lia|assumption]|].
      destruct (Z.eq_dec (freq m i) (freq N n)) as [E|E]; [left; exists n; split; [lia|assumption]|].
      right. intros j Hj. destruct (Nat.eq_dec j n) as [->|]; [assumption|]. apply Hno. lia. }
    apply G. }
  destruct D as [[j [Hj E]]|Hno]; [left; exists j|right].
  - split; [assumption|]. split; [exists (freq n j); split; [now apply freq_is_freq|now rewrite <- E]|].
    intros j' Hj'. unfold cdelta. destruct (Z.eqb_spec (freq m i) (freq n j')) as [E'|E']; destruct (Nat.eqb_spec j j') as [->|Hn]; try reflexivity; [|congruence].
    exfalso. apply Hn. apply (is_freq_inj n j j' (freq n j)); try assumption; [now apply freq_is_freq|]. rewrite <- E, E'. now apply freq_is_freq.
  - split.
    + intros j Hj [f [A B]]. apply (Hno j Hj). rewrite <- (is_freq_unique _ _ _ _ B Fi). symmetry. exact (is_freq_unique _ _ _ _ (freq_is_freq n j Hj) A).
    + intros j Hj. destruct (Z.eqb_spec (freq m i) (freq n j)) as [E|E]; [|reflexivity]. exfalso. exact (Hno j Hj E).
Qed.

Lemma pad_sum r : forall shape k new (v : list nat -> C), in_shape new (new_shape r k shape) ->
  (exists old, in_shape old shape /\ same_slots r k shape old new /\ isum shape (fun x => v x * lprod (pad_mats r k shape) new x) = v old) \/
  ((forall old, in_shape old shape -> ~ same_slots r k shape old new) /\ isum shape (fun x => v x * lprod (pad_mats r k shape) new x) = 0).
Proof.
  induction shape as [|n shape IH]; intros k new v Hn; cbn [new_shape pad_mats isum] in *.
  - left. exists []. inversion Hn; subst. split; [constructor|]. split; [exact I|]. cbn. ring.
  - destruct new as [|i new]; [inversion Hn|]. apply in_shape_cons in Hn. destruct Hn as [Hi Hn].
    assert (E : forall j, (j < n)%nat -> isum shape (fun idx => v (j :: idx) * lprod (pad_mat (r k) n :: pad_mats r (S k) shape) (i :: new) (j :: idx)) =
                pad_mat (r k) n i j * isum shape (fun idx => v (j :: idx) * lprod (pad_mats r (S k) shape) new idx)).
    { intros j Hj. rewrite <- isum_scal_l. apply isum_ext. intros x Hx. cbn [lprod]. ring. }
    rewrite (csum_ext _ _ n E).
    destruct (pad_axis (r k) n i Hi) as [[j [Hj [Sj Ej]]]|[No Ez]].
    + rewrite (csum_ext _ (fun j' => cdelta j j' * isum shape (fun idx => v (j' :: idx) * lprod (pad_mats r (S k) shape) new idx)) n)
        by (intros j' Hj'; now rewrite Ej).
      rewrite csum_delta_l by assumption. destruct (IH (S k) new (fun x => v (j :: x)) Hn) as [[old [A [B F]]]|[A F]].
      * left. exists (j :: old). split; [now constructor|]. split; [now split|exact F].
      * right. split; [|exact F]. intros [|j' old] Ho; [inversion Ho|]. apply in_shape_cons in Ho. destruct Ho as [Hj' Ho]. intros [Sj' So]. exact (A old Ho So).
    + right. split.
      * intros [|j' old] Ho; [inversion Ho|]. apply in_shape_cons in Ho. destruct Ho as [Hj' Ho]. intros [Sj' So]. exact (No j' Hj' Sj').
      * apply csum_zero_ext. intros j Hj. rewrite Ez by assumption. ring.
Qed.

Lemma pad_matrices shape arr s axes : length axes = length s -> Forall (fun a => (a < length shape)%nat) axes ->
  exists p, pad_ft_points (RtoC 0) shape arr s axes = Some (new_shape (axis_target axes s) 0 shape, p) /\
    forall y, in_shape y (new_shape (axis_target axes s) 0 shape) ->
      p y = isum shape (fun x => arr x * lprod (pad_mats (axis_target axes s) 0 shape) y x).
Proof.
  intros HL HF. destruct (pad_ft_points_spec (RtoC 0) shape arr s axes HL HF) as [p [E H]]. exists p. split; [exact E|].
  intros y Hy. destruct (H y Hy) as [A B]. destruct (pad_sum (axis_target axes s) shape 0 y arr Hy) as [[old [P [Q R]]]|[P Q]].
  - rewrite R. now apply A.
  - rewrite Q. now apply B.
Qed.

(** ** One axis *)

Lemma position_omega n f x : omega n (f * Z.of_nat x) = cis (2 * PI * IZR f * position n x).
Proof. unfold omega, position. f_equal. rewrite mult_IZR, <- INR_IZR_INZ. unfold Rdiv. ring. Qed.

Lemma fits_slot m f : (0 < m)%nat -> fits m f = true -> (slot m f < m)%nat /\ freq m (slot m f) = f.
Proof.
  intros Hm H. unfold fits in H. apply andb_prop in H. destruct H as [A B]. apply Z.leb_le in A, B.
  destruct (is_freq_slot m f ltac:(lia) Hm) as [i [Hi F]].
  assert (E : freq m i = f) by exact (is_freq_unique _ _ _ _ (freq_is_freq m i Hi) F).
  assert (E2 : slot m f = i).
  { unfold slot. destruct F as [Fc _]. rewrite <- E. pose proof (freq_cong m i Hi) as G. destruct G as [q G].
    replace (freq m i) with (Z.of_nat i + q * Z.of_nat m)%Z by lia. rewrite Z.mod_add by lia. rewrite Z.mod_small by lia. apply Nat2Z.id. }
  rewrite E2. split; assumption.
Qed.

Lemma freq_fits m i : (i < m)%nat -> fits m (freq m i) = true.
Proof. intros Hi. destruct (freq_is_freq m i Hi) as [_ [A B]]. unfold fits. apply andb_true_intro. split; now apply Z.leb_le. Qed.

Lemma pad_wave n m y k : (0 < m)%nat -> (k < n)%nat ->
  csum (fun t => omega m (Z.of_nat t * Z.of_nat y) * pad_mat (Some m) n t k) m =
  if fits m (freq n k) then omega m (freq n k * Z.of_nat y) else 0.
Proof.
  intros Hm Hk. cbn [pad_mat]. destruct (fits m (freq n k)) eqn:F.
  - destruct (fits_slot m _ Hm F) as [Hs Es]. rewrite (csum_single _ m (slot m (freq n k))); [|assumption|].
    + rewrite Es, Z.eqb_refl. rewrite Cmult_1_r. apply omega_cong; [assumption|].
      pose proof (freq_cong m _ Hs) as [q G]. rewrite Es in G. exists (- q * Z.of_nat y)%Z. nia.
    + intros t Ht Hne. destruct (Z.eqb_spec (freq m t) (freq n k)) as [E|E]; [|ring]. exfalso. apply Hne.
      apply (is_freq_inj m t (slot m (freq n k)) (freq n k)); try assumption; [rewrite <- E; now apply freq_is_freq|].
      rewrite <- Es at 2. now apply freq_is_freq.
  - apply csum_zero_ext. intros t Ht. destruct (Z.eqb_spec (freq m t) (freq n k)) as [E|E]; [|ring].
    exfalso. pose proof (freq_fits m t Ht) as G. rewrite E, F in G. discriminate.
Qed.

Lemma old_wave n k x : (k < n)%nat -> omega n (- (Z.of_nat k * Z.of_nat x)) = cis (- (2 * PI * IZR (freq n k) * position n x)).
Proof.
  intros Hk. rewrite <- omega_conj. rewrite <- cis_conj, <- position_omega. f_equal. apply omega_cong; [lia|].
  pose proof (freq_cong n k Hk) as [q G]. exists (- q * Z.of_nat x)%Z. nia.
Qed.

Lemma resample_composition n m y x : (0 < m)%nat ->
  csum (fun t => omega m (Z.of_nat t * Z.of_nat y) *
     csum (fun k => pad_mat (Some m) n t k * (RtoC (/ INR n) * omega n (- (Z.of_nat k * Z.of_nat x)))) n) m = resample n m y x.
Proof.
  intros Hm. unfold resample.
  transitivity (csum (fun k => csum (fun t => omega m (Z.of_nat t * Z.of_nat y) * pad_mat (Some m) n t k) m * (RtoC (/ INR n) * omega n (- (Z.of_nat k * Z.of_nat x)))) n).
  - rewrite (csum_ext _ (fun t => csum (fun k => omega m (Z.of_nat t * Z.of_nat y) * pad_mat (Some m) n t k * (RtoC (/ INR n) * omega n (- (Z.of_nat k * Z.of_nat x)))) n)) by
      (intros t Ht; rewrite <- csum_scal_l; apply csum_ext; intros; ring).
    rewrite csum_swap. apply csum_ext. intros k Hk. apply csum_scal_r.
  - rewrite <- csum_scal_l. apply csum_ext. intros k Hk. rewrite pad_wave, old_wave by assumption. destruct (fits m (freq n k)); [|ring].
    rewrite position_omega. rewrite (Rmult_minus_distr_l (2 * PI * IZR (freq n k))). unfold Rminus. rewrite cis_plus. ring.
Qed.

(** ** Assembly *)

Lemma norm_axes_default ndim d : (d <= ndim)%nat -> norm_axes ndim (default_axes d None) = Some (map (fun j => (ndim - 1 - j)%nat) (seq 0 d)).
Proof.
  intros H. cbn [default_axes].
  assert (G : forall l, Forall (fun j => (j < ndim)%nat) l -> norm_axes ndim (map (fun j => (-1 - Z.of_nat j)%Z) l) = Some (map (fun j => (ndim - 1 - j)%nat) l)).
  { induction l as [|j l IH]; intros F; [reflexivity|]. inversion F; subst. cbn [map norm_axes]. rewrite IH by assumption. unfold norm_axis.
    rewrite (proj2 (Z.leb_le (- Z.of_nat ndim) (-1 - Z.of_nat j))) by lia. rewrite (proj2 (Z.ltb_lt _ (Z.of_nat ndim))) by lia. cbn [andb].
    rewrite (proj2 (Z.ltb_lt _ 0)) by lia. do 2 f_equal. lia. }
  apply G. apply Forall_forall. intros j Hj. apply in_seq in Hj. lia.
Qed.

Lemma axes_product_lprod (K : nat -> nat -> nat -> nat -> C) : forall shape k y x, length y = length shape -> length x = length shape ->
  axes_product K k shape y x = lprod (map (fun j => K (k + j)%nat (nth j shape 0%nat)) (seq 0 (length shape))) y x.
Proof.
  induction shape as [|n shape IH]; intros k [|i y] [|j x] HY HX; cbn in HY, HX; try lia; [reflexivity|].
  cbn [axes_product length seq map lprod nth]. rewrite Nat.add_0_r. f_equal. rewrite IH by lia. f_equal.
  rewrite <- seq_shift, map_map. apply map_ext. intros a. cbn [nth]. f_equal. lia.
Qed.

Lemma lprod_product (K : nat -> nat -> nat -> nat -> C) Ks shape shape' y x : length Ks = length shape -> in_shape y shape' -> in_shape x shape -> length shape' = length shape ->
  (forall k i j, (k < length shape)%nat -> (i < nth k shape' 0)%nat -> (j < nth k shape 0)%nat -> nth k Ks cdelta i j = K k (nth k shape 0%nat) i j) ->
  lprod Ks y x = axes_product K 0 shape y x.
Proof.
  intros HL Hy Hx HS H. pose proof (Forall2_length Hy). pose proof (Forall2_length Hx). rewrite axes_product_lprod by congruence.
  apply (lprod_ext shape shape'); try assumption; [now rewrite map_length, seq_length|].
  intros k i j Hk Hi Hj. rewrite H by assumption.
  set (f := fun j0 : nat => K (0 + j0)%nat (nth j0 shape 0%nat)). rewrite (nth_indep _ cdelta (f 0%nat)) by (now rewrite map_length, seq_length).
  rewrite map_nth, seq_nth by assumption. reflexivity.
Qed.

Lemma axis_target_in axes s k : length axes = length s -> (exists m, axis_target axes s k = Some m) <-> In k axes.
Proof.
  revert s. induction axes as [|a axes IH]; intros [|m s] HL; cbn in *; try lia.
  - split; [intros [m E]; discriminate|tauto].
  - destruct (axis_target axes s k) as [m'|] eqn:E.
    + split; [intros _; right; apply (IH s); [lia|exists m'; exact E]|intros _; now exists m'].
    + destruct (Nat.eqb_spec a k) as [->|Hne]; [split; [now left|now exists m]|]. split; [intros [? ?]; discriminate|].
      intros [?|Hin]; [congruence|]. apply (IH s) in Hin; [|lia]. destruct Hin as [m' E']. congruence.
Qed.

Lemma axis_target_positive axes s k m : forallb (fun m => (0 <? m)%nat) s = true -> axis_target axes s k = Some m -> (0 < m)%nat.
Proof.
  revert s. induction axes as [|a axes IH]; intros [|m' s] Hs E; cbn [axis_target forallb] in *; try discriminate.
  apply andb_prop in Hs. destruct Hs as [Hm Hs]. apply Nat.ltb_lt in Hm. destruct (axis_target axes s k) as [m0|] eqn:E0.
  - injection E as <-. exact (IH s Hs E0).
  - destruct (a =? k)%nat; [now injection E as <-|discriminate].
Qed.

Definition F_mat (n : nat) : mat := fun k x => RtoC (/ INR n) * omega n (- (Z.of_nat k * Z.of_nat x)).
Definition I_mat (m : nat) : mat := fun y k => omega m (Z.of_nat k * Z.of_nat y).

Lemma fft_mat n v k : fft_forward n v k = csum (fun x => v x * F_mat n k x) n.
Proof. unfold fft_forward, F_mat. rewrite <- csum_scal_l. apply csum_ext. intros; ring. Qed.

Lemma fftn_matrices shape axes v y : NoDup axes -> Forall (fun a => (a < length shape)%nat) axes -> in_shape y shape ->
  fftn shape axes v y = isum shape (fun x => v x * lprod (on_axes (length shape) axes (fun k => F_mat (nth k shape 0%nat))) y x).
Proof. intros. apply (fold_along (fun a => fft_forward (nth a shape 0%nat))); try assumption. intros. apply fft_mat. Qed.

Lemma ifftn_matrices shape axes v y : NoDup axes -> Forall (fun a => (a < length shape)%nat) axes -> in_shape y shape ->
  ifftn shape axes v y = isum shape (fun x => v x * lprod (on_axes (length shape) axes (fun k => I_mat (nth k shape 0%nat))) y x).
Proof. intros. apply (fold_along (fun a => ifft_forward (nth a shape 0%nat))); try assumption. reflexivity. Qed.

(** fftn, padding and ifftn together (shared by the complex and the real interpolation). *)
Lemma interpolation_core shape v s axes : length axes = length s -> NoDup axes -> Forall (fun a => (a < length shape)%nat) axes ->
  forallb (fun m => (0 <? m)%nat) s = true ->
  let r := axis_target axes s in
  exists p, pad_ft_points (RtoC 0) shape (fftn shape axes v) s axes = Some (new_shape r 0 shape, p) /\
    forall y, in_shape y (new_shape r 0 shape) ->
      ifftn (new_shape r 0 shape) axes p y = isum shape (fun x => v x * axes_product (keep r resample) 0 shape y x).
Proof.
  intros HL HD HF HS r. destruct (pad_matrices shape (fftn shape axes v) s axes HL HF) as [p [E H]]. exists p. split; [exact E|].
  intros y Hy. fold r in H. set (shape' := new_shape r 0 shape) in *.
  assert (L' : length shape' = length shape) by apply new_shape_length.
  rewrite ifftn_matrices by (try assumption; now rewrite L').
  rewrite (isum_ext shape' _ (fun z => isum shape (fun x => isum shape (fun w => v w * lprod (on_axes (length shape) axes (fun k => F_mat (nth k shape 0%nat))) x w) * lprod (pad_mats r 0 shape) z x) *
      lprod (on_axes (length shape') axes (fun k => I_mat (nth k shape' 0%nat))) y z)).
  2:{ intros z Hz. rewrite H by assumption. f_equal. apply isum_ext. intros x Hx. f_equal. now apply fftn_matrices. }
  rewrite (isum_ext shape' _ (fun z => isum shape (fun x => v x * lprod (lcomp shape (pad_mats r 0 shape) (on_axes (length shape) axes (fun k => F_mat (nth k shape 0%nat)))) z x) *
      lprod (on_axes (length shape') axes (fun k => I_mat (nth k shape' 0%nat))) y z)).
  2:{ intros z Hz. f_equal. apply lcomp_apply; rewrite ?pad_mats_length, ?on_axes_length; try reflexivity. rewrite (Forall2_length Hz). exact L'. }
  rewrite lcomp_apply; [|rewrite on_axes_length; reflexivity|rewrite lcomp_length; [now rewrite L'|apply pad_mats_length|apply on_axes_length]|now rewrite L'|exact (Forall2_length Hy)].
  apply isum_ext. intros x Hx. f_equal.
  apply (lprod_product _ _ shape shape'); try assumption.
  { rewrite lcomp_length; [assumption|apply on_axes_length|]. rewrite lcomp_length; [now rewrite L'|apply pad_mats_length|apply on_axes_length]. }
  intros k i j Hk Hi Hj.
  rewrite lcomp_nth; [|apply on_axes_length|rewrite lcomp_length; [now rewrite L'|apply pad_mats_length|apply on_axes_length]|lia].
  rewrite on_axes_nth by lia. rewrite lcomp_nth by (rewrite ?pad_mats_length, ?on_axes_length; try assumption; reflexivity).
  rewrite pad_mats_nth, on_axes_nth by assumption. cbn [plus]. unfold keep.
  assert (Ek : nth k shape' 0%nat = match r k with Some m => m | None => nth k shape 0%nat end) by (unfold shape'; rewrite new_shape_nth by assumption; reflexivity).
  destruct (r k) as [m|] eqn:R.
  - assert (Hin : In k axes) by (apply (axis_target_in axes s k HL); exists m; exact R).
    rewrite (proj2 (existsb_in k axes) Hin). rewrite Ek in *. apply resample_composition. exact (axis_target_positive _ _ _ _ HS R).
  - assert (Hin : ~ In k axes) by (intros Hin; apply (axis_target_in axes s k HL) in Hin; destruct Hin as [m E']; unfold r in R; rewrite R in E'; discriminate).
    rewrite (proj2 (existsb_notin k axes) Hin). rewrite Ek in *. cbn [pad_mat].
    rewrite csum_delta_l by assumption. rewrite csum_delta_l by assumption. reflexivity.
Qed.

Lemma axes_product_ext K K' : forall shape k y x, (forall j n i i', K j n i i' = K' j n i i') -> axes_product K k shape y x = axes_product K' k shape y x.
Proof. intros shape k y x H. revert k y x. induction shape as [|n shape IH]; intros k [|i y] [|j x]; cbn; try reflexivity. now rewrite H, IH. Qed.

Lemma keep_ext r r' K : (forall k, r k = r' k) -> forall j n i i', keep r K j n i i' = keep r' K j n i i'.
Proof. intros H j n i i'. unfold keep. now rewrite H. Qed.

Theorem fftn_interpolation shape points s axes ax resize :
  norm_axes (length shape) (default_axes (length s) axes) = Some ax -> axes_ok shape ax s = true -> length ax = length s ->
  Forall (fun a => (a < length shape)%nat) ax -> resizes ax s resize ->
  exists shape' out, interpolate_points_fftn shape points s axes = Some (shape', out) /\ resized_shape resize shape shape' /\
    forall y, in_shape y shape' -> out y = isum shape (fun x => points x * axes_product (keep resize resample) 0 shape y x).
Proof.
  intros HN HO HL HF HR. unfold interpolate_points_fftn. rewrite HN, HO. unfold axes_ok in HO. apply andb_prop in HO. destruct HO as [HO HS].
  apply andb_prop in HO. destruct HO as [HD _]. apply distinct_spec in HD.
  destruct (interpolation_core shape points s ax HL HD HF HS) as [p [E H]]. rewrite E.
  assert (U := resizes_unique _ _ _ _ HR (axis_target_resizes ax s HD HL)).
  eexists _, _. split; [reflexivity|]. split.
  - apply resized_shape_new. symmetry. apply new_shape_ext. exact U.
  - intros y Hy. rewrite H by assumption. apply isum_ext. intros x Hx. f_equal. apply axes_product_ext. apply keep_ext. intros k. symmetry. apply U.
Qed.
