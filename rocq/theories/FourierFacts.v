(** Facts about Fourier interpolation used by the properties C74 and C75. *)
From Coq Require Import Reals List ZArith Arith Bool Lia Lra.
From Verif Require Import ZLib Csum DFT NumPy Spec SpecBasis IndexSum IndexProofs InterpProofs InterpProofs2 BasisProofs Interp Fourier SpecFourier
  FourierProofs FourierProofs2 FourierProofs3 FourierProofs4.
Import ListNotations.
Local Open Scope R_scope.
Local Open Scope C_scope.

(** ** When a call is accepted *)

Definition accepted (shape s : list nat) (axes : option (list Z)) (ax : list nat) : Prop :=
  norm_axes (length shape) (default_axes (length s) axes) = Some ax /\ NoDup ax /\ length ax = length s /\
  Forall (fun a => (0 < nth a shape 0)%nat) ax /\ Forall (fun m => (0 < m)%nat) s.

Lemma names_norm ndim z a : names_axis ndim z a -> norm_axis ndim z = Some a.
Proof.
  unfold norm_axis. intros [[Hz ->]|[Hz Ha]].
  - rewrite (proj2 (Z.leb_le _ _)), (proj2 (Z.ltb_lt z (Z.of_nat ndim))), (proj2 (Z.ltb_ge z 0)) by lia. reflexivity.
  - rewrite (proj2 (Z.leb_le _ _)), (proj2 (Z.ltb_lt z (Z.of_nat ndim))), (proj2 (Z.ltb_lt z 0)) by lia. cbn [andb]. f_equal. lia.
Qed.

Lemma valid_accepted shape s zs ax : valid_axes shape s zs ax -> accepted shape s (Some zs) ax.
Proof.
  intros [H [H1 [H2 [H3 H4]]]]. repeat split; try assumption. cbn [default_axes]. clear - H. induction H as [|z a zs ax Hz H IH]; [reflexivity|].
  cbn [norm_axes]. now rewrite IH, (names_norm _ _ _ Hz).
Qed.

Lemma norm_axes_range ndim : forall l ax, norm_axes ndim l = Some ax -> Forall (fun a => (a < ndim)%nat) ax.
Proof.
  induction l as [|z l IH]; intros ax H; cbn in H; [injection H as <-; constructor|].
  destruct (norm_axis ndim z) as [a|] eqn:E; [|discriminate]. destruct (norm_axes ndim l) as [l'|]; [|discriminate]. injection H as <-.
  constructor; [|now apply IH]. unfold norm_axis in E. destruct ((- Z.of_nat ndim <=? z) && (z <? Z.of_nat ndim))%Z eqn:B; [|discriminate].
  apply andb_prop in B. destruct B as [B1 B2]. apply Z.leb_le in B1. apply Z.ltb_lt in B2. injection E as <-. destruct (Z.ltb_spec z 0); lia.
Qed.

Lemma axes_ok_intro shape ax s : NoDup ax -> Forall (fun a => (0 < nth a shape 0)%nat) ax -> Forall (fun m => (0 < m)%nat) s -> axes_ok shape ax s = true.
Proof.
  intros A B D. unfold axes_ok. rewrite (proj2 (distinct_spec ax) A). cbn [andb]. apply andb_true_intro. split; apply forallb_forall; intros x Hx.
  - apply Nat.ltb_lt. rewrite Forall_forall in B. now apply B.
  - apply Nat.ltb_lt. rewrite Forall_forall in D. now apply D.
Qed.

(** ** Complex interpolation *)

Lemma fftn_spec shape points s axes ax resize : accepted shape s axes ax -> resizes ax s resize ->
  exists shape' out, interpolate_points_fftn shape points s axes = Some (shape', out) /\ resized_shape resize shape shape' /\
    forall y, in_shape y shape' -> out y = isum shape (fun x => points x * axes_product (keep resize resample) 0 shape y x).
Proof.
  intros [HN [HD [HL [HP HS]]]] HR. apply (fftn_interpolation shape points s axes ax); try assumption; [now apply axes_ok_intro|exact (norm_axes_range _ _ _ HN)].
Qed.

Lemma fftn_through shape points s axes ax resize shape' out : accepted shape s axes ax -> resizes ax s resize -> not_shorter resize shape ->
  interpolate_points_fftn shape points s axes = Some (shape', out) ->
  forall y x, in_shape y shape' -> in_shape x shape -> same_point resize shape y x -> out y = points x.
Proof.
  intros HA HR HN E y x Hy Hx HP. destruct (fftn_spec shape points s axes ax resize HA HR) as [sh [o [E' [[Hl Hs] H]]]]. rewrite E in E'. injection E' as <- <-.
  rewrite H by assumption. apply kernel_through; try assumption. rewrite (Forall2_length Hy). exact Hl.
Qed.

Lemma index_product_ext g g' : forall idx k, (forall j, (j < length idx)%nat -> g (k + j)%nat (nth j idx 0%nat) = g' (k + j)%nat (nth j idx 0%nat)) ->
  index_product g k idx = index_product g' k idx.
Proof.
  induction idx as [|i idx IH]; intros k H; [reflexivity|]. cbn [index_product]. f_equal.
  - specialize (H 0%nat). cbn [nth] in H. rewrite Nat.add_0_r in H. apply H. cbn. lia.
  - apply IH. intros j Hj. specialize (H (S j)). cbn [nth] in H. rewrite <- plus_n_Sm in H. apply H. cbn. lia.
Qed.

Lemma resizes_positive ax s resize k m : resizes ax s resize -> length ax = length s -> Forall (fun m => (0 < m)%nat) s -> resize k = Some m -> (0 < m)%nat.
Proof.
  intros [R1 R2] HL HS E. destruct (in_dec Nat.eq_dec k ax) as [Hin|Hno]; [|rewrite (R2 k Hno) in E; discriminate].
  destruct (In_nth _ _ 0%nat Hin) as [j [Hj Ej]]. rewrite <- Ej, R1 in E by assumption. injection E as <-. rewrite Forall_forall in HS. apply HS. apply nth_In. lia.
Qed.

Lemma fftn_waves shape s axes ax resize (slots : nat -> nat) (e : nat -> nat -> C) : accepted shape s axes ax -> resizes ax s resize ->
  (forall k m, (k < length shape)%nat -> resize k = Some m -> (slots k < nth k shape 0)%nat) ->
  let f k := freq (nth k shape 0%nat) (slots k) in
  exists shape' out,
    interpolate_points_fftn shape
      (index_product (fun k i => match resize k with Some _ => cis (2 * PI * IZR (f k) * position (nth k shape 0%nat) i) | None => e k i end) 0) s axes = Some (shape', out) /\
    forall y, in_shape y shape' ->
      out y = index_product (fun k i => match resize k with Some m => if fits m (f k) then cis (2 * PI * IZR (f k) * position m i) else 0 | None => e k i end) 0 y.
Proof.
  intros HA HR HF f. set (g := fun k i => match resize k with Some _ => _ | None => _ end).
  destruct (fftn_spec shape (index_product g 0) s axes ax resize HA HR) as [shape' [out [E [[Hl Hs] H]]]].
  exists shape', out. split; [exact E|]. intros y Hy. rewrite H by assumption.
  destruct (proj1 (in_shape_nth _ _) Hy) as [Ly Ky]. apply product_sum; [congruence|]. intros j Hj. cbn [plus]. unfold g, keep.
  destruct HA as [_ [_ [HL [_ HS]]]]. destruct (resize j) as [m|] eqn:R.
  - unfold f. apply resample_wave; [exact (resizes_positive ax s resize j m HR HL HS R)|exact (HF j m Hj R)].
  - specialize (Ky j ltac:(lia)). rewrite (Hs j Hj), R in Ky. rewrite csum_delta_r by assumption. reflexivity.
Qed.

(** ** Real interpolation *)

Lemma rfftn_spec shape points s axes ax resize : accepted shape s axes ax -> ax <> [] -> resizes ax s resize ->
  exists shape' out, interpolate_points_rfftn shape points s axes = Some (shape', out) /\ resized_shape resize shape shape' /\
    forall y, in_shape y shape' -> out y = fst (isum shape (fun x => RtoC (points x) * axes_product (keep_real (last ax 0%nat) resize) 0 shape y x)).
Proof.
  intros [HN [HD [HL [HP HS]]]] HE HR. apply (rfftn_interpolation shape points s axes ax); try assumption; [now apply axes_ok_intro|exact (norm_axes_range _ _ _ HN)].
Qed.

Lemma fst_line (p : nat -> R) (z : nat -> C) n : fst (csum (fun j => RtoC (p j) * z j) n) = rsum (fun j => (p j * fst (z j))%R) n.
Proof. rewrite fst_csum. apply rsum_ext. intros j Hj. apply fst_RtoC_mult. Qed.

Lemma real_line resize shape (points : list nat -> R) a m y x : (a < length shape)%nat -> resize a = Some m -> length y = length shape -> in_shape x shape ->
  not_shorter resize shape -> same_point resize shape y x ->
  fst (isum shape (fun x' => RtoC (points x') * axes_product (keep_real a resize) 0 shape y x')) =
  rsum (fun j => (points (update a j x) * fst (real_resample (nth a shape 0%nat) m (nth a y 0%nat) j))%R) (nth a shape 0%nat).
Proof.
  intros Ha Hr Ly Hx HS HP. destruct (proj1 (in_shape_nth _ _) Hx) as [Lx Kx].
  set (M := (fun _ j => real_resample (nth a shape 0%nat) m (nth a y 0%nat) j) : mat).
  rewrite <- (fst_line (fun j => points (update a j x)) (fun j => M (nth a x 0%nat) j)). f_equal.
  rewrite (single_apply shape x a M (fun idx => RtoC (points idx))); try assumption; [|intros; now apply Kx].
  apply isum_ext. intros x' Hx'. f_equal. rewrite axes_product_lprod; [|assumption|exact (Forall2_length Hx')].
  apply (lprod_ext2 shape); try assumption; [now rewrite map_length, seq_length|apply single_length|].
  intros k j Hk Hj. rewrite single_nth by assumption. set (f := fun j0 => keep_real a resize (0 + j0)%nat (nth j0 shape 0%nat)).
  rewrite (nth_indep _ cdelta (f 0%nat)) by (now rewrite map_length, seq_length). rewrite map_nth, seq_nth by assumption.
  unfold f, keep_real. cbn [plus]. specialize (HP k Hk). specialize (Kx k Hk). destruct (Nat.eqb_spec k a) as [->|Hne].
  - rewrite Hr. reflexivity.
  - destruct (resize k) as [m'|] eqn:R; [|now rewrite HP]. apply resample_shared; try assumption; [lia|exact (HS k m' Hk R)].
Qed.

Lemma rsum_pick (p : nat -> R) n x : (x < n)%nat -> rsum (fun j => (p j * fst (cdelta x j))%R) n = p x.
Proof.
  intros Hx. rewrite <- (fst_line p (fun j => cdelta x j)). rewrite (csum_delta_r (fun j => RtoC (p j))) by assumption. reflexivity.
Qed.

Lemma update_self (l : list nat) k d : (k < length l)%nat -> update k (nth k l d) l = l.
Proof. revert k. induction l as [|y l IH]; intros [|k] H; cbn in *; try lia; [reflexivity|]. f_equal. apply IH. lia. Qed.

Lemma update_twice (l : list nat) k x y : update k x (update k y l) = update k x l.
Proof. revert k. induction l as [|z l IH]; intros [|k]; cbn; try reflexivity. now rewrite IH. Qed.

Lemma last_in (l : list nat) d : l <> [] -> In (last l d) l.
Proof. intros H. rewrite (app_removelast_last d H) at 2. apply in_or_app. right. now left. Qed.

Lemma rfftn_through shape points s axes ax resize shape' out : accepted shape s axes ax -> ax <> [] -> resizes ax s resize -> not_shorter resize shape ->
  interpolate_points_rfftn shape points s axes = Some (shape', out) ->
  Nat.odd (nth (last ax 0%nat) shape 0%nat) = true \/ resize (last ax 0%nat) = Some (nth (last ax 0%nat) shape 0%nat) ->
  forall y x, in_shape y shape' -> in_shape x shape -> same_point resize shape y x -> out y = points x.
Proof.
  intros HA HE HR HN E Ho y x Hy Hx HP. destruct (rfftn_spec shape points s axes ax resize HA HE HR) as [sh [o [E' [[Hl Hs] H]]]]. rewrite E in E'. injection E' as <- <-.
  rewrite H by assumption. set (a := last ax 0%nat) in *.
  destruct HA as [HN' [HD [HL [HPo HS]]]]. pose proof (norm_axes_range _ _ _ HN') as HF.
  assert (Hin : In a ax) by (now apply last_in). assert (Ha : (a < length shape)%nat) by (rewrite Forall_forall in HF; now apply HF).
  assert (Hn : (0 < nth a shape 0)%nat) by (rewrite Forall_forall in HPo; now apply HPo).
  assert (Rm : exists m, resize a = Some m) by (destruct HR as [R1 R2]; destruct (In_nth _ _ 0%nat Hin) as [j [Hj Ej]]; rewrite <- Ej, R1 by assumption; eexists; reflexivity).
  destruct Rm as [m Rm]. rewrite (real_line resize shape points a m y x) by (try assumption; rewrite (Forall2_length Hy); exact Hl).
  assert (Kx : (nth a x 0 < nth a shape 0)%nat) by (apply (proj1 (in_shape_nth _ _) Hx); assumption).
  pose proof (HP a Ha) as Pa. rewrite Rm in Pa.
  rewrite (rsum_ext _ (fun j => (points (update a j x) * fst (cdelta (nth a x 0%nat) j))%R)).
  - rewrite (rsum_pick (fun j => points (update a j x))) by assumption. rewrite update_self; [reflexivity|]. rewrite (Forall2_length Hx). exact Ha.
  - intros j Hj. f_equal. destruct Ho as [Ho|Ho].
    + apply real_shared_odd; try assumption. exact (HN a m Ha Rm).
    + rewrite Rm in Ho. injection Ho as ->. apply real_shared_equal; assumption.
Qed.

Lemma rfftn_even shape points s axes ax resize shape' out m : accepted shape s axes ax -> ax <> [] -> resizes ax s resize -> not_shorter resize shape ->
  interpolate_points_rfftn shape points s axes = Some (shape', out) ->
  let a := last ax 0%nat in let n := nth a shape 0%nat in
  Nat.even n = true -> resize a = Some m -> (n < m)%nat ->
  forall y x, in_shape y shape' -> in_shape x shape -> same_point resize shape y x ->
    out y = (points x + / INR n * rsum (fun j => cos (PI * IZR (Z.of_nat (nth a x 0%nat) - Z.of_nat j)) * points (update a j x)) n)%R.
Proof.
  intros HA HE HR HN E a n Hev Rm Hnm y x Hy Hx HP. destruct (rfftn_spec shape points s axes ax resize HA HE HR) as [sh [o [E' [[Hl Hs] H]]]]. rewrite E in E'. injection E' as <- <-.
  rewrite H by assumption. fold a.
  destruct HA as [HN' [HD [HL [HPo HS]]]]. pose proof (norm_axes_range _ _ _ HN') as HF.
  assert (Hin : In a ax) by (now apply last_in). assert (Ha : (a < length shape)%nat) by (rewrite Forall_forall in HF; now apply HF).
  assert (Hn : (0 < n)%nat) by (rewrite Forall_forall in HPo; now apply HPo).
  rewrite (real_line resize shape points a m y x) by (try assumption; rewrite (Forall2_length Hy); exact Hl). fold n.
  assert (Kx : (nth a x 0 < n)%nat) by (apply (proj1 (in_shape_nth _ _) Hx); assumption).
  pose proof (HP a Ha) as Pa. rewrite Rm in Pa. fold n in Pa.
  rewrite (rsum_ext _ (fun j => (points (update a j x) * fst (cdelta (nth a x 0%nat) j) + / INR n * (cos (PI * IZR (Z.of_nat (nth a x 0%nat) - Z.of_nat j)) * points (update a j x)))%R)).
  - assert (P : forall (f g : nat -> R) N, rsum (fun j => (f j + g j)%R) N = (rsum f N + rsum g N)%R) by (intros f g N; induction N as [|N IH]; cbn; [ring|rewrite IH; ring]).
    rewrite P, rsum_scal. f_equal. rewrite (rsum_pick (fun j => points (update a j x))) by assumption. rewrite update_self; [reflexivity|]. rewrite (Forall2_length Hx). exact Ha.
  - intros j Hj. rewrite (real_shared_even n m _ (nth a x 0%nat)) by assumption. ring.
Qed.

(** ** One axis *)

Lemma in_update a k m (shape : list nat) y : (a < length shape)%nat -> in_shape y (update a m shape) -> forall n, (k < n)%nat -> in_shape (update a k y) (update a n shape).
Proof.
  intros Ha Hy n Hk. destruct (proj1 (in_shape_nth _ _) Hy) as [L K]. rewrite update_length in L, K. apply in_shape_nth. rewrite !update_length. split; [assumption|].
  intros j Hj. rewrite !update_nth by (try assumption; now rewrite L). specialize (K j Hj). rewrite update_nth in K by assumption. destruct (j =? a)%nat; assumption.
Qed.

Lemma all_indices_spec shape (P : list nat -> bool) : forallb P (all_indices shape) = true -> forall idx, in_shape idx shape -> P idx = true.
Proof.
  intros H idx Hi. rewrite forallb_forall in H. apply H. unfold all_indices. rewrite <- (unravel_ravel shape idx Hi). apply in_map. apply in_seq.
  split; [lia|]. cbn. now apply ravel_lt.
Qed.

Lemma norm_axis_range ndim z a : norm_axis ndim z = Some a -> (a < ndim)%nat.
Proof.
  intros E. pose proof (norm_axes_range ndim [z] [a]) as H. cbn in H. rewrite E in H. specialize (H eq_refl). now inversion H.
Qed.

Lemma rfft_spec shape points n axis a : norm_axis (length shape) axis = Some a -> (0 < nth a shape 0)%nat -> (0 < n)%nat ->
  exists out, interpolate_points_rfft shape points n axis = Some (update a n shape, out) /\
    forall y, in_shape y (update a n shape) ->
      out y = rsum (fun x => (points (update a x y) * fst (real_resample (nth a shape 0%nat) n (nth a y 0%nat) x))%R) (nth a shape 0%nat).
Proof.
  intros HN Hn0 Hn. pose proof (norm_axis_range _ _ _ HN) as Ha. unfold interpolate_points_rfft. rewrite HN. cbv zeta.
  rewrite (proj2 (Nat.ltb_lt 0 (nth a shape 0%nat)) Hn0), (proj2 (Nat.ltb_lt 0 n) Hn). cbn [andb]. eexists. split; [reflexivity|].
  set (n0 := nth a shape 0%nat) in *. set (ft := along a (fft_forward n0) (fun idx => RtoC (points idx))).
  set (out := along a (irfft_forward (n0 / 2 + 1) n) ft).
  assert (L : forall y, in_shape y (update a n shape) -> length y = length shape) by (intros y Hy; rewrite (Forall2_length Hy); apply update_length).
  assert (O : forall y, length y = length shape ->
     out y = rsum (fun x => (points (update a x y) * fst (real_resample n0 n (nth a y 0%nat) x))%R) n0).
  { intros y Ly. unfold out, along. rewrite irfft_mat, <- fst_line. f_equal.
    rewrite (csum_ext _ (fun t => csum (fun x => RtoC (points (update a x y)) * (W_mat n (nth a y 0%nat) t * F_mat n0 t x)) n0)).
    - rewrite csum_swap. apply csum_ext. intros x Hx. rewrite csum_scal_l, real_kernel. reflexivity.
    - intros t Ht. unfold ft, along. rewrite fft_mat, <- csum_scal_r. apply csum_ext. intros x Hx.
      rewrite update_twice, update_nth, Nat.eqb_refl by (rewrite Ly; assumption). ring. }
  intros y Hy. destruct (forallb _ _) eqn:B; [|now apply O, L]. cbv zeta. destruct (Nat.ltb_spec (n / 2) (nth a y 0%nat)) as [Hlt|Hle]; [|now apply O, L].
  rewrite <- O by (now apply L). specialize (L y Hy).
  assert (Ky : (nth a y 0 < n)%nat).
  { destruct (proj1 (in_shape_nth _ _) Hy) as [_ K]. rewrite update_length in K. specialize (K a Ha). rewrite update_nth, Nat.eqb_refl in K by assumption. exact K. }
  unfold out, along. unfold irfft_forward. rewrite update_nth, Nat.eqb_refl by (rewrite L; assumption). apply rsum_ext. intros k Hk. f_equal.
  rewrite update_twice. destruct (Nat.ltb_spec k (n0 / 2 + 1)) as [Hkn|]; [|cbn; ring].
  assert (Im : snd (ft (update a k y)) = 0%R).
  { pose proof (all_indices_spec _ _ B (update a k y) (in_update a k n shape y Ha Hy _ Hkn)) as Q. cbn beta in Q.
    fold n0 in Q. fold ft in Q. destruct (Req_EM_T (snd (ft (update a k y))) 0); [assumption|discriminate]. }
  assert (F : forall z w : C, snd z = 0%R -> fst (z * w) = (fst z * fst w)%R) by (intros z w Hz; cbn; rewrite Hz; ring).
  rewrite !F by assumption. f_equal.
  pose proof (cosine_mirror n (Z.of_nat k) (nth a y 0%nat) Hn ltac:(lia)) as Q. unfold cosine in Q. rewrite (Z.mul_comm (Z.of_nat k)), (Z.mul_comm (Z.of_nat k)). exact Q.
Qed.

Lemma rfft_through shape points n axis a out : norm_axis (length shape) axis = Some a -> (nth a shape 0 <= n)%nat ->
  Nat.odd (nth a shape 0%nat) = true \/ n = nth a shape 0%nat ->
  interpolate_points_rfft shape points n axis = Some (update a n shape, out) ->
  forall y x, in_shape y (update a n shape) -> in_shape x shape -> (nth a y 0 * nth a shape 0 = nth a x 0 * n)%nat -> update a (nth a x 0%nat) y = x -> out y = points x.
Proof.
  intros HN Hle Ho E y x Hy Hx HP EU. pose proof (norm_axis_range _ _ _ HN) as Ha.
  assert (Kx : (nth a x 0 < nth a shape 0)%nat) by (apply (proj1 (in_shape_nth _ _) Hx); assumption).
  destruct (rfft_spec shape points n axis a HN ltac:(lia) ltac:(lia)) as [o [E' H]]. rewrite E in E'. injection E' as <-. rewrite H by assumption.
  rewrite (rsum_ext _ (fun j => (points (update a j y) * fst (cdelta (nth a x 0%nat) j))%R)).
  - rewrite (rsum_pick (fun j => points (update a j y))) by assumption. now rewrite EU.
  - intros j Hj. f_equal. destruct Ho as [Ho| ->]; [now apply real_shared_odd|apply real_shared_equal; try assumption; lia].
Qed.

(** Mirror symmetric values stay mirror symmetric. *)
Lemma rfft_symmetric shape points n axis a out : norm_axis (length shape) axis = Some a -> (0 < nth a shape 0)%nat -> (0 < n)%nat ->
  interpolate_points_rfft shape points n axis = Some (update a n shape, out) ->
  (forall x idx, (x < nth a shape 0)%nat -> length idx = length shape -> points (update a ((nth a shape 0 - x) mod nth a shape 0)%nat idx) = points (update a x idx)) ->
  forall y, in_shape y (update a n shape) -> (0 < nth a y 0)%nat -> out (update a (n - nth a y 0)%nat y) = out y.
Proof.
  intros HN Hn0 Hn E HS y Hy Hy0. pose proof (norm_axis_range _ _ _ HN) as Ha.
  assert (L : length y = length shape) by (rewrite (Forall2_length Hy); apply update_length).
  assert (Ky : (nth a y 0 < n)%nat).
  { destruct (proj1 (in_shape_nth _ _) Hy) as [_ K]. rewrite update_length in K. specialize (K a Ha). rewrite update_nth, Nat.eqb_refl in K by assumption. exact K. }
  destruct (rfft_spec shape points n axis a HN Hn0 Hn) as [o [E' H]]. rewrite E in E'. injection E' as <-.
  rewrite (H y Hy), H by (apply (in_update a _ n shape y); try assumption; lia).
  rewrite update_nth, Nat.eqb_refl by (rewrite L; assumption). set (n0 := nth a shape 0%nat) in *.
  assert (RB : forall (f : nat -> R), rsum f n0 = rsum (fun x => f ((n0 - x) mod n0)%nat) n0).
  { intros f. destruct n0 as [|n0']; [lia|]. rewrite !rsum_shift. rewrite Nat.sub_0_r, Nat.mod_same by lia. f_equal.
    rewrite <- (rsum_rev (fun i => f (S i))). apply rsum_ext. intros i Hi. f_equal. rewrite Nat.mod_small by lia. lia. }
  rewrite RB. apply rsum_ext. intros x Hx. rewrite update_twice, HS by assumption. f_equal. apply real_resample_mirror; try assumption; lia.
Qed.

(** Zero padding of the half spectrum is what the inverse transform does itself. *)
Lemma real_padding shape (v : list nat -> C) n a y shape' p : (a < length shape)%nat -> length y = length shape -> pad_ft_points_real_axis (RtoC 0) shape v n a = (shape', p) ->
  nth a shape' 0%nat = (n / 2 + 1)%nat /\
  along a (irfft_forward (nth a shape' 0%nat) n) p y = along a (irfft_forward (nth a shape 0%nat) n) v y.
Proof.
  intros Ha Ly E. unfold pad_ft_points_real_axis in E. apply pair_equal_spec in E. destruct E as [<- <-]. rewrite update_nth, Nat.eqb_refl by assumption. split; [reflexivity|].
  unfold along, irfft_forward. apply rsum_ext. intros k Hk. rewrite (proj2 (Nat.ltb_lt k _) Hk).
  rewrite update_nth, Nat.eqb_refl by (rewrite Ly; assumption).
  destruct (Nat.ltb_spec k (Nat.min (n / 2 + 1) (nth a shape 0%nat))), (Nat.ltb_spec k (nth a shape 0%nat)); try reflexivity; lia.
Qed.

(** ** Default axes *)

Lemma default_accepted shape s : (length s <= length shape)%nat -> Forall (fun n => (0 < n)%nat) shape -> Forall (fun m => (0 < m)%nat) s ->
  accepted shape s None (map (fun j => (length shape - 1 - j)%nat) (seq 0 (length s))).
Proof.
  intros HL HS Hs. split; [now apply norm_axes_default|]. split.
  { apply (NoDup_nth _ 0%nat). rewrite map_length, seq_length. intros i j Hi Hj.
    set (f := fun j0 => (length shape - 1 - j0)%nat). rewrite !(nth_indep _ 0%nat (f 0%nat)) by (now rewrite map_length, seq_length). rewrite !map_nth, !seq_nth by assumption. unfold f. lia. }
  split; [now rewrite map_length, seq_length|]. split; [|assumption].
  apply Forall_forall. intros a Hin. apply in_map_iff in Hin. destruct Hin as [j [<- Hj]]. apply in_seq in Hj. rewrite Forall_forall in HS. apply HS. apply nth_In. lia.
Qed.

Lemma default_shape shape (points : list nat -> C) s : (length s <= length shape)%nat -> Forall (fun n => (0 < n)%nat) shape -> Forall (fun m => (0 < m)%nat) s ->
  exists out, interpolate_points_fftn shape points s None = Some (firstn (length shape - length s) shape ++ rev s, out).
Proof.
  intros HL HS Hs. pose proof (default_accepted shape s HL HS Hs) as HA. set (ax := map _ _) in HA. destruct HA as [A1 [A2 [A3 A4]]].
  assert (R := axis_target_resizes ax s A2 A3).
  destruct (fftn_spec shape points s None ax (axis_target ax s) (conj A1 (conj A2 (conj A3 A4))) R) as [shape' [out [E [[L N] _]]]].
  exists out. rewrite E. do 2 f_equal. apply (nth_ext _ _ 0%nat 0%nat).
  - rewrite L, app_length, firstn_length, rev_length. lia.
  - intros k Hk. rewrite L in Hk. rewrite N by assumption. destruct R as [R1 R2]. destruct (Nat.lt_ge_cases k (length shape - length s)) as [Hlo|Hhi].
    + rewrite R2. * rewrite app_nth1 by (rewrite firstn_length; lia). rewrite <- (firstn_skipn (length shape - length s) shape) at 1.
        rewrite app_nth1 by (rewrite firstn_length; lia). reflexivity.
      * intros Hin. apply in_map_iff in Hin. destruct Hin as [j [<- Hj]]. apply in_seq in Hj. lia.
    + rewrite app_nth2 by (rewrite firstn_length; lia). rewrite firstn_length, Nat.min_l by lia. rewrite rev_nth by lia.
      assert (EA : nth (length shape - 1 - k) ax 0%nat = k).
      { assert (Hi : (length shape - 1 - k < length s)%nat) by lia. remember (length shape - 1 - k)%nat as i eqn:Ei. unfold ax. set (f := fun j0 => (length shape - 1 - j0)%nat).
        rewrite (nth_indep _ 0%nat (f 0%nat)) by (now rewrite map_length, seq_length).
        rewrite map_nth, seq_nth by assumption. unfold f. lia. }
      specialize (R1 (length shape - 1 - k)%nat ltac:(rewrite A3; lia)). rewrite EA in R1. rewrite R1. f_equal. lia.
Qed.

(** ** Concrete cases *)

Definition saw (idx : list nat) : R := if (nth 0 idx 0 =? 0)%nat then 1 else (-1)%R.

Definition only_axis (a m : nat) (k : nat) : option nat := if (k =? a)%nat then Some m else None.
Definition both_axes (m0 m1 : nat) (k : nat) : option nat := match k with O => Some m0 | S O => Some m1 | _ => None end.

Lemma saw_valid : valid_axes [2%nat] [4%nat] [0%Z] [0%nat].
Proof. repeat constructor; cbn; try lia; auto. Qed.

Lemma saw_resizes : resizes [0%nat] [4%nat] (only_axis 0 4).
Proof. split; [intros [|j] Hj; cbn in *; [reflexivity|lia]|]. intros [|k] Hk; [exfalso; apply Hk; now left|reflexivity]. Qed.

Lemma saw_doubled : exists out, interpolate_points_rfftn [2%nat] saw [4%nat] (Some [0%Z]) = Some ([4%nat], out) /\ out [0%nat] = 2 /\ saw [0%nat] = 1.
Proof.
  destruct (rfftn_spec [2%nat] saw [4%nat] (Some [0%Z]) [0%nat] (only_axis 0 4) (valid_accepted _ _ _ _ saw_valid) ltac:(discriminate) saw_resizes) as [shape' [out [E [[L N] H]]]].
  assert (ES : shape' = [4%nat]). { destruct shape' as [|m [|]]; try discriminate. specialize (N 0%nat ltac:(cbn; lia)). cbn in N. now subst. } subst shape'.
  exists out. split; [exact E|]. split; [|reflexivity].
  rewrite (rfftn_even [2%nat] saw [4%nat] (Some [0%Z]) [0%nat] (only_axis 0 4) [4%nat] out 4 (valid_accepted _ _ _ _ saw_valid) ltac:(discriminate) saw_resizes) with (x := [0%nat]);
    try assumption; try reflexivity.
  - cbn. unfold saw. cbn. rewrite Rmult_0_r, cos_0. replace (PI * -1)%R with (- PI)%R by ring. rewrite cos_neg, cos_PI. field.
  - intros [|k] m Hk Hm; cbn in *; [injection Hm as <-; lia|lia].
  - cbn. lia.
  - repeat constructor.
  - repeat constructor.
  - intros [|k] Hk; cbn in *; [reflexivity|lia].
Qed.

Lemma grid_valid : valid_axes [3%nat; 4%nat] [8%nat; 6%nat] [(-1)%Z; 0%Z] [1%nat; 0%nat].
Proof.
  split; [|repeat split; repeat constructor; cbn; try lia; intuition lia].
  constructor; [right; cbn; lia|]. constructor; [left; cbn; lia|constructor].
Qed.

Lemma grid_resizes : resizes [1%nat; 0%nat] [8%nat; 6%nat] (both_axes 6 8).
Proof.
  split; [intros [|[|j]] Hj; cbn in *; try reflexivity; lia|]. intros [|[|k]] Hk; cbn in *; try reflexivity; exfalso; apply Hk; auto.
Qed.

Lemma grid_not_shorter : not_shorter (both_axes 6 8) [3%nat; 4%nat].
Proof. intros [|[|k]] m Hk Hm; cbn in *; try lia; injection Hm as <-; lia. Qed.
