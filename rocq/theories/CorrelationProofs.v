(** Proofs about kernels built from a correlation function. *)
From Coq Require Import Reals Lra Lia Psatz.
From Verif Require Import ZLib Csum DFT NumPy Spec Index IndexProofs Lattice LatticeProofs Basis SpecBasis Operator SpecOperator
  Kernel SpecKernel KernelProofs Correlation SpecCorrelation.
Local Open Scope R_scope.

Lemma rsum_only (f : nat -> R) n i : (i < n)%nat -> (forall j, (j < n)%nat -> j <> i -> f j = 0) -> rsum f n = f i.
Proof.
  induction n as [|n IH]; intros Hi Hf; [lia|]. rewrite rsum_S.
  destruct (Nat.eq_dec i n) as [->|Hne].
  - rewrite (rsum_ext f (fun _ => 0) n), rsum_const0; [lra|]. intros j Hj. apply Hf; lia.
  - rewrite IH; [|lia|intros; apply Hf; lia]. rewrite (Hf n); [lra|lia|lia].
Qed.

Lemma aligned_sum nd delta (f : nat -> R) c : aligned nd delta -> (c < nd)%nat ->
  rsum (fun a => f a * delta a c) nd = f c * delta c c.
Proof.
  intros Ha Hc. apply (rsum_only (fun a => f a * delta a c) nd c Hc).
  intros a Han Hne. destruct (Req_dec (delta a c) 0) as [->|H]; [lra|].
  apply (Ha a c Han Hc) in H. contradiction.
Qed.

Lemma aligned_norm nd delta a : aligned nd delta -> (a < nd)%nat -> norm nd (delta a) = Rabs (delta a a).
Proof.
  intros Ha Hn. unfold norm. rewrite (rsum_only (fun c => delta a c * delta a c) nd a Hn).
  - apply sqrt_Rsqr_abs.
  - intros c Hc Hne. destruct (Req_dec (delta a c) 0) as [->|H]; [lra|].
    apply (Ha a c Hn Hc) in H. congruence.
Qed.

Lemma aligned_diag nd delta a : aligned nd delta -> (a < nd)%nat -> delta a a <> 0.
Proof. intros Ha Hn. apply (Ha a a Hn Hn). reflexivity. Qed.

Lemma norm_ext nd u v : (forall c, (c < nd)%nat -> u c = v c) -> norm nd u = norm nd v.
Proof. intros H. unfold norm. f_equal. apply rsum_ext. intros c Hc. rewrite H by exact Hc. reflexivity. Qed.

Lemma norm_opp nd u v : (forall c, (c < nd)%nat -> u c = - v c) -> norm nd u = norm nd v.
Proof. intros H. unfold norm. f_equal. apply rsum_ext. intros c Hc. rewrite H by exact Hc. lra. Qed.

Lemma norm_le nd u v : (forall c, (c < nd)%nat -> Rabs (u c) <= Rabs (v c)) -> norm nd u <= norm nd v.
Proof.
  intros H. unfold norm. apply sqrt_le_1_alt. apply rsum_le. intros c Hc.
  apply (Rsqr_le_abs_1 _ _ (H c Hc)).
Qed.

Lemma norm_nonneg nd u : 0 <= norm nd u.
Proof. apply sqrt_pos. Qed.

Lemma norm_sq nd u : norm nd u ^ 2 = rsum (fun c => u c ^ 2) nd.
Proof.
  unfold norm. simpl pow at 1. rewrite Rmult_1_r, sqrt_sqrt.
  - apply rsum_ext. intros. ring.
  - apply rsum_nonneg. intros. nra.
Qed.

(** A point within half a period of the origin is the closest of its images. *)
Lemma closest_image w L k : Rabs w <= Rabs L / 2 -> Rabs w <= Rabs (w + IZR k * L).
Proof.
  intros H. destruct (Z.eq_dec k 0) as [->|Hk]; [right; f_equal; lra|].
  assert (A : Rabs L <= Rabs (IZR k * L)).
  { rewrite Rabs_mult. assert (1 <= Rabs (IZR k)).
    { rewrite <- abs_IZR. apply IZR_le. lia. }
    assert (0 <= Rabs L) by apply Rabs_pos. nra. }
  assert (B := Rabs_triang (w + IZR k * L) (- w)). rewrite Rabs_Ropp in B.
  replace (w + IZR k * L + - w) with (IZR k * L) in B by ring. lra.
Qed.

Lemma displacement_nth shape : forall d x y a, displacement shape d x y -> (a < length shape)%nat ->
  (nth a d 0 < nth a shape 0)%nat /\
  Zcong (Z.of_nat (nth a shape 0%nat)) (Z.of_nat (nth a d 0%nat)) (Z.of_nat (nth a x 0%nat) - Z.of_nat (nth a y 0%nat)).
Proof.
  induction shape as [|n shape IH]; intros d x y a Hd Ha; [simpl in Ha; lia|].
  destruct d as [|e d], x as [|b x], y as [|c y]; try contradiction. destruct Hd as [H1 [H2 H3]].
  destruct a as [|a]; [simpl; split; assumption|]. simpl. apply IH; [assumption|]. simpl in Ha. lia.
Qed.

Lemma unravel_zero shape : Forall (fun n => (0 < n)%nat) shape -> unravel shape 0 = repeat 0%nat (length shape).
Proof.
  induction shape as [|n shape IH]; intros H; [reflexivity|]. inversion H; subst.
  cbn [unravel length repeat]. rewrite Nat.div_0_l, Nat.mod_0_l, IH; [reflexivity|assumption| |];
    apply Nat.neq_0_lt_0; clear - H3; induction shape; simpl; inversion H3; subst; try lia; apply Nat.mul_pos_pos; auto.
Qed.

Lemma positive_shape shape x : in_shape x shape -> Forall (fun n => (0 < n)%nat) shape.
Proof. intros H. induction H; constructor; [lia|assumption]. Qed.

(** ** Distances on an aligned lattice *)
Section Aligned.
Variables (delta : nat -> nat -> R) (shape : list nat).
Let nd := length shape.
Hypothesis Ha : aligned nd delta.

(** Displacement of point [i] of axis [ax] from the origin. *)
Definition axis_wrap (ax i : nat) : R :=
  wrap_displacements (- (INR i / INR (nth ax shape 0%nat)) * delta ax ax) (Rabs (delta ax ax) / 2).

Lemma row_zero idx ax : in_shape idx shape -> (ax < nd)%nat ->
  displacements_matrix_x_along_axis nd delta (fun a => nth a shape 0%nat)
      (fun a => nth a (unravel shape 0) 0%nat) (fun a => nth a (unravel shape (ravel shape idx)) 0%nat) 0 ax
  = axis_wrap ax (nth ax idx 0%nat).
Proof.
  intros Hi Hx. unfold displacements_matrix_x_along_axis, axis_wrap, x_point_stacked.
  rewrite (aligned_sum nd delta (fun a => INR (nth a (unravel shape 0) 0%nat) / INR (nth a shape 0%nat)) ax Ha Hx).
  rewrite (aligned_sum nd delta (fun a => INR (nth a (unravel shape (ravel shape idx)) 0%nat) / INR (nth a shape 0%nat)) ax Ha Hx).
  rewrite unravel_ravel by exact Hi. rewrite unravel_zero by (eapply positive_shape; exact Hi).
  rewrite nth_repeat. rewrite (aligned_norm nd delta ax Ha Hx). f_equal. simpl INR. unfold Rdiv. ring.
Qed.

Lemma total_row_zero idx : in_shape idx shape ->
  get_total_displacements_matrix_x_stacked delta shape 0 (ravel shape idx)
  = norm nd (fun ax => axis_wrap ax (nth ax idx 0%nat)).
Proof.
  intros Hi. unfold get_total_displacements_matrix_x_stacked. apply norm_ext. intros ax Hx.
  apply row_zero; assumption.
Qed.

Lemma axis_wrap_spec ax i : (ax < nd)%nat ->
  Rabs (axis_wrap ax i) <= Rabs (delta ax ax) / 2 /\
  exists z : Z, axis_wrap ax i = - (INR i / INR (nth ax shape 0%nat)) * delta ax ax + IZR z * delta ax ax.
Proof.
  intros Hx. assert (Hp : 0 < Rabs (delta ax ax)) by (apply Rabs_pos_lt; eapply aligned_diag; eassumption).
  destruct (wrap_displacements_spec (- (INR i / INR (nth ax shape 0%nat)) * delta ax ax) (Rabs (delta ax ax) / 2))
    as [H1 [z H2]]; [lra|]. fold (axis_wrap ax i) in H1, H2. split.
  - apply Rabs_le. lra.
  - destruct (Rcase_abs (delta ax ax)) as [Hn|Hn].
    + exists (- z)%Z. rewrite H2. rewrite (Rabs_left _ Hn). rewrite opp_IZR. lra.
    + exists z. rewrite H2. rewrite (Rabs_right _ Hn). lra.
Qed.

Lemma grid_point_aligned x c : (c < nd)%nat ->
  grid_point delta shape x c = INR (nth c x 0%nat) / INR (nth c shape 0%nat) * delta c c.
Proof. intros Hc. apply (aligned_sum nd delta (fun a => INR (nth a x 0%nat) / INR (nth a shape 0%nat))); assumption. Qed.

Lemma total_is_distance x y d : in_shape x shape -> in_shape y shape -> displacement shape d x y ->
  periodic_distance delta shape x y (get_total_displacements_matrix_x_stacked delta shape 0 (ravel shape d)).
Proof.
  intros Hx Hy Hd. assert (Hi := displacement_in_shape _ _ _ _ Hd). rewrite total_row_zero by exact Hi.
  set (w := fun ax => axis_wrap ax (nth ax d 0%nat)).
  assert (C : forall ax, (ax < nd)%nat -> exists z : Z,
    w ax = - ((INR (nth ax x 0%nat) / INR (nth ax shape 0%nat) - INR (nth ax y 0%nat) / INR (nth ax shape 0%nat)) * delta ax ax
              + IZR z * delta ax ax)).
  { intros ax Hax. destruct (axis_wrap_spec ax (nth ax d 0%nat) Hax) as [_ [z Hz]].
    destruct (displacement_nth _ _ _ _ ax Hd Hax) as [Hlt [k Hk]].
    exists (k - z)%Z. unfold w. rewrite Hz. assert (Hn : INR (nth ax shape 0%nat) <> 0) by (apply not_0_INR; lia).
    assert (E : INR (nth ax d 0%nat) = INR (nth ax x 0%nat) - INR (nth ax y 0%nat) + IZR k * INR (nth ax shape 0%nat)).
    { rewrite !INR_IZR_INZ, <- mult_IZR, <- minus_IZR, <- plus_IZR. f_equal. lia. }
    rewrite E, minus_IZR. field. exact Hn. }
  destruct (choice_fin _ _ C) as [Z0 HZ]. clear C.
  assert (E : forall z c, (c < nd)%nat ->
    grid_point delta shape x c - grid_point delta shape y c + rsum (fun a => IZR (z a) * delta a c) (length shape)
    = - w c + IZR (z c - Z0 c) * delta c c).
  { intros z c Hc. rewrite !grid_point_aligned by exact Hc.
    rewrite (aligned_sum (length shape) delta (fun a => IZR (z a)) c Ha Hc). rewrite (HZ c Hc), minus_IZR. ring. }
  split.
  - exists Z0. unfold image_distance. symmetry. apply norm_opp. intros c Hc. rewrite E by exact Hc.
    rewrite Z.sub_diag. lra.
  - intros z. unfold image_distance. apply norm_le. intros c Hc. rewrite E by exact Hc.
    rewrite <- (Rabs_Ropp (w c)). apply closest_image. rewrite Rabs_Ropp. apply axis_wrap_spec. exact Hc.
Qed.
End Aligned.

Lemma periodic_distance_unique delta shape x y r s :
  periodic_distance delta shape x y r -> periodic_distance delta shape x y s -> r = s.
Proof. intros [[z ->] H1] [[z' ->] H2]. apply Rle_antisym; [apply H1|apply H2]. Qed.

Lemma nprod_positive shape : Forall (fun n => (0 < n)%nat) shape -> (0 < nprod shape)%nat.
Proof. intros H. induction H; simpl; [lia|]. apply Nat.mul_pos_pos; assumption. Qed.

Lemma build_some delta shape fn : Forall (fun n => (0 < n)%nat) shape ->
  build_isotropic_kernel_from_function_stacked delta shape fn
  = Some {| ashape := [nprod shape];
            aflat := fun j => fn (get_total_displacements_matrix_x_stacked delta shape 0 j) |}.
Proof.
  intros H. unfold build_isotropic_kernel_from_function_stacked.
  destruct (Nat.eqb_spec (nprod shape) 0) as [E|_]; [|reflexivity].
  assert (A := nprod_positive _ H). lia.
Qed.

(** The isotropic kernel and the diagonal kernel made of it. *)
Lemma isotropic_kernel_spec delta shape fn : aligned (length shape) delta -> Forall (fun n => (0 < n)%nat) shape ->
  exists k, build_isotropic_kernel_from_function_stacked delta shape fn = Some k /\ ashape k = [nprod shape] /\
    forall x y d, in_shape x shape -> in_shape y shape -> displacement shape d x y ->
      exists r, periodic_distance delta shape x y r /\ aflat k (ravel shape d) = fn r.
Proof.
  intros Ha Hs. eexists. split; [apply build_some; exact Hs|]. split; [reflexivity|].
  intros x y d Hx Hy Hd. eexists. split; [|reflexivity]. apply total_is_distance; assumption.
Qed.

Lemma diagonal_kernel_of_function delta shape fn : aligned (length shape) delta -> Forall (fun n => (0 < n)%nat) shape ->
  exists k D, build_isotropic_kernel_from_function_stacked delta shape fn = Some k /\
    as_diagonal_kernel_from_isotropic_stacked shape k = Some D /\ ashape D = [(nprod shape * nprod shape)%nat] /\
    forall x y, in_shape x shape -> in_shape y shape ->
      exists r, periodic_distance delta shape x y r /\ entry2 (nprod shape) D (ravel shape x) (ravel shape y) = fn r.
Proof.
  intros Ha Hs. destruct (isotropic_kernel_spec delta shape fn Ha Hs) as [k [Hk [Sk Vk]]].
  destruct (diagonal_from_isotropic_stacked shape k (nprod_positive _ Hs)) as [D [HD [SD VD]]].
  { rewrite Sk. simpl. lia. }
  exists k, D. split; [exact Hk|]. split; [exact HD|]. split; [exact SD|]. intros x y Hx Hy.
  assert (Hd := displacement_list_spec shape x y Hs (in_shape_length _ _ Hx) (in_shape_length _ _ Hy)).
  destruct (Vk x y _ Hx Hy Hd) as [r [Hr Er]].
  exists r. split; [exact Hr|]. rewrite (VD x y _ Hx Hy Hd). exact Er.
Qed.
