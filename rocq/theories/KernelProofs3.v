(** Kernels of products of axes. *)
From Coq Require Import Reals Lra Lia Psatz.
From Verif Require Import ZLib Csum DFT NumPy Interp Index Spec IndexProofs Basis SpecBasis BasisProofs
  Operator SpecOperator OperatorProofs OperatorProofs2 Kernel SpecKernel KernelProofs KernelProofs2.
Local Open Scope R_scope.
Local Open Scope C_scope.

(** ** Complex powers *)

Lemma polar (z : C) : z <> 0 -> RtoC (Cmod z) * cis (carg z) = z.
Proof.
  intros Hz. assert (H0 : (0 < Cmod z)%R) by (apply (proj1 (Cmod_gt_0 z)); exact Hz).
  assert (Hq : (Cmod z * Cmod z = fst z * fst z + snd z * snd z)%R).
  { unfold Cmod. rewrite sqrt_sqrt by nra. ring. }
  set (r := (fst z / Cmod z)%R).
  assert (Hr : (r * Cmod z = fst z)%R) by (unfold r; field; lra).
  assert (H1 : (-1 <= r <= 1)%R).
  { split.
    - apply Rmult_le_reg_r with (Cmod z); [assumption|]. rewrite Hr.
      destruct (Rle_dec (-1 * Cmod z) (fst z)); [assumption|]. exfalso. nra.
    - apply Rmult_le_reg_r with (Cmod z); [assumption|]. rewrite Hr.
      destruct (Rle_dec (fst z) (1 * Cmod z)); [assumption|]. exfalso. nra. }
  assert (Hs : (Cmod z * sqrt (1 - r²) = Rabs (snd z))%R).
  { rewrite <- (Rabs_right (Cmod z)) at 1 by lra. rewrite <- sqrt_Rsqr_abs, <- sqrt_mult.
    - rewrite <- sqrt_Rsqr_abs. f_equal. unfold Rsqr. nra.
    - unfold Rsqr; nra. - unfold Rsqr; nra. }
  assert (Hc : (Cmod z * cos (carg z) = fst z)%R).
  { unfold carg. fold r. destruct (Rle_dec 0 (snd z)); rewrite ?cos_neg, cos_acos by assumption; lra. }
  assert (Hn : (Cmod z * sin (carg z) = snd z)%R).
  { unfold carg. fold r. destruct (Rle_dec 0 (snd z)); rewrite ?sin_neg, sin_acos by assumption.
    - rewrite Hs. apply Rabs_right. lra.
    - replace (Cmod z * - sqrt (1 - r²))%R with (- (Cmod z * sqrt (1 - r²)))%R by ring.
      rewrite Hs, Rabs_left by lra. lra. }
  rewrite (surjective_pairing z) at 3. unfold cis, Cmult, RtoC. cbn [fst snd]. f_equal; lra.
Qed.

Lemma cis_pow t n : cis t ^ n = cis (INR n * t).
Proof.
  induction n as [|n IH]; cbn [Cpow].
  - rewrite Rmult_0_l, cis_0. reflexivity.
  - rewrite IH, <- cis_plus. f_equal. rewrite S_INR. ring.
Qed.

Lemma RtoC_pow' (r : R) n : RtoC r ^ n = RtoC (pow r n).
Proof. induction n as [|n IH]; cbn [Cpow pow]; [reflexivity|]. rewrite IH, RtoC_mult. reflexivity. Qed.

Lemma Cpow_mult' (x y : C) n : (x * y) ^ n = x ^ n * y ^ n.
Proof. induction n as [|n IH]; cbn [Cpow]; [ring|]. rewrite IH. ring. Qed.

Lemma prefactor_power (z : C) n : z <> 0 -> (0 < n)%nat ->
  cpower z ((1 - INR n) / INR n) ^ n * z ^ (n - 1) = 1.
Proof.
  intros Hz Hn. assert (Hm : (0 < Cmod z)%R) by (apply (proj1 (Cmod_gt_0 z)); exact Hz).
  assert (HI : (0 < INR n)%R) by (apply lt_0_INR; assumption).
  rewrite <- (polar z Hz) at 2. unfold cpower. rewrite !Cpow_mult', !cis_pow, !RtoC_pow'.
  rewrite <- (Rpower_pow n) by (apply exp_pos). rewrite Rpower_mult.
  rewrite <- (Rpower_pow (n - 1)) by assumption.
  replace ((1 - INR n) / INR n * INR n)%R with (- INR (n - 1))%R.
  2:{ rewrite minus_INR by lia. simpl (INR 1). field. lra. }
  rewrite Rpower_Ropp.
  transitivity (RtoC (/ Rpower (Cmod z) (INR (n - 1))) * RtoC (Rpower (Cmod z) (INR (n - 1)))
    * (cis (INR n * ((1 - INR n) / INR n * carg z)) * cis (INR (n - 1) * carg z))); [ring|].
  rewrite <- RtoC_mult, <- cis_plus, Rinv_l by (apply Rgt_not_eq, exp_pos).
  replace (INR n * ((1 - INR n) / INR n * carg z) + INR (n - 1) * carg z)%R with 0%R.
  - rewrite cis_0. ring.
  - rewrite minus_INR by lia. simpl (INR 1). field. lra.
Qed.

(** ** Products over the axes *)

Lemma axis_product_ext f g idx : forall s,
  (forall a i, (s <= a < s + length idx)%nat -> nth (a - s) idx 0%nat = i -> f a i = g a i) ->
  axis_product s f idx = axis_product s g idx.
Proof.
  induction idx as [|i idx IH]; intros s H; [reflexivity|]. cbn [axis_product].
  rewrite (H s i) by (try (cbn [length]; lia); rewrite Nat.sub_diag; reflexivity). f_equal. apply IH.
  intros a j Ha Hj. apply H; [cbn [length]; lia|].
  replace (a - s)%nat with (S (a - S s)) by lia. exact Hj.
Qed.

Lemma axis_product_mul f g idx : forall s,
  axis_product s (fun a i => f a i * g a i) idx = axis_product s f idx * axis_product s g idx.
Proof. induction idx as [|i idx IH]; intros s; cbn [axis_product]; [ring|]. rewrite IH. ring. Qed.

Lemma axis_product_const c idx : forall s, axis_product s (fun _ _ => c) idx = c ^ length idx.
Proof. induction idx as [|i idx IH]; intros s; cbn [axis_product length Cpow]; [reflexivity|]. rewrite IH. ring. Qed.

Lemma axis_product_point h i rest : forall a s,
  axis_product s h (repeat 0%nat a ++ i :: rest) * h (s + a)%nat 0%nat
  = h (s + a)%nat i * axis_product s h (repeat 0%nat a ++ 0%nat :: rest).
Proof.
  induction a as [|a IH]; intros s; cbn [repeat app axis_product].
  - rewrite Nat.add_0_r. ring.
  - replace (s + S a)%nat with (S s + a)%nat by lia.
    transitivity (h s 0%nat * (axis_product (S s) h (repeat 0%nat a ++ i :: rest) * h (S s + a)%nat 0%nat)); [ring|].
    rewrite IH. ring.
Qed.

Lemma axis_product_zero_idx h idx : forall s,
  axis_product s (fun a _ => h a 0%nat) idx = axis_product s h (repeat 0%nat (length idx)).
Proof. induction idx as [|i idx IH]; intros s; cbn [axis_product length repeat]; [reflexivity|]. rewrite IH. reflexivity. Qed.

Lemma axis_point_zero nd ax : (ax < nd)%nat -> axis_point nd ax 0 = repeat 0%nat nd.
Proof.
  intros H. unfold axis_point. change (0%nat :: repeat 0%nat (nd - S ax)) with (repeat 0%nat (S (nd - S ax))).
  rewrite <- repeat_app. f_equal. lia.
Qed.

Lemma axis_point_length nd ax i : (ax < nd)%nat -> length (axis_point nd ax i) = nd.
Proof. intros H. unfold axis_point. rewrite app_length. cbn [length]. rewrite !repeat_length. lia. Qed.

Lemma axis_point_nth nd ax i b : (ax < nd)%nat -> nth b (axis_point nd ax i) 0%nat = if Nat.eqb b ax then i else 0%nat.
Proof.
  intros H. unfold axis_point. destruct (Nat.eqb_spec b ax) as [->|Hb].
  - rewrite app_nth2; rewrite repeat_length; [|lia]. rewrite Nat.sub_diag. reflexivity.
  - destruct (Nat.lt_ge_cases b ax) as [Hl|Hl].
    + rewrite app_nth1 by (rewrite repeat_length; lia). apply nth_repeat.
    + rewrite app_nth2; rewrite repeat_length; [|lia]. destruct (b - ax)%nat as [|m] eqn:E; [lia|].
      cbn [nth]. apply nth_repeat.
Qed.

Lemma axis_point_in_shape shape ax i : Forall (fun n => (0 < n)%nat) shape -> (ax < length shape)%nat ->
  (i < nth ax shape 0)%nat -> in_shape (axis_point (length shape) ax i) shape.
Proof.
  unfold axis_point. revert ax. induction shape as [|n s IH]; intros ax Hp Ha Hi; [simpl in Ha; lia|].
  apply Forall_cons_iff in Hp. destruct Hp as [Hn Hp]. destruct ax as [|ax].
  - cbn [nth repeat app length] in *. rewrite Nat.sub_succ, Nat.sub_0_r. constructor; [assumption|].
    clear -Hp. induction s as [|m s IH]; [constructor|]. apply Forall_cons_iff in Hp. destruct Hp. constructor; [assumption|].
    apply IH. assumption.
  - cbn [nth repeat app length] in *. rewrite Nat.sub_succ. constructor; [assumption|]. apply IH; [assumption|lia|assumption].
Qed.

Lemma fill_axis ax : forall m i, (ax <= m)%nat ->
  fill_slice (slice_ignoring_axes (repeat 0%nat m) [ax]) [i] = axis_point (S m) ax i.
Proof.
  unfold slice_ignoring_axes, axis_point. cbn [sorted_nat fold_left].
  induction ax as [|ax IH]; intros m i H.
  - cbn. rewrite Nat.sub_0_r. f_equal. induction m as [|m IHm]; [reflexivity|]. cbn. f_equal. apply IHm. lia.
  - destruct m as [|m]; [lia|]. cbn in *. f_equal. apply IH. lia.
Qed.

(** ** Axis kernels *)

Definition no_array : ndarray := {| ashape := []; aflat := fun _ => RtoC 0 |}.

Lemma outer_entry_spec l : forall idx s, length idx = length l ->
  outer_entry l idx = axis_product s (fun ax i => aflat (nth (ax - s) l no_array) i) idx.
Proof.
  induction l as [|a l IH]; intros [|i idx] s H; try discriminate; [reflexivity|].
  cbn [outer_entry axis_product]. rewrite Nat.sub_diag. cbn [nth]. f_equal.
  rewrite (IH idx (S s)) by (injection H; auto). apply axis_product_ext.
  intros ax j Hax _. replace (ax - s)%nat with (S (ax - S s)) by lia. reflexivity.
Qed.

Lemma outer_entry_ravel l : forall idx, outer_entry (map ravel_array l) idx = outer_entry l idx.
Proof. induction l as [|a l IH]; intros [|i idx]; cbn [map outer_entry]; try reflexivity. rewrite IH. reflexivity. Qed.

Lemma from_axis_spec l shape idx : map (fun a => nprod (ashape a)) l = shape -> in_shape idx shape ->
  aflat (as_isotropic_kernel_from_axis l) (ravel shape idx)
  = axis_product 0 (fun ax i => aflat (nth ax l no_array) i) idx.
Proof.
  intros Hs Hi. unfold as_isotropic_kernel_from_axis, ravel_array at 1, outer_product. cbn [aflat].
  rewrite map_map. rewrite (map_ext _ (fun a => nprod (ashape a))) by (intros; cbn; lia). rewrite Hs.
  rewrite unravel_ravel by assumption. rewrite outer_entry_ravel.
  rewrite (outer_entry_spec l idx 0).
  - apply axis_product_ext. intros ax i _ _. rewrite Nat.sub_0_r. reflexivity.
  - rewrite (in_shape_length _ _ Hi), <- Hs, map_length. reflexivity.
Qed.

Lemma from_axis_shape l : ashape (as_isotropic_kernel_from_axis l) = [nprod (map (fun a => nprod (ashape a)) l)].
Proof.
  unfold as_isotropic_kernel_from_axis, ravel_array at 1, outer_product. cbn [ashape].
  rewrite map_map. f_equal. f_equal. apply map_ext. intros. cbn. lia.
Qed.

Lemma nth_map_seq' {A} (f : nat -> A) n d i : (i < n)%nat -> nth i (map f (seq 0 n)) d = f i.
Proof.
  intros H. rewrite (nth_indep _ d (f 0%nat)) by (rewrite map_length, seq_length; assumption).
  rewrite map_nth, seq_nth by assumption. reflexivity.
Qed.

Section Axis.
Variable shape : list nat.
Variable k : ndarray.
Let nd := length shape.
Hypothesis Hnd : (0 < nd)%nat.
Hypothesis Hpos : Forall (fun n => (0 < n)%nat) shape.
Hypothesis Hk : nprod (ashape k) = nprod shape.
Hypothesis Hk0 : aflat k 0 <> 0.

Let pf := cpower (aflat k 0) ((1 - INR nd) / INR nd).
Let g ax i := aflat k (ravel shape (axis_point nd ax i)).

Lemma axis_kernels_spec : exists l, as_axis_kernel_from_isotropic shape k = Some l /\ length l = nd /\
  forall ax, (ax < nd)%nat -> ashape (nth ax l no_array) = [nth ax shape 0%nat] /\
    forall i, aflat (nth ax l no_array) i = pf * g ax i.
Proof.
  unfold as_axis_kernel_from_isotropic. rewrite (reshape_some k shape) by assumption.
  destruct (Ceq_dec (aflat k 0) (RtoC 0)) as [E|_]; [contradiction|]. cbn [andb].
  eexists. split; [reflexivity|]. split; [rewrite map_length, seq_length; reflexivity|].
  intros ax Hax.
  rewrite nth_map_seq' by exact Hax. cbn [ashape aflat]. split; [reflexivity|].
  intros i. rewrite fill_axis by (unfold nd in *; lia).
  replace (S (length shape - 1)) with nd by (unfold nd in *; lia). reflexivity.
Qed.

Lemma axis_sizes l : length l = nd -> (forall ax, (ax < nd)%nat -> ashape (nth ax l no_array) = [nth ax shape 0%nat]) ->
  map (fun a => nprod (ashape a)) l = shape.
Proof.
  clear Hk Hk0 Hpos Hnd pf g k. intros Hl H. apply (nth_ext _ _ 0%nat 0%nat); [rewrite map_length; exact Hl|].
  intros ax Hax. rewrite map_length, Hl in Hax.
  rewrite (nth_indep _ 0%nat (nprod (ashape no_array))) by (rewrite map_length; lia).
  rewrite (map_nth (fun a => nprod (ashape a))), H by assumption. cbn. lia.
Qed.

(** Taking the axis kernels and multiplying them again. *)
Lemma axis_round_trip : exists l, as_axis_kernel_from_isotropic shape k = Some l /\ length l = nd /\
  ashape (as_isotropic_kernel_from_axis l) = [nprod shape] /\
  forall idx, in_shape idx shape ->
    aflat (as_isotropic_kernel_from_axis l) (ravel shape idx) * aflat k 0 ^ (nd - 1) = axis_product 0 g idx.
Proof.
  destruct axis_kernels_spec as [l [Hl [Hn Hv]]]. exists l. split; [exact Hl|]. split; [exact Hn|].
  assert (Hs : map (fun a => nprod (ashape a)) l = shape) by (apply axis_sizes; [exact Hn|]; intros; apply Hv; assumption).
  split; [rewrite from_axis_shape, Hs; reflexivity|].
  intros idx Hi. rewrite (from_axis_spec l shape idx Hs Hi).
  rewrite (axis_product_ext _ (fun ax i => pf * g ax i)).
  2:{ intros ax i Hax _. apply Hv. rewrite (in_shape_length _ _ Hi) in Hax. exact (proj2 Hax). }
  rewrite axis_product_mul, axis_product_const, (in_shape_length _ _ Hi). fold nd.
  transitivity (pf ^ nd * aflat k 0 ^ (nd - 1) * axis_product 0 g idx); [ring|].
  unfold pf. rewrite prefactor_power by assumption. ring.
Qed.

Lemma product_kernel_axes h : (forall idx, in_shape idx shape -> aflat k (ravel shape idx) = axis_product 0 h idx) ->
  forall idx, in_shape idx shape -> axis_product 0 g idx * aflat k 0 = aflat k (ravel shape idx) * aflat k 0 ^ nd.
Proof.
  intros Hh idx Hi.
  assert (E0 : aflat k 0 = axis_product 0 h (repeat 0%nat nd)).
  { rewrite <- (Hh (repeat 0%nat nd)).
    - f_equal. symmetry. apply ravel_zero.
    - rewrite <- (axis_point_zero nd 0) by exact Hnd. apply axis_point_in_shape; [assumption|exact Hnd|].
      rewrite Forall_forall in Hpos. apply Hpos. apply nth_In. exact Hnd. }
  assert (Eg : forall ax i, (ax < nd)%nat -> (i < nth ax shape 0)%nat -> g ax i * h ax 0%nat = h ax i * aflat k 0).
  { intros ax i Hax Hx. unfold g. rewrite Hh by (apply axis_point_in_shape; assumption).
    unfold axis_point. rewrite (axis_product_point h i _ ax 0). cbn [Nat.add]. f_equal.
    rewrite E0, <- (axis_point_zero nd ax Hax). reflexivity. }
  assert (Ea : axis_product 0 (fun ax _ => h ax 0%nat) idx = aflat k 0).
  { rewrite axis_product_zero_idx, (in_shape_length _ _ Hi). symmetry. exact E0. }
  rewrite <- Ea at 1. rewrite <- axis_product_mul.
  rewrite (axis_product_ext _ (fun ax i => h ax i * aflat k 0)).
  2:{ intros ax i Hax <-. rewrite Nat.sub_0_r. assert (length idx = nd) as HL by apply (in_shape_length _ _ Hi).
      apply Eg; [lia|]. apply in_shape_nth; [assumption|lia]. }
  rewrite axis_product_mul, axis_product_const, (in_shape_length _ _ Hi), <- Hh by assumption. reflexivity.
Qed.

Lemma Cpow_neq_0 (z : C) n : z <> 0 -> z ^ n <> 0.
Proof. intros Hz. induction n as [|n IH]; cbn [Cpow]; [intros E; apply RtoC_inj in E; lra|]. apply Cmult_neq_0; assumption. Qed.

(** The kernel comes back unchanged exactly if it is a product. *)
Lemma axis_round_trip_iff l : as_axis_kernel_from_isotropic shape k = Some l ->
  (forall t, (t < nprod shape)%nat -> aflat (as_isotropic_kernel_from_axis l) t = aflat k t) <->
  product_kernel shape k.
Proof.
  intros Hl. destruct axis_round_trip as [l' [Hl' [Hn [_ H]]]]. rewrite Hl in Hl'. injection Hl' as <-.
  destruct axis_kernels_spec as [l' [Hl' [_ Hv]]]. rewrite Hl in Hl'. injection Hl' as <-.
  assert (Hs : map (fun a => nprod (ashape a)) l = shape) by (apply axis_sizes; [exact Hn|]; intros; apply Hv; assumption).
  split.
  - intros HE. exists (fun ax i => aflat (nth ax l no_array) i). intros idx Hi.
    rewrite <- HE by (apply ravel_lt; assumption). apply from_axis_spec; assumption.
  - intros [h Hh] t Ht. rewrite <- (ravel_unravel shape t Ht).
    assert (Hi := unravel_in_shape shape t Ht). set (idx := unravel shape t) in *.
    assert (A := H idx Hi). assert (B := product_kernel_axes h Hh idx Hi). rewrite <- A in B.
    replace nd with (S (nd - 1)) in B at 2 by lia. cbn [Cpow] in B.
    assert (N := Cpow_neq_0 _ (nd - 1) Hk0).
    assert (forall x y : C, x * aflat k 0 ^ (nd - 1) * aflat k 0 = y * (aflat k 0 * aflat k 0 ^ (nd - 1)) -> x = y) as X.
    { intros x y E. transitivity (x * aflat k 0 ^ (nd - 1) * aflat k 0 / (aflat k 0 * aflat k 0 ^ (nd - 1))).
      - field. split; assumption. - rewrite E. field. split; assumption. }
    apply X. exact B.
Qed.
End Axis.

(** ** Operators of several axes *)

Fixpoint term_product (l : list noise_operators) (a x y : list nat) : C :=
  match l, a, x, y with
  | o :: l, i :: a, j :: x, m :: y =>
      eigenvalue o i * Cconj (diag_entry (nops o) i j) * diag_entry (nops o) i m * term_product l a x y
  | _, _, _, _ => 1
  end.

Lemma unravel_cons s i j : (j < nprod s)%nat -> unravel s ((i * nprod s + j) mod nprod s) = unravel s j /\
  ((i * nprod s + j) / nprod s = i)%nat.
Proof. intros H. rewrite div_add_small, mod_add_small by assumption. split; reflexivity. Qed.

Lemma term_product_sum l : forall x y, length x = length l -> length y = length l ->
  csum (fun t => term_product l (unravel (map noise_count l) t) x y) (nprod (map noise_count l))
  = product_of_kernels l x y.
Proof.
  induction l as [|o l IH]; intros [|i x] [|j y] Hx Hy; try discriminate.
  - cbn. ring.
  - injection Hx as Hx. injection Hy as Hy. cbn [map nprod product_of_kernels]. rewrite csum_mul.
    rewrite <- (IH x y Hx Hy). unfold diagonal_kernel_of. rewrite <- csum_scal_r.
    apply csum_ext. intros a Ha. rewrite <- csum_scal_l. apply csum_ext. intros t Ht. cbn [unravel].
    destruct (unravel_cons (map noise_count l) a t Ht) as [-> ->]. cbn [term_product]. ring.
Qed.

Definition rows_of (o : noise_operators) : ndarray :=
  {| ashape := [noise_count o; bsize (lrow (nops o))]; aflat := aflat (ldata (nops o)) |}.

Lemma all_rows_spec l : Forall (fun o => diagonal_noise_wf o /\ (0 < noise_count o)%nat) l ->
  all_rows l = Some (map rows_of l).
Proof.
  induction 1 as [|o l [[[_ Hw] _] Hc] H IH]; cbn [all_rows map]; [reflexivity|].
  unfold noise_count in Hc; rewrite (reshape_rows_some _ _ _ Hc Hw), IH. reflexivity.
Qed.

Lemma product_entry_conj l : forall a x, Cconj (product_entry l a x) =
  product_entry (map (fun d => {| ashape := ashape d; aflat := fun t => Cconj (aflat d t) |}) l) a x.
Proof.
  induction l as [|d l IH]; intros [|i a] [|j x]; cbn [product_entry map];
    try (unfold Cconj, RtoC; cbn [fst snd]; f_equal; ring).
  rewrite <- IH, Cconj_mult. reflexivity.
Qed.

Lemma term_product_spec l : forall a x y, length a = length l -> length x = length l -> length y = length l ->
  outer_entry (map neig l) a * Cconj (product_entry (map rows_of l) a x) * product_entry (map rows_of l) a y
  = term_product l a x y.
Proof.
  induction l as [|o l IH]; intros [|i a] [|j x] [|m y] Ha Hx Hy; try discriminate.
  - cbn. unfold Cconj, Cmult, RtoC. cbn [fst snd]. f_equal; ring.
  - injection Ha as Ha. injection Hx as Hx. injection Hy as Hy. cbn [map outer_entry product_entry term_product].
    rewrite <- (IH a x y Ha Hx Hy), Cconj_mult.
    change (at2 (rows_of o) i j) with (diag_entry (nops o) i j).
    change (at2 (rows_of o) i m) with (diag_entry (nops o) i m). unfold eigenvalue. ring.
Qed.

Lemma axis_operators_kernel l : Forall (fun o => diagonal_noise_wf o /\ (0 < noise_count o)%nat) l ->
  let s := map (fun o => bsize (lrow (nops o))) l in
  exists o, get_diagonal_noise_operators_from_axis l = Some o /\ diagonal_noise_wf o /\
    noise_count o = nprod (map noise_count l) /\ bsize (lrow (nops o)) = nprod s /\
    forall x y, in_shape x s -> in_shape y s ->
      diagonal_kernel_of o (ravel s x) (ravel s y) = product_of_kernels l x y.
Proof.
  intros H. cbv zeta. unfold get_diagonal_noise_operators_from_axis. rewrite (all_rows_spec l H).
  rewrite !map_map. cbn [rows_of ashape nth].
  change (map (fun x => noise_count x) l) with (map noise_count l).
  set (s := map (fun o => bsize (lrow (nops o))) l). set (r := map noise_count l).
  assert (Hr : map bsize (map (fun o => lbasis (nops o)) l) = r) by (rewrite map_map; reflexivity).
  assert (Hs : map bsize (map (fun o => lrow (nops o)) l) = s) by (rewrite map_map; reflexivity).
  assert (He : map (fun a => nprod (ashape a)) (map (fun o => ravel_array (neig o)) l) = r).
  { rewrite map_map. unfold r. apply map_ext_in. intros o Ho.
    rewrite Forall_forall in H. destruct (H o Ho) as [[_ E] _]. cbn. rewrite E. cbn. lia. }
  set (o := {| nops := _; neig := _ |}).
  assert (Hc : noise_count o = nprod r) by (unfold noise_count, o; cbn [nops lbasis bsize]; rewrite Hr; reflexivity).
  assert (Hb : bsize (lrow (nops o)) = nprod s) by (unfold o; cbn [nops lrow bsize]; rewrite Hs; reflexivity).
  exists o. split; [reflexivity|]. split; [|split; [exact Hc|split; [exact Hb|]]].
  { split.
    - split; [reflexivity|]. change (bsize (lbasis (nops o))) with (noise_count o). rewrite Hc, Hb.
      cbn [o nops ldata ravel_array ashape array2 nprod]. ring.
    - rewrite Hc. cbn [o neig ravel_array ashape outer_product]. unfold outer_product. cbn [ashape]. rewrite He. reflexivity. }
  intros x y Hx Hy. unfold diagonal_kernel_of. rewrite Hc.
  assert (Lx : length x = length l) by (rewrite (in_shape_length _ _ Hx); apply map_length).
  assert (Ly : length y = length l) by (rewrite (in_shape_length _ _ Hy); apply map_length).
  rewrite <- term_product_sum by assumption. apply csum_ext. intros t Ht.
  assert (Lt : length (unravel r t) = length l) by (rewrite unravel_length; apply map_length).
  rewrite <- term_product_spec by assumption.
  assert (E : eigenvalue o t = outer_entry (map neig l) (unravel r t)).
  { unfold eigenvalue. cbn [o neig ravel_array aflat]. unfold outer_product. cbn [aflat]. rewrite He.
    rewrite <- (map_map neig ravel_array), outer_entry_ravel. reflexivity. }
  assert (D : forall z, in_shape z s -> diag_entry (nops o) t (ravel s z) = product_entry (map rows_of l) (unravel r t) z).
  { intros z Hz. unfold diag_entry. rewrite Hb. cbn [o nops ldata ravel_array aflat].
    rewrite array2_flat by (apply ravel_lt; assumption). rewrite unravel_ravel by assumption. reflexivity. }
  rewrite E, !D by assumption. reflexivity.
Qed.

(** ** Operators of a stacked kernel, axis by axis *)

Definition no_operators : noise_operators :=
  {| nops := {| lbasis := BFund 0; lrow := BFund 0; lcol := BFund 0; ldata := no_array |}; neig := no_array |}.

Lemma all_some_spec {A B} (f : A -> option B) (P : A -> B -> Prop) l :
  (forall x, In x l -> exists y, f x = Some y /\ P x y) ->
  exists r, all_some (map f l) = Some r /\ Forall2 P l r.
Proof.
  induction l as [|x l IH]; intros H.
  - exists []. split; [reflexivity|constructor].
  - destruct (H x (or_introl eq_refl)) as [y [Hy Hp]]. destruct IH as [r [Hr HF]]; [intros; apply H; right; assumption|].
    exists (y :: r). cbn [map all_some]. rewrite Hy, Hr. split; [reflexivity|]. constructor; assumption.
Qed.

Definition rebuilds (n : nat) (k : ndarray) (o : noise_operators) : Prop :=
  diagonal_noise_wf o /\ (0 < noise_count o)%nat /\ bsize (lrow (nops o)) = n /\
  forall i j d, (i < n)%nat -> (j < n)%nat -> (d < n)%nat ->
    Zcong (Z.of_nat n) (Z.of_nat d) (Z.of_nat i - Z.of_nat j) -> diagonal_kernel_of o i j = aflat k d.

Lemma fft_rebuilds ap n k : (0 < n)%nat -> ashape k = [n] ->
  exists o, get_periodic_noise_operators_isotropic_fft ap (BFund n) k None = Some o /\ rebuilds n k o.
Proof.
  intros Hn Hk. destruct (isotropic_fft_full ap (BFund n) k n eq_refl Hk Hn) as [o [D [Ho [Hw [Hc [HD HE]]]]]].
  exists o. split; [exact Ho|]. assert (Hb : bsize (lrow (nops o)) = n).
  { revert Ho. unfold get_periodic_noise_operators_isotropic_fft, get_operators_for_isotropic_noise.
    destruct (ap && _); [discriminate|]. destruct (get_noise_eigenvalues_isotropic_fft _ _ _); [|discriminate].
    intros E. injection E as <-. reflexivity. }
  split; [exact Hw|]. split; [lia|]. split; [exact Hb|]. intros i j d Hi Hj Hd Hcg.
  destruct (diagonal_kernel_spec o Hw ltac:(lia)) as [D' [HD' [_ HV]]]. rewrite HD in HD'. injection HD' as <-.
  rewrite Hb in HV. rewrite <- HV by assumption. unfold entry2. rewrite HE by (apply pair_lt; assumption).
  apply (diagonal_from_isotropic n k Hn); [rewrite Hk; cbn; lia|assumption..].
Qed.

Lemma product_of_kernels_displacement shape : forall ks l d x y,
  length ks = length shape -> length l = length shape ->
  (forall ax, (ax < length shape)%nat -> rebuilds (nth ax shape 0%nat) (nth ax ks no_array) (nth ax l no_operators)) ->
  in_shape x shape -> in_shape y shape -> displacement shape d x y ->
  product_of_kernels l x y = outer_entry ks d.
Proof.
  induction shape as [|n shape IH]; intros [|k ks] [|o l] d x y Hk Hl H Hx Hy Hd; try discriminate;
    inversion Hx; subst; inversion Hy; subst; destruct d as [|e d]; cbn [displacement] in Hd; try contradiction.
  - reflexivity.
  - cbn [product_of_kernels outer_entry]. destruct Hd as [He [Hc Hd]]. f_equal.
    + destruct (H 0%nat ltac:(cbn [length]; lia)) as [_ [_ [_ HV]]]. apply HV; assumption.
    + apply (IH ks l d); try assumption; try (injection Hk as Hk; injection Hl as Hl; assumption).
      intros ax Hax. apply (H (S ax)). cbn [length]. lia.
Qed.

Lemma Forall2_nth_all {A B} (P : A -> B -> Prop) l r da db : Forall2 P l r ->
  length l = length r /\ forall i, (i < length l)%nat -> P (nth i l da) (nth i r db).
Proof.
  induction 1 as [|x y l r Hp H [IL IH]]; cbn [length]; split; try lia.
  intros [|i] Hi; cbn [nth]; [assumption|]. apply IH. lia.
Qed.

Section StackedFft.
Variable shape : list nat.
Variable k : ndarray.
Let nd := length shape.
Hypothesis Hnd : (0 < nd)%nat.
Hypothesis Hpos : Forall (fun n => (0 < n)%nat) shape.
Hypothesis Hk : nprod (ashape k) = nprod shape.
Hypothesis Hk0 : aflat k 0 <> 0.

Lemma real_stacked_fft ap : exists l o D,
  as_axis_kernel_from_isotropic shape k = Some l /\
  get_periodic_noise_operators_real_isotropic_stacked_fft ap shape k (fun _ => None) = Some o /\
  diagonal_noise_wf o /\
  get_diagonal_kernel_from_diagonal_operators o = Some D /\
  ashape D = [(nprod shape * nprod shape)%nat] /\
  forall x y d, in_shape x shape -> in_shape y shape -> displacement shape d x y ->
    entry2 (nprod shape) D (ravel shape x) (ravel shape y) =
    aflat (as_isotropic_kernel_from_axis l) (ravel shape d).
Proof.
  destruct (axis_kernels_spec shape k Hnd Hk Hk0) as [l [Hl [Hn Hv]]]. change (length l = nd) in Hn. exists l.
  unfold get_periodic_noise_operators_real_isotropic_stacked_fft. rewrite Hl.
  set (f := fun ak : nat * ndarray => _).
  set (P := fun (ak : nat * ndarray) o => rebuilds (nth (fst ak) shape 0%nat) (snd ak) o).
  assert (Hcl : length (combine (seq 0 (length l)) l) = length l) by (rewrite combine_length, seq_length; lia).
  assert (Hcn : forall ax, (ax < length l)%nat ->
    nth ax (combine (seq 0 (length l)) l) (0%nat, no_array) = (ax, nth ax l no_array)).
  { intros ax Hax. rewrite combine_nth by apply seq_length. rewrite seq_nth by assumption. reflexivity. }
  destruct (all_some_spec f P (combine (seq 0 (length l)) l)) as [r [Hr HF]].
  { intros ak Hin. apply (In_nth _ _ (0%nat, no_array)) in Hin. destruct Hin as [ax [Hax <-]].
    rewrite Hcl in Hax. rewrite Hcn by assumption. unfold f, P. cbn [fst snd].
    apply fft_rebuilds.
    - rewrite Forall_forall in Hpos. apply Hpos, nth_In. change (length shape) with nd. lia.
    - apply Hv. change (length shape) with nd. lia. }
  rewrite Hr. destruct (Forall2_nth_all P _ _ (0%nat, no_array) no_operators HF) as [HL HP].
  rewrite Hcl in HL, HP.
  assert (HP' : forall ax, (ax < nd)%nat -> rebuilds (nth ax shape 0%nat) (nth ax l no_array) (nth ax r no_operators)).
  { intros ax Hax. rewrite <- Hn in Hax. specialize (HP ax Hax). rewrite Hcn in HP by assumption. exact HP. }
  assert (HFr : Forall (fun o => diagonal_noise_wf o /\ (0 < noise_count o)%nat) r).
  { apply Forall_forall. intros o Ho. apply (In_nth _ _ no_operators) in Ho. destruct Ho as [ax [Hax <-]].
    destruct (HP' ax ltac:(lia)) as [A [B _]]. split; assumption. }
  assert (Hsz : map (fun o => bsize (lrow (nops o))) r = shape).
  { apply (nth_ext _ _ 0%nat 0%nat); [rewrite map_length; fold nd; lia|]. intros ax Hax. rewrite map_length in Hax.
    etransitivity; [apply (map_nth (fun o => bsize (lrow (nops o))) r no_operators)|]. apply (HP' ax). lia. }
  destruct (axis_operators_kernel r HFr) as [o [Ho [Hw [Hc [Hb HK]]]]]. rewrite Hsz in Hb, HK.
  assert (Hcp : (0 < noise_count o)%nat).
  { rewrite Hc. apply nprod_pos. apply Forall_map. apply Forall_forall. intros q Hq.
    rewrite Forall_forall in HFr. apply HFr. assumption. }
  destruct (diagonal_kernel_spec o Hw Hcp) as [D [HD [HS HE]]]. rewrite Hb in HS, HE.
  exists o, D. split; [reflexivity|]. split; [exact Ho|]. split; [exact Hw|]. split; [exact HD|]. split; [exact HS|].
  intros x y d Hx Hy Hd. rewrite HE by (apply ravel_lt; assumption). rewrite HK by assumption.
  rewrite (product_of_kernels_displacement shape l r d x y); try assumption; try lia.
  assert (Hdi := displacement_in_shape _ _ _ _ Hd).
  assert (Hms : map (fun a => nprod (ashape a)) l = shape) by (apply axis_sizes; [exact Hn|]; intros; apply Hv; assumption).
  rewrite (from_axis_spec l shape d Hms Hdi). rewrite (outer_entry_spec l d 0).
  - apply axis_product_ext. intros ax i _ _. rewrite Nat.sub_0_r. reflexivity.
  - rewrite (in_shape_length _ _ Hdi). fold nd. lia.
Qed.

(** For a product kernel the operators reproduce the kernel. *)
Lemma real_stacked_fft_product ap : product_kernel shape k -> exists o D K,
  get_periodic_noise_operators_real_isotropic_stacked_fft ap shape k (fun _ => None) = Some o /\
  get_diagonal_kernel_from_diagonal_operators o = Some D /\
  as_diagonal_kernel_from_isotropic_stacked shape k = Some K /\
  forall t, (t < nprod shape * nprod shape)%nat -> aflat D t = aflat K t.
Proof.
  intros Hp. destruct (real_stacked_fft ap) as [l [o [D [Hl [Ho [Hw [HD [HS HE]]]]]]]].
  assert (Hnp := nprod_pos shape Hpos).
  destruct (diagonal_from_isotropic_stacked shape k Hnp Hk) as [K [HK [_ HKE]]].
  exists o, D, K. split; [exact Ho|]. split; [exact HD|]. split; [exact HK|].
  intros t Ht. destruct (pair_split _ _ t Ht) as [i [j [Hi [Hj ->]]]].
  rewrite <- (ravel_unravel shape i Hi), <- (ravel_unravel shape j Hj).
  assert (Ii := unravel_in_shape shape i Hi). assert (Ij := unravel_in_shape shape j Hj).
  set (x := unravel shape i) in *. set (y := unravel shape j) in *.
  assert (Hd := displacement_list_spec shape x y Hpos (in_shape_length _ _ Ii) (in_shape_length _ _ Ij)).
  set (d := displacement_list shape x y) in *.
  etransitivity; [apply (HE x y d Ii Ij Hd)|]. symmetry. etransitivity; [apply (HKE x y d Ii Ij Hd)|]. symmetry.
  apply (proj2 (axis_round_trip_iff shape k Hnd Hpos Hk Hk0 l Hl) Hp).
  apply ravel_lt. apply (displacement_in_shape _ _ _ _ Hd).
Qed.
End StackedFft.
