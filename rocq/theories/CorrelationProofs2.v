(** Proofs about the gaussian and lorentzian kernels. *)
From Coq Require Import Reals Lra Lia Psatz.
From Verif Require Import ZLib Csum DFT NumPy Spec Index IndexProofs Lattice LatticeProofs Basis SpecBasis Operator SpecOperator
  Kernel SpecKernel KernelProofs Correlation SpecCorrelation CorrelationProofs.
Local Open Scope R_scope.

(** ** The function for bases which are not stacked *)
Lemma build_1d_none d n delta fn : (0 < d)%nat -> (d <> 1 \/ n <> 1)%nat ->
  build_isotropic_kernel_from_function d n delta fn = None.
Proof.
  intros Hd H. unfold build_isotropic_kernel_from_function, displacements_matrix_x_shape_nd, einsum_dim.
  destruct (Nat.eqb_spec n d) as [->|Hne].
  - cbn [nprod]. destruct (Nat.eqb_spec (d * (d * (d * 1))) (d * d)) as [E|E]; [|reflexivity].
    exfalso. nia.
  - destruct (Nat.eqb_spec n 1) as [->|Hn1].
    + cbn [nprod]. destruct (Nat.eqb_spec (d * (d * (d * 1))) (1 * 1)) as [E|E]; [|reflexivity].
      exfalso. nia.
    + destruct (Nat.eqb_spec d 1) as [->|Hd1]; [|reflexivity]. cbn [nprod].
      destruct (Nat.eqb_spec (1 * (1 * (n * 1))) (n * n)) as [E|E]; [|reflexivity].
      destruct n as [|n]; [reflexivity|exfalso; nia].
Qed.

Lemma build_1d_one delta fn : delta 0%nat <> 0 ->
  exists k, build_isotropic_kernel_from_function 1 1 delta fn = Some k /\ ashape k = [1%nat] /\
    aflat k 0 = fn (- (Rabs (delta 0%nat) / 2)).
Proof.
  intros Hd. eexists. split; [reflexivity|]. split; [reflexivity|]. cbn [aflat unravel nth]. f_equal.
  unfold displacements_matrix_x_nd, einsum_index. cbn [Nat.eqb].
  rewrite (norm_ext 1 delta (fun _ => delta 0%nat)).
  2:{ intros c Hc. f_equal. lia. }
  rewrite norm_1. assert (Hp := Rabs_pos_lt _ Hd).
  assert (E : rmod (delta 0%nat) (Rabs (delta 0%nat) / 2) = 0).
  { destruct (Rcase_abs (delta 0%nat)) as [H|H].
    - apply (rmod_unique _ _ _ 2); [lra|lra|]. rewrite (Rabs_left _ H). lra.
    - apply (rmod_unique _ _ _ (-2)); [lra|lra|]. rewrite (Rabs_right _ H). lra. }
  change (0 / nprod [1%nat; 1%nat])%nat with 0%nat.
  match goal with |- (rmod ?x _ - _ = _)%R => replace x with (delta 0%nat) end.
  2:{ simpl. unfold Rdiv. ring. }
  rewrite E. lra.
Qed.

Lemma all_some_none {A} (l : list (option A)) : In None l -> all_some l = None.
Proof.
  induction l as [|[a|] l IH]; intros H; [contradiction| |reflexivity].
  destruct H as [H|H]; [discriminate|]. simpl. rewrite (IH H). reflexivity.
Qed.

Lemma build_axis_none delta shape fn : (0 < length shape)%nat -> shape <> [1%nat] ->
  build_axis_kernel_from_function_stacked delta shape fn = None.
Proof.
  intros Hl Hs. apply all_some_none. apply in_map_iff.
  destruct shape as [|n shape]; [simpl in Hl; lia|]. exists 0%nat. split.
  - apply build_1d_none; [simpl; lia|]. destruct shape as [|m shape]; [|left; simpl; lia].
    right. simpl. intros ->. apply Hs. reflexivity.
  - apply in_seq. simpl. lia.
Qed.

(** ** One axis *)
Lemma displacement_1d n d i j : (d < n)%nat -> Zcong (Z.of_nat n) (Z.of_nat d) (Z.of_nat i - Z.of_nat j) ->
  displacement [n] [d] [i] [j].
Proof. intros H1 H2. simpl. tauto. Qed.

Lemma residue n (i j : nat) : (0 < n)%nat -> exists d, (d < n)%nat /\
  Zcong (Z.of_nat n) (Z.of_nat d) (Z.of_nat i - Z.of_nat j).
Proof.
  intros Hn. exists (Z.to_nat ((Z.of_nat i - Z.of_nat j) mod Z.of_nat n)).
  assert (B := Z.mod_pos_bound (Z.of_nat i - Z.of_nat j) (Z.of_nat n) ltac:(lia)).
  split; [lia|]. rewrite Z2Nat.id by lia. apply Zcong_mod. lia.
Qed.

Lemma in_shape_1d n i : (i < n)%nat -> in_shape [i] [n].
Proof. intros H. constructor; [exact H|constructor]. Qed.

Lemma ravel_1d n i : ravel [n] [i] = i.
Proof. simpl. lia. Qed.

Lemma gaussian_1d delta n a lambda : aligned 1 delta -> (0 < n)%nat ->
  exists D, get_gaussian_noise_kernel delta [n] a lambda = Some D /\ ashape D = [(n * n)%nat] /\
    forall i j, (i < n)%nat -> (j < n)%nat ->
      exists r, periodic_distance delta [n] [i] [j] r /\ entry2 n D i j = gaussian_fn a lambda r.
Proof.
  intros Ha Hn.
  destruct (isotropic_kernel_spec delta [n] (gaussian_fn a lambda) Ha) as [k [Hk [Sk Vk]]].
  { constructor; [exact Hn|constructor]. }
  unfold get_gaussian_noise_kernel, get_gaussian_isotropic_noise_kernel. rewrite Hk.
  replace (nprod [n]) with n in * by (simpl; lia).
  destruct (diagonal_from_isotropic n k Hn) as [SD VD]; [rewrite Sk; simpl; lia|].
  eexists. split; [reflexivity|]. split; [exact SD|]. intros i j Hi Hj.
  destruct (residue n i j Hn) as [d [Hd Hc]].
  destruct (Vk [i] [j] [d]) as [r [Hr Er]]; [apply in_shape_1d; assumption|apply in_shape_1d; assumption|
    apply displacement_1d; assumption|].
  exists r. split; [exact Hr|]. rewrite (VD i j d Hi Hj Hd Hc). rewrite ravel_1d in Er. exact Er.
Qed.

Lemma distance_1d delta n i j r : aligned 1 delta -> (i < n)%nat -> (j < n)%nat ->
  periodic_distance delta [n] [i] [j] r -> 0 <= r <= Rabs (delta 0%nat 0%nat) / 2.
Proof.
  intros Ha Hi Hj Hr. destruct (residue n i j) as [d [Hd Hc]]; [lia|].
  assert (E := total_is_distance delta [n] Ha [i] [j] [d] (in_shape_1d _ _ Hi) (in_shape_1d _ _ Hj) (displacement_1d _ _ _ _ Hd Hc)).
  rewrite (periodic_distance_unique _ _ _ _ _ _ Hr E). rewrite total_row_zero by (try exact Ha; apply in_shape_1d; exact Hd).
  split; [apply norm_nonneg|]. rewrite (norm_ext _ _ (fun _ => axis_wrap delta [n] 0 d)).
  - cbn [length]. rewrite norm_1. apply (axis_wrap_spec delta [n] Ha 0 d). simpl. lia.
  - intros c Hcc. cbn [length] in Hcc. replace c with 0%nat by lia. reflexivity.
Qed.

Lemma distance_1d_half delta n i j r : aligned 1 delta -> (i < n)%nat -> (j < n)%nat -> (2 * i = 2 * j + n)%nat ->
  periodic_distance delta [n] [i] [j] r -> r = Rabs (delta 0%nat 0%nat) / 2.
Proof.
  intros Ha Hi Hj Hij Hr. destruct (residue n i j) as [d [Hd Hc]]; [lia|].
  assert (Ed : (2 * d = n)%nat). { destruct Hc as [k Hk]. assert (k = 0%Z) by nia. lia. }
  assert (E := total_is_distance delta [n] Ha [i] [j] [d] (in_shape_1d _ _ Hi) (in_shape_1d _ _ Hj) (displacement_1d _ _ _ _ Hd Hc)).
  rewrite (periodic_distance_unique _ _ _ _ _ _ Hr E). rewrite total_row_zero by (try exact Ha; apply in_shape_1d; exact Hd).
  rewrite (norm_ext _ _ (fun _ => axis_wrap delta [n] 0 d)).
  2:{ intros c Hcc. cbn [length] in Hcc. replace c with 0%nat by lia. reflexivity. }
  cbn [length]. rewrite norm_1. destruct (axis_wrap_spec delta [n] Ha 0 d) as [B [z Hz]]; [simpl; lia|].
  cbn [nth] in Hz. assert (Hp : 0 < Rabs (delta 0%nat 0%nat)). { apply Rabs_pos_lt. apply (aligned_diag 1 delta 0 Ha). lia. }
  assert (Eh : INR d / INR n = 1 / 2). { rewrite <- Ed, mult_INR. simpl (INR 2). field. apply not_0_INR. lia. }
  rewrite Eh in Hz. replace (- (1 / 2) * delta 0%nat 0%nat + IZR z * delta 0%nat 0%nat) with
    ((IZR z - 1 / 2) * delta 0%nat 0%nat) in Hz by ring. rewrite Hz in B |- *. rewrite Rabs_mult in B |- *.
  assert (Hh : Rabs (IZR z - 1 / 2) = 1 / 2); [|rewrite Hh; lra].
  assert (Hle : Rabs (IZR z - 1 / 2) <= 1 / 2) by nra.
  assert (H1 := Rle_abs (IZR z - 1 / 2)). assert (H2 := Rle_abs (- (IZR z - 1 / 2))). rewrite Rabs_Ropp in H2.
  assert (Hz0 : (0 <= z <= 1)%Z). { split; [apply le_IZR|apply le_IZR]; lra. }
  assert (Hcase : (z = 0 \/ z = 1)%Z) by lia. destruct Hcase as [-> | ->].
  - rewrite Rabs_left; lra.
  - rewrite Rabs_right; lra.
Qed.

(** ** Lengths *)
Lemma fold_Rmin_spec l : forall x, (fold_left Rmin l x = x \/ In (fold_left Rmin l x) l) /\
  fold_left Rmin l x <= x /\ forall y, In y l -> fold_left Rmin l x <= y.
Proof.
  induction l as [|a l IH]; intros x; simpl.
  - split; [left; reflexivity|]. split; [lra|]. intros y [].
  - destruct (IH (Rmin x a)) as [H1 [H2 H3]]. split; [|split].
    + destruct H1 as [E|E]; [|right; right; exact E]. rewrite E. unfold Rmin. destruct (Rle_dec x a); [left|right; left]; reflexivity.
    + assert (A := Rmin_l x a). lra.
    + intros y [->|Hy]; [|apply H3; exact Hy]. assert (A := Rmin_r x y). lra.
Qed.

Lemma smallest_length_spec delta nd : (0 < nd)%nat -> exists L, smallest_length delta nd = Some L /\ shortest nd delta L.
Proof.
  destruct nd as [|m]; [lia|]. intros _. eexists. split; [reflexivity|].
  destruct (fold_Rmin_spec (map (fun a => norm (S m) (delta a)) (seq 1 m)) (norm (S m) (delta 0%nat))) as [H1 [H2 H3]].
  split.
  - destruct H1 as [E|E]; [exists 0%nat; split; [lia|exact E]|].
    apply in_map_iff in E. destruct E as [a [Ea Hin]]. apply in_seq in Hin. exists a. split; [lia|symmetry; exact Ea].
  - intros a Ha. destruct a as [|a]; [exact H2|]. apply H3. apply in_map_iff. exists (S a). split; [reflexivity|].
    apply in_seq. lia.
Qed.

Lemma shortest_pos nd delta L : aligned nd delta -> shortest nd delta L -> 0 < L.
Proof.
  intros Ha [[a [Hn ->]] _]. rewrite (aligned_norm nd delta a Ha Hn). apply Rabs_pos_lt. apply (aligned_diag nd delta a Ha Hn).
Qed.

Lemma coupling_sq kb h eta t : 0 <= eta * kb * t -> h <> 0 -> coupling kb h eta t ^ 2 = 2 * (eta * kb * t) / h ^ 2.
Proof.
  intros H Hh. unfold coupling. rewrite <- Rsqr_pow2. unfold Rsqr. rewrite sqrt_sqrt; [field; exact Hh|].
  apply Rmult_le_pos; [lra|]. left. apply Rinv_0_lt_compat. assert (0 < h ^ 2); [|assumption].
  rewrite <- Rsqr_pow2. apply Rsqr_pos_lt. exact Hh.
Qed.

Lemma gaussian_parameters_spec kb h delta nd eta t f : (0 < nd)%nat -> 0 <= eta * kb * t -> h <> 0 -> f <> 0 ->
  exists a lambda L, get_effective_gaussian_parameters kb h delta nd eta t f = Some (a, lambda) /\
    shortest nd delta L /\ lambda * f = L /\ a ^ 2 = 2 * (eta * kb * t) / h ^ 2 * lambda ^ 2.
Proof.
  intros Hn Hp Hh Hf. destruct (smallest_length_spec delta nd Hn) as [L [HL SL]].
  exists (coupling kb h eta t * (L / f)), (L / f), L. unfold get_effective_gaussian_parameters. rewrite HL.
  split; [reflexivity|]. split; [exact SL|]. split; [field; exact Hf|]. rewrite Rpow_mult_distr, coupling_sq by assumption. reflexivity.
Qed.

Lemma lorentzian_parameters_spec kb h delta nd eta t f : (0 < nd)%nat -> 0 <= eta * kb * t -> h <> 0 -> f <> 0 ->
  exists a lambda L, get_effective_lorentzian_parameter kb h delta nd eta t f = Some (a, lambda) /\
    shortest nd delta L /\ lambda * f = L / 2 /\ a ^ 2 = 2 * (eta * kb * t) / h ^ 2 * lambda ^ 2.
Proof.
  intros Hn Hp Hh Hf. destruct (smallest_length_spec delta nd Hn) as [L [HL SL]].
  exists (coupling kb h eta t * (L / 2 / f)), (L / 2 / f), L. unfold get_effective_lorentzian_parameter. rewrite HL.
  split; [reflexivity|]. split; [exact SL|]. split; [field; exact Hf|]. rewrite Rpow_mult_distr, coupling_sq by assumption. reflexivity.
Qed.

(** ** Small displacements *)
Lemma exp_lower2 u : 0 <= u -> 1 + u + u ^ 2 / 2 <= exp u.
Proof.
  intros Hu. pose (g := fun x => exp x - (1 + x + x ^ 2 / 2)).
  destruct (Req_dec u 0) as [->|Hne]; [rewrite exp_0; lra|].
  destruct (MVT_cor2 g (fun x => exp x - (1 + x)) 0 u) as [c [E Hc]]; [lra| |].
  - intros c Hc. unfold g. 
    assert (D : derivable_pt_lim (fun x => exp x - (1 + x + x ^ 2 / 2)) c (exp c - (0 + 1 + INR 2 * c ^ (pred 2) * / 2))).
    { apply derivable_pt_lim_minus; [apply derivable_pt_lim_exp|]. apply derivable_pt_lim_plus.
      - apply derivable_pt_lim_plus; [apply derivable_pt_lim_const|apply derivable_pt_lim_id].
      - unfold Rdiv. assert (H := derivable_pt_lim_mult (fun x => x ^ 2) (fun _ => / 2) c _ _ (derivable_pt_lim_pow c 2) (derivable_pt_lim_const (/ 2) c)).
        unfold mult_fct in H. rewrite Rmult_0_r, Rplus_0_r in H. exact H. }
    replace (exp c - (1 + c)) with (exp c - (0 + 1 + INR 2 * c ^ (pred 2) * / 2)) by (simpl; field). exact D.
  - unfold g in E. rewrite exp_0 in E. assert (B := exp_ineq1_le c). nra.
Qed.

Lemma exp_minus_bounds u : 0 <= u -> 1 - u <= exp (- u) <= 1 - u + u ^ 2 / 2.
Proof.
  intros Hu. split; [assert (A := exp_ineq1_le (- u)); lra|].
  assert (A := exp_lower2 u Hu). assert (B := exp_pos u). rewrite exp_Ropp.
  apply (Rmult_le_reg_r (exp u)); [exact B|]. rewrite Rinv_l by lra.
  assert (C : 1 <= (1 - u + u ^ 2 / 2) * (1 + u + u ^ 2 / 2)) by nra.
  assert (D : 0 < 1 - u + u ^ 2 / 2) by nra. nra.
Qed.

Lemma gaussian_quadratic a lambda c r : lambda <> 0 -> 0 <= c -> a ^ 2 = 2 * c * lambda ^ 2 ->
  Rabs (a ^ 2 * exp (- r ^ 2 / (2 * lambda ^ 2)) - (a ^ 2 - c * r ^ 2)) <= c * r ^ 4 / (4 * lambda ^ 2).
Proof.
  intros Hl Hc Ea. assert (Hl2 : 0 < lambda ^ 2) by (rewrite <- Rsqr_pow2; apply Rsqr_pos_lt; exact Hl).
  set (u := r ^ 2 / (2 * lambda ^ 2)).
  assert (Hu : 0 <= u). { apply Rmult_le_pos; [nra|]. left. apply Rinv_0_lt_compat. lra. }
  assert (B := exp_minus_bounds u Hu). replace (- r ^ 2 / (2 * lambda ^ 2)) with (- u) by (unfold u; field; exact Hl).
  assert (E1 : c * r ^ 2 = a ^ 2 * u) by (rewrite Ea; unfold u; field; exact Hl).
  assert (E2 : c * r ^ 4 / (4 * lambda ^ 2) = a ^ 2 * (u ^ 2 / 2)) by (rewrite Ea; unfold u; field; exact Hl).
  rewrite E1, E2. assert (Ha : 0 <= a ^ 2) by nra. apply Rabs_le. nra.
Qed.

Lemma lorentzian_quadratic a lambda c r : lambda <> 0 -> 0 <= c -> a ^ 2 = c * lambda ^ 2 ->
  Rabs (a ^ 2 * lambda ^ 2 / (r ^ 2 + lambda ^ 2) - (a ^ 2 - c * r ^ 2)) <= c * r ^ 4 / lambda ^ 2.
Proof.
  intros Hl Hc Ea. assert (Hl2 : 0 < lambda ^ 2) by (rewrite <- Rsqr_pow2; apply Rsqr_pos_lt; exact Hl).
  assert (Hr2 : 0 <= r ^ 2) by nra.
  assert (E : a ^ 2 * lambda ^ 2 / (r ^ 2 + lambda ^ 2) - (a ^ 2 - c * r ^ 2) = c * r ^ 4 * / (r ^ 2 + lambda ^ 2)).
  { rewrite Ea. field. lra. }
  rewrite E. unfold Rdiv. assert (Hp : 0 <= c * r ^ 4). { apply Rmult_le_pos; [exact Hc|]. replace (r ^ 4) with (r ^ 2 * r ^ 2) by ring. nra. }
  assert (Hi : 0 < / (r ^ 2 + lambda ^ 2)) by (apply Rinv_0_lt_compat; lra).
  rewrite Rabs_right by nra. apply Rmult_le_compat_l; [exact Hp|]. apply Rinv_le_contravar; lra.
Qed.

(** ** Smallest values *)
Lemma half_sq L r : 0 <= r <= L / 2 -> r ^ 2 <= L ^ 2 / 4.
Proof. intros [H1 H2]. nra. Qed.

Lemma gaussian_smallest a lambda L f r : f <> 0 -> 0 < L -> lambda * f = L -> 0 <= r <= L / 2 ->
  a ^ 2 * exp (- f ^ 2 / 8) <= a ^ 2 * exp (- r ^ 2 / (2 * lambda ^ 2)) <= a ^ 2 /\
  (r = L / 2 -> a ^ 2 * exp (- r ^ 2 / (2 * lambda ^ 2)) = a ^ 2 * exp (- f ^ 2 / 8)).
Proof.
  intros Hf HL El Hr. assert (Hl : lambda <> 0) by (intros ->; lra).
  assert (E : f ^ 2 / 8 = (L ^ 2 / 4) / (2 * lambda ^ 2)) by (rewrite <- El; field; exact Hl).
  assert (Hl2 : 0 < / (2 * lambda ^ 2)). { apply Rinv_0_lt_compat. assert (0 < lambda ^ 2) by (rewrite <- Rsqr_pow2; apply Rsqr_pos_lt; exact Hl). lra. }
  assert (A := half_sq L r Hr). assert (Ha : 0 <= a ^ 2) by nra. split; [split|].
  - apply Rmult_le_compat_l; [exact Ha|]. destruct (Req_dec (- f ^ 2 / 8) (- r ^ 2 / (2 * lambda ^ 2))) as [->|Hne]; [lra|].
    left. apply exp_increasing. unfold Rdiv in *. nra.
  - rewrite <- (Rmult_1_r (a ^ 2)) at 2. apply Rmult_le_compat_l; [exact Ha|]. rewrite <- exp_0.
    assert (B : - r ^ 2 / (2 * lambda ^ 2) <= 0) by (unfold Rdiv; nra).
    destruct B as [B|B]; [left; apply exp_increasing; exact B|rewrite B; lra].
  - intros ->. f_equal. f_equal. unfold Rdiv in *. nra.
Qed.

Lemma lorentzian_smallest a lambda L f r : f <> 0 -> 0 < L -> lambda * f = L / 2 -> 0 <= r <= L / 2 ->
  a ^ 2 / (1 + f ^ 2) <= a ^ 2 * lambda ^ 2 / (r ^ 2 + lambda ^ 2) <= a ^ 2 /\
  (r = L / 2 -> a ^ 2 * lambda ^ 2 / (r ^ 2 + lambda ^ 2) = a ^ 2 / (1 + f ^ 2)).
Proof.
  intros Hf HL El Hr. assert (Hl : lambda <> 0) by (intros ->; lra).
  assert (Hl2 : 0 < lambda ^ 2) by (rewrite <- Rsqr_pow2; apply Rsqr_pos_lt; exact Hl).
  assert (Hf2 : 0 < 1 + f ^ 2) by nra. assert (Hr2 : 0 <= r ^ 2) by nra.
  assert (A := half_sq L r Hr). assert (Ha : 0 <= a ^ 2) by nra.
  assert (E : a ^ 2 / (1 + f ^ 2) = a ^ 2 * (lambda ^ 2 / (L ^ 2 / 4 + lambda ^ 2))).
  { replace (L ^ 2 / 4) with ((lambda * f) ^ 2) by (rewrite El; field).
    assert (0 <= (lambda * f) ^ 2) by nra. field. split; nra. }
  split; [split|].
  - rewrite E. unfold Rdiv. rewrite Rmult_assoc. apply Rmult_le_compat_l; [exact Ha|]. apply Rmult_le_compat_l; [lra|].
    apply Rinv_le_contravar; lra.
  - unfold Rdiv. rewrite Rmult_assoc. rewrite <- (Rmult_1_r (a ^ 2)) at 2. apply Rmult_le_compat_l; [exact Ha|].
    apply (Rmult_le_reg_r (r ^ 2 + lambda ^ 2)); [lra|]. rewrite Rmult_assoc, Rinv_l by lra. lra.
  - intros ->. rewrite E. field. nra.
Qed.
