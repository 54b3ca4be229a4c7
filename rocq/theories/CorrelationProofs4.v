(** Proofs about effective gaussian noise, and a rotated lattice. *)
From Coq Require Import Reals Lra Lia Psatz.
From Verif Require Import ZLib Csum DFT NumPy Spec Index IndexProofs Lattice LatticeProofs Basis SpecBasis Operator SpecOperator
  Kernel SpecKernel KernelProofs KernelProofs2 KernelProofs3 KernelProofs5 Correlation SpecCorrelation CorrelationProofs
  CorrelationProofs2 CorrelationProofs3.
Local Open Scope R_scope.

Lemma distance_1d_value delta n i j m : aligned 1 delta -> (0 < n)%nat -> (2 * m <= n)%nat ->
  Zcong (Z.of_nat n) (Z.of_nat i - Z.of_nat j) (Z.of_nat m) \/ Zcong (Z.of_nat n) (Z.of_nat j - Z.of_nat i) (Z.of_nat m) ->
  periodic_distance delta [n] [i] [j] (INR m / INR n * Rabs (delta 0%nat 0%nat)).
Proof.
  intros Ha Hn Hm Hc. assert (Hn0 : INR n <> 0) by (apply not_0_INR; lia). assert (Hnp : 0 < INR n) by (apply lt_0_INR; lia).
  assert (Hm0 : 0 <= INR m) by apply pos_INR.
  assert (Hq : 0 <= INR m / INR n <= 1 / 2).
  { assert (A : 2 * INR m <= INR n). { assert (B := le_INR _ _ Hm). rewrite mult_INR in B. simpl (INR 2) in B. exact B. }
    split; [apply Rmult_le_pos; [exact Hm0|left; apply Rinv_0_lt_compat; exact Hnp]|].
    apply (Rmult_le_reg_r (INR n)); [exact Hnp|]. unfold Rdiv. rewrite Rmult_assoc, Rinv_l by exact Hn0. lra. }
  assert (V : forall z, image_distance delta [n] [i] [j] z
    = Rabs ((INR i - INR j) / INR n * delta 0%nat 0%nat + IZR (z 0%nat) * delta 0%nat 0%nat)).
  { intros z. unfold image_distance, grid_point. cbn [length nth]. unfold norm. rewrite <- sqrt_Rsqr_abs. f_equal. unfold Rsqr. simpl. unfold Rdiv. ring. }
  assert (E : exists (s : R) (k : Z), (s = 1 \/ s = -1) /\ (INR i - INR j) / INR n = s * (INR m / INR n) + IZR k).
  { destruct Hc as [[k Hk]|[k Hk]].
    - exists 1, k. split; [left; reflexivity|].
      assert (A : INR i - INR j = INR m + IZR k * INR n) by (rewrite !INR_IZR_INZ, <- mult_IZR, <- minus_IZR, <- plus_IZR; f_equal; lia).
      rewrite A. field. exact Hn0.
    - exists (-1), (- k)%Z. split; [right; reflexivity|].
      assert (A : INR j - INR i = INR m + IZR k * INR n) by (rewrite !INR_IZR_INZ, <- mult_IZR, <- minus_IZR, <- plus_IZR; f_equal; lia).
      rewrite opp_IZR. replace (INR i - INR j) with (- (INR m + IZR k * INR n)) by lra. field. exact Hn0. }
  destruct E as [s [k [Hs E]]].
  set (w := s * (INR m / INR n) * delta 0%nat 0%nat).
  assert (Hw : Rabs w = INR m / INR n * Rabs (delta 0%nat 0%nat)).
  { unfold w. rewrite !Rabs_mult, (Rabs_right (INR m / INR n)) by lra. destruct Hs as [-> | ->].
    - rewrite Rabs_R1. ring.
    - rewrite (Rabs_left (-1)) by lra. ring. }
  assert (V' : forall z, image_distance delta [n] [i] [j] z = Rabs (w + IZR (z 0%nat + k) * delta 0%nat 0%nat)).
  { intros z. rewrite V, E. f_equal. unfold w. rewrite plus_IZR. ring. }
  rewrite <- Hw. split.
  - exists (fun _ => (- k)%Z). rewrite V'. rewrite Z.add_opp_diag_l. f_equal. ring.
  - intros z. rewrite V'. apply closest_image. rewrite Hw. assert (A := Rabs_pos (delta 0%nat 0%nat)). nra.
Qed.

(** ** Effective noise *)
Lemma shortest_1d delta L : aligned 1 delta -> shortest 1 delta L -> L = Rabs (delta 0%nat 0%nat).
Proof. intros Ha [[a [Hn ->]] _]. replace a with 0%nat by lia. apply aligned_norm; [exact Ha|lia]. Qed.

Lemma nonzero_a a lambda c : 0 < c -> lambda <> 0 -> a ^ 2 = c * lambda ^ 2 -> a <> 0.
Proof.
  intros Hc Hl E ->. assert (0 < lambda ^ 2) by (rewrite <- Rsqr_pow2; apply Rsqr_pos_lt; exact Hl).
  simpl in E. rewrite Rmult_0_l in E. simpl in *. nra.
Qed.

Lemma effective_operators argsort kb h delta shape eta t : is_argsort argsort ->
  aligned (length shape) delta -> (0 < length shape)%nat -> Forall (fun n => (0 < n)%nat) shape ->
  0 < eta * kb * t -> h <> 0 ->
  exists o D L, get_effective_gaussian_noise_operators_periodic argsort kb h delta shape eta t None = Some o /\ diagonal_noise_wf o /\
    get_diagonal_kernel_from_diagonal_operators o = Some D /\ ashape D = [(nprod shape * nprod shape)%nat] /\
    shortest (length shape) delta L /\
    forall x y, in_shape x shape -> in_shape y shape ->
      exists r, periodic_distance delta shape x y r /\
        entry2 (nprod shape) D (ravel shape x) (ravel shape y)
        = RtoC (2 * (eta * kb * t) / h ^ 2 * (L ^ 2 / 8) * exp (- 4 * r ^ 2 / L ^ 2)).
Proof.
  intros Hsort Ha Hl Hs Hp Hh.
  assert (Hs2 : 2 * sqrt 2 <> 0). { assert (A := sqrt_lt_R0 2 ltac:(lra)). lra. }
  destruct (gaussian_parameters_spec kb h delta (length shape) eta t (2 * sqrt 2) Hl ltac:(lra) Hh Hs2) as [a [lambda [L [HP [SL [El Ea]]]]]].
  assert (HL := shortest_pos _ _ _ Ha SL). assert (Hlam : lambda <> 0) by (intros ->; lra).
  assert (Hh2 : 0 < h ^ 2) by (rewrite <- Rsqr_pow2; apply Rsqr_pos_lt; exact Hh).
  assert (Hc : 0 < 2 * (eta * kb * t) / h ^ 2). { apply Rmult_lt_0_compat; [lra|]. apply Rinv_0_lt_compat. exact Hh2. }
  assert (Hza := nonzero_a _ _ _ Hc Hlam Ea).
  assert (El2 : lambda ^ 2 = L ^ 2 / 8).
  { rewrite <- El. rewrite !Rpow_mult_distr. replace (sqrt 2 ^ 2) with 2; [field|]. rewrite <- Rsqr_pow2. symmetry. apply Rsqr_sqrt. lra. }
  destruct (gaussian_operators_kernel argsort delta shape a lambda Hsort Ha Hl Hs Hza Hlam) as [o [D [Ho [Hw [HD [SD VD]]]]]].
  exists o, D, L. unfold get_effective_gaussian_noise_operators_periodic. rewrite HP.
  split; [exact Ho|]. split; [exact Hw|]. split; [exact HD|]. split; [exact SD|]. split; [exact SL|].
  intros x y Hx Hy. destruct (VD x y Hx Hy) as [r [Hr Er]]. exists r. split; [exact Hr|]. rewrite Er, Ea, El2. do 3 f_equal.
  field. lra.
Qed.

Lemma exp_pow x n : exp x ^ n = exp (INR n * x).
Proof.
  induction n as [|n IH]; [simpl; rewrite Rmult_0_l, exp_0; reflexivity|].
  rewrite S_INR. simpl pow. rewrite IH, <- exp_plus. f_equal. ring.
Qed.

(** On four points the effective noise has a negative eigenvalue. *)
Definition alternating (i : nat) : R := if Nat.even i then 1 else -1.

Lemma effective_negative argsort kb h delta eta t : is_argsort argsort -> aligned 1 delta -> 0 < eta * kb * t -> h <> 0 ->
  exists o D q, get_effective_gaussian_noise_operators_periodic argsort kb h delta [4%nat] eta t None = Some o /\
    diagonal_noise_wf o /\ bsize (lrow (nops o)) = 4%nat /\
    get_diagonal_kernel_from_diagonal_operators o = Some D /\ q < 0 /\
    csum (fun i => csum (fun j => Cmult (Cmult (RtoC (alternating i)) (entry2 4 D i j)) (RtoC (alternating j))) 4) 4 = RtoC q.
Proof.
  intros Hsort Ha Hp Hh.
  destruct (effective_operators argsort kb h delta [4%nat] eta t Hsort Ha) as [o [D [L [Ho [Hw [HD [SD [SL VD]]]]]]]];
    [simpl; lia|repeat constructor|exact Hp|exact Hh|].
  assert (HL := shortest_pos _ _ _ Ha SL). assert (EL := shortest_1d _ _ Ha SL).
  set (c := 2 * (eta * kb * t) / h ^ 2 * (L ^ 2 / 8)) in *.
  assert (Hh2 : 0 < h ^ 2) by (rewrite <- Rsqr_pow2; apply Rsqr_pos_lt; exact Hh).
  assert (HL2 : 0 < L ^ 2) by nra.
  assert (Hc : 0 < c). { apply Rmult_lt_0_compat; [|lra]. apply Rmult_lt_0_compat; [lra|]. apply Rinv_0_lt_compat. exact Hh2. }
  set (q := exp (- (1 / 4))).
  assert (V : forall i j m, (i < 4)%nat -> (j < 4)%nat -> (2 * m <= 4)%nat ->
    Zcong 4 (Z.of_nat i - Z.of_nat j) (Z.of_nat m) \/ Zcong 4 (Z.of_nat j - Z.of_nat i) (Z.of_nat m) ->
    entry2 4 D i j = RtoC (c * q ^ (m * m))).
  { intros i j m Hi Hj Hm Hcong. destruct (VD [i] [j] (in_shape_1d _ _ Hi) (in_shape_1d _ _ Hj)) as [r [Hr Er]].
    rewrite !ravel_1d in Er. change (nprod [4%nat]) with 4%nat in Er. rewrite Er. f_equal. f_equal.
    rewrite (periodic_distance_unique _ _ _ _ _ _ Hr (distance_1d_value delta 4 i j m Ha ltac:(lia) Hm Hcong)).
    rewrite <- EL. unfold q. rewrite exp_pow, mult_INR. f_equal. simpl (INR 4). field. lra. }
  assert (V0 : forall i, (i < 4)%nat -> entry2 4 D i i = RtoC c).
  { intros i Hi. rewrite (V i i 0%nat); [simpl; f_equal; ring|exact Hi|exact Hi|lia|]. left. exists 0%Z. lia. }
  assert (Hc0 : (0 < noise_count o)%nat).
  { unfold get_diagonal_kernel_from_diagonal_operators in HD. unfold noise_count.
    destruct (bsize (lbasis (nops o))) as [|k]; [|lia]. exfalso. unfold reshape_rows in HD. cbn in HD. discriminate. }
  destruct (diagonal_kernel_spec o Hw Hc0) as [D1 [HD1 [S1 _]]]. rewrite HD in HD1. injection HD1 as <-.
  exists o, D, (4 * c * (1 - 2 * q + q ^ 4)). split; [exact Ho|]. split; [exact Hw|]. split.
  { rewrite SD in S1. injection S1 as S1. change (nprod [4%nat]) with 4%nat in S1.
    destruct (Nat.lt_trichotomy (bsize (lrow (nops o))) 4) as [H|[H|H]]; [clear - H S1; exfalso; nia|exact H|clear - H S1; exfalso; nia]. }
  split; [exact HD|]. split.
  - assert (H1 : 3 / 4 <= q). { unfold q. assert (A := exp_ineq1_le (- (1 / 4))). lra. }
    assert (H2 : q < 1). { assert (A := exp_increasing (- (1 / 4)) 0 ltac:(lra)). rewrite exp_0 in A. exact A. }
    assert (F : 1 - 2 * q + q ^ 4 < 0).
    { replace (1 - 2 * q + q ^ 4) with ((1 - q) * (1 - q - q * q - q * q * q)) by ring.
      assert (G : 1 - q - q * q - q * q * q < 0) by (assert (9 / 16 <= q * q) by nra; nra). clear - H2 G. nra. }
    nra.
  - cbn [csum]. unfold alternating. cbn [Nat.even]. rewrite !V0 by lia.
    rewrite (V 0 1 1)%nat, (V 0 2 2)%nat, (V 0 3 1)%nat, (V 1 0 1)%nat, (V 1 2 1)%nat, (V 1 3 2)%nat,
      (V 2 0 2)%nat, (V 2 1 1)%nat, (V 2 3 1)%nat, (V 3 0 1)%nat, (V 3 1 2)%nat, (V 3 2 1)%nat;
      try lia; try (right; exists 0%Z; lia); try (left; exists 0%Z; lia); try (left; exists (-1)%Z; lia); try (right; exists (-1)%Z; lia).
    rewrite <- !RtoC_mult, <- !RtoC_plus. f_equal. simpl. ring.
Qed.

Lemma effective_not_positive argsort kb h delta eta t : is_argsort argsort -> aligned 1 delta -> 0 < eta * kb * t -> h <> 0 ->
  exists o, get_effective_gaussian_noise_operators_periodic argsort kb h delta [4%nat] eta t None = Some o /\
    ~ forall a, (a < noise_count o)%nat -> exists r, 0 <= r /\ eigenvalue o a = RtoC r.
Proof.
  intros Hsort Ha Hp Hh. destruct (effective_negative argsort kb h delta eta t Hsort Ha Hp Hh) as [o [D [q [Ho [Hw [Hb [HD [Hq HS]]]]]]]].
  exists o. split; [exact Ho|]. intros H.
  assert (Hc0 : (0 < noise_count o)%nat).
  { unfold get_diagonal_kernel_from_diagonal_operators in HD. unfold noise_count.
    destruct (bsize (lbasis (nops o))) as [|k]; [|lia]. exfalso. unfold reshape_rows in HD. cbn in HD. discriminate. }
  destruct (diagonal_kernel_spec o Hw Hc0) as [D1 [HD1 [S1 V1]]]. rewrite HD in HD1. injection HD1 as <-. rewrite Hb in V1.
  destruct (diagonal_kernel_psd o 4 (fun i => RtoC (alternating i)) H) as [s [Hs Es]].
  assert (E : RtoC q = RtoC s); [|apply RtoC_inj in E; lra].
  rewrite <- HS, <- Es. apply csum_ext. intros i Hi. apply csum_ext. intros j Hj. rewrite V1 by assumption.
  rewrite Cconj_RtoC. ring.
Qed.

(** ** A rotated square lattice *)
Definition rotated (a c : nat) : R :=
  match a, c with
  | 0%nat, 0%nat => 3 / 5 | 0%nat, 1%nat => 4 / 5 | 1%nat, 0%nat => - (4 / 5) | 1%nat, 1%nat => 3 / 5 | _, _ => 0
  end.

Lemma rotated_norm a : (a < 2)%nat -> norm 2 (rotated a) = 1.
Proof.
  intros Ha. unfold norm. rewrite <- sqrt_1. f_equal. destruct a as [|[|a]]; [| |lia]; simpl; lra.
Qed.

Lemma rotated_total : get_total_displacements_matrix_x_stacked rotated [3%nat; 1%nat] 0 2 ^ 2 = 17 / 45.
Proof.
  unfold get_total_displacements_matrix_x_stacked. rewrite norm_sq. change (length [3%nat; 1%nat]) with 2%nat.
  unfold displacements_matrix_x_along_axis, x_point_stacked. cbn [rsum].
  rewrite !rotated_norm by lia.
  change (unravel [3%nat; 1%nat] 0) with [0%nat; 0%nat]. change (unravel [3%nat; 1%nat] 2) with [2%nat; 0%nat].
  cbn [nth rotated]. unfold wrap_displacements. simpl INR.
  rewrite (rmod_unique _ _ (1 / 10) 0) by lra. rewrite (rmod_unique _ _ (29 / 30) 1) by lra. lra.
Qed.

Lemma rotated_wrong (fn : R -> C) : (forall r s, 0 <= r -> 0 <= s -> fn r = fn s -> r = s) ->
  exists k D, build_isotropic_kernel_from_function_stacked rotated [3%nat; 1%nat] fn = Some k /\
    as_diagonal_kernel_from_isotropic_stacked [3%nat; 1%nat] k = Some D /\
    forall r, periodic_distance rotated [3%nat; 1%nat] [2%nat; 0%nat] [0%nat; 0%nat] r -> entry2 3 D 2 0 <> fn r.
Proof.
  intros Hf. set (sh := [3%nat; 1%nat]). assert (Hs : Forall (fun n => (0 < n)%nat) sh) by repeat constructor.
  eexists. rewrite build_some by exact Hs.
  set (k := {| ashape := _; aflat := _ |}).
  destruct (diagonal_from_isotropic_stacked sh k) as [D [HD [_ VD]]]; [simpl; lia|reflexivity|].
  exists D. split; [reflexivity|]. split; [exact HD|]. intros r [[z0 Hz] Hr] E.
  assert (V := VD [2%nat; 0%nat] [0%nat; 0%nat] [2%nat; 0%nat] ltac:(repeat constructor) ltac:(repeat constructor)).
  change (entry2 (nprod sh) D (ravel sh [2%nat; 0%nat]) (ravel sh [0%nat; 0%nat])) with (entry2 3 D 2 0) in V.
  change (aflat k (ravel sh [2%nat; 0%nat])) with (fn (get_total_displacements_matrix_x_stacked rotated sh 0 2)) in V.
  rewrite E in V. specialize (V ltac:(simpl; repeat split; try lia; exists 0%Z; lia)).
  assert (Hr0 : 0 <= r) by (rewrite Hz; apply norm_nonneg).
  apply Hf in V; [|exact Hr0|apply norm_nonneg].
  assert (T := rotated_total). fold sh in T. rewrite <- V in T.
  assert (B := Hr (fun a => match a with 0%nat => (-1)%Z | _ => 0%Z end)).
  assert (N : image_distance rotated sh [2%nat; 0%nat] [0%nat; 0%nat] (fun a => match a with 0%nat => (-1)%Z | _ => 0%Z end) ^ 2 = 1 / 9).
  { unfold image_distance, grid_point. rewrite norm_sq. unfold sh. simpl. lra. }
  assert (P := norm_nonneg 2 (fun c => grid_point rotated sh [2%nat; 0%nat] c - grid_point rotated sh [0%nat; 0%nat] c
                                + rsum (fun a => IZR (match a with 0%nat => (-1)%Z | _ => 0%Z end) * rotated a c) 2)).
  change (norm 2 _) with (image_distance rotated sh [2%nat; 0%nat] [0%nat; 0%nat] (fun a => match a with 0%nat => (-1)%Z | _ => 0%Z end)) in P.
  nra.
Qed.

(** ** One axis: the effective kernels *)
Lemma effective_gaussian_1d kb h delta n eta t f : aligned 1 delta -> (0 < n)%nat -> 0 <= eta * kb * t -> h <> 0 -> f <> 0 ->
  let c := eta * kb * t / h ^ 2 in let L := Rabs (delta 0%nat 0%nat) in let a2 := 2 * c * (L / f) ^ 2 in
  exists D, get_effective_gaussian_noise_kernel kb h delta [n] eta t f = Some D /\ ashape D = [(n * n)%nat] /\
    (forall i j, (i < n)%nat -> (j < n)%nat ->
       exists v r, entry2 n D i j = RtoC v /\ periodic_distance delta [n] [i] [j] r /\
         Rabs (v - (a2 - c * r ^ 2)) <= c * r ^ 4 / (4 * (L / f) ^ 2) /\ a2 * exp (- f ^ 2 / 8) <= v <= a2) /\
    (forall i j, (i < n)%nat -> (j < n)%nat -> (2 * i = 2 * j + n)%nat -> entry2 n D i j = RtoC (a2 * exp (- f ^ 2 / 8))).
Proof.
  intros Ha Hn Hp Hh Hf c L a2.
  destruct (gaussian_parameters_spec kb h delta 1 eta t f ltac:(lia) Hp Hh Hf) as [a [lambda [L' [HP [SL [El Ea]]]]]].
  assert (EL := shortest_1d _ _ Ha SL). fold L in EL. rewrite EL in El, SL. clear EL L'.
  assert (HL := shortest_pos _ _ _ Ha SL). assert (Hlam : lambda <> 0) by (intros ->; lra).
  assert (El' : lambda = L / f) by (rewrite <- El; field; exact Hf).
  assert (Ea2 : a ^ 2 = a2). { rewrite Ea, El'. unfold a2, c. field. split; assumption. }
  assert (Hh2 : 0 < h ^ 2) by (rewrite <- Rsqr_pow2; apply Rsqr_pos_lt; exact Hh).
  assert (Hc : 0 <= c). { apply Rmult_le_pos; [exact Hp|]. left. apply Rinv_0_lt_compat. exact Hh2. }
  destruct (gaussian_1d delta n a lambda Ha Hn) as [D [HD [SD VD]]].
  exists D. split; [unfold get_effective_gaussian_noise_kernel; change (length [n]) with 1%nat; rewrite HP; exact HD|].
  split; [exact SD|]. split.
  - intros i j Hi Hj. destruct (VD i j Hi Hj) as [r [Hr Er]]. exists (a ^ 2 * exp (- r ^ 2 / (2 * lambda ^ 2))), r.
    split; [exact Er|]. split; [exact Hr|]. rewrite <- Ea2, <- El'. split.
    + apply gaussian_quadratic; [exact Hlam|exact Hc|]. rewrite Ea. unfold c. field. exact Hh.
    + apply (gaussian_smallest a lambda L f r Hf HL El). apply (distance_1d delta n i j r Ha Hi Hj Hr).
  - intros i j Hi Hj Hij. destruct (VD i j Hi Hj) as [r [Hr Er]]. rewrite Er. unfold gaussian_fn. f_equal. rewrite <- Ea2.
    apply (gaussian_smallest a lambda L f r Hf HL El).
    + apply (distance_1d delta n i j r Ha Hi Hj Hr).
    + apply (distance_1d_half delta n i j r Ha Hi Hj Hij Hr).
Qed.

Lemma documented_minimum kb h delta n eta t f : aligned 1 delta -> (0 < n)%nat -> 0 < eta * kb * t -> h <> 0 -> f <> 0 ->
  exists D v0, get_effective_gaussian_noise_kernel kb h delta [n] eta t f = Some D /\ entry2 n D 0 0 = RtoC v0 /\
    forall i j, (i < n)%nat -> (j < n)%nat -> exists v, entry2 n D i j = RtoC v /\ v0 * exp (- f ^ 2 / 2) < v <= v0.
Proof.
  intros Ha Hn Hp Hh Hf.
  destruct (gaussian_parameters_spec kb h delta 1 eta t f ltac:(lia) ltac:(lra) Hh Hf) as [a [lambda [L [HP [SL [El Ea]]]]]].
  assert (EL := shortest_1d _ _ Ha SL).
  assert (HL := shortest_pos _ _ _ Ha SL). assert (Hlam : lambda <> 0) by (intros ->; lra).
  assert (Hh2 : 0 < h ^ 2) by (rewrite <- Rsqr_pow2; apply Rsqr_pos_lt; exact Hh).
  assert (Hc : 0 < 2 * (eta * kb * t) / h ^ 2). { apply Rmult_lt_0_compat; [lra|]. apply Rinv_0_lt_compat. exact Hh2. }
  assert (Hza := nonzero_a _ _ _ Hc Hlam Ea). assert (Ha2 : 0 < a ^ 2) by (rewrite <- Rsqr_pow2; apply Rsqr_pos_lt; exact Hza).
  destruct (gaussian_1d delta n a lambda Ha Hn) as [D [HD [SD VD]]].
  exists D, (a ^ 2). split; [unfold get_effective_gaussian_noise_kernel; change (length [n]) with 1%nat; rewrite HP; exact HD|]. split.
  - destruct (VD 0%nat 0%nat Hn Hn) as [r [Hr Er]]. rewrite Er. unfold gaussian_fn. f_equal.
    rewrite (periodic_distance_unique _ _ _ _ _ _ Hr (distance_1d_value delta n 0 0 0 Ha Hn ltac:(lia) ltac:(left; exists 0%Z; lia))).
    simpl (INR 0). replace (- (0 / INR n * Rabs (delta 0%nat 0%nat)) ^ 2 / (2 * lambda ^ 2)) with 0; [rewrite exp_0; ring|].
    unfold Rdiv. ring.
  - intros i j Hi Hj. destruct (VD i j Hi Hj) as [r [Hr Er]]. exists (a ^ 2 * exp (- r ^ 2 / (2 * lambda ^ 2))). split; [exact Er|].
    assert (Hr1 : 0 <= r <= L / 2) by (rewrite EL; apply (distance_1d delta n i j r Ha Hi Hj Hr)).
    destruct (gaussian_smallest a lambda L f r Hf HL El Hr1) as [[B1 B2] _]. split; [|exact B2].
    apply Rlt_le_trans with (2 := B1). apply Rmult_lt_compat_l; [exact Ha2|]. apply exp_increasing.
    assert (0 < f ^ 2) by (rewrite <- Rsqr_pow2; apply Rsqr_pos_lt; exact Hf). lra.
Qed.

Lemma effective_lorentzian_1d kb h delta n eta t f : aligned 1 delta -> (0 < n)%nat -> 0 <= eta * kb * t -> h <> 0 -> f <> 0 ->
  let c := eta * kb * t / h ^ 2 in let L := Rabs (delta 0%nat 0%nat) in let lambda := L / (2 * f) in let a2 := 2 * c * lambda ^ 2 in
  exists a l k, get_effective_lorentzian_parameter kb h delta 1 eta t f = Some (a, l) /\
    get_lorentzian_isotropic_noise_kernel delta [n] a l = Some k /\ ashape k = [n] /\
    (forall i, (i < n)%nat ->
       exists v r, aflat k i = RtoC v /\ periodic_distance delta [n] [i] [0%nat] r /\
         Rabs (v - (a2 - 2 * c * r ^ 2)) <= 2 * c * r ^ 4 / lambda ^ 2 /\ a2 / (1 + f ^ 2) <= v <= a2) /\
    (forall i, (2 * i = n)%nat -> aflat k i = RtoC (a2 / (1 + f ^ 2))).
Proof.
  intros Ha Hn Hp Hh Hf c L lambda a2.
  destruct (lorentzian_parameters_spec kb h delta 1 eta t f ltac:(lia) Hp Hh Hf) as [a [l [L' [HP [SL [El Ea]]]]]].
  assert (EL := shortest_1d _ _ Ha SL). fold L in EL. rewrite EL in El, SL. clear EL L'.
  assert (HL := shortest_pos _ _ _ Ha SL). assert (Hlam : l <> 0) by (intros ->; lra).
  assert (El' : l = lambda) by (unfold lambda; apply (Rmult_eq_reg_r f); [rewrite El; field; exact Hf|exact Hf]).
  assert (Ea2 : a ^ 2 = a2). { rewrite Ea, El'. unfold a2, c. field. exact Hh. }
  assert (Hh2 : 0 < h ^ 2) by (rewrite <- Rsqr_pow2; apply Rsqr_pos_lt; exact Hh).
  assert (Hc : 0 <= c). { apply Rmult_le_pos; [exact Hp|]. left. apply Rinv_0_lt_compat. exact Hh2. }
  destruct (isotropic_kernel_spec delta [n] (lorentzian_fn a l) Ha) as [k [Hk [Sk Vk]]].
  { constructor; [exact Hn|constructor]. }
  assert (V : forall i, (i < n)%nat -> exists r, periodic_distance delta [n] [i] [0%nat] r /\ aflat k i = lorentzian_fn a l r).
  { intros i Hi. destruct (Vk [i] [0%nat] [i]) as [r [Hr Er]].
    - apply in_shape_1d. exact Hi.
    - apply in_shape_1d. exact Hn.
    - apply displacement_1d; [exact Hi|]. exists 0%Z. lia.
    - exists r. split; [exact Hr|]. rewrite ravel_1d in Er. exact Er. }
  exists a, l, k. split; [exact HP|]. split; [exact Hk|]. split; [rewrite Sk; f_equal; simpl; lia|]. split.
  - intros i Hi. destruct (V i Hi) as [r [Hr Er]]. exists (a ^ 2 * l ^ 2 / (r ^ 2 + l ^ 2)), r.
    split; [exact Er|]. split; [exact Hr|]. rewrite <- Ea2, <- El'. split.
    + apply lorentzian_quadratic; [exact Hlam|lra|]. rewrite Ea. unfold c. field. exact Hh.
    + apply (lorentzian_smallest a l L f r Hf HL El). apply (distance_1d delta n i 0 r Ha Hi Hn Hr).
  - intros i Hi. destruct (V i ltac:(lia)) as [r [Hr Er]]. rewrite Er. unfold lorentzian_fn. f_equal. rewrite <- Ea2.
    apply (lorentzian_smallest a l L f r Hf HL El).
    + apply (distance_1d delta n i 0 r Ha ltac:(lia) Hn Hr).
    + apply (distance_1d_half delta n i 0 r Ha ltac:(lia) Hn ltac:(lia) Hr).
Qed.
