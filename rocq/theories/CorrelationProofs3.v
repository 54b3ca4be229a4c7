(** Proofs about the noise operators of gaussian kernels, and counterexamples. *)
From Coq Require Import Reals Lra Lia Psatz.
From Verif Require Import ZLib Csum DFT NumPy Spec Index IndexProofs Lattice LatticeProofs Basis SpecBasis Operator SpecOperator
  Kernel SpecKernel KernelProofs KernelProofs2 KernelProofs3 KernelProofs5 Correlation SpecCorrelation CorrelationProofs
  CorrelationProofs2.
Local Open Scope R_scope.

(** ** A gaussian is a product over the axes *)
Lemma axis_product_exp (f : nat -> nat -> R) idx : forall j,
  axis_product j (fun ax i => RtoC (exp (f ax i))) idx
  = RtoC (exp (rsum (fun t => f (j + t)%nat (nth t idx 0%nat)) (length idx))).
Proof.
  induction idx as [|i idx IH]; intros j; simpl axis_product.
  - simpl. rewrite exp_0. reflexivity.
  - rewrite IH. rewrite <- RtoC_mult, <- exp_plus. f_equal. f_equal. cbn [length].
    assert (E : forall (g : nat -> R) n, rsum g (S n) = g 0%nat + rsum (fun t => g (S t)) n).
    { intros g n. induction n as [|n IHn]; [simpl; lra|]. rewrite rsum_S, IHn, (rsum_S (fun t => g (S t))). lra. }
    rewrite E. cbn [nth]. rewrite Nat.add_0_r. f_equal. apply rsum_ext. intros t _. f_equal. lia.
Qed.

Lemma axis_product_first (c : C) (g : nat -> nat -> C) i idx :
  axis_product 0 (fun ax k => if (ax =? 0)%nat then Cmult c (g ax k) else g ax k) (i :: idx)
  = Cmult c (axis_product 0 g (i :: idx)).
Proof.
  cbn [axis_product Nat.eqb]. rewrite Cmult_assoc. f_equal.
  assert (E : forall idx j, (0 < j)%nat ->
    axis_product j (fun ax k => if (ax =? 0)%nat then Cmult c (g ax k) else g ax k) idx = axis_product j g idx).
  { clear. induction idx as [|k idx IH]; intros j Hj; [reflexivity|]. cbn [axis_product].
    rewrite IH by lia. destruct (Nat.eqb_spec j 0); [lia|reflexivity]. }
  apply E. lia.
Qed.

Lemma gaussian_product delta shape a lambda k : aligned (length shape) delta -> (0 < length shape)%nat -> lambda <> 0 ->
  Forall (fun n => (0 < n)%nat) shape ->
  get_gaussian_isotropic_noise_kernel delta shape a lambda = Some k -> product_kernel shape k.
Proof.
  intros Ha Hl Hlam Hs Hk. unfold get_gaussian_isotropic_noise_kernel in Hk. rewrite build_some in Hk by exact Hs.
  injection Hk as <-.
  pose (g := fun ax i => - axis_wrap delta shape ax i ^ 2 / (2 * lambda ^ 2)).
  exists (fun ax i => if (ax =? 0)%nat then Cmult (RtoC (a ^ 2)) (RtoC (exp (g ax i))) else RtoC (exp (g ax i))).
  intros idx Hi. cbn [aflat]. rewrite total_row_zero by assumption.
  assert (Hle := in_shape_length _ _ Hi). destruct idx as [|i idx]; [simpl in Hle; lia|].
  rewrite (axis_product_first (RtoC (a ^ 2)) (fun ax i => RtoC (exp (g ax i)))).
  rewrite axis_product_exp. unfold gaussian_fn. rewrite <- RtoC_mult. do 3 f_equal.
  rewrite norm_sq, Hle. symmetry. etransitivity.
  - apply (rsum_ext _ (fun t => (- / (2 * lambda ^ 2)) * axis_wrap delta shape t (nth t (i :: idx) 0%nat) ^ 2)).
    intros t _. unfold g, Rdiv. rewrite Nat.add_0_l. ring.
  - rewrite rsum_scal_l. unfold Rdiv. ring.
Qed.

(** ** Keeping all operators *)
Lemma truncate_all_kernel argsort o n : is_argsort argsort -> diagonal_noise_wf o -> (0 < noise_count o)%nat ->
  bsize (lrow (nops o)) = n ->
  exists t, truncate_diagonal_noise_operator_list argsort o (map Z.of_nat (seq 0 (noise_count o))) = Some t /\
    diagonal_noise_wf t /\ noise_count t = noise_count o /\ lrow (nops t) = lrow (nops o) /\
    forall i j, (i < n)%nat -> (j < n)%nat -> diagonal_kernel_of t i j = diagonal_kernel_of o i j.
Proof.
  intros Hsort [[Hrc Hw] He] Hc Hn.
  destruct (truncate_picks Cmod argsort Hsort o n Hc) with (truncation := map Z.of_nat (seq 0 (noise_count o)))
    (sel := seq 0 (noise_count o)) as [t [Ht Hp]].
  - rewrite Hw, Hn. reflexivity.
  - exact He.
  - apply python_indices_nat. apply Forall_forall. intros i Hi. apply in_seq in Hi. lia.
  - exists t. split; [exact Ht|]. destruct Hp as [P1 [P2 [P3 [P4 [P5 _]]]]]. rewrite map_length, seq_length in *.
    split; [|split; [|split]].
    + split; [split|].
      * rewrite P3, P4. exact Hrc.
      * rewrite P5, P3, Hn. unfold noise_count in P1. rewrite P1. reflexivity.
      * rewrite P2, P1. reflexivity.
    + exact P1.
    + exact P3.
    + intros i j Hi Hj. unfold diagonal_kernel_of, diag_entry. rewrite P1, P3, Hn.
      apply (truncate_all_sum Cmod argsort Hsort o n Hc ltac:(rewrite Hw, Hn; reflexivity) He t
        (fun l u => Cmult (Cmult l (Cconj (u i))) (u j)) Ht).
      intros l u v H. rewrite (H i Hi), (H j Hj). reflexivity.
Qed.

Lemma gaussian_operators_kernel argsort delta shape a lambda : is_argsort argsort ->
  aligned (length shape) delta -> (0 < length shape)%nat -> Forall (fun n => (0 < n)%nat) shape -> a <> 0 -> lambda <> 0 ->
  exists o D, get_gaussian_noise_operators_periodic argsort delta shape a lambda None = Some o /\ diagonal_noise_wf o /\
    get_diagonal_kernel_from_diagonal_operators o = Some D /\ ashape D = [(nprod shape * nprod shape)%nat] /\
    forall x y, in_shape x shape -> in_shape y shape ->
      exists r, periodic_distance delta shape x y r /\
        entry2 (nprod shape) D (ravel shape x) (ravel shape y) = RtoC (a ^ 2 * exp (- r ^ 2 / (2 * lambda ^ 2))).
Proof.
  intros Hsort Ha Hl Hs Hza Hlam.
  destruct (diagonal_kernel_of_function delta shape (gaussian_fn a lambda) Ha Hs) as [k [K [Hk [HK [SK VK]]]]].
  assert (Sk : nprod (ashape k) = nprod shape).
  { rewrite build_some in Hk by exact Hs. injection Hk as <-. simpl. lia. }
  assert (Zk : aflat k 0 <> RtoC 0).
  { rewrite build_some in Hk by exact Hs. injection Hk as <-. cbn [aflat]. unfold gaussian_fn. intros E.
    apply RtoC_inj in E. assert (0 < a ^ 2) by (rewrite <- Rsqr_pow2; apply Rsqr_pos_lt; exact Hza).
    match type of E with _ * exp ?t = _ => assert (B := exp_pos t); nra end. }
  destruct (real_stacked_fft shape k Hl Hs Sk Zk true) as [l [o [D [_ [Ho [Hw [HD [SD _]]]]]]]].
  destruct (real_stacked_fft_product shape k Hl Hs Sk Zk true) as [o' [D' [K' [Ho' [HD' [HK' E]]]]]].
  { eapply gaussian_product; eassumption. }
  rewrite Ho in Ho'. injection Ho' as <-. rewrite HD in HD'. injection HD' as <-. rewrite HK in HK'. injection HK' as <-.
  assert (Hnp := nprod_positive _ Hs).
  assert (Hc : (0 < noise_count o)%nat).
  { unfold get_diagonal_kernel_from_diagonal_operators in HD. unfold noise_count.
    destruct (bsize (lbasis (nops o))) as [|c]; [|lia]. exfalso. unfold reshape_rows in HD. cbn in HD. discriminate. }
  destruct (diagonal_kernel_spec o Hw Hc) as [D1 [HD1 [S1 V1]]]. rewrite HD in HD1. injection HD1 as <-.
  assert (Hb : bsize (lrow (nops o)) = nprod shape). { rewrite SD in S1. injection S1 as S1. nia. }
  destruct (truncate_all_kernel argsort o (nprod shape) Hsort Hw Hc Hb) as [t [Ht [Wt [Ct [Rt Vt]]]]].
  destruct (diagonal_kernel_spec t Wt) as [Dt [HDt [St Vdt]]]; [rewrite Ct; exact Hc|]. rewrite Rt, Hb in St, Vdt.
  exists t, Dt. split.
  { unfold get_gaussian_noise_operators_periodic, get_gaussian_isotropic_noise_kernel. rewrite Hk, Ho. exact Ht. }
  split; [exact Wt|]. split; [exact HDt|]. split; [exact St|]. intros x y Hx Hy.
  destruct (VK x y Hx Hy) as [r [Hr Er]]. exists r. split; [exact Hr|]. unfold gaussian_fn in Er. rewrite <- Er.
  assert (Lx := ravel_lt _ _ Hx). assert (Ly := ravel_lt _ _ Hy).
  rewrite Vdt, Vt by assumption. rewrite <- V1 by (rewrite Hb; assumption). rewrite Hb. unfold entry2. apply E. nia.
Qed.

(** ** Counterexamples *)
Definition square_delta (a c : nat) : R := if (a =? c)%nat then 1 else 0.
Lemma square_aligned nd : aligned nd square_delta.
Proof.
  intros a c _ _. unfold square_delta. destruct (Nat.eqb_spec a c); split; intros; try assumption; try lra; contradiction.
Qed.

Lemma square_wrap shape ax : (ax < 2)%nat -> shape = [2%nat; 2%nat] -> axis_wrap square_delta shape ax 0 = 0 /\ axis_wrap square_delta shape ax 1 = - (1 / 2).
Proof.
  intros Hx ->. unfold axis_wrap, square_delta, wrap_displacements. rewrite Nat.eqb_refl, Rabs_R1.
  replace (nth ax [2%nat; 2%nat] 0%nat) with 2%nat by (destruct ax as [|[|ax]]; [reflexivity|reflexivity|lia]). simpl INR. split.
  - rewrite (rmod_unique _ _ (1 / 2) 0); lra.
  - rewrite (rmod_unique _ _ 0 0); lra.
Qed.

Lemma gaussian_kernel_2d_wrong : exists D, get_gaussian_noise_kernel square_delta [2%nat; 2%nat] 1 1 = Some D /\
  entry2 4 D 2 1 <> Cconj (entry2 4 D 1 2) /\
  forall r, periodic_distance square_delta [2%nat; 2%nat] [1%nat; 0%nat] [0%nat; 1%nat] r ->
    entry2 4 D 2 1 <> RtoC (1 ^ 2 * exp (- r ^ 2 / (2 * 1 ^ 2))).
Proof.
  set (sh := [2%nat; 2%nat]). assert (Ha : aligned (length sh) square_delta) by apply square_aligned.
  eexists. split.
  { unfold get_gaussian_noise_kernel, get_gaussian_isotropic_noise_kernel. rewrite build_some by (repeat constructor).
    reflexivity. }
  assert (T1 : get_total_displacements_matrix_x_stacked square_delta sh 0 1 ^ 2 = 1 / 4).
  { change 1%nat with (ravel sh [0%nat; 1%nat]). rewrite total_row_zero; [|exact Ha|repeat constructor]. rewrite norm_sq. simpl rsum.
    rewrite (proj1 (square_wrap sh 0 ltac:(lia) eq_refl)), (proj2 (square_wrap sh 1 ltac:(lia) eq_refl)). lra. }
  assert (D3 : displacement sh [1%nat; 1%nat] [1%nat; 0%nat] [0%nat; 1%nat]).
  { simpl. repeat split; try lia; [exists 0%Z|exists 1%Z]; lia. }
  assert (T3 : get_total_displacements_matrix_x_stacked square_delta sh 0 3 ^ 2 = 1 / 2).
  { change 3%nat with (ravel sh [1%nat; 1%nat]). rewrite total_row_zero; [|exact Ha|repeat constructor]. rewrite norm_sq. simpl rsum.
    rewrite (proj2 (square_wrap sh 0 ltac:(lia) eq_refl)), (proj2 (square_wrap sh 1 ltac:(lia) eq_refl)). lra. }
  assert (Hlt : exp (- (1 / 2) / (2 * 1 ^ 2)) < exp (- (1 / 4) / (2 * 1 ^ 2))) by (apply exp_increasing; lra).
  unfold entry2, as_diagonal_kernel_from_isotropic, ravel_array, array2. cbn [aflat ashape].
  set (T := get_total_displacements_matrix_x_stacked square_delta sh 0) in *.
  assert (E1 : forall f : nat -> C, f (Z.to_nat ((nx_points (nprod sh) (1) - nx_points (nprod sh) 2) mod Z.of_nat (nprod [nprod sh]))) = f 3%nat) by reflexivity.
  assert (E2 : forall f : nat -> C, f (Z.to_nat ((nx_points (nprod sh) (2) - nx_points (nprod sh) 1) mod Z.of_nat (nprod [nprod sh]))) = f 1%nat) by reflexivity.
  assert (V21 : gaussian_fn 1 1 (T 1%nat) = RtoC (exp (- (1 / 4) / (2 * 1 ^ 2)))).
  { unfold gaussian_fn. rewrite T1. f_equal. lra. }
  assert (V12 : gaussian_fn 1 1 (T 3%nat) = RtoC (exp (- (1 / 2) / (2 * 1 ^ 2)))).
  { unfold gaussian_fn. rewrite T3. f_equal. lra. }
  split.
  - intros E. change (gaussian_fn 1 1 (T 1%nat) = Cconj (gaussian_fn 1 1 (T 3%nat))) in E.
    rewrite V21, V12, Cconj_RtoC in E. apply RtoC_inj in E. lra.
  - intros r Hr E. change (gaussian_fn 1 1 (T 1%nat) = RtoC (1 ^ 2 * exp (- r ^ 2 / (2 * 1 ^ 2)))) in E.
    assert (Hd := total_is_distance square_delta sh Ha [1%nat; 0%nat] [0%nat; 1%nat] [1%nat; 1%nat]
      ltac:(repeat constructor) ltac:(repeat constructor) D3).
    rewrite (periodic_distance_unique _ _ _ _ _ _ Hr Hd) in E. change (ravel sh [1%nat; 1%nat]) with 3%nat in E. fold T in E.
    rewrite V21, T3 in E. apply RtoC_inj in E. lra.
Qed.
