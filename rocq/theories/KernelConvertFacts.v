(** Converted kernels: positivity, bases of different sizes, isotropic kernels, examples. *)
From Coq Require Import Reals Psatz.
From Verif Require Import ZLib Csum DFT NumPy Interp Spec InterpProofs InterpProofs2 Index IndexProofs
  SpecBasis Basis BasisProofs BasisProofs2 BasisProofs3 Operator SpecOperator OperatorProofs OperatorProofs2
  Kernel SpecKernel KernelProofs KernelProofs2 KernelProofs5 KernelFacts KernelConvert SpecKernelConvert
  KernelConvertProofs KernelConvertProofs2.
Local Open Scope R_scope.
Local Open Scope C_scope.

Lemma kernel_value_ext r c K K' x :
  (forall i j k l, (i < c)%nat -> (j < r)%nat -> (k < r)%nat -> (l < c)%nat -> K i j k l = K' i j k l) ->
  kernel_value r c K x = kernel_value r c K' x.
Proof.
  intros H. unfold kernel_value. apply csum_ext; intros i Hi. apply csum_ext; intros j Hj.
  apply csum_ext; intros k Hk. apply csum_ext; intros l Hl. rewrite H by assumption. reflexivity.
Qed.

Lemma positive_in_basis b0 b1 row col K : positive_kernel (bsize b0) (bsize b1) K ->
  positive_kernel (bsize row) (bsize col) (kernel_in_basis b0 b1 row col K).
Proof.
  intros H x. destruct (H (fun q p => csum (fun k => csum (fun l =>
    unit_operator b0 b1 row col q p k l * x k l) (bsize col)) (bsize row))) as [v [Hv E]].
  exists v. split; [exact Hv|]. rewrite <- E. exact (kernel_form b0 b1 row col K x).
Qed.

Lemma kernel_conversion_positive same eigh b0 b1 row col n K : identity_test same ->
  bsize b0 = n -> bsize b1 = n -> bwf b0 -> bwf b1 -> bwf row -> bwf col ->
  explicit_orthonormal b0 -> explicit_orthonormal b1 -> compatible b0 row -> compatible b1 col ->
  nprod (ashape K) = (n * n * n * n)%nat ->
  (forall A, mat_eq (n * n) A (fun p q => entry4 n n n K (p mod n) (p / n) (q / n) (q mod n)) ->
     eigendecomposition (n * n) A (eigh (n * n)%nat A)) ->
  positive_kernel n n (entry4 n n n K) ->
  exists R, convert_kernel_to_basis same eigh b0 b1 K row col = Some R /\
    positive_kernel (bsize row) (bsize col) (entry4 (bsize row) (bsize row) (bsize col) R).
Proof.
  intros Hs S0 S1 W0 W1 W2 W3 O0 O1 C0 C1 EK He HP.
  destruct (kernel_conversion same Hs eigh b0 b1 row col n K S0 S1 W0 W1 W2 W3 O0 O1 C0 C1 EK He) as [R [HR [SR ER]]].
  exists R. split; [exact HR|]. intros x.
  destruct (positive_in_basis b0 b1 row col (entry4 n n n K)) with (x := x) as [v [Hv E]].
  { rewrite S0, S1. exact HP. }
  exists v. split; [exact Hv|]. rewrite <- E. apply kernel_value_ext. exact ER.
Qed.

(** ** Bases of different sizes *)

Lemma rectangular_same_basis same : identity_test same ->
  exists m R, kernel_matrix (BFund 2) (BFund 3) rect_kernel = Some m /\
    eigendecomposition 6 (at2 m) (rect_eigh 6%nat (at2 m)) /\
    convert_kernel_to_basis same rect_eigh (BFund 2) (BFund 3) rect_kernel (BFund 2) (BFund 3) = Some R /\
    ashape R = ashape rect_kernel /\ aflat R 8 <> aflat rect_kernel 8.
Proof.
  intros Hs. destruct rectangular_not_rebuilt as [m [o [F [Hm [He [Ho [HF [SF NF]]]]]]]].
  assert (Wo : noise_wf o /\ lrow (nops o) = BFund 2 /\ lcol (nops o) = BFund 3).
  { unfold get_periodic_noise_operators_eigenvalue in Ho. rewrite Hm in Ho.
    destruct (rect_eigh _ _). injection Ho as <-. repeat split. }
  destruct Wo as [Wo [Lr Lc]].
  destruct (convert_noise_kernel same Hs o (BFund 2) (BFund 3)) as [c [Hc [Wc [Ec [Er [El [Ee HE]]]]]]];
    try exact Wo; rewrite ?Lr, ?Lc; try exact I; try (cbn; lia); try apply compatible_refl.
  destruct (full_kernel_spec c Wc) as [R [HR [SR ER]]]. rewrite Er, El in SR, ER.
  exists m, R. split; [exact Hm|]. split; [exact He|]. split.
  { unfold convert_kernel_to_basis. rewrite Ho, Hc. exact HR. }
  split; [rewrite SR; reflexivity|].
  replace (aflat R 8) with (aflat F 8); [exact NF|].
  destruct (full_kernel_spec o Wo) as [F' [HF' [_ EF']]]. rewrite Lr, Lc in EF'.
  rewrite HF in HF'. injection HF' as <-.
  transitivity (kernel_of o 0 1 0 2); [apply (EF' 0 1 0 2)%nat; cbn; lia|].
  transitivity (kernel_of c 0 1 0 2); [|symmetry; apply (ER 0 1 0 2)%nat; cbn; lia].
  rewrite HE by (cbn; lia). rewrite Lr, Lc. symmetry. apply kernel_in_basis_same; try exact I; cbn; lia.
Qed.

(** ** Isotropic kernels *)

Lemma isotropic_same_basis same b k : identity_test same -> bwf b -> explicit_orthonormal b -> ashape k = [bsize b] ->
  exists k', convert_isotropic_kernel_to_basis same b k b = Some k' /\ ashape k' = ashape k /\
    forall i, (i < bsize b)%nat -> aflat k' i = aflat k i.
Proof.
  intros Hs W O E. unfold convert_isotropic_kernel_to_basis. rewrite E, Nat.eqb_refl.
  destruct (proj2 (convert_some_iff same b b) (compatible_refl b)) as [F HF]. rewrite HF.
  eexists. split; [reflexivity|]. split; [reflexivity|]. intros i Hi. cbn [aflat].
  rewrite (convert_orthonormal same Hs b b F W W O HF _ i Hi).
  assert (X := explicit_orthonormal_sound b W O).
  rewrite (csum_ext _ (fun p => cdelta i p * aflat k p)).
  - apply (csum_delta_l (aflat k)). assumption.
  - intros p Hp. f_equal. exact (X i p Hi Hp).
Qed.

Definition point_kernel : ndarray := {| ashape := [2%nat]; aflat := fun t => cdelta t 0 |}.

Lemma point_kernel_diagonal i j : (i < 2)%nat -> (j < 2)%nat ->
  entry2 2 (as_diagonal_kernel_from_isotropic 2 point_kernel) i j = cdelta i j.
Proof.
  intros Hi Hj. destruct i as [|[|i]]; try lia; destruct j as [|[|j]]; try lia; reflexivity.
Qed.

Lemma wave_overlap x : (x < 2)%nat -> overlap (BFundT 2) (BFund 2) 0 x = isqrt 2.
Proof.
  intros Hx. unfold overlap. cbn [bfund bstate].
  rewrite (csum_delta_r (fun y => Cconj (plane_wave 2 (freq 2 0) y))) by assumption.
  unfold plane_wave. change (freq 2 0) with 0%Z. rewrite Z.mul_0_l, omega_0, Cmult_1_r. apply isqrt_conj.
Qed.

Lemma isotropic_not_converted same : identity_test same ->
  let D := as_diagonal_kernel_from_isotropic 2 point_kernel in
  (forall A, mat_eq 2 A (entry2 2 D) -> eigendecomposition 2 A (diagonal_eigh 2 A)) /\
  exists k' A B, convert_isotropic_kernel_to_basis same (BFund 2) point_kernel (BFundT 2) = Some k' /\
    as_full_kernel_from_diagonal 2 2 (as_diagonal_kernel_from_isotropic 2 k') = Some A /\
    convert_diagonal_kernel_to_basis same diagonal_eigh (BFund 2) (BFund 2) D (BFundT 2) (BFundT 2) = Some B /\
    ashape A = ashape B /\ aflat A 0 = isqrt 2 /\ aflat B 0 = isqrt 2 * isqrt 2 /\ aflat A 0 <> aflat B 0.
Proof.
  intros Hs D.
  assert (HD : forall A, mat_eq 2 A (entry2 2 D) -> eigendecomposition 2 A (diagonal_eigh 2 A)).
  { intros A HA. apply diagonal_eigh_ok. intros i j Hi Hj. rewrite !HA by assumption.
    unfold D. rewrite !point_kernel_diagonal by assumption. rewrite cdelta_refl.
    change (fst (RtoC 1)) with 1%R. ring. }
  split; [exact HD|].
  assert (Wf : bwf (BFund 2)) by (cbn; lia). assert (Wt : bwf (BFundT 2)) by (cbn; lia).
  assert (Cc : compatible (BFund 2) (BFundT 2)).
  { apply compatible_other; [intros ? ? [? ?]; discriminate|reflexivity]. }
  destruct (diagonal_kernel_conversion same Hs diagonal_eigh (BFund 2) (BFund 2) (BFundT 2) (BFundT 2) 2 D
    eq_refl eq_refl Wf Wf Wt Wt I I Cc Cc eq_refl HD) as [B [HB [SB EB]]].
  destruct (proj2 (convert_some_iff same _ _) Cc) as [F HF].
  assert (EF : F (aflat point_kernel) 0%nat = isqrt 2).
  { rewrite (convert_orthonormal same Hs (BFund 2) (BFundT 2) F Wf Wt I HF _ 0%nat) by (cbn; lia).
    fold (overlap (BFundT 2) (BFund 2)). cbn [bsize].
    transitivity (csum (fun p => isqrt 2 * cdelta p 0) 2).
    - apply csum_ext; intros p Hp. f_equal. apply (wave_overlap p Hp).
    - apply (csum_delta_r' (fun _ => isqrt 2)). lia. }
  assert (E0 : aflat B 0 = isqrt 2 * isqrt 2).
  { transitivity (entry4 2 2 2 B 0 0 0 0); [reflexivity|].
    etransitivity; [apply (EB 0 0 0 0)%nat; cbn; lia|].
    unfold diagonal_kernel_in_basis. cbn [bsize].
    assert (U : forall x, (x < 2)%nat -> unit_operator (BFund 2) (BFund 2) (BFundT 2) (BFundT 2) x x 0 0 = isqrt 2 * isqrt 2).
    { intros x Hx. unfold unit_operator. rewrite wave_overlap by assumption. f_equal.
      rewrite <- (overlap_conj (BFund 2) (BFundT 2) 0 x) by reflexivity. rewrite wave_overlap by assumption. apply isqrt_conj. }
    transitivity (csum (fun p => csum (fun s => cdelta p s * (isqrt 2 * isqrt 2 * (isqrt 2 * isqrt 2))) 2) 2).
    - apply csum_ext; intros p Hp. apply csum_ext; intros s Hs'. rewrite !U by assumption.
      unfold D. rewrite point_kernel_diagonal by assumption. rewrite Cconj_mult, isqrt_conj. ring.
    - rewrite (csum_ext _ (fun _ => isqrt 2 * isqrt 2 * (isqrt 2 * isqrt 2))).
      2:{ intros p Hp. apply (csum_delta_l (fun _ => isqrt 2 * isqrt 2 * (isqrt 2 * isqrt 2))). assumption. }
      rewrite csum_const. assert (I2 := isqrt_sqr 2 ltac:(lia)).
      transitivity ((isqrt 2 * isqrt 2) * (isqrt 2 * isqrt 2 * RtoC (INR 2))); [ring|]. rewrite I2. ring. }
  exists {| ashape := [2%nat]; aflat := F (aflat point_kernel) |}. eexists. exists B.
  split. { unfold convert_isotropic_kernel_to_basis. cbn [point_kernel ashape bsize Nat.eqb]. rewrite HF. reflexivity. }
  split; [reflexivity|]. split; [exact HB|]. split; [rewrite SB; reflexivity|].
  split; [exact EF|]. split; [exact E0|].
  rewrite E0. intros E. assert (E' : isqrt 2 = isqrt 2 * isqrt 2) by (rewrite <- EF at 1; exact E).
  assert (I2 := isqrt_sqr 2 ltac:(lia)). revert I2 E'. generalize (isqrt 2). intros z Hz Ez.
  rewrite <- Ez in Hz.
  assert (Y : z = 1).
  { transitivity (z * (z * RtoC (INR 2))); [rewrite Hz; ring|].
    transitivity (z * z * RtoC (INR 2)); [ring|]. rewrite <- Ez. exact Hz. }
  rewrite Y, Cmult_1_l in Hz. apply RtoC_inj in Hz. cbn in Hz. lra.
Qed.

(** ** A case *)

Lemma unit_kernel4_case :
  (forall A, mat_eq (2 * 2) A (fun p q => entry4 2 2 2 (unit_kernel4 2) (p mod 2) (p / 2) (q / 2) (q mod 2)) ->
     eigendecomposition (2 * 2) A (diagonal_eigh (2 * 2) A)) /\
  compatible (BFund 2) (BFundT 2) /\ compatible (BFundT 2) (BFund 2) /\ complete (BFundT 2) /\ complete (BFund 2).
Proof.
  split; [|split; [|split; [|split]]].
  - intros A HA. apply diagonal_eigh_ok. intros i j Hi Hj. rewrite !HA by assumption.
    rewrite !unit_kernel4_matrix by lia. rewrite cdelta_refl. change (fst (RtoC 1)) with 1%R. ring.
  - apply compatible_other; [intros ? ? [? ?]; discriminate|reflexivity].
  - apply compatible_other; [intros ? ? [? ?]; discriminate|reflexivity].
  - apply full_complete; [cbn; lia|reflexivity].
  - apply full_complete; [cbn; lia|reflexivity].
Qed.

Lemma unit_kernel2_case : nprod (ashape (unit_kernel2 3)) = (3 * 3)%nat /\
  (forall A, mat_eq 3 A (entry2 3 (unit_kernel2 3)) -> eigendecomposition 3 A (diagonal_eigh 3 A)).
Proof.
  split; [reflexivity|]. intros A HA. apply diagonal_eigh_ok. intros i j Hi Hj. rewrite !HA by assumption.
  rewrite !unit_kernel2_entry by assumption. rewrite cdelta_refl, Cmult_1_r.
  change (fst (RtoC (INR (i + 1)))) with (INR (i + 1)). ring.
Qed.

Lemma kernel_round_trip same eigh eigh' b0 b1 n K row col m : identity_test same ->
  bsize b0 = n -> bsize b1 = n -> bwf b0 -> bwf b1 -> explicit_orthonormal b0 -> explicit_orthonormal b1 ->
  bsize row = m -> bsize col = m -> bwf row -> bwf col -> explicit_orthonormal row -> explicit_orthonormal col ->
  complete row -> complete col ->
  compatible b0 row -> compatible b1 col -> compatible row b0 -> compatible col b1 ->
  nprod (ashape K) = (n * n * n * n)%nat ->
  (forall A, mat_eq (n * n) A (fun p q => entry4 n n n K (p mod n) (p / n) (q / n) (q mod n)) ->
     eigendecomposition (n * n) A (eigh (n * n)%nat A)) ->
  (forall R A, convert_kernel_to_basis same eigh b0 b1 K row col = Some R ->
     mat_eq (m * m) A (fun p q => entry4 m m m R (p mod m) (p / m) (q / m) (q mod m)) ->
     eigendecomposition (m * m) A (eigh' (m * m)%nat A)) ->
  exists R R', convert_kernel_to_basis same eigh b0 b1 K row col = Some R /\
    convert_kernel_to_basis same eigh' row col R b0 b1 = Some R' /\ ashape R' = [(n * n * n * n)%nat] /\
    forall i j k l, (i < n)%nat -> (j < n)%nat -> (k < n)%nat -> (l < n)%nat ->
      entry4 n n n R' i j k l = entry4 n n n K i j k l.
Proof.
  intros Hs S0 S1 W0 W1 O0 O1 Sr Sc Wr Wc Or Oc Cr Cc K0 K1 K2 K3 EK He He'.
  destruct (kernel_intermediate same Hs eigh eigh' b0 b1 n K row col m b0 b1) as [R [R' [HR [HR' [SR ER]]]]];
    try assumption.
  rewrite S0, S1 in SR, ER. exists R, R'. do 3 (split; [assumption|]). intros i j k l Hi Hj Hk Hl.
  rewrite ER by assumption. apply kernel_in_basis_same; try assumption; rewrite ?S0, ?S1; assumption.
Qed.
