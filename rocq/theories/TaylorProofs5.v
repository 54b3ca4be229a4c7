(** Overflow of the matrix of powers, and the expansions that do not give the kernel they name. *)
From Coq Require Import Reals Lra Lia List Arith ZArith Psatz.
From Coquelicot Require Import Coquelicot.
From Verif Require Import ZLib Csum DFT NumPy Index Spec SpecBasis IndexProofs Basis Operator SpecOperator Kernel SpecKernel KernelProofs KernelProofs2 KernelProofs3 KernelFacts
  Dynamics SpecDynamics Spectral Oscillator Taylor SpecTaylor TaylorProofs TaylorProofs2 TaylorProofs3 TaylorProofs4.
Import ListNotations.
Local Open Scope R_scope.
Local Open Scope C_scope.

(** ** Eleven terms *)

(** The integer powers wrapped to 64 bits, and the combination of rows that gives columns 9 and 10. *)
Definition wrapped (m i : nat) : Z := i64 (Z.of_nat i ^ Z.of_nat (2 * m)).
Definition column (i : nat) : Z := if (i =? 9)%nat then 1%Z else if (i =? 10)%nat then 5%Z else 0%Z.
Definition overflow (m : nat) : Z := if (m =? 10)%nat then (2 ^ 64)%Z else 0%Z.
Definition weights : list Z :=
  [0; 518599065600; -796996756224; 331893781744; -58468491000; 5222955543; -257688431; 7246182; -114342; 931; -3]%Z.
Definition denominator : Z := 243290200817664000%Z.

Fixpoint zsum (f : nat -> Z) (n : nat) : Z := match n with O => 0%Z | S m => (zsum f m + f m)%Z end.
Fixpoint zfact (n : nat) : Z := match n with O => 1%Z | S m => (Z.of_nat n * zfact m)%Z end.

Lemma zsum_IZR f n : RtoC (IZR (zsum f n)) = csum (fun i => RtoC (IZR (f i))) n.
Proof. induction n as [|n IH]; [reflexivity|]. cbn [zsum csum]. now rewrite plus_IZR, RtoC_plus, IH. Qed.
Lemma zfact_INR n : INR (fact n) = IZR (zfact n).
Proof. induction n as [|n IH]; [reflexivity|]. cbn [zfact]. rewrite fact_simpl, mult_INR, mult_IZR, IH, <- INR_IZR_INZ. reflexivity. Qed.

Lemma table_wrapped : forallb (fun m => forallb (fun i => Z.eqb (wrapped m i) (Z.of_nat i ^ Z.of_nat (2 * m) - overflow m * column i)) (seq 0 11)) (seq 0 11) = true.
Proof. vm_compute. reflexivity. Qed.
Lemma table_weights : forallb (fun i => Z.eqb (zsum (fun m => nth m weights 0 * Z.of_nat i ^ Z.of_nat (2 * m)) 11) (denominator * column i))%Z (seq 0 11) = true.
Proof. vm_compute. reflexivity. Qed.

Lemma wrapped_value m i : (m < 11)%nat -> (i < 11)%nat -> RtoC (IZR (wrapped m i)) = RtoC (INR i ^ (2 * m)) - RtoC (IZR (overflow m)) * RtoC (IZR (column i)).
Proof.
  intros Hm Hi. pose proof (proj1 (forallb_forall _ _) table_wrapped m (proj2 (in_seq 11 0 m) ltac:(lia))) as T. cbv beta in T.
  pose proof (proj1 (forallb_forall _ _) T i (proj2 (in_seq 11 0 i) ltac:(lia))) as T'. clear T. rename T' into T. apply Z.eqb_eq in T. rewrite T.
  rewrite minus_IZR, mult_IZR, RtoC_minus, RtoC_mult, INR_IZR_INZ, pow_IZR. reflexivity.
Qed.
Lemma weights_value i : (i < 11)%nat -> csum (fun m => RtoC (IZR (nth m weights 0%Z)) * RtoC (INR i ^ (2 * m))) 11 = RtoC (IZR denominator) * RtoC (IZR (column i)).
Proof.
  intros Hi. pose proof (proj1 (forallb_forall _ _) table_weights i (proj2 (in_seq 11 0 i) ltac:(lia))) as T. apply Z.eqb_eq in T.
  rewrite <- RtoC_mult, <- mult_IZR, <- T, zsum_IZR. apply csum_ext. intros m Hm. rewrite mult_IZR, RtoC_mult, INR_IZR_INZ, pow_IZR. reflexivity.
Qed.

Lemma product_zero_C (a b : C) : a * b = 0 -> a = 0 \/ b = 0.
Proof. intros H. destruct (Ceq_dec a 0) as [|Ha]; [now left|]. right. destruct (Ceq_dec b 0) as [|Hb]; [assumption|]. elim (Cmult_neq_0 a b Ha Hb H). Qed.

(** Columns 9 and 10 of the solution of the wrapped system. *)
Definition part (x : nat -> C) : C := csum (fun i => RtoC (IZR (column i)) * x i) 11.

Lemma unwrapped x m : (m < 11)%nat ->
  csum (fun i => RtoC (INR i ^ (2 * m)) * x i) 11 = csum (fun i => RtoC (IZR (wrapped m i)) * x i) 11 + RtoC (IZR (overflow m)) * part x.
Proof.
  intros Hm. unfold part. rewrite <- csum_scal_l, <- csum_plus. apply csum_ext. intros i Hi. rewrite (wrapped_value m i Hm Hi). ring.
Qed.

Lemma overflow_sum : csum (fun m => RtoC (IZR (nth m weights 0%Z)) * RtoC (IZR (overflow m))) 11 = RtoC (IZR (- 3 * 2 ^ 64)).
Proof.
  rewrite (csum_ext _ (fun m => RtoC (IZR (nth m weights 0%Z * overflow m)))) by (intros; now rewrite mult_IZR, RtoC_mult).
  rewrite <- zsum_IZR. do 2 f_equal.
Qed.

Lemma part_value x q : (forall m, (m < 11)%nat -> csum (fun i => RtoC (IZR (wrapped m i)) * x i) 11 = q m) ->
  RtoC (IZR (denominator + 3 * 2 ^ 64)) * part x = csum (fun m => RtoC (IZR (nth m weights 0%Z)) * q m) 11.
Proof.
  intros H. 
  assert (E : csum (fun m => RtoC (IZR (nth m weights 0%Z)) * csum (fun i => RtoC (INR i ^ (2 * m)) * x i) 11) 11 = RtoC (IZR denominator) * part x).
  { rewrite (csum_ext _ (fun m => csum (fun i => RtoC (IZR (nth m weights 0%Z)) * RtoC (INR i ^ (2 * m)) * x i) 11)).
    2:{ intros m Hm. rewrite <- csum_scal_l. apply csum_ext. intros i Hi. ring. }
    rewrite csum_swap. unfold part. rewrite <- csum_scal_l. apply csum_ext. intros i Hi.
    rewrite (csum_scal_r (x i) (fun m => RtoC (IZR (nth m weights 0%Z)) * RtoC (INR i ^ (2 * m)))), (weights_value i Hi). ring. }
  rewrite (csum_ext _ (fun m => RtoC (IZR (nth m weights 0%Z)) * q m + RtoC (IZR (nth m weights 0%Z)) * RtoC (IZR (overflow m)) * part x)) in E.
  2:{ intros m Hm. rewrite (unwrapped x m Hm), (H m Hm). ring. }
  rewrite csum_plus, (csum_scal_r (part x) (fun m => RtoC (IZR (nth m weights 0%Z)) * RtoC (IZR (overflow m)))), overflow_sum in E.
  rewrite plus_IZR, RtoC_plus, Cmult_plus_distr_r, <- E. rewrite Cplus_assoc_reverse || idtac.
  replace (RtoC (IZR (-3 * 2 ^ 64))) with (- RtoC (IZR (3 * 2 ^ 64))) by (rewrite <- RtoC_opp, <- opp_IZR; reflexivity). ring.
Qed.

Lemma denominator_nonzero : RtoC (IZR (denominator + 3 * 2 ^ 64)) <> 0.
Proof. intros H. apply RtoC_inj in H. apply eq_IZR in H. discriminate. Qed.

Lemma taylor_wrapped m i : taylor_matrix m i = ((-1) ^ m / INR (fact (2 * m)) * IZR (wrapped m i))%R.
Proof. reflexivity. Qed.

Lemma wrapped_row m (x : nat -> C) : csum (fun i => RtoC (taylor_matrix m i) * x i) 11 = RtoC ((-1) ^ m / INR (fact (2 * m)))%R * csum (fun i => RtoC (IZR (wrapped m i)) * x i) 11.
Proof. rewrite <- csum_scal_l. apply csum_ext. intros i Hi. rewrite taylor_wrapped, RtoC_mult. ring. Qed.

Lemma wrapped_injective x : (forall m, (m < 11)%nat -> csum (fun i => RtoC (taylor_matrix m i) * x i) 11 = 0) -> forall j, (j < 11)%nat -> x j = 0.
Proof.
  intros H. assert (H' : forall m, (m < 11)%nat -> csum (fun i => RtoC (IZR (wrapped m i)) * x i) 11 = 0).
  { intros m Hm. specialize (H m Hm). rewrite wrapped_row in H. destruct (product_zero_C _ _ H) as [E|E]; [|exact E].
    apply RtoC_inj in E. elim (prefactor_nonzero m E). }
  assert (P : part x = 0).
  { pose proof (part_value x (fun _ => 0) H') as P. rewrite (csum_ext _ (fun _ => 0)) in P by (intros; ring). rewrite csum_zero in P.
    destruct (product_zero_C _ _ P) as [E|E]; [|exact E]. elim (denominator_nonzero E). }
  apply exact_injective. intros m Hm.
  rewrite (csum_ext _ (fun i => RtoC ((-1) ^ m / INR (fact (2 * m)))%R * (RtoC (INR i ^ (2 * m)) * x i))) by (intros; unfold exact_matrix; rewrite RtoC_mult; ring).
  rewrite csum_scal_l, (unwrapped x m Hm), P, (H' m Hm). ring.
Qed.

(** ** The gaussian with eleven terms *)

Definition wide_cell : R := (2 * PI * sqrt 2)%R.
Lemma wide_cell_nonzero : wide_cell <> 0%R.
Proof. unfold wide_cell. pose proof PI_RGT_0. pose proof (sqrt_lt_R0 2 ltac:(lra)). apply Rgt_not_eq. nra. Qed.

Lemma narrow_series a m n : (m < n)%nat -> nth m (gaussian_series a (2 * PI * 1 / wide_cell) n) 0%R = (a ^ 2 * ((-1) ^ m / INR (fact m)))%R.
Proof.
  intros H. rewrite gaussian_series_nth by assumption. replace (-1 / (2 * (2 * PI * 1 / wide_cell) ^ 2))%R with (-1)%R; [unfold Rdiv; ring|].
  unfold wide_cell. pose proof PI_RGT_0. pose proof (sqrt_lt_R0 2 ltac:(lra)) as Hs. pose proof (sqrt_sqrt 2 ltac:(lra)) as Hq.
  replace ((2 * PI * 1 / (2 * PI * sqrt 2)) ^ 2)%R with (/ (sqrt 2 * sqrt 2))%R by (field; lra). rewrite Hq. field.
Qed.

Lemma narrow_significant a n : a <> 0%R -> (0 < n <= 11)%nat -> significant (gaussian_series a (2 * PI * 1 / wide_cell) n) n.
Proof.
  intros Ha Hn. assert (H2 : (0 < a ^ 2)%R) by (apply pow2_gt_0; exact Ha). set (b := (a ^ 2)%R) in *.
  assert (F : forall m, (m < 11)%nat -> (/ 10 ^ 8 < / INR (fact m) <= 1)%R).
  { intros m Hm. pose proof (INR_fact_lt_0 m) as Hp. assert (H1 : (1 <= INR (fact m))%R) by (apply (le_INR 1); pose proof (lt_O_fact m); lia).
    assert (H3 : (INR (fact m) <= INR (fact 10))%R) by (apply le_INR, fact_le; lia). rewrite (zfact_INR 10) in H3. change (zfact 10) with 3628800%Z in H3.
    split; [apply Rinv_lt_contravar; [|lra]; apply Rmult_lt_0_compat; lra|]. rewrite <- Rinv_1 at 1. apply Rinv_le_contravar; lra. }
  exists b. rewrite gaussian_series_length. repeat apply conj.
  - replace b with (nth 0 (gaussian_series a (2 * PI * 1 / wide_cell) n) 0%R) at 1 by (rewrite narrow_series by lia; fold b; cbn; field). apply nth_In. rewrite gaussian_series_length. lia.
  - intros x Hx. apply (In_nth _ _ 0%R) in Hx. destruct Hx as [m [Hm Hx]]. rewrite gaussian_series_length in Hm. rewrite narrow_series in Hx by assumption. rewrite <- Hx. fold b.
    destruct (F m ltac:(lia)) as [_ HF]. pose proof (Rinv_0_lt_compat _ (INR_fact_lt_0 m)). unfold Rdiv. rewrite <- (Rmult_1_r b) at 2. apply Rmult_le_compat_l; [lra|].
    apply Rle_trans with (1 * / INR (fact m))%R; [|lra].
    apply Rmult_le_compat_r; [lra|]. apply Rle_trans with (Rabs ((-1) ^ m)); [apply Rle_abs|]. rewrite pow_1_abs. lra.
  - lia.
  - intros m Hm. rewrite narrow_series by assumption. fold b. unfold Rdiv. rewrite !Rabs_mult, pow_1_abs, (Rabs_right b), Rabs_right by (try (apply Rle_ge, Rlt_le, Rinv_0_lt_compat, INR_fact_lt_0); lra).
    destruct (F m ltac:(lia)). rewrite Rmult_1_l. rewrite (Rmult_comm b). apply Rmult_lt_compat_r; lra.
  - lia.
Qed.

(** The right-hand sides divided by the factors of the rows. *)
Definition moments : list Z := map (fun m => (zfact (2 * m) / zfact m)%Z) (seq 0 11).
Lemma table_moments : forallb (fun m => Z.eqb (nth m moments 0%Z * zfact m) (zfact (2 * m))) (seq 0 11) = true.
Proof. vm_compute. reflexivity. Qed.
Lemma moment_value m : (m < 11)%nat -> ((-1) ^ m / INR (fact m) = (-1) ^ m / INR (fact (2 * m)) * IZR (nth m moments 0%Z))%R.
Proof.
  intros Hm. pose proof (proj1 (forallb_forall _ _) table_moments m (proj2 (in_seq 11 0 m) ltac:(lia))) as T. apply Z.eqb_eq in T.
  apply (f_equal IZR) in T. rewrite mult_IZR, <- !zfact_INR in T. pose proof (INR_fact_neq_0 m). pose proof (INR_fact_neq_0 (2 * m)).
  set (f := INR (fact m)) in *. set (g := INR (fact (2 * m))) in *. set (q := IZR _) in *. clearbody f g q.
  assert (Eq : q = (g / f)%R) by (rewrite <- T; field; assumption). rewrite Eq. field. split; assumption.
Qed.

Lemma real_factor (a b : R) (z : C) : RtoC a * z = RtoC b -> fst z = 0%R -> b = 0%R.
Proof. intros P E. apply (f_equal fst) in P. cbn in P. rewrite E in P. lra. Qed.
Lemma moment_sum : zsum (fun m => nth m weights 0%Z * nth m moments 0%Z)%Z 11 = 228837792%Z.
Proof. vm_compute. reflexivity. Qed.

Lemma part_of_narrow x : (forall m, (m < 11)%nat -> csum (fun i => RtoC (taylor_matrix m i) * x i) 11 = RtoC ((-1) ^ m / INR (fact m))) -> fst (part x) <> 0%R.
Proof.
  intros H. assert (P : RtoC (IZR (denominator + 3 * 2 ^ 64)) * part x = RtoC (IZR 228837792)).
  { rewrite (part_value x (fun m => RtoC (IZR (nth m moments 0%Z)))).
    - rewrite (csum_ext _ (fun m => RtoC (IZR (nth m weights 0%Z * nth m moments 0%Z)))) by (intros; now rewrite mult_IZR, RtoC_mult).
      rewrite <- zsum_IZR, moment_sum. reflexivity.
    - intros m Hm. specialize (H m Hm). rewrite wrapped_row, (moment_value m Hm), RtoC_mult in H.
      assert (N : RtoC ((-1) ^ m / INR (fact (2 * m))) <> 0) by (intros E; apply RtoC_inj in E; exact (prefactor_nonzero m E)).
      match type of H with ?a * ?b = ?a * ?c => transitivity (/ a * (a * b)); [field; exact N|rewrite H; field; exact N] end. }
  intros E. apply (real_factor _ _ _ P) in E. apply eq_IZR in E. discriminate.
Qed.

Lemma fst_csum (f : nat -> C) n : fst (csum f n) = rsum (fun i => fst (f i)) n.
Proof. induction n as [|n IH]; [reflexivity|]. cbn. now rewrite IH. Qed.

Lemma fst_scaled (a t : R) (z : C) : fst (RtoC a * (RtoC t * z)) = (a * t * fst z)%R.
Proof. cbn. ring. Qed.
Lemma fst_sum (a t : R) (y z : C) : fst (RtoC a * y + RtoC a * (RtoC t * z)) = (fst (RtoC a * y)%C + a * t * fst z)%R.
Proof. cbn. ring. Qed.

Lemma overflowing_coefficients solve : solve_ok solve ->
  exists c, get_cos_coefficients_for_taylor_series solve (gaussian_series 1 (2 * PI * 1 / wide_cell) 11) None = Some c /\ length c = 11%nat /\
    rsum (fun i => (nth i c 0 * exact_matrix 10 i)%R) 11 <> ((-1) ^ 10 / INR (fact 10))%R.
Proof.
  intros Hs. destruct (narrow_significant 1 11 R1_neq_R0 ltac:(lia)) as [mx [Hi [Hm [Hl [H1 H2]]]]]. pose proof (gaussian_series_length 1 (2 * PI * 1 / wide_cell) 11) as Lp.
  unfold get_cos_coefficients_for_taylor_series. rewrite (maximum_unique _ mx Hi Hm). cbv zeta. rewrite (first_close_spec _ _ 11 Hl H1 H2), Lp, Nat.min_id.
  assert (Hn : forall m, (m < 11)%nat -> nth m (gaussian_series 1 (2 * PI * 1 / wide_cell) 11) 0%R = ((-1) ^ m / INR (fact m))%R) by (intros; rewrite narrow_series by assumption; ring).
  set (p := gaussian_series 1 (2 * PI * 1 / wide_cell) 11) in *. clearbody p.
  destruct (Hs 11%nat (fun m i => RtoC (taylor_matrix m i)) (fun m => RtoC (nth m p 0%R)) (injective_inverse 11 _ wrapped_injective)) as [x [-> Hx]].
  eexists. split; [reflexivity|]. split; [now rewrite map_length, seq_length|].
  assert (P : fst (part x) <> 0%R).
  { apply part_of_narrow. intros m Hm'. rewrite <- (Hn m Hm'). exact (Hx m Hm'). }
  assert (E : rsum (fun i => (nth i (map (fun i => if (i <? 11)%nat then fst (x i) else 0%R) (seq 0 11)) 0 * exact_matrix 10 i)%R) 11 =
    (fst (csum (fun i => (RtoC (taylor_matrix 10 i) * x i)%C) 11) + (-1) ^ 10 / INR (fact (2 * 10)) * IZR (overflow 10) * fst (part x))%R).
  { rewrite wrapped_row. pose proof (unwrapped x 10 ltac:(lia)) as U. apply (f_equal (fun z => fst (RtoC ((-1) ^ 10 / INR (fact (2 * 10)))%R * z))) in U.
    rewrite Cmult_plus_distr_l in U.
    transitivity (fst (RtoC ((-1) ^ 10 / INR (fact (2 * 10)))%R * csum (fun i => RtoC (INR i ^ (2 * 10)) * x i) 11)).
    - rewrite <- csum_scal_l, fst_csum. apply rsum_ext. intros i Hi'. rewrite seq_map_nth by assumption. rewrite (proj2 (Nat.ltb_lt i 11) Hi').
      unfold exact_matrix. rewrite fst_scaled. ring.
    - rewrite U. apply fst_sum. }
  rewrite E. pose proof (Hx 10%nat ltac:(lia)) as H10. unfold applied in H10. rewrite H10. change (fst (RtoC (nth 10 p 0%R))) with (nth 10 p 0%R). rewrite (Hn 10%nat) by lia.
  intros F. assert (Z : ((-1) ^ 10 / INR (fact (2 * 10)) * IZR (overflow 10) * fst (part x) = 0)%R) by lra.
  apply Rmult_integral in Z. destruct Z as [Z|Z]; [|exact (P Z)]. apply Rmult_integral in Z. destruct Z as [Z|Z]; [exact (prefactor_nonzero 10 Z)|].
  apply eq_IZR in Z. discriminate.
Qed.

Lemma overflow_refuted solve : solve_ok solve ->
  exists o D c, get_periodic_gaussian_operators_explicit_taylor solve (BFund 22) wide_cell 1 1 None = Some o /\
    get_diagonal_kernel_from_diagonal_operators o = Some D /\ cosine_kernel 22 c D /\ length c = 11%nat /\
    ~ agree_to_order 22 (fun d => cosine_series c (2 * PI / wide_cell * d)) (fun d => (1 ^ 2 * exp (- d ^ 2 / (2 * 1 ^ 2)))%R).
Proof.
  intros Hs. destruct (overflowing_coefficients solve Hs) as [c [Ec [Lc Hc]]].
  pose proof (gaussian_series_length 1 (2 * PI * 1 / wide_cell) 11) as Lp.
  destruct (explicit_of solve (BFund 22) 22 (gaussian_series 1 (2 * PI * 1 / wide_cell) 11) c eq_refl) as [o [Eo [W [K [B H]]]]]; try (rewrite ?Lp; lia || assumption).
  destruct (kernel_of_cosine o 22 c W K B H) as [D [ED HD]]. exists o, D, c. rewrite Lp in Eo. split; [exact Eo|]. split; [exact ED|]. split; [exact HD|]. split; [exact Lc|].
  intros A. destruct (A 20%nat ltac:(lia)) as [_ [_ E]].
  set (s := (2 * PI / wide_cell)%R) in *.
  destruct (even_taylor (fun d => cosine_series c (s * d)) (fun m => (rsum (fun i => (nth i c 0 * exact_matrix m i)%R) (length c) * (s ^ 2) ^ m)%R) 1%R Rlt_0_1) with (n := 20%nat) as [_ E1].
  { intros x _. apply pseries_scale. apply cosine_series_pseries. }
  destruct (even_taylor (fun d => (1 ^ 2 * exp (- d ^ 2 / (2 * 1 ^ 2)))%R) (fun m => (1 ^ 2 / INR (fact m) * (-1 / (2 * 1 ^ 2)) ^ m)%R) 1%R Rlt_0_1) with (n := 20%nat) as [_ E2].
  { intros x _. apply gaussian_pseries. }
  rewrite E1, E2 in E. apply Rmult_eq_reg_r in E; [|apply INR_fact_neq_0]. change 20%nat with (2 * 10)%nat in E. rewrite !spread_even in E.
  apply Hc. rewrite Lc in E.
  assert (Es : (s ^ 2 = / 2)%R).
  { unfold s, wide_cell. pose proof PI_RGT_0. pose proof (sqrt_lt_R0 2 ltac:(lra)). replace ((2 * PI / (2 * PI * sqrt 2)) ^ 2)%R with (/ (sqrt 2 * sqrt 2))%R by (field; lra). now rewrite sqrt_sqrt by lra. }
  rewrite Es in E. set (r := rsum _ 11) in *. clearbody r. apply (Rmult_eq_reg_r ((/ 2) ^ 10)%R); [|apply pow_nonzero; lra]. rewrite E. pose proof (INR_fact_neq_0 10) as Hf. set (f := INR (fact 10)) in *. clearbody f. field. exact Hf.
Qed.

(** ** Lorentzian *)

Lemma lorentzian_mismatch solve a lambda dx n n_terms o : (2 <= terms_of n_terms n)%nat ->
  get_lorentzian_operators_explicit_taylor solve a lambda dx n n_terms = Some o ->
  ashape (neig o) = [(2 * terms_of n_terms n + 1)%nat] /\ noise_count o = (2 * terms_of n_terms n - 1)%nat /\ get_diagonal_kernel_from_diagonal_operators o = None.
Proof.
  intros Ht. unfold get_lorentzian_operators_explicit_taylor. fold (terms_of n_terms n). set (t := terms_of n_terms n) in *.
  unfold get_periodic_noise_operators_explicit_taylor_expansion, get_periodic_coefficients_for_taylor_series.
  set (p := get_explicit_taylor_coefficients_lorentzian a (2 * PI * lambda / dx) t).
  assert (Lp : length p = (t + 1)%nat) by (unfold p, get_explicit_taylor_coefficients_lorentzian; now rewrite map_length, seq_length).
  destruct (get_periodic_operators_for_real_isotropic_noise true (BTuple [BFund n]) (Some t) None) as [L|] eqn:EL; [|discriminate].
  destruct (get_cos_coefficients_for_taylor_series solve p None) as [c|] eqn:Ec; [|discriminate]. intros E. injection E as <-.
  assert (Lc : length c = (t + 1)%nat).
  { unfold get_cos_coefficients_for_taylor_series in Ec. destruct (polynomial_max p); [|discriminate]. cbv zeta in Ec. destruct (solve _ _ _); [|discriminate]. injection Ec as <-. now rewrite map_length, seq_length. }
  assert (Le : length (map (fun x => (x * INR (bsize (BTuple [BFund n])))%R) (c ++ rev (tl c))) = (2 * t + 1)%nat).
  { rewrite map_length, app_length, rev_length. destruct c; cbn in *; lia. }
  assert (Lb : bsize (lbasis L) = (2 * t - 1)%nat).
  { unfold get_periodic_operators_for_real_isotropic_noise in EL. destruct (_ && _)%bool; [discriminate|]. injection EL as <-. cbn. lia. }
  cbn [neig real_array ashape nops]. unfold noise_count. cbn [nops]. split; [exact (f_equal (fun t => [t]) Le)|]. split; [exact Lb|].
  unfold get_diagonal_kernel_from_diagonal_operators. cbn [nops neig real_array ashape]. match goal with |- context [einsum_dim ?e _] => change e with (length (map (fun x => (x * INR (bsize (BTuple [BFund n])))%R) (c ++ rev (tl c)))) end. rewrite Le, Lb. destruct (reshape_rows _ _) as [x|]; [|reflexivity].
  unfold einsum_dim. rewrite (proj2 (Nat.eqb_neq (2 * t + 1) (2 * t - 1)) ltac:(lia)), (proj2 (Nat.eqb_neq (2 * t + 1) 1) ltac:(lia)), (proj2 (Nat.eqb_neq (2 * t - 1) 1) ltac:(lia)). reflexivity.
Qed.

(** ** Linear operators for a gaussian *)

Lemma linear_gaussian b N dx a lambda n_terms : bfund b = N -> (0 < N)%nat -> let n := match n_terms with Some n => n | None => bsize b end in (0 < n)%nat ->
  forall d : nat -> Z, (forall j, (j < N)%nat -> Zcong (Z.of_nat N) (d j) (Z.of_nat (N / 2) - Z.of_nat j) /\ (- (Z.of_nat N / 2) <= d j < - (Z.of_nat N / 2) + Z.of_nat N)%Z) ->
  exists o D, get_linear_gaussian_noise_operators_explicit_taylor b dx a lambda n_terms = Some o /\
    get_diagonal_kernel_from_diagonal_operators o = Some D /\ ashape D = [(N * N)%nat] /\
    forall x y, (x < N)%nat -> (y < N)%nat -> entry2 N D x y =
      RtoC (rsum (fun m => (nth m (gaussian_series a (2 * PI * lambda / dx) n) 0 * ((2 * PI * IZR (d x) / INR N) * (2 * PI * IZR (d y) / INR N)) ^ m)%R) n).
Proof.
  intros Hb HN n Hn d Hd. unfold get_linear_gaussian_noise_operators_explicit_taylor. rewrite Hb. fold n.
  change (get_explicit_taylor_coefficients_gaussian a (2 * PI * lambda / dx) n) with (gaussian_series a (2 * PI * lambda / dx) n).
  pose proof (gaussian_series_length a (2 * PI * lambda / dx) n) as Lp. set (p := gaussian_series a (2 * PI * lambda / dx) n) in *. clearbody p.
  destruct (linear_kernel (BFund N) p HN ltac:(lia) d Hd) as [o [D H]]. rewrite Lp in H. exists o, D. exact H.
Qed.

Lemma linear_refuted : exists o D, get_linear_gaussian_noise_operators_explicit_taylor (BFund 2) (2 * PI) 1 1 None = Some o /\
  get_diagonal_kernel_from_diagonal_operators o = Some D /\ entry2 2 D 0 0 <> RtoC (1 ^ 2 * exp (- 0 ^ 2 / (2 * 1 ^ 2))).
Proof.
  destruct (linear_gaussian (BFund 2) 2 (2 * PI) 1 1 None eq_refl ltac:(lia) ltac:(cbn; lia) (fun j => if (j =? 0)%nat then (-1)%Z else 0%Z)) as [o [D [Eo [ED [_ H]]]]].
  { intros [|[|j]] Hj; [| |lia]; cbn; (split; [|lia]); [exists (-1)%Z|exists 0%Z]; reflexivity. }
  exists o, D. split; [exact Eo|]. split; [exact ED|]. rewrite H by lia. intros E. apply RtoC_inj in E. cbn [bsize rsum] in E. rewrite !gaussian_series_nth in E by lia.
  cbn in E. replace (- (0 * (0 * 1)) / (2 * (1 * (1 * 1))))%R with 0%R in E by field. rewrite exp_0 in E. pose proof PI_RGT_0. 
  replace (2 * PI * 1 / (2 * PI))%R with 1%R in E by (field; lra). 
  match type of E with (?l = _)%R => replace l with (1 - PI * PI / 2)%R in E by field end. nra.
Qed.
