(** Covariance of sampled noise. *)
From Coq Require Import Reals Lra Lia.
From Verif Require Import ZLib Csum DFT NumPy Interp Index Spec Basis SpecBasis Operator SpecOperator OperatorProofs
  Kernel SpecKernel KernelProofs KernelProofs2 KernelProofs5 Sample SpecSample SampleProofs.
Local Open Scope R_scope.
Local Open Scope C_scope.

Lemma weight_product hbar e u v : (0 <= hbar)%R ->
  Cconj (scimath_sqrt (e * RtoC hbar) * u) * (scimath_sqrt (e * RtoC hbar) * v) = RtoC hbar * (RtoC (Cmod e) * Cconj u * v).
Proof.
  intros H. rewrite Cconj_mult.
  transitivity (Cconj (scimath_sqrt (e * RtoC hbar)) * scimath_sqrt (e * RtoC hbar) * (Cconj u * v)); [ring|].
  rewrite scimath_sqrt_norm, Cmod_mult, Cmod_R, Rabs_right by lra. rewrite RtoC_mult. ring.
Qed.

Lemma diagonal_covariance {D} P E (re im : D -> nat -> nat -> R) hbar o ns N :
  expectation P E -> (0 <= hbar)%R -> diagonal_noise_wf o -> (0 < noise_count o)%nat ->
  uncorrelated P E re im ns (noise_count o) ->
  (forall d, sample_noise_from_diagonal_operators hbar (re d) (im d) o ns = Some (N d)) ->
  forall s s' x y, (s < ns)%nat -> (s' < ns)%nat -> (x < bsize (lrow (nops o)))%nat -> (y < bsize (lrow (nops o)))%nat ->
  mean P E (fun d => Cconj (diag_entry (N d) s x) * diag_entry (N d) s' y) (cdelta s s' * (RtoC hbar * modulus_kernel_of o x y)) /\
  mean P E (fun d => diag_entry (N d) s x * diag_entry (N d) s' y) 0.
Proof.
  intros HE Hh Hw Hc HU HN s s' x y Hs Hs' Hx Hy.
  assert (V : forall d s x, (s < ns)%nat -> (x < bsize (lrow (nops o)))%nat -> diag_entry (N d) s x =
     csum (fun j => noise_factor (re d) (im d) s j * (scimath_sqrt (eigenvalue o j * RtoC hbar) * diag_entry (nops o) j x)) (noise_count o)).
  { intros d s0 x0 H0 H1. destruct (diagonal_sample_spec hbar (re d) (im d) o ns Hw Hc ltac:(lia)) as [L [HL [_ [_ [_ [_ V]]]]]].
    rewrite HN in HL. injection HL as ->. rewrite V by assumption. apply csum_ext. intros; ring. }
  destruct (linear_covariance P E HE re im ns (noise_count o) HU
    (fun j => scimath_sqrt (eigenvalue o j * RtoC hbar) * diag_entry (nops o) j x)
    (fun j => scimath_sqrt (eigenvalue o j * RtoC hbar) * diag_entry (nops o) j y) s s' Hc Hs Hs') as [A B].
  split.
  - eapply mean_ext; [exact HE| |eapply mean_eq; [exact A|]].
    + intros d. cbv beta. rewrite !V by assumption. reflexivity.
    + f_equal. unfold modulus_kernel_of. rewrite <- csum_scal_l. apply csum_ext. intros j Hj. apply weight_product. exact Hh.
  - eapply mean_ext; [exact HE| |exact B]. intros d. cbv beta. rewrite !V by assumption. reflexivity.
Qed.

Lemma full_covariance {D} P E (re im : D -> nat -> nat -> R) hbar o ns N :
  expectation P E -> (0 <= hbar)%R -> noise_wf o -> (0 < noise_count o)%nat ->
  uncorrelated P E re im ns (noise_count o) ->
  (forall d, sample_noise_from_operators hbar (re d) (im d) o ns = Some (N d)) ->
  let r := bsize (lrow (nops o)) in let c := bsize (lcol (nops o)) in
  forall s s' i j k l, (s < ns)%nat -> (s' < ns)%nat -> (i < c)%nat -> (j < r)%nat -> (k < r)%nat -> (l < c)%nat ->
  mean P E (fun d => Cconj (list_entry (N d) s j i) * list_entry (N d) s' k l)
           (cdelta s s' * (RtoC hbar * modulus_full_kernel_of o i j k l)) /\
  mean P E (fun d => list_entry (N d) s j i * list_entry (N d) s' k l) 0.
Proof.
  intros HE Hh Hw Hc HU HN r c s s' i j k l Hs Hs' Hi Hj Hk Hl.
  assert (V : forall d s i j, (s < ns)%nat -> (i < r)%nat -> (j < c)%nat -> list_entry (N d) s i j =
     csum (fun a => noise_factor (re d) (im d) s a * (scimath_sqrt (eigenvalue o a * RtoC hbar) * list_entry (nops o) a i j)) (noise_count o)).
  { intros d s0 i0 j0 H0 H1 H2. destruct (full_sample_spec hbar (re d) (im d) o ns Hw Hc) as [L [HL [_ [_ [_ [_ V]]]]]].
    rewrite HN in HL. injection HL as ->. rewrite V by assumption. apply csum_ext. intros; ring. }
  destruct (linear_covariance P E HE re im ns (noise_count o) HU
    (fun a => scimath_sqrt (eigenvalue o a * RtoC hbar) * list_entry (nops o) a j i)
    (fun a => scimath_sqrt (eigenvalue o a * RtoC hbar) * list_entry (nops o) a k l) s s' Hc Hs Hs') as [A B].
  split.
  - eapply mean_ext; [exact HE| |eapply mean_eq; [exact A|]].
    + intros d. cbv beta. rewrite !V by assumption. reflexivity.
    + f_equal. unfold modulus_full_kernel_of. rewrite <- csum_scal_l. apply csum_ext. intros a Ha. apply weight_product. exact Hh.
  - eapply mean_ext; [exact HE| |exact B]. intros d. cbv beta. rewrite !V by assumption. reflexivity.
Qed.

Lemma nonnegative_modulus o a : nonnegative_eigenvalues o -> (a < noise_count o)%nat -> RtoC (Cmod (eigenvalue o a)) = eigenvalue o a.
Proof. intros H Ha. destruct (H a Ha) as [r [Hr ->]]. rewrite Cmod_R, Rabs_right by lra. reflexivity. Qed.
Lemma nonnegative_kernel o i j : nonnegative_eigenvalues o -> modulus_kernel_of o i j = diagonal_kernel_of o i j.
Proof. intros H. apply csum_ext. intros a Ha. rewrite (nonnegative_modulus o a H Ha). reflexivity. Qed.
Lemma nonnegative_full_kernel o i j k l : nonnegative_eigenvalues o -> modulus_full_kernel_of o i j k l = kernel_of o i j k l.
Proof. intros H. apply csum_ext. intros a Ha. rewrite (nonnegative_modulus o a H Ha). reflexivity. Qed.

Lemma diagonal_covariance_kernel {D} P E (re im : D -> nat -> nat -> R) hbar o ns N :
  expectation P E -> (0 <= hbar)%R -> diagonal_noise_wf o -> (0 < noise_count o)%nat -> nonnegative_eigenvalues o ->
  uncorrelated P E re im ns (noise_count o) ->
  (forall d, sample_noise_from_diagonal_operators hbar (re d) (im d) o ns = Some (N d)) ->
  exists K, get_diagonal_kernel_from_diagonal_operators o = Some K /\
  let n := bsize (lrow (nops o)) in
  forall s s' x y, (s < ns)%nat -> (s' < ns)%nat -> (x < n)%nat -> (y < n)%nat ->
  mean P E (fun d => Cconj (diag_entry (N d) s x) * diag_entry (N d) s' y) (cdelta s s' * (RtoC hbar * entry2 n K x y)).
Proof.
  intros HE Hh Hw Hc Hp HU HN. destruct (diagonal_kernel_spec o Hw Hc) as [K [HK [_ VK]]].
  exists K. split; [exact HK|]. intros n s s' x y Hs Hs' Hx Hy.
  destruct (diagonal_covariance P E re im hbar o ns N HE Hh Hw Hc HU HN s s' x y Hs Hs' Hx Hy) as [A _].
  rewrite (nonnegative_kernel o x y Hp) in A. unfold n. rewrite VK by assumption. exact A.
Qed.

Lemma full_covariance_kernel {D} P E (re im : D -> nat -> nat -> R) hbar o ns N :
  expectation P E -> (0 <= hbar)%R -> noise_wf o -> (0 < noise_count o)%nat -> nonnegative_eigenvalues o ->
  uncorrelated P E re im ns (noise_count o) ->
  (forall d, sample_noise_from_operators hbar (re d) (im d) o ns = Some (N d)) ->
  exists K, get_full_kernel_from_operators o = Some K /\
  let r := bsize (lrow (nops o)) in let c := bsize (lcol (nops o)) in
  forall s s' i j k l, (s < ns)%nat -> (s' < ns)%nat -> (i < c)%nat -> (j < r)%nat -> (k < r)%nat -> (l < c)%nat ->
  mean P E (fun d => Cconj (list_entry (N d) s j i) * list_entry (N d) s' k l)
           (cdelta s s' * (RtoC hbar * entry4 r r c K i j k l)).
Proof.
  intros HE Hh Hw Hc Hp HU HN. destruct (full_kernel_spec o Hw) as [K [HK [_ VK]]].
  exists K. split; [exact HK|]. intros r c s s' i j k l Hs Hs' Hi Hj Hk Hl.
  destruct (full_covariance P E re im hbar o ns N HE Hh Hw Hc HU HN s s' i j k l Hs Hs' Hi Hj Hk Hl) as [A _].
  rewrite (nonnegative_full_kernel o i j k l Hp) in A. unfold r, c. rewrite VK by assumption. exact A.
Qed.

(** ** From a kernel *)

Lemma eigenvalue_operators eigh b0 b1 n K : (0 < n)%nat -> bsize b0 = n -> bsize b1 = n -> nprod (ashape K) = (n * n)%nat ->
  exists o, get_periodic_noise_operators_diagonal_eigenvalue eigh b0 b1 K = Some o /\
    lrow (nops o) = b0 /\ lcol (nops o) = b1 /\ lbasis (nops o) = BFund n /\
    forall a, eigenvalue o a = RtoC (fst (eigh n (entry2 n K)) a).
Proof.
  intros Hn H0 H1 HK. unfold get_periodic_noise_operators_diagonal_eigenvalue. rewrite H0.
  rewrite (reshape_rows_some _ _ _ Hn HK). cbn [ashape nth]. rewrite Nat.eqb_refl.
  change (at2 {| ashape := [n; n]; aflat := aflat K |}) with (entry2 n K).
  destruct (eigh n (entry2 n K)) as [lam V]. eexists. split; [reflexivity|]. repeat split.
Qed.

Lemma kernel_covariance {D} P E (re im : D -> nat -> nat -> R) argsort eigh hbar b0 b1 n K ns N :
  expectation P E -> (0 <= hbar)%R -> is_argsort argsort -> (0 < n)%nat -> bsize b0 = n -> bsize b1 = n ->
  nprod (ashape K) = (n * n)%nat ->
  (forall A, mat_eq n A (entry2 n K) -> eigendecomposition n A (eigh n A)) ->
  (forall a, (a < n)%nat -> (0 <= fst (eigh n (entry2 n K)) a)%R) ->
  uncorrelated P E re im ns n ->
  (forall d, sample_noise_from_diagonal_kernel argsort eigh hbar (re d) (im d) b0 b1 K ns None = Some (N d)) ->
  forall s s' x y, (s < ns)%nat -> (s' < ns)%nat -> (x < n)%nat -> (y < n)%nat ->
  mean P E (fun d => Cconj (diag_entry (N d) s x) * diag_entry (N d) s' y) (cdelta s s' * (RtoC hbar * entry2 n K x y)).
Proof.
  intros HE Hh Hsort Hn H0 H1 HK He Hpos HU HN.
  destruct (diagonal_eigenvalue_rebuild eigh b0 b1 n K Hn H0 H1 HK He) as [o [Dk [Ho [Hw [Hc [HD [HS HV]]]]]]].
  destruct (eigenvalue_operators eigh b0 b1 n K Hn H0 H1 HK) as [o' [Ho' [Hr [Hcl [Hb Hlam]]]]].
  rewrite Ho in Ho'. injection Ho' as <-.
  assert (Hw' := Hw). destruct Hw' as [[Hw0 Hw1] Hw2].
  assert (Hsz : nprod (ashape (ldata (nops o))) = (noise_count o * n)%nat).
  { unfold noise_count. rewrite Hw1, Hr, H0. reflexivity. }
  destruct (truncate_picks Cmod argsort Hsort o n ltac:(lia) Hsz Hw2 (map Z.of_nat (seq 0 (noise_count o))) (seq 0 (noise_count o))) as [t [Ht Hp]].
  { apply python_indices_nat. apply Forall_forall. intros i Hi. apply in_seq in Hi. lia. }
  assert (Hsum := truncate_all_sum Cmod argsort Hsort o n ltac:(lia) Hsz Hw2 t).
  destruct Hp as [P1 [P2 [P3 [P4 [P5 P6]]]]]. rewrite map_length, seq_length in P1, P2, P5.
  assert (Wt : diagonal_noise_wf t).
  { split; [|rewrite P2, P1; reflexivity]. split; [rewrite P3, P4, Hr, Hcl; congruence|].
    change (bsize (lbasis (nops t))) with (noise_count t). rewrite P1, P3, P5, Hr, H0. reflexivity. }
  assert (Pt : nonnegative_eigenvalues t).
  { intros a Ha. rewrite P1 in Ha. destruct (P6 a) as [Ea _]; [rewrite map_length, seq_length; exact Ha|].
    rewrite Ea, Hlam. eexists. split; [|reflexivity]. apply Hpos. rewrite <- Hc.
    rewrite (nth_indep _ 0%nat (argsort (fun a => Cmod (eigenvalue o a)) (noise_count o) (noise_count o - 1 - 0)%nat)) by (rewrite map_length, seq_length; exact Ha).
    rewrite (map_nth (fun p => argsort (fun a => Cmod (eigenvalue o a)) (noise_count o) (noise_count o - 1 - p)%nat)).
    apply Hsort. rewrite seq_nth by exact Ha. lia. }
  assert (Ct : noise_count t = n) by congruence.
  assert (HNt : forall d, sample_noise_from_diagonal_operators hbar (re d) (im d) t ns = Some (N d)).
  { intros d. rewrite <- (HN d). unfold sample_noise_from_diagonal_kernel. rewrite Ho. cbv zeta.
    change (bsize (lbasis (nops o))) with (noise_count o). unfold truncate_diagonal_noise_operator_list. rewrite Ht. reflexivity. }
  intros s s' x y Hs Hs' Hx Hy.
  assert (Rt : bsize (lrow (nops t)) = n) by (rewrite P3, Hr; exact H0).
  destruct (diagonal_covariance P E re im hbar t ns N HE Hh Wt ltac:(lia) ltac:(rewrite Ct; exact HU) HNt s s' x y Hs Hs'
    ltac:(rewrite Rt; exact Hx) ltac:(rewrite Rt; exact Hy)) as [A _].
  rewrite (nonnegative_kernel t x y Pt) in A.
  replace (entry2 n K x y) with (diagonal_kernel_of t x y); [exact A|].
  transitivity (diagonal_kernel_of o x y).
  - unfold diagonal_kernel_of. rewrite P1.
    specialize (Hsum (fun lam u => lam * Cconj (u x) * u y) Ht).
    etransitivity; [|etransitivity; [apply Hsum|]].
    + apply csum_ext. intros a Ha. unfold diag_entry. rewrite Rt. reflexivity.
    + intros lam u v Huv. rewrite !Huv by assumption. reflexivity.
    + apply csum_ext. intros a Ha. unfold diag_entry. rewrite Hr, H0. reflexivity.
  - destruct (diagonal_kernel_spec o Hw ltac:(lia)) as [D' [HD' [_ VD]]]. rewrite HD in HD'. injection HD' as <-.
    rewrite Hr, H0 in VD. rewrite <- VD by assumption. apply HV. apply pair_lt; assumption.
Qed.

(** ** Components *)

Lemma components_of_sample hbar re im o ns : diagonal_noise_wf o -> (0 < noise_count o)%nat -> (0 < ns)%nat ->
  exists S0 l N, sample_noise_from_diagonal_operators_split hbar re im o ns = Some S0 /\
    get_diagonal_split_noise_components S0 = Some l /\ length l = noise_count o /\
    sample_noise_from_diagonal_operators hbar re im o ns = Some N /\
    (forall j M, nth_error l j = Some M -> diag_list_wf M /\ lbasis M = lbasis N /\ lrow M = lrow N /\ lcol M = lcol N /\
       forall s, (s < ns)%nat -> exists z, forall x, (x < bsize (lrow N))%nat -> diag_entry M s x = z * diag_entry (nops o) j x) /\
    forall s x, (s < ns)%nat -> (x < bsize (lrow N))%nat ->
      diag_entry N s x = fold_right (fun M acc => diag_entry M s x + acc) 0 l.
Proof.
  intros Hw Hc Hns. destruct (split_spec hbar re im o ns Hw Hc) as [S0 [HS [W [B [Rw [Cl V]]]]]].
  assert (Hp : (0 < bsize (lbasis (nops o)) * bsize (BFund ns))%nat) by (cbn [bsize]; unfold noise_count in Hc; nia).
  destruct (from_split_spec S0 _ _ W B Hp) as [M [HM [WM [BM [RM [CM VM]]]]]].
  destruct (components_spec S0 _ _ W B Hp) as [l [Hl [Ll Vl]]].
  exists S0, l, M. split; [exact HS|]. split; [exact Hl|]. split; [exact Ll|].
  split; [unfold sample_noise_from_diagonal_operators; rewrite HS; exact HM|].
  cbn [bsize] in *. split.
  - intros j Q HQ. destruct (Vl j Q HQ) as [WQ [BQ [RQ [CQ VQ]]]]. split; [exact WQ|].
    split; [congruence|]. split; [congruence|]. split; [congruence|].
    intros s Hs. exists (noise_factor re im s j * scimath_sqrt (eigenvalue o j * RtoC hbar)). intros x Hx.
    assert (Hj : (j < noise_count o)%nat).
    { unfold noise_count. rewrite <- Ll. apply nth_error_Some. congruence. }
    rewrite RM in Hx. rewrite VQ by assumption. apply V; [exact Hj|exact Hs|congruence].
  - intros s x Hs Hx. rewrite RM in Hx. rewrite VM by assumption.
    rewrite <- Ll.
    assert (G : forall k (l' : list operator_list) , (forall j Q, nth_error l' j = Some Q -> diag_entry Q s x = diag_entry S0 ((k + j) * ns + s) x) ->
      csum (fun j => diag_entry S0 ((k + j) * ns + s) x) (length l') = fold_right (fun M acc => diag_entry M s x + acc) 0 l').
    { intros k l'. revert k. induction l' as [|Q l' IH]; intros k H; [reflexivity|]. cbn [length fold_right].
      rewrite (H 0%nat Q eq_refl). rewrite <- (IH (S k)).
      - change (S (length l')) with (1 + length l')%nat. rewrite csum_split. rewrite csum_S. cbn [csum].
        rewrite Cplus_0_l. f_equal. apply csum_ext. intros i Hi. replace (k + (1 + i))%nat with (S k + i)%nat by lia. reflexivity.
      - intros j Q' HQ'. rewrite (H (S j) Q' HQ'). replace (k + S j)%nat with (S k + j)%nat by lia. reflexivity. }
    apply (G 0%nat). intros j Q HQ. rewrite (proj2 (proj2 (proj2 (proj2 (Vl j Q HQ))))) by assumption. reflexivity.
Qed.

(** ** Random signs *)

(** The mean over all choices of [n] signs. *)
Definition set_at (g : nat -> R) (n : nat) (v : R) : nat -> R := fun i => if Nat.eqb i n then v else g i.
Fixpoint sign_mean (n : nat) (f : (nat -> R) -> C) : C :=
  match n with
  | O => f (fun _ => 0%R)
  | S n => (sign_mean n (fun g => f (set_at g n 1%R)) + sign_mean n (fun g => f (set_at g n (-1)%R))) * RtoC (/ 2)
  end.
Lemma sign_mean_ext n : forall f g, (forall d, f d = g d) -> sign_mean n f = sign_mean n g.
Proof.
  induction n as [|n IH]; intros f g H; cbn [sign_mean]; [apply H|].
  rewrite (IH _ (fun d => g (set_at d n 1%R))) by (intros; apply H).
  rewrite (IH (fun d => f (set_at d n (-1)%R)) (fun d => g (set_at d n (-1)%R))) by (intros; apply H). reflexivity.
Qed.
Lemma sign_mean_plus n : forall f g, sign_mean n (fun d => f d + g d) = sign_mean n f + sign_mean n g.
Proof.
  induction n as [|n IH]; intros f g; cbn [sign_mean]; [reflexivity|].
  rewrite (IH (fun d => f (set_at d n 1%R)) (fun d => g (set_at d n 1%R))), (IH (fun d => f (set_at d n (-1)%R)) (fun d => g (set_at d n (-1)%R))). ring.
Qed.
Lemma sign_mean_scal n : forall c f, sign_mean n (fun d => c * f d) = c * sign_mean n f.
Proof.
  induction n as [|n IH]; intros c f; cbn [sign_mean]; [reflexivity|].
  rewrite (IH c (fun d => f (set_at d n 1%R))), (IH c (fun d => f (set_at d n (-1)%R))). ring.
Qed.
Lemma sign_mean_expectation n : expectation (fun _ => True) (sign_mean n).
Proof.
  split; [|split].
  - intros f g H _. split; [exact I|]. symmetry. apply sign_mean_ext. exact H.
  - intros f g _ _. split; [exact I|]. apply sign_mean_plus.
  - intros c f _. split; [exact I|]. apply sign_mean_scal.
Qed.
Lemma half_two (z : C) : (z + z) * RtoC (/ 2) = z.
Proof.
  transitivity (z * ((1 + 1) * RtoC (/ 2))); [ring|]. rewrite <- RtoC_plus, <- RtoC_mult.
  replace ((1 + 1) * / 2)%R with 1%R by lra. ring.
Qed.
Lemma sign_mean_const n c : sign_mean n (fun _ => c) = c.
Proof. induction n as [|n IH]; cbn [sign_mean]; [reflexivity|]. rewrite IH. apply half_two. Qed.
Lemma set_at_same g n v : set_at g n v n = v.
Proof. unfold set_at. rewrite Nat.eqb_refl. reflexivity. Qed.
Lemma set_at_other g n v i : i <> n -> set_at g n v i = g i.
Proof. intros H. unfold set_at. destruct (Nat.eqb_spec i n); [contradiction|reflexivity]. Qed.

Lemma sign_mean_one n i : (i < n)%nat -> sign_mean n (fun g => RtoC (g i)) = 0.
Proof.
  induction n as [|n IH]; [lia|]. intros Hi. cbn [sign_mean].
  destruct (Nat.eq_dec i n) as [->|Hne].
  - rewrite (sign_mean_ext n _ (fun _ => RtoC 1)) by (intros; rewrite set_at_same; reflexivity).
    rewrite (sign_mean_ext n (fun g => RtoC (set_at g n (-1)%R n)) (fun _ => RtoC (-1))) by (intros; rewrite set_at_same; reflexivity).
    rewrite !sign_mean_const, <- RtoC_plus, <- RtoC_mult. f_equal. lra.
  - rewrite (sign_mean_ext n _ (fun g => RtoC (g i))) by (intros; rewrite set_at_other by exact Hne; reflexivity).
    rewrite (sign_mean_ext n (fun g => RtoC (set_at g n (-1)%R i)) (fun g => RtoC (g i))) by (intros; rewrite set_at_other by exact Hne; reflexivity).
    rewrite IH by lia. ring.
Qed.
Lemma sign_mean_two n i j : (i < n)%nat -> (j < n)%nat -> sign_mean n (fun g => RtoC (g i * g j)) = if Nat.eqb i j then 1 else 0.
Proof.
  revert i j. assert (K : forall n i j, (i <= j < n)%nat -> sign_mean n (fun g => RtoC (g i * g j)) = if Nat.eqb i j then 1 else 0).
  { clear n. induction n as [|n IH]; [lia|]. intros i j Hij. cbn [sign_mean].
    destruct (Nat.eq_dec j n) as [->|Hne].
    - destruct (Nat.eqb_spec i n) as [->|Hin].
      + rewrite (sign_mean_ext n _ (fun _ => RtoC 1)) by (intros; rewrite set_at_same; f_equal; lra).
        rewrite (sign_mean_ext n (fun g => RtoC (set_at g n (-1)%R n * set_at g n (-1)%R n)) (fun _ => RtoC 1)) by (intros; rewrite set_at_same; f_equal; lra).
        rewrite sign_mean_const. apply half_two.
      + rewrite (sign_mean_ext n _ (fun g => RtoC (g i))) by (intros; rewrite set_at_same, set_at_other by exact Hin; f_equal; lra).
        rewrite (sign_mean_ext n (fun g => RtoC (set_at g n (-1)%R i * set_at g n (-1)%R n)) (fun g => (-1) * RtoC (g i)))
          by (intros; rewrite set_at_same, set_at_other by exact Hin; rewrite <- RtoC_mult; f_equal; lra).
        rewrite sign_mean_scal, sign_mean_one by lia. ring.
    - rewrite (sign_mean_ext n _ (fun g => RtoC (g i * g j))) by (intros; rewrite !set_at_other by lia; reflexivity).
      rewrite (sign_mean_ext n (fun g => RtoC (set_at g n (-1)%R i * set_at g n (-1)%R j)) (fun g => RtoC (g i * g j))) by (intros; rewrite !set_at_other by lia; reflexivity).
      rewrite IH by lia. apply half_two. }
  intros i j Hi Hj. destruct (Nat.le_ge_cases i j) as [H|H]; [apply K; lia|].
  rewrite (sign_mean_ext n _ (fun g => RtoC (g j * g i))) by (intros; f_equal; lra).
  rewrite Nat.eqb_sym. apply K; lia.
Qed.

(** The first half of the signs for the real parts, the second for the imaginary parts. *)
Definition sign_re (m : nat) (g : nat -> R) (s j : nat) : R := g (s * m + j)%nat.
Definition sign_im (n m : nat) (g : nat -> R) (s j : nat) : R := g (n * m + (s * m + j))%nat.
Lemma signs_uncorrelated n m : uncorrelated (fun _ => True) (sign_mean (n * m + n * m)) (sign_re m) (sign_im n m) n m.
Proof.
  intros s s' j j' Hs Hs' Hj Hj'.
  assert (A : (s * m + j < n * m)%nat) by (apply pair_lt; assumption).
  assert (B : (s' * m + j' < n * m)%nat) by (apply pair_lt; assumption).
  assert (EQ : Nat.eqb (s * m + j) (s' * m + j') = (Nat.eqb s s' && Nat.eqb j j')%bool).
  { destruct (Nat.eqb_spec s s') as [->|Hn]; destruct (Nat.eqb_spec j j') as [->|Hn']; cbn [andb].
    - apply Nat.eqb_refl. - apply Nat.eqb_neq. lia. - apply Nat.eqb_neq. nia.
    - apply Nat.eqb_neq. intros E. apply Hn.
      assert (X : ((s * m + j) / m = (s' * m + j') / m)%nat) by (rewrite E; reflexivity).
      rewrite !div_add_small in X by assumption. exact X. }
  unfold mean, both. split; [|split]; (split; [exact I|]); unfold sign_re, sign_im.
  - rewrite sign_mean_two by lia. rewrite EQ. reflexivity.
  - rewrite sign_mean_two by lia. rewrite <- EQ. destruct (Nat.eqb_spec (s * m + j) (s' * m + j')) as [->|Hne].
    + rewrite Nat.eqb_refl. reflexivity.
    + destruct (Nat.eqb_spec (n * m + (s * m + j)) (n * m + (s' * m + j'))); [lia|reflexivity].
  - rewrite sign_mean_two by lia. destruct (Nat.eqb_spec (s * m + j) (n * m + (s' * m + j'))); [lia|reflexivity].
Qed.

(** ** A negative eigenvalue *)

Definition negative_operators : noise_operators :=
  {| nops := {| lbasis := BFund 1; lrow := BFund 1; lcol := BFund 1;
                ldata := {| ashape := [1%nat]; aflat := fun _ => RtoC 1 |} |};
     neig := {| ashape := [1%nat]; aflat := fun _ => RtoC (-1) |} |}.

Lemma negative_covariance {D} P E (re im : D -> nat -> nat -> R) hbar N :
  expectation P E -> (0 < hbar)%R -> uncorrelated P E re im 1 1 ->
  (forall d, sample_noise_from_diagonal_operators hbar (re d) (im d) negative_operators 1 = Some (N d)) ->
  exists K, get_diagonal_kernel_from_diagonal_operators negative_operators = Some K /\ aflat K 0 = RtoC (-1) /\
    mean P E (fun d => Cconj (diag_entry (N d) 0 0) * diag_entry (N d) 0 0) (RtoC hbar).
Proof.
  intros HE Hh HU HN.
  assert (W : diagonal_noise_wf negative_operators) by (repeat split).
  destruct (diagonal_kernel_spec negative_operators W ltac:(cbn; lia)) as [K [HK [_ VK]]].
  exists K. split; [exact HK|]. split.
  - specialize (VK 0%nat 0%nat ltac:(cbn; lia) ltac:(cbn; lia)). change (aflat K 0 = diagonal_kernel_of negative_operators 0 0) in VK.
    rewrite VK. unfold diagonal_kernel_of, noise_count, eigenvalue, diag_entry. cbn. rewrite Cconj_RtoC. ring.
  - destruct (diagonal_covariance P E re im hbar negative_operators 1 N HE ltac:(lra) W ltac:(cbn; lia) HU HN 0 0 0 0
      ltac:(lia) ltac:(lia) ltac:(cbn; lia) ltac:(cbn; lia)) as [A _].
    eapply mean_eq; [exact A|]. rewrite cdelta_refl. unfold modulus_kernel_of, noise_count, eigenvalue, diag_entry.
    cbn [negative_operators nops neig lbasis lrow bsize aflat ldata csum]. rewrite Cconj_RtoC, Cmod_R.
    replace (Rabs (-1)) with 1%R by (rewrite Rabs_left by lra; lra). ring.
Qed.

Lemma mismatch_raises hbar re im o ns e : ashape (neig o) = [e] -> e <> noise_count o -> e <> 1%nat -> noise_count o <> 1%nat ->
  sample_noise_from_diagonal_operators hbar re im o ns = None /\ sample_noise_from_operators hbar re im o ns = None.
Proof.
  intros He H1 H2 H3. unfold noise_count in *.
  unfold sample_noise_from_diagonal_operators, sample_noise_from_diagonal_operators_split, sample_noise_from_operators.
  rewrite He. unfold einsum_dim. rewrite (proj2 (Nat.eqb_neq _ _) H1), (proj2 (Nat.eqb_neq _ _) H2), (proj2 (Nat.eqb_neq _ _) H3).
  destruct (reshape_rows _ _); split; reflexivity.
Qed.

Lemma kernel_samples_exist argsort eigh hbar re im b0 b1 n K ns :
  is_argsort argsort -> (0 < n)%nat -> bsize b0 = n -> bsize b1 = n -> nprod (ashape K) = (n * n)%nat -> (0 < ns)%nat ->
  (forall A, mat_eq n A (entry2 n K) -> eigendecomposition n A (eigh n A)) ->
  exists L, sample_noise_from_diagonal_kernel argsort eigh hbar re im b0 b1 K ns None = Some L /\
    diag_list_wf L /\ lbasis L = BFund ns /\ lrow L = b0 /\ lcol L = b1.
Proof.
  intros Hsort Hn H0 H1 HK Hns He.
  destruct (diagonal_eigenvalue_rebuild eigh b0 b1 n K Hn H0 H1 HK He) as [o [Dk [Ho [Hw [Hc _]]]]].
  destruct (eigenvalue_operators eigh b0 b1 n K Hn H0 H1 HK) as [o' [Ho' [Hr [Hcl [Hb Hlam]]]]].
  rewrite Ho in Ho'. injection Ho' as <-.
  assert (Hw' := Hw). destruct Hw' as [[Hw0 Hw1] Hw2].
  assert (Hsz : nprod (ashape (ldata (nops o))) = (noise_count o * n)%nat).
  { unfold noise_count. rewrite Hw1, Hr, H0. reflexivity. }
  destruct (truncate_picks Cmod argsort Hsort o n ltac:(lia) Hsz Hw2 (map Z.of_nat (seq 0 (noise_count o))) (seq 0 (noise_count o))) as [t [Ht Hp]].
  { apply python_indices_nat. apply Forall_forall. intros i Hi. apply in_seq in Hi. lia. }
  destruct Hp as [P1 [P2 [P3 [P4 [P5 P6]]]]]. rewrite map_length, seq_length in P1, P2, P5.
  assert (Wt : diagonal_noise_wf t).
  { split; [|rewrite P2, P1; reflexivity]. split; [rewrite P3, P4, Hr, Hcl; congruence|].
    change (bsize (lbasis (nops t))) with (noise_count t). rewrite P1, P3, P5, Hr, H0. reflexivity. }
  destruct (diagonal_sample_spec hbar re im t ns Wt ltac:(lia) Hns) as [L [HL [WL [BL [RL [CL _]]]]]].
  exists L. split.
  - unfold sample_noise_from_diagonal_kernel. rewrite Ho. cbv zeta.
    change (bsize (lbasis (nops o))) with (noise_count o). unfold truncate_diagonal_noise_operator_list. rewrite Ht. exact HL.
  - split; [exact WL|]. split; [exact BL|]. split; congruence.
Qed.
