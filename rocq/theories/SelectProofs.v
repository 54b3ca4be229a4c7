(** Combinations of states which diagonalise their matrix of inner products. *)
From Coq Require Import Reals Lra Lia Psatz.
From Verif Require Import ZLib Csum DFT SpecBasis SpecOperator SpecMatrix LinAlg LatticeProofs.
Local Open Scope R_scope.
Local Open Scope C_scope.

Section Gram.
  Variables (n m : nat) (psi : nat -> nat -> C).
  Definition gram (i j : nat) : C := inner_product m (psi i) (psi j).
  Definition trace_gram : R := rsum (fun i => rsum (fun x => Cnorm2 (psi i x)) m) n.

  Lemma gram_conj i j : Cconj (gram i j) = gram j i.
  Proof using psi. unfold gram, inner_product. rewrite Cconj_csum. apply csum_ext. intros x _. rewrite Cconj_mult, Cconj_conj. ring. Qed.

  Lemma gram_diag i : gram i i = RtoC (rsum (fun x => Cnorm2 (psi i x)) m).
  Proof using psi. unfold gram, inner_product. rewrite <- csum_RtoC. apply csum_ext. intros x _. apply Cconj_mult_self. Qed.

  Lemma trace_csum : csum (fun i => gram i i) n = RtoC trace_gram.
  Proof using psi. unfold trace_gram. rewrite <- csum_RtoC. apply csum_ext. intros i _. apply gram_diag. Qed.

  Lemma trace_nonneg : (0 <= trace_gram)%R.
  Proof using psi. unfold trace_gram. apply rsum_nonneg. intros i _. apply rsum_nonneg. intros x _. apply Cnorm2_nonneg. Qed.

  Lemma trace_zero : trace_gram = 0%R -> forall i x, (i < n)%nat -> (x < m)%nat -> psi i x = 0.
  Proof using psi.
    intros H i x Hi Hx. apply Cnorm2_eq_0. unfold trace_gram in H.
    assert (H' := rsum_zero_nonneg (fun i => rsum (fun x => Cnorm2 (psi i x)) m) n (fun i _ => rsum_nonneg _ _ (fun x _ => Cnorm2_nonneg _)) H i Hi). cbn beta in H'.
    exact (rsum_zero_nonneg (fun x => Cnorm2 (psi i x)) m (fun x _ => Cnorm2_nonneg _) H' x Hx).
  Qed.

  (** The squares of the entries. *)
  Definition gram_norm : R := sqrt (rsum (fun t => Cnorm2 (gram (t / n) (t mod n))) (n * n)).

  Variables (N : R) (e : nat -> R) (u : nat -> nat -> C).
  Hypothesis HN : (0 < N)%R.
  Hypothesis Hu : forall k l, (k < n)%nat -> (l < n)%nat -> csum (fun j => Cconj (u k j) * u l j) n = cdelta k l.
  Hypothesis He : forall k i, (k < n)%nat -> (i < n)%nat -> csum (fun j => gram i j / RtoC N * u k j) n = RtoC (e k) * u k i.

  Lemma N_ne : RtoC N <> 0.
  Proof using HN. intros E. apply RtoC_inj in E. lra. Qed.

  Lemma gram_u k i : (k < n)%nat -> (i < n)%nat -> csum (fun j => gram i j * u k j) n = RtoC (N * e k) * u k i.
  Proof using HN He.
    intros Hk Hi. assert (Z := N_ne). rewrite RtoC_mult, <- Cmult_assoc, <- He by assumption. rewrite <- csum_scal_l. apply csum_ext. intros j _. field. exact Z.
  Qed.

  Lemma u_complete i j : (i < n)%nat -> (j < n)%nat -> csum (fun k => u k i * Cconj (u k j)) n = cdelta i j.
  Proof using Hu.
    intros Hi Hj. assert (O : orthonormal_rows n n u).
    { intros a b Ha Hb. transitivity (csum (fun x => Cconj (u b x) * u a x) n); [apply csum_ext; intros x _; ring|]. rewrite Hu by assumption. apply cdelta_sym. }
    apply orthonormal_square in O. transitivity (csum (fun k => Cconj (u k j) * u k i) n); [apply csum_ext; intros k _; ring|].
    rewrite O by assumption. apply cdelta_sym.
  Qed.

  Lemma csum_delta_pick (f : nat -> C) i : (i < n)%nat -> csum (fun j => f j * cdelta i j) n = f i.
  Proof. apply csum_delta_r. Qed.

  (** The matrix from its eigenvectors. *)
  Lemma gram_spectral i j : (i < n)%nat -> (j < n)%nat -> csum (fun k => RtoC (N * e k) * (u k i * Cconj (u k j))) n = gram i j.
  Proof using HN He Hu.
    intros Hi Hj. transitivity (csum (fun k => csum (fun l => gram i l * (u k l * Cconj (u k j))) n) n).
    { apply csum_ext. intros k Hk. rewrite Cmult_assoc, <- (gram_u k i Hk Hi), <- csum_scal_r. apply csum_ext. intros l _. ring. }
    rewrite csum_swap. transitivity (csum (fun l => gram i l * cdelta l j) n).
    { apply csum_ext. intros l Hl. rewrite csum_scal_l, u_complete by assumption. reflexivity. }
    apply csum_delta_r'. exact Hj.
  Qed.

  Definition combine (w : nat -> C) (x : nat) : C := csum (fun j => w j * psi j x) n.
  Definition chosen (k x : nat) : C := combine (fun j => u k j / RtoC (sqrt 2)) x.

  Lemma sqrt2_ne : RtoC (sqrt 2) <> 0.
  Proof. intros E. apply RtoC_inj in E. assert (0 < sqrt 2)%R by (apply sqrt_lt_R0; lra). lra. Qed.
  Lemma sqrt2_sq : RtoC (sqrt 2) * RtoC (sqrt 2) = RtoC 2.
  Proof. rewrite <- RtoC_mult, sqrt_sqrt by lra. reflexivity. Qed.
  Lemma sqrt2_conj : Cconj (RtoC (sqrt 2)) = RtoC (sqrt 2).
  Proof. unfold Cconj, RtoC. cbn. f_equal. ring. Qed.

  Lemma chosen_scale k x : chosen k x = combine (u k) x / RtoC (sqrt 2).
  Proof using psi. unfold chosen, combine, Cdiv. rewrite <- csum_scal_r. apply csum_ext. intros j _. ring. Qed.

  Lemma half_product a b : a / RtoC (sqrt 2) * Cconj (b / RtoC (sqrt 2)) = / RtoC 2 * (a * Cconj b).
  Proof.
    assert (Z := sqrt2_ne). unfold Cdiv. rewrite Cconj_mult, Cconj_inv by exact Z. rewrite sqrt2_conj, <- sqrt2_sq. field. exact Z.
  Qed.

  Lemma chosen_inner k l : (k < n)%nat -> (l < n)%nat -> inner_product m (chosen k) (chosen l) = RtoC (N * e k / 2) * cdelta k l.
  Proof using HN He Hu.
    intros Hk Hl. unfold inner_product.
    transitivity (/ RtoC 2 * csum (fun x => csum (fun j => csum (fun i => Cconj (u k i) * (u l j * (Cconj (psi i x) * psi j x))) n) n) m).
    { rewrite <- csum_scal_l. apply csum_ext. intros x _. rewrite !chosen_scale, Cmult_comm, half_product. f_equal.
      unfold combine. rewrite Cconj_csum, csum_mult. apply csum_ext. intros j _. apply csum_ext. intros i _. rewrite Cconj_mult. ring. }
    transitivity (/ RtoC 2 * csum (fun i => Cconj (u k i) * csum (fun j => gram i j * u l j) n) n).
    { f_equal. rewrite csum_swap. transitivity (csum (fun j => csum (fun i => csum (fun x => Cconj (u k i) * (u l j * (Cconj (psi i x) * psi j x))) m) n) n).
      { apply csum_ext. intros j _. apply csum_swap. }
      rewrite csum_swap. apply csum_ext. intros i _. rewrite <- csum_scal_l. apply csum_ext. intros j _. rewrite csum_scal_l, csum_scal_l. unfold gram, inner_product. ring. }
    transitivity (/ RtoC 2 * (RtoC (N * e l) * csum (fun i => Cconj (u k i) * u l i) n)).
    { f_equal. rewrite <- csum_scal_l. apply csum_ext. intros i Hi. rewrite gram_u by assumption. ring. }
    rewrite Hu by assumption. destruct (Nat.eq_dec k l) as [->|D].
    - rewrite cdelta_refl. unfold Rdiv. rewrite (RtoC_mult _ (/ 2)), RtoC_inv by lra. field. intros E. apply RtoC_inj in E. lra.
    - rewrite cdelta_neq by exact D. ring.
  Qed.

  Lemma chosen_norm k : (k < n)%nat -> rsum (fun x => Cnorm2 (chosen k x)) m = (N * e k / 2)%R.
  Proof using HN He Hu.
    intros Hk. apply RtoC_inj. rewrite <- csum_RtoC. transitivity (inner_product m (chosen k) (chosen k)).
    { unfold inner_product. apply csum_ext. intros x _. symmetry. apply Cconj_mult_self. }
    rewrite chosen_inner by assumption. rewrite cdelta_refl. ring.
  Qed.

  Lemma eigen_nonneg k : (k < n)%nat -> (0 <= e k)%R.
  Proof using HN He Hu.
    intros Hk. assert (Z := chosen_norm k Hk). assert (P : (0 <= rsum (fun x => Cnorm2 (chosen k x)) m)%R) by (apply rsum_nonneg; intros x _; apply Cnorm2_nonneg).
    rewrite Z in P. nra.
  Qed.

  Lemma eigen_sum : (N * rsum e n)%R = trace_gram.
  Proof using HN He Hu.
    apply RtoC_inj. rewrite <- trace_csum. rewrite <- LatticeProofs.rsum_scal_l, <- csum_RtoC.
    transitivity (csum (fun i => csum (fun k => RtoC (N * e k) * (u k i * Cconj (u k i))) n) n).
    2:{ apply csum_ext. intros i Hi. apply gram_spectral; assumption. }
    rewrite csum_swap. apply csum_ext. intros k Hk. rewrite csum_scal_l.
    transitivity (RtoC (N * e k) * csum (fun i => Cconj (u k i) * u k i) n); [rewrite Hu by assumption; rewrite cdelta_refl; ring|].
    f_equal. apply csum_ext. intros i _. ring.
  Qed.

  Hypothesis Htr : (0 < trace_gram)%R.
  Let p k := (e k / rsum e n)%R.

  Lemma sum_pos : (0 < rsum e n)%R.
  Proof using HN He Hu Htr. assert (E := eigen_sum). nra. Qed.

  Lemma p_nonneg k : (k < n)%nat -> (0 <= p k)%R.
  Proof using HN He Hu Htr. intros Hk. apply Rmult_le_pos; [apply eigen_nonneg; exact Hk|]. left. apply Rinv_0_lt_compat, sum_pos. Qed.
  Lemma p_sum : rsum p n = 1%R.
  Proof using HN He Hu Htr.
    transitivity (rsum (fun k => / rsum e n * e k)%R n); [apply rsum_ext; intros k _; unfold p, Rdiv; ring|].
    rewrite LatticeProofs.rsum_scal_l. field. assert (P := sum_pos). lra.
  Qed.
  Lemma p_eigen k : (N * e k)%R = (p k * trace_gram)%R.
  Proof using HN He Hu Htr. rewrite <- eigen_sum. unfold p. assert (P := sum_pos). field. lra. Qed.

  Lemma chosen_norm_p k : (k < n)%nat -> rsum (fun x => Cnorm2 (chosen k x)) m = (p k * trace_gram / 2)%R.
  Proof using HN He Hu Htr. intros Hk. rewrite chosen_norm by exact Hk. rewrite p_eigen. reflexivity. Qed.

  (** The sum over all the choices. *)
  Definition density (x y : nat) : C := csum (fun i => psi i x * Cconj (psi i y)) n.

  Lemma chosen_outer (c : nat -> C) x y :
    csum (fun k => c k * (chosen k x * Cconj (chosen k y))) n =
    / RtoC 2 * csum (fun i => csum (fun j => psi i x * Cconj (psi j y) * csum (fun k => c k * (u k i * Cconj (u k j))) n) n) n.
  Proof using psi.
    transitivity (/ RtoC 2 * csum (fun k => csum (fun i => csum (fun j => psi i x * Cconj (psi j y) * (c k * (u k i * Cconj (u k j)))) n) n) n).
    { rewrite <- csum_scal_l. apply csum_ext. intros k _. rewrite !chosen_scale, half_product.
      transitivity (/ RtoC 2 * (c k * (combine (u k) x * Cconj (combine (u k) y)))); [ring|]. f_equal.
      unfold combine. rewrite Cconj_csum, csum_mult, <- csum_scal_l. apply csum_ext. intros i _. rewrite <- csum_scal_l. apply csum_ext. intros j _.
      rewrite Cconj_mult. ring. }
    f_equal. rewrite csum_swap. apply csum_ext. intros i _. rewrite csum_swap. apply csum_ext. intros j _. rewrite csum_scal_l. reflexivity.
  Qed.

  Lemma chosen_total x y : csum (fun k => chosen k x * Cconj (chosen k y)) n = / RtoC 2 * density x y.
  Proof using Hu.
    transitivity (csum (fun k => 1 * (chosen k x * Cconj (chosen k y))) n); [apply csum_ext; intros k _; ring|].
    rewrite chosen_outer. f_equal. unfold density. apply csum_ext. intros i Hi.
    transitivity (csum (fun j => psi i x * Cconj (psi j y) * cdelta i j) n).
    { apply csum_ext. intros j Hj. f_equal. rewrite <- (u_complete i j Hi Hj). apply csum_ext. intros k _. ring. }
    rewrite (csum_delta_r (fun j => psi i x * Cconj (psi j y)) n i Hi). reflexivity.
  Qed.

  Lemma chosen_mean x y : csum (fun k => RtoC (p k) * (chosen k x * Cconj (chosen k y))) n
    = / RtoC (2 * trace_gram) * csum (fun z => density x z * density z y) m.
  Proof using HN He Hu Htr.
    rewrite chosen_outer.
    transitivity (/ RtoC 2 * csum (fun i => csum (fun j => psi i x * Cconj (psi j y) * (/ RtoC trace_gram * gram i j)) n) n).
    { f_equal. apply csum_ext. intros i Hi. apply csum_ext. intros j Hj. f_equal. rewrite <- gram_spectral by assumption.
      rewrite <- csum_scal_l. apply csum_ext. intros k _. rewrite (p_eigen k), RtoC_mult. field. intros E. apply RtoC_inj in E. lra. }
    transitivity (/ RtoC (2 * trace_gram) * csum (fun i => csum (fun j => csum (fun z => psi i x * Cconj (psi i z) * (psi j z * Cconj (psi j y))) m) n) n).
    { rewrite RtoC_mult. rewrite <- !csum_scal_l. apply csum_ext. intros i _. rewrite <- !csum_scal_l. apply csum_ext. intros j _.
      unfold gram, inner_product. transitivity (/ RtoC 2 * / RtoC trace_gram * (psi i x * Cconj (psi j y) * csum (fun k => Cconj (psi i k) * psi j k) m)); [ring|].
      replace (/ (RtoC 2 * RtoC trace_gram)) with (/ RtoC 2 * / RtoC trace_gram) by (field; split; intros E; apply RtoC_inj in E; lra). f_equal. rewrite <- csum_scal_l. apply csum_ext. intros z _. ring. }
    f_equal. transitivity (csum (fun i => csum (fun z => csum (fun j => psi i x * Cconj (psi i z) * (psi j z * Cconj (psi j y))) n) m) n).
    { apply csum_ext. intros i _. apply csum_swap. }
    rewrite csum_swap. apply csum_ext. intros z _. unfold density. symmetry. apply csum_mult.
  Qed.
End Gram.
