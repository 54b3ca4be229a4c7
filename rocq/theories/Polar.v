(** The isometry U V^dagger of a singular value decomposition A = U S V^dagger. *)
From Coq Require Import Reals Psatz.
From Verif Require Import ZLib Csum DFT NumPy Basis SpecBasis Operator SpecOperator SpecMatrix LinAlg.
Local Open Scope R_scope.
Local Open Scope C_scope.

Lemma Re_csum f n : fst (csum f n) = rsum (fun i => fst (f i)) n.
Proof. induction n as [|n IH]; [reflexivity|]. rewrite csum_S, rsum_S, <- IH. reflexivity. Qed.
Lemma rsum_scal_l (c : R) f n : rsum (fun i => (c * f i)%R) n = (c * rsum f n)%R.
Proof. induction n as [|n IH]; [cbn; lra|]. rewrite !rsum_S, IH. lra. Qed.
Lemma rsum_plus f g n : rsum (fun i => (f i + g i)%R) n = (rsum f n + rsum g n)%R.
Proof. induction n as [|n IH]; [cbn; lra|]. rewrite !rsum_S, IH. lra. Qed.

Section Polar.
  Context (m n r : nat) (A u vd : nat -> nat -> C) (s : nat -> R).
  Context (Hs : forall k, (k < r)%nat -> (0 <= s k)%R).
  Context (Hu : orthonormal_columns m r u) (Hv : orthonormal_rows r n vd).
  Context (HA : forall i j, (i < m)%nat -> (j < n)%nat -> A i j = csum (fun k => u i k * RtoC (s k) * vd k j) r).
  Definition polar : nat -> nat -> C := fun p b => csum (fun k => u b k * vd k p) r.

  Lemma polar_rows : r = n -> orthonormal_rows n m polar.
  Proof.
    intros Er p q Hp Hq. assert (Hc : orthonormal_columns n n vd) by (apply orthonormal_square; rewrite <- Er at 1; exact Hv). unfold polar.
    transitivity (csum (fun k => csum (fun l => (vd k p * Cconj (vd l q)) * csum (fun b => Cconj (u b l) * u b k) m) r) r).
    - transitivity (csum (fun b => csum (fun k => csum (fun l => (vd k p * Cconj (vd l q)) * (Cconj (u b l) * u b k)) r) r) m).
      + apply csum_ext. intros b Hb. rewrite Cconj_csum, csum_mult. apply csum_ext. intros k Hk. apply csum_ext. intros l Hl.
        rewrite Cconj_mult. ring.
      + rewrite csum_swap. apply csum_ext. intros k Hk. rewrite csum_swap. apply csum_ext. intros l Hl. apply csum_scal_l.
    - transitivity (csum (fun k => Cconj (vd k q) * vd k p) r).
      + apply csum_ext. intros k Hk. rewrite (csum_ext _ (fun l => (vd k p * Cconj (vd l q)) * cdelta l k)) by (intros l Hl; rewrite Hu by assumption; reflexivity).
        rewrite csum_delta_r' by exact Hk. ring.
      + rewrite Er, (Hc q p Hq Hp). apply cdelta_sym.
  Qed.

  Lemma polar_overlap p q : (p < n)%nat -> (q < n)%nat ->
    csum (fun b => Cconj (polar p b) * A b q) m = csum (fun k => Cconj (vd k p) * RtoC (s k) * vd k q) r.
  Proof.
    intros Hp Hq. unfold polar.
    transitivity (csum (fun k => csum (fun l => (Cconj (vd k p) * RtoC (s l) * vd l q) * csum (fun b => Cconj (u b k) * u b l) m) r) r).
    - transitivity (csum (fun b => csum (fun k => csum (fun l => (Cconj (vd k p) * RtoC (s l) * vd l q) * (Cconj (u b k) * u b l)) r) r) m).
      + apply csum_ext. intros b Hb. rewrite HA by assumption. rewrite Cconj_csum, csum_mult. apply csum_ext. intros k Hk.
        apply csum_ext. intros l Hl. rewrite Cconj_mult. ring.
      + rewrite csum_swap. apply csum_ext. intros k Hk. rewrite csum_swap. apply csum_ext. intros l Hl. apply csum_scal_l.
    - apply csum_ext. intros k Hk.
      rewrite (csum_ext _ (fun l => (Cconj (vd k p) * RtoC (s l) * vd l q) * cdelta k l)) by (intros l Hl; rewrite Hu by assumption; reflexivity).
      rewrite (csum_delta_r (fun l => Cconj (vd k p) * RtoC (s l) * vd l q)) by exact Hk. reflexivity.
  Qed.

  Lemma polar_hermitian p q : (p < n)%nat -> (q < n)%nat ->
    csum (fun b => Cconj (polar p b) * A b q) m = Cconj (csum (fun b => Cconj (polar q b) * A b p) m).
  Proof.
    intros Hp Hq. rewrite !polar_overlap by assumption. rewrite Cconj_csum. apply csum_ext. intros k Hk.
    rewrite !Cconj_mult, Cconj_conj, Cconj_RtoC. ring.
  Qed.

  Lemma polar_psd x : exists t, (0 <= t)%R /\
    csum (fun p => csum (fun q => Cconj (x p) * csum (fun b => Cconj (polar p b) * A b q) m * x q) n) n = RtoC t.
  Proof.
    exists (rsum (fun k => (s k * Cnorm2 (csum (fun q => (vd k q * x q)%C) n))%R) r). split.
    - apply rsum_nonneg. intros k Hk. apply Rmult_le_pos; [apply Hs; exact Hk|apply Cnorm2_nonneg].
    - rewrite <- csum_RtoC.
      transitivity (csum (fun k => csum (fun p => csum (fun q => RtoC (s k) * (Cconj (vd k p * x p) * (vd k q * x q))) n) n) r).
      + transitivity (csum (fun p => csum (fun q => csum (fun k => RtoC (s k) * (Cconj (vd k p * x p) * (vd k q * x q))) r) n) n).
        * apply csum_ext. intros p Hp. apply csum_ext. intros q Hq. rewrite polar_overlap by assumption.
          rewrite <- csum_scal_l, <- csum_scal_r. apply csum_ext. intros k Hk. rewrite Cconj_mult. ring.
        * rewrite (csum_ext _ (fun p => csum (fun k => csum (fun q => RtoC (s k) * (Cconj (vd k p * x p) * (vd k q * x q))) n) r))
            by (intros p Hp; apply csum_swap).
          apply csum_swap.
      + apply csum_ext. intros k Hk. rewrite RtoC_mult, <- Cconj_mult_self, Cconj_csum, csum_mult, <- csum_scal_l.
        apply csum_ext. intros p Hp. apply csum_scal_l.
  Qed.

  Lemma polar_trace : fst (csum (fun p => csum (fun b => Cconj (polar p b) * A b p) m) n) = rsum s r.
  Proof.
    rewrite (csum_ext _ (fun p => csum (fun k => Cconj (vd k p) * RtoC (s k) * vd k p) r)) by (intros; apply polar_overlap; assumption).
    rewrite csum_swap. rewrite (csum_ext _ (fun k => RtoC (s k))).
    - rewrite csum_RtoC. reflexivity.
    - intros k Hk. rewrite (csum_ext _ (fun p => RtoC (s k) * (vd k p * Cconj (vd k p)))) by (intros; ring).
      rewrite csum_scal_l, Hv by exact Hk. rewrite cdelta_refl. ring.
  Qed.

  Lemma re_mult_bound a b : (2 * fst (Cconj a * b)%C <= Cnorm2 a + Cnorm2 b)%R.
  Proof.
    destruct a as [a1 a2], b as [b1 b2]. unfold Cnorm2, Cconj, Cmult. cbn [fst snd].
    assert (0 <= (a1 - b1) * (a1 - b1) + (a2 - b2) * (a2 - b2))%R by (apply Rplus_le_le_0_compat; apply Rle_0_sqr). lra.
  Qed.

  Lemma polar_best W : orthonormal_rows n m W ->
    (fst (csum (fun p => csum (fun b => Cconj (W p b) * A b p) m) n)%C <= rsum s r)%R.
  Proof.
    intros HW. set (y := fun k b => csum (fun p => Cconj (vd k p) * W p b) n).
    assert (Ny : forall k, (k < r)%nat -> csum (fun b => Cconj (y k b) * y k b) m = 1).
    { intros k Hk. unfold y.
      transitivity (csum (fun p => csum (fun q => (vd k p * Cconj (vd k q)) * csum (fun b => W q b * Cconj (W p b)) m) n) n).
      - transitivity (csum (fun b => csum (fun p => csum (fun q => (vd k p * Cconj (vd k q)) * (W q b * Cconj (W p b))) n) n) m).
        + apply csum_ext. intros b Hb. rewrite Cconj_csum, csum_mult. apply csum_ext. intros p Hp. apply csum_ext. intros q Hq.
          rewrite Cconj_mult, Cconj_conj. ring.
        + rewrite csum_swap. apply csum_ext. intros p Hp. rewrite csum_swap. apply csum_ext. intros q Hq. apply csum_scal_l.
      - rewrite (csum_ext _ (fun p => vd k p * Cconj (vd k p))).
        + rewrite Hv by exact Hk. apply cdelta_refl.
        + intros p Hp. rewrite (csum_ext _ (fun q => (vd k p * Cconj (vd k q)) * cdelta q p)) by (intros q Hq; rewrite HW by assumption; reflexivity).
          apply (csum_delta_r' (fun q => vd k p * Cconj (vd k q))). exact Hp. }
    assert (E : csum (fun p => csum (fun b => Cconj (W p b) * A b p) m) n =
      csum (fun k => RtoC (s k) * csum (fun b => Cconj (y k b) * u b k) m) r).
    { transitivity (csum (fun p => csum (fun b => csum (fun k => RtoC (s k) * (vd k p * Cconj (W p b) * u b k)) r) m) n).
      - apply csum_ext. intros p Hp. apply csum_ext. intros b Hb. rewrite HA by assumption. rewrite <- csum_scal_l.
        apply csum_ext. intros k Hk. ring.
      - rewrite (csum_ext _ (fun p => csum (fun k => csum (fun b => RtoC (s k) * (vd k p * Cconj (W p b) * u b k)) m) r)) by (intros; apply csum_swap).
        rewrite csum_swap. apply csum_ext. intros k Hk. rewrite csum_swap. rewrite <- csum_scal_l. apply csum_ext. intros b Hb.
        rewrite csum_scal_l. f_equal. unfold y. rewrite Cconj_csum, <- csum_scal_r. apply csum_ext. intros p Hp.
        rewrite Cconj_mult, Cconj_conj. ring. }
    rewrite E, Re_csum. apply rsum_le. intros k Hk.
    assert (Hk0 := Hs k Hk).
    assert (B : (fst (csum (fun b => Cconj (y k b) * u b k) m)%C <= 1)%R).
    { rewrite Re_csum.
      assert (N1 := Ny k Hk). rewrite csum_norm2 in N1. apply RtoC_inj in N1.
      assert (N2 := Hu k k Hk Hk). rewrite cdelta_refl in N2. rewrite (csum_norm2 (fun x => u x k)) in N2. apply RtoC_inj in N2.
      assert (L : (2 * rsum (fun b => fst (Cconj (y k b) * u b k)%C) m <= rsum (fun b => Cnorm2 (y k b)%C) m + rsum (fun b => Cnorm2 (u b k)%C) m)%R).
      { rewrite <- rsum_scal_l, <- rsum_plus. apply rsum_le. intros b Hb. apply re_mult_bound. }
      lra. }
    destruct (csum (fun b => Cconj (y k b) * u b k) m) as [c1 c2]. cbn [fst snd Cmult RtoC] in *. cbn. nra.
  Qed.

  (** Sum of squared distances between the combinations of orthonormal [psi] and given
      vectors [q] with overlaps [A]. *)
  Lemma distance_expand K (psi q : nat -> nat -> C) W : orthonormal_rows m K psi ->
    (forall b p, (b < m)%nat -> (p < n)%nat -> csum (fun k => Cconj (psi b k) * q p k) K = A b p) ->
    orthonormal_rows n m W ->
    rsum (fun p => rsum (fun k => Cnorm2 (csum (fun b => W p b * psi b k) m - q p k)%C) K) n =
    (INR n + rsum (fun p => rsum (fun k => Cnorm2 (q p k)%C) K) n - 2 * fst (csum (fun p => csum (fun b => Cconj (W p b) * A b p) m) n)%C)%R.
  Proof.
    intros Hpsi HAq HW. rewrite Re_csum.
    assert (Ep : forall p, (p < n)%nat -> rsum (fun k => Cnorm2 (csum (fun b => W p b * psi b k) m - q p k)%C) K =
      (1 + rsum (fun k => Cnorm2 (q p k)%C) K + - 2 * fst (csum (fun b => Cconj (W p b) * A b p) m)%C)%R).
    { intros p Hp.
      rewrite (rsum_ext _ (fun k => (Cnorm2 (csum (fun b => W p b * psi b k) m)%C + Cnorm2 (q p k)%C + - 2 * fst (Cconj (csum (fun b => W p b * psi b k) m) * q p k)%C)%R)).
      2:{ intros k Hk. destruct (csum (fun b => W p b * psi b k) m) as [a1 a2]. destruct (q p k) as [b1 b2].
          unfold Cnorm2, Cconj, Cmult, Cminus, Cplus, Copp. cbn [fst snd]. ring. }
      rewrite rsum_plus, rsum_plus, rsum_scal_l, <- Re_csum.
      assert (E1 : csum (fun k => Cconj (csum (fun b => W p b * psi b k) m) * csum (fun b => W p b * psi b k) m) K = 1).
      { transitivity (csum (fun b => csum (fun c => (Cconj (W p b) * W p c) * csum (fun k => psi c k * Cconj (psi b k)) K) m) m).
        - transitivity (csum (fun k => csum (fun b => csum (fun c => (Cconj (W p b) * W p c) * (psi c k * Cconj (psi b k))) m) m) K).
          + apply csum_ext. intros k Hk. rewrite Cconj_csum, csum_mult. apply csum_ext. intros b Hb. apply csum_ext. intros c Hc.
            rewrite Cconj_mult. ring.
          + rewrite csum_swap. apply csum_ext. intros b Hb. rewrite csum_swap. apply csum_ext. intros c Hc. apply csum_scal_l.
        - rewrite (csum_ext _ (fun b => W p b * Cconj (W p b))).
          + rewrite HW by exact Hp. apply cdelta_refl.
          + intros b Hb. rewrite (csum_ext _ (fun c => (Cconj (W p b) * W p c) * cdelta c b)) by (intros c Hc; rewrite Hpsi by assumption; reflexivity).
            rewrite (csum_delta_r' (fun c => Cconj (W p b) * W p c)) by exact Hb. ring. }
      rewrite csum_norm2 in E1. apply RtoC_inj in E1. rewrite E1.
      replace (csum (fun k => Cconj (csum (fun b => W p b * psi b k) m) * q p k) K) with (csum (fun b => Cconj (W p b) * A b p) m); [reflexivity|].
      transitivity (csum (fun b => csum (fun k => Cconj (W p b) * (Cconj (psi b k) * q p k)) K) m).
      - apply csum_ext. intros b Hb. rewrite csum_scal_l, HAq by assumption. reflexivity.
      - rewrite csum_swap. apply csum_ext. intros k Hk. rewrite Cconj_csum, <- csum_scal_r. apply csum_ext. intros b Hb. rewrite Cconj_mult. ring. }
    rewrite (rsum_ext _ _ n Ep). rewrite !rsum_plus, rsum_scal_l.
    replace (rsum (fun _ => 1%R) n) with (INR n); [lra|].
    clear. induction n as [|k IH]; [reflexivity|]. rewrite S_INR, rsum_S, <- IH. reflexivity.
  Qed.

  Lemma polar_closest K psi q W : r = n -> orthonormal_rows m K psi ->
    (forall b p, (b < m)%nat -> (p < n)%nat -> csum (fun k => Cconj (psi b k) * q p k) K = A b p) ->
    orthonormal_rows n m W ->
    (rsum (fun p => rsum (fun k => Cnorm2 (csum (fun b => polar p b * psi b k) m - q p k)%C) K) n <=
     rsum (fun p => rsum (fun k => Cnorm2 (csum (fun b => W p b * psi b k) m - q p k)%C) K) n)%R.
  Proof.
    intros Er Hpsi HAq HW. rewrite (distance_expand K psi q W Hpsi HAq HW).
    rewrite (distance_expand K psi q polar Hpsi HAq (polar_rows Er)).
    rewrite polar_trace. assert (B := polar_best W HW). lra.
  Qed.
End Polar.
