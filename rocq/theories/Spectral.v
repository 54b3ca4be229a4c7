(** Existence of eigenvalue and singular value decompositions of complex matrices: the
    functions scipy.linalg.eigh and scipy.linalg.svd are asked for do exist. *)
From Coq Require Import Reals Psatz.
From Verif Require Import ZLib Csum DFT NumPy Basis SpecBasis Operator SpecOperator SpecMatrix LinAlg Polar.
Local Open Scope R_scope.
Local Open Scope C_scope.

(** ** Homogeneous systems *)

Lemma C_eq_dec (a b : C) : {a = b} + {a <> b}.
Proof.
  destruct a as [a1 a2], b as [b1 b2]. destruct (Req_EM_T a1 b1) as [->|N].
  - destruct (Req_EM_T a2 b2) as [->|N]; [left; reflexivity|right; intros E; injection E as E; auto].
  - right. intros E. injection E as E1 E2. auto.
Qed.

Lemma nonzero_dec n (f : nat -> C) : {j | (j < n)%nat /\ f j <> 0} + {forall j, (j < n)%nat -> f j = 0}.
Proof.
  induction n as [|n IH]; [right; intros; lia|]. destruct IH as [[j [H1 H2]]|H].
  - left. exists j. split; [lia|exact H2].
  - destruct (C_eq_dec (f n) 0) as [E|E].
    + right. intros j Hj. destruct (Nat.eq_dec j n) as [->|]; [exact E|apply H; lia].
    + left. exists n. split; [lia|exact E].
Qed.

Definition skip (j0 j : nat) : nat := if (j <? j0)%nat then j else S j.

Lemma csum_skip f j0 n : (j0 <= n)%nat -> csum f (S n) = f j0 + csum (fun j => f (skip j0 j)) n.
Proof.
  induction n as [|n IH]; intros H.
  - assert (j0 = 0%nat) by lia. subst. cbn. ring.
  - destruct (Nat.eq_dec j0 (S n)) as [->|Hn].
    + rewrite csum_S, Cplus_comm. f_equal. apply csum_ext. intros j Hj. unfold skip.
      replace (j <? S n)%nat with true by (symmetry; apply Nat.ltb_lt; lia). reflexivity.
    + rewrite csum_S, IH by lia. rewrite (csum_S _ n).
      replace (skip j0 n) with (S n); [ring|]. unfold skip. destruct (Nat.ltb_spec n j0); [lia|reflexivity].
Qed.

Definition unskip (j0 : nat) (z : C) (y : nat -> C) (j : nat) : C :=
  if (j =? j0)%nat then z else if (j <? j0)%nat then y j else y (j - 1)%nat.
Lemma unskip_at j0 z y : unskip j0 z y j0 = z.
Proof. unfold unskip. rewrite Nat.eqb_refl. reflexivity. Qed.
Lemma unskip_skip j0 z y j : unskip j0 z y (skip j0 j) = y j.
Proof.
  unfold unskip, skip. destruct (Nat.ltb_spec j j0).
  - destruct (Nat.eqb_spec j j0); [lia|]. destruct (Nat.ltb_spec j j0); [reflexivity|lia].
  - destruct (Nat.eqb_spec (S j) j0); [lia|]. destruct (Nat.ltb_spec (S j) j0); [lia|]. f_equal. lia.
Qed.
Lemma skip_cover j0 j n : (j < S n)%nat -> j <> j0 -> exists i, skip j0 i = j /\ ((j0 <= n)%nat -> (i < n)%nat).
Proof.
  intros H Hn. destruct (Nat.lt_ge_cases j j0).
  - exists j. unfold skip. replace (j <? j0)%nat with true by (symmetry; apply Nat.ltb_lt; lia). split; [reflexivity|lia].
  - exists (j - 1)%nat. unfold skip. replace (j - 1 <? j0)%nat with false by (symmetry; apply Nat.ltb_ge; lia). split; lia.
Qed.
Lemma skip_lt j0 j n : (j0 <= n)%nat -> (j < n)%nat -> (skip j0 j < S n)%nat.
Proof. intros. unfold skip. destruct (Nat.ltb_spec j j0); lia. Qed.

(** A nontrivial solution of [m] equations in [n] unknowns, or none, and then [n <= m]. *)
Lemma kernel_dec m : forall n (A : nat -> nat -> C),
  {x : nat -> C | (exists j, (j < n)%nat /\ x j <> 0) /\ forall i, (i < m)%nat -> csum (fun j => A i j * x j) n = 0} +
  {(n <= m)%nat /\ forall x : nat -> C, (forall i, (i < m)%nat -> csum (fun j => A i j * x j) n = 0) -> forall j, (j < n)%nat -> x j = 0}.
Proof.
  induction m as [|m IH]; intros n A.
  - destruct n as [|n].
    + right. split; [lia|]. intros; lia.
    + left. exists (fun _ => 1). split; [|intros; lia]. exists 0%nat. split; [lia|]. intros E. apply RtoC_inj in E. lra.
  - destruct (nonzero_dec n (A m)) as [[j0 [Hj0 Hne]]|Hz].
    + destruct n as [|n]; [lia|].
      set (A' := fun i j => A i (skip j0 j) - A i j0 * (A m (skip j0 j) / A m j0)).
      destruct (IH n A') as [[y [Hex Hk]]|[Hle Hinj]].
      * left. exists (unskip j0 (- csum (fun j => A m (skip j0 j) / A m j0 * y j) n) y). split.
        { destruct Hex as [j [Hj Hy]]. exists (skip j0 j). split; [apply skip_lt; lia|]. rewrite unskip_skip. exact Hy. }
        intros i Hi. rewrite (csum_skip _ j0) by lia. rewrite unskip_at. set (z := - csum _ n).
        rewrite (csum_ext _ (fun j => A i (skip j0 j) * y j)) by (intros; rewrite unskip_skip; reflexivity). unfold z.
        destruct (Nat.eq_dec i m) as [->|Hn].
        -- transitivity (- (A m j0 * csum (fun j => A m (skip j0 j) / A m j0 * y j) n) + csum (fun j => A m (skip j0 j) * y j) n); [ring|].
           rewrite <- csum_scal_l, <- csum_opp, <- csum_plus. apply csum_zero_ext. intros k Hk'. field. exact Hne.
        -- rewrite <- (Hk i) by lia. unfold A'.
           transitivity (- (A i j0 * csum (fun j => A m (skip j0 j) / A m j0 * y j) n) + csum (fun j => A i (skip j0 j) * y j) n); [ring|].
           rewrite <- csum_scal_l, <- csum_opp, <- csum_plus. apply csum_ext. intros k Hk'. ring.
      * right. split; [lia|]. intros x Hx.
        assert (Hr : x j0 = - csum (fun j => A m (skip j0 j) / A m j0 * x (skip j0 j)) n).
        { assert (E := Hx m ltac:(lia)). rewrite (csum_skip _ j0) in E by lia.
          assert (E' : x j0 = (A m j0 * x j0) / A m j0) by (field; exact Hne).
          rewrite E'. replace (A m j0 * x j0) with (- csum (fun j => A m (skip j0 j) * x (skip j0 j)) n).
          - unfold Cdiv. transitivity (- (csum (fun j => A m (skip j0 j) * x (skip j0 j)) n * / A m j0)); [ring|].
            f_equal. rewrite <- csum_scal_r. apply csum_ext. intros. ring.
          - transitivity (A m j0 * x j0 - (A m j0 * x j0 + csum (fun j => A m (skip j0 j) * x (skip j0 j)) n)); [ring|]. rewrite E. ring. }
        assert (Z : forall j, (j < n)%nat -> x (skip j0 j) = 0).
        { apply (Hinj (fun j => x (skip j0 j))). intros i Hi. assert (E := Hx i ltac:(lia)).
          rewrite (csum_skip _ j0) in E by lia. rewrite Hr in E. rewrite <- E. unfold A'.
          transitivity (- (A i j0 * csum (fun j => A m (skip j0 j) / A m j0 * x (skip j0 j)) n) + csum (fun j => A i (skip j0 j) * x (skip j0 j)) n); [|ring].
          rewrite <- csum_scal_l, <- csum_opp, <- csum_plus. apply csum_ext. intros k Hk'. ring. }
        intros j Hj. destruct (Nat.eq_dec j j0) as [->|Hn].
        -- rewrite Hr. rewrite csum_zero_ext; [ring|]. intros k Hk'. rewrite Z by exact Hk'. ring.
        -- destruct (skip_cover j0 j n Hj Hn) as [i [Ei Hi]]. rewrite <- Ei. apply Z. apply Hi. lia.
    + destruct (IH n A) as [[x [Hx Hk]]|[Hle Hinj]].
      * left. exists x. split; [exact Hx|]. intros i Hi. destruct (Nat.eq_dec i m) as [->|].
        -- apply csum_zero_ext. intros j Hj. rewrite Hz by exact Hj. ring.
        -- apply Hk. lia.
      * right. split; [lia|]. intros x Hx. apply Hinj. intros i Hi. apply Hx. lia.
Qed.

Lemma kernel_exists m n (A : nat -> nat -> C) : (m < n)%nat ->
  {x : nat -> C | (exists j, (j < n)%nat /\ x j <> 0) /\ forall i, (i < m)%nat -> csum (fun j => A i j * x j) n = 0}.
Proof. intros H. destruct (kernel_dec m n A) as [x|[Hle _]]; [exact x|lia]. Qed.

(** ** Inner products *)

Definition mv (n : nat) (A : nat -> nat -> C) (x : nat -> C) : nat -> C := fun i => csum (fun j => A i j * x j) n.
Definition nrm (n : nat) (x : nat -> C) : R := rsum (fun i => Cnorm2 (x i)) n.
Definition form (n : nat) (A : nat -> nat -> C) (x : nat -> C) : R := fst (inner_product n x (mv n A x)).

Lemma ip_ext n u v u' v' : (forall i, (i < n)%nat -> u i = u' i) -> (forall i, (i < n)%nat -> v i = v' i) ->
  inner_product n u v = inner_product n u' v'.
Proof. intros H1 H2. apply csum_ext. intros i Hi. rewrite H1, H2 by exact Hi. reflexivity. Qed.
Lemma ip_nrm n u : inner_product n u u = RtoC (nrm n u).
Proof. unfold inner_product, nrm. rewrite <- csum_RtoC. apply csum_ext. intros. apply Cconj_mult_self. Qed.
Lemma nrm_nonneg n u : (0 <= nrm n u)%R.
Proof. apply rsum_nonneg. intros. apply Cnorm2_nonneg. Qed.
Lemma nrm_zero n u : nrm n u = 0%R -> forall i, (i < n)%nat -> u i = 0.
Proof. intros H i Hi. apply Cnorm2_eq_0. apply (rsum_zero_nonneg (fun i => Cnorm2 (u i)) n); [intros; apply Cnorm2_nonneg|exact H|exact Hi]. Qed.
Lemma ip_add_r n u v w : inner_product n u (fun i => v i + w i) = inner_product n u v + inner_product n u w.
Proof. unfold inner_product. rewrite <- csum_plus. apply csum_ext. intros. ring. Qed.
Lemma ip_scal_r n u c v : inner_product n u (fun i => c * v i) = c * inner_product n u v.
Proof. unfold inner_product. rewrite <- csum_scal_l. apply csum_ext. intros. ring. Qed.
Lemma ip_conj n u v : Cconj (inner_product n u v) = inner_product n v u.
Proof. unfold inner_product. rewrite Cconj_csum. apply csum_ext. intros. rewrite Cconj_mult, Cconj_conj. ring. Qed.
Lemma ip_add_l n u v w : inner_product n (fun i => v i + w i) u = inner_product n v u + inner_product n w u.
Proof. unfold inner_product. rewrite <- csum_plus. apply csum_ext. intros. rewrite Cconj_plus. ring. Qed.
Lemma ip_scal_l n u c v : inner_product n (fun i => c * v i) u = Cconj c * inner_product n v u.
Proof. unfold inner_product. rewrite <- csum_scal_l. apply csum_ext. intros. rewrite Cconj_mult. ring. Qed.
Lemma ip_csum_r n u (c : nat -> C) (v : nat -> nat -> C) m :
  inner_product n u (fun i => csum (fun k => c k * v k i) m) = csum (fun k => c k * inner_product n u (v k)) m.
Proof.
  induction m as [|m IH]; cbn [csum]; [apply csum_zero_ext; intros; ring|]. rewrite <- IH, <- ip_scal_r, <- ip_add_r. reflexivity.
Qed.
Lemma mv_add n A u v i : mv n A (fun i => u i + v i) i = mv n A u i + mv n A v i.
Proof. unfold mv. rewrite <- csum_plus. apply csum_ext. intros. ring. Qed.
Lemma mv_scal n A c u i : mv n A (fun i => c * u i) i = c * mv n A u i.
Proof. unfold mv. rewrite <- csum_scal_l. apply csum_ext. intros. ring. Qed.
Lemma mv_ext n A u v i : (forall j, (j < n)%nat -> u j = v j) -> mv n A u i = mv n A v i.
Proof. intros H. apply csum_ext. intros j Hj. rewrite H by exact Hj. reflexivity. Qed.

Lemma hermitian_ip n A u v : hermitian n A -> inner_product n (mv n A u) v = inner_product n u (mv n A v).
Proof.
  intros H. unfold inner_product, mv.
  rewrite (csum_ext _ (fun i => csum (fun j => Cconj (A i j) * Cconj (u j) * v i) n)).
  - rewrite csum_swap. apply csum_ext. intros j Hj. rewrite <- csum_scal_l. apply csum_ext. intros i Hi.
    rewrite (H j i Hj Hi). unfold adjoint. ring.
  - intros i Hi. rewrite Cconj_csum, <- csum_scal_r. apply csum_ext. intros. rewrite Cconj_mult. ring.
Qed.
Lemma form_real n A u : hermitian n A -> inner_product n u (mv n A u) = RtoC (form n A u).
Proof.
  intros H. unfold form. assert (E := hermitian_ip n A u u H). rewrite <- (ip_conj n u (mv n A u)) in E.
  destruct (inner_product n u (mv n A u)) as [a b]. cbn in E |- *. injection E as E. unfold RtoC. f_equal. lra.
Qed.
Lemma form_scal n A c u : form n A (fun i => c * u i) = (Cnorm2 c * form n A u)%R.
Proof.
  unfold form. rewrite (ip_ext n _ (mv n A (fun i => c * u i)) (fun i => c * u i) (fun i => c * mv n A u i)); [|reflexivity|intros; apply mv_scal].
  rewrite ip_scal_l, ip_scal_r, Cmult_assoc, Cconj_mult_self. cbn. ring.
Qed.
Lemma nrm_scal n c u : nrm n (fun i => c * u i) = (Cnorm2 c * nrm n u)%R.
Proof. unfold nrm. rewrite <- rsum_scal_l. apply rsum_ext. intros. apply Cnorm2_mult. Qed.
Lemma Cnorm2_RtoC r : Cnorm2 (RtoC r) = (r * r)%R.
Proof. unfold Cnorm2. cbn. ring. Qed.

(** Normalising. *)
Lemma normalise n (x : nat -> C) : (exists j, (j < n)%nat /\ x j <> 0) -> (0 < nrm n x)%R /\ nrm n (fun i => RtoC (/ sqrt (nrm n x)) * x i) = 1%R.
Proof.
  intros [j [Hj Hx]]. assert (P : (0 < nrm n x)%R).
  { destruct (Rle_lt_or_eq_dec 0 (nrm n x) (nrm_nonneg n x)) as [H|H]; [exact H|]. exfalso. apply Hx. apply (nrm_zero n x); [symmetry; exact H|exact Hj]. }
  split; [exact P|]. rewrite nrm_scal, Cnorm2_RtoC.
  assert (S := sqrt_sqrt (nrm n x) ltac:(lra)). assert (Q := sqrt_lt_R0 _ P).
  rewrite <- S at 3. field. lra.
Qed.

Lemma re_bound a b : (2 * fst (Cconj a * b)%C <= Cnorm2 a + Cnorm2 b)%R.
Proof. destruct a as [a1 a2], b as [b1 b2]. unfold Cnorm2. cbn. assert (H1 := Rle_0_sqr (a1 - b1)). assert (H2 := Rle_0_sqr (a2 - b2)). unfold Rsqr in *. lra. Qed.

Lemma rsum_member (f : nat -> R) n i : (forall i, (i < n)%nat -> (0 <= f i)%R) -> (i < n)%nat -> (f i <= rsum f n)%R.
Proof.
  induction n as [|n IH]; intros Hf Hi; [lia|]. rewrite rsum_S. destruct (Nat.eq_dec i n) as [->|Hn].
  - assert (0 <= rsum f n)%R by (apply rsum_nonneg; intros; apply Hf; lia). lra.
  - assert (f i <= rsum f n)%R by (apply IH; [intros; apply Hf; lia|lia]). assert (0 <= f n)%R by (apply Hf; lia). lra.
Qed.

(** A bound of the quadratic form. *)
Lemma form_bound n A : {K | (0 < K)%R /\ forall x, (- (K * nrm n x) <= form n A x <= K * nrm n x)%R}.
Proof.
  exists (1 + rsum (fun i => rsum (fun j => 1 + Cnorm2 (A i j)) n) n)%R.
  assert (P : (0 <= rsum (fun i => rsum (fun j => 1 + Cnorm2 (A i j)) n) n)%R).
  { apply rsum_nonneg. intros i _. apply rsum_nonneg. intros j _. assert (H := Cnorm2_nonneg (A i j)). lra. }
  split; [lra|].
  assert (B : forall (c : C) x, Cnorm2 c = 1%R -> (fst (inner_product n x (fun i => (c * mv n A x i)%C)) <= (1 + rsum (fun i => rsum (fun j => 1 + Cnorm2 (A i j)) n) n) * nrm n x)%R).
  { intros c x Hc. assert (N := nrm_nonneg n x).
    apply Rle_trans with (rsum (fun i => rsum (fun j => 1 + Cnorm2 (A i j)) n) n * nrm n x)%R; [|nra].
    unfold inner_product. rewrite Re_csum, Rmult_comm, <- rsum_scal_l. apply rsum_le. intros i Hi.
    unfold mv. rewrite <- !csum_scal_l, Re_csum, <- rsum_scal_l. apply rsum_le. intros j Hj.
    assert (R1 := re_bound (x i) (c * (A i j * x j))). rewrite !Cnorm2_mult, Hc in R1.
    assert (I := rsum_member (fun i => Cnorm2 (x i)) n i ltac:(intros; apply Cnorm2_nonneg) Hi).
    assert (J := rsum_member (fun i => Cnorm2 (x i)) n j ltac:(intros; apply Cnorm2_nonneg) Hj).
    fold (nrm n x) in I, J. cbv beta in I, J. assert (P1 := Cnorm2_nonneg (A i j)). assert (P2 := Cnorm2_nonneg (x j)). nra. }
  intros x. split.
  - assert (H := B (-1) x ltac:(unfold Cnorm2; cbn; lra)). rewrite ip_scal_r in H. unfold form. cbn in H. lra.
  - assert (H := B 1 x ltac:(unfold Cnorm2; cbn; lra)). rewrite ip_scal_r in H. unfold form. cbn in H. lra.
Qed.

(** An injective Hermitian matrix is bounded below. *)
Lemma bounded_below n M : hermitian n M ->
  (forall x : nat -> C, (forall i, (i < n)%nat -> mv n M x i = 0) -> forall j, (j < n)%nat -> x j = 0) ->
  exists c, (0 < c)%R /\ forall y, (nrm n y <= c * nrm n (mv n M y))%R.
Proof.
  intros H Hinj.
  assert (S : forall i, (i < n)%nat -> exists z, forall k, (k < n)%nat -> mv n M z k = cdelta i k).
  { intros i Hi. destruct (kernel_exists n (S n) (fun k j => if (j <? n)%nat then M k j else cdelta i k) ltac:(lia)) as [x [Hx Hk]].
    assert (E : forall k, (k < n)%nat -> mv n M x k + cdelta i k * x n = 0).
    { intros k Hk'. rewrite <- (Hk k Hk'), csum_S. replace (n <? n)%nat with false by (symmetry; apply Nat.ltb_ge; lia). f_equal.
      apply csum_ext. intros j Hj. replace (j <? n)%nat with true by (symmetry; apply Nat.ltb_lt; exact Hj). reflexivity. }
    assert (N : x n <> 0).
    { intros E0. destruct Hx as [j [Hj Hne]]. assert (Z : forall j, (j < n)%nat -> x j = 0).
      { apply Hinj. intros k Hk'. rewrite <- (E k Hk'), E0. ring. }
      apply Hne. destruct (Nat.eq_dec j n) as [->|]; [exact E0|apply Z; lia]. }
    exists (fun j => - / x n * x j). intros k Hk'. rewrite mv_scal.
    assert (Ek := E k Hk'). replace (mv n M x k) with (- (cdelta i k * x n)).
    - field. exact N.
    - transitivity (mv n M x k - (mv n M x k + cdelta i k * x n)); [ring|]. rewrite Ek. ring. }
  assert (B : forall m, (m <= n)%nat -> exists c, (0 < c)%R /\ forall y, (nrm m y <= c * nrm n (mv n M y))%R).
  { induction m as [|m IH]; intros Hm.
    - exists 1%R. split; [lra|]. intros y. cbn. assert (Q := nrm_nonneg n (mv n M y)). lra.
    - destruct (IH ltac:(lia)) as [c [Hc Bc]]. destruct (S m ltac:(lia)) as [z Hz].
      exists (c + nrm n z)%R. split; [assert (Q := nrm_nonneg n z); lra|]. intros y.
      change (nrm (Datatypes.S m) y) with (nrm m y + Cnorm2 (y m))%R.
      assert (Y : y m = inner_product n z (mv n M y)).
      { rewrite <- hermitian_ip by exact H. rewrite (ip_ext n _ y (fun k => cdelta m k) y); [|exact Hz|reflexivity].
        unfold inner_product. rewrite (csum_ext _ (fun k => cdelta m k * y k)) by (intros; rewrite Cconj_cdelta; reflexivity).
        rewrite csum_delta_l by lia. reflexivity. }
      assert (CS : (Cnorm2 (inner_product n z (mv n M y)) <= nrm n z * nrm n (mv n M y))%R).
      { set (w := mv n M y). set (a := inner_product n z w).
        assert (Q := nrm_nonneg n (fun i => RtoC (nrm n z) * w i + (- a) * z i)).
        assert (E : RtoC (nrm n (fun i => RtoC (nrm n z) * w i + (- a) * z i)) = RtoC (nrm n z * (nrm n z * nrm n w - Cnorm2 a))%R).
        { rewrite <- ip_nrm. rewrite ip_add_l, !ip_scal_l, !ip_add_r, !ip_scal_r. rewrite !ip_nrm.
          rewrite <- (ip_conj n z w). fold a. rewrite Cconj_RtoC, Cconj_opp.
          rewrite RtoC_mult, RtoC_minus, RtoC_mult, <- Cconj_mult_self. ring. }
        apply RtoC_inj in E. rewrite E in Q. assert (Nz := nrm_nonneg n z).
        destruct (Rle_lt_or_eq_dec 0 _ Nz) as [Hp|H0].
        - apply Rnot_lt_le. intros L. assert (nrm n z * (nrm n z * nrm n w - Cnorm2 a) < 0)%R by nra. lra.
        - rewrite <- H0, Rmult_0_l. assert (Z := nrm_zero n z (eq_sym H0)).
          assert (A0 : a = 0). { unfold a, inner_product. apply csum_zero_ext. intros i Hi. rewrite Z by exact Hi. rewrite Cconj_0. ring. }
          rewrite A0. unfold Cnorm2. cbn. lra. }
      rewrite Y. specialize (Bc y). lra. }
  exact (B n (le_n n)).
Qed.
