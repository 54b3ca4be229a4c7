(** Finite-dimensional linear algebra over C needed by several proofs. *)
From Coq Require Import Reals Psatz.
From Verif Require Import ZLib Csum DFT NumPy Basis SpecBasis Operator SpecOperator SpecMatrix.
Local Open Scope R_scope.
Local Open Scope C_scope.

Lemma csum_nonneg_zero f n : (forall i, (i < n)%nat -> exists r, (0 <= r)%R /\ f i = RtoC r) -> csum f n = 0 ->
  forall i, (i < n)%nat -> f i = 0.
Proof.
  induction n as [|n IH]; intros Hf H0 i Hi; [lia|]. rewrite csum_S in H0.
  assert (E : exists r, (0 <= r)%R /\ csum f n = RtoC r).
  { clear -Hf. induction n as [|n IH]; [exists 0%R; split; [lra|reflexivity]|].
    destruct IH as [r [Hr E]]; [intros i Hi; apply Hf; lia|]. destruct (Hf n ltac:(lia)) as [t [Ht E2]].
    exists (r + t)%R. split; [lra|]. rewrite csum_S, E, E2, RtoC_plus. reflexivity. }
  destruct E as [r [Hr E]]. destruct (Hf n ltac:(lia)) as [t [Ht Et]].
  rewrite E, Et, <- RtoC_plus in H0. apply RtoC_inj in H0.
  assert (r = 0%R) by lra. assert (t = 0%R) by lra. subst.
  destruct (Nat.eq_dec i n) as [->|Hn]; [exact Et|]. apply IH; [intros; apply Hf; lia|exact E|lia].
Qed.

Lemma csum_mult f g n m : csum f n * csum g m = csum (fun i => csum (fun j => f i * g j) m) n.
Proof. rewrite <- csum_scal_r. apply csum_ext. intros i Hi. rewrite csum_scal_l. reflexivity. Qed.

Lemma csum_delta_diag (f : nat -> nat -> C) n :
  csum (fun x => csum (fun y => cdelta x y * f x y) n) n = csum (fun x => f x x) n.
Proof. apply csum_ext. intros x Hx. apply (csum_delta_l (f x)). exact Hx. Qed.

(** Squared distance of the projector on the rows from the identity. *)
Lemma orthonormal_defect n m V : orthonormal_rows n m V ->
  csum (fun x => csum (fun y => Cconj (cdelta x y - csum (fun i => Cconj (V i x) * V i y) n) *
     (cdelta x y - csum (fun i => Cconj (V i x) * V i y) n)) m) m = RtoC (INR m) - RtoC (INR n).
Proof.
  intros H.
  set (P := fun x y => csum (fun i => Cconj (V i x) * V i y) n).
  change (csum (fun x => csum (fun y => Cconj (cdelta x y - P x y) * (cdelta x y - P x y)) m) m = RtoC (INR m) - RtoC (INR n)).
  assert (T : csum (fun x => P x x) m = RtoC (INR n)).
  { unfold P. rewrite csum_swap. rewrite (csum_ext _ (fun _ => 1)).
    - rewrite csum_const. ring.
    - intros i Hi. rewrite <- (cdelta_refl i), <- (H i i Hi Hi). apply csum_ext. intros. ring. }
  assert (PP : csum (fun x => csum (fun y => Cconj (P x y) * P x y) m) m = RtoC (INR n)).
  { transitivity (csum (fun i => csum (fun j => csum (fun x => V i x * Cconj (V j x)) m * csum (fun y => V j y * Cconj (V i y)) m) n) n).
    - transitivity (csum (fun x => csum (fun y => csum (fun i => csum (fun j => (V i x * Cconj (V j x)) * (V j y * Cconj (V i y))) n) n) m) m).
      + apply csum_ext. intros x Hx. apply csum_ext. intros y Hy. unfold P. rewrite Cconj_csum, csum_mult.
        apply csum_ext. intros i Hi. apply csum_ext. intros j Hj. rewrite Cconj_mult, Cconj_conj. ring.
      + rewrite (csum_ext _ (fun x => csum (fun i => csum (fun j => csum (fun y => (V i x * Cconj (V j x)) * (V j y * Cconj (V i y))) m) n) n)).
        * rewrite csum_swap. apply csum_ext. intros i Hi. rewrite csum_swap. apply csum_ext. intros j Hj.
          rewrite csum_mult. reflexivity.
        * intros x Hx. rewrite csum_swap. apply csum_ext. intros i Hi. rewrite csum_swap. reflexivity.
    - rewrite (csum_ext _ (fun i => csum (fun j => cdelta i j * 1) n)).
      + rewrite csum_delta_diag, csum_const. ring.
      + intros i Hi. apply csum_ext. intros j Hj. rewrite !H by assumption. rewrite (cdelta_sym j i).
        unfold cdelta. destruct (Nat.eqb i j); ring. }
  transitivity (csum (fun x => csum (fun y => cdelta x y * (1 - P x y - Cconj (P x y)) + Cconj (P x y) * P x y) m) m).
  - apply csum_ext. intros x Hx. apply csum_ext. intros y Hy. rewrite Cconj_minus, Cconj_cdelta.
    unfold cdelta. destruct (Nat.eqb x y); ring.
  - rewrite (csum_ext _ (fun x => csum (fun y => cdelta x y * (1 - P x y - Cconj (P x y))) m + csum (fun y => Cconj (P x y) * P x y) m))
      by (intros; apply csum_plus).
    rewrite csum_plus, PP, csum_delta_diag.
    rewrite csum_minus, csum_minus, <- Cconj_csum, T, csum_const, Cconj_RtoC. ring.
Qed.

Lemma defect_nonneg (D : nat -> nat -> C) m :
  forall x, (x < m)%nat -> exists r, (0 <= r)%R /\ csum (fun y => Cconj (D x y) * D x y) m = RtoC r.
Proof.
  intros x Hx. rewrite csum_norm2. eexists. split; [|reflexivity]. apply rsum_nonneg. intros. apply Cnorm2_nonneg.
Qed.

Lemma orthonormal_square n V : orthonormal_rows n n V -> orthonormal_columns n n V.
Proof.
  intros H. assert (Z := orthonormal_defect n n V H).
  set (P := fun x y => csum (fun i => Cconj (V i x) * V i y) n).
  change (csum (fun x => csum (fun y => Cconj (cdelta x y - P x y) * (cdelta x y - P x y)) n) n = RtoC (INR n) - RtoC (INR n)) in Z.
  replace (RtoC (INR n) - RtoC (INR n)) with (RtoC 0) in Z by ring.
  intros x y Hx Hy. change (P x y = cdelta x y).
  assert (Z1 := csum_nonneg_zero _ n (defect_nonneg (fun x y => cdelta x y - P x y) n) Z x Hx). cbv beta in Z1.
  assert (Z2 := csum_nonneg_zero _ n ltac:(intros i Hi; exists (Cnorm2 (cdelta x i - P x i)); split; [apply Cnorm2_nonneg|apply Cconj_mult_self]) Z1 y Hy).
  cbv beta in Z2. rewrite Cconj_mult_self in Z2. apply RtoC_inj, Cnorm2_eq_0 in Z2.
  replace (P x y) with (cdelta x y - (cdelta x y - P x y)) by ring. rewrite Z2. ring.
Qed.

(** No more than [m] orthonormal vectors of length [m]. *)
Lemma orthonormal_rows_le n m V : orthonormal_rows n m V -> (n <= m)%nat.
Proof.
  intros H. assert (Z := orthonormal_defect n m V H).
  set (P := fun x y => csum (fun i => Cconj (V i x) * V i y) n).
  change (csum (fun x => csum (fun y => Cconj (cdelta x y - P x y) * (cdelta x y - P x y)) m) m = RtoC (INR m) - RtoC (INR n)) in Z.
  rewrite (csum_ext _ (fun x => RtoC (rsum (fun y => Cnorm2 (cdelta x y - P x y)) m))) in Z
    by (intros x Hx; apply csum_norm2).
  rewrite csum_RtoC, <- RtoC_minus in Z. apply RtoC_inj in Z.
  apply INR_le. assert (0 <= rsum (fun x => rsum (fun y => Cnorm2 (cdelta x y - P x y)%C) m) m)%R
    by (apply rsum_nonneg; intros; apply rsum_nonneg; intros; apply Cnorm2_nonneg). lra.
Qed.
