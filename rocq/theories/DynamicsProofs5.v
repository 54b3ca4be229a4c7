(** Solutions of the Schrodinger equation. *)
From Coq Require Import Reals Psatz.
From Coquelicot Require Import Coquelicot.
From Verif Require Import ZLib Csum DFT NumPy Basis SpecBasis BasisProofs Operator SpecOperator SpecMatrix LinAlg OperatorProofs Localize SpecLocalize
  LocalizeProofs3 SpecHamiltonian Dynamics SpecDynamics DynamicsProofs2.
Local Open Scope R_scope.
Local Open Scope C_scope.

Lemma cexp_imaginary a : fst a = 0%R -> Cconj (cexp a) * cexp a = 1.
Proof.
  intros H. unfold cexp. rewrite H, exp_0. rewrite Cconj_mult, Cconj_RtoC.
  replace (RtoC 1 * Cconj (cis (snd a)) * (RtoC 1 * cis (snd a))) with (cis (snd a) * Cconj (cis (snd a))) by ring.
  rewrite cis_conj, <- cis_plus. replace (snd a + - snd a)%R with 0%R by ring. apply cis_0.
Qed.
Definition rotation (hbar E : R) : C := - Ci * RtoC (E / hbar)%R.
Lemma rotation_fst hbar E t : fst (rotation hbar E * RtoC t) = 0%R.
Proof. unfold rotation. cbn. ring. Qed.
Lemma phase_eq hbar E t : hbar <> 0%R ->
  cexp (- Ci * RtoC E * RtoC t / RtoC hbar) = cexp (rotation hbar E * RtoC t).
Proof.
  intros H. f_equal. unfold rotation, Rdiv. rewrite RtoC_mult, RtoC_inv by exact H. unfold Cdiv. ring.
Qed.

Section Flow.
  Context (n : nat) (hbar : R) (E : nat -> R) (v : nat -> nat -> C) (H : nat -> nat -> C).
  Context (Hb : hbar <> 0%R) (Hcol : orthonormal_columns n n v)
    (Hev : forall k x, (k < n)%nat -> (x < n)%nat -> csum (fun y => H x y * v y k) n = RtoC (E k) * v x k).
  Definition comp (psi : nat -> C) (k : nat) : C := csum (fun x => Cconj (v x k) * psi x) n.
  Definition flow (psi : nat -> C) (t : R) (x : nat) : C :=
    csum (fun k => comp psi k * cexp (rotation hbar (E k) * RtoC t) * v x k) n.

  Lemma completeness x y : (x < n)%nat -> (y < n)%nat -> csum (fun k => v x k * Cconj (v y k)) n = cdelta x y.
  Proof using Hcol.
    intros Hx Hy.
    assert (R : orthonormal_rows n n (fun i x => Cconj (v x i))).
    { intros i j Hi Hj. rewrite <- (Hcol i j Hi Hj). apply csum_ext. intros. rewrite Cconj_conj. reflexivity. }
    pose proof (orthonormal_square n _ R x y Hx Hy) as K. cbv beta in K. rewrite <- K. apply csum_ext. intros. rewrite Cconj_conj. reflexivity.
  Qed.
  Lemma flow_0 psi x : (x < n)%nat -> flow psi 0 x = psi x.
  Proof using Hcol.
    intros Hx. unfold flow, comp.
    rewrite (csum_ext _ (fun k => csum (fun y => v x k * Cconj (v y k) * psi y) n)).
    2:{ intros k _. rewrite Cmult_0_r, cexp_0, Cmult_1_r, <- csum_scal_r. apply csum_ext. intros; ring. }
    rewrite csum_swap. rewrite (csum_ext _ (fun y => cdelta x y * psi y)).
    - apply csum_delta_l. exact Hx.
    - intros y Hy. rewrite csum_scal_r, completeness by assumption. reflexivity.
  Qed.
  Lemma comp_flow psi t k : (k < n)%nat -> comp (flow psi t) k = comp psi k * cexp (rotation hbar (E k) * RtoC t).
  Proof using Hcol.
    intros Hk. unfold comp at 1, flow.
    rewrite (csum_ext _ (fun x => csum (fun l => comp psi l * cexp (rotation hbar (E l) * RtoC t) * (Cconj (v x k) * v x l)) n)).
    2:{ intros x _. rewrite <- csum_scal_l. apply csum_ext. intros; ring. }
    rewrite csum_swap. rewrite (csum_ext _ (fun l => cdelta k l * (comp psi l * cexp (rotation hbar (E l) * RtoC t)))).
    - rewrite csum_delta_l by exact Hk. reflexivity.
    - intros l Hl. rewrite csum_scal_l, Hcol by assumption. ring.
  Qed.
  Lemma parseval phi psi : csum (fun k => Cconj (comp phi k) * comp psi k) n = inner_product n phi psi.
  Proof using Hcol.
    unfold comp, inner_product.
    rewrite (csum_ext _ (fun k => csum (fun x => csum (fun y => v x k * Cconj (v y k) * (Cconj (phi x) * psi y)) n) n)).
    2:{ intros k _. rewrite Cconj_csum, csum_mult. apply csum_ext. intros x _. apply csum_ext. intros y _.
        rewrite Cconj_mult, Cconj_conj. ring. }
    rewrite csum_swap. apply csum_ext. intros x Hx. rewrite csum_swap.
    rewrite (csum_ext _ (fun y => cdelta x y * (Cconj (phi x) * psi y))).
    - apply (csum_delta_l (fun y => Cconj (phi x) * psi y)). exact Hx.
    - intros y Hy. rewrite csum_scal_r, completeness by assumption. reflexivity.
  Qed.
  Lemma flow_inner phi psi t : inner_product n (flow phi t) (flow psi t) = inner_product n phi psi.
  Proof using Hcol.
    rewrite <- !parseval. apply csum_ext. intros k Hk. rewrite !comp_flow by exact Hk. rewrite Cconj_mult.
    transitivity (Cconj (comp phi k) * comp psi k *
      (Cconj (cexp (rotation hbar (E k) * RtoC t)) * cexp (rotation hbar (E k) * RtoC t))); [ring|].
    rewrite cexp_imaginary by apply rotation_fst. ring.
  Qed.
  Lemma flow_group psi t s x : flow (flow psi t) s x = flow psi (t + s) x.
  Proof using Hcol.
    unfold flow at 1 3. apply csum_ext. intros k Hk. rewrite comp_flow by exact Hk.
    rewrite RtoC_plus, Cmult_plus_distr_l, cexp_plus. ring.
  Qed.
  Lemma flow_linear a b phi psi t x : flow (fun y => a * phi y + b * psi y) t x = a * flow phi t x + b * flow psi t x.
  Proof using.
    unfold flow. rewrite <- !csum_scal_l, <- csum_plus. apply csum_ext. intros k _.
    assert (Ec : comp (fun y => a * phi y + b * psi y) k = a * comp phi k + b * comp psi k).
    { unfold comp. rewrite <- !csum_scal_l, <- csum_plus. apply csum_ext. intros; ring. }
    rewrite Ec. ring.
  Qed.
  Lemma flow_equation psi t x : (x < n)%nat -> exists d, cderivative (fun s => flow psi s x) t d /\
    Ci * RtoC hbar * d = applied n H (flow psi t) x.
  Proof using Hb Hev.
    intros Hx. eexists. split.
    - apply (cderivative_csum (fun k s => comp psi k * cexp (rotation hbar (E k) * RtoC s) * v x k)). intros k Hk.
      apply cderivative_scal_r. apply cderivative_scal. apply cderivative_cexp.
    - rewrite <- csum_scal_l. unfold applied, flow.
      rewrite (csum_ext (fun j => H x j * _) (fun j => csum (fun k => comp psi k * cexp (rotation hbar (E k) * RtoC t) * (H x j * v j k)) n)).
      2:{ intros j _. rewrite <- csum_scal_l. apply csum_ext. intros; ring. }
      rewrite csum_swap. apply csum_ext. intros k Hk. rewrite csum_scal_l, Hev by assumption.
      assert (Er : Ci * RtoC hbar * rotation hbar (E k) = RtoC (E k)).
      { unfold rotation, Rdiv. rewrite RtoC_mult, RtoC_inv by exact Hb.
        transitivity (- (Ci * Ci) * RtoC (E k) * (RtoC hbar * / RtoC hbar)); [ring|].
        rewrite Cinv_r. 2:{ intros Q. apply Hb. apply (f_equal fst) in Q. exact Q. }
        replace (Ci * Ci) with (- RtoC 1) by (unfold Ci; apply injective_projections; cbn; ring). ring. }
      rewrite <- Er. ring.
  Qed.
End Flow.

Lemma schrodinger_spec eigh n h hbar : eigh_ok eigh -> (0 < n)%nat -> square n h -> hermitian n (op_entry h) -> hbar <> 0%R ->
  exists U : (nat -> C) -> R -> nat -> C,
    (forall psi nt times, exists out, solve_schrodinger_equation_decomposition eigh hbar psi nt times h = Some out /\
       ashape out = [nt; n] /\ forall s x, (s < nt)%nat -> (x < n)%nat -> at2 out s x = U psi (times s) x) /\
    (forall psi x, (x < n)%nat -> U psi 0%R x = psi x) /\
    (forall phi psi t, inner_product n (U phi t) (U psi t) = inner_product n phi psi) /\
    (forall psi t s x, U (U psi t) s x = U psi (t + s)%R x) /\
    (forall a b phi psi t x, U (fun y => a * phi y + b * psi y) t x = a * U phi t x + b * U psi t x) /\
    (forall psi t x, (x < n)%nat -> exists d, cderivative (fun s => U psi s x) t d /\ Ci * RtoC hbar * d = applied n (op_entry h) (U psi t) x).
Proof.
  intros He Hn [Hw [Hro Hco]] Hh Hb.
  set (A := at2 {| ashape := [n; n]; aflat := aflat (odata h) |}).
  assert (HA : forall i j, A i j = op_entry h i j).
  { intros i j. unfold A, at2, op_entry. cbn [ashape nth aflat]. rewrite Hco. reflexivity. }
  assert (HhA : hermitian n A). { intros i j Hi Hj. unfold adjoint. rewrite !HA. apply (Hh i j); assumption. }
  pose proof (He n A 0%nat (n - 1)%nat HhA ltac:(lia) ltac:(lia)) as S.
  destruct (eigh n A 0%nat (n - 1)%nat) as [e v] eqn:Ee.
  replace (n - 1 - 0 + 1)%nat with n in S by lia. destruct S as [Hcol [Hev _]].
  assert (Hev' : forall k x, (k < n)%nat -> (x < n)%nat -> csum (fun y => op_entry h x y * v y k) n = RtoC (e k) * v x k).
  { intros k x Hk Hx. rewrite <- (Hev k x Hk Hx). apply csum_ext. intros y _. rewrite HA. reflexivity. }
  exists (flow n hbar e v). split; [|split; [|split; [|split; [|split]]]].
  - intros psi nt times. unfold solve_schrodinger_equation_decomposition. rewrite Hro, Hco, Nat.eqb_refl.
    pose proof (op_reshape h Hw) as Er. rewrite Hro, Hco in Er. rewrite Er. fold A.
    replace (Z.of_nat n - 1)%Z with (Z.of_nat (n - 1)) by lia. change 0%Z with (Z.of_nat 0).
    rewrite eigenvectors_some by lia. rewrite Ee. eexists. split; [reflexivity|]. split; [reflexivity|].
    intros s x Hs Hx. unfold at2. cbn [array2 ashape nth aflat].
    rewrite div_add_small, mod_add_small by exact Hx.
    apply csum_ext. intros k Hk. rewrite phase_eq by exact Hb. reflexivity.
  - intros psi x Hx. apply flow_0; assumption.
  - intros phi psi t. apply flow_inner. exact Hcol.
  - intros psi t s x. apply flow_group. exact Hcol.
  - intros. apply flow_linear.
  - intros psi t x Hx. apply flow_equation; assumption.
Qed.

Lemma schrodinger_diagonal_spec same hbar b0 b1 F (E : nat -> R) : convert same b0 b1 = Some F -> hbar <> 0%R ->
  exists U : (nat -> C) -> R -> nat -> C,
    (forall psi nt times, exists out, solve_schrodinger_equation_diagonal same hbar b0 psi nt times b1 (fun k => RtoC (E k)) = Some out /\
       ashape out = [nt; bsize b1] /\ forall s k, (s < nt)%nat -> (k < bsize b1)%nat -> at2 out s k = U (F psi) (times s) k) /\
    (forall phi k, (k < bsize b1)%nat -> U phi 0%R k = phi k) /\
    (forall phi psi t, inner_product (bsize b1) (U phi t) (U psi t) = inner_product (bsize b1) phi psi) /\
    (forall psi t s k, U (U psi t) s k = U psi (t + s)%R k) /\
    (forall psi t k, (k < bsize b1)%nat -> exists d, cderivative (fun s => U psi s k) t d /\ Ci * RtoC hbar * d = RtoC (E k) * U psi t k).
Proof.
  intros HF Hb. exists (fun phi t k => phi k * cexp (rotation hbar (E k) * RtoC t)). split; [|split; [|split; [|split]]].
  - intros psi nt times. unfold solve_schrodinger_equation_diagonal. rewrite HF. eexists. split; [reflexivity|]. split; [reflexivity|].
    intros s k Hs Hk. unfold at2. cbn [array2 ashape nth aflat]. rewrite div_add_small, mod_add_small by exact Hk.
    rewrite phase_eq by exact Hb. reflexivity.
  - intros phi k _. rewrite Cmult_0_r, cexp_0. ring.
  - intros phi psi t. apply csum_ext. intros k _. rewrite Cconj_mult.
    transitivity (Cconj (phi k) * psi k * (Cconj (cexp (rotation hbar (E k) * RtoC t)) * cexp (rotation hbar (E k) * RtoC t))); [ring|].
    rewrite cexp_imaginary by apply rotation_fst. ring.
  - intros psi t s k. rewrite RtoC_plus, Cmult_plus_distr_l, cexp_plus. ring.
  - intros psi t k _. eexists. split; [apply cderivative_scal; apply cderivative_cexp|].
    assert (Er : Ci * RtoC hbar * rotation hbar (E k) = RtoC (E k)).
    { unfold rotation, Rdiv. rewrite RtoC_mult, RtoC_inv by exact Hb.
      transitivity (- (Ci * Ci) * RtoC (E k) * (RtoC hbar * / RtoC hbar)); [ring|].
      rewrite Cinv_r. 2:{ intros Q. apply Hb. apply (f_equal fst) in Q. exact Q. }
      replace (Ci * Ci) with (- RtoC 1) by (unfold Ci; apply injective_projections; cbn; ring). ring. }
    transitivity (psi k * cexp (rotation hbar (E k) * RtoC t) * (Ci * RtoC hbar * rotation hbar (E k))); [ring|]. rewrite Er. ring.
Qed.
