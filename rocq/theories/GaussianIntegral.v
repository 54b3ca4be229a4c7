(** The Gaussian integral over the real line. *)
From Coq Require Import Reals Psatz Lra.
From Coquelicot Require Import Coquelicot.
Local Open Scope R_scope.

Definition gauss (t : R) : R := exp (- (t * t)).
Definition gauss_int (x : R) : R := RInt gauss 0 x.

Lemma gauss_continuous t : continuous gauss t.
Proof. apply (ex_derive_continuous gauss). unfold gauss. auto_derive. trivial. Qed.

Lemma gauss_pos t : 0 < gauss t.
Proof. apply exp_pos. Qed.

Lemma gauss_ex a b : ex_RInt gauss a b.
Proof. apply (ex_RInt_continuous gauss). intros. apply gauss_continuous. Qed.

Lemma gauss_int_derive x : is_derive gauss_int x (gauss x).
Proof.
  apply (is_derive_RInt gauss gauss_int 0 x); [|apply gauss_continuous].
  exists (mkposreal 1 Rlt_0_1). intros y _. apply (RInt_correct gauss). apply gauss_ex.
Qed.

Definition fint (u t : R) : R := exp (- (u * u) * (1 + t * t)) / (1 + t * t).
Definition kint (u : R) : R := RInt (fun t => fint u t) 0 1.

Lemma fint_den t : 1 + t * t <> 0.
Proof. nra. Qed.

Lemma fint_derive u t : is_derive (fun z => fint z t) u (- 2 * u * exp (- (u * u) * (1 + t * t))).
Proof.
  unfold fint. pose proof (fint_den t) as H. auto_derive; [trivial|].
  field. exact H.
Qed.

Lemma fint_ex u : ex_RInt (fun t => fint u t) 0 1.
Proof.
  apply (ex_RInt_continuous (fun t => fint u t)). intros t _. apply (ex_derive_continuous (fun t => fint u t)).
  unfold fint. auto_derive. apply fint_den.
Qed.

Lemma kint_derive u : is_derive kint u (- 2 * gauss u * gauss_int u).
Proof.
  assert (E : - 2 * gauss u * gauss_int u = RInt (fun t => Derive (fun z => fint z t) u) 0 1).
  { rewrite (RInt_ext _ (fun t => scal (- 2 * gauss u) (scal u (gauss (u * t + 0))))).
    2:{ intros t _. etransitivity; [apply (is_derive_unique _ _ _ (fint_derive u t))|]. unfold scal, gauss. cbn. unfold mult. cbn.
        replace (- (u * u) * (1 + t * t)) with (- (u * u) + - ((u * t + 0) * (u * t + 0))) by ring.
        rewrite exp_plus. match goal with |- ?a = ?b => change (@eq R a b) end. ring. }
    rewrite (RInt_scal (fun t => scal u (gauss (u * t + 0)))).
    2:{ apply (ex_RInt_continuous (fun t => scal u (gauss (u * t + 0)))). intros t _.
        apply (ex_derive_continuous (fun t => scal u (gauss (u * t + 0)))). unfold gauss, scal. cbn. unfold mult. cbn. auto_derive. trivial. }
    pose proof (RInt_comp_lin gauss u 0 0 1 (gauss_ex _ _)) as L.
    transitivity ((- 2 * gauss u) * RInt gauss (u * 0 + 0) (u * 1 + 0)).
    - unfold gauss_int. rewrite Rmult_0_r, Rmult_1_r, !Rplus_0_r. reflexivity.
    - rewrite <- L. reflexivity. }
  rewrite E. apply (is_derive_RInt_param fint 0 1 u).
  - exists (mkposreal 1 Rlt_0_1). intros y _ t _. eexists. apply fint_derive.
  - intros t _. apply continuity_2d_pt_ext with (fun u v => - 2 * u * exp (- (u * u) * (1 + v * v))).
    { intros x y. symmetry. apply is_derive_unique. apply fint_derive. }
    apply continuity_2d_pt_mult.
    + apply continuity_2d_pt_mult; [apply continuity_2d_pt_const|apply continuity_2d_pt_id1].
    + apply (continuity_1d_2d_pt_comp exp). { apply derivable_continuous_pt. apply derivable_pt_exp. }
      apply continuity_2d_pt_mult.
      * apply (continuity_2d_pt_opp (fun u v => u * u)). apply continuity_2d_pt_mult; apply continuity_2d_pt_id1.
      * apply continuity_2d_pt_plus; [apply continuity_2d_pt_const|]. apply continuity_2d_pt_mult; apply continuity_2d_pt_id2.
  - exists (mkposreal 1 Rlt_0_1). intros y _. apply fint_ex.
Qed.

Lemma kint_0 : kint 0 = PI / 4.
Proof.
  unfold kint. apply (is_RInt_unique (fun t => fint 0 t)).
  replace (PI / 4) with (minus (atan 1) (atan 0)).
  2:{ rewrite atan_1, atan_0. unfold minus, plus, opp. cbn. lra. }
  apply (is_RInt_ext (fun t => / (1 + t * t))).
  { intros t _. unfold fint. replace (- (0 * 0) * (1 + t * t)) with 0 by ring. rewrite exp_0. unfold Rdiv. match goal with |- ?a = ?b => change (@eq R a b) end. ring. }
  apply (is_RInt_derive atan (fun t => / (1 + t * t))).
  - intros x _. apply is_derive_Reals. replace (/ (1 + x * x)) with (1 / (1 + x ^ 2)) by (field; nra).
    pose proof (derivable_pt_lim_atan x) as D. replace (/ (1 + x ^ 2)) with (1 / (1 + x ^ 2)) in D by (field; nra).
    first [exact D | replace (1 / (1 + x ^ 2)) with (/ (1 + x ^ 2)) by (field; nra); unfold Rsqr in D; exact D
          | eapply eq_ind; [exact D|unfold Rsqr; field; nra]].
  - intros x _. apply (ex_derive_continuous (fun t => / (1 + t * t))). auto_derive. apply fint_den.
Qed.

Lemma gauss_identity x : 0 <= x -> gauss_int x * gauss_int x + kint x = PI / 4.
Proof.
  intros Hx. rewrite <- kint_0.
  assert (Z0 : gauss_int 0 = 0). { unfold gauss_int. rewrite RInt_point. reflexivity. }
  destruct (Req_dec x 0) as [->|Hn]. { rewrite Z0. ring. }
  assert (E : (fun x => gauss_int x * gauss_int x + kint x) 0 = (fun x => gauss_int x * gauss_int x + kint x) x).
  { apply (eq_is_derive (fun x => gauss_int x * gauss_int x + kint x)); [|lra].
    intros t _. replace (@zero R_NormedModule) with (gauss t * gauss_int t + gauss_int t * gauss t + (- 2 * gauss t * gauss_int t)).
    2:{ unfold zero. cbn. ring. }
    apply (is_derive_plus (fun x => gauss_int x * gauss_int x) kint); [|apply kint_derive].
    apply (is_derive_mult gauss_int gauss_int); try apply gauss_int_derive. intros; apply Rmult_comm. }
  cbn beta in E. rewrite Z0 in E. lra.
Qed.

Lemma kint_bound x : 0 <= kint x <= gauss x.
Proof.
  assert (Hb : forall t, 0 < fint x t <= gauss x).
  { intros t. unfold fint, gauss. assert (0 < 1 + t * t) by nra. split.
    - apply Rdiv_lt_0_compat; [apply exp_pos|assumption].
    - apply Rle_trans with (exp (- (x * x) * (1 + t * t)) * 1).
      + unfold Rdiv. apply Rmult_le_compat_l; [left; apply exp_pos|].
        rewrite <- Rinv_1. apply Rinv_le_contravar; nra.
      + rewrite Rmult_1_r. destruct (Rle_lt_or_eq_dec (- (x * x) * (1 + t * t)) (- (x * x))) as [L|L]; [nra|left; apply exp_increasing; exact L|rewrite L; apply Rle_refl]. }
  unfold kint. split.
  - apply RInt_ge_0; [lra|apply fint_ex|]. intros t _. left. apply Hb.
  - replace (gauss x) with (RInt (fun _ => gauss x) 0 1).
    2:{ rewrite RInt_const. unfold scal. cbn. unfold mult. cbn. ring. }
    apply RInt_le; [lra|apply fint_ex|apply ex_RInt_const|]. intros t _. apply Hb.
Qed.

Lemma gauss_int_nonneg x : 0 <= x -> 0 <= gauss_int x.
Proof. intros Hx. unfold gauss_int. apply RInt_ge_0; [exact Hx|apply gauss_ex|]. intros t _. left. apply gauss_pos. Qed.

Lemma gauss_small x : 1 <= x -> gauss x <= / x.
Proof.
  intros Hx. unfold gauss. rewrite exp_Ropp. apply Rinv_le_contravar; [lra|].
  apply Rle_trans with (1 + x * x); [nra|]. destruct (Rle_or_lt (1 + x * x) (exp (x * x))) as [L|L]; [exact L|].
  assert (0 < x * x) by nra. pose proof (exp_ineq1 (x * x) ltac:(lra)). lra.
Qed.

Lemma gauss_int_limit : filterlim gauss_int (Rbar_locally p_infty) (locally (sqrt PI / 2)).
Proof.
  assert (HP : 0 < sqrt PI) by (apply sqrt_lt_R0; apply PI_RGT_0).
  assert (EP : sqrt PI * sqrt PI = PI) by (apply sqrt_sqrt; left; apply PI_RGT_0).
  apply filterlim_locally. intros eps.
  exists (Rmax 1 (2 / (sqrt PI * eps))). intros x Hx.
  assert (H1 : 1 < x) by (eapply Rle_lt_trans; [apply Rmax_l|exact Hx]).
  assert (H2 : 2 / (sqrt PI * eps) < x) by (eapply Rle_lt_trans; [apply Rmax_r|exact Hx]).
  pose proof (cond_pos eps) as He.
  pose proof (gauss_identity x ltac:(lra)) as I. pose proof (kint_bound x) as B. pose proof (gauss_small x ltac:(lra)) as S.
  pose proof (gauss_int_nonneg x ltac:(lra)) as Gp.
  assert (D : Rabs (gauss_int x - sqrt PI / 2) <= 2 / sqrt PI * / x).
  { assert (Sum : 0 < gauss_int x + sqrt PI / 2) by lra.
    assert (Prod : (gauss_int x - sqrt PI / 2) * (gauss_int x + sqrt PI / 2) = - kint x) by nra.
    rewrite Rabs_left1 by (destruct (Rle_or_lt (gauss_int x - sqrt PI / 2) 0) as [L|L]; [exact L|nra]).
    apply Rmult_le_reg_r with (sqrt PI / 2); [lra|].
    replace (2 / sqrt PI * / x * (sqrt PI / 2)) with (/ x) by (field; lra).
    nra. }
  change (Rabs (gauss_int x - sqrt PI / 2) < eps). eapply Rle_lt_trans; [exact D|].
  apply Rmult_lt_reg_r with x; [lra|]. replace (2 / sqrt PI * / x * x) with (2 / sqrt PI) by (field; lra).
  apply Rmult_lt_compat_l with (r := eps) in H2; [|exact He].
  replace (eps * (2 / (sqrt PI * eps))) with (2 / sqrt PI) in H2 by (field; lra). lra.
Qed.

Lemma gauss_int_odd x : gauss_int (- x) = - gauss_int x.
Proof.
  unfold gauss_int. pose proof (RInt_comp_lin gauss (-1) 0 0 x (gauss_ex _ _)) as L.
  replace (-1 * 0 + 0) with 0 in L by ring. replace (-1 * x + 0) with (- x) in L by ring. rewrite <- L.
  rewrite (RInt_ext _ (fun t => opp (gauss t))).
  - rewrite (RInt_opp gauss) by apply gauss_ex. reflexivity.
  - intros t _. unfold gauss. replace ((-1 * t + 0) * (-1 * t + 0)) with (t * t) by ring.
    unfold scal, opp. cbn. unfold mult. cbn. match goal with |- ?a = ?b => change (@eq R a b) end. ring.
Qed.

Lemma gauss_int_limit_m : filterlim gauss_int (Rbar_locally m_infty) (locally (- (sqrt PI / 2))).
Proof.
  apply filterlim_ext with (fun x => - gauss_int (- x)).
  { intros x. rewrite gauss_int_odd. ring. }
  eapply filterlim_comp; [|apply (filterlim_opp (sqrt PI / 2))].
  eapply filterlim_comp; [|apply gauss_int_limit].
  apply (filterlim_Rbar_opp m_infty).
Qed.
