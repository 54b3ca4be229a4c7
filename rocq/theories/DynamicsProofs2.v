(** Linear evolution: derivatives of exponentials, positivity and convergence. *)
From Coq Require Import Reals Psatz.
From Coquelicot Require Import Coquelicot.
From Verif Require Import ZLib Csum DFT NumPy Basis SpecBasis Operator SpecOperator OperatorProofs Hamiltonian HamiltonianProofs2 HamiltonianProofs3
  HamiltonianProofs4 SpecHamiltonian LatticeProofs Spectral Dynamics SpecDynamics DynamicsProofs.
Local Open Scope R_scope.
Local Open Scope C_scope.

Lemma cexp_0 : cexp 0 = 1.
Proof. unfold cexp. cbn [fst snd RtoC]. rewrite exp_0, cis_0. ring. Qed.
Lemma cexp_plus a b : cexp (a + b) = cexp a * cexp b.
Proof.
  unfold cexp. cbn [fst snd Cplus]. rewrite exp_plus, cis_plus, RtoC_mult. ring.
Qed.
Lemma cexp_mod a : Cmod (cexp a) = exp (fst a).
Proof. unfold cexp. rewrite Cmod_mult, Cmod_R, cis_mod, Rabs_pos_eq; [ring|]. left. apply exp_pos. Qed.

Lemma cderivative_ext (f g : R -> C) t l : (forall s, f s = g s) -> cderivative f t l -> cderivative g t l.
Proof.
  intros H [D1 D2]. split; eapply is_derive_ext; try eassumption; intros s; cbv beta; rewrite H; reflexivity.
Qed.
Lemma cderivative_scal (c : C) (f : R -> C) t l : cderivative f t l -> cderivative (fun s => c * f s) t (c * l).
Proof.
  intros [D1 D2]. split; cbn [fst snd Cmult].
  - apply @is_derive_minus; apply is_derive_scal; assumption.
  - apply (is_derive_plus (fun s : R => fst c * snd (f s))%R (fun s : R => snd c * fst (f s))%R); apply is_derive_scal; assumption.
Qed.
Lemma cderivative_scal_r (c : C) (f : R -> C) t l : cderivative f t l -> cderivative (fun s => f s * c) t (l * c).
Proof.
  intros H. rewrite Cmult_comm. eapply cderivative_ext; [|apply cderivative_scal; exact H]. intros s. cbv beta. ring.
Qed.
Lemma cderivative_csum (f : nat -> R -> C) (l : nat -> C) t n :
  (forall k, (k < n)%nat -> cderivative (f k) t (l k)) -> cderivative (fun s => csum (fun k => f k s) n) t (csum l n).
Proof.
  intros H. induction n as [|n IH]; cbn [csum].
  - split; cbn [fst snd RtoC]; apply @is_derive_const.
  - destruct IH as [I1 I2]. { intros k Hk. apply H. lia. }
    destruct (H n (Nat.lt_succ_diag_r n)) as [D1 D2]. split; cbn [fst snd Cplus].
    + apply @is_derive_plus; assumption.
    + apply @is_derive_plus; assumption.
Qed.
Lemma cderivative_cexp (z : C) t : cderivative (fun s => cexp (z * RtoC s)) t (z * cexp (z * RtoC t)).
Proof.
  destruct z as [a b]. unfold cexp, cis. split; cbn [fst snd Cmult RtoC].
  - apply (is_derive_ext (fun s : R => exp (a * s) * cos (b * s))%R).
    { intros s. replace (a * s - b * 0)%R with (a * s)%R by ring. replace (a * 0 + b * s)%R with (b * s)%R by ring.
      match goal with |- ?a = ?b => change (@eq R a b) end. ring. }
    replace (a * t - b * 0)%R with (a * t)%R by ring. replace (a * 0 + b * t)%R with (b * t)%R by ring.
    auto_derive; [trivial|ring].
  - apply (is_derive_ext (fun s : R => exp (a * s) * sin (b * s))%R).
    { intros s. replace (a * s - b * 0)%R with (a * s)%R by ring. replace (a * 0 + b * s)%R with (b * s)%R by ring.
      match goal with |- ?a = ?b => change (@eq R a b) end. ring. }
    replace (a * t - b * 0)%R with (a * t)%R by ring. replace (a * 0 + b * t)%R with (b * t)%R by ring.
    auto_derive; [trivial|ring].
Qed.

(** The square of the negative part. *)
Definition neg2 (x : R) : R := (Rmin x 0 * Rmin x 0)%R.
Lemma neg2_nonneg x : (0 <= neg2 x)%R. Proof. unfold neg2. nra. Qed.
Lemma neg2_derive x : is_derive neg2 x (2 * Rmin x 0)%R.
Proof.
  destruct (Rtotal_order x 0) as [H|[H|H]].
  - apply (is_derive_ext_loc (fun y => y * y)%R).
    + exists (mkposreal (- x) ltac:(lra)). intros y Hy. unfold ball in Hy. cbn in Hy. unfold AbsRing_ball, abs, minus, plus, opp in Hy. cbn in Hy.
      apply Rabs_def2 in Hy. unfold neg2. rewrite Rmin_left by lra. reflexivity.
    + rewrite Rmin_left by lra. auto_derive; [trivial|ring].
  - subst. rewrite Rmin_left by lra. rewrite Rmult_0_r. apply is_derive_Reals. intros eps He.
    exists (mkposreal eps He). intros h Hh Hb. cbn in Hb. unfold neg2. rewrite Rplus_0_l.
    rewrite (Rmin_left 0 0) by lra.
    replace ((Rmin h 0 * Rmin h 0 - 0 * 0) / h - 0)%R with (Rmin h 0 * (Rmin h 0 / h))%R by (field; exact Hh).
    unfold Rmin. destruct (Rle_dec h 0).
    + unfold Rdiv. rewrite Rinv_r by exact Hh. rewrite Rmult_1_r. exact Hb.
    + rewrite Rmult_0_l, Rabs_R0. exact He.
  - apply (is_derive_ext_loc (fun _ => 0)%R).
    + exists (mkposreal x H). intros y Hy. unfold ball in Hy. cbn in Hy. unfold AbsRing_ball, abs, minus, plus, opp in Hy. cbn in Hy.
      apply Rabs_def2 in Hy. unfold neg2. rewrite Rmin_right by lra. match goal with |- ?a = ?b => change (@eq R a b) end. ring.
    + rewrite Rmin_right by lra. rewrite Rmult_0_r. apply @is_derive_const.
Qed.
Lemma neg2_zero x : neg2 x = 0%R -> (0 <= x)%R.
Proof. unfold neg2, Rmin. destruct (Rle_dec x 0); intros; nra. Qed.
Lemma neg2_pos x : (0 <= x)%R -> neg2 x = 0%R.
Proof. intros H. unfold neg2. rewrite Rmin_right by exact H. ring. Qed.

(** A function with N' <= K N and N(0) = 0 is not positive afterwards. *)
Lemma gronwall (N N' : R -> R) (K : R) : (forall t, is_derive N t (N' t)) ->
  (forall t, (N' t <= K * N t)%R) -> N 0%R = 0%R -> forall t, (0 <= t)%R -> (N t <= 0)%R.
Proof.
  intros D B Z t Ht.
  pose (g := fun s => (exp (- K * s) * N s)%R). pose (g' := fun s => (exp (- K * s) * (N' s - K * N s))%R).
  assert (Dg : forall s, is_derive g s (g' s)).
  { intros s. unfold g, g'.
    replace (exp (- K * s) * (N' s - K * N s))%R with (plus (mult (- K * exp (- K * s)) (N s)) (mult (exp (- K * s)) (N' s)))%R
      by (unfold plus, mult; cbn; ring).
    apply (is_derive_mult (fun s => exp (- K * s))%R N); [|apply D|intros; apply Rmult_comm].
    auto_derive; [trivial|ring]. }
  destruct (Req_dec t 0) as [E|Hne]; [subst; rewrite Z; lra|].
  destruct (MVT_gen g 0 t g') as [c [Hc E]].
  - intros x _. apply Dg.
  - intros x _. apply continuity_pt_filterlim. apply (@ex_derive_continuous R_AbsRing R_NormedModule). eexists. apply Dg.
  - assert (Hg0 : g 0%R = 0%R) by (unfold g; rewrite Z; ring).
    assert (Hgc : (g' c <= 0)%R).
    { unfold g'. pose proof (exp_pos (- K * c)). specialize (B c). nra. }
    assert (Hgt : (g t <= 0)%R) by nra.
    unfold g in Hgt. pose proof (exp_pos (- K * t)). nra.
Qed.

Lemma linear_positive n (m : nat -> nat -> R) (p : R -> nat -> R) :
  (forall i j, (i < n)%nat -> (j < n)%nat -> i <> j -> (0 <= m i j)%R) ->
  (forall t i, (i < n)%nat -> is_derive (fun s => p s i) t (rsum (fun j => m i j * p t j)%R n)) ->
  (forall i, (i < n)%nat -> (0 <= p 0%R i)%R) ->
  forall t, (0 <= t)%R -> forall i, (i < n)%nat -> (0 <= p t i)%R.
Proof.
  intros Hm D H0 t Ht.
  pose (N := fun s => rsum (fun i => neg2 (p s i)) n).
  pose (N' := fun s => rsum (fun i => 2 * Rmin (p s i) 0 * rsum (fun j => m i j * p s j) n)%R n).
  pose (K := rsum (fun i => rsum (fun j => 2 * Rabs (m i j))%R n) n).
  assert (HN : forall s i, (i < n)%nat -> (0 <= neg2 (p s i) <= N s)%R).
  { intros s i Hi. split; [apply neg2_nonneg|]. unfold N.
    apply (rsum_member (fun i => neg2 (p s i)) n i); [|exact Hi]. intros k _. apply neg2_nonneg. }
  assert (L : (N t <= 0)%R).
  { apply (gronwall N N' K); [| | |exact Ht].
    - intros s. unfold N, N'. apply (derive_rsum (fun i s => neg2 (p s i)) (fun i s => 2 * Rmin (p s i) 0 * rsum (fun j => m i j * p s j) n)%R). intros i Hi.
      replace (2 * Rmin (p s i) 0 * rsum (fun j => m i j * p s j) n)%R with
        (scal (rsum (fun j => m i j * p s j)%R n) (2 * Rmin (p s i) 0)%R) by (unfold scal; cbn; unfold mult; cbn; ring).
      apply (is_derive_comp neg2 (fun s => p s i)); [apply neg2_derive|apply D; exact Hi].
    - intros s. unfold N'. unfold K. rewrite <- rsum_scal_r. apply rsum_le. intros i Hi.
      rewrite <- rsum_scal_l, <- rsum_scal_r. apply rsum_le. intros j Hj.
      pose proof (HN s i Hi) as Hni. pose proof (HN s j Hj) as Hnj.
      apply Rle_trans with (Rabs (m i j) * (neg2 (p s i) + neg2 (p s j)))%R.
      + unfold neg2. set (x := Rmin (p s i) 0). set (y := Rmin (p s j) 0).
        assert (Hx : (x <= 0 /\ (x = p s i \/ x = 0))%R) by (unfold x, Rmin; destruct (Rle_dec (p s i) 0); lra).
        assert (Hy : (y <= 0 /\ y <= p s j /\ (y = p s j \/ y = 0))%R) by (unfold y, Rmin; destruct (Rle_dec (p s j) 0); lra).
        destruct (Nat.eq_dec i j) as [E|E].
        * subst j. assert (x = y) by reflexivity. replace (2 * x * (m i i * p s i))%R with (2 * m i i * (x * p s i))%R by ring.
          assert (Q : (x * p s i = x * x)%R) by (destruct Hx as [_ [Hx|Hx]]; rewrite Hx; ring). rewrite Q, <- H.
          pose proof (Rle_abs (m i i)). assert (0 <= x * x)%R by nra. nra.
        * specialize (Hm i j Hi Hj E). rewrite (Rabs_pos_eq _ Hm).
          assert (x * p s j <= x * y)%R by (apply Rmult_le_compat_neg_l; tauto).
          assert (2 * (x * y) <= x * x + y * y)%R by (pose proof (Rle_0_sqr (x - y)) as Q; unfold Rsqr in Q; lra).
          assert (x * p s j * 2 <= x * x + y * y)%R by lra.
          replace (2 * x * (m i j * p s j))%R with (m i j * (x * p s j * 2))%R by ring.
          apply Rmult_le_compat_l; assumption.
      + replace (2 * Rabs (m i j) * N s)%R with (Rabs (m i j) * (N s + N s))%R by ring.
        apply Rmult_le_compat_l; [apply Rabs_pos|lra].
    - unfold N. transitivity (rsum (fun _ => 0%R) n); [|apply rsum_const0]. apply rsum_ext. intros i Hi. apply neg2_pos. apply H0. exact Hi. }
  intros i Hi. apply neg2_zero. pose proof (HN t i Hi). lra.
Qed.

(** Decaying exponentials. *)
Lemma exp_decay (c a eps : R) : (0 <= c)%R -> (a < 0)%R -> (0 < eps)%R -> exists T, forall t, (T <= t)%R -> (c * exp (a * t) < eps)%R.
Proof.
  intros Hc Ha He. exists (Rmax 0 (c / (eps * - a)))%R. intros t Ht.
  assert (H0 : (0 <= t)%R) by (eapply Rle_trans; [apply Rmax_l|exact Ht]).
  assert (H1 : (c / (eps * - a) <= t)%R) by (eapply Rle_trans; [apply Rmax_r|exact Ht]).
  assert (Hp : (0 < eps * - a)%R) by nra.
  assert (H2 : (c <= t * (eps * - a))%R).
  { apply Rmult_le_compat_r with (r := (eps * - a)%R) in H1; [|lra]. unfold Rdiv in H1. rewrite Rmult_assoc, Rinv_l in H1 by lra. lra. }
  assert (H3 : (1 - a * t <= exp (- (a * t)))%R).
  { pose proof (exp_ineq1_le (- (a * t))). lra. }
  replace (a * t)%R with (- (- (a * t)))%R by ring. rewrite exp_Ropp.
  pose proof (exp_pos (- (a * t))) as Hx.
  apply Rmult_lt_reg_r with (exp (- (a * t))); [exact Hx|].
  rewrite Rmult_assoc, Rinv_l by lra. nra.
Qed.
Lemma sum_decay n (c a : nat -> R) eps : (forall k, (k < n)%nat -> (0 <= c k)%R) -> (forall k, (k < n)%nat -> (a k < 0 \/ c k = 0)%R) -> (0 < eps)%R ->
  exists T, forall t, (T <= t)%R -> (rsum (fun k => c k * exp (a k * t))%R n < eps)%R.
Proof.
  intros Hc Ha. revert eps. induction n as [|n IH]; intros eps He.
  - exists 0%R. intros t _. exact He.
  - destruct (IH ltac:(intros; apply Hc; lia) ltac:(intros; apply Ha; lia) (eps / 2)%R ltac:(lra)) as [T1 H1].
    assert (X : exists T, forall t, (T <= t)%R -> (c n * exp (a n * t) < eps / 2)%R).
    { destruct (Ha n ltac:(lia)) as [Hn|Hn].
      - apply exp_decay; [apply Hc; lia|exact Hn|lra].
      - exists 0%R. intros t _. rewrite Hn. lra. }
    destruct X as [T2 H2]. exists (Rmax T1 T2). intros t Ht. cbn [rsum].
    specialize (H1 t ltac:(eapply Rle_trans; [apply Rmax_l|exact Ht])).
    specialize (H2 t ltac:(eapply Rle_trans; [apply Rmax_r|exact Ht])). lra.
Qed.
