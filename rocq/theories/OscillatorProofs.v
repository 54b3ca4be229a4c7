(** Proofs about oscillator states. *)
From Coq Require Import Reals ZArith List Arith Lia Lra Psatz.
From Coquelicot Require Import Coquelicot.
From Verif Require Import ZLib Csum NumPy Lattice LatticeProofs GaussianIntegral Oscillator SpecOscillator HamiltonianProofs3.
Import ListNotations.
Local Open Scope R_scope.

Lemma der_val (f : R -> R) (x l : R) : is_derive f x l -> Derive (fun y : R => f y) x = l.
Proof. intros H. apply is_derive_unique. exact H. Qed.

Section Hermite.
  Variable h : nat -> R -> R.
  Hypothesis Hh : is_hermite h.

  Lemma h0 x : h 0%nat x = 1. Proof. apply Hh. Qed.
  Lemma h1 x : h 1%nat x = 2 * x. Proof. apply Hh. Qed.
  Lemma hSS n x : h (S (S n)) x = 2 * x * h (S n) x - 2 * INR (S n) * h n x. Proof. apply Hh. Qed.

  Lemma hS n x : h (S n) x = 2 * x * h n x - 2 * INR n * h (pred n) x.
  Proof. destruct n as [|n]; [rewrite h1, h0; cbn; ring|]. rewrite hSS. reflexivity. Qed.

  Lemma hder n x : is_derive (h n) x (2 * INR n * h (pred n) x).
  Proof.
    revert x. induction n as [n IH] using lt_wf_ind. intros x. destruct n as [|[|n]].
    - apply (is_derive_ext (fun _ => 1)); [intros t; symmetry; apply h0|]. cbn [INR pred].
      replace (2 * 0 * h 0%nat x) with (@zero R_NormedModule) by (unfold zero; cbn; ring). apply (is_derive_const 1).
    - apply (is_derive_ext (fun x => 2 * x)); [intros t; symmetry; apply h1|]. auto_derive; [trivial|].
      cbn [pred]. rewrite h0. cbn. ring.
    - apply (is_derive_ext (fun x => 2 * x * h (S n) x - 2 * INR (S n) * h n x)); [intros t; symmetry; apply hSS|].
      pose proof (IH (S n) ltac:(lia) x) as D1. pose proof (IH n ltac:(lia) x) as D0.
      assert (Ec : INR (S n) = INR n + 1) by apply S_INR. rewrite (S_INR (S n)). revert D1 D0. generalize dependent (INR (S n)). intros c Ec D1 D0.
      auto_derive.
      + repeat split; [eexists; exact D1|eexists; exact D0].
      + rewrite (der_val _ _ _ D1), (der_val _ _ _ D0). cbn [pred].
        rewrite (hS n x), Ec. ring.
  Qed.

  Lemma hbound n : exists c k, 0 <= c /\ 0 <= k /\ forall x, Rabs (h n x) <= c * exp (k * Rabs x).
  Proof.
    assert (Hexp : forall x, 2 * Rabs x <= 2 * exp (Rabs x)).
    { intros x. pose proof (exp_ineq1_le (Rabs x)). lra. }
    induction n as [n IH] using lt_wf_ind. destruct n as [|[|n]].
    - exists 1, 0. repeat split; try lra. intros x. rewrite h0, Rmult_0_l, exp_0, Rabs_R1. lra.
    - exists 2, 1. repeat split; try lra. intros x. rewrite h1, Rabs_mult, (Rabs_pos_eq 2), Rmult_1_l by lra. apply Hexp.
    - destruct (IH (S n) ltac:(lia)) as [c [k [Hc [Hk B]]]]. destruct (IH n ltac:(lia)) as [c' [k' [Hc' [Hk' B']]]].
      exists (2 * c + 2 * INR (S n) * c'), (k + 1 + k'). pose proof (pos_INR (S n)) as Hn.
      split; [nra|]. split; [lra|]. intros x. rewrite hSS.
      eapply Rle_trans; [apply Rabs_triang|]. rewrite Rabs_Ropp, !Rabs_mult, (Rabs_pos_eq 2), (Rabs_pos_eq (INR (S n))) by lra.
      pose proof (Rabs_pos x) as Hx.
      assert (E1 : exp (k * Rabs x) * exp (Rabs x) <= exp ((k + 1 + k') * Rabs x)).
      { rewrite <- exp_plus. destruct (Rle_lt_or_eq_dec (k * Rabs x + Rabs x) ((k + 1 + k') * Rabs x)) as [L|L]; [nra|left; apply exp_increasing; exact L|rewrite L; apply Rle_refl]. }
      assert (E2 : exp (k' * Rabs x) <= exp ((k + 1 + k') * Rabs x)).
      { destruct (Rle_lt_or_eq_dec (k' * Rabs x) ((k + 1 + k') * Rabs x)) as [L|L]; [nra|left; apply exp_increasing; exact L|rewrite L; apply Rle_refl]. }
      specialize (B x). specialize (B' x). specialize (Hexp x).
      pose proof (exp_pos (k * Rabs x)). pose proof (exp_pos (Rabs x)). pose proof (exp_pos (k' * Rabs x)).
      pose proof (Rabs_pos (h (S n) x)). pose proof (Rabs_pos (h n x)).
      assert (2 * Rabs x * Rabs (h (S n) x) <= 2 * exp (Rabs x) * (c * exp (k * Rabs x))) by (apply Rmult_le_compat; lra).
      assert (2 * INR (S n) * Rabs (h n x) <= 2 * INR (S n) * (c' * exp (k' * Rabs x))) by (apply Rmult_le_compat_l; lra).
      assert (2 * exp (Rabs x) * (c * exp (k * Rabs x)) <= 2 * c * exp ((k + 1 + k') * Rabs x)).
      { replace (2 * exp (Rabs x) * (c * exp (k * Rabs x))) with (2 * c * (exp (k * Rabs x) * exp (Rabs x))) by ring.
        apply Rmult_le_compat_l; lra. }
      assert (2 * INR (S n) * (c' * exp (k' * Rabs x)) <= 2 * INR (S n) * c' * exp ((k + 1 + k') * Rabs x)).
      { rewrite <- Rmult_assoc. apply Rmult_le_compat_l; nra. }
      lra.
  Qed.

  (** Products of two polynomials with the Gaussian vanish at both ends. *)
  Lemma product_bound m n : exists c k, 0 <= c /\ 0 <= k /\ forall x, Rabs (h m x * h n x * gauss x) <= c * exp (k * Rabs x - x * x).
  Proof.
    destruct (hbound m) as [c [k [Hc [Hk B]]]]. destruct (hbound n) as [c' [k' [Hc' [Hk' B']]]].
    exists (c * c'), (k + k'). split; [nra|]. split; [lra|]. intros x. unfold gauss.
    rewrite !Rabs_mult, (Rabs_pos_eq (exp _)) by (left; apply exp_pos).
    replace ((k + k') * Rabs x - x * x) with (k * Rabs x + k' * Rabs x + - (x * x)) by ring. rewrite !exp_plus.
    replace (c * c' * (exp (k * Rabs x) * exp (k' * Rabs x) * exp (- (x * x)))) with ((c * exp (k * Rabs x)) * (c' * exp (k' * Rabs x)) * exp (- (x * x))) by ring.
    apply Rmult_le_compat_r; [left; apply exp_pos|]. apply Rmult_le_compat; try apply Rabs_pos; auto.
  Qed.

  Lemma product_small m n eps : 0 < eps -> exists M, 0 < M /\ forall x, M < Rabs x -> Rabs (h m x * h n x * gauss x) < eps.
  Proof.
    intros He. destruct (product_bound m n) as [c [k [Hc [Hk B]]]].
    exists (k + 1 + c / eps). assert (0 <= c / eps) by (apply Rdiv_le_0_compat; lra). split; [lra|].
    intros x Hx. eapply Rle_lt_trans; [apply B|].
    assert (Hxx : x * x = Rabs x * Rabs x) by (rewrite <- Rabs_mult; rewrite Rabs_pos_eq; [reflexivity|nra]).
    assert (E : k * Rabs x - x * x < - Rabs x) by (rewrite Hxx; nra).
    assert (L : exp (k * Rabs x - x * x) < / Rabs x).
    { eapply Rlt_trans; [apply exp_increasing; exact E|]. rewrite exp_Ropp.
      apply Rinv_lt_contravar; [apply Rmult_lt_0_compat; [lra|apply exp_pos]|]. pose proof (exp_ineq1 (Rabs x) ltac:(lra)). lra. }
    destruct (Req_dec c 0) as [->|Hc0]. { rewrite Rmult_0_l. exact He. }
    eapply Rlt_le_trans; [apply Rmult_lt_compat_l; [lra|exact L]|].
    apply Rmult_le_reg_r with (Rabs x); [lra|]. rewrite Rmult_assoc, Rinv_l, Rmult_1_r by lra.
    assert (c / eps <= Rabs x) by lra. apply Rmult_le_compat_l with (r := eps) in H0; [|lra].
    replace (eps * (c / eps)) with c in H0 by (field; lra). lra.
  Qed.

  Section Scaled.
    Variable s : R.
    Hypothesis Hs : 0 < s.

    Definition dens m n x := h m (x * s) * h n (x * s) * gauss (x * s).

    Lemma dens_limit m n (c : R) F : (F = Rbar_locally p_infty \/ F = Rbar_locally m_infty) ->
      filterlim (fun x => c * dens m n x) F (locally 0).
    Proof using h Hh s Hs.
      intros HF. assert (FF : Filter F) by (destruct HF as [-> | ->]; apply Rbar_locally_filter). apply filterlim_locally. intros eps. pose proof (cond_pos eps) as He.
      assert (Hc : 0 < Rabs c + 1) by (pose proof (Rabs_pos c); lra).
      destruct (product_small m n (eps / (Rabs c + 1))) as [M [HM K]]; [apply Rdiv_lt_0_compat; lra|].
      assert (Hin : forall x, M / s < Rabs x -> ball 0 eps (c * dens m n x)).
      { intros x Hx. change (Rabs (c * dens m n x - 0) < eps). rewrite Rminus_0_r, Rabs_mult.
        assert (M < Rabs (x * s)).
        { rewrite Rabs_mult, (Rabs_pos_eq s) by lra. apply Rmult_lt_compat_r with (r := s) in Hx; [|exact Hs].
          replace (M / s * s) with M in Hx by (field; lra). exact Hx. }
        specialize (K _ H). fold (dens m n x) in K.
        apply Rle_lt_trans with ((Rabs c + 1) * Rabs (dens m n x)).
        - apply Rmult_le_compat_r; [apply Rabs_pos|lra].
        - apply Rmult_lt_compat_l with (r := Rabs c + 1) in K; [|exact Hc].
          replace ((Rabs c + 1) * (eps / (Rabs c + 1))) with (pos eps) in K by (field; lra). exact K. }
      assert (0 < M / s) by (apply Rdiv_lt_0_compat; lra).
      destruct HF as [-> | ->].
      - exists (M / s). intros x Hx. apply Hin. rewrite Rabs_pos_eq; lra.
      - exists (- (M / s)). intros x Hx. apply Hin. rewrite Rabs_left; lra.
    Qed.

    Lemma gauss_derive x : is_derive gauss x (- 2 * x * gauss x).
    Proof using. unfold gauss. auto_derive; [trivial|]. ring. Qed.

    Lemma dens_derive m n x : is_derive (dens m n) x
      (s * (2 * INR m * dens (pred m) n x - dens m (S n) x)).
    Proof using h Hh s Hs.
      unfold dens. pose proof (hder m (x * s)) as D1. pose proof (hder n (x * s)) as D2. pose proof (gauss_derive (x * s)) as D3.
      auto_derive.
      - repeat split; eexists; eassumption.
      - rewrite (der_val _ _ _ D1), (der_val _ _ _ D2), (der_val _ _ _ D3).
        rewrite (hS n (x * s)). ring.
    Qed.

    Lemma dens_continuous m n x : continuous (dens m n) x.
    Proof using h Hh s Hs. apply (ex_derive_continuous (dens m n)). eexists. apply dens_derive. Qed.

    Lemma line_integral_derive (F f : R -> R) la lb : (forall x, is_derive F x (f x)) -> (forall x, continuous f x) ->
      filterlim F (Rbar_locally m_infty) (locally la) -> filterlim F (Rbar_locally p_infty) (locally lb) ->
      line_integral f (lb - la).
    Proof using.
      intros HD HC Ha Hb. unfold line_integral.
      assert (E : forall x, Derive F x = f x) by (intros x; apply is_derive_unique; apply HD).
      apply (is_RInt_gen_ext (Derive F)).
      - exists (fun _ => True) (fun _ => True); [exists 0; trivial|exists 0; trivial|]. intros; apply E.
      - apply is_RInt_gen_Derive; try assumption.
        + exists (fun _ => True) (fun _ => True); [exists 0; trivial|exists 0; trivial|]. intros a b _ _ x _. eexists. apply HD.
        + exists (fun _ => True) (fun _ => True); [exists 0; trivial|exists 0; trivial|]. intros a b _ _ x _.
          apply (continuous_ext f); [intros t; symmetry; apply E|apply HC].
    Qed.

    Lemma line_integral_ext (f g : R -> R) l : (forall x, f x = g x) -> line_integral f l -> line_integral g l.
    Proof using.
      intros E. apply is_RInt_gen_ext. exists (fun _ => True) (fun _ => True); [exists 0; trivial|exists 0; trivial|]. intros; apply E.
    Qed.

    Lemma line_integral_scal (f : R -> R) c l : line_integral f l -> line_integral (fun x => c * f x) (c * l).
    Proof using. intros H. apply (is_RInt_gen_scal f c l H). Qed.

    Lemma line_integral_plus (f g : R -> R) l l' : line_integral f l -> line_integral g l' -> line_integral (fun x => f x + g x) (l + l').
    Proof using. intros H H'. apply (is_RInt_gen_plus f g l l' H H'). Qed.

    Lemma dens_00 : line_integral (dens 0 0) (sqrt PI / s).
    Proof using h Hh s Hs.
      replace (sqrt PI / s) with (sqrt PI / 2 * / s - - (sqrt PI / 2) * / s) by (field; lra).
      apply (line_integral_derive (fun x => gauss_int (x * s) * / s)).
      - intros x. unfold dens. rewrite !h0. pose proof (gauss_int_derive (x * s)) as D. auto_derive.
        + repeat split. eexists; exact D.
        + rewrite (der_val _ _ _ D). field. lra.
      - apply dens_continuous.
      - apply (filterlim_comp _ _ _ (fun x => gauss_int (x * s)) (fun y => y * / s) _ (locally (- (sqrt PI / 2)))).
        + apply (filterlim_comp _ _ _ (fun x => x * s) gauss_int _ (Rbar_locally m_infty)); [|apply gauss_int_limit_m].
          intros P [M HM]. exists (M / s). intros x Hx. apply HM. apply Rmult_lt_compat_r with (r := s) in Hx; [|exact Hs].
          replace (M / s * s) with M in Hx by (field; lra). exact Hx.
        + apply (filterlim_comp_2 (F := locally (- (sqrt PI / 2))) (fun y => y) (fun _ => / s) Rmult (filterlim_id _ _) (filterlim_const _)).
          apply (filterlim_Rbar_mult (- (sqrt PI / 2)) (/ s) (- (sqrt PI / 2) * / s)). reflexivity.
      - apply (filterlim_comp _ _ _ (fun x => gauss_int (x * s)) (fun y => y * / s) _ (locally (sqrt PI / 2))).
        + apply (filterlim_comp _ _ _ (fun x => x * s) gauss_int _ (Rbar_locally p_infty)); [|apply gauss_int_limit].
          intros P [M HM]. exists (M / s). intros x Hx. apply HM. apply Rmult_lt_compat_r with (r := s) in Hx; [|exact Hs].
          replace (M / s * s) with M in Hx by (field; lra). exact Hx.
        + apply (filterlim_comp_2 (F := locally (sqrt PI / 2)) (fun y => y) (fun _ => / s) Rmult (filterlim_id _ _) (filterlim_const _)).
          apply (filterlim_Rbar_mult (sqrt PI / 2) (/ s) (sqrt PI / 2 * / s)). reflexivity.
    Qed.

    Lemma dens_step m n l : (m <> 0%nat -> line_integral (dens (pred m) n) l) -> line_integral (dens m (S n)) (2 * INR m * (if (m =? 0)%nat then 0 else l)).
    Proof using h Hh s Hs.
      intros H.
      assert (D : line_integral (fun x => - / s * (s * (2 * INR m * dens (pred m) n x - dens m (S n) x))) (0 - 0)).
      { apply (line_integral_derive (fun x => - / s * dens m n x)).
        - intros x. pose proof (is_derive_scal (dens m n) x (- / s) _ (dens_derive m n x)) as K. exact K.
        - intros x. apply (ex_derive_continuous (fun x => - / s * (s * (2 * INR m * dens (pred m) n x - dens m (S n) x)))).
          pose proof (dens_derive (pred m) n x) as D1. pose proof (dens_derive m (S n) x) as D2.
          auto_derive. repeat split; eexists; eassumption.
        - apply (dens_limit m n (- / s)). right. reflexivity.
        - apply (dens_limit m n (- / s)). left. reflexivity. }
      destruct (Nat.eqb_spec m 0) as [->|Hm].
      - eapply line_integral_ext; [|replace (2 * INR 0 * 0) with (0 - 0) by ring; exact D].
        intros x. cbn. field. lra.
      - specialize (H Hm). pose proof (line_integral_plus _ _ _ _ D (line_integral_scal _ (2 * INR m) _ H)) as K.
        replace (2 * INR m * l) with (0 - 0 + 2 * INR m * l) by ring.
        eapply line_integral_ext; [|exact K]. intros x. cbn beta. field. lra.
    Qed.

    Lemma dens_integral m : forall n, line_integral (dens m n) (if (m =? n)%nat then 2 ^ n * INR (fact n) * (sqrt PI / s) else 0).
    Proof using h Hh s Hs.
      induction m as [|m IH]; intros n.
      - destruct n as [|n].
        + cbn. replace (1 * 1 * (sqrt PI / s)) with (sqrt PI / s) by ring. exact dens_00.
        + pose proof (dens_step 0 n 0 ltac:(lia)) as K. cbn in K |- *. replace 0 with (2 * 0 * 0) at 1 by ring. exact K.
      - destruct n as [|n].
        + pose proof (dens_step 0 m 0 ltac:(lia)) as K. cbn in K |- *.
          apply (line_integral_ext (dens 0 (S m))). { intros x. unfold dens. ring. }
          replace 0 with (2 * 0 * 0) at 1 by ring. exact K.
        + pose proof (dens_step (S m) n _ (fun _ => IH n)) as K. cbn [Nat.eqb pred] in K |- *.
          destruct (Nat.eqb_spec m n) as [->|Hn].
          * rewrite fact_simpl, mult_INR. rewrite <- tech_pow_Rmult. 
            replace (2 * 2 ^ n * (INR (S n) * INR (fact n)) * (sqrt PI / s)) with (2 * INR (S n) * (2 ^ n * INR (fact n) * (sqrt PI / s))) by ring. exact K.
          * replace 0 with (2 * INR (S m) * 0) by ring. exact K.
    Qed.
  End Scaled.

  (** ** The states *)

  Definition state (a s : R) (n : nat) (x : R) : R := a * h n (x * s) * exp (- (x * s * (x * s)) / 2).

  Lemma state_product a b s m n x : state a s m x * state b s n x = a * b * dens s m n x.
  Proof using.
    unfold state, dens, gauss.
    replace (a * h m (x * s) * exp (- (x * s * (x * s)) / 2) * (b * h n (x * s) * exp (- (x * s * (x * s)) / 2)))
      with (a * b * (h m (x * s) * h n (x * s) * (exp (- (x * s * (x * s)) / 2) * exp (- (x * s * (x * s)) / 2)))) by ring.
    rewrite <- exp_plus. do 4 f_equal. field.
  Qed.

  Lemma state_derive a s n x : is_derive (state a s n) x
    (a * s * (2 * INR n * h (pred n) (x * s) - x * s * h n (x * s)) * exp (- (x * s * (x * s)) / 2)).
  Proof using h Hh.
    unfold state. pose proof (hder n (x * s)) as D. auto_derive.
    - repeat split. eexists; exact D.
    - rewrite (der_val _ _ _ D). unfold Rdiv. field.
  Qed.

  Lemma state_derive2 a s n x : is_derive
    (fun x => a * s * (2 * INR n * h (pred n) (x * s) - x * s * h n (x * s)) * exp (- (x * s * (x * s)) / 2)) x
    (s * s * (x * s * (x * s) - 2 * INR n - 1) * state a s n x).
  Proof using h Hh.
    unfold state. pose proof (hder n (x * s)) as D. pose proof (hder (pred n) (x * s)) as D'. auto_derive.
    - repeat split; eexists; eassumption.
    - rewrite (der_val _ _ _ D), (der_val _ _ _ D'). unfold Rdiv.
      set (e := exp _). destruct n as [|n].
      + cbn [INR pred]. rewrite h0. field.
      + cbn [pred]. rewrite (hS n (x * s)). rewrite S_INR.
        set (u := h n (x * s)). set (v := h (pred n) (x * s)). field.
  Qed.

  Lemma state_solves hbar mass omega a n : 0 < hbar -> 0 < mass -> 0 < omega ->
    solves_schrodinger hbar mass (fun x => mass * omega ^ 2 * x ^ 2 / 2) (hbar * omega * (INR n + 1 / 2)) (state a (sqrt (omega * mass / hbar)) n).
  Proof using h Hh.
    intros H1 H2 H3. set (s := sqrt (omega * mass / hbar)).
    assert (Es : s * s = omega * mass / hbar).
    { apply sqrt_sqrt. apply Rdiv_le_0_compat; [nra|exact H1]. }
    eexists _, _. split; [intros x; apply state_derive|]. split; [intros x; apply state_derive2|].
    intros x. cbn beta. replace (x * s * (x * s)) with (x * x * (s * s)) by ring. rewrite Es.
    set (p := state a s n x). field. split; lra.
  Qed.

  Lemma state_orthonormal s (a : nat -> R) : 0 < s -> (forall n, a n * a n = s / (2 ^ n * INR (fact n) * sqrt PI)) ->
    forall m n, line_integral (fun x => state (a m) s m x * state (a n) s n x) (if (m =? n)%nat then 1 else 0).
  Proof using h Hh.
    intros Hs Ha m n. pose proof (line_integral_scal _ (a m * a n) _ (dens_integral s Hs m n)) as K.
    apply (line_integral_ext (fun x => a m * a n * dens s m n x)). { intros x. symmetry. apply state_product. }
    destruct (Nat.eqb_spec m n) as [->|Hn]; [|replace 0 with (a m * a n * 0) by ring; exact K].
    replace 1 with (a n * a n * (2 ^ n * INR (fact n) * (sqrt PI / s))); [exact K|].
    rewrite Ha. field. pose proof PI_RGT_0. repeat split; try lra.
    - apply Rgt_not_eq. apply sqrt_lt_R0. assumption.
    - apply INR_fact_neq_0.
    - apply pow_nonzero. lra.
  Qed.
End Hermite.
