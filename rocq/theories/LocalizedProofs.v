(** The random choice of a localised state. *)
From Coq Require Import Reals Lra Lia Psatz List.
From Verif Require Import ZLib Csum DFT NumPy Index Spec Basis SpecBasis Operator SpecOperator OperatorProofs SpecMatrix LinAlg LatticeProofs
  Localize SpecLocalize LocalizeProofs3 StateList SpecWavepacket SpecStateList StateListProofs StateListProofs3 OperatorProofs2 SelectProofs TimeBasis TimeProofs LocalizedSSE SpecLocalized.
Import ListNotations.
Local Open Scope R_scope.
Local Open Scope C_scope.

Section Select.
  Variables (same : basis -> basis -> bool) (eigh : eigh_fn) (s : state_list).
  Context (Hs : identity_test same) (Hb : bwf (sbasis s)) (Ho : explicit_orthonormal (sbasis s)) (Hw : well_formed_list s)
    (Hn : (0 < bsize (slist s))%nat).
  Let n := bsize (slist s).
  Let m := bsize (sbasis s).
  Let psi := state_of s.

  Lemma products : exists o, calculate_inner_products same s s = Some o /\ ashape (odata o) = [(n * n)%nat] /\
    forall i j, (i < n)%nat -> (j < n)%nat -> aflat (odata o) (i * n + j) = gram m psi i j.
  Proof using Hs Hb Ho Hw Hn.
    destruct (inner_products_entries same s s Hs Hb Hb Ho Hw Hw (compatible_refl _)) as [o [E [_ [_ [Es Ev]]]]].
    exists o. split; [exact E|]. split; [exact Es|]. intros i j Hi Hj. etransitivity; [exact (Ev i j Hi Hj)|]. apply grid_inner_same; assumption.
  Qed.

  Lemma flat_norm_zero (f : nat -> C) : (forall i j, (i < n)%nat -> (j < n)%nat -> f (i * n + j)%nat = gram m psi i j) ->
    (sqrt (rsum (fun t => Cnorm2 (f t)) (n * n)) = 0%R <-> total_norm s = 0%R).
  Proof using Hn.
    intros Hf. set (q := rsum (fun t => Cnorm2 (f t)) (n * n)).
    assert (Q : (0 <= q)%R) by (apply Csum.rsum_nonneg; intros; apply Cnorm2_nonneg).
    change (total_norm s) with (trace_gram n m psi). split; intros E.
    - apply sqrt_eq_0 in E; [|exact Q]. unfold q in E. unfold trace_gram.
      transitivity (rsum (fun _ => 0%R) n); [|clear; induction n as [|k IH]; cbn; [reflexivity|rewrite IH; ring]].
      apply rsum_ext. intros i Hi. apply RtoC_inj. rewrite <- gram_diag, <- (Hf i i Hi Hi).
      apply Cnorm2_eq_0. apply (rsum_zero_nonneg (fun t => Cnorm2 (f t)) (n * n)); [intros; apply Cnorm2_nonneg|exact E|].
      assert (H : (i * n + i < n * n)%nat) by nia. exact H.
    - assert (Z := trace_zero n m psi E). replace q with 0%R; [apply sqrt_0|]. symmetry. unfold q.
      transitivity (rsum (fun _ => 0%R) (n * n)); [|generalize (n * n)%nat; clear; intros k; induction k as [|k IH]; cbn; [reflexivity|rewrite IH; ring]].
      apply rsum_ext. intros t Ht. assert (D := Nat.div_mod t n ltac:(unfold n; lia)). assert (M := Nat.mod_upper_bound t n ltac:(unfold n; lia)).
      assert (L : (t / n < n)%nat) by (apply Nat.div_lt_upper_bound; unfold n in *; lia).
      replace t with (t / n * n + t mod n)%nat by lia. rewrite Hf by assumption.
      unfold gram, inner_product. rewrite (csum_ext _ (fun _ => 0)); [rewrite csum_zero; unfold Cnorm2; cbn; ring|]. intros x Hx. rewrite (Z (t mod n) x M Hx). ring.
  Qed.

  Lemma selection_zero : total_norm s = 0%R -> selection same eigh s = None.
  Proof using Hs Hb Ho Hw Hn.
    intros E. destruct products as [o [Eo [Es Ev]]]. unfold selection. rewrite Eo.
    rewrite (reshape_some _ [n; n]) by (rewrite Es; cbn; unfold n; lia). rewrite Es. cbn [nprod].
    destruct (Req_EM_T _ 0%R) as [_|F]; [reflexivity|]. exfalso. apply F. rewrite Nat.mul_1_r. apply flat_norm_zero; assumption.
  Qed.

  Context (He : eigh_ok eigh).

  Lemma selection_some : (0 < total_norm s)%R -> exists p u e N, selection same eigh s = Some (p, u) /\ (0 < N)%R /\
    (forall k, p k = (e k / rsum e n)%R) /\
    (forall k l, (k < n)%nat -> (l < n)%nat -> csum (fun j => Cconj (u k j) * u l j) n = cdelta k l) /\
    (forall k i, (k < n)%nat -> (i < n)%nat -> csum (fun j => gram m psi i j / RtoC N * u k j) n = RtoC (e k) * u k i).
  Proof using Hs Hb Ho Hw Hn He.
    intros P. destruct products as [o [Eo [Es Ev]]]. unfold selection. rewrite Eo.
    rewrite (reshape_some _ [n; n]) by (rewrite Es; cbn; unfold n; lia). rewrite Es. cbn [nprod]. rewrite Nat.mul_1_r. fold n.
    set (q := rsum (fun t => Cnorm2 (aflat (odata o) t)) (n * n)).
    destruct (Req_EM_T (sqrt q) 0%R) as [F|F].
    { apply (flat_norm_zero _ Ev) in F. lra. }
    assert (NP : (0 < sqrt q)%R) by (assert (S := sqrt_pos q); lra).
    replace (Z.of_nat n - 1)%Z with (Z.of_nat (n - 1)) by (unfold n; lia). change 0%Z with (Z.of_nat 0).
    rewrite eigenvectors_some by (unfold n; lia).
    set (A := fun i j : nat => Cdiv (at2 {| ashape := [n; n]; aflat := aflat (odata o) |} i j) (RtoC (sqrt q))).
    assert (Av : forall i j, (i < n)%nat -> (j < n)%nat -> A i j = gram m psi i j / RtoC (sqrt q)).
    { intros i j Hi Hj. unfold A, at2. cbn [ashape nth aflat]. rewrite Ev by assumption. reflexivity. }
    assert (HA : hermitian n A).
    { intros i j Hi Hj. unfold adjoint. rewrite !Av by assumption. unfold Cdiv. rewrite Cconj_mult, gram_conj. f_equal.
      rewrite Cconj_inv by (intros E; apply RtoC_inj in E; lra). f_equal. unfold Cconj, RtoC. cbn. f_equal. ring. }
    assert (K := He n A 0%nat (n - 1)%nat HA ltac:(lia) ltac:(unfold n; lia)).
    destruct (eigh n A 0%nat (n - 1)%nat) as [e v]. cbn [fst snd]. replace (n - 1 - 0 + 1)%nat with n in K by (unfold n; lia).
    destruct K as [K1 [K2 _]].
    eexists; eexists; exists e, (sqrt q). split; [reflexivity|]. split; [exact NP|]. split; [reflexivity|]. split.
    - intros k l Hk Hl. apply K1; assumption.
    - intros k i Hk Hi. rewrite <- (K2 k i Hk Hi). apply csum_ext. intros j Hj. rewrite Av by assumption. reflexivity.
  Qed.

  Lemma choice_spec : (0 < total_norm s)%R -> exists p u, selection same eigh s = Some (p, u) /\
    (forall k, (k < n)%nat -> (0 <= p k)%R) /\ rsum p n = 1%R /\
    exists phi, (forall k, (k < n)%nat -> exists v, select_random_localized_state same eigh k s = Some v /\ is_vector v (sbasis s) (phi k)) /\
      (forall k, (k < n)%nat -> exists w, forall x, (x < m)%nat -> phi k x = csum (fun j => w j * psi j x) n) /\
      (forall k l, (k < n)%nat -> (l < n)%nat -> k <> l -> inner_product m (phi k) (phi l) = 0) /\
      (forall k, (k < n)%nat -> norm2 m (phi k) = (p k * total_norm s / 2)%R) /\
      (forall x y, csum (fun k => phi k x * Cconj (phi k y)) n = / RtoC 2 * sum_outer s x y) /\
      (forall x y, csum (fun k => RtoC (p k) * (phi k x * Cconj (phi k y))) n =
         / RtoC (2 * total_norm s) * csum (fun z => sum_outer s x z * sum_outer s z y) m).
  Proof using Hs Hb Ho Hw Hn He.
    intros P. destruct (selection_some P) as [p [u [e [N [E [NP [Ep [Hu Ha]]]]]]]].
    change (total_norm s) with (trace_gram n m psi) in *. exists p, u. split; [exact E|].
    assert (PP : forall k, (k < n)%nat -> (0 <= p k)%R) by (intros k Hk; rewrite Ep; apply (p_nonneg n m psi N e u NP Hu Ha P k Hk)).
    assert (PS : rsum p n = 1%R).
    { rewrite <- (p_sum n m psi N e u NP Hu Ha P). apply rsum_ext. intros k _. apply Ep. }
    split; [exact PP|]. split; [exact PS|]. exists (chosen n psi u). split; [|split; [|split; [|split; [|split]]]].
    - intros k Hk. unfold select_random_localized_state. rewrite E. rewrite (proj2 (Nat.ltb_lt k (bsize (slist s)))) by exact Hk.
      destruct (weighted_spec s {| vbasis := slist s; vdata := {| ashape := [bsize (slist s)]; aflat := fun j => Cdiv (u k j) (RtoC (sqrt 2)) |} |} Hw Hn eq_refl) as [v [Ev Hv]].
      exists v. split; [exact Ev|exact Hv].
    - intros k Hk. exists (fun j => u k j / RtoC (sqrt 2)). reflexivity.
    - intros k l Hk Hl D. rewrite (chosen_inner n m psi N e u NP Hu Ha k l Hk Hl), cdelta_neq by exact D. ring.
    - intros k Hk. unfold norm2. rewrite (chosen_norm_p n m psi N e u NP Hu Ha P k Hk), Ep. reflexivity.
    - intros x y. apply chosen_total. exact Hu.
    - intros x y. etransitivity; [|apply (chosen_mean n m psi N e u NP Hu Ha P x y)]. apply csum_ext. intros k _. rewrite Ep. reflexivity.
  Qed.
End Select.
