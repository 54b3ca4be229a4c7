(** Tunnelling simulations and their equilibrium. *)
From Coq Require Import Reals Psatz.
From Coquelicot Require Import Coquelicot.
From Verif Require Import ZLib Csum DFT NumPy Basis SpecBasis Operator SpecOperator OperatorProofs Hamiltonian HamiltonianProofs2 HamiltonianProofs3
  HamiltonianProofs4 SpecHamiltonian LatticeProofs Spectral Dynamics SpecDynamics DynamicsProofs DynamicsProofs2.
Local Open Scope R_scope.
Local Open Scope C_scope.

Lemma array_argmax_spec n v i : array_argmax n v = Some i -> (i < n)%nat /\ forall j, (j < n)%nat -> clt (v i) (v j) = false.
Proof.
  intros H. destruct n as [|n]; [discriminate|]. unfold array_argmax in H. assert (E : array_argmax_from v (S n) = i) by congruence. subst i. clear H.
  induction n as [|n IH].
  - cbn. rewrite clt_irrefl. split; [lia|]. intros j Hj. replace j with 0%nat by lia. apply clt_irrefl.
  - change (array_argmax_from v (S (S n))) with
      (if clt (v (array_argmax_from v (S n))) (v (S n)) then S n else array_argmax_from v (S n)).
    revert IH. generalize (array_argmax_from v (S n)). intros m [H1 H2].
    destruct (clt (v m) (v (S n))) eqn:E.
    + split; [lia|]. intros j Hj. destruct (Nat.eq_dec j (S n)) as [->|Hne]; [apply clt_irrefl|].
      specialize (H2 j ltac:(lia)). apply clt_spec in E. apply clt_false in H2. apply clt_false. lra.
    + split; [lia|]. intros j Hj. destruct (Nat.eq_dec j (S n)) as [->|Hne]; [exact E|]. apply H2. lia.
Qed.
Lemma array_argmax_some n v : (0 < n)%nat -> exists i, array_argmax n v = Some i.
Proof. intros H. destruct n; [lia|]. eexists. reflexivity. Qed.

(** The rates as a generator. *)
Lemma rates_generator n m M A' : square n m -> rates n (op_entry m) -> get_tunnelling_m_matrix m = Some (M, A') ->
  square n M /\ (forall i j, (i < n)%nat -> (j < n)%nat -> op_entry M i j = RtoC (fst (op_entry M i j))) /\
  generator n (fun i j => fst (op_entry M i j)) /\
  (forall i j, (i < n)%nat -> (j < n)%nat -> i <> j -> op_entry m j i = RtoC (fst (op_entry M i j))) /\
  forall j, (j < n)%nat -> csum (fun i => op_entry M i j) n = 0.
Proof.
  intros Hsq Hr HM. destruct (m_matrix_spec m n Hsq) as [M' [A'' [E [S [_ [_ [Ho [Hd _]]]]]]]].
  rewrite HM in E. injection E as <- <-.
  assert (Hsum : forall j, (j < n)%nat -> csum (fun i => op_entry M i j) n = 0).
  { intros j Hj. rewrite (csum_split_at _ n j Hj). rewrite Hd by assumption. unfold outgoing.
    rewrite (csum_ext (fun k => if (j =? k)%nat then 0 else op_entry M k j) (fun k => if (j =? k)%nat then 0 else op_entry m j k)); [ring|].
    intros k Hk. destruct (Nat.eqb_spec j k); [reflexivity|]. apply Ho; auto. }
  assert (Hre : forall i j, (i < n)%nat -> (j < n)%nat -> op_entry M i j = RtoC (fst (op_entry M i j))).
  { intros i j Hi Hj. destruct (Nat.eq_dec i j) as [<-|Hne].
    - rewrite Hd by assumption. unfold outgoing.
      rewrite (csum_ext _ (fun k => RtoC (if Nat.eqb i k then 0 else fst (op_entry m i k)))).
      + rewrite csum_RtoC. rewrite <- RtoC_opp. reflexivity.
      + intros k Hk. destruct (Nat.eqb_spec i k) as [|Hik]; [reflexivity|].
        destruct (Hr i k Hi Hk Hik) as [Hs _]. destruct (op_entry m i k). cbn in *. subst. reflexivity.
    - rewrite Ho by assumption. destruct (Hr j i Hj Hi ltac:(auto)) as [Hs _]. destruct (op_entry m j i). cbn in *. subst. reflexivity. }
  split; [exact S|]. split; [exact Hre|]. split; [|split; [|exact Hsum]].
  - split.
    + intros i j Hi Hj Hne. rewrite Ho by assumption. apply Hr; auto.
    + intros j Hj. rewrite <- fst_csum, Hsum by assumption. reflexivity.
  - intros i j Hi Hj Hne. rewrite <- Hre by assumption. rewrite Ho by assumption. reflexivity.
Qed.

Section Simulation.
  Context (n : nat) (m M A' : operator) (eig : eig_fn) (solve : solve_fn).
  Context (Hn : (0 < n)%nat) (Hsq : square n m) (Hr : rates n (op_entry m)) (HM : get_tunnelling_m_matrix m = Some (M, A')).
  Context (Heig : eig_diagonalises eig n (op_entry M)) (Hsolve : solve_ok solve).
  Local Notation mm := (fun i j => fst (op_entry M i j)).

  Lemma simulation_generator : generator n mm.
  Proof using Hsq Hr HM. apply (rates_generator n m M A'); assumption. Qed.
  Lemma M_real i j : (i < n)%nat -> (j < n)%nat -> op_entry M i j = RtoC (fst (op_entry M i j)).
  Proof using Hsq Hr HM. apply (rates_generator n m M A'); assumption. Qed.
  Lemma M_columns j : (j < n)%nat -> csum (fun i => op_entry M i j) n = 0.
  Proof using Hsq Hr HM. apply (rates_generator n m M A'); assumption. Qed.

  Lemma eigenstates_spec : exists es W, calculate_tunnelling_eigenstates eig M = Some es /\ es_size es = n /\
    (forall k i, (k < n)%nat -> (i < n)%nat -> applied n (op_entry M) (es_state es k) i = es_value es k * es_state es k i) /\
    inverse_matrices n (fun i k => es_state es k i) W /\
    (forall k, (k < n)%nat -> (fst (es_value es k) < 0)%R \/ es_value es k = 0) /\
    exists z, (z < n)%nat /\ array_argmax n (es_value es) = Some z /\ es_value es z = 0.
  Proof using Hn Hsq Hr HM Heig.
    destruct (rates_generator n m M A' Hsq Hr HM) as [[Hw [Hro Hco]] [Hre [G [_ Hsum]]]].
    unfold calculate_tunnelling_eigenstates. rewrite Hro, Hco, Nat.eqb_refl.
    pose proof (op_reshape M Hw) as Ers. rewrite Hro, Hco in Ers. rewrite Ers.
    set (B := at2 {| ashape := [n; n]; aflat := aflat (odata M) |}).
    assert (HB : mat_eq n B (op_entry M)).
    { intros i j _ _. unfold B, at2, op_entry. cbn [ashape nth]. rewrite Hco. reflexivity. }
    destruct (Heig B HB) as [W [Hinv HV]]. destruct (eig n B) as [lam V]. cbn [fst snd] in *.
    assert (HV' : forall k i, (k < n)%nat -> (i < n)%nat -> applied n (op_entry M) (fun j => V j k) i = lam k * V i k).
    { intros k i Hk Hi. rewrite <- (HV k i Hk Hi). apply csum_ext. intros j Hj. rewrite (HB i j Hi Hj). reflexivity. }
    assert (Hnz : forall k, (k < n)%nat -> exists i, (i < n)%nat /\ V i k <> 0).
    { intros k Hk. destruct (nonzero_dec n (fun i => V i k)) as [[i [Hi Hv]]|Hz]; [exists i; split; assumption|].
      exfalso. destruct Hinv as [_ Hinv]. specialize (Hinv k k Hk Hk). unfold matmul in Hinv.
      rewrite csum_zero_ext in Hinv. { rewrite cdelta_refl in Hinv. apply (f_equal fst) in Hinv. cbn in Hinv. lra. }
      intros i Hi. rewrite Hz by assumption. ring. }
    assert (Hneg : forall k, (k < n)%nat -> (fst (lam k) < 0)%R \/ lam k = 0).
    { intros k Hk. apply (generator_eigenvalue n mm (lam k) (fun i => V i k) G); [|apply Hnz; exact Hk].
      intros i Hi. rewrite <- (HV' k i Hk Hi). apply csum_ext. intros j Hj. rewrite <- (Hre i j Hi Hj). reflexivity. }
    assert (Hzero : exists z, (z < n)%nat /\ lam z = 0).
    { destruct (nonzero_dec n (fun k => csum (fun i => V i k) n)) as [[k [Hk Hv]]|Hz].
      - exists k. split; [exact Hk|].
        pose proof (eigenvector_total n (op_entry M) (lam k) (fun i => V i k) Hsum (fun i Hi => HV' k i Hk Hi)) as T.
        destruct (C_eq_dec (lam k) 0) as [E|E]; [exact E|]. exfalso. apply Hv.
        apply (f_equal (Cmult (/ lam k))) in T. rewrite Cmult_assoc, Cinv_l, Cmult_1_l, Cmult_0_r in T by exact E. exact T.
      - exfalso. destruct Hinv as [Hinv _].
        assert (X : csum (fun k => csum (fun i => V i k) n * W k 0%nat) n = 1).
        { rewrite (csum_ext _ (fun k => csum (fun i => V i k * W k 0%nat) n)) by (intros; symmetry; apply csum_scal_r).
          rewrite csum_swap. rewrite (csum_ext _ (fun i => cdelta i 0)).
          - rewrite <- (csum_ext (fun i => cdelta i 0 * 1)) by (intros; ring). apply (csum_delta_l' (fun _ => 1)). exact Hn.
          - intros i Hi. exact (Hinv i 0%nat Hi Hn). }
        rewrite csum_zero_ext in X. { apply (f_equal fst) in X. cbn in X. lra. }
        intros k Hk. rewrite Hz by assumption. ring. }
    unfold array_max. destruct (array_argmax_some n lam Hn) as [z Hz]. rewrite Hz.
    destruct (array_argmax_spec n lam z Hz) as [Hzn Hmax].
    assert (Ez : lam z = 0).
    { destruct Hzero as [y [Hy Ey]]. specialize (Hmax y Hy). rewrite Ey in Hmax. apply clt_false in Hmax.
      destruct (Hneg z Hzn) as [H|H]; [|exact H]. cbn in Hmax. lra. }
    assert (Esub : forall k, lam k - lam z = lam k) by (intros k; rewrite Ez; ring).
    eexists _, W. split; [reflexivity|]. cbn [es_size es_value es_state]. split; [reflexivity|].
    split. { intros k i Hk Hi. rewrite Esub. apply HV'; assumption. }
    split. { exact Hinv. }
    split. { intros k Hk. rewrite Esub. apply Hneg; exact Hk. }
    exists z. split; [exact Hzn|]. split; [|rewrite Esub; exact Ez].
    rewrite <- Hz. destruct n as [|n']; [lia|]. unfold array_argmax. f_equal.
    clear -Esub. induction (S n') as [|k IH]; [reflexivity|]. cbn [array_argmax_from]. rewrite IH, !Esub. reflexivity.
  Qed.

  (** Everything below is about one result of [calculate_tunnelling_eigenstates]. *)
  Context (es : eigenstates) (W : nat -> nat -> C) (Hes : es_size es = n)
    (Heq : forall k i, (k < n)%nat -> (i < n)%nat -> applied n (op_entry M) (es_state es k) i = es_value es k * es_state es k i)
    (Hinv : inverse_matrices n (fun i k => es_state es k i) W)
    (Hneg : forall k, (k < n)%nat -> (fst (es_value es k) < 0)%R \/ es_value es k = 0).

  Definition evolve (c : nat -> C) (t : R) (i : nat) : C :=
    csum (fun k => c k * cexp (es_value es k * RtoC t) * es_state es k i) n.
  Definition total (k : nat) : C := csum (es_state es k) n.

  Lemma decomposition p0 : exists c, get_operator_state_vector_decomposition solve p0 es = Some c /\
    forall i, (i < n)%nat -> csum (fun k => c k * es_state es k i) n = p0 i.
  Proof using Hsolve Hes Hinv.
    unfold get_operator_state_vector_decomposition. rewrite Hes.
    destruct (Hsolve n (fun i k => es_state es k i) p0 (ex_intro _ W Hinv)) as [c [E H]].
    exists c. split; [exact E|]. intros i Hi. rewrite <- (H i Hi). apply csum_ext. intros; ring.
  Qed.
  Lemma evolve_0 c p0 : (forall i, (i < n)%nat -> csum (fun k => c k * es_state es k i) n = p0 i) ->
    forall i, (i < n)%nat -> evolve c 0 i = p0 i.
  Proof using.
    intros H i Hi. rewrite <- (H i Hi). apply csum_ext. intros k _. rewrite Cmult_0_r, cexp_0. ring.
  Qed.
  Lemma evolve_derivative c t i : (i < n)%nat ->
    cderivative (fun s => evolve c s i) t (applied n (op_entry M) (evolve c t) i).
  Proof using Heq.
    intros Hi.
    assert (E : applied n (op_entry M) (evolve c t) i =
      csum (fun k => c k * (es_value es k * cexp (es_value es k * RtoC t)) * es_state es k i) n).
    { unfold applied, evolve.
      rewrite (csum_ext _ (fun j => csum (fun k => op_entry M i j * (c k * cexp (es_value es k * RtoC t) * es_state es k j)) n))
        by (intros; symmetry; apply csum_scal_l).
      rewrite csum_swap. apply csum_ext. intros k Hk.
      rewrite (csum_ext _ (fun j => c k * cexp (es_value es k * RtoC t) * (op_entry M i j * es_state es k j))) by (intros; ring).
      rewrite csum_scal_l. fold (applied n (op_entry M) (es_state es k) i). rewrite (Heq k i Hk Hi). ring. }
    rewrite E. unfold evolve.
    apply (cderivative_csum (fun k s => c k * cexp (es_value es k * RtoC s) * es_state es k i)). intros k Hk.
    apply cderivative_scal_r. apply cderivative_scal. apply cderivative_cexp.
  Qed.
  Lemma value_total k : (k < n)%nat -> es_value es k * total k = 0.
  Proof using Hsq Hr HM Heq.
    intros Hk. apply (eigenvector_total n (op_entry M)); [exact M_columns|]. intros i Hi. apply Heq; assumption.
  Qed.
  Lemma zero_product a b : a * b = 0 -> a = 0 \/ b = 0.
  Proof using.
    intros H. destruct (C_eq_dec a 0) as [E|E]; [left; exact E|right].
    apply (f_equal (Cmult (/ a))) in H. rewrite Cmult_assoc, Cinv_l, Cmult_1_l, Cmult_0_r in H by exact E. exact H.
  Qed.
  Lemma evolve_total c t : csum (evolve c t) n = csum (fun k => c k * total k) n.
  Proof using Hsq Hr HM Heq.
    unfold evolve. rewrite csum_swap. apply csum_ext. intros k Hk. rewrite csum_scal_l. fold (total k).
    destruct (zero_product _ _ (value_total k Hk)) as [E|E]; rewrite E; [|ring].
    rewrite Cmult_0_l, cexp_0. ring.
  Qed.
  Lemma evolve_conserved c p0 t : (forall i, (i < n)%nat -> csum (fun k => c k * es_state es k i) n = p0 i) ->
    csum (evolve c t) n = csum p0 n.
  Proof using Hsq Hr HM Heq.
    intros H. rewrite evolve_total. rewrite <- (csum_ext _ _ n H). rewrite csum_swap.
    apply csum_ext. intros k _. rewrite csum_scal_l. reflexivity.
  Qed.

  Lemma evolve_real c t i : (i < n)%nat ->
    is_derive (fun s => fst (evolve c s i)) t (rsum (fun j => fst (op_entry M i j) * fst (evolve c t j))%R n) /\
    is_derive (fun s => snd (evolve c s i)) t (rsum (fun j => fst (op_entry M i j) * snd (evolve c t j))%R n).
  Proof using Hsq Hr HM Heq.
    intros Hi. destruct (evolve_derivative c t i Hi) as [D1 D2]. unfold applied in *.
    rewrite fst_csum in D1. rewrite snd_csum in D2. split.
    - erewrite rsum_ext; [exact D1|]. intros j Hj. cbv beta. rewrite (M_real i j Hi Hj) at 2. cbn. ring.
    - erewrite rsum_ext; [exact D2|]. intros j Hj. cbv beta. rewrite (M_real i j Hi Hj) at 2. cbn. ring.
  Qed.
  Lemma evolve_distribution c p0 t : (forall i, (i < n)%nat -> csum (fun k => c k * es_state es k i) n = p0 i) ->
    distribution n p0 -> (0 <= t)%R -> distribution n (evolve c t).
  Proof using Hsq Hr HM Heq.
    intros H [Hp Hs] Ht. pose proof (evolve_0 c p0 H) as H0. pose proof (proj1 simulation_generator) as Goff. split.
    - intros i Hi.
      assert (P1 : forall j, (j < n)%nat -> (0 <= fst (evolve c t j))%R).
      { apply (linear_positive n mm (fun t j => fst (evolve c t j)) Goff); [| |exact Ht].
        - intros s j Hj. apply evolve_real. exact Hj.
        - intros j Hj. rewrite H0 by assumption. apply Hp. exact Hj. }
      assert (P2 : forall j, (j < n)%nat -> (0 <= snd (evolve c t j))%R).
      { apply (linear_positive n mm (fun t j => snd (evolve c t j)) Goff); [| |exact Ht].
        - intros s j Hj. apply evolve_real. exact Hj.
        - intros j Hj. rewrite H0 by assumption. rewrite (proj1 (Hp j Hj)). lra. }
      assert (P3 : forall j, (j < n)%nat -> (0 <= - snd (evolve c t j))%R).
      { apply (linear_positive n mm (fun t j => - snd (evolve c t j))%R Goff); [| |exact Ht].
        - intros s j Hj.
          replace (rsum (fun j0 => mm j j0 * - snd (evolve c s j0))%R n) with (- rsum (fun j0 => mm j j0 * snd (evolve c s j0))%R n)%R.
          + apply (is_derive_opp (fun s => snd (evolve c s j))). apply evolve_real. exact Hj.
          + rewrite <- (Rmult_1_l (rsum (fun j0 => mm j j0 * snd (evolve c s j0))%R n)).
            rewrite Ropp_mult_distr_l. rewrite <- rsum_scal_l. apply rsum_ext. intros; ring.
        - intros j Hj. rewrite H0 by assumption. rewrite (proj1 (Hp j Hj)). lra. }
      specialize (P1 i Hi). specialize (P2 i Hi). specialize (P3 i Hi). split; lra.
    - rewrite (evolve_conserved c p0) by assumption. exact Hs.
  Qed.

  (** The equilibrium. *)
  Context (Hcon : connected n (op_entry m)) (z : nat) (Hz : (z < n)%nat) (Hzarg : array_argmax n (es_value es) = Some z) (Hzero : es_value es z = 0).

  Lemma kernel_trivial (v : nat -> C) : (forall i, (i < n)%nat -> applied n (op_entry M) v i = 0) -> csum v n = 0 ->
    forall i, (i < n)%nat -> v i = 0.
  Proof using Hsq Hr HM Hcon.
    intros E. destruct (rates_generator n m M A' Hsq Hr HM) as [_ [Hre [G [HA _]]]].
    apply (kernel_complex n mm G (op_entry m) HA Hcon). intros i Hi. rewrite <- (E i Hi). apply csum_ext. intros j Hj.
    rewrite <- (Hre i j Hi Hj). reflexivity.
  Qed.
  Lemma state_nonzero k : (k < n)%nat -> ~ forall i, (i < n)%nat -> es_state es k i = 0.
  Proof using Hinv.
    intros Hk Hzr. destruct Hinv as [_ Hi]. specialize (Hi k k Hk Hk). unfold matmul in Hi.
    rewrite csum_zero_ext in Hi. { rewrite cdelta_refl in Hi. apply (f_equal fst) in Hi. cbn in Hi. lra. }
    intros i Hi'. rewrite Hzr by assumption. ring.
  Qed.
  Lemma zero_total k : (k < n)%nat -> es_value es k = 0 -> total k <> 0.
  Proof using Hsq Hr HM Heq Hinv Hcon.
    intros Hk E T. apply (state_nonzero k Hk). apply kernel_trivial; [|exact T].
    intros i Hi. rewrite (Heq k i Hk Hi), E. ring.
  Qed.
  Lemma zero_unique k : (k < n)%nat -> es_value es k = 0 -> k = z.
  Proof using Hsq Hr HM Heq Hinv Hcon Hz Hzero.
    intros Hk E. destruct (Nat.eq_dec k z) as [|Hne]; [assumption|exfalso].
    assert (Hu : forall i, (i < n)%nat -> total z * es_state es k i - total k * es_state es z i = 0).
    { apply kernel_trivial.
      - intros i Hi. unfold applied.
        rewrite (csum_ext _ (fun j => total z * (op_entry M i j * es_state es k j) - total k * (op_entry M i j * es_state es z j))) by (intros; ring).
        rewrite csum_minus, !csum_scal_l. fold (applied n (op_entry M) (es_state es k) i). fold (applied n (op_entry M) (es_state es z) i).
        rewrite !Heq, E, Hzero by assumption. ring.
      - rewrite csum_minus, !csum_scal_l. fold (total k). fold (total z). ring. }
    destruct Hinv as [_ Hi]. pose proof (Hi k k Hk Hk) as H1. pose proof (Hi k z Hk Hz) as H2. unfold matmul in H1, H2.
    rewrite cdelta_refl in H1. rewrite cdelta_neq in H2 by exact Hne.
    apply (zero_total z Hz Hzero).
    transitivity (total z * csum (fun i => W k i * es_state es k i) n - total k * csum (fun i => W k i * es_state es z i) n).
    { rewrite H1, H2. ring. }
    rewrite <- !csum_scal_l, <- csum_minus. apply csum_zero_ext. intros i Hi'.
    replace (total z * (W k i * es_state es k i) - total k * (W k i * es_state es z i)) with
      (W k i * (total z * es_state es k i - total k * es_state es z i)) by ring. rewrite Hu by assumption. ring.
  Qed.
  Definition equilibrium (i : nat) : C := es_state es z i / total z.
  Lemma other_total k : (k < n)%nat -> k <> z -> total k = 0 /\ (fst (es_value es k) < 0)%R.
  Proof using Hsq Hr HM Heq Hinv Hcon Hz Hzero Hneg.
    intros Hk Hne. destruct (Hneg k Hk) as [H|H].
    - split; [|exact H]. destruct (zero_product _ _ (value_total k Hk)) as [E|E]; [|exact E]. rewrite E in H. cbn in H. lra.
    - exfalso. apply Hne. apply zero_unique; assumption.
  Qed.
  Lemma coefficient_total c p0 : (forall i, (i < n)%nat -> csum (fun k => c k * es_state es k i) n = p0 i) ->
    c z * total z = csum p0 n.
  Proof using Hsq Hr HM Heq Hinv Hcon Hz Hzero Hneg.
    intros H. rewrite <- (evolve_conserved c p0 0 H), evolve_total. rewrite (csum_single _ n z Hz); [reflexivity|].
    intros k Hk Hne. rewrite (proj1 (other_total k Hk Hne)). ring.
  Qed.
  Lemma equilibrium_kernel i : (i < n)%nat -> applied n (op_entry M) equilibrium i = 0.
  Proof using Heq Hz Hzero.
    intros Hi. unfold applied, equilibrium.
    rewrite (csum_ext _ (fun j => op_entry M i j * es_state es z j * / total z)) by (intros; unfold Cdiv; ring).
    rewrite csum_scal_r. fold (applied n (op_entry M) (es_state es z) i). rewrite Heq, Hzero by assumption. ring.
  Qed.
  Lemma equilibrium_total : csum equilibrium n = 1.
  Proof using Hsq Hr HM Heq Hinv Hcon Hz Hzero.
    unfold equilibrium, Cdiv. rewrite csum_scal_r. fold (total z). apply Cinv_r. apply zero_total; assumption.
  Qed.
  Lemma evolve_converges c p0 : (forall i, (i < n)%nat -> csum (fun k => c k * es_state es k i) n = p0 i) ->
    csum p0 n = 1 -> tends_to n (evolve c) equilibrium.
  Proof using Hsq Hr HM Heq Hinv Hcon Hz Hzero Hneg.
    intros H Hs eps He.
    pose proof (coefficient_total c p0 H) as Hc. rewrite Hs in Hc.
    assert (Ec : c z = / total z).
    { rewrite <- (Cmult_1_l (/ total z)), <- Hc. rewrite <- Cmult_assoc, Cinv_r; [ring|]. apply zero_total; assumption. }
    pose (b := fun k => (if Nat.eqb z k then 0 else rsum (fun i => Cmod (c k * es_state es k i)%C) n)%R).
    destruct (sum_decay n b (fun k => fst (es_value es k)) eps) as [T HT].
    - intros k Hk. unfold b. destruct (Nat.eqb z k); [lra|]. apply rsum_nonneg. intros; apply Cmod_ge_0.
    - intros k Hk. unfold b. destruct (Nat.eqb_spec z k) as [E|E]; [right; reflexivity|left]. apply other_total; auto.
    - exact He.
    - exists T. intros t Ht i Hi. eapply Rle_lt_trans; [|exact (HT t Ht)].
      assert (E : evolve c t i - equilibrium i = csum (fun k => if Nat.eqb z k then 0 else c k * cexp (es_value es k * RtoC t) * es_state es k i) n).
      { unfold evolve. rewrite (csum_split_at _ n z Hz). rewrite Hzero, Cmult_0_l, cexp_0, Ec. unfold equilibrium, Cdiv. ring. }
      rewrite E. eapply Rle_trans; [apply Cmod_csum|]. apply rsum_le. intros k Hk. unfold b.
      destruct (Nat.eqb_spec z k) as [E'|E']; [rewrite Cmod_0; lra|].
      replace (c k * cexp (es_value es k * RtoC t) * es_state es k i) with (c k * es_state es k i * cexp (es_value es k * RtoC t)) by ring.
      rewrite Cmod_mult, cexp_mod.
      replace (fst (es_value es k * RtoC t)) with (fst (es_value es k) * t)%R by (cbn; ring).
      apply Rmult_le_compat_r; [left; apply exp_pos|].
      apply (rsum_member (fun i => Cmod (c k * es_state es k i)%C) n i); [|exact Hi]. intros; apply Cmod_ge_0.
  Qed.

  Definition pure : nat -> C := fun x => if Nat.eqb x 0 then RtoC 1%R else RtoC 0%R.
  Lemma pure_distribution : distribution n pure.
  Proof using Hn.
    split.
    - intros i _. unfold pure. destruct (Nat.eqb i 0); cbn; lra.
    - rewrite (csum_single _ n 0%nat Hn); [reflexivity|]. intros i _ Hi. unfold pure.
      rewrite (proj2 (Nat.eqb_neq i 0)) by exact Hi. reflexivity.
  Qed.
  Lemma equilibrium_state_spec : exists q, get_equilibrium_state solve es = Some q /\ forall i, (i < n)%nat -> q i = equilibrium i.
  Proof using Hn Hsolve Hsq Hr HM Hes Heq Hinv Hcon Hz Hzarg Hzero Hneg.
    unfold get_equilibrium_state, get_initial_pure_density_matrix. rewrite Hes.
    unfold python_index. rewrite (proj2 (Z.ltb_lt 0 (Z.of_nat n))) by lia. cbn [Z.leb Z.compare andb].
    change (Z.to_nat 0) with 0%nat. fold pure.
    destruct (decomposition pure) as [c [E H]]. rewrite E, Hzarg.
    eexists. split; [reflexivity|]. intros i Hi. cbv beta. unfold equilibrium, Cdiv.
    pose proof (coefficient_total c pure H) as Hc. rewrite (proj2 pure_distribution) in Hc.
    rewrite <- (Cmult_1_l (/ total z)), <- Hc. rewrite <- Cmult_assoc, Cinv_r; [ring|]. apply zero_total; assumption.
  Qed.
  Lemma equilibrium_distribution : distribution n equilibrium /\ forall i, (i < n)%nat -> (0 < fst (equilibrium i))%R.
  Proof using Hn Hsolve Hsq Hr HM Hes Heq Hinv Hcon Hz Hzero Hneg.
    destruct (decomposition pure) as [c [_ H]].
    pose proof (evolve_converges c pure H (proj2 pure_distribution)) as L.
    assert (P : forall i, (i < n)%nat -> snd (equilibrium i) = 0%R /\ (0 <= fst (equilibrium i))%R).
    { intros i Hi.
      assert (Near : forall eps, (0 < eps)%R -> exists p : C, snd p = 0%R /\ (0 <= fst p)%R /\ (Cmod (p - equilibrium i)%C < eps)%R).
      { intros eps He. destruct (L eps He) as [T HT]. exists (evolve c (Rmax 0 T) i).
        destruct (evolve_distribution c pure (Rmax 0 T) H pure_distribution (Rmax_l _ _)) as [D _]. specialize (D i Hi).
        split; [apply D|]. split; [apply D|]. apply HT; [apply Rmax_r|exact Hi]. }
      assert (Bound : forall p : C, (Rabs (fst p) <= Cmod p /\ Rabs (snd p) <= Cmod p)%R).
      { intros p. pose proof (Rmax_Cmod p). split; (eapply Rle_trans; [|eassumption]); [apply Rmax_l|apply Rmax_r]. }
      split.
      - destruct (Req_dec (snd (equilibrium i)) 0) as [E|E]; [exact E|exfalso].
        destruct (Near (Rabs (snd (equilibrium i))) (Rabs_pos_lt _ E)) as [p [H1 [_ H3]]].
        destruct (Bound (p - equilibrium i)) as [_ B]. change (snd (p - equilibrium i)) with (snd p + - snd (equilibrium i))%R in B. rewrite H1 in B. rewrite Rplus_0_l, Rabs_Ropp in B. lra.
      - destruct (Rle_dec 0 (fst (equilibrium i))) as [E|E]; [exact E|exfalso].
        destruct (Near (- fst (equilibrium i))%R ltac:(lra)) as [p [_ [H2 H3]]].
        destruct (Bound (p - equilibrium i)) as [B _]. change (fst (p - equilibrium i)) with (fst p + - fst (equilibrium i))%R in B. pose proof (Rle_abs (fst p + - fst (equilibrium i))). lra. }
    split; [split; [exact P|exact equilibrium_total]|].
    intros i Hi. destruct (P i Hi) as [_ [Hp|Hp]]; [exact Hp|exfalso].
    destruct (rates_generator n m M A' Hsq Hr HM) as [_ [Hre [G [HA _]]]].
    assert (Z : forall j, (j < n)%nat -> fst (equilibrium j) = 0%R).
    { apply (kernel_positive n mm G (op_entry m) HA Hcon (fun j => fst (equilibrium j))) with (i := i); auto.
      - intros k Hk. pose proof (equilibrium_kernel k Hk) as E. apply (f_equal fst) in E. unfold applied in E. rewrite fst_csum in E.
        cbn [fst RtoC] in E. rewrite <- E. apply rsum_ext. intros j Hj. rewrite (Hre k j Hk Hj) at 2. cbn. ring.
      - intros k Hk. apply P. exact Hk. }
    pose proof equilibrium_total as T. apply (f_equal fst) in T. rewrite fst_csum in T.
    rewrite (rsum_ext _ (fun _ => 0%R) n Z), rsum_const0 in T. cbn in T. lra.
  Qed.
  Lemma equilibrium_unique q : csum q n = 1 -> (forall i, (i < n)%nat -> applied n (op_entry M) q i = 0) ->
    forall i, (i < n)%nat -> q i = equilibrium i.
  Proof using Hsq Hr HM Heq Hinv Hcon Hz Hzero.
    intros Hs Hk i Hi.
    assert (E : q i - equilibrium i = 0).
    { apply (kernel_trivial (fun i => q i - equilibrium i)); [| |exact Hi].
      - intros j Hj. unfold applied.
        rewrite (csum_ext _ (fun k => op_entry M j k * q k - op_entry M j k * equilibrium k)) by (intros; ring).
        rewrite csum_minus. fold (applied n (op_entry M) q j). fold (applied n (op_entry M) equilibrium j).
        rewrite Hk, equilibrium_kernel by assumption. ring.
      - rewrite csum_minus, Hs, equilibrium_total. ring. }
    replace (q i) with (q i - equilibrium i + equilibrium i) by ring. rewrite E. ring.
  Qed.
End Simulation.

(** scipy.linalg.solve exists. *)
Definition the_solve : solve_fn := fun n A b =>
  let x := proj1_sig (kernel_exists n (S n) (fun i j => if Nat.ltb j n then A i j else b i) (Nat.lt_succ_diag_r n)) in
  if C_eq_dec (x n) 0 then None else Some (fun j => - x j / x n).
Lemma solve_exists : exists solve, solve_ok solve.
Proof.
  exists the_solve. intros n A b [W [_ HW]]. unfold the_solve.
  destruct (kernel_exists n (S n) _ _) as [x [[j0 [Hj0 Hx0]] Hx]]. cbn [proj1_sig].
  assert (E : forall i, (i < n)%nat -> csum (fun j => A i j * x j) n = - (b i * x n)).
  { intros i Hi. specialize (Hx i Hi). cbn [csum] in Hx. rewrite Nat.ltb_irrefl in Hx.
    rewrite (csum_ext _ (fun j => A i j * x j)) in Hx. 2:{ intros j Hj. rewrite (proj2 (Nat.ltb_lt j n) Hj). reflexivity. }
    replace (csum (fun j => A i j * x j) n) with (csum (fun j => A i j * x j) n + b i * x n - b i * x n) by ring. rewrite Hx. ring. }
  destruct (C_eq_dec (x n) 0) as [Ez|Nz].
  - exfalso. destruct (Nat.eq_dec j0 n) as [->|Hne]; [apply Hx0; exact Ez|].
    apply Hx0. assert (Hj : (j0 < n)%nat) by lia.
    transitivity (csum (fun j => matmul n W A j0 j * x j) n).
    { rewrite (csum_ext _ (fun j => cdelta j0 j * x j)) by (intros j Hj'; rewrite (HW j0 j Hj Hj'); reflexivity).
      symmetry. apply csum_delta_l. exact Hj. }
    unfold matmul. rewrite (csum_ext _ (fun j => csum (fun k => W j0 k * A k j * x j) n)) by (intros; symmetry; apply csum_scal_r).
    rewrite csum_swap. apply csum_zero_ext. intros k Hk.
    rewrite (csum_ext _ (fun j => W j0 k * (A k j * x j))) by (intros; ring). rewrite csum_scal_l, E, Ez by assumption. ring.
  - eexists. split; [reflexivity|]. intros i Hi. unfold applied.
    rewrite (csum_ext _ (fun j => A i j * x j * (- / x n))) by (intros; unfold Cdiv; ring).
    rewrite csum_scal_r, E by assumption. field. exact Nz.
Qed.
